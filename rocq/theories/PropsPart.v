(** Property theorems: a part of a mesh that touches nothing else is compressed as if it were alone (C107). *)
From Coq Require Import Lia Lqa.
From Verif Require Import Num NumP ListX Frames MatM NetM StackM MeshM ModelM SolverM Spec SpecNet SpecStack SpecMesh SpecModel SpecSolver SpecPerm SpecScale SpecMain SpecProgress SpecRename SpecPart
  PartP PartX RenameX ConstraintP SolverFinP VtkP ProgressMainP MainP PropsStack PropsMesh PropsModel PropsSolver PropsMain PropsProgress PropsRename GaussX.
Open Scope Q_scope.

(** ** C107 *)
(** as long as the systems have one solution, what is recorded for the nodes and the contacts of the part is what is
    recorded when it is compressed alone, at the same height of the lid: between two recorded states, on the line
    between them; nothing before the lid comes to the part *)
Theorem C107_records : forall rho lsolve lsolve' m m' g g' p p' S h S' h', mesh_within rho m m' g g' -> same_model g g' p p' -> faces_lid m g ->
  exact_solver lsolve -> exact_solver lsolve' -> right_length lsolve -> right_length lsolve' -> tolerances_ok p -> tolerances_ok p' ->
  ~ flag_set (g_attrs g) -> ~ flag_set (g_attrs g') ->
  solve lsolve m g p = Ok (S, h) -> solve lsolve' m' g' p' = Ok (S', h') ->
  numbering (length (sy_dq S)) (sp_perm p) -> numbering (length (sy_dq S')) (sp_perm p') ->
  (forall k s, nth_error h k = Some s -> (Datatypes.S k < length h)%nat -> regular S s) ->
  (forall k s, nth_error h' k = Some s -> (Datatypes.S k < length h')%nat -> regular S' s) ->
  forall s, In s h' -> not_below h s -> part_follows rho g g' S S' h s.
Proof. exact part_records. Qed.
(** ... always, with direct solvers, when the fibers are held *)
Theorem C107_calls : forall rho lsolve lsolve' m m' g g' p p' S h S' h', mesh_within rho m m' g g' -> same_model g g' p p' -> faces_lid m g ->
  direct_solver lsolve -> direct_solver lsolve' -> sound_data m g p -> sound_data m' g' p' -> starts_held m g (sp_tol p) -> starts_held m' g' (sp_tol p') ->
  solve lsolve m g p = Ok (S, h) -> solve lsolve' m' g' p' = Ok (S', h') ->
  numbering (length (sy_dq S)) (sp_perm p) -> numbering (length (sy_dq S')) (sp_perm p') ->
  forall s, In s h' -> not_below h s -> part_follows rho g g' S S' h s.
Proof. exact part_direct. Qed.
(** ... to the end, when the part alone is compressed until a column has no void left: the whole does not go further *)
Theorem C107_ends : forall rho lsolve lsolve' m m' g g' p p' S h S' h', mesh_within rho m m' g g' -> same_model g g' p p' -> faces_lid m g ->
  direct_solver lsolve -> direct_solver lsolve' -> sound_data m g p -> sound_data m' g' p' -> starts_held m g (sp_tol p) -> starts_held m' g' (sp_tol p') ->
  solve lsolve m g p = Ok (S, h) -> solve lsolve' m' g' p' = Ok (S', h') ->
  numbering (length (sy_dq S)) (sp_perm p) -> numbering (length (sy_dq S')) (sp_perm p') ->
  (forall j t, nth_error h j = Some t -> length h = Datatypes.S j -> compressed_at m g S t) ->
  forall s, In s h' -> part_follows rho g g' S S' h s.
Proof. exact part_to_end. Qed.
(** the highest top faces the lid in the meshes of the stacks *)
Theorem C107_faces : forall linprog m per t thr st m' g cs, net_new m per None = Ok t -> solved linprog m t -> all_in_plane m ->
  stack_new linprog m t thr = Ok (st, m') -> mesh_new st = Ok g -> constraint m' g = Ok cs -> faces_lid m' g.
Proof. exact faces_stacked. Qed.
Print Assumptions C107_records.
Print Assumptions C107_calls.
Print Assumptions C107_ends.
Print Assumptions C107_faces.

(** ** example: the four stacked fibers of [ex_pivot0], and two thicker ones crossed elsewhere, that the lid meets first *)
Definition ex_both0 : qmat :=
  mkQmat [mkQ 2 1 2 10 10 1 1 0 0 (Fin 1) (Fin 1); mkQ 2 1 2 10 10 5 0 1 0 (Fin 1) (Fin 1);
          mkQ 4 1 1 0 0 1 1 0 0 (Fin 1) (Fin 1); mkQ 4 1 1 (-1) 1 2 0 1 0 (Fin 1) (Fin 1);
          mkQ 1 1 1 (-1) 2 3 1 0 0 (Fin 1) (Fin 1); mkQ 2 1 1 1 0 4 0 1 0 (Fin 1) (Fin 1)] 50.
Definition ex_botht : net_df := match net_new ex_both0 false None with Ok t => t | Exn _ => mkNetDf [] [] (mkAttrs None None None None) true end.
Definition ex_boths : net_df * qmat := match stack_new ex_greedy ex_both0 ex_botht None with Ok r => r | Exn _ => (ex_botht, ex_both0) end.
Definition ex_both : qmat := snd ex_boths.
Definition ex_bothg : mesh_df := ex_g (fst ex_boths).
(** no tolerance on the contacts; up to the packing 1.4 for the part, and 2 for the whole *)
Definition ex_pt (r c : Q) : solve_params := mkSolve (Fin r) 1000 None 0 (1 # 1000000) (Some (1 # 100)) None c.
Example ex_both_net : net_new ex_both0 false None = Ok ex_botht.
Proof. vm_compute. reflexivity. Qed.
Example ex_both_stack : stack_new ex_greedy ex_both0 ex_botht None = Ok (fst ex_boths, ex_both) /\ mesh_new (fst ex_boths) = Ok ex_bothg.
Proof. split; vm_compute; reflexivity. Qed.
Example ex_both_tops : map (fun f => Qred (qz f + qh f / 2)) (q_rows ex_both) = [2; 4; 1; 2; 3; 2].
Proof. vm_compute. reflexivity. Qed.
Example ex_both_within : mesh_within (fun i => i + 6)%nat (ex_pivot None) ex_both (ex_pivotg None) ex_bothg.
Proof.
  apply within_tested; [|vm_compute; reflexivity]. intros i j (d & Hd & E & L). destruct ex_both_stack as [T M].
  destruct (stack_ready ex_greedy _ _ _ _ _ _ _ ex_both_net (ex_greedy_right _ _ _ ex_both_net) T M) as (_ & (_ & n & _ & _ & _ & _ & _ & _ & _ & _ & _ & CI & _) & _).
  destruct (CI i d Hd) as (c & e & E1 & (l & He) & _). assert (c = j) by lia. subst c. apply nth_error_Some. congruence.
Qed.
Example ex_both_span : same_span (ex_pivotg None) ex_bothg.
Proof. apply span_tested. vm_compute. reflexivity. Qed.
Example ex_both_flat : all_in_plane ex_both0.
Proof. intros f Hf. simpl in Hf. intuition subst; reflexivity. Qed.
Example ex_both_held : starts_held ex_both ex_bothg 0.
Proof.
  destruct ex_both_stack as [T M].
  apply (C88_stacked ex_greedy ex_both0 false ex_botht None (fst ex_boths) _ _ _ ex_both_net (ex_greedy_right _ _ _ ex_both_net) ex_both_flat T M); [lra|exact I].
Qed.
Example ex_part_held : starts_held (ex_pivot None) (ex_pivotg None) 0.
Proof.
  destruct (ex_pivot_stack None (or_introl eq_refl)) as [T M].
  apply (C88_stacked ex_greedy ex_pivot0 false ex_pivott None (fst (ex_pivots None)) _ _ _ ex_pivot_net ex_pivot_solved ex_pivot_flat T M); [lra|exact I].
Qed.
Example ex_part_faces : faces_lid (ex_pivot None) (ex_pivotg None).
Proof.
  destruct (ex_pivot_stack None (or_introl eq_refl)) as [T M].
  apply (C107_faces ex_greedy _ _ _ _ _ _ _ _ ex_pivot_net ex_pivot_solved ex_pivot_flat T M (ex_pivot_cs None (or_introl eq_refl))).
Qed.
Example ex_both_sound r c : c * c < 1 -> sound_data ex_both ex_bothg (ex_pt r c).
Proof.
  intros Hc. split; [vm_compute; discriminate|]. split; [split; cbn; lra|]. split; [cbn; lra|]. split; [exact Hc|]. split.
  - split; [cbn; lra|]. destruct ex_both_stack as [T M]. destruct (made_facts ex_greedy ex_greedy_right _ _ _ _ _ _ _ ex_both_net T M) as (V & MO & SP & _).
    apply (span_elem _ MO _ V SP). vm_compute. discriminate.
  - intros f Hf. vm_compute in Hf. intuition subst; repeat eexists.
Qed.
Example ex_part_sound r c : c * c < 1 -> sound_data (ex_pivot None) (ex_pivotg None) (ex_pt r c).
Proof.
  intros Hc. split; [apply ex_pivot_noflag; auto|]. split; [split; cbn; lra|]. split; [cbn; lra|]. split; [exact Hc|].
  split; [apply (ex_pivot_lengths None c); auto|]. intros f Hf. apply (ex_pivot_thick None (or_introl eq_refl) f Hf).
Qed.
Example ex_both_total lsolve p : exists S h, solve lsolve ex_both ex_bothg p = Ok (S, h).
Proof.
  destruct ex_both_stack as [T M]. destruct (made_facts ex_greedy ex_greedy_right _ _ _ _ _ _ _ ex_both_net T M) as (V & MO & SP & _ & AN & _).
  destruct (span_elem _ MO _ V SP) as (i & j & d & e & B & _); [vm_compute; discriminate|].
  apply C36_total; auto. exists i, j, d, e. exact B.
Qed.
(** the node 9 of the whole is the node 3 of the part: it is not displaced before the lid is at 3, then as in the part alone *)
Example ex_both_part lsolve r r' c : direct_solver lsolve -> c * c < 1 -> exists S h S' h', solve lsolve (ex_pivot None) (ex_pivotg None) (ex_pt r c) = Ok (S, h) /\
  solve lsolve ex_both ex_bothg (ex_pt r' c) = Ok (S', h') /\ forall s, In s h' -> not_below h s ->
    nth 18 (vals (st_u S' s)) 0 == 0 \/ exists k t t', nth_error h k = Some t /\ nth_error h (Datatypes.S k) = Some t' /\
      on_line (qof (st_Z t)) (qof (st_Z t')) (qof (st_Z s)) (nth 18 (vals (st_u S' s)) 0) (nth 6 (vals (st_u S t)) 0) (nth 6 (vals (st_u S t')) 0).
Proof.
  intros D Hc. destruct (ex_pivot_total lsolve None (ex_pt r c) (or_introl eq_refl)) as (S & h & E). destruct (ex_both_total lsolve (ex_pt r' c)) as (S' & h' & E').
  exists S, h, S', h'. split; [exact E|]. split; [exact E'|]. intros s Hs NB.
  assert (SM : same_model (ex_pivotg None) ex_bothg (ex_pt r c) (ex_pt r' c)).
  { unfold same_model, ex_pt. cbn [sp_lmin sp_lmax sp_coupling sp_tol]. split; [reflexivity|]. split; [exact I|]. repeat (split; [reflexivity|]). right. exact ex_both_span. }
  assert (L : (3 < length (g_rows (ex_pivotg None)))%nat) by (apply Nat.ltb_lt; vm_compute; reflexivity).
  destruct (C107_calls _ lsolve lsolve _ _ _ _ _ _ S h S' h' ex_both_within SM ex_part_faces D D (ex_part_sound r c Hc) (ex_both_sound r' c Hc) ex_part_held ex_both_held E E' I I s Hs NB)
    as [(_ & A & _)|(k & t & t' & J & J' & _ & _ & _ & A & _)].
  - left. apply (A 3%nat L 0%nat). lia.
  - right. exists k, t, t'. split; [exact J|]. split; [exact J'|]. apply (A 3%nat L 0%nat). lia.
Qed.
(** without a packing to reach, the part alone is compressed until a column has no void left, and the whole never goes below it *)
Definition ex_pu (c : Q) : solve_params := mkSolve PInf 1000 None 0 (1 # 1000000) (Some (1 # 100)) None c.
Lemma ex_thin lsolve m g p S h s : direct_solver lsolve -> sound_data m g p -> numbering (length (sy_dq S)) (sp_perm p) -> starts_held m g (sp_tol p) ->
  solve lsolve m g p = Ok (S, h) -> admissible_start m g -> (exists cs, constraint m g = Ok cs) -> In s h -> exists r, st_rl s = Fin r.
Proof.
  intros D SD N SH E AD (cs & HC) Hs. destruct (C88_admissible lsolve m g p S h D SD N SH E s AD Hs) as (z & Ez & IS & _).
  destruct (C36_history _ _ _ _ S h E) as (_ & (s0 & Hs0 & _ & _ & (Z & EZ & HT) & Er) & NX).
  apply In_nth_error in Hs. destruct Hs as ([|k] & Hk); [exists 1; congruence|].
  destruct (nth_error h k) as [u|] eqn:U; [|apply nth_error_None in U; assert (Datatypes.S k < length h)%nat by (apply nth_error_Some; congruence); lia].
  destruct (NX k u s U Hk) as (_ & s1 & Hs1 & R). assert (s1 = s0) by congruence. subst s1. rewrite R, EZ, Ez. cbn [ndiv].
  destruct HT as (_ & i & d & h0 & Hd & Hh & _). pose proof (IS i d h0 Hd Hh) as B. destruct (thick_ex m g cs HC i d Hd) as (h1 & T1 & P1).
  assert (h1 = h0) by (destruct T1 as (f & (_ & F) & <-); destruct Hh as (f' & (_ & F') & <-); congruence). subst h1.
  destruct (Qeqb z 0) eqn:Q0; [|eexists; reflexivity]. apply Qeqb_eq in Q0. exfalso. qlra.
Qed.
Example ex_part_ends lsolve c r' : direct_solver lsolve -> c * c < 1 -> exists S h S' h', solve lsolve (ex_pivot None) (ex_pivotg None) (ex_pu c) = Ok (S, h) /\
  solve lsolve ex_both ex_bothg (ex_pt r' c) = Ok (S', h') /\ forall s, In s h' -> part_follows (fun i => i + 6)%nat (ex_pivotg None) ex_bothg S S' h s.
Proof.
  intros D Hc. pose proof (or_introl eq_refl : (None : option Q) = None \/ None = Some (1 # 2)) as H0.
  destruct (ex_pivot_total lsolve None (ex_pu c) H0) as (S & h & E). destruct (ex_both_total lsolve (ex_pt r' c)) as (S' & h' & E').
  exists S, h, S', h'. split; [exact E|]. split; [exact E'|].
  assert (SM : same_model (ex_pivotg None) ex_bothg (ex_pu c) (ex_pt r' c)).
  { unfold same_model, ex_pt, ex_pu. cbn [sp_lmin sp_lmax sp_coupling sp_tol]. split; [reflexivity|]. split; [exact I|]. repeat (split; [reflexivity|]). right. exact ex_both_span. }
  assert (SD : sound_data (ex_pivot None) (ex_pivotg None) (ex_pu c)) by exact (ex_part_sound 1 c Hc).
  apply (C107_ends _ lsolve lsolve _ _ _ _ _ _ S h S' h' ex_both_within SM ex_part_faces D D SD (ex_both_sound r' c Hc) ex_part_held ex_both_held E E' I I).
  intros j t Hj Lj. destruct (ex_pivot_stack None H0) as [T M].
  pose proof (stack_admissible _ _ _ _ _ _ _ _ _ ex_pivot_net ex_pivot_solved ex_pivot_flat T M (ex_pivot_cs None H0)) as AD.
  destruct (C88_end lsolve _ _ _ S h D SD I ex_part_held E) as (s & Hs & C). replace (length h - 1)%nat with j in Hs by lia. assert (s = t) by congruence. subst s.
  destruct C as [C|[C|C]]; [| |exact C]; exfalso.
  - pose proof (C88_steps lsolve _ _ _ S h D SD I ex_part_held E _ (ex_pivot_cs None H0)) as B.
    assert (B2 : (length (csH (ex_cs (ex_pivot None) (ex_pivotg None))) < 1000)%nat) by (apply Nat.ltb_lt; vm_compute; reflexivity). rewrite C in B. cbn [ex_pu sp_itermax] in B. lia.
  - destruct (ex_thin lsolve _ _ _ S h t D SD I ex_part_held E AD (ex_intro _ _ (ex_pivot_cs None H0)) (nth_error_In _ _ Hj)) as (r & Er). rewrite Er in C. discriminate C.
Qed.

(** the bounds on the lengths are not a matter of one part: a beam elsewhere, shorter than [lmin], changes the rigidity of the others *)
Definition ex_far (short : bool) : qmat :=
  mkQmat ((if short then [mkQ (1 # 1000) 1 1 9 9 1 1 0 0 (Fin 1) (Fin 1)] else []) ++
          [mkQ 1 1 1 0 0 1 1 0 0 (Fin 1) (Fin 1); mkQ 2 1 1 0 5 1 1 0 0 (Fin 1) (Fin 1)]) 50.
Definition ex_farg (short : bool) : mesh_df := ex_g (match net_new (ex_far short) false None with Ok t => t | Exn _ => ex_botht end).
Theorem C107_bounds_refuted : ~ (forall rho m m' g g' lmin lmax c K K', valid m -> valid m' -> mesh_ok g -> mesh_ok g' -> mesh_within rho m m' g g' -> lengths_ok g lmin lmax -> lengths_ok g' lmin lmax ->
  c * c < 1 -> stiffness m g lmin lmax c = Ok K -> stiffness m' g' lmin lmax c = Ok K' ->
  forall i, (i < length (g_rows g))%nat -> neqv (entry K (2 * i) (2 * i)) (entry K' (2 * rho i) (2 * rho i))).
Proof.
  intros H.
  assert (V : forall b, valid (ex_far b)).
  { intros b. assert (C : mat_check (df_of (ex_far b)) = Ok true) by (destruct b; vm_compute; reflexivity).
    destruct (proj1 (CheckP.mat_check_ok _) C) as [F|F]; [destruct b; discriminate F|exact F]. }
  assert (M : forall b, mesh_ok (ex_farg b)).
  { intros b. assert (C : mesh_check (ex_farg b) = Ok true) by (destruct b; vm_compute; reflexivity).
    destruct (proj1 (C26_check_accepts _) C) as [F|F]; [destruct b; vm_compute in F; discriminate F|exact F]. }
  assert (L : forall b, lengths_ok (ex_farg b) (Some (1 # 100)) None).
  { intros b. split; [cbn; lra|]. exists 0%nat, 1%nat, (node_of (ex_farg b) 0), (node_of (ex_farg b) 1).
    split; [apply beam_of; [apply Nat.ltb_lt|apply Nat.ltb_lt|]; destruct b; vm_compute; reflexivity|destruct b; vm_compute; reflexivity]. }
  assert (W : mesh_within (fun i => i + 2)%nat (ex_far false) (ex_far true) (ex_farg false) (ex_farg true)).
  { apply within_tested; [|vm_compute; reflexivity]. intros i j (d & Hd & E & _). destruct (M true) as (_ & n & _ & _ & _ & _ & _ & _ & _ & _ & _ & CI & _).
    destruct (CI i d Hd) as (c & e & E1 & (l & He) & _). assert (c = j) by lia. subst c. apply nth_error_Some. congruence. }
  pose (K := fun b => match stiffness (ex_far b) (ex_farg b) (Some (1 # 100)) None 0 with Ok k => k | Exn _ => [] end).
  assert (EK : forall b, stiffness (ex_far b) (ex_farg b) (Some (1 # 100)) None 0 = Ok (K b)) by (intros [|]; vm_compute; reflexivity).
  pose proof (H _ _ _ _ _ (Some (1 # 100)) None 0 _ _ (V false) (V true) (M false) (M true) W (L false) (L true) ltac:(lra) (EK false) (EK true) 0%nat ltac:(apply Nat.ltb_lt; vm_compute; reflexivity)) as X.
  vm_compute in X. discriminate X.
Qed.
Print Assumptions C107_bounds_refuted.
