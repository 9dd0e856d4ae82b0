(** Property theorems: progress of the solver (C88-C90, solver.py 134-189, main.py 69-107). *)
From Coq Require Import String Permutation.
From Verif Require Import Num NumP ListX ListP Frames MatM NetM StackM MeshM ModelM SolverM InterpM ResultM RenderM VtkM PlotM MainM
  Spec SpecNet SpecStack SpecMesh SpecModel SpecSolver SpecInterp SpecRender SpecVtk SpecPerm SpecScale SpecMain SpecProgress
  CheckP MeshCheckP StackP ConstraintP SolverP SolverRunP SolverFinP GaussX GaussP MainP ProgressP HeldP ProgressFinP ProgressMainP
  PropsMat PropsNet PropsStack PropsMesh PropsModel PropsSolver PropsPerm PropsScale PropsRender PropsVtk PropsPlot PropsMain.
Open Scope Q_scope.

(** ** C88: with a direct solver the computation goes on until a column has no void left *)
(** the errors are zero and the error tolerance has no effect *)
Theorem C88_strict : forall lsolve m g p S h, direct_solver lsolve -> sound_data m g p -> numbering (length (sy_dq S)) (sp_perm p) -> starts_held m g (sp_tol p) ->
  solve lsolve m g p = Ok (S, h) -> exists S0, solve lsolve m g (strict p) = Ok (S0, h) /\
    S0 = mkSys (sy_nu S) (sy_P S) (sy_dq S) (sy_perm S) (sy_tol S) 0 (sy_packing S) (sy_Z0 S) /\
    forall s, In s h -> reliable lsolve m g (strict p) S0 s /\ exists q, st_err2 s = Fin q /\ q == 0.
Proof. exact go_strict. Qed.
(** every fiber stays held; the next system has one solution unless a column is compressed, in the last state only *)
Theorem C88_regular : forall lsolve m g p S h, direct_solver lsolve -> sound_data m g p -> numbering (length (sy_dq S)) (sp_perm p) -> starts_held m g (sp_tol p) ->
  solve lsolve m g p = Ok (S, h) -> forall k s, nth_error h k = Some s -> held_at m g S s /\
    (regular S s <-> ~ compressed_at m g S s) /\ (compressed_at m g S s -> Datatypes.S k = length h).
Proof. exact go_regular. Qed.
(** the last state has a reason to be the last *)
Theorem C88_end : forall lsolve m g p S h, direct_solver lsolve -> sound_data m g p -> numbering (length (sy_dq S)) (sp_perm p) -> starts_held m g (sp_tol p) ->
  solve lsolve m g p = Ok (S, h) -> exists s, nth_error h (length h - 1) = Some s /\
    (length h = Datatypes.S (sp_itermax p) \/ nltb (st_rl s) (sp_packing p) = false \/ compressed_at m g S s).
Proof. exact go_end. Qed.
(** each step closes a row for good *)
Theorem C88_steps : forall lsolve m g p S h, direct_solver lsolve -> sound_data m g p -> numbering (length (sy_dq S)) (sp_perm p) -> starts_held m g (sp_tol p) ->
  solve lsolve m g p = Ok (S, h) -> forall cs, constraint m g = Ok cs -> (length h <= Datatypes.S (length (csH cs)))%nat.
Proof. exact go_steps. Qed.
(** the recorded states are admissible, without tolerance *)
Theorem C88_admissible : forall lsolve m g p S h, direct_solver lsolve -> sound_data m g p -> numbering (length (sy_dq S)) (sp_perm p) -> starts_held m g (sp_tol p) ->
  solve lsolve m g p = Ok (S, h) -> forall s, admissible_start m g -> In s h ->
    exists z, st_Z s = Fin z /\ in_slab m g z (vals (st_u S s)) /\ no_overlap m g (vals (st_u S s)).
Proof. exact go_admissible. Qed.
(** forces act on rows met up to the contact tolerance *)
Theorem C88_contacts : forall lsolve m g p S h, direct_solver lsolve -> sound_data m g p -> numbering (length (sy_dq S)) (sp_perm p) -> starts_held m g (sp_tol p) ->
  solve lsolve m g p = Ok (S, h) -> forall cs s, constraint m g = Ok cs -> In s h -> forall r, ~ nth r (vals (st_f S s)) 0 == 0 ->
    exists q, gap_is (csC cs) (st_H S s) (vals (st_u S s)) r q /\ q <= sp_tol p.
Proof. exact go_contacts. Qed.
(** they balance the elastic forces *)
Theorem C88_balance : forall lsolve m g p S h, direct_solver lsolve -> sound_data m g p -> numbering (length (sy_dq S)) (sp_perm p) -> starts_held m g (sp_tol p) ->
  solve lsolve m g p = Ok (S, h) -> forall K cs s, stiffness m g (sp_lmin p) (sp_lmax p) (sp_coupling p) = Ok K -> constraint m g = Ok cs -> In s h ->
    forall i, (i < length (g_rows g))%nat -> product K (vals (st_u S s)) (2 * i) + transpose_product (csC cs) (vals (st_f S s)) (2 * i) == 0.
Proof. exact go_balance. Qed.
(** the packing asked for is reached when it leaves room for any two connected fibers *)
Theorem C88_reaches : forall lsolve m g p S h, direct_solver lsolve -> sound_data m g p -> numbering (length (sy_dq S)) (sp_perm p) -> starts_held m g (sp_tol p) ->
  solve lsolve m g p = Ok (S, h) -> forall cs c, constraint m g = Ok cs -> admissible_start m g -> sp_packing p = Fin c -> 0 <= c -> (length (csH cs) < sp_itermax p)%nat ->
    (forall i j d e hi hj, paired g i j d e -> thick m d hi -> thick m e hj -> c * (hi + hj + 3 * sp_tol p) <= csZ cs) ->
    exists s r, nth_error h (length h - 1) = Some s /\ st_rl s = Fin r /\ c <= r.
Proof. exact go_reaches. Qed.
(** stacks are held *)
Theorem C88_stacked : forall linprog m per t thr st m' g tol, net_new m per None = Ok t -> solved linprog m t -> all_in_plane m ->
  stack_new linprog m t thr = Ok (st, m') -> mesh_new st = Ok g -> 0 <= tol -> wide m thr -> starts_held m' g tol.
Proof. exact stack_held. Qed.

(** ** C89: neither the numbering, nor the solver, nor the units are seen in the results *)
Theorem C89_numbering : forall lsolve lsolve' m g p p' S h S' h', direct_solver lsolve -> direct_solver lsolve' -> sound_data m g p -> starts_held m g (sp_tol p) ->
  same_but_perm p p' -> solve lsolve m g p = Ok (S, h) -> solve lsolve' m g p' = Ok (S', h') ->
  numbering (length (sy_dq S)) (sp_perm p) -> numbering (length (sy_dq S)) (sp_perm p') ->
  Forall2 (record_in no_units S S') h h'.
Proof. exact numbering_calls. Qed.
Theorem C89_units : forall U lsolve lsolve' m m' g g' p p' S h S' h', units_ok U -> mat_in U m m' -> mesh_in U g g' -> params_in U p p' ->
  direct_solver lsolve -> direct_solver lsolve' -> sound_data m g p -> ~ flag_set (g_attrs g') -> tolerances_ok p' -> 3 * sp_errtol p' < 1 ->
  starts_held m g (sp_tol p) -> solve lsolve m g p = Ok (S, h) -> solve lsolve' m' g' p' = Ok (S', h') ->
  numbering (length (sy_dq S)) (sp_perm p) -> numbering (length (sy_dq S)) (sp_perm p') ->
  Forall2 (record_in U S S') h h'.
Proof. exact units_calls. Qed.

(** ** C90: the main script with a direct solver *)
(** the error tolerance has no effect on the outcome *)
Theorem C90_errtol : forall R cos sin linprog rcm lsolve cyl place near, right_linprog linprog -> direct_solver lsolve -> right_numbering rcm ->
  forall o, options_ok o -> bending sin o -> forall ent prior,
  script R cos sin linprog rcm lsolve cyl place near o ent prior = script R cos sin linprog rcm lsolve cyl place near (exacting o) ent prior.
Proof. exact script_exact. Qed.
(** the script goes to its end, whether the solver fails with NaN or with numbers *)
Theorem C90_total : forall R cos sin linprog rcm lsolve cyl place near, right_linprog linprog -> direct_solver lsolve -> right_numbering rcm ->
  forall o, options_ok o -> bending sin o -> forall ent prior, draws_in_range R -> trig_accurate cos sin -> unit_cylinder cyl -> right_tree near ->
  exists out, script R cos sin linprog rcm lsolve cyl place near o ent prior = Ok out.
Proof. exact script_ends. Qed.
(** the last state is admissible ... *)
Theorem C90_admissible : forall R cos sin linprog rcm lsolve cyl place near, right_linprog linprog -> direct_solver lsolve -> right_numbering rcm ->
  forall o, options_ok o -> bending sin o -> forall ent prior out, script R cos sin linprog rcm lsolve cyl place near o ent prior = Ok out ->
  forall K cs S s, solver_run lsolve o out K cs S s ->
  exists z, st_Z s = Fin z /\ in_slab (out_mat out) (out_mesh out) z (vals (st_u S s)) /\ no_overlap (out_mat out) (out_mesh out) (vals (st_u S s)).
Proof. exact run_admissible. Qed.
(** ... as packed as asked for, or with a column without void ... *)
Theorem C90_end : forall R cos sin linprog rcm lsolve cyl place near, right_linprog linprog -> direct_solver lsolve -> right_numbering rcm ->
  forall o, options_ok o -> bending sin o -> forall ent prior out, script R cos sin linprog rcm lsolve cyl place near o ent prior = Ok out ->
  forall K cs S s, solver_run lsolve o out K cs S s -> (length (csH cs) < op_itermax o)%nat ->
  nltb (st_rl s) (op_packing o) = false \/ compressed_at (out_mat out) (out_mesh out) S s.
Proof. exact run_end. Qed.
(** ... as packed as asked for when two thicknesses fit in the final height *)
Theorem C90_reaches : forall R cos sin linprog rcm lsolve cyl place near, right_linprog linprog -> direct_solver lsolve -> right_numbering rcm ->
  forall o, options_ok o -> bending sin o -> forall ent prior out, script R cos sin linprog rcm lsolve cyl place near o ent prior = Ok out ->
  forall K cs S s, solver_run lsolve o out K cs S s -> forall c, (length (csH cs) < op_itermax o)%nat -> op_packing o = Fin c -> 0 <= c ->
  c * (2 * p_thickness (op_mat o) + 3 * op_tol o) <= csZ cs -> exists r, st_rl s = Fin r /\ c <= r.
Proof. exact run_reaches. Qed.
(** the numbering and the solver are not seen in the last state *)
Theorem C90_numbering : forall R cos sin linprog rcm rcm' lsolve lsolve' cyl place near o ent prior out out', right_linprog linprog ->
  direct_solver lsolve -> direct_solver lsolve' -> right_numbering rcm -> right_numbering rcm' -> options_ok o -> bending sin o ->
  script R cos sin linprog rcm lsolve cyl place near o ent prior = Ok out -> script R cos sin linprog rcm' lsolve' cyl place near o ent prior = Ok out' ->
  out_mat out' = out_mat out /\ out_mesh out' = out_mesh out /\
  forall K cs S s K' cs' S' s', solver_run lsolve o out K cs S s -> solver_run lsolve' o out' K' cs' S' s' -> record_in no_units S S' s s'.
Proof. exact script_numbering. Qed.
Print Assumptions C88_reaches.
Print Assumptions C88_stacked.
Print Assumptions C89_units.
Print Assumptions C90_total.
Print Assumptions C90_reaches.
Print Assumptions C90_numbering.

(** ** examples *)
(** two direct solvers, one that fails with NaN and one that fails with numbers *)
Example ex_gauss_direct : direct_solver gauss.
Proof. split; [exact gauss_length|]. split; [exact gauss_exact|]. right. exact gauss_finite. Qed.
Example ex_fin_direct : direct_solver ex_fin.
Proof.
  split; [exact ex_fin_length|]. split; [|left; exact ex_fin_finite]. intros A b Fb HN. pose proof (gauss_exact A b Fb HN) as E.
  assert (F : ex_fin A b = gauss A b); [|rewrite F; exact E]. destruct E as (_ & F & _). unfold ex_fin.
  rewrite <- (map_id (gauss A b)) at 2. apply map_ext_in. intros v Hv. destruct (F v Hv) as (q & ->). reflexivity.
Qed.
(** a stack of four fibers: 1 lies on 0 and 2 on 1, elsewhere 3 lies on 0 *)
Definition ex_pivot0 : qmat :=
  mkQmat [mkQ 4 1 1 0 0 1 1 0 0 (Fin 1) (Fin 1); mkQ 4 1 1 (-1) 1 2 0 1 0 (Fin 1) (Fin 1);
          mkQ 1 1 1 (-1) 2 3 1 0 0 (Fin 1) (Fin 1); mkQ 2 1 1 1 0 4 0 1 0 (Fin 1) (Fin 1)] 50.
Definition ex_pivott : net_df := match net_new ex_pivot0 false None with Ok t => t | Exn _ => mkNetDf [] [] (mkAttrs None None None None) true end.
Definition ex_pivots (thr : option Q) : net_df * qmat := match stack_new ex_greedy ex_pivot0 ex_pivott thr with Ok r => r | Exn _ => (ex_pivott, ex_pivot0) end.
Definition ex_pivot (thr : option Q) : qmat := snd (ex_pivots thr).
Definition ex_pivotg (thr : option Q) : mesh_df := ex_g (fst (ex_pivots thr)).
Definition ex_pp (c : Q) : solve_params := mkSolve (Fin (7 # 5)) 1000 None (1 # 1000000) (1 # 1000000) (Some (1 # 100)) None c.
Example ex_pivot_net : net_new ex_pivot0 false None = Ok ex_pivott.
Proof. vm_compute. reflexivity. Qed.
Example ex_pivot_stack thr : thr = None \/ thr = Some (1 # 2) -> stack_new ex_greedy ex_pivot0 ex_pivott thr = Ok (fst (ex_pivots thr), ex_pivot thr) /\ mesh_new (fst (ex_pivots thr)) = Ok (ex_pivotg thr).
Proof. intros [->| ->]; split; vm_compute; reflexivity. Qed.
Example ex_pivot_heights : map (fun f => Qred (qz f)) (q_rows (ex_pivot None)) = [1 # 2; 3 # 2; 5 # 2; 3 # 2].
Proof. vm_compute. reflexivity. Qed.
Example ex_pivot_flat : all_in_plane ex_pivot0.
Proof. intros f Hf. simpl in Hf. intuition subst; reflexivity. Qed.
Example ex_pivot_solved : solved ex_greedy ex_pivot0 ex_pivott.
Proof. apply (ex_greedy_right _ _ _ ex_pivot_net). Qed.
Example ex_pivot_thick thr : thr = None \/ thr = Some (1 # 2) -> forall f, In f (q_rows (ex_pivot thr)) -> qh f = 1 /\ exists G, qG f = Fin G.
Proof. intros [->| ->] f Hf; vm_compute in Hf; intuition subst; repeat eexists. Qed.
Example ex_pivot_total lsolve thr p : thr = None \/ thr = Some (1 # 2) -> exists S h, solve lsolve (ex_pivot thr) (ex_pivotg thr) p = Ok (S, h).
Proof.
  intros H. destruct (ex_pivot_stack thr H) as [T M]. destruct (made_facts ex_greedy ex_greedy_right _ _ _ _ _ _ _ ex_pivot_net T M) as (V & MO & SP & _ & AN & _).
  destruct (span_elem _ MO _ V SP) as (i & j & d & e & B & _); [destruct H as [->| ->]; vm_compute; discriminate|].
  apply C36_total; auto. exists i, j, d, e. exact B.
Qed.
Example ex_pivot_lengths thr c : thr = None \/ thr = Some (1 # 2) -> lengths_ok (ex_pivotg thr) (sp_lmin (ex_pp c)) (sp_lmax (ex_pp c)).
Proof.
  intros H. split; [cbn; lra|]. destruct (ex_pivot_stack thr H) as [T M]. destruct (made_facts ex_greedy ex_greedy_right _ _ _ _ _ _ _ ex_pivot_net T M) as (V & MO & SP & _).
  apply (span_elem _ MO _ V SP). destruct H as [->| ->]; vm_compute; discriminate.
Qed.
Example ex_pivot_held : starts_held (ex_pivot None) (ex_pivotg None) (1 # 1000000).
Proof.
  destruct (ex_pivot_stack None (or_introl eq_refl)) as [T M].
  apply (C88_stacked ex_greedy ex_pivot0 false ex_pivott None (fst (ex_pivots None)) _ _ _ ex_pivot_net ex_pivot_solved ex_pivot_flat T M); [lra|exact I].
Qed.
Example ex_pivot_noflag thr : thr = None \/ thr = Some (1 # 2) -> ~ flag_set (g_attrs (ex_pivotg thr)).
Proof. intros [->| ->]; vm_compute; discriminate. Qed.
Example ex_pivot_sound c : c * c < 1 -> sound_data (ex_pivot None) (ex_pivotg None) (ex_pp c).
Proof.
  intros Hc. split; [apply ex_pivot_noflag; auto|]. split; [split; cbn; lra|]. split; [cbn; lra|]. split; [exact Hc|].
  split; [apply ex_pivot_lengths; auto|]. intros f Hf. apply (ex_pivot_thick None (or_introl eq_refl) f Hf).
Qed.
Example ex_pivot_cs thr : thr = None \/ thr = Some (1 # 2) -> constraint (ex_pivot thr) (ex_pivotg thr) = Ok (ex_cs (ex_pivot thr) (ex_pivotg thr)).
Proof. intros [->| ->]; vm_compute; reflexivity. Qed.
Example ex_pivot_top thr : thr = None \/ thr = Some (1 # 2) -> csZ (ex_cs (ex_pivot thr) (ex_pivotg thr)) == 3.
Proof. intros [->| ->]; vm_compute; reflexivity. Qed.
(** ratio 1.4: two of the three levels are left *)
Example ex_pivot_reaches lsolve c : direct_solver lsolve -> c * c < 1 -> exists S h s r, solve lsolve (ex_pivot None) (ex_pivotg None) (ex_pp c) = Ok (S, h) /\
  nth_error h (length h - 1) = Some s /\ st_rl s = Fin r /\ 7 # 5 <= r.
Proof.
  intros D Hc. pose proof (or_introl eq_refl : (None : option Q) = None \/ None = Some (1 # 2)) as H0. destruct (ex_pivot_total lsolve None (ex_pp c) H0) as (S & h & E).
  destruct (ex_pivot_stack None H0) as [T M].
  destruct (C88_reaches lsolve _ _ _ S h D (ex_pivot_sound c Hc) I ex_pivot_held E _ (7 # 5) (ex_pivot_cs None H0)
    (stack_admissible _ _ _ _ _ _ _ _ _ ex_pivot_net ex_pivot_solved ex_pivot_flat T M (ex_pivot_cs None H0)) eq_refl ltac:(lra)) as (s & r & A & B & C).
  - apply Nat.ltb_lt. vm_compute. reflexivity.
  - intros i j d e hi hj _ (f & (_ & F1) & F2) (f' & (_ & F1') & F2'). apply nth_error_In in F1, F1'. destruct (ex_pivot_thick None H0 f F1) as [F3 _]. destruct (ex_pivot_thick None H0 f' F1') as [F3' _].
    rewrite (ex_pivot_top None H0). rewrite <- F2, <- F2', F3, F3'. cbn [ex_pp sp_tol]. lra.
  - exists S, h, s, r. auto.
Qed.
Lemma ex_lid lsolve m g p S h cs s : solve lsolve m g p = Ok (S, h) -> constraint m g = Ok cs -> nth_error h 0 = Some s -> qof (st_Z s) = csZ cs.
Proof.
  intros E Hcs Hs. destruct (solve_inv _ _ _ _ _ _ E) as (K & cs' & _ & Hcs' & _ & Eh). assert (cs' = cs) by congruence. subst cs'.
  rewrite Eh in Hs. unfold history in Hs. cbn [nth_error] in Hs. injection Hs as <-. reflexivity.
Qed.
Lemma ex_size lsolve m g p S h cs : solve lsolve m g p = Ok (S, h) -> constraint m g = Ok cs -> length (sy_dq S) = (2 * length (g_rows g) + length (csdH cs))%nat.
Proof.
  intros E Hcs. destruct (solve_inv _ _ _ _ _ _ E) as (K & cs' & _ & Hcs' & ES & _). assert (cs' = cs) by congruence. subst cs'.
  rewrite ES. cbn [sy_dq]. rewrite app_length, repeat_length. reflexivity.
Qed.
(** a state recorded at the start only is neither packed nor compressed *)
Lemma ex_stopped lsolve m g p S h s cs : solve lsolve m g p = Ok (S, h) -> constraint m g = Ok cs -> csZ cs == 3 -> (forall f, In f (q_rows m) -> qh f = 1 /\ exists G, qG f = Fin G) ->
  sp_tol p = 1 # 1000000 -> sp_packing p = Fin (7 # 5) -> sp_itermax p <> 0%nat -> Nat.eqb (length (snd (ex_run lsolve m g p))) 1 = true -> nth_error h (length h - 1) = Some s ->
  length h = Datatypes.S (sp_itermax p) \/ nltb (st_rl s) (sp_packing p) = false \/ compressed_at m g S s -> False.
Proof.
  intros E HC HZ HT T1 T2 T3 L Hs C. unfold ex_run in L. rewrite E in L. cbn [snd] in L. apply Nat.eqb_eq in L. rewrite L in Hs, C. cbn [Nat.sub] in Hs.
  destruct (C36_history _ _ _ _ S h E) as (_ & (s0 & Hs0 & _ & _ & _ & Er) & _). assert (s0 = s) by congruence. subst s0.
  destruct C as [C|[C|C]].
  - lia.
  - rewrite Er, T2 in C. vm_compute in C. discriminate C.
  - assert (TS : sy_tol S = 1 # 1000000) by (rewrite <- T1; destruct (solve_inv _ _ _ _ _ _ E) as (K & cs' & _ & _ & -> & _); reflexivity).
    destruct (compressed_thin _ _ _ S s HC ltac:(rewrite TS; lra) C) as (i & j & d & e & hi & hj & _ & (f & (_ & F1) & F2) & (f' & (_ & F1') & F2') & LZ).
    apply nth_error_In in F1, F1'. destruct (HT f F1) as [F3 _]. destruct (HT f' F1') as [F3' _].
    rewrite (ex_lid _ _ _ _ _ _ _ _ E HC Hs), HZ, TS in LZ. rewrite <- F2, <- F2', F3, F3' in LZ. lra.
Qed.
(** any direct solver, any numbering: the same states *)
Example ex_pivot_same lsolve l : direct_solver lsolve -> Permutation l (seq 0 61) -> exists S h S' h', solve gauss (ex_pivot None) (ex_pivotg None) (ex_pp (99 # 100)) = Ok (S, h) /\
  solve lsolve (ex_pivot None) (ex_pivotg None) (mkSolve (Fin (7 # 5)) 1000 (Some l) (1 # 1000000) (1 # 1000000) (Some (1 # 100)) None (99 # 100)) = Ok (S', h') /\
  Forall2 (record_in no_units S S') h h'.
Proof.
  intros D HP. pose proof (or_introl eq_refl : (None : option Q) = None \/ None = Some (1 # 2)) as H0. destruct (ex_pivot_total gauss None (ex_pp (99 # 100)) H0) as (S & h & E).
  pose proof (ex_pivot_total lsolve None (mkSolve (Fin (7 # 5)) 1000 (Some l) (1 # 1000000) (1 # 1000000) (Some (1 # 100)) None (99 # 100)) H0) as E'.
  destruct E' as (S' & h' & E'). exists S, h, S', h'. split; [exact E|]. split; [exact E'|].
  assert (L : length (sy_dq S) = 61%nat).
  { rewrite (ex_size _ _ _ _ _ _ _ E (ex_pivot_cs None H0)). vm_compute. reflexivity. }
  apply (C89_numbering gauss lsolve (ex_pivot None) (ex_pivotg None) _ _ S h S' h' ex_gauss_direct D (ex_pivot_sound (99 # 100) ltac:(lra)) ex_pivot_held eq_refl E E' I).
  rewrite L. exact HP.
Qed.

(** ... and in millimetres and GPa, with the tolerance in millimetres *)
Definition ex_pmm : solve_params := mkSolve (Fin (7 # 5)) 1000 None (1 # 1000) 0 (Some 10) None (99 # 100).
Example ex_pivot_mm_total lsolve p : exists S h, solve lsolve (ex_mat_in ex_mm (ex_pivot None)) (ex_mesh_in ex_mm (ex_pivotg None)) p = Ok (S, h).
Proof.
  apply C36_total.
  - assert (C : mat_check (df_of (ex_mat_in ex_mm (ex_pivot None))) = Ok true) by (vm_compute; reflexivity).
    destruct (proj1 (mat_check_ok _) C) as [F|F]; [discriminate F|exact F].
  - assert (C : mesh_check (ex_mesh_in ex_mm (ex_pivotg None)) = Ok true) by (vm_compute; reflexivity).
    assert (F : at_skip (g_attrs (ex_mesh_in ex_mm (ex_pivotg None))) = None) by (vm_compute; reflexivity).
    destruct (proj1 (mesh_check_ok _) C) as [G|G]; [unfold flag_set in G; congruence|exact G].
  - vm_compute. reflexivity.
  - exists 0%nat, 1%nat. eexists; eexists; (split; [eexists; vm_compute; reflexivity|split; [eexists; vm_compute; reflexivity|]]); vm_compute; auto.
Qed.
Example ex_pivot_units : exists S h S' h', solve gauss (ex_pivot None) (ex_pivotg None) (ex_pp (99 # 100)) = Ok (S, h) /\
  solve ex_fin (ex_mat_in ex_mm (ex_pivot None)) (ex_mesh_in ex_mm (ex_pivotg None)) ex_pmm = Ok (S', h') /\ Forall2 (record_in ex_mm S S') h h'.
Proof.
  pose proof (or_introl eq_refl : (None : option Q) = None \/ None = Some (1 # 2)) as H0. destruct (ex_pivot_total gauss None (ex_pp (99 # 100)) H0) as (S & h & E).
  destruct (ex_pivot_mm_total ex_fin ex_pmm) as (S' & h' & E'). exists S, h, S', h'. split; [exact E|]. split; [exact E'|].
  apply (C89_units ex_mm gauss ex_fin (ex_pivot None) (ex_mat_in ex_mm (ex_pivot None)) (ex_pivotg None) (ex_mesh_in ex_mm (ex_pivotg None)) (ex_pp (99 # 100)) ex_pmm).
  - apply ex_units_ok.
  - apply ex_units_m. intros f Hf. vm_compute in Hf. intuition subst; repeat eexists.
  - apply ex_units_g.
  - repeat split.
  - exact ex_gauss_direct.
  - exact ex_fin_direct.
  - apply ex_pivot_sound. lra.
  - exact (ex_pivot_noflag None H0).
  - split; cbn; lra.
  - cbn. lra.
  - exact ex_pivot_held.
  - exact E.
  - exact E'.
  - exact I.
  - exact I.
Qed.

(** ** where the hypotheses are needed *)
(** with the default coupling of [solve], 1, fibers turn freely: fiber 3 rests on one fiber and the
    computation stops at once, with voids everywhere *)
Example ex_pivot_one : Nat.eqb (length (snd (ex_run gauss (ex_pivot None) (ex_pivotg None) (ex_pp 1)))) 1 = true.
Proof. vm_compute. reflexivity. Qed.
Theorem C88_coupling_refuted : ~ (forall lsolve m g p S h, direct_solver lsolve -> ~ flag_set (g_attrs g) -> tolerances_ok p -> 3 * sp_errtol p < 1 ->
  sp_coupling p * sp_coupling p <= 1 -> lengths_ok g (sp_lmin p) (sp_lmax p) -> finite_shear m ->
  numbering (length (sy_dq S)) (sp_perm p) -> starts_held m g (sp_tol p) ->
  solve lsolve m g p = Ok (S, h) -> exists s, nth_error h (length h - 1) = Some s /\
    (length h = Datatypes.S (sp_itermax p) \/ nltb (st_rl s) (sp_packing p) = false \/ compressed_at m g S s)).
Proof.
  intros H. pose proof (or_introl eq_refl : (None : option Q) = None \/ None = Some (1 # 2)) as H0. destruct (ex_pivot_total gauss None (ex_pp 1) H0) as (S & h & E).
  destruct (H gauss (ex_pivot None) (ex_pivotg None) (ex_pp 1) S h ex_gauss_direct (ex_pivot_noflag None H0)) as (s & Hs & C).
  - split; cbn; lra.
  - cbn. lra.
  - cbn. lra.
  - apply ex_pivot_lengths; auto.
  - intros f Hf. apply (ex_pivot_thick None H0 f Hf).
  - exact I.
  - exact ex_pivot_held.
  - exact E.
  - exact (ex_stopped _ _ _ _ S h s _ E (ex_pivot_cs None H0) (ex_pivot_top None H0) (ex_pivot_thick None H0) eq_refl eq_refl (Nat.neq_succ_0 _) ex_pivot_one Hs C).
Qed.
Print Assumptions C88_coupling_refuted.
(** a threshold smaller than the thickness removes the contacts: the fibers in the middle are not held *)
Example ex_pivot_cut : Nat.eqb (length (snd (ex_run gauss (ex_pivot (Some (1 # 2))) (ex_pivotg (Some (1 # 2))) (ex_pp (99 # 100))))) 1 = true.
Proof. vm_compute. reflexivity. Qed.
Theorem C88_threshold_refuted : ~ (forall lsolve linprog m0 per t thr st m g p S h, net_new m0 per None = Ok t -> solved linprog m0 t -> all_in_plane m0 ->
  stack_new linprog m0 t thr = Ok (st, m) -> mesh_new st = Ok g -> direct_solver lsolve -> sound_data m g p -> numbering (length (sy_dq S)) (sp_perm p) ->
  solve lsolve m g p = Ok (S, h) -> exists s, nth_error h (length h - 1) = Some s /\
    (length h = Datatypes.S (sp_itermax p) \/ nltb (st_rl s) (sp_packing p) = false \/ compressed_at m g S s)).
Proof.
  intros H. pose proof (or_intror eq_refl : Some (1 # 2) = None \/ Some (1 # 2) = Some (1 # 2)) as H0. destruct (ex_pivot_total gauss _ (ex_pp (99 # 100)) H0) as (S & h & E).
  destruct (ex_pivot_stack _ H0) as [T M].
  destruct (H gauss ex_greedy ex_pivot0 false ex_pivott _ _ _ _ (ex_pp (99 # 100)) S h ex_pivot_net ex_pivot_solved ex_pivot_flat T M ex_gauss_direct) as (s & Hs & C).
  - split; [apply ex_pivot_noflag; auto|]. split; [split; cbn; lra|]. split; [cbn; lra|]. split; [cbn; lra|].
    split; [apply ex_pivot_lengths; auto|]. intros f Hf. apply (ex_pivot_thick _ H0 f Hf).
  - exact I.
  - exact E.
  - exact (ex_stopped _ _ _ _ S h s _ E (ex_pivot_cs _ H0) (ex_pivot_top _ H0) (ex_pivot_thick _ H0) eq_refl eq_refl (Nat.neq_succ_0 _) ex_pivot_cut Hs C).
Qed.
Print Assumptions C88_threshold_refuted.

(** *** the main script, with the options of main.py *)
Example ex_main_bending n errtol : 0 <= errtol -> 3 * errtol < 1 -> bending ex_sin (ex_options n (Some 100%nat) errtol).
Proof.
  intros He E3. split; [split; [exists (1 # 100); split; [reflexivity|lra]|intros l H; discriminate H]|]. split; [cbn; lra|]. split; [exact E3|]. split; [reflexivity|].
  split; [exact ex_sin_flat|]. split; [exists 1; reflexivity|]. intros d H. injection H as <-. cbn. lra.
Qed.
(** whatever the number of fibers, with a solver that fails with NaN and the error tolerance of main.py *)
Example ex_main_run n ent prior : (1 <= n)%Z -> let o := ex_options n (Some 100%nat) (1 # 1000000) in exists out K cs S s,
  script ex_rng ex_cos ex_sin ex_greedy ex_rcm gauss ex_cyl ex_place ex_near o ent prior = Ok out /\ solver_run gauss o out K cs S s /\
  ((length (csH cs) < 1000)%nat -> nltb (st_rl s) (Fin 4) = false \/ compressed_at (out_mat out) (out_mesh out) S s).
Proof.
  intros Hn o. destruct (ex_options_ok n (1 # 1000000) Hn ltac:(lra)) as (A & B & _). pose proof (ex_main_bending n (1 # 1000000) ltac:(lra) ltac:(lra)) as BO.
  destruct (C90_total ex_rng ex_cos ex_sin ex_greedy ex_rcm gauss ex_cyl ex_place ex_near ex_greedy_right ex_gauss_direct ex_rcm_right o A BO ent prior ex_draws ex_trig ex_cyl_unit ex_near_right) as (out & RUN).
  destruct (script_inv _ _ _ _ _ _ _ _ _ _ _ _ _ RUN) as (md & s1 & K0 & cs & S & h & dd & rr & ff & tt & _ & _ & _ & _ & W). cbv zeta in W. destruct W as (_ & Hcs & _ & _ & HS & ER & _).
  destruct (solve_inv _ _ _ _ _ _ HS) as (K & cs' & HK & _ & _ & Eh). destruct (last_ex h) as (s & Hs); [rewrite Eh; discriminate|].
  assert (SR : solver_run gauss o out K cs S s) by (split; [exact HK|split; [exact Hcs|exists h; auto]]).
  exists out, K, cs, S, s. split; [exact RUN|]. split; [exact SR|]. intros L.
  exact (C90_end ex_rng ex_cos ex_sin ex_greedy ex_rcm gauss ex_cyl ex_place ex_near ex_greedy_right ex_gauss_direct ex_rcm_right o A BO ent prior out RUN K cs S s SR L).
Qed.
