(** Property theorems: the notebook, from its settings to the exported mesh (C84, jupyter-notebook.ipynb). *)
From Coq Require Import Permutation.
From Verif Require Import Num NumP ListX ListP Frames MatM NetM StackM MeshM ModelM SolverM InterpM ResultM RenderM VtkM PlotM MainM PictureM SettingsM NotebookM
  Spec SpecNet SpecStack SpecMesh SpecModel SpecSolver SpecInterp SpecRender SpecVtk SpecMain SpecSettings SpecPicture SpecNotebook
  StackForceP NotebookP PropsMat PropsStack PropsSolver PropsVtk PropsPlot PropsMain PropsSettings.
Open Scope Q_scope.

(** ** C84: the notebook *)
(** settings that can be reached give their values as arguments, in the ranges of the sliders *)
Theorem C84_read : forall s, reachable s -> usable s -> exists o, options_of s = Some o /\ asks s o /\ other_defaults o /\ in_ranges o.
Proof. exact settings_read. Qed.
(** no others can be read *)
Theorem C84_only : forall s o, reachable s -> options_of s = Some o -> usable s.
Proof. exact options_usable. Qed.
(** cell 7 sets its parameters whatever was set before and leaves the others *)
Theorem C84_call : forall s, exists s', set_all s cell7 = (s', None) /\ (forall k v, In (k, v) cell7 -> get_item s' k = v) /\
  (forall k, untouched k cell7 -> get_item s' k = get_item s k) /\ (reachable s -> reachable s').
Proof. exact cell7_set. Qed.
(** with libraries that do their work, the cells go to the end *)
Theorem C84_total : forall R cos sin linprog marg lsolve cyl place near, right_linprog linprog -> forall o, draws_in_range R -> trig_accurate cos sin ->
  options_ok o -> solver_copes lsolve o -> unit_cylinder cyl -> right_tree near -> forall ent prior,
  p_psi (op_mat o) == 0 -> flat_sin sin -> right_marginals linprog marg ->
  exists l k b, notebook R cos sin linprog marg lsolve cyl place near o ent prior = Ok (l, k, b).
Proof. exact notebook_total. Qed.
(** in particular after cell 7 *)
Theorem C84_runs : forall s, reachable s -> (forall k, untouched k cell7 -> ~ modulus k -> finite_setting s k) -> get_item s Kitermax <> VOther ->
  (forall k q, k = Klength \/ k = Kwidth \/ k = Kthickness -> get_item s k = VNum (Fin q) -> 0 < q) -> (forall x, stands (get_item s Kshear) x -> positive x) ->
  exists s' o, set_all s cell7 = (s', None) /\ options_of s' = Some o /\ asks s' o /\
    forall R cos sin linprog marg lsolve cyl place near ent prior, right_linprog linprog -> right_marginals linprog marg -> draws_in_range R -> trig_accurate cos sin ->
    flat_sin sin -> right_length lsolve -> finite_answers lsolve -> unit_cylinder cyl -> right_tree near ->
    exists l k b, notebook R cos sin linprog marg lsolve cyl place near o ent prior = Ok (l, k, b).
Proof.
  intros s HR FIN IT POS SH. destruct (cell7_options s HR FIN IT POS SH) as (s' & o & E & EO & AS & (PS & _) & _ & OK & _). exists s', o. split; [exact E|]. split; [exact EO|]. split; [exact AS|].
  intros R cos sin linprog marg lsolve cyl place near ent prior LP HM HD HT FS RL FA HC HN.
  apply C84_total; auto; [split; [exact RL|left; exact FA]|]. rewrite PS. reflexivity.
Qed.
(** the contacts drawn by cell 24 are those whose force counts relative to the weight of a fiber *)
Theorem C84_contacts : forall R cos sin linprog marg, right_linprog linprog -> forall o ent prior, draws_in_range R -> trig_accurate cos sin -> options_ok o ->
  p_psi (op_mat o) == 0 -> flat_sin sin -> right_marginals linprog marg ->
  exists m0 t m st l p, cell_net R cos sin o ent prior = Ok (m0, t) /\ stack_new linprog m0 t None = Ok (st, m) /\ stack_constraint m t = Ok p /\
    cell24 R cos sin linprog marg o ent prior = Ok (m, st, l) /\
    shows l (contacts st) (counts_of_weight (op_mat o) (marg p)) (contact_line m (op_periodic o)).
Proof. exact cell24_shows. Qed.
(** the cells 40 and 43 compute what the main script computes with the natural numbering *)
Theorem C84_script : forall R cos sin linprog lsolve cyl place near, right_linprog linprog -> forall o, draws_in_range R -> trig_accurate cos sin ->
  options_ok o -> solver_copes lsolve o -> unit_cylinder cyl -> right_tree near -> forall ent prior,
  exists out b, script R cos sin linprog natural lsolve cyl place near o ent prior = Ok out /\
    cell40 R cos sin linprog lsolve cyl place near o ent prior = Ok b /\
    bk_mat b = out_mat out /\ bk_net b = out_net out /\ bk_stack b = out_stack out /\ bk_mesh b = out_mesh out /\ bk_results b = out_results out /\ bk_points b = out_points out.
Proof. exact cell40_same. Qed.
(** they export the displacements, rotations and contact forces of the last recorded state *)
Theorem C84_shown : forall R cos sin linprog lsolve cyl place near, right_linprog linprog -> forall o, draws_in_range R -> trig_accurate cos sin ->
  options_ok o -> solver_copes lsolve o -> unit_cylinder cyl -> right_tree near -> forall ent prior b,
  cell40 R cos sin linprog lsolve cyl place near o ent prior = Ok b ->
  exists K cs S h s d r f t, stiffness (bk_mat b) (bk_mesh b) (op_lmin o) (op_lmax o) (op_coupling o) = Ok K /\ constraint (bk_mat b) (bk_mesh b) = Ok cs /\
    solve lsolve (bk_mat b) (bk_mesh b) (book_args o) = Ok (S, h) /\ bk_results b = results_of S h (op_size o) /\ last_state h s /\
    fields_of (bk_mesh b) (csC cs) S s d r f t /\ vtk_mesh cyl place near (bk_mat b) (bk_mesh b) (Some d) (Some r) (Some f) (Some t) = Ok (bk_points b).
Proof.
  intros R cos sin linprog lsolve cyl place near LP o HR HT OK COPE HC HN ent prior b E.
  destruct (C84_script R cos sin linprog lsolve cyl place near LP o HR HT OK COPE HC HN ent prior) as (out & b' & RUN & E' & E1 & _ & _ & E4 & E5 & E6). assert (b' = b) by congruence. subst b'.
  destruct (C79_shown _ _ _ _ _ _ _ _ _ LP _ _ _ _ OK ex_rcm_right COPE RUN) as (K & cs & S & s & d & r & f & t & (HK & Hcs & h & HS & ER & LS) & FO & X). unfold exported in X.
  assert (EP : out_perm out = seq 0 (2 * length (g_rows (out_mesh out)) + length (csH cs))).
  { destruct (MainP.script_inv _ _ _ _ _ _ _ _ _ o ent prior out RUN) as (md & s1 & K0 & cs' & S' & h' & dd & rr & ff & tt & _ & _ & _ & _ & _ & Hcs' & -> & _). assert (cs' = cs) by congruence. subst cs'. reflexivity. }
  rewrite EP in HS. rewrite <- (shear_natural _ _ o K cs HK Hcs lsolve) in HS. rewrite <- E1, <- E4 in *. rewrite <- E5 in ER. rewrite <- E6 in X.
  exists K, cs, S, h, s, d, r, f, t. auto 9.
Qed.
(** with a seed, every run of the cells gives the same, and what is drawn is what is packed *)
Theorem C84_seeded : forall R cos sin linprog marg lsolve cyl place near o k ent1 ent2 prior1 prior2, p_seed (op_mat o) = Some k ->
  notebook R cos sin linprog marg lsolve cyl place near o ent1 prior1 = notebook R cos sin linprog marg lsolve cyl place near o ent2 prior2.
Proof. exact notebook_seeded. Qed.
Theorem C84_consistent : forall R cos sin linprog marg lsolve cyl place near o sd ent prior l k b, p_seed (op_mat o) = Some sd ->
  notebook R cos sin linprog marg lsolve cyl place near o ent prior = Ok (l, k, b) ->
  mesh_picture (bk_mesh b) = Ok k /\ exists m st, cell24 R cos sin linprog marg o (ent 24%nat) prior = Ok (m, st, l) /\ m = bk_mat b.
Proof. exact notebook_consistent. Qed.
(** without fibers the cells stop with an exception *)
Theorem C84_empty : forall R cos sin linprog marg lsolve cyl place near, right_linprog linprog -> forall o ent prior r, p_n (op_mat o) = 0%Z ->
  notebook R cos sin linprog marg lsolve cyl place near o ent prior <> Ok r.
Proof. exact notebook_empty. Qed.

(** ** examples *)
(** the pairs of a stacking program *)
Definition ex_edges (p : lp) : list (nat * nat) :=
  let n := length (lpH p) in
  combine (map (fun e => snd (fst e)) (firstn n (lpC p))) (map (fun e => snd (fst e)) (skipn n (lpC p))).
Lemma edges_read m t p : stack_constraint m t = Ok p -> ex_edges p = map (fun e => (Z.to_nat (fst e), Z.to_nat (snd e))) (strict_pairs t).
Proof.
  unfold stack_constraint. destruct (mat_check _); [|discriminate]. cbn [bind]. destruct (net_check t); [|discriminate]. cbn [bind].
  destruct (negb _); [discriminate|]. intros H. injection H as <-. unfold ex_edges. cbn [lpH lpC].
  set (ij := map (fun p => (Z.to_nat (fst p), Z.to_nat (snd p))) (strict_pairs t)).
  set (kk := combine (seq 0 (length ij)) ij). rewrite map_length.
  assert (LK : length kk = length ij) by (unfold kk; rewrite combine_length, seq_length; lia).
  rewrite firstn_app, skipn_app, map_length, LK, Nat.sub_diag. rewrite firstn_O, skipn_O, app_nil_r.
  rewrite firstn_all2 by (rewrite map_length; lia). rewrite skipn_all2 by (rewrite map_length; lia). cbn [app]. rewrite !map_map. cbn [fst snd].
  rewrite <- (map_map snd fst kk), <- (map_map snd snd kk). unfold kk. rewrite combine_snd by apply seq_length. apply combine_split.
Qed.
(** marginals: each fiber gives its load to the floor or to one fiber it lies on *)
Definition ex_marg (p : lp) : list Q := map Qopp (fst (carry (length (lph p)) (ex_edges p) (lpf p) (lph p) (ex_greedy p) (length (lph p)))).
Example ex_marg_right : right_marginals ex_greedy ex_marg.
Proof.
  intros m per t Hn p Hp. pose proof (ex_greedy_right m per t Hn p Hp) as O. destruct (C17_networks_by_A _ _ _ _ Hn) as (_ & _ & _ & NF & _).
  eexists. unfold ex_marg. apply (C71_certified m t p _ _ _ Hp NF (proj1 O)). rewrite (edges_read m t p Hp).
  assert (Eh : lph p = map qh (q_rows m)).
  { revert Hp. unfold stack_constraint. destruct (mat_check _); [|discriminate]. cbn [bind]. destruct (net_check t); [|discriminate]. cbn [bind]. destruct (negb _); [discriminate|]. intros H. injection H as <-. reflexivity. }
  rewrite Eh, map_length. exact (forces_carried m t p Hp NF _ O).
Qed.
(** the settings made by cell 5, then the call of cell 7 *)
Example ex_cell5 : exists s, settings_new defaults = Ret s /\ reachable s /\ (forall k, untouched k cell7 -> ~ modulus k -> finite_setting s k) /\ get_item s Kitermax <> VOther /\
  (forall k q, k = Klength \/ k = Kwidth \/ k = Kthickness -> get_item s k = VNum (Fin q) -> 0 < q) /\ (forall x, stands (get_item s Kshear) x -> positive x) /\ usable s.
Proof.
  eexists. split; [reflexivity|]. split; [apply reach_new with defaults; reflexivity|].
  split; [|split; [discriminate|split; [|split]]].
  - intros k _ M x E. destruct k; vm_compute in E; try discriminate E; injection E as <-; eauto. 
  - intros k q D E. decompose [or] D; subst k; vm_compute in E; injection E as <-; reflexivity.
  - intros x E. vm_compute in E. inversion E. reflexivity.
  - split; [|split; [discriminate|]].
    + intros k M P x E. destruct k; vm_compute in E; try discriminate E; injection E as <-; eauto.
    + intros q E. vm_compute in E. discriminate E.
Qed.
Example ex_flat : flat_sin ex_sin.
Proof. exact ex_sin_flat. Qed.
(** the notebook as published *)
Example ex_published : exists s s' o, settings_new defaults = Ret s /\ set_all s cell7 = (s', None) /\ options_of s' = Some o /\ asks s' o /\
  forall ent prior, exists l k b, notebook ex_rng ex_cos ex_sin ex_greedy ex_marg ex_fin ex_cyl ex_place ex_near o ent prior = Ok (l, k, b).
Proof.
  destruct ex_cell5 as (s & E & R & F & IT & P & G & _). destruct (C84_runs s R F IT P G) as (s' & o & E1 & E2 & A & RUN). exists s, s', o.
  split; [exact E|]. split; [exact E1|]. split; [exact E2|]. split; [exact A|]. intros ent prior.
  apply RUN; [exact ex_greedy_right|exact ex_marg_right|exact ex_draws|exact ex_trig|exact ex_flat|exact ex_fin_length|exact ex_fin_finite|exact ex_cyl_unit|exact ex_near_right].
Qed.
(** two crossing fibers: one contact is drawn *)
Definition ex_two (n : Z) (theta : Q) (seed : option Z) : options :=
  mkOptions (mkParams n 4 1 1 1 theta 0 (Fin 1) (Fin 1) seed) false None (Fin 2) 0 (1 # 1000000) (1 # 1000000) (Some (1 # 100)) None 1 None.
Definition ex_cells (o : options) (ent : Z) : res (qmat * net_df * list line) := cell24 ex_rng ex_cos ex_sin ex_greedy ex_marg o ent 0%Z.
Example ex_two_ok : options_ok (ex_two 2 11 (Some 0%Z)) /\ solver_copes ex_fin (ex_two 2 11 (Some 0%Z)).
Proof.
  split; [|split; [exact ex_fin_length|left; exact ex_fin_finite]]. split; [|split; [cbn; lia|split; [cbn; lra|split; [cbn; lra|exact I]]]].
  split; [cbn; lia|]. cbn [ex_two op_mat p_length p_width p_thickness p_size p_shear p_tensile p_seed positive]. do 6 (split; [lra|]). intros k E. injection E as <-. lia.
Qed.
Example ex_two_drawn : match ex_cells (ex_two 2 11 (Some 0%Z)) 0%Z with Ok (m, st, l) => Ok (map Qred (heights m), contacts st, length l) | Exn e => Exn e end =
  Ok ([1 # 2; 3 # 2], [(0, 1)%Z], 1%nat).
Proof. vm_compute. reflexivity. Qed.
Example ex_two_run ent prior : exists l k b, notebook ex_rng ex_cos ex_sin ex_greedy ex_marg ex_fin ex_cyl ex_place ex_near (ex_two 2 11 (Some 0%Z)) ent prior = Ok (l, k, b) /\
  mesh_picture (bk_mesh b) = Ok k.
Proof.
  destruct ex_two_ok as [A B].
  destruct (C84_total _ _ _ _ _ _ _ ex_place _ ex_greedy_right _ ex_draws ex_trig A B ex_cyl_unit ex_near_right ent prior ltac:(reflexivity) ex_flat ex_marg_right) as (l & k & b & E).
  exists l, k, b. split; [exact E|]. exact (proj1 (C84_consistent _ _ _ _ _ _ _ _ _ (ex_two 2 11 (Some 0%Z)) 0%Z _ _ _ _ _ eq_refl E)).
Qed.

(** ** refutations *)
(** settings as they are made by cell 5 describe no fibers: the cells do not run *)
Theorem C84_settings_refuted : ~ (forall s o, reachable s -> usable s -> options_of s = Some o ->
  forall R cos sin linprog marg lsolve cyl place near ent prior, right_linprog linprog -> right_marginals linprog marg -> draws_in_range R -> trig_accurate cos sin ->
  flat_sin sin -> right_length lsolve -> finite_answers lsolve -> unit_cylinder cyl -> right_tree near ->
  exists r, notebook R cos sin linprog marg lsolve cyl place near o ent prior = Ok r).
Proof.
  intros H. destruct ex_cell5 as (s & E & R & _ & _ & _ & _ & U). destruct (C84_read s R U) as (o & EO & A & _).
  assert (N : p_n (op_mat o) = 0%Z). { injection E as <-. destruct A as (A & _). vm_compute in A. injection A as A. symmetry. exact A. }
  destruct (H s o R U EO ex_rng ex_cos ex_sin ex_greedy ex_marg ex_fin ex_cyl ex_place ex_near (fun _ => 0%Z) 0%Z) as (r & RUN);
    try assumption; [exact ex_greedy_right|exact ex_marg_right|exact ex_draws|exact ex_trig|exact ex_flat|exact ex_fin_length|exact ex_fin_finite|exact ex_cyl_unit|exact ex_near_right|].
  exact (C84_empty _ _ _ _ _ _ _ _ _ ex_greedy_right o _ _ r N RUN).
Qed.
(** without a seed the mesh drawn is not the one that is packed *)
Definition ex_ent (n : nat) : Z := if Nat.eqb n 28 then 1%Z else 0%Z.
Theorem C84_unseeded_refuted : ~ (forall R cos sin linprog marg lsolve cyl place near o ent prior l k b,
  right_linprog linprog -> right_marginals linprog marg -> draws_in_range R -> trig_accurate cos sin -> options_ok o -> solver_copes lsolve o ->
  notebook R cos sin linprog marg lsolve cyl place near o ent prior = Ok (l, k, b) -> mesh_picture (bk_mesh b) = Ok k).
Proof.
  intros H. assert (OK : options_ok (ex_two 1 0 None)).
  { split; [|split; [cbn; lia|split; [cbn; lra|split; [cbn; lra|exact I]]]]. split; [cbn; lia|].
    cbn [ex_two op_mat p_length p_width p_thickness p_size p_shear p_tensile p_seed positive]. do 6 (split; [lra|]). intros k E. discriminate E. }
  assert (CO : solver_copes ex_fin (ex_two 1 0 None)) by (split; [exact ex_fin_length|left; exact ex_fin_finite]).
  destruct (C84_total _ _ _ _ _ _ _ ex_place _ ex_greedy_right _ ex_draws ex_trig OK CO ex_cyl_unit ex_near_right ex_ent 0%Z ltac:(reflexivity) ex_flat ex_marg_right) as (l & k & b & E).
  pose proof (H _ _ _ _ _ _ _ _ _ _ _ _ _ _ _ ex_greedy_right ex_marg_right ex_draws ex_trig OK CO E) as P.
  destruct (notebook_inv _ _ _ _ _ _ _ _ _ _ _ _ _ _ _ E) as (_ & (g & H28) & H40).
  destruct (C84_script _ _ _ _ _ _ ex_place _ ex_greedy_right _ ex_draws ex_trig OK CO ex_cyl_unit ex_near_right (ex_ent 40) 0%Z) as (out & b' & RUN & E' & _ & _ & _ & E4 & _).
  assert (b' = b) by congruence. subst b'.
  destruct (MainP.script_inv _ _ _ _ _ _ _ _ _ _ _ _ out RUN) as (md & s1 & K0 & cs' & S' & h' & dd & rr & ff & tt & Hmd & Hn & Hst & Hg & _).
  assert (B : cell28 ex_rng ex_cos ex_sin ex_greedy (ex_two 1 0 None) (ex_ent 40) 0%Z = Ok (bk_mesh b, k)).
  { unfold cell28, cell_mesh, cell_net. rewrite Hmd. cbn [bind fst]. rewrite Hn. cbn [bind fst snd]. rewrite Hst. cbn [bind fst snd]. rewrite Hg. cbn [bind snd].
    rewrite <- E4, P. reflexivity. }
  assert (D : match cell28 ex_rng ex_cos ex_sin ex_greedy (ex_two 1 0 None) (ex_ent 40) 0%Z, cell28 ex_rng ex_cos ex_sin ex_greedy (ex_two 1 0 None) (ex_ent 28) 0%Z with
    | Ok (_, k1), Ok (_, k2) => match k1, k2 with x :: _, y :: _ => Qeqb (vx (fst (sk_line x))) (vx (fst (sk_line y))) | _, _ => true end | _, _ => true end = false)
    by (vm_compute; reflexivity).
  rewrite B, H28 in D. destruct k as [|x k]; [discriminate D|]. rewrite (proj2 (Qeqb_eq _ _) (Qeq_refl _)) in D. discriminate D.
Qed.

Print Assumptions C84_read.
Print Assumptions C84_only.
Print Assumptions C84_call.
Print Assumptions C84_total.
Print Assumptions C84_runs.
Print Assumptions C84_contacts.
Print Assumptions C84_script.
Print Assumptions C84_shown.
Print Assumptions C84_seeded.
Print Assumptions C84_consistent.
Print Assumptions C84_empty.
Print Assumptions C84_settings_refuted.
Print Assumptions C84_unseeded_refuted.
