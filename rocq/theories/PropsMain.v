(** Property theorems: the main script, from the parameters to the exported mesh (C79, main.py 64-109). *)
From Coq Require Import Permutation.
From Verif Require Import Num NumP ListX ListP Frames MatM NetM StackM MeshM ModelM SolverM InterpM ResultM RenderM VtkM PlotM MainM
  Spec SpecNet SpecStack SpecMesh SpecModel SpecSolver SpecInterp SpecRender SpecVtk SpecMain
  CheckP NetP StackNewP MainP PropsMat PropsStack PropsSolver PropsVtk PropsPlot.
Open Scope Q_scope.

(** ** C79: the main script *)
(** generated tables hold finite numbers: nothing is lost when they are read *)
Theorem C79_read : forall R cos sin p ent prior m s, mat_new R cos sin p ent prior = Ok (m, s) -> df_of (read_mat m) = m /\ mat_check m = Ok true.
Proof. exact read_back. Qed.
(** with libraries that do their work, the script goes to its end *)
Theorem C79_total : forall R cos sin linprog rcm lsolve cyl place near, right_linprog linprog -> forall o ent prior,
  draws_in_range R -> trig_accurate cos sin -> options_ok o -> right_numbering rcm -> solver_copes lsolve o -> unit_cylinder cyl -> right_tree near ->
  exists out, script R cos sin linprog rcm lsolve cyl place near o ent prior = Ok out.
Proof. exact script_total. Qed.
(** the fibers of the result are those that were asked for *)
Theorem C79_fibers : forall R cos sin linprog rcm lsolve cyl place near, right_linprog linprog -> forall o ent prior out,
  script R cos sin linprog rcm lsolve cyl place near o ent prior = Ok out ->
  Z.of_nat (length (q_rows (out_mat out))) = p_n (op_mat o) /\ q_size (out_mat out) = p_size (op_mat o) /\
  (forall f, In f (q_rows (out_mat out)) -> as_asked (op_mat o) f) /\ valid (out_mat out) /\
  mesh_ok (out_mesh out) /\ spans (out_mat out) (out_mesh out) /\ at_periodic (g_attrs (out_mesh out)) = Some (op_periodic o).
Proof. exact script_fibers. Qed.
(** the exported fields are the displacements, rotations and contact forces of the last recorded state *)
Theorem C79_shown : forall R cos sin linprog rcm lsolve cyl place near, right_linprog linprog -> forall o ent prior out,
  options_ok o -> right_numbering rcm -> solver_copes lsolve o -> script R cos sin linprog rcm lsolve cyl place near o ent prior = Ok out ->
  exists K cs S s d r f t, solver_run lsolve o out K cs S s /\ fields_of (out_mesh out) (csC cs) S s d r f t /\ exported cyl place near out d r f t.
Proof. exact script_shown. Qed.
(** the exported force balances the elastic force of the nodes ... *)
Theorem C79_balance : forall R cos sin linprog rcm lsolve cyl place near, right_linprog linprog -> forall o ent prior out,
  options_ok o -> right_numbering rcm -> solver_copes lsolve o -> script R cos sin linprog rcm lsolve cyl place near o ent prior = Ok out ->
  forall K cs S s d r f t, solver_run lsolve o out K cs S s -> fields_of (out_mesh out) (csC cs) S s d r f t ->
  errors_below_tol S s -> limits_ok o -> (exists G, p_shear (op_mat o) = Fin G) -> (exists E, p_tensile (op_mat o) = Fin E) ->
  forall i, (i < length (g_rows (out_mesh out)))%nat -> near0 (op_errtol o * travel S s) (product K (vals (st_u S s)) (2 * i) + nth i f 0).
Proof. exact shown_balance. Qed.
(** ... and adds up to nothing on every fiber *)
Theorem C79_fiber : forall R cos sin linprog rcm lsolve cyl place near, right_linprog linprog -> forall o ent prior out,
  options_ok o -> right_numbering rcm -> solver_copes lsolve o -> script R cos sin linprog rcm lsolve cyl place near o ent prior = Ok out ->
  forall K cs S s d r f t, solver_run lsolve o out K cs S s -> fields_of (out_mesh out) (csC cs) S s d r f t ->
  forall fb, errors_below_tol S s -> limits_ok o -> (exists G, p_shear (op_mat o) = Fin G) ->
  near0 (inject_Z (Z.of_nat (length (nodes_of (out_mesh out) fb))) * (op_errtol o * travel S s)) (qsum (map (fun i => nth i f 0) (nodes_of (out_mesh out) fb))).
Proof. exact shown_fiber. Qed.
(** fibers without tilt end between the floor and the lid and do not overlap *)
Theorem C79_admissible : forall R cos sin linprog rcm lsolve cyl place near, right_linprog linprog -> forall o ent prior out,
  options_ok o -> right_numbering rcm -> solver_copes lsolve o -> script R cos sin linprog rcm lsolve cyl place near o ent prior = Ok out ->
  forall K cs S s, solver_run lsolve o out K cs S s -> op_errtol o == 0 -> p_psi (op_mat o) == 0 -> (forall x, x == 0 -> sin x == 0) ->
  exists z, st_Z s = Fin z /\ in_slab (out_mat out) (out_mesh out) z (vals (st_u S s)) /\ no_overlap (out_mat out) (out_mesh out) (vals (st_u S s)).
Proof. exact shown_admissible. Qed.
(** with a seed, the whole outcome is reproducible *)
Theorem C79_seeded : forall R cos sin linprog rcm lsolve cyl place near o k ent1 ent2 prior1 prior2, p_seed (op_mat o) = Some k ->
  script R cos sin linprog rcm lsolve cyl place near o ent1 prior1 = script R cos sin linprog rcm lsolve cyl place near o ent2 prior2.
Proof. exact script_seeded. Qed.
(** without fibers the script stops with an exception *)
Theorem C79_empty : forall R cos sin linprog rcm lsolve cyl place near, right_linprog linprog -> forall o ent prior out, p_n (op_mat o) = 0%Z ->
  script R cos sin linprog rcm lsolve cyl place near o ent prior <> Ok out.
Proof. exact script_empty. Qed.

(** ** examples *)
(** the sweep solves every stacking problem *)
Lemma combine_snd {A B} (l : list A) (l' : list B) : length l = length l' -> map snd (combine l l') = l'.
Proof. revert l'. induction l as [|a l IH]; intros [|b l'] E; try discriminate E; [reflexivity|]. cbn. rewrite IH; auto. Qed.
Lemma combine_split {A B} (l : list (A * B)) : combine (map fst l) (map snd l) = l.
Proof. induction l as [|[a b] l IH]; [reflexivity|]. cbn. rewrite IH. reflexivity. Qed.
Lemma greedy_reads m t p : stack_constraint m t = Ok p -> ex_greedy p = sweep m t.
Proof.
  unfold stack_constraint. destruct (mat_check _); [|discriminate]. cbn [bind]. destruct (net_check t); [|discriminate]. cbn [bind].
  destruct (negb _); [discriminate|]. intros H. injection H as <-. unfold ex_greedy. cbn [lpH lpC lph].
  set (ij := map (fun p => (Z.to_nat (fst p), Z.to_nat (snd p))) (strict_pairs t)).
  set (kk := combine (seq 0 (length ij)) ij). rewrite map_length.
  assert (LK : length kk = length ij) by (unfold kk; rewrite combine_length, seq_length; lia).
  rewrite firstn_app, skipn_app, map_length, LK, Nat.sub_diag. rewrite firstn_O, skipn_O, app_nil_r.
  rewrite firstn_all2 by (rewrite map_length; lia). rewrite skipn_all2 by (rewrite map_length; lia). cbn [app]. rewrite !map_map. cbn [fst snd].
  rewrite <- (map_map snd fst kk), <- (map_map snd snd kk). unfold kk. rewrite combine_snd by apply seq_length. rewrite combine_split.
  unfold sweep. generalize (map (fun f => qh f / 2) (q_rows m)). unfold ij, strict_pairs.
  induction (map snd (n_rows t)) as [|c l IH]; intros z; [reflexivity|]. cbn [filter fold_left]. unfold lift at 2.
  destruct (cA c <? cB c)%Z; [|apply IH]. cbn [map fold_left fst snd]. rewrite IH. reflexivity.
Qed.
Example ex_greedy_right : right_linprog ex_greedy.
Proof.
  intros m per t Hn. destruct (C17_networks_by_A _ _ _ _ Hn) as (_ & Hok & _ & Hf & Hb). apply greedy_solved; auto.
  destruct (stack_constraint m t) as [p|] eqn:E; [|exact I]. exact (greedy_reads m t p E).
Qed.
(** the identity numbering *)
Definition ex_rcm (n : nat) (P : ncoo) : list nat := seq 0 n.
Example ex_rcm_right : right_numbering ex_rcm.
Proof. intros n P. apply Permutation_refl. Qed.
(** the parameters of the script, for [n] fibers, with the default tolerances *)
Definition ex_options (n : Z) (size : option nat) (errtol : Q) : options :=
  mkOptions (mkParams n 25 2 (1 # 2) 50 np_pi 0 (Fin 1) (Fin 2500) (Some 0%Z)) true (Some 10) (Fin 4) 1000 (1 # 1000000) errtol (Some (1 # 100)) None (99 # 100) size.
Example ex_options_ok n errtol : (1 <= n)%Z -> 0 <= errtol -> options_ok (ex_options n (Some 100%nat) errtol) /\ limits_ok (ex_options n (Some 100%nat) errtol) /\
  solver_copes ex_fin (ex_options n (Some 100%nat) errtol).
Proof.
  intros Hn He. split; [|split].
  - split; [|split; [exact Hn|split; [cbn; lra|split; [exact He|cbn; lia]]]]. split; [cbn; lia|]. cbn [ex_options op_mat p_length p_width p_thickness p_size p_shear p_tensile p_seed positive]. do 6 (split; [lra|]). intros k H. injection H as <-. lia.
  - split; [exists (1 # 100); split; [reflexivity|lra]|]. intros l H. discriminate H.
  - split; [exact ex_fin_length|left; exact ex_fin_finite].
Qed.
(** the hypotheses of the theorems are met with these oracles: the script runs for any number of fibers *)
Example ex_script n errtol ent prior : (1 <= n)%Z -> 0 <= errtol ->
  exists out, script ex_rng ex_cos ex_sin ex_greedy ex_rcm ex_fin ex_cyl ex_place ex_near (ex_options n (Some 100%nat) errtol) ent prior = Ok out.
Proof.
  intros Hn He. destruct (ex_options_ok n errtol Hn He) as (A & B & C).
  apply C79_total; [exact ex_greedy_right|exact ex_draws|exact ex_trig|exact A|exact ex_rcm_right|exact C|exact ex_cyl_unit|exact ex_near_right].
Qed.
Example ex_sin_flat x : x == 0 -> ex_sin x == 0.
Proof. intros E. unfold ex_sin. rewrite E. reflexivity. Qed.
(** whatever is recorded last, it is admissible *)
Example ex_script_end n ent prior : (1 <= n)%Z -> exists out K cs S s z,
  script ex_rng ex_cos ex_sin ex_greedy ex_rcm ex_fin ex_cyl ex_place ex_near (ex_options n (Some 100%nat) 0) ent prior = Ok out /\
  solver_run ex_fin (ex_options n (Some 100%nat) 0) out K cs S s /\ st_Z s = Fin z /\
  no_overlap (out_mat out) (out_mesh out) (vals (st_u S s)).
Proof.
  intros Hn. destruct (ex_script n 0 ent prior Hn ltac:(lra)) as (out & RUN). destruct (ex_options_ok n 0 Hn ltac:(lra)) as (A & B & C).
  destruct (C79_shown _ _ _ _ _ _ _ _ _ ex_greedy_right _ _ _ _ A ex_rcm_right C RUN) as (K & cs & S & s & d & r & f & t & SR & FO & _).
  destruct (C79_admissible _ _ _ _ _ _ _ _ _ ex_greedy_right _ _ _ _ A ex_rcm_right C RUN K cs S s SR) as (z & Ez & _ & NO);
    [reflexivity|reflexivity|exact ex_sin_flat|].
  exists out, K, cs, S, s, z. split; [exact RUN|]. split; [exact SR|]. split; [exact Ez|exact NO].
Qed.
(** one fiber under the lid, run *)
Definition ex_one (n : Z) (size : option nat) (itermax : nat) : options :=
  mkOptions (mkParams n 1 1 1 10 0 0 (Fin 1) (Fin 1) (Some 0%Z)) false None (Fin 2) itermax (1 # 1000000) (1 # 1000000) (Some (1 # 100)) None 1 size.
Definition ex_one_run (n : Z) (size : option nat) (itermax : nat) : res outcome :=
  script ex_rng ex_cos ex_sin ex_greedy ex_rcm ex_fin ex_cyl ex_place ex_near (ex_one n size itermax) 0%Z 0%Z.
Definition ex_one_points (r : res outcome) : res (list num) :=
  match r with Ok out => Ok (map (fun p => ex_show (v_z p)) (out_points out)) | Exn e => Exn e end.
Example ex_one_exported : ex_one_points (ex_one_run 1 (Some 3%nat) 5) = Ok [Fin 1; Fin (1 # 2); Fin 0].
Proof. vm_compute. reflexivity. Qed.
Example ex_none : ex_one_points (ex_one_run 0 None 5) = Exn ValueErr.
Proof. vm_compute. reflexivity. Qed.

(** ** refutations *)
(** two samples are not enough when a single state is recorded: its value at 1 is NaN, which the export refuses *)
Theorem C79_samples_refuted : ~ (forall R cos sin linprog rcm lsolve cyl place near, right_linprog linprog -> forall o ent prior,
  draws_in_range R -> trig_accurate cos sin -> params_ok (op_mat o) -> (1 <= p_n (op_mat o))%Z -> 0 <= op_tol o -> 0 <= op_errtol o ->
  (forall n, op_size o = Some n -> (2 <= n)%nat) -> right_numbering rcm -> solver_copes lsolve o -> unit_cylinder cyl -> right_tree near ->
  exists out, script R cos sin linprog rcm lsolve cyl place near o ent prior = Ok out).
Proof.
  intros H.
  destruct (H ex_rng ex_cos ex_sin ex_greedy ex_rcm ex_fin ex_cyl ex_place ex_near ex_greedy_right (ex_one 1 (Some 2%nat) 5) 0%Z 0%Z) as (out & RUN).
  - exact ex_draws.
  - exact ex_trig.
  - split; [cbn; lia|]. cbn [ex_one op_mat p_length p_width p_thickness p_size p_shear p_tensile p_seed positive]. do 6 (split; [lra|]). intros k E. injection E as <-. lia.
  - cbn. lia.
  - cbn. lra.
  - cbn. lra.
  - intros n E. injection E as <-. lia.
  - exact ex_rcm_right.
  - split; [exact ex_fin_length|left; exact ex_fin_finite].
  - exact ex_cyl_unit.
  - exact ex_near_right.
  - assert (E : ex_one_points (ex_one_run 1 (Some 2%nat) 5) = Exn ValueErr) by (vm_compute; reflexivity).
    unfold ex_one_run in E. rewrite RUN in E. discriminate E.
Qed.

Print Assumptions C79_read.
Print Assumptions C79_total.
Print Assumptions C79_fibers.
Print Assumptions C79_shown.
Print Assumptions C79_balance.
Print Assumptions C79_fiber.
Print Assumptions C79_admissible.
Print Assumptions C79_seeded.
Print Assumptions C79_empty.
Print Assumptions C79_samples_refuted.
