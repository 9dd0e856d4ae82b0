(** Property theorems: packing any mat (C85), names of the package and scripts (C86), the logo (C87). *)
From Coq Require Import String.
From Verif Require Import Num NumP ListX ListP Frames MatM NetM StackM MeshM ModelM SolverM InterpM ResultM RenderM VtkM PlotM MainM PictureM ScriptsM
  Spec SpecNet SpecStack SpecMesh SpecModel SpecSolver SpecInterp SpecRender SpecVtk SpecMain SpecDraw SpecScripts
  ScriptsP PropsMat PropsStack PropsSolver PropsVtk PropsPlot PropsMain.
Open Scope Q_scope.

(** ** C85: from any valid mat to the exported mesh *)
(** with libraries that do their work, nothing raises *)
Theorem C85_total : forall linprog lsolve cyl place near, right_linprog linprog -> forall m per thr p size, packable lsolve m p size -> unit_cylinder cyl -> right_tree near ->
  exists k, pack linprog lsolve cyl place near "solve" m per thr p size = Ok k.
Proof. exact pack_total. Qed.
(** the fibers are those of the mat, at other heights *)
Theorem C85_fibers : forall linprog lsolve cyl place near, right_linprog linprog -> forall m per thr p size k,
  pack linprog lsolve cyl place near "solve" m per thr p size = Ok k ->
  same_but_heights m (pk_mat k) /\ valid (pk_mat k) /\ mesh_ok (pk_mesh k) /\ spans (pk_mat k) (pk_mesh k) /\ at_periodic (g_attrs (pk_mesh k)) = Some per.
Proof. exact pack_fibers. Qed.
(** what it leaves are the network of the mat, its stack and the mesh of the stack *)
Theorem C85_parts : forall linprog lsolve cyl place near m per thr p size k, pack linprog lsolve cyl place near "solve" m per thr p size = Ok k ->
  net_new m per None = Ok (pk_net k) /\ stack_new linprog m (pk_net k) thr = Ok (pk_stack k, pk_mat k) /\ mesh_new (pk_stack k) = Ok (pk_mesh k).
Proof. exact pack_parts. Qed.
(** the exported fields are those of the last recorded state *)
Theorem C85_shown : forall linprog lsolve cyl place near, right_linprog linprog -> forall m per thr p size k, packable lsolve m p size ->
  pack linprog lsolve cyl place near "solve" m per thr p size = Ok k ->
  exists K cs S s d r f t, packed_run lsolve p size k K cs S s /\ fields_of (pk_mesh k) (csC cs) S s d r f t /\
    vtk_mesh cyl place near (pk_mat k) (pk_mesh k) (Some d) (Some r) (Some f) (Some t) = Ok (pk_points k).
Proof. exact pack_shown. Qed.
(** fibers in the plane end between the floor and the lid and do not overlap *)
Theorem C85_admissible : forall linprog lsolve cyl place near, right_linprog linprog -> forall m per thr p size k, packable lsolve m p size ->
  pack linprog lsolve cyl place near "solve" m per thr p size = Ok k ->
  forall K cs S s, packed_run lsolve p size k K cs S s -> sp_errtol p == 0 -> (forall f, In f (q_rows m) -> in_plane f) ->
  exists z, st_Z s = Fin z /\ in_slab (pk_mat k) (pk_mesh k) z (vals (st_u S s)) /\ no_overlap (pk_mat k) (pk_mesh k) (vals (st_u S s)).
Proof. exact pack_admissible. Qed.

(** ** C86: names and scripts *)
(** the package can be imported; its classes and functions are found under their names, its files too *)
Theorem C86_names : exists ns, fibermat = Ok ns /\ (forall f d, In (f, d) public -> lookup ns d = Some (Defn f d)) /\
  (forall f, In f files -> lookup ns f = Some (Submodule f)).
Proof. exact imported. Qed.
(** the scripts make their mesh, then stop: "solver" is a file *)
Theorem C86_square : forall R cos sin linprog lsolve cyl place near, right_linprog linprog -> draws_in_range R -> trig_accurate cos sin -> forall n ent prior, (0 <= n)%Z ->
  square R cos sin linprog lsolve cyl place near "solver" n ent prior = Exn TypeErr.
Proof. intros. apply square_stops; auto. unfold files. simpl. auto 10. Qed.
Theorem C86_logo : forall R cos sin linprog lsolve cyl place near, right_linprog linprog -> draws_in_range R -> trig_accurate cos sin -> forall n ent prior,
  logo R cos sin linprog lsolve cyl place near "solver" n ent prior = Exn TypeErr.
Proof. intros. apply logo_stops; auto. unfold files. simpl. auto 10. Qed.
(** with the name of the function instead, they go to their end: n strips in a periodic box; a fiber at each point
    drawn on the letters *)
Theorem C86_meant : forall R cos sin linprog lsolve cyl place near, right_linprog linprog -> draws_in_range R -> trig_accurate cos sin ->
  finite_answers lsolve -> right_length lsolve -> unit_cylinder cyl -> right_tree near ->
  (forall n ent prior, (1 <= n)%Z -> exists k p K cs S s, square R cos sin linprog lsolve cyl place near "solve" n ent prior = Ok k /\
    Z.of_nat (length (q_rows (pk_mat k))) = n /\ q_size (pk_mat k) = 40 /\ (forall f, In f (q_rows (pk_mat k)) -> made_of 4 (1 # 5) (1 # 20) (Fin 1) (Fin 1600) f) /\
    at_periodic (g_attrs (pk_mesh k)) = Some true /\ (exists m0, stack_new linprog m0 (pk_net k) (Some 1) = Ok (pk_stack k, pk_mat k)) /\
    usual_args p /\ packed_run lsolve p (Some 100%nat) k K cs S s) /\
  (forall n ent prior, (exists p, In p (drawn R n) /\ on_letter p) -> exists k p K cs S s xy, logo R cos sin linprog lsolve cyl place near "solve" n ent prior = Ok k /\
    those on_letter (drawn R n) xy /\ Forall2 lies_at xy (q_rows (pk_mat k)) /\ q_size (pk_mat k) = 60 /\
    (forall f, In f (q_rows (pk_mat k)) -> made_of 1 (1 # 10) (1 # 20) (Fin 1) (Fin 400) f) /\ at_periodic (g_attrs (pk_mesh k)) = Some false /\
    (exists m0, stack_new linprog m0 (pk_net k) None = Ok (pk_stack k, pk_mat k)) /\
    usual_args p /\ packed_run lsolve p (Some 100%nat) k K cs S s).
Proof. intros. split; intros; [apply square_meant|apply logo_meant]; auto. Qed.
(** no choice of libraries makes the scripts go to their end *)
Theorem C86_scripts_refuted : ~ (exists R cos sin linprog lsolve cyl place near ent prior k,
  square R cos sin linprog lsolve cyl place near "solver" 3000 ent prior = Ok k \/ logo R cos sin linprog lsolve cyl place near "solver" (100 * 100) ent prior = Ok k).
Proof.
  intros (R & cos & sin & linprog & lsolve & cyl & place & near & ent & prior & k & [H|H]); revert H; [apply square_never|apply logo_never]; unfold files; simpl; auto 10.
Qed.

(** ** C87: the logo *)
(** the fibers are the drawn points that lie on the letters, mirrored; the mat is valid *)
Theorem C87_fibers : forall R cos sin n ent prior, draws_in_range R -> trig_accurate cos sin -> exists xy m,
  logo_mat R cos sin n ent prior = Ok m /\ those on_letter (drawn R n) xy /\ Forall2 lies_at xy (q_rows m) /\ valid m /\ q_size m = 60 /\
  forall f, In f (q_rows m) -> made_of 1 (1 # 10) (1 # 20) (Fin 1) (Fin 400) f /\ exists d, qw f = sin (d * 0).
Proof. exact logo_fibers. Qed.
(** the same mat at every run *)
Theorem C87_seeded : forall R cos sin n ent1 ent2 prior1 prior2, logo_mat R cos sin n ent1 prior1 = logo_mat R cos sin n ent2 prior2.
Proof. exact logo_same. Qed.
(** the directions are not drawn apart: they come from the abscissae of other points *)
Theorem C87_reused : forall R cos sin n ent prior m k i f, draws_in_range R -> trig_accurate cos sin -> logo_mat R cos sin n ent prior = Ok m -> k = length (q_rows m) ->
  (4 * k <= n)%nat -> nth_error (q_rows m) i = Some f ->
  exists x y a w, nth_error (drawn R n) (3 * k + i) = Some (x, y) /\ 58 * a == x * np_pi /\ w == 0 /\ qu f = cos a * cos w /\ qv f = sin a * cos w.
Proof. exact logo_reused. Qed.

(** ** examples *)
(** twelve points: three of them lie on the letters *)
Example ex_twelve : exists xy, those on_letter (drawn ex_rng 12) xy /\ length xy = 3%nat.
Proof.
  destruct (logo_cells_total (drawn ex_rng 12)) as (keep & E & T); [intros p Hp; exact (drawn_frame ex_rng 12 p ex_draws Hp)|].
  eexists. split; [exact T|]. assert (L : logo_cells (drawn ex_rng 12) = Ok [false; false; true; false; false; false; true; false; false; true; false; false]) by (vm_compute; reflexivity).
  rewrite L in E. injection E as <-. reflexivity.
Qed.
Lemma those_fun {A} (P : A -> Prop) l l1 : those P l l1 -> forall l2, those P l l2 -> l1 = l2.
Proof. induction 1; intros l2 H2; inversion H2; subst; try contradiction; auto; f_equal; auto. Qed.
(** the logo made from them *)
Example ex_logo ent prior : exists m f a w x y, logo_mat ex_rng ex_cos ex_sin 12 ent prior = Ok m /\ length (q_rows m) = 3%nat /\ nth_error (q_rows m) 2 = Some f /\
  nth_error (drawn ex_rng 12) 11 = Some (x, y) /\ 58 * a == x * np_pi /\ qu f = ex_cos a * ex_cos w /\ w == 0.
Proof.
  destruct (C87_fibers ex_rng ex_cos ex_sin 12 ent prior ex_draws ex_trig) as (xy & m & E & T & F & _). destruct ex_twelve as (xy' & T' & L).
  rewrite (those_fun _ _ _ T' _ T) in L. assert (LM : length (q_rows m) = 3%nat) by (rewrite <- L; clear - F; induction F; simpl; congruence).
  destruct (nth_error (q_rows m) 2) as [f|] eqn:EF; [|apply nth_error_None in EF; lia].
  destruct (C87_reused ex_rng ex_cos ex_sin 12 ent prior m 3 2 f ex_draws ex_trig E (eq_sym LM) ltac:(lia) EF) as (x & y & a & w & H1 & H2 & H3 & H4 & _).
  exists m, f, a, w, x, y. auto 10.
Qed.
(** both scripts with the right name *)
Example ex_meant ent prior : (exists k, square ex_rng ex_cos ex_sin ex_greedy ex_fin ex_cyl ex_place ex_near "solve" 3000 ent prior = Ok k) /\
  (exists k, logo ex_rng ex_cos ex_sin ex_greedy ex_fin ex_cyl ex_place ex_near "solve" 12 ent prior = Ok k).
Proof.
  destruct (C86_meant ex_rng ex_cos ex_sin ex_greedy ex_fin ex_cyl ex_place ex_near ex_greedy_right ex_draws ex_trig ex_fin_finite ex_fin_length ex_cyl_unit ex_near_right) as (A & B).
  split; [destruct (A 3000%Z ent prior ltac:(lia)) as (k & _ & _ & _ & _ & _ & E & _); eauto|].
  destruct ex_twelve as ([|p xy] & T & L); [discriminate L|]. destruct (B 12%nat ent prior) as (k & _ & _ & _ & _ & _ & _ & E & _); [|eauto].
  exists p. exact (those_in _ _ _ p T (or_introl eq_refl)).
Qed.
(** a mat that was not generated: three fibers laid by hand *)
Definition ex_hand : qmat := mkQmat [mkQ 4 1 1 0 0 0 1 0 0 (Fin 1) (Fin 10); mkQ 4 1 1 0 0 5 0 1 0 (Fin 1) PInf; mkQ 4 1 2 1 0 3 (3 # 5) (4 # 5) 0 (Fin 2) (Fin 10)] 10.
Definition ex_args (errtol : Q) : solve_params := mkSolve (Fin 2) 20 None (1 # 1000000) errtol (Some (1 # 100)) None (1 # 2).
Example ex_hand_ok errtol : 0 <= errtol -> packable ex_fin ex_hand (ex_args errtol) None.
Proof.
  intros H. split.
  - apply valid_intro. intros f Hf. repeat (destruct Hf as [<-|Hf]; [repeat split; vm_compute; first [reflexivity|exact I|discriminate]|]). destruct Hf.
  - split; [discriminate|]. split; [split; [cbn; lra|exact H]|]. split; [exact I|]. split; [exact ex_fin_length|left; exact ex_fin_finite].
Qed.
Example ex_packed : exists k K cs S s z, pack ex_greedy ex_fin ex_cyl ex_place ex_near "solve" ex_hand true (Some 1) (ex_args 0) None = Ok k /\ length (q_rows (pk_mat k)) = 3%nat /\
  packed_run ex_fin (ex_args 0) None k K cs S s /\ st_Z s = Fin z /\ no_overlap (pk_mat k) (pk_mesh k) (vals (st_u S s)).
Proof.
  pose proof (ex_hand_ok 0 ltac:(lra)) as PK. destruct (C85_total ex_greedy ex_fin ex_cyl ex_place ex_near ex_greedy_right ex_hand true (Some 1) _ None PK ex_cyl_unit ex_near_right) as (k & RUN).
  destruct (C85_fibers _ _ _ _ _ ex_greedy_right _ _ _ _ _ _ RUN) as (SB & _). destruct (C85_shown _ _ _ _ _ ex_greedy_right _ _ _ _ _ _ PK RUN) as (K & cs & S & s & d & r & f & t & PR & _).
  destruct (C85_admissible _ _ _ _ _ ex_greedy_right _ _ _ _ _ _ PK RUN K cs S s PR) as (z & Ez & _ & NO); [reflexivity| |].
  - intros f0 Hf. repeat (destruct Hf as [<-|Hf]; [reflexivity|]). destruct Hf.
  - exists k, K, cs, S, s, z. split; [exact RUN|]. split; [destruct SB as (_ & F); clear - F; change 3%nat with (length (q_rows ex_hand)); symmetry; induction F; simpl; congruence|]. auto.
Qed.

Print Assumptions C85_total.
Print Assumptions C85_fibers.
Print Assumptions C85_parts.
Print Assumptions C85_shown.
Print Assumptions C85_admissible.
Print Assumptions C86_names.
Print Assumptions C86_square.
Print Assumptions C86_logo.
Print Assumptions C86_meant.
Print Assumptions C86_scripts_refuted.
Print Assumptions C87_fibers.
Print Assumptions C87_seeded.
Print Assumptions C87_reused.
