(** Property theorems: classes of tables and dispatch of the constructors (C102). *)
From Verif Require Import Num NumP ListX Frames MatM NetM StackM MeshM MainM Spec SpecNet SpecStack SpecMesh SpecMain
  ClassesM SpecDefaults SpecClasses ClassesP PropsNet PropsStack PropsMain.
Open Scope Q_scope.

(** ** C102 *)
(** Mat(t) keeps the data of any table that passes Mat.check *)
Theorem C102_mat : forall t r, make_mat t = Ok r <-> check_mat t = Ok true /\ same_data t r /\ t_class r = CMat.
Proof. exact mat_wraps. Qed.
(** Net(t) and Stack(t) build only from a Mat, Mesh(t) only from a Net or a Stack; they keep the data of any other table that passes the check *)
Theorem C102_wraps : forall t r,
  (t_class t <> CMat -> (make_net t None None = Ok r <-> check_net t = Ok true /\ same_data t r /\ t_class r = CNet)) /\
  (forall linprog t', t_class t <> CMat -> (make_stack linprog t None None = Ok (r, t') <-> check_net t = Ok true /\ same_data t r /\ t_class r = CStack /\ t' = t)) /\
  (t_class t <> CNet -> t_class t <> CStack -> (make_mesh t = Ok r <-> check_mesh t = Ok true /\ same_data t r /\ t_class r = CMesh)).
Proof. exact (fun t r => conj (net_wraps t r) (conj (fun linprog t' => stack_wraps linprog t r t') (mesh_wraps t r))). Qed.
Theorem C102_builds : forall m t, mat_object m t -> valid m ->
  (forall per pairs r, make_net t per pairs = Ok r <-> exists n, net_new m (match per with Some b => b | None => true end) pairs = Ok n /\ net_object CNet n r) /\
  (forall linprog n thr tn r t', t_net tn = Some n -> (make_stack linprog t (Some tn) thr = Ok (r, t') <->
     exists st m', stack_new linprog m n thr = Ok (st, m') /\ net_object CStack st r /\ t' = mkTable CMat (t_attrs t) (Some (df_of m')) None None)) /\
  (forall linprog thr r t', make_stack linprog t None thr = Ok (r, t') <->
     exists st m', stack_new linprog m empty_net thr = Ok (st, m') /\ net_object CStack st r /\ t' = mkTable CMat (t_attrs t) (Some (df_of m')) None None).
Proof.
  exact (fun m t O V => conj (fun per pairs r => net_builds m per pairs t r O V) (conj (fun linprog n thr tn r t' => stack_builds linprog m n thr t tn r t' O V)
    (fun linprog thr r t' => stack_alone linprog m thr t r t' O V))).
Qed.
Theorem C102_mesh : forall c n t r, c = CNet \/ c = CStack -> net_object c n t -> (make_mesh t = Ok r <-> exists g, mesh_new n = Ok g /\ mesh_object g r).
Proof. exact mesh_builds. Qed.
(** the options of Net and Stack are refused with a table that is not a Mat *)
Theorem C102_keywords : forall t per pairs linprog net thr, t_class t <> CMat ->
  (passed per || passed pairs = true -> make_net t per pairs = Exn TypeErr) /\ (passed thr = true -> make_stack linprog t net thr = Exn TypeErr) /\
  (passed thr = false -> passed net = true -> make_stack linprog t net thr = Exn ValueErr).
Proof. exact keywords. Qed.
(** a copy has lost its class: nothing is built from it, until it is wrapped again *)
Theorem C102_copies : forall t, unmarked t ->
  (t_net t = None -> make_net (copy t) None None = Exn KeyErr) /\ (t_mesh t = None -> make_mesh (copy t) = Exn KeyErr).
Proof. exact (fun t U => conj (missing_net t U) (missing_mesh t U)). Qed.
Theorem C102_rewrapped : forall t,
  (t_class t = CMat -> check_mat t = Ok true -> forall per pairs, (do r <- make_mat (copy t); make_net r per pairs) = make_net t per pairs) /\
  (t_class t = CNet -> check_net t = Ok true -> (do r <- make_net (copy t) None None; make_mesh r) = make_mesh t).
Proof. exact (fun t => conj (fun C K per pairs => net_rewrapped t per pairs C K) (mesh_rewrapped t)). Qed.
(** each constructor gives back what it has made; a network wrapped as a stack is still the same network *)
Theorem C102_again : forall t r,
  (make_mat t = Ok r -> make_mat r = Ok r) /\ (forall per pairs, make_net t per pairs = Ok r -> make_net r None None = Ok r) /\ (make_mesh t = Ok r -> make_mesh r = Ok r) /\
  (forall per pairs linprog, make_net t per pairs = Ok r -> make_stack linprog r None None = Ok (as_class CStack r, r)).
Proof.
  exact (fun t r => conj (mat_again t r) (conj (fun per pairs => net_again t per pairs r) (conj (mesh_again t r) (fun per pairs linprog => stack_of_net t per pairs r linprog)))).
Qed.
(** with "skip_check" set, a copy of a mat is taken for a network; the mesh then misses its columns *)
Theorem C102_marked : forall t, flag_set (t_attrs t) -> t_net t = None ->
  exists r, make_net (copy t) None None = Ok r /\ t_class r = CNet /\ same_data t r /\ make_mesh r = Exn KeyErr.
Proof. exact marked_copy. Qed.

(** a new mat is an object of class Mat with its own attributes, so that Net, Stack and Mat.check take it as such *)
Theorem C102_object : forall m, mat_object m (mat_table (df_of m)).
Proof. exact (fun m => conj eq_refl (conj eq_refl (conj eq_refl (conj eq_refl eq_refl)))). Qed.

(** ** cases *)
Example ex_object m : mat_object m (mat_table (df_of m)).
Proof. repeat split. Qed.
Example ex_object_checked : check_mat (mat_table (df_of (ex_mats 2))) = Ok true /\ unmarked (mat_table (df_of (ex_mats 2))).
Proof. split; [apply NetP.valid_check; exact ex_mats_valid|intros C; discriminate C]. Qed.
Example ex_object_net : make_net (mat_table (df_of (ex_mats 2))) None None = Ok (net_table CNet (ex_t None)).
Proof. apply (proj1 (C102_builds (ex_mats 2) _ (ex_object _) ex_mats_valid)). exists (ex_t None). split; [exact ex_t_all|repeat split]. Qed.
Example ex_marked : exists r, make_net (copy (mkTable CMat (mkAttrs (Some 3%Z) (Some (Fin 10)) None (Some true)) (Some (df_of (ex_mats 2))) None None)) None None = Ok r /\ make_mesh r = Exn KeyErr.
Proof. destruct (C102_marked (mkTable CMat (mkAttrs (Some 3%Z) (Some (Fin 10)) None (Some true)) (Some (df_of (ex_mats 2))) None None) eq_refl eq_refl) as (r & A & _ & _ & B). exists r. split; [exact A|exact B]. Qed.

(** Net does not treat a copy of a mat as the mat *)
Theorem C102_copy_refuted : ~ (forall t r, unmarked t -> check_mat t = Ok true -> t_class t = CMat -> make_net t None None = Ok r -> make_net (copy t) None None = Ok r).
Proof.
  intros H. destruct ex_object_checked as (K & U). pose proof (H _ _ U K eq_refl ex_object_net) as E.
  rewrite (proj1 (C102_copies _ U) eq_refl) in E. discriminate E.
Qed.
(** Stack(net) does not stack *)
Theorem C102_stack_refuted : ~ (forall linprog m t n r t', right_linprog linprog -> mat_object m t -> valid m -> make_net t None None = Ok n -> make_stack linprog n None None = Ok (r, t') ->
  forall d k c f g, t_net r = Some d -> is_row d k c -> (cA c < cB c)%Z -> has_fiber m (cA c) f -> has_fiber m (cB c) g -> (qh f + qh g) / 2 <= czB c - czA c).
Proof.
  intros H. set (m := ex_mats 0).
  assert (V : valid m) by (destruct (proj1 (CheckP.mat_check_ok (df_of m)) eq_refl) as [X|X]; [discriminate X|exact X]).
  assert (E : exists n, net_new m true None = Ok n /\ existsb (fun c => Z.eqb (cA (snd c)) 1 && Z.eqb (cB (snd c)) 2 && Qltb (czB (snd c) - czA (snd c)) 1) (n_rows n) = true).
  { eexists. split; vm_compute; reflexivity. }
  destruct E as (n & En & Ex). assert (EN : make_net (mat_table (df_of m)) None None = Ok (net_table CNet n)).
  { apply (proj1 (C102_builds m _ (ex_object m) V)). exists n. split; [exact En|repeat split]. }
  pose proof (proj2 (proj2 (proj2 (C102_again _ _))) None None ex_greedy EN) as ES.
  apply existsb_exists in Ex as ((k & c) & Hin & Hc). apply In_nth_error in Hin as (i & Hi). cbn [snd] in Hc.
  apply andb_true_iff in Hc as (Hc & Hz). apply andb_true_iff in Hc as (HA & HB). apply Z.eqb_eq in HA, HB.
  assert (HR : is_row n i c) by (apply (MeshP.nth_is_row _ _ _ _ _ _ En); exists k; exact Hi).
  assert (L : (cA c < cB c)%Z) by (rewrite HA, HB; reflexivity).
  assert (F1 : has_fiber m (cA c) (ex_q 5 (-4.5) (-4) 0 0.6 0.8)) by (rewrite HA; split; [discriminate|reflexivity]).
  assert (F2 : has_fiber m (cB c) (ex_q 3 4.5 4 0 0 1)) by (rewrite HB; split; [discriminate|reflexivity]).
  pose proof (H ex_greedy m _ _ _ _ ex_greedy_right (ex_object m) V EN ES n i c _ _ eq_refl HR L F1 F2) as X.
  cbn [ex_q qh] in X. apply Qltb_lt in Hz. qlra.
Qed.

Print Assumptions C102_mat. Print Assumptions C102_object.
Print Assumptions C102_wraps.
Print Assumptions C102_builds.
Print Assumptions C102_mesh.
Print Assumptions C102_keywords.
Print Assumptions C102_copies.
Print Assumptions C102_rewrapped.
Print Assumptions C102_again.
Print Assumptions C102_marked.
Print Assumptions C102_copy_refuted.
Print Assumptions C102_stack_refuted.
