(** Proofs for C102. *)
From Verif Require Import Num NumP ListX ListP Frames MatM NetM StackM MeshM MainM Spec SpecNet SpecStack SpecMesh SpecMain
  CheckP NetP NetGeoP NetZP StackP StackNewP MeshP MeshCheckP ClassesM SpecClasses.
Open Scope Q_scope.

Lemma same_as t r c : same_data t r -> t_class r = c -> r = as_class c t.
Proof. destruct t, r. unfold same_data, as_class. cbn. intros (-> & -> & -> & ->) ->. reflexivity. Qed.
Lemma wrapped_iff c f t r : (forall b, f t = Ok b -> b = true) ->
  (wrapped c f t = Ok r <-> f t = Ok true /\ same_data t r /\ t_class r = c).
Proof.
  intros HB. unfold wrapped. destruct (f t) as [b|e] eqn:E; cbn [bind].
  - rewrite (HB b eq_refl). split.
    + intros H. injection H as <-. repeat split.
    + intros (_ & S & C). rewrite (same_as t r c S C). reflexivity.
  - split; [intros H; discriminate H|intros (H & _); discriminate H].
Qed.
Lemma mat_bool t b : check_mat t = Ok b -> b = true.
Proof. unfold check_mat, checked. destruct (t_mat t); [apply mat_check_true|]. destruct (skipped _); intros H; [injection H as <-; reflexivity|discriminate H]. Qed.
Lemma net_bool t b : check_net t = Ok b -> b = true.
Proof. unfold check_net, checked. destruct (t_net t); [apply net_check_true|]. destruct (skipped _); intros H; [injection H as <-; reflexivity|discriminate H]. Qed.
Lemma mesh_bool t b : check_mesh t = Ok b -> b = true.
Proof. unfold check_mesh, checked. destruct (t_mesh t); [apply mesh_check_true|]. destruct (skipped _); intros H; [injection H as <-; reflexivity|discriminate H]. Qed.

Lemma mat_wraps t r : make_mat t = Ok r <-> check_mat t = Ok true /\ same_data t r /\ t_class r = CMat.
Proof. apply wrapped_iff. apply mat_bool. Qed.
Lemma net_wraps t r : t_class t <> CMat -> (make_net t None None = Ok r <-> check_net t = Ok true /\ same_data t r /\ t_class r = CNet).
Proof.
  intros H. unfold make_net, is_mat. destruct (t_class t); try congruence; apply wrapped_iff; apply net_bool.
Qed.
Lemma stack_wraps linprog t r t' : t_class t <> CMat ->
  (make_stack linprog t None None = Ok (r, t') <-> check_net t = Ok true /\ same_data t r /\ t_class r = CStack /\ t' = t).
Proof.
  intros H. assert (E : make_stack linprog t None None = do s <- wrapped CStack check_net t; Ok (s, t)) by (unfold make_stack, is_mat; destruct (t_class t); try congruence; reflexivity).
  rewrite E. pose proof (wrapped_iff CStack check_net t r (net_bool t)) as W. destruct (wrapped CStack check_net t) as [s|e] eqn:Es; cbn [bind]; split.
  - intros X. injection X as <- <-. destruct (proj1 W eq_refl) as (A & B & C). auto.
  - intros (A & B & C & ->). pose proof (proj2 W (conj A (conj B C))) as X. injection X as ->. reflexivity.
  - intros X. discriminate X.
  - intros (A & B & C & ->). pose proof (proj2 W (conj A (conj B C))) as X. discriminate X.
Qed.
Lemma mesh_wraps t r : t_class t <> CNet -> t_class t <> CStack -> (make_mesh t = Ok r <-> check_mesh t = Ok true /\ same_data t r /\ t_class r = CMesh).
Proof.
  intros H H'. unfold make_mesh, is_net. destruct (t_class t); try congruence; apply wrapped_iff; apply mesh_bool.
Qed.

Lemma read_df m : read_mat (df_of m) = m.
Proof.
  destruct m as [rows size]. unfold read_mat, df_of. cbn [m_rows m_attrs at_size qof q_rows q_size]. f_equal.
  rewrite <- (map_map snd read_fiber), enum_snd, map_map. rewrite <- (map_id rows) at 2. apply map_ext. intros f. destruct f. reflexivity.
Qed.
Lemma valid_built m per pairs t : mat_object m t -> valid m ->
  make_net t per pairs = (do n <- net_new m (match per with Some b => b | None => true end) pairs; Ok (net_table CNet n)).
Proof.
  intros (C & A & M & _) V. unfold make_net, is_mat. rewrite C. unfold read_fibers. rewrite M, (valid_check m V). cbn [bind]. rewrite read_df. reflexivity.
Qed.
Lemma net_builds m per pairs t r : mat_object m t -> valid m ->
  (make_net t per pairs = Ok r <-> exists n, net_new m (match per with Some b => b | None => true end) pairs = Ok n /\ net_object CNet n r).
Proof.
  intros O V. rewrite (valid_built m per pairs t O V). destruct (net_new m _ pairs) as [n|e]; cbn [bind]; split.
  - intros H. injection H as <-. exists n. repeat split.
  - intros (n' & H & C & A & N & M & G). injection H as <-. destruct r. cbn in *. subst. reflexivity.
  - intros H. discriminate H.
  - intros (n' & H & _). discriminate H.
Qed.
Lemma stack_builds linprog m n thr t tn r t' : mat_object m t -> valid m -> t_net tn = Some n ->
  (make_stack linprog t (Some tn) thr = Ok (r, t') <->
   exists st m', stack_new linprog m n thr = Ok (st, m') /\ net_object CStack st r /\ t' = mkTable CMat (t_attrs t) (Some (df_of m')) None None).
Proof.
  intros (C & A & M & N & G) V HN. unfold make_stack, is_mat. rewrite C. unfold read_fibers. rewrite M, (valid_check m V). cbn [bind]. rewrite read_df.
  unfold check_net, checked, read_rows. rewrite HN, N, G.
  assert (E : (do n0 <- (do _ <- net_check n; Ok n); do r0 <- stack_new linprog m n0 thr; Ok (net_table CStack (fst r0), mkTable CMat (t_attrs t) (Some (df_of (snd r0))) None None))
    = (do r0 <- stack_new linprog m n thr; Ok (net_table CStack (fst r0), mkTable CMat (t_attrs t) (Some (df_of (snd r0))) None None))).
  { destruct (net_check n) eqn:En; cbn [bind]; [reflexivity|]. unfold stack_new. rewrite (valid_check m V), En. reflexivity. }
  rewrite E. destruct (stack_new linprog m n thr) as [[st m']|e]; cbn [bind fst snd]; split.
  - intros H. injection H as <- <-. exists st, m'. repeat split.
  - intros (st0 & m0 & H & (C' & A' & N' & M' & G') & ->). injection H as <- <-. destruct r. cbn in *. subst. reflexivity.
  - intros H. discriminate H.
  - intros (st0 & m0 & H & _). discriminate H.
Qed.
Lemma stack_alone linprog m thr t r t' : mat_object m t -> valid m ->
  (make_stack linprog t None thr = Ok (r, t') <->
   exists st m', stack_new linprog m (mkNetDf net_columns [] (mkAttrs (Some 0%Z) (Some (Fin 50)) (Some true) None) true) thr = Ok (st, m') /\
     net_object CStack st r /\ t' = mkTable CMat (t_attrs t) (Some (df_of m')) None None).
Proof.
  intros (C & A & M & N & G) V. unfold make_stack, is_mat. rewrite C. unfold read_fibers. rewrite M, (valid_check m V). cbn [bind]. rewrite read_df.
  unfold no_net. rewrite N, G. destruct (stack_new linprog m _ thr) as [[st m']|e]; cbn [bind fst snd]; split.
  - intros H. injection H as <- <-. exists st, m'. repeat split.
  - intros (st0 & m0 & H & (C' & A' & N' & M' & G') & ->). injection H as <- <-. destruct r. cbn in *. subst. reflexivity.
  - intros H. discriminate H.
  - intros (st0 & m0 & H & _). discriminate H.
Qed.
Lemma mesh_builds c n t r : c = CNet \/ c = CStack -> net_object c n t ->
  (make_mesh t = Ok r <-> exists g, mesh_new n = Ok g /\ mesh_object g r).
Proof.
  intros HC (C & A & N & M & G). unfold make_mesh, is_net. rewrite C. unfold read_rows. rewrite N.
  destruct HC as [-> | ->]; cbn [bind]; (destruct (mesh_new n) as [g|e]; cbn [bind]; split;
    [intros H; injection H as <-; exists g; repeat split|
     intros (g' & H & C' & A' & G' & M' & N'); injection H as <-; destruct r; cbn in *; subst; reflexivity|
     intros H; discriminate H|intros (g' & H & _); discriminate H]).
Qed.

(** *** copies *)
Lemma check_copy t : check_mat (copy t) = check_mat t /\ check_net (copy t) = check_net t /\ check_mesh (copy t) = check_mesh t.
Proof. repeat split. Qed.
Lemma skip_false a : ~ flag_set a -> skipped a = false.
Proof. unfold flag_set, skipped. destruct (at_skip a) as [[|]|]; congruence. Qed.
Lemma missing_net t : unmarked t -> t_net t = None -> make_net (copy t) None None = Exn KeyErr.
Proof. intros U N. unfold make_net, is_mat, wrapped, check_net, checked. cbn. rewrite N, (skip_false _ U). reflexivity. Qed.
Lemma missing_mesh t : unmarked t -> t_mesh t = None -> make_mesh (copy t) = Exn KeyErr.
Proof. intros U N. unfold make_mesh, is_net, wrapped, check_mesh, checked. cbn. rewrite N, (skip_false _ U). reflexivity. Qed.
Lemma mat_copy t : make_mat (copy t) = make_mat t.
Proof. reflexivity. Qed.
Lemma as_self c t : t_class t = c -> as_class c t = t.
Proof. destruct t. cbn. intros <-. reflexivity. Qed.
Lemma net_rewrapped t per pairs : t_class t = CMat -> check_mat t = Ok true -> (do r <- make_mat (copy t); make_net r per pairs) = make_net t per pairs.
Proof. intros C K. rewrite mat_copy. unfold make_mat, wrapped. rewrite K. cbn [bind]. rewrite (as_self CMat t C). reflexivity. Qed.
Lemma mesh_rewrapped t : t_class t = CNet -> check_net t = Ok true -> (do r <- make_net (copy t) None None; make_mesh r) = make_mesh t.
Proof.
  intros C K. unfold make_net. cbn [copy as_class is_mat t_class passed orb]. unfold wrapped. rewrite (proj1 (proj2 (check_copy t))), K. cbn [bind].
  unfold copy. change (as_class CNet (as_class Plain t)) with (as_class CNet t). rewrite (as_self CNet t C). reflexivity.
Qed.
Lemma keywords t per pairs linprog net thr : t_class t <> CMat ->
  (passed per || passed pairs = true -> make_net t per pairs = Exn TypeErr) /\ (passed thr = true -> make_stack linprog t net thr = Exn TypeErr) /\
  (passed thr = false -> passed net = true -> make_stack linprog t net thr = Exn ValueErr).
Proof.
  intros C. unfold make_net, make_stack, is_mat. split; [|split]; intros H; rewrite H; [| |intros H'; rewrite H']; destruct (t_class t); congruence.
Qed.

(** *** once made, made for good *)
Lemma mat_again t r : make_mat t = Ok r -> make_mat r = Ok r.
Proof. intros H. apply mat_wraps in H as (K & (A & M & N & G) & C). apply mat_wraps. split; [|repeat split; exact C]. unfold check_mat. rewrite A, M. exact K. Qed.
Lemma checked_net_object c n t : net_object c n t -> net_check n = Ok true -> check_net t = Ok true.
Proof. intros (_ & _ & N & _) H. unfold check_net, checked. rewrite N. exact H. Qed.
Lemma net_made t per pairs r : make_net t per pairs = Ok r -> t_class r = CNet /\ check_net r = Ok true.
Proof.
  unfold make_net. destruct (is_mat t).
  - destruct (read_fibers t) as [m|]; [|discriminate]. cbn [bind]. destruct (net_new m _ pairs) as [n|] eqn:E; [|discriminate]. cbn [bind]. intros H. injection H as <-.
    split; [reflexivity|]. unfold check_net, checked. cbn [net_table t_net]. apply net_check_ok. right. exact (new_ok _ _ _ _ E).
  - destruct (passed per || passed pairs); [discriminate|]. intros H. apply wrapped_iff in H; [|apply net_bool]. destruct H as (K & (A & M & N & G) & C).
    split; [exact C|]. unfold check_net. rewrite A, N. exact K.
Qed.
Lemma net_again t per pairs r : make_net t per pairs = Ok r -> make_net r None None = Ok r.
Proof.
  intros H. apply net_made in H as (C & K). apply net_wraps; [rewrite C; discriminate|]. split; [exact K|]. split; [repeat split|exact C].
Qed.
Lemma stack_of_net t per pairs r linprog : make_net t per pairs = Ok r -> make_stack linprog r None None = Ok (as_class CStack r, r).
Proof.
  intros H. apply net_made in H as (C & K). apply stack_wraps; [rewrite C; discriminate|]. repeat split. exact K.
Qed.
Lemma mesh_new_checked n g : mesh_new n = Ok g -> mesh_check g = Ok true.
Proof.
  unfold mesh_new. destruct (mesh_init n) as [g'|]; [|discriminate]. cbn [bind]. destruct (mesh_check g') as [b|] eqn:E; [|discriminate]. cbn [bind].
  intros H. injection H as <-. rewrite (mesh_check_true _ _ E) in E. exact E.
Qed.
Lemma mesh_again t r : make_mesh t = Ok r -> make_mesh r = Ok r.
Proof.
  unfold make_mesh at 1. destruct (is_net t).
  - destruct (read_rows t) as [n|]; [|discriminate]. cbn [bind]. destruct (mesh_new n) as [g|] eqn:E; [|discriminate]. cbn [bind]. intros H. injection H as <-.
    unfold make_mesh. cbn [is_net mesh_table t_class]. unfold wrapped, check_mesh, checked. cbn [mesh_table t_mesh t_attrs]. rewrite (mesh_new_checked _ _ E). reflexivity.
  - intros H. apply wrapped_iff in H; [|apply mesh_bool]. destruct H as (K & (A & M & N & G) & C).
    apply mesh_wraps; [rewrite C; discriminate|rewrite C; discriminate|]. split; [unfold check_mesh; rewrite A, G; exact K|]. split; [repeat split|exact C].
Qed.
(** *** a marked mat *)
Lemma marked_copy t : flag_set (t_attrs t) -> t_net t = None ->
  exists r, make_net (copy t) None None = Ok r /\ t_class r = CNet /\ same_data t r /\ make_mesh r = Exn KeyErr.
Proof.
  intros F N. exists (as_class CNet t). assert (K : check_net (copy t) = Ok true).
  { unfold check_net, checked. change (t_net (copy t)) with (t_net t). change (t_attrs (copy t)) with (t_attrs t). rewrite N.
    unfold flag_set in F. unfold skipped. rewrite F. reflexivity. }
  split; [apply net_wraps; [discriminate|]; repeat split; exact K|]. split; [reflexivity|]. split; [repeat split|].
  unfold make_mesh, read_rows. change (is_net (as_class CNet t)) with true. change (t_net (as_class CNet t)) with (t_net t). rewrite N. reflexivity.
Qed.
