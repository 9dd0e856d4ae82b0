(** Property theorems for the energy of the recorded states (C80, C81). *)
From Coq Require Import String.
From Verif Require Import Num NumP ListX ListP Frames MatM NetM StackM MeshM ModelM SolverM Spec SpecNet SpecStack SpecMesh SpecModel SpecSolver SpecEnergy
  CheckP MeshCheckP NetP StackP StackNewP MeshP StiffP StiffLimP StiffLenP ConstraintP SolverP SolverRunP SolverSysP SolverApiP SolverFinP EnergyP
  PropsNet PropsStack PropsMesh PropsModel PropsSolver GaussX.
Open Scope Q_scope.

(** ** C80: the energy stored in the fibers is the work of the lid *)
Theorem C80_work : forall lsolve m g p S h, solve lsolve m g p = Ok (S, h) -> ~ flag_set (g_attrs g) -> tolerances_ok p ->
  forall K cs, stiffness m g (sp_lmin p) (sp_lmax p) (sp_coupling p) = Ok K -> constraint m g = Ok cs -> sp_errtol p == 0 ->
  lengths_ok g (sp_lmin p) (sp_lmax p) -> finite_moduli m ->
  forall k s n, length (csH cs) = (3 * n)%nat -> nth_error h k = Some s -> reliable lsolve m g p S s ->
  stored K (vals (st_u S s)) == lid_work S n (firstn (Datatypes.S k) h).
Proof. exact energy_work. Qed.
(** it is also half the work of the contact forces over the displacements *)
Theorem C80_contacts : forall lsolve m g p S h, solve lsolve m g p = Ok (S, h) -> ~ flag_set (g_attrs g) -> tolerances_ok p ->
  forall K cs, stiffness m g (sp_lmin p) (sp_lmax p) (sp_coupling p) = Ok K -> constraint m g = Ok cs -> sp_errtol p == 0 ->
  lengths_ok g (sp_lmin p) (sp_lmax p) -> finite_moduli m ->
  forall s, In s h -> reliable lsolve m g p S s ->
  quadratic K (vals (st_u S s)) == - contact_work (csC cs) (vals (st_f S s)) (vals (st_u S s)).
Proof. exact energy_contacts. Qed.

(** ** C81: states in which no contact pulls have the least energy at their lid height *)
Theorem C81_minimum : forall lsolve m g p S h, solve lsolve m g p = Ok (S, h) -> ~ flag_set (g_attrs g) -> tolerances_ok p ->
  forall K cs, stiffness m g (sp_lmin p) (sp_lmax p) (sp_coupling p) = Ok K -> constraint m g = Ok cs -> sp_errtol p == 0 ->
  lengths_ok g (sp_lmin p) (sp_lmax p) -> finite_moduli m -> sp_coupling p * sp_coupling p <= 1 ->
  forall s, In s h -> reliable lsolve m g p S s -> pushes (vals (st_f S s)) ->
  forall z v, st_Z s = Fin z -> in_slab m g z v -> no_overlap m g v ->
  stored K (vals (st_u S s)) <= stored K v + sp_tol p * qsum (vals (st_f S s)).
Proof. exact minimum. Qed.
(** up to translations of fibers, the minimum is reached there only *)
Theorem C81_unique : forall lsolve m g p S h, solve lsolve m g p = Ok (S, h) -> ~ flag_set (g_attrs g) -> tolerances_ok p ->
  forall K cs, stiffness m g (sp_lmin p) (sp_lmax p) (sp_coupling p) = Ok K -> constraint m g = Ok cs -> sp_errtol p == 0 ->
  lengths_ok g (sp_lmin p) (sp_lmax p) -> finite_moduli m -> sp_coupling p * sp_coupling p <= 1 ->
  forall s, In s h -> reliable lsolve m g p S s -> pushes (vals (st_f S s)) -> sp_tol p == 0 -> sp_coupling p * sp_coupling p < 1 ->
  forall z v, st_Z s = Fin z -> in_slab m g z v -> no_overlap m g v -> stored K v <= stored K (vals (st_u S s)) ->
  differ_by_translations g (vals (st_u S s)) v.
Proof. exact minimum_unique. Qed.
(** the energy does not decrease from such a state to a later one *)
Theorem C81_grows : forall lsolve m g p S h, solve lsolve m g p = Ok (S, h) -> ~ flag_set (g_attrs g) -> tolerances_ok p ->
  forall K cs, stiffness m g (sp_lmin p) (sp_lmax p) (sp_coupling p) = Ok K -> constraint m g = Ok cs -> sp_errtol p == 0 ->
  lengths_ok g (sp_lmin p) (sp_lmax p) -> finite_moduli m -> sp_coupling p * sp_coupling p <= 1 ->
  forall k j s s', admissible_start m g -> nth_error h k = Some s -> nth_error h (k + j) = Some s' -> reliable lsolve m g p S s' ->
  pushes (vals (st_f S s)) ->
  stored K (vals (st_u S s)) <= stored K (vals (st_u S s')) + sp_tol p * qsum (vals (st_f S s)).
Proof. exact energy_grows. Qed.

(** ** examples: three point bending *)
Definition ex_bentK : ncoo := ex_K (ex_bend (Fin 1)) (ex_bendg (Fin 1)) None None 1.
Example ex_bent_balance : forall k s, nth_error (snd ex_bent) k = Some s ->
  stored ex_bentK (vals (st_u (fst ex_bent) s)) == lid_work (fst ex_bent) 11 (firstn (Datatypes.S k) (snd ex_bent)).
Proof.
  intros k s Hs. pose proof (ex_bend_cs (Fin 1) (or_intror eq_refl)) as Hcs.
  refine (C80_work _ _ _ _ _ _ ex_bent_ok (ex_bend_noflag _ (or_intror eq_refl)) (proj1 ex_tols) _ _ (ex_bend_K _ (or_intror eq_refl)) Hcs (Qeq_refl _)
    (ex_bend_lengths _ (or_intror eq_refl)) (proj2 ex_bend_moduli) k s 11%nat _ Hs _).
  - vm_compute. reflexivity.
  - exact (ex_reliable (Fin 1) (ex_p 3 0 0) _ _ s (or_intror eq_refl) eq_refl ex_bent_ok (nth_error_In _ _ Hs)).
Qed.
Lemma ex_pushes l : forallb (fun x => Qleb 0 x) l = true -> pushes l.
Proof.
  intros H r. rewrite forallb_forall in H. destruct (nth_in_or_default r l 0) as [I|E]; [|rewrite E; lra]. specialize (H _ I). qb. exact H.
Qed.
Example ex_bent_least : forall s z v, In s (snd ex_bent) -> st_Z s = Fin z ->
  in_slab (ex_bend (Fin 1)) (ex_bendg (Fin 1)) z v -> no_overlap (ex_bend (Fin 1)) (ex_bendg (Fin 1)) v ->
  stored ex_bentK (vals (st_u (fst ex_bent) s)) <= stored ex_bentK v.
Proof.
  intros s z v Hs Ez I1 I2. pose proof (ex_bend_cs (Fin 1) (or_intror eq_refl)) as Hcs.
  assert (P : pushes (vals (st_f (fst ex_bent) s))).
  { apply ex_pushes. pose proof ex_bent_values as E. apply (f_equal (map snd)) in E. rewrite map_map in E. cbn [map snd] in E.
    assert (F : In (forallb (fun x => Qleb 0 x) (vals (st_f (fst ex_bent) s))) [true; true; true]).
    { rewrite <- E. apply (in_map (fun s => forallb (fun x => Qleb 0 x) (vals (st_f (fst ex_bent) s)))). exact Hs. }
    destruct F as [F|[F|[F|[]]]]; symmetry; exact F. }
  pose proof (C81_minimum _ _ _ _ _ _ ex_bent_ok (ex_bend_noflag _ (or_intror eq_refl)) (proj1 ex_tols) _ _ (ex_bend_K _ (or_intror eq_refl)) Hcs (Qeq_refl _)
    (ex_bend_lengths _ (or_intror eq_refl)) (proj2 ex_bend_moduli) ltac:(simpl; lra) s Hs
    (ex_reliable (Fin 1) (ex_p 3 0 0) _ _ s (or_intror eq_refl) eq_refl ex_bent_ok Hs) P z v Ez I1 I2) as L.
  cbn [sp_tol ex_p] in L. unfold ex_bentK. lra.
Qed.

(** beams whose bending and shear are coupled by 1/2, one step: the deformation found is the only one of least energy *)
Definition ex_halfp : solve_params := mkSolve (Fin 3) 1 None 0 0 None None (1 # 2).
Definition ex_half : sysdata * list state := ex_run gauss (ex_bend (Fin 1)) (ex_bendg (Fin 1)) ex_halfp.
Example ex_half_signs : map (fun s => (forallb (fun x => Qleb 0 x) (vals (st_f (fst ex_half) s)), existsb (fun x => Qltb 0 x) (vals (st_f (fst ex_half) s)))) (snd ex_half) =
  [(true, false); (true, true)].
Proof. vm_compute. reflexivity. Qed.
Example ex_half_only : forall s z v, In s (snd ex_half) -> st_Z s = Fin z ->
  in_slab (ex_bend (Fin 1)) (ex_bendg (Fin 1)) z v -> no_overlap (ex_bend (Fin 1)) (ex_bendg (Fin 1)) v ->
  stored (ex_K (ex_bend (Fin 1)) (ex_bendg (Fin 1)) None None (1 # 2)) v <=
  stored (ex_K (ex_bend (Fin 1)) (ex_bendg (Fin 1)) None None (1 # 2)) (vals (st_u (fst ex_half) s)) ->
  differ_by_translations (ex_bendg (Fin 1)) (vals (st_u (fst ex_half) s)) v.
Proof.
  assert (OK : solve gauss (ex_bend (Fin 1)) (ex_bendg (Fin 1)) ex_halfp = Ok (fst ex_half, snd ex_half)).
  { unfold ex_half, ex_run. destruct (ex_bend_total (Fin 1) (or_intror eq_refl)) as (V & M & N & i & j & d & e & B & _).
    destruct (C36_total gauss _ _ ex_halfp V M N (ex_intro _ i (ex_intro _ j (ex_intro _ d (ex_intro _ e B))))) as (S & h & E). rewrite E. reflexivity. }
  assert (HK : stiffness (ex_bend (Fin 1)) (ex_bendg (Fin 1)) None None (1 # 2) = Ok (ex_K (ex_bend (Fin 1)) (ex_bendg (Fin 1)) None None (1 # 2)))
    by (vm_compute; reflexivity).
  intros s z v Hs Ez I1 I2 LE.
  assert (R : reliable gauss (ex_bend (Fin 1)) (ex_bendg (Fin 1)) ex_halfp (fst ex_half) s).
  { split; [exact gauss_length|]. right. split; [exact gauss_finite|]. split; [eapply ex_perm; [exact OK|reflexivity]|].
    split; [exact (ex_bend_lengths _ (or_intror eq_refl))|]. split.
    - intros f Hf. destruct (proj2 ex_bend_moduli f Hf) as (G & E & HG & _). exists G. exact HG.
    - left. destruct (solve_inv _ _ _ _ _ _ OK) as (K & cs & _ & _ & ES & _). rewrite ES. reflexivity. }
  assert (P : pushes (vals (st_f (fst ex_half) s))).
  { apply ex_pushes. pose proof ex_half_signs as E. apply (f_equal (map fst)) in E. rewrite map_map in E. cbn [map fst] in E.
    assert (F : In (forallb (fun x => Qleb 0 x) (vals (st_f (fst ex_half) s))) [true; true]).
    { rewrite <- E. apply (in_map (fun s => forallb (fun x => Qleb 0 x) (vals (st_f (fst ex_half) s)))). exact Hs. }
    destruct F as [F|[F|[]]]; symmetry; exact F. }
  exact (C81_unique _ _ _ _ _ _ OK (ex_bend_noflag _ (or_intror eq_refl)) (conj (Qle_refl 0) (Qle_refl 0)) _ _ HK (ex_bend_cs (Fin 1) (or_intror eq_refl)) (Qeq_refl _)
    (ex_bend_lengths _ (or_intror eq_refl)) (proj2 ex_bend_moduli) ltac:(simpl; lra) s Hs R P (Qeq_refl _) ltac:(simpl; lra) z v Ez I1 I2 LE).
Qed.

(** ** C81 without the condition on the forces: the fiber on three supports whose third contact pulls; letting it rise there lowers the energy *)
Fixpoint rsum (l : list Q) : Q := match l with [] => 0 | x :: t => Qred (x + rsum t) end.
Lemma rsum_qsum l : rsum l == qsum l.
Proof. induction l as [|x l IH]; [reflexivity|]. cbn [rsum qsum]. rewrite Qred_correct, IH. reflexivity. Qed.
Lemma ex_same_nth a b : ex_same a b = true -> forall r, nth r a 0 == nth r b 0.
Proof.
  unfold ex_same. intros H. apply andb_true_iff in H. destruct H as [L F]. apply Nat.eqb_eq in L. revert b L F.
  induction a as [|x a IH]; intros [|y b] L F r; try discriminate L; [reflexivity|]. cbn [combine forallb] in F.
  apply andb_true_iff in F. destruct F as [F0 F]. destruct r; cbn [nth]; [qb; exact F0|]. apply IH; [injection L; auto|exact F].
Qed.
Lemma quadratic_same P a b : (forall r, nth r a 0 == nth r b 0) -> quadratic P a == quadratic P b.
Proof. intros H. unfold quadratic. apply qsum_ext. intros [[i c] v] _. rewrite !H. reflexivity. Qed.
Definition terms (P : ncoo) (u : list Q) : list Q := map (fun e => let '(i, c, v) := e in Qred (nth i u 0 * (qof v * nth c u 0))) P.
Lemma quadratic_lt P a b : Qltb (rsum (terms P a)) (rsum (terms P b)) = true -> quadratic P a < quadratic P b.
Proof.
  intros H. apply Qltb_lt in H. rewrite !rsum_qsum in H.
  assert (E : forall u, qsum (terms P u) == quadratic P u) by (intros u; apply qsum_ext; intros [[i c] v] _; apply Qred_correct).
  rewrite !E in H. exact H.
Qed.
Definition ex_risen : list Q :=
  repeat 0 18 ++ map (fun z => z # 29684) [8382; -8382; 0; -8382; -21152; -720; 0; 6078; 3966; 2568; 6534; 2568; -21152; 0; -21152; 0; -21152; 0]%Z.
Example ex_risen_energy : let K := ex_K ex_lift (ex_g ex_liftt) None None 1 in quadratic K ex_risen < quadratic K ex_liftu.
Proof.
  apply quadratic_lt. vm_compute. reflexivity.
Qed.
Example ex_risen_fits : in_slab ex_lift (ex_g ex_liftt) (16975 # 7421) ex_risen /\ no_overlap ex_lift (ex_g ex_liftt) ex_risen.
Proof.
  destruct ex_lift_ok as (NF & Hcs & _).
  assert (E : csZ (ex_cs ex_lift (ex_g ex_liftt)) + (-(5288 # 7421)) == 16975 # 7421) by (vm_compute; reflexivity).
  assert (G : satisfies (csC (ex_cs ex_lift (ex_g ex_liftt)))
    (bounds_at (csH (ex_cs ex_lift (ex_g ex_liftt))) (csdH (ex_cs ex_lift (ex_g ex_liftt))) (-(5288 # 7421))) ex_risen).
  { set (C := csC (ex_cs ex_lift (ex_g ex_liftt))). set (H := bounds_at _ _ _).
    assert (F : forallb (fun rb => nleb (Fin (product C ex_risen (fst rb))) (snd rb)) (combine (seq 0 (length H)) H) = true) by (vm_compute; reflexivity).
    intros r b Hb. rewrite forallb_forall in F. apply (F (r, b)). apply (nth_error_In _ r). apply combine_nth_error; [|exact Hb].
    apply seq_nth_error. apply nth_error_Some. congruence. }
  apply (cons_moved _ _ _ Hcs NF) in G. destruct G as [G1 G2]. split; [|exact G2].
  intros i d hh Hd Hh. destruct (G1 i d hh Hd Hh) as [L1 L2]. rewrite E in L2. split; assumption.
Qed.
Theorem C81_pulling_refuted :
  ~ (forall lsolve m g p S h, solve lsolve m g p = Ok (S, h) -> ~ flag_set (g_attrs g) -> tolerances_ok p ->
     forall K cs, stiffness m g (sp_lmin p) (sp_lmax p) (sp_coupling p) = Ok K -> constraint m g = Ok cs -> sp_errtol p == 0 ->
     lengths_ok g (sp_lmin p) (sp_lmax p) -> finite_moduli m -> sp_coupling p * sp_coupling p <= 1 -> admissible_start m g ->
     right_length lsolve -> finite_or_nan lsolve -> sp_perm p = None -> sp_tol p == 0 ->
     forall s, In s h -> forall z v, st_Z s = Fin z -> in_slab m g z v -> no_overlap m g v ->
     stored K (vals (st_u S s)) <= stored K v).
Proof.
  intros H. destruct ex_lift_ok as (NF & Hcs & HK & A & L & M). pose proof ex_lift_run as E3.
  assert (T : tolerances_ok ex_liftp) by (split; simpl; lra).
  destruct (solve gauss ex_lift (ex_g ex_liftt) ex_liftp) as [[S h]|e] eqn:E4; [|discriminate E3].
  cbn [fst snd] in E3. destruct (nth_error h 1) as [s|] eqn:Es; [|discriminate E3]. apply andb_true_iff in E3. destruct E3 as [_ E3].
  apply andb_true_iff in E3. destruct E3 as [EZ EU].
  assert (EF : exists z, st_Z s = Fin z).
  { apply (fun R => proj2 (proj2 (fin_finite _ _ _ _ _ _ E4 NF T s (nth_error_In _ _ Es) R))). split; [exact gauss_length|]. right. split; [exact gauss_finite|].
    split; [eapply ex_perm; [exact E4|reflexivity]|]. split; [exact L|]. split.
    - intros f Hf. destruct (M f Hf) as (G & E & HG & _). exists G. exact HG.
    - left. destruct (solve_inv _ _ _ _ _ _ E4) as (K & cs & _ & _ & ES & _). cbv zeta in ES. rewrite ES. reflexivity. }
  destruct EF as (z & Ez). rewrite Ez in EZ. cbn [qof] in EZ. apply Qeqb_eq in EZ.
  destruct ex_risen_fits as [I1 I2].
  assert (I1' : in_slab ex_lift (ex_g ex_liftt) z ex_risen).
  { intros i d hh Hd Hh. destruct (I1 i d hh Hd Hh) as [L1 L2]. rewrite EZ. split; assumption. }
  pose proof (H gauss ex_lift (ex_g ex_liftt) ex_liftp S h E4 NF T _ _ HK Hcs (Qeq_refl _) L M ltac:(simpl; lra) A gauss_length gauss_finite eq_refl (Qeq_refl _)
    s (nth_error_In _ _ Es) z ex_risen Ez I1' I2) as LE.
  pose proof ex_risen_energy as LT. cbv zeta in LT. unfold stored in LE. rewrite (quadratic_same _ _ _ (ex_same_nth _ _ EU)) in LE.
  revert LE LT. generalize (quadratic (ex_K ex_lift (ex_g ex_liftt) None None 1) ex_risen) (quadratic (ex_K ex_lift (ex_g ex_liftt) None None 1) ex_liftu).
  intros a b LE LT. qlra.
Qed.

Print Assumptions C80_work.
Print Assumptions C80_contacts.
Print Assumptions C81_minimum.
Print Assumptions C81_unique.
Print Assumptions C81_grows.
Print Assumptions C81_pulling_refuted.
