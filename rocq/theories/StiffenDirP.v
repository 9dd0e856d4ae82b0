(** Energy and force on the lid with a direct solver, whatever the error tolerance (C80, C81, C94). *)
From Coq Require Import String Permutation.
From Verif Require Import Num NumP ListX ListP Frames MatM NetM StackM MeshM ModelM SolverM InterpM ResultM Spec SpecNet SpecStack SpecMesh SpecModel SpecSolver SpecInterp SpecPerm SpecScale SpecProgress
  SpecEnergy SpecStiffen MeshCheckP NetP StackP StackNewP MeshP StiffP ConstraintP SolverP SolverRunP SolverSysP SolverApiP SolverFinP PermP ScaleP ResultP ProgressP HeldP ProgressFinP
  EnergyP StiffenP StiffenResP.
Open Scope Q_scope.

Lemma lid_work_nu S S0 n l : sy_nu S0 = sy_nu S -> lid_work S0 n l = lid_work S n l.
Proof.
  intros E. induction l as [|a [|b l] IH]; [reflexivity|reflexivity|]. cbn [lid_work] in *. rewrite IH. unfold st_f. rewrite E. reflexivity.
Qed.
Section Direct.
  Variable lsolve : ncoo -> list num -> list num.
  Variable m : qmat.
  Variable g : mesh_df.
  Variable p : solve_params.
  Variable S : sysdata.
  Variable h : list state.
  Hypothesis DS : direct_solver lsolve.
  Hypothesis SD : sound_data m g p.
  Hypothesis NU : numbering (length (sy_dq S)) (sp_perm p).
  Hypothesis H0 : starts_held m g (sp_tol p).
  Hypothesis HS : solve lsolve m g p = Ok (S, h).
  Variable K : ncoo.
  Variable cs : csys.
  Hypothesis HK : stiffness m g (sp_lmin p) (sp_lmax p) (sp_coupling p) = Ok K.
  Hypothesis Hcs : constraint m g = Ok cs.
  Hypothesis HM : finite_moduli m.
  Variable n : nat.
  Hypothesis Hn : length (csH cs) = (3 * n)%nat.

  Lemma HC' : sp_coupling (strict p) * sp_coupling (strict p) <= 1.
  Proof. destruct SD as (_ & _ & _ & C & _). cbn [strict sp_coupling]. lra. Qed.
  Lemma HL' : lengths_ok g (sp_lmin (strict p)) (sp_lmax (strict p)).
  Proof. apply SD. Qed.

  Lemma dir_work k s : nth_error h k = Some s -> stored K (vals (st_u S s)) == lid_work S n (firstn (Datatypes.S k) h).
  Proof.
    intros Hk. destruct (go_strict lsolve m g p S h DS SD NU H0 HS) as (S0 & HS0 & ES & HR). destruct (HR s (nth_error_In _ _ Hk)) as [R _].
    pose proof (energy_work lsolve m g (strict p) S0 h HS0 (noflag' m g p SD) (tols' m g p SD) K cs HK Hcs (Qeq_refl 0) HL' HM k s n Hn Hk R) as W.
    rewrite (lid_work_nu S S0 n _ ltac:(rewrite ES; reflexivity)) in W. rewrite ES in W. exact W.
  Qed.
  Lemma dir_contacts s : In s h -> quadratic K (vals (st_u S s)) == - contact_work (csC cs) (vals (st_f S s)) (vals (st_u S s)).
  Proof.
    intros Hs. destruct (go_strict lsolve m g p S h DS SD NU H0 HS) as (S0 & HS0 & ES & HR). destruct (HR s Hs) as [R _].
    pose proof (energy_contacts lsolve m g (strict p) S0 h HS0 (noflag' m g p SD) (tols' m g p SD) K cs HK Hcs (Qeq_refl 0) HL' HM s Hs R) as W.
    rewrite ES in W. exact W.
  Qed.
  Lemma dir_minimum s : In s h -> pushes (vals (st_f S s)) -> forall z v, st_Z s = Fin z -> in_slab m g z v -> no_overlap m g v ->
    stored K (vals (st_u S s)) <= stored K v + sp_tol p * qsum (vals (st_f S s)).
  Proof.
    intros Hs PU z v Ez I1 I2. destruct (go_strict lsolve m g p S h DS SD NU H0 HS) as (S0 & HS0 & ES & HR). destruct (HR s Hs) as [R _].
    pose proof (minimum lsolve m g (strict p) S0 h HS0 (noflag' m g p SD) (tols' m g p SD) K cs HK Hcs (Qeq_refl 0) HL' HM HC' s Hs R) as W.
    rewrite ES in W. exact (W PU z v Ez I1 I2).
  Qed.
  Lemma dir_stiffens i j k a b c : nth_error h i = Some a -> nth_error h j = Some b -> nth_error h k = Some c -> (i < j)%nat -> (j < k)%nat -> no_softer S n a b c.
  Proof.
    intros Ha Hb Hc L1 L2. destruct (go_strict lsolve m g p S h DS SD NU H0 HS) as (S0 & HS0 & ES & HR). destruct (HR c (nth_error_In _ _ Hc)) as [R _].
    pose proof (stiffens lsolve m g (strict p) S0 h HS0 (noflag' m g p SD) (tols' m g p SD) K cs HK Hcs (Qeq_refl 0) HL' HM HC' n Hn i j k a b c Ha Hb Hc R L1 L2) as W.
    rewrite ES in W. exact W.
  Qed.
  Lemma dir_grows i j a b : nth_error h i = Some a -> nth_error h j = Some b -> (i <= j)%nat ->
    0 <= load S n a /\ load S n a <= load S n b /\ stored K (vals (st_u S a)) <= stored K (vals (st_u S b)).
  Proof.
    intros Ha Hb L. destruct (go_strict lsolve m g p S h DS SD NU H0 HS) as (S0 & HS0 & ES & HR). destruct (HR b (nth_error_In _ _ Hb)) as [Rb _].
    destruct (HR a (nth_error_In _ _ Ha)) as [Ra _].
    pose proof (load_nonneg lsolve m g (strict p) S0 h HS0 (noflag' m g p SD) (tols' m g p SD) K cs HK Hcs (Qeq_refl 0) HL' HM HC' n Hn a (nth_error_In _ _ Ha) Ra) as W0.
    pose proof (load_grows lsolve m g (strict p) S0 h HS0 (noflag' m g p SD) (tols' m g p SD) K cs HK Hcs (Qeq_refl 0) HL' HM HC' n Hn i j a b Ha Hb Rb L) as W1.
    pose proof (stored_grows lsolve m g (strict p) S0 h HS0 (noflag' m g p SD) (tols' m g p SD) K cs HK Hcs (Qeq_refl 0) HL' HM HC' n Hn i j a b Ha Hb Rb L) as W2.
    rewrite ES in W0, W1, W2. exact (conj W0 (conj W1 W2)).
  Qed.
  Lemma dir_bound s : In s h -> 2 * stored K (vals (st_u S s)) <= load S n s * travel S s.
  Proof.
    intros Hs. destruct (go_strict lsolve m g p S h DS SD NU H0 HS) as (S0 & HS0 & ES & HR). destruct (HR s Hs) as [R _].
    pose proof (stored_bound lsolve m g (strict p) S0 h HS0 (noflag' m g p SD) (tols' m g p SD) K cs HK Hcs (Qeq_refl 0) HL' HM HC' n Hn s Hs R) as W.
    rewrite ES in W. exact W.
  Qed.
  Lemma dir_results size R : size_ok size -> solve_full lsolve m g p size = Ok R -> (2 <= length h)%nat -> forall t1 t2 t3, 0 <= t1 -> t1 <= t2 -> t2 <= t3 -> t3 <= 1 ->
    0 <= load_at R n t1 /\ load_at R n t1 <= load_at R n t2 /\
    (load_at R n t2 - load_at R n t1) * (height_at R t2 - height_at R t3) <= (load_at R n t3 - load_at R n t2) * (height_at R t1 - height_at R t2).
  Proof.
    intros Hsz HF H2 t1 t2 t3 T0 L1 L2 T1. destruct (go_strict lsolve m g p S h DS SD NU H0 HS) as (S0 & HS0 & ES & HR).
    assert (HF0 : solve_full lsolve m g (strict p) size = Ok R).
    { unfold solve_full in *. rewrite HS in HF. rewrite HS0. cbn [fst snd bind] in *. rewrite <- HF, ES. reflexivity. }
    assert (RR : forall s, In s h -> reliable lsolve m g (strict p) S0 s) by (intros s Hs; apply (HR s Hs)).
    split; [|split].
    - exact (res_load_nonneg lsolve m g (strict p) S0 h HS0 (noflag' m g p SD) (tols' m g p SD) K cs HK Hcs (Qeq_refl 0) HL' HM HC' n Hn RR size R Hsz HF0 H2 t1).
    - exact (res_load lsolve m g (strict p) S0 h HS0 (noflag' m g p SD) (tols' m g p SD) K cs HK Hcs (Qeq_refl 0) HL' HM HC' n Hn RR size R Hsz HF0 H2 t1 t2 T0 L1 (Qle_trans _ _ _ L2 T1)).
    - exact (res_stiffens lsolve m g (strict p) S0 h HS0 (noflag' m g p SD) (tols' m g p SD) K cs HK Hcs (Qeq_refl 0) HL' HM HC' n Hn RR size R Hsz HF0 H2 t1 t2 t3 T0 L1 L2 T1).
  Qed.
End Direct.
