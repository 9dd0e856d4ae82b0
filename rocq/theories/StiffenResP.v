(** The force on the lid as a function of the lid height in the interpolated results (C94). *)
From Coq Require Import String.
From Verif Require Import Num NumP ListX ListP Frames MatM NetM MeshM ModelM SolverM InterpM ResultM Spec SpecNet SpecMesh SpecModel SpecSolver SpecInterp SpecEnergy SpecStiffen
  StackP InterpP StiffP ConstraintP SolverP SolverRunP SolverSysP SolverApiP SolverFinP ResultP EnergyP StiffenP.
Open Scope Q_scope.

(** ** supporting lines *)
(** the points (Z j, F j) are above the line of slope [s] through (z, f) *)
Definition above (N : nat) (F Z : nat -> Q) (s f z : Q) : Prop := forall j, (j < N)%nat -> s * (z - Z j) <= F j - f.
Definition supported (N : nat) (F Z : nat -> Q) : Prop := forall i, (i < N)%nat -> exists s, above N F Z s (F i) (Z i).
Definition antitone (N : nat) (Z : nat -> Q) : Prop := forall i j, (i <= j)%nat -> (j < N)%nat -> Z j <= Z i.

Lemma mix_above N F Z s f z W : mixing N W -> above N F Z s f z -> s * (z - W Z) <= W F - f.
Proof.
  intros M A. assert (L : W (fun k => (f + s * z) + (- s) * Z k) <= W F).
  { apply (mix_le N W M). intros k Hk. pose proof (A k Hk). lra. }
  rewrite (mix_affine N W Z (- s) (f + s * z) M) in L. lra.
Qed.
Lemma three f1 f2 f3 z1 z2 z3 s : s * (z2 - z1) <= f1 - f2 -> s * (z2 - z3) <= f3 - f2 -> z2 <= z1 -> z3 <= z2 ->
  (f2 - f1) * (z2 - z3) <= (f3 - f2) * (z1 - z2).
Proof.
  intros H1 H3 L1 L3. apply Qle_trans with (s * (z1 - z2) * (z2 - z3)).
  - apply Qmult_le_compat_r; lra.
  - assert (E : s * (z1 - z2) * (z2 - z3) == s * (z2 - z3) * (z1 - z2)) by ring. rewrite E. apply Qmult_le_compat_r; lra.
Qed.
(** a point between two consecutive ones *)
Lemma chord N F Z : supported N F Z -> antitone N Z -> forall k a, (Datatypes.S k < N)%nat -> 0 <= a -> a <= 1 ->
  exists s, above N F Z s (blend a (F k) (F (Datatypes.S k))) (blend a (Z k) (Z (Datatypes.S k))).
Proof.
  intros SU AN k a Lk A0 A1. destruct (SU k ltac:(lia)) as (s1 & H1). destruct (SU (Datatypes.S k) Lk) as (s2 & H2).
  pose proof (AN k (Datatypes.S k) ltac:(lia) Lk) as Dk. set (b := Datatypes.S k) in *.
  destruct (Qlt_le_dec (Z b) (Z k)) as [D|D].
  - set (s := (F b - F k) / (Z k - Z b)). assert (Es : s * (Z k - Z b) == F b - F k) by (unfold s; field; lra). exists s.
    pose proof (H1 b Lk) as B1. pose proof (H2 k ltac:(unfold b in *; lia)) as B2.
    assert (C1 : s1 <= s).
    { apply (Qmult_le_r _ _ (Z k - Z b)); [lra|]. rewrite Es. exact B1. }
    assert (C2 : s <= s2).
    { apply (Qmult_le_r _ _ (Z k - Z b)); [lra|]. rewrite Es. lra. }
    clearbody s. intros j Lj. unfold blend.
    assert (G : s * (Z k - Z j) <= F j - F k).
    { destruct (Nat.le_gt_cases j k) as [L|L].
      - pose proof (H1 j Lj) as B. pose proof (AN j k L ltac:(unfold b in *; lia)) as O.
        assert (X : s1 * (Z j - Z k) <= s * (Z j - Z k)) by (apply Qmult_le_compat_r; lra). lra.
      - pose proof (H2 j Lj) as B. pose proof (AN b j ltac:(unfold b; lia) Lj) as O.
        assert (X : s * (Z b - Z j) <= s2 * (Z b - Z j)) by (apply Qmult_le_compat_r; lra). lra. }
    assert (X : a * (s * (Z k - Z b)) == a * (F b - F k)) by (rewrite Es; reflexivity). lra.
  - assert (EZ : Z b == Z k) by lra. exists s1. intros j Lj. pose proof (H1 j Lj) as B. pose proof (H1 b Lk) as B1. pose proof (H2 k ltac:(unfold b in *; lia)) as B2.
    rewrite EZ in B1, B2. assert (EF : F b == F k) by lra. unfold blend. rewrite EZ, EF. lra.
Qed.
(** convex sequences have supporting lines *)
Lemma convex_supported N F Z : (forall i j, (i < j)%nat -> (j < N)%nat -> Z j < Z i) ->
  (forall i j k, (i < j)%nat -> (j < k)%nat -> (k < N)%nat -> (F j - F i) * (Z j - Z k) <= (F k - F j) * (Z i - Z j)) -> supported N F Z.
Proof.
  intros D C i Hi. destruct (Nat.eq_dec (Datatypes.S i) N) as [E|E].
  - destruct i as [|i]; [exists 0; intros j Lj; replace j with 0%nat by lia; lra|].
    set (s := (F (Datatypes.S i) - F i) / (Z i - Z (Datatypes.S i))). pose proof (D i (Datatypes.S i) ltac:(lia) ltac:(lia)) as D0.
    assert (Es : s * (Z i - Z (Datatypes.S i)) == F (Datatypes.S i) - F i) by (unfold s; field; lra). exists s. clearbody s.
    intros j Lj. destruct (Nat.eq_dec j (Datatypes.S i)) as [->|N1]; [lra|]. destruct (Nat.eq_dec j i) as [->|N2]; [lra|].
    pose proof (C j i (Datatypes.S i) ltac:(lia) ltac:(lia) ltac:(lia)) as X. rewrite <- Es in X.
    pose proof (D j i ltac:(lia) ltac:(lia)) as D1.
    assert (Y : (F i - F j) <= s * (Z j - Z i)).
    { apply (Qmult_le_r _ _ (Z i - Z (Datatypes.S i))); [lra|]. eapply Qle_trans; [exact X|]. apply Qle_lteq. right. ring. }
    lra.
  - set (s := (F (Datatypes.S i) - F i) / (Z i - Z (Datatypes.S i))). pose proof (D i (Datatypes.S i) ltac:(lia) ltac:(lia)) as D0.
    assert (Es : s * (Z i - Z (Datatypes.S i)) == F (Datatypes.S i) - F i) by (unfold s; field; lra). exists s. clearbody s.
    intros j Lj. destruct (Nat.lt_trichotomy j i) as [L|[->|L]]; [|lra|].
    + pose proof (C j i (Datatypes.S i) ltac:(lia) ltac:(lia) ltac:(lia)) as X. rewrite <- Es in X.
      pose proof (D j i ltac:(lia) ltac:(lia)) as D1.
      assert (Y : (F i - F j) <= s * (Z j - Z i)).
      { apply (Qmult_le_r _ _ (Z i - Z (Datatypes.S i))); [lra|]. eapply Qle_trans; [exact X|]. apply Qle_lteq. right. ring. }
      lra.
    + destruct (Nat.eq_dec j (Datatypes.S i)) as [->|N1]; [lra|].
      pose proof (C i (Datatypes.S i) j ltac:(lia) ltac:(lia) ltac:(lia)) as X. rewrite <- Es in X.
      assert (Y : s * (Z (Datatypes.S i) - Z j) <= F j - F (Datatypes.S i)).
      { apply (Qmult_le_r _ _ (Z i - Z (Datatypes.S i))); [lra|]. eapply Qle_trans; [|exact X]. apply Qle_lteq. right. ring. }
      lra.
Qed.

(** ** interpolated convex sequences *)
Section Interp.
  Variables (F Z : list Q) (size : option nat).
  Hypothesis LF : length F = length Z.
  Hypothesis Hn : (2 <= length Z)%nat.
  Hypothesis Hs : size_ok size.
  Hypothesis SU : supported (length Z) (fun k => nth k F 0) (fun k => nth k Z 0).
  Hypothesis AN : antitone (length Z) (fun k => nth k Z 0).
  Let f t := interp_call (interp_new LinearScalar (map Fin F) size) t.
  Let z t := interp_call (interp_new LinearScalar (map Fin Z) size) t.
  Lemma ms : (2 <= msize (map Fin Z) size)%nat.
  Proof. destruct size; simpl in *; [lia|rewrite map_length; lia]. Qed.
  Lemma msF : msize (map Fin F) size = msize (map Fin Z) size.
  Proof. destruct size; simpl; [reflexivity|rewrite !map_length; exact LF]. Qed.
  Let rF := rs LinearScalar F size.
  Let rZ := rs LinearScalar Z size.
  Lemma rs_at k : (k < msize (map Fin Z) size)%nat -> exists i b, (Datatypes.S i < length Z)%nat /\ 0 <= b /\ b <= 1 /\
    rF k == blend b (nth i F 0) (nth (Datatypes.S i) F 0) /\ rZ k == blend b (nth i Z 0) (nth (Datatypes.S i) Z 0).
  Proof.
    intros Hk. pose proof ms as M. destruct (knot_param _ k M Hk) as (j & a & Hj & A0 & A1 & E & _). destruct (param_range _ j a Hj A0 A1) as [P0 P1].
    destruct (find_interval (length Z) (nq k / nq (msize (map Fin Z) size - 1)) Hn) as (i & b & Hi & B0 & B1 & Eb); [rewrite E; exact P0|rewrite E; exact P1|].
    exists i, b. repeat split; auto.
    - unfold rF. assert (MF : (2 <= msize (map Fin F) size)%nat) by (rewrite msF; exact M).
      apply (rs_value LinearScalar (or_intror eq_refl) F size ltac:(lia) MF k i b); auto; [rewrite msF; exact Hk| |lia].
      rewrite msF, LF. exact Eb.
    - unfold rZ. apply (rs_value LinearScalar (or_intror eq_refl) Z size Hn M k i b); auto.
  Qed.
  Lemma resampled : supported (msize (map Fin Z) size) rF rZ.
  Proof.
    intros k Hk. destruct (rs_at k Hk) as (i & b & Hi & B0 & B1 & EF & EZ).
    destruct (chord _ _ _ SU AN i b Hi B0 B1) as (s & A). exists s. intros j Hj.
    destruct (rs_at j Hj) as (i' & b' & Hi' & B0' & B1' & EF' & EZ'). rewrite EF, EZ, EF', EZ'.
    apply (mix_above _ _ _ s _ _ (fun G => blend b' (G i') (G (Datatypes.S i')))) in A; [exact A|].
    apply (mix_blend _ b' (fun G => G i') (fun G => G (Datatypes.S i'))); auto; apply mix_pick; lia.
  Qed.
  Lemma rZ_antitone : antitone (msize (map Fin Z) size) rZ.
  Proof.
    intros i j L Hj. assert (M : mono_to (fun k => -(1) * nth k Z 0) (length Z)).
    { intros a b La Lb. pose proof (AN a b La Lb) as X. cbv beta in X. lra. }
    pose proof (rs_mono LinearScalar (or_intror eq_refl) Z size Hn ms (-(1)) M i j L Hj) as X. cbv beta in X. unfold rZ. lra.
  Qed.
  Lemma at_time t : 0 <= t -> t <= 1 -> exists k a, (Datatypes.S k < msize (map Fin Z) size)%nat /\ 0 <= a /\ a <= 1 /\
    is_num (f t) (blend a (rF k) (rF (Datatypes.S k))) /\ is_num (z t) (blend a (rZ k) (rZ (Datatypes.S k))).
  Proof.
    intros T0 T1. pose proof ms as M. destruct (find_interval _ t M T0 T1) as (k & a & Hk & A0 & A1 & E). exists k, a. repeat split; auto.
    - assert (MF : (2 <= msize (map Fin F) size)%nat) by (rewrite msF; exact M).
      apply (call_value LinearScalar (or_intror eq_refl) F size ltac:(lia) MF t k a); auto; [rewrite msF; exact E|rewrite msF; exact Hk].
    - apply (call_value LinearScalar (or_intror eq_refl) Z size Hn M t k a); auto.
  Qed.
  Lemma curve_convex t1 t2 t3 : 0 <= t1 -> t1 <= t2 -> t2 <= t3 -> t3 <= 1 ->
    (qof (f t2) - qof (f t1)) * (qof (z t2) - qof (z t3)) <= (qof (f t3) - qof (f t2)) * (qof (z t1) - qof (z t2)).
  Proof.
    intros T0 L1 L2 T1. destruct (at_time t2 ltac:(lra) ltac:(lra)) as (k & a & Hk & A0 & A1 & EF & EZ).
    destruct (chord _ _ _ resampled rZ_antitone k a Hk A0 A1) as (s & A).
    assert (B : forall t, 0 <= t -> t <= 1 -> s * (qof (z t2) - qof (z t)) <= qof (f t) - qof (f t2)).
    { intros t H0 H1. destruct (at_time t H0 H1) as (k' & a' & Hk' & A0' & A1' & EF' & EZ').
      rewrite (is_num_qof _ _ EF), (is_num_qof _ _ EZ), (is_num_qof _ _ EF'), (is_num_qof _ _ EZ').
      apply (mix_above _ _ _ s _ _ (fun G => blend a' (G k') (G (Datatypes.S k')))) in A; [exact A|].
      apply (mix_blend _ a' (fun G => G k') (fun G => G (Datatypes.S k'))); auto; apply mix_pick; lia. }
    assert (M : mono_to (fun k => -(1) * nth k Z 0) (length Z)).
    { intros u v La Lb. pose proof (AN u v La Lb) as X. cbv beta in X. lra. }
    assert (O : forall t t', 0 <= t -> t <= t' -> t' <= 1 -> qof (z t') <= qof (z t)).
    { intros t t' H0 H1 H2. destruct (call_mono LinearScalar (or_intror eq_refl) Z size Hn ms (-(1)) M t t' H0 H1 H2) as (v & v' & E & E' & X).
      unfold z. rewrite E, E'. cbn [qof]. lra. }
    apply (three _ _ _ _ _ _ s); [apply B; lra|apply B; lra|apply O; lra|apply O; lra].
  Qed.
End Interp.

(** ** results of [solve] *)
Lemma mix_lid n W (us : nat -> list Q) U k0 : mixing k0 W -> (forall j, nth j U 0 == W (fun k => nth j (us k) 0)) ->
  lid_force U n == W (fun k => lid_force (us k) n).
Proof.
  intros M H. unfold lid_force. induction n as [|d IH]; [cbn [seq map qsum]; symmetry; exact (mix_const _ W M 0)|].
  rewrite seq_S, map_app, qsum_app, IH. cbn [map qsum Nat.add]. rewrite H.
  transitivity (W (fun k => qsum (map (fun k1 => nth (3 * k1 + 2) (us k) 0) (seq 0 d)) + 1 * nth (3 * d + 2) (us k) 0)).
  - rewrite (mix_lin _ W M (fun k => qsum (map (fun k1 => nth (3 * k1 + 2) (us k) 0) (seq 0 d))) (fun k => nth (3 * d + 2) (us k) 0) 1). ring.
  - apply (mix_ext _ W _ _ M). intros k _. rewrite map_app, qsum_app. cbn [map qsum]. ring.
Qed.

Section Res.
  Variable lsolve : ncoo -> list num -> list num.
  Variable m : qmat.
  Variable g : mesh_df.
  Variable p : solve_params.
  Variable S : sysdata.
  Variable h : list state.
  Hypothesis HS : solve lsolve m g p = Ok (S, h).
  Hypothesis noflag : ~ flag_set (g_attrs g).
  Hypothesis tols : tolerances_ok p.
  Variable K : ncoo.
  Variable cs : csys.
  Hypothesis HK : stiffness m g (sp_lmin p) (sp_lmax p) (sp_coupling p) = Ok K.
  Hypothesis Hcs : constraint m g = Ok cs.
  Hypothesis E0 : sp_errtol p == 0.
  Hypothesis HL : lengths_ok g (sp_lmin p) (sp_lmax p).
  Hypothesis HM : finite_moduli m.
  Hypothesis HC : sp_coupling p * sp_coupling p <= 1.
  Variable n : nat.
  Hypothesis Hn : length (csH cs) = (3 * n)%nat.
  Hypothesis HR : forall s, In s h -> reliable lsolve m g p S s.
  Variables (size : option nat) (R : results).
  Hypothesis Hsize : size_ok size.
  Hypothesis HF : solve_full lsolve m g p size = Ok R.
  Hypothesis H2 : (2 <= length h)%nat.
  Let Fs := map (load S n) h.
  Let Zs := map height h.

  Lemma nth_load k : (k < length h)%nat -> exists s, nth_error h k = Some s /\ In s h /\ nth k Fs 0 = load S n s /\ nth k Zs 0 = height s.
  Proof.
    intros L. destruct (nth_error h k) as [s|] eqn:E; [|apply nth_error_None in E; lia]. exists s. split; auto. split; [eapply nth_error_In; eauto|].
    unfold Fs, Zs. split; apply nth_error_nth; rewrite nth_error_map, E; reflexivity.
  Qed.
  Lemma load_value t : load_at R n t == qof (interp_call (interp_new LinearScalar (map Fin Fs) size) t).
  Proof.
    destruct (call_mixing (length h) size t H2 Hsize) as (W & M & HV).
    assert (LFs : length Fs = length h) by apply map_length.
    rewrite (is_num_qof _ _ (HV LinearScalar Fs (or_intror eq_refl) LFs)). unfold load_at.
    rewrite (res_eq lsolve m g p S h HS size R HF). cbn [r_f results_of].
    assert (V : forall j, nth j (vals (call_vec (interp_vec LinearVec (map (st_f S) h) size) t)) 0 == W (fun k => nth j (vals (nth k (map (st_f S) h) [])) 0)).
    { intros j. apply (vec_value (map (st_f S) h) (length (csH cs)) (res_f lsolve m g p S h HS noflag tols HR cs Hcs)); auto.
      - rewrite map_length. exact H2.
      - rewrite map_length. exact M.
      - rewrite map_length. exact HV.
      - left. reflexivity. }
    rewrite (mix_lid n W (fun k => vals (nth k (map (st_f S) h) [])) _ _ M V). apply (mix_ext _ W _ _ M). intros k Lk.
    destruct (nth_load k Lk) as (s & Es & Hs & -> & _). unfold load.
    erewrite (nth_error_nth (map (st_f S) h)); [reflexivity|rewrite nth_error_map, Es; reflexivity].
  Qed.
  Lemma height_value t : height_at R t = qof (interp_call (interp_new LinearScalar (map Fin Zs) size) t).
  Proof. unfold height_at. rewrite (res_eq lsolve m g p S h HS size R HF). cbn [r_Z results_of]. rewrite (res_Z lsolve m g p S h HS noflag tols HR). reflexivity. Qed.
  Lemma Z_strict i j : (i < j)%nat -> (j < length h)%nat -> nth j Zs 0 < nth i Zs 0.
  Proof.
    intros L Lj. induction j as [|j IH]; [lia|]. destruct (nth_load j ltac:(lia)) as (s & Es & Hs & _ & EZ). destruct (nth_load (Datatypes.S j) Lj) as (s' & Es' & Hs' & _ & EZ').
    pose proof (down lsolve m g p S h HS noflag tols E0 j s s' Es Es' (HR s' Hs')) as D. rewrite <- EZ, <- EZ' in D.
    destruct (Nat.eq_dec i j) as [->|N]; [exact D|]. specialize (IH ltac:(lia) ltac:(lia)). lra.
  Qed.
  Lemma res_stiffens t1 t2 t3 : 0 <= t1 -> t1 <= t2 -> t2 <= t3 -> t3 <= 1 ->
    (load_at R n t2 - load_at R n t1) * (height_at R t2 - height_at R t3) <= (load_at R n t3 - load_at R n t2) * (height_at R t1 - height_at R t2).
  Proof.
    intros T0 L1 L2 T1. rewrite !load_value, !height_value. assert (LZ : length Zs = length h) by apply map_length.
    apply curve_convex; auto.
    - unfold Fs, Zs. rewrite !map_length. reflexivity.
    - lia.
    - rewrite LZ. apply convex_supported; [exact Z_strict|]. intros i j k Li Lj Lk.
      destruct (nth_load i ltac:(lia)) as (a & Ea & _ & -> & ->). destruct (nth_load j ltac:(lia)) as (b & Eb & _ & -> & ->).
      destruct (nth_load k Lk) as (c & Ec & Hc & -> & ->).
      exact (stiffens lsolve m g p S h HS noflag tols K cs HK Hcs E0 HL HM HC n Hn i j k a b c Ea Eb Ec (HR c Hc) Li Lj).
    - intros i j L Lj. rewrite LZ in Lj. destruct (Nat.eq_dec i j) as [->|N]; [lra|]. pose proof (Z_strict i j ltac:(lia) Lj). lra.
  Qed.
  Lemma res_load t t' : 0 <= t -> t <= t' -> t' <= 1 -> load_at R n t <= load_at R n t'.
  Proof.
    intros T0 L T1. rewrite !load_value. assert (LFs : length Fs = length h) by apply map_length.
    assert (M : mono_to (fun k => 1 * nth k Fs 0) (length Fs)).
    { intros i j Lij Lj. rewrite LFs in Lj. destruct (nth_load i ltac:(lia)) as (a & Ea & _ & -> & _). destruct (nth_load j Lj) as (b & Eb & Hb & -> & _).
      pose proof (load_grows lsolve m g p S h HS noflag tols K cs HK Hcs E0 HL HM HC n Hn i j a b Ea Eb (HR b Hb) Lij). lra. }
    assert (MS : (2 <= msize (map Fin Fs) size)%nat) by (destruct size; simpl in *; [lia|rewrite map_length; lia]).
    destruct (call_mono LinearScalar (or_intror eq_refl) Fs size ltac:(lia) MS 1 M t t' T0 L T1) as (v & v' & -> & -> & X). cbn [qof]. lra.
  Qed.
  Lemma res_load_nonneg t : 0 <= load_at R n t.
  Proof.
    destruct (call_mixing (length h) size t H2 Hsize) as (W & M & HV). rewrite load_value.
    rewrite (is_num_qof _ _ (HV LinearScalar Fs (or_intror eq_refl) (map_length _ _))). rewrite <- (mix_const _ W M 0). apply (mix_le _ W M).
    intros k Lk. destruct (nth_load k Lk) as (s & Es & Hs & -> & _).
    exact (load_nonneg lsolve m g p S h HS noflag tols K cs HK Hcs E0 HL HM HC n Hn s Hs (HR s Hs)).
  Qed.
End Res.
