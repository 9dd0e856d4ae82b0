(** Proofs of the properties that compare two networks or two stacks. *)
From Verif Require Import Num NumP ListX ListP Frames MatM NetM StackM Spec SpecNet SpecStack SpecMeta
  CheckP NetP NetGeoP NetZP StackP StackNewP.
Open Scope Q_scope.

(** ** motions *)
Lemma zero_iff k x y : 0 < k -> y == k * x -> (y == 0 <-> x == 0).
Proof.
  intros Hk E. rewrite E. split; intros H; [|rewrite H; ring].
  apply Qmult_integral in H. destruct H as [H|H]; [lra|exact H].
Qed.
Section Moved.
  Variable M : motion.
  Hypothesis HM : proper M.
  Variables f g f' g' : qfiber.
  Hypothesis HP : moved_pair M f g f' g'.
  Variables S S' : Q.
  Variables a b a' b' : Z.
  Let k := mv_k M. Let c := mv_c M. Let s := mv_s M. Let e : Q := if mv_m M then -1 else 1.
  Hypothesis Ha : inject_Z a' * S' == k * (c * (inject_Z a * S) - s * (e * (inject_Z b * S))).
  Hypothesis Hb : inject_Z b' * S' == k * (s * (inject_Z a * S) + c * (e * (inject_Z b * S))).

  Lemma unit_turn : c * c + s * s == 1. Proof. apply HM. Qed.
  Lemma unit_mirror : e * e == 1. Proof. unfold e. destruct (mv_m M); reflexivity. Qed.
  Lemma mirror_eq y : mirrored M y == e * y. Proof. unfold mirrored, e. destruct (mv_m M); ring. Qed.
  Lemma turned_dot X Y U V : (c * X - s * (e * Y)) * (c * U - s * (e * V)) + (s * X + c * (e * Y)) * (s * U + c * (e * V)) == X * U + Y * V.
  Proof.
    setoid_replace ((c * X - s * (e * Y)) * (c * U - s * (e * V)) + (s * X + c * (e * Y)) * (s * U + c * (e * V))) with ((c * c + s * s) * (X * U + e * e * (Y * V))) by ring.
    rewrite unit_turn, unit_mirror. ring.
  Qed.
  Lemma turned_norm X Y : (c * X - s * (e * Y)) * (c * X - s * (e * Y)) + (s * X + c * (e * Y)) * (s * X + c * (e * Y)) == X * X + Y * Y.
  Proof. apply turned_dot. Qed.

  Lemma moved_close : close S' f' g' a' b' <-> close S f g a b.
  Proof.
    destruct HP as ((Lf & Xf & Yf & _) & (Lg & Xg & Yg & _) & _). destruct HM as [Hk _]. fold k c s in Lf, Xf, Yf, Lg, Xg, Yg. rewrite mirror_eq in Xf, Yf, Xg, Yg. fold k in Hk. unfold close. cbv zeta.
    set (dx := qx g + inject_Z a * S - qx f). set (dy := qy g + inject_Z b * S - qy f).
    assert (Ex : qx g' + inject_Z a' * S' - qx f' == k * (c * dx - s * (e * dy))) by (rewrite Xg, Xf, Ha; unfold dx, dy; ring).
    assert (Ey : qy g' + inject_Z b' * S' - qy f' == k * (s * dx + c * (e * dy))) by (rewrite Yg, Yf, Hb; unfold dx, dy; ring).
    rewrite Ex, Ey, Lf, Lg.
    setoid_replace (k * (c * dx - s * (e * dy)) * (k * (c * dx - s * (e * dy))) + k * (s * dx + c * (e * dy)) * (k * (s * dx + c * (e * dy))))
      with ((k * k) * ((c * dx - s * (e * dy)) * (c * dx - s * (e * dy)) + (s * dx + c * (e * dy)) * (s * dx + c * (e * dy)))) by ring.
    rewrite turned_norm.
    setoid_replace ((k * ql f + k * ql g) / 2 * ((k * ql f + k * ql g) / 2)) with ((k * k) * ((ql f + ql g) / 2 * ((ql f + ql g) / 2))) by field.
    apply Qmult_lt_l. apply Qmult_lt_0_compat; exact Hk.
  Qed.
  Lemma moved_facing t t' : facing S' f' g' a' b' (k * t) (k * t') <-> facing S f g a b t t'.
  Proof.
    destruct HP as ((_ & Xf & Yf & Uf & Vf & Wf) & (_ & Xg & Yg & Ug & Vg & Wg) & HZ). destruct HM as [Hk _]. fold k c s in Xf, Yf, Uf, Vf, Xg, Yg, Ug, Vg. rewrite mirror_eq in Xf, Yf, Uf, Vf, Xg, Yg, Ug, Vg. fold k in Hk.
    unfold facing, ax, ay, az. cbv zeta.
    set (dx := qx g + t' * qu g + inject_Z a * S - (qx f + t * qu f)). set (dy := qy g + t' * qv g + inject_Z b * S - (qy f + t * qv f)).
    set (dz := qz g + t' * qw g - (qz f + t * qw f)).
    assert (Ex : qx g' + k * t' * qu g' + inject_Z a' * S' - (qx f' + k * t * qu f') == k * (c * dx - s * (e * dy))) by (rewrite Xg, Xf, Ug, Uf, Ha; unfold dx, dy; ring).
    assert (Ey : qy g' + k * t' * qv g' + inject_Z b' * S' - (qy f' + k * t * qv f') == k * (s * dx + c * (e * dy))) by (rewrite Yg, Yf, Vg, Vf, Hb; unfold dx, dy; ring).
    assert (Ez : forall w, w == qw f \/ w == qw g -> (qz g' + k * t' * qw g' - (qz f' + k * t * qw f')) * w == k * (dz * w)).
    { intros w Hw. rewrite Wg, Wf. destruct HZ as [[Pf Pg]|[Zf Zg]].
      - assert (W0 : w == 0) by (destruct Hw as [->| ->]; assumption). rewrite W0. ring.
      - unfold rises in Zf, Zg. fold k in Zf, Zg. rewrite Zf, Zg. unfold dz. ring. }
    assert (E1 : (qx g' + k * t' * qu g' + inject_Z a' * S' - (qx f' + k * t * qu f')) * qu f' +
      (qy g' + k * t' * qv g' + inject_Z b' * S' - (qy f' + k * t * qv f')) * qv f' +
      (qz g' + k * t' * qw g' - (qz f' + k * t * qw f')) * qw f' == k * (dx * qu f + dy * qv f + dz * qw f)).
    { rewrite (Ez (qw f') (or_introl Wf)), Ex, Ey, Uf, Vf, Wf.
      setoid_replace (k * (c * dx - s * (e * dy)) * (c * qu f - s * (e * qv f)) + k * (s * dx + c * (e * dy)) * (s * qu f + c * (e * qv f)) + k * (dz * qw f))
        with (k * ((c * dx - s * (e * dy)) * (c * qu f - s * (e * qv f)) + (s * dx + c * (e * dy)) * (s * qu f + c * (e * qv f))) + k * (dz * qw f)) by ring.
      rewrite turned_dot. ring. }
    assert (E2 : (qx g' + k * t' * qu g' + inject_Z a' * S' - (qx f' + k * t * qu f')) * qu g' +
      (qy g' + k * t' * qv g' + inject_Z b' * S' - (qy f' + k * t * qv f')) * qv g' +
      (qz g' + k * t' * qw g' - (qz f' + k * t * qw f')) * qw g' == k * (dx * qu g + dy * qv g + dz * qw g)).
    { rewrite (Ez (qw g') (or_intror Wg)), Ex, Ey, Ug, Vg, Wg.
      setoid_replace (k * (c * dx - s * (e * dy)) * (c * qu g - s * (e * qv g)) + k * (s * dx + c * (e * dy)) * (s * qu g + c * (e * qv g)) + k * (dz * qw g))
        with (k * ((c * dx - s * (e * dy)) * (c * qu g - s * (e * qv g)) + (s * dx + c * (e * dy)) * (s * qu g + c * (e * qv g))) + k * (dz * qw g)) by ring.
      rewrite turned_dot. ring. }
    rewrite (zero_iff k _ _ Hk E1), (zero_iff k _ _ Hk E2).
    assert (E3 : (qv f' * qw g' == qw f' * qv g' /\ qw f' * qu g' == qu f' * qw g' /\ qu f' * qv g' == qv f' * qu g') <->
      (qv f * qw g == qw f * qv g /\ qw f * qu g == qu f * qw g /\ qu f * qv g == qv f * qu g)).
    { set (A := e * (qv f * qw g - qw f * qv g)). set (B := qw f * qu g - qu f * qw g). set (C := e * (qu f * qv g - qv f * qu g)).
      assert (X1 : qv f' * qw g' - qw f' * qv g' == c * A - s * B) by (rewrite Vf, Wf, Vg, Wg; unfold A, B; ring).
      assert (X2 : qw f' * qu g' - qu f' * qw g' == s * A + c * B) by (rewrite Uf, Wf, Ug, Wg; unfold A, B; ring).
      assert (X3 : qu f' * qv g' - qv f' * qu g' == C).
      { rewrite Uf, Vf, Ug, Vg. setoid_replace ((c * qu f - s * (e * qv f)) * (s * qu g + c * (e * qv g)) - (s * qu f + c * (e * qv f)) * (c * qu g - s * (e * qv g))) with ((c * c + s * s) * C) by (unfold C; ring). rewrite unit_turn. ring. }
      assert (Y1 : A == c * (c * A - s * B) + s * (s * A + c * B)) by (setoid_replace (c * (c * A - s * B) + s * (s * A + c * B)) with ((c * c + s * s) * A) by ring; rewrite unit_turn; ring).
      assert (Y2 : B == c * (s * A + c * B) - s * (c * A - s * B)) by (setoid_replace (c * (s * A + c * B) - s * (c * A - s * B)) with ((c * c + s * s) * B) by ring; rewrite unit_turn; ring).
      assert (YA : qv f * qw g - qw f * qv g == e * A) by (unfold A; transitivity (e * e * (qv f * qw g - qw f * qv g)); [rewrite unit_mirror; ring|ring]).
      assert (YC : qu f * qv g - qv f * qu g == e * C) by (unfold C; transitivity (e * e * (qu f * qv g - qv f * qu g)); [rewrite unit_mirror; ring|ring]).
      split; intros (Q1 & Q2 & Q3).
      - assert (Z1 : c * A - s * B == 0) by (rewrite <- X1, Q1; ring). assert (Z2 : s * A + c * B == 0) by (rewrite <- X2, Q2; ring). assert (Z3 : C == 0) by (rewrite <- X3, Q3; ring).
        assert (A0 : A == 0) by (rewrite Y1, Z1, Z2; ring). assert (B0 : B == 0) by (rewrite Y2, Z1, Z2; ring). rewrite A0 in YA. rewrite Z3 in YC. unfold B in B0. repeat split; lra.
      - assert (Z1 : A == 0) by (unfold A; rewrite Q1; ring). assert (Z2 : B == 0) by (unfold B; rewrite Q2; ring). assert (Z3 : C == 0) by (unfold C; rewrite Q3; ring).
        assert (V1 : qv f' * qw g' - qw f' * qv g' == 0) by (rewrite X1, Z1, Z2; ring). assert (V2 : qw f' * qu g' - qu f' * qw g' == 0) by (rewrite X2, Z1, Z2; ring).
        assert (V3 : qu f' * qv g' - qv f' * qu g' == 0) by (rewrite X3; exact Z3). repeat split; lra. }
    rewrite E3. reflexivity.
  Qed.
End Moved.
Lemma moved_inside M f f' t : proper M -> follows M f f' -> (inside f' (mv_k M * t) <-> inside f t).
Proof.
  intros [Hk _] (Lf & _). unfold inside. rewrite Lf.
  assert (E1 : - (mv_k M * ql f / 2) == mv_k M * - (ql f / 2)) by field. assert (E2 : mv_k M * ql f / 2 == mv_k M * (ql f / 2)) by field.
  rewrite E1, E2, !(Qmult_lt_l _ _ (mv_k M) Hk). tauto.
Qed.
Lemma moved_sym M f g f' g' : moved_pair M f g f' g' -> moved_pair M g f g' f'.
Proof. unfold moved_pair. tauto. Qed.

(** ** connected fibers, whatever the order of their labels *)
Lemma inside_eq f s s' : s == s' -> inside f s -> inside f s'.
Proof. unfold inside. intros <-. tauto. Qed.
Lemma facing_eq S f g a b s t s' t' : s == s' -> t == t' -> facing S f g a b s t -> facing S f g a b s' t'.
Proof. unfold facing, ax, ay, az. cbv zeta. intros <- <-. tauto. Qed.
Lemma facing_swap m f g a b s t : facing (q_size m) f g a b s t -> facing (q_size m) g f (- a) (- b) t s.
Proof. rewrite !facing_normal. apply normal_swap. Qed.
Lemma facing_unique m f g a b s t s' t' : facing (q_size m) f g a b s t -> facing (q_size m) f g a b s' t' -> s == s' /\ t == t'.
Proof. rewrite !facing_normal. apply normal_unique. Qed.
Lemma allowed_opp per a b : allowed per a b -> allowed per (- a) (- b).
Proof. unfold allowed. intros H E. destruct (H E). lia. Qed.

Definition meet (m : qmat) (per : bool) (f g : qfiber) (s s' : Q) : Prop :=
  exists a b, allowed per a b /\ close (q_size m) f g a b /\ facing (q_size m) f g a b s s' /\ inside f s /\ inside g s'.
Lemma meet_swap m per f g s s' : meet m per f g s s' -> meet m per g f s' s.
Proof.
  intros (a & b & H1 & H2 & H3 & H4 & H5). exists (- a)%Z, (- b)%Z.
  split; [apply allowed_opp; exact H1|]. split; [apply close_swap; exact H2|]. split; [apply facing_swap; exact H3|]. auto.
Qed.
Section Joined.
  Variables (m : qmat) (per : bool) (t : net_df).
  Hypothesis Ht : net_new m per None = Ok t.
  Lemma joined_swap i j s s' : joined t i j s s' -> joined t j i s' s.
  Proof. intros (k & c & Hr & H). exists k, c. tauto. Qed.
  Lemma joined_meet i j f g s s' : i <> j -> has_fiber m i f -> has_fiber m j g -> joined t i j s s' -> meet m per f g s s'.
  Proof.
    assert (X : forall i j f g s s', (i < j)%Z -> has_fiber m i f -> has_fiber m j g -> joined t i j s s' -> meet m per f g s s').
    { clear i j f g s s'. intros i j f g s s' L Hf Hg (k & c & Hr & [(EA & EB & Es & Es')|(EA & EB & _)]).
      2:{ destruct (row_facts m per None t Ht k c Hr) as (f' & g' & _ & _ & Lab & _). lia. }
      assert (LL : (cA c < cB c)%Z) by lia.
      destruct (row_facing m per None t k c f g Ht Hr LL) as (a & b & HA & HC & HF); rewrite ?EA, ?EB; auto.
      destruct (row_inside m per None t k c f g Ht Hr LL) as (I1 & I2); rewrite ?EA, ?EB; auto.
      exists a, b. split; [exact HA|]. split; [exact HC|]. split; [exact (facing_eq _ _ _ _ _ _ _ _ _ Es Es' HF)|]. split; [exact (inside_eq _ _ _ Es I1)|exact (inside_eq _ _ _ Es' I2)]. }
    intros N Hf Hg J. destruct (Z.lt_trichotomy i j) as [L|[L|L]]; [eapply X; eauto|contradiction|].
    apply meet_swap. apply joined_swap in J. eapply X; eauto.
  Qed.
  Lemma meet_linked i j f g s s' : (per = true -> lengths_le m (q_size m)) -> i <> j -> has_fiber m i f -> has_fiber m j g ->
    meet m per f g s s' -> linked t i j.
  Proof.
    intros HL. assert (X : forall i j f g s s', (i < j)%Z -> has_fiber m i f -> has_fiber m j g -> meet m per f g s s' -> linked t i j).
    { clear i j f g s s'. intros i j f g s s' L Hf Hg (a & b & H).
      destruct (proj2 (facing_iff m per t i j f g Ht HL Hf Hg L)) as (k & c & Hr & EA & EB); [exists a, b, s, s'; exact H|].
      exists (csA c), (csB c), k, c. split; [exact Hr|]. left. repeat split; auto; reflexivity. }
    intros N Hf Hg J. destruct (Z.lt_trichotomy i j) as [L|[L|L]]; [eapply X; eauto|contradiction|].
    destruct (X j i g f s' s L Hg Hf (meet_swap _ _ _ _ _ _ J)) as (x & y & Hj). exists y, x. apply joined_swap. exact Hj.
  Qed.
  Lemma linked_iff i j f g : (per = true -> lengths_le m (q_size m)) -> i <> j -> has_fiber m i f -> has_fiber m j g ->
    (linked t i j <-> exists s s', meet m per f g s s').
  Proof.
    intros HL N Hf Hg. split.
    - intros (s & s' & J). exists s, s'. apply (joined_meet i j); auto.
    - intros (s & s' & J). apply (meet_linked i j f g s s'); auto.
  Qed.
End Joined.
Lemma joined_flat m t i j f g s s' : net_new m false None = Ok t -> i <> j -> has_fiber m i f -> has_fiber m j g ->
  (joined t i j s s' <-> meet m false f g s s').
Proof.
  intros Ht N Hf Hg. split; [apply (joined_meet m false t Ht); auto|]. intros J.
  destruct (meet_linked m false t Ht i j f g s s' ltac:(discriminate) N Hf Hg J) as (x & y & J').
  pose proof (joined_meet m false t Ht i j f g x y N Hf Hg J') as (a & b & A & _ & F & _).
  destruct J as (a' & b' & A' & _ & F' & _). destruct (A eq_refl) as [-> ->]. destruct (A' eq_refl) as [-> ->].
  destruct (facing_unique m f g 0 0 x y s s' F F') as [E1 E2].
  destruct J' as (k & c & Hr & H). exists k, c. split; [exact Hr|]. rewrite E1, E2 in H. exact H.
Qed.

Lemma moved_meet M m m' per f g f' g' s s' : proper M -> moved_pair M f g f' g' ->
  (per = true -> quarter M /\ q_size m' == mv_k M * q_size m) ->
  (meet m' per f' g' (mv_k M * s) (mv_k M * s') <-> meet m per f g s s').
Proof.
  intros HM HP HB. destruct HP as (Ff & Fg & HZ) eqn:EP. pose proof (conj Ff (conj Fg HZ) : moved_pair M f g f' g') as HP'. clear EP HP.
  assert (X : forall a b a' b',
    inject_Z a' * q_size m' == mv_k M * (mv_c M * (inject_Z a * q_size m) - mv_s M * ((if mv_m M then -1 else 1) * (inject_Z b * q_size m))) ->
    inject_Z b' * q_size m' == mv_k M * (mv_s M * (inject_Z a * q_size m) + mv_c M * ((if mv_m M then -1 else 1) * (inject_Z b * q_size m))) ->
    (close (q_size m') f' g' a' b' /\ facing (q_size m') f' g' a' b' (mv_k M * s) (mv_k M * s') /\ inside f' (mv_k M * s) /\ inside g' (mv_k M * s') <->
     close (q_size m) f g a b /\ facing (q_size m) f g a b s s' /\ inside f s /\ inside g s')).
  { intros a b a' b' Ha Hb. rewrite (moved_close M HM f g f' g' HP' _ _ a b a' b' Ha Hb).
    rewrite (moved_facing M HM f g f' g' HP' _ _ a b a' b' Ha Hb s s'). rewrite (moved_inside M f f' s HM Ff), (moved_inside M g g' s' HM Fg). tauto. }
  destruct per.
  - destruct (HB eq_refl) as [(p & q & Ec & Es & U) ES]. rewrite Ec, Es in X.
    set (r := (if mv_m M then -1 else 1)%Z). assert (Er : (if mv_m M then -1 else 1) = inject_Z r) by (unfold r; destruct (mv_m M); reflexivity).
    assert (Rr : (r * r = 1)%Z) by (unfold r; destruct (mv_m M); reflexivity). rewrite Er in X. clearbody r. split.
    + intros (a' & b' & _ & H). exists (p * a' + q * b')%Z, (r * (p * b' - q * a'))%Z. split; [intros C; discriminate C|].
      apply (X (p * a' + q * b')%Z (r * (p * b' - q * a'))%Z a' b'); [| |exact H].
      * rewrite ES. assert (E : a' = (p * (p * a' + q * b') - q * (r * (r * (p * b' - q * a'))))%Z) by (rewrite !(Z.mul_assoc r r), Rr; transitivity ((p * p + q * q) * a')%Z; [rewrite U; ring|ring]). rewrite E at 1. clear E. unfold Zminus. repeat (rewrite inject_Z_plus || rewrite inject_Z_opp || rewrite inject_Z_mult). ring.
      * rewrite ES. assert (E : b' = (q * (p * a' + q * b') + p * (r * (r * (p * b' - q * a'))))%Z) by (rewrite !(Z.mul_assoc r r), Rr; transitivity ((p * p + q * q) * b')%Z; [rewrite U; ring|ring]). rewrite E at 1. clear E. unfold Zminus. repeat (rewrite inject_Z_plus || rewrite inject_Z_opp || rewrite inject_Z_mult). ring.
    + intros (a & b & _ & H). exists (p * a - q * (r * b))%Z, (q * a + p * (r * b))%Z. split; [intros C; discriminate C|].
      apply (X a b (p * a - q * (r * b))%Z (q * a + p * (r * b))%Z); [| |exact H]; rewrite ES; unfold Zminus; repeat (rewrite inject_Z_plus || rewrite inject_Z_opp || rewrite inject_Z_mult); ring.
  - assert (Z0 : forall x, inject_Z 0 * x == 0) by (intros x; unfold Qeq; simpl; reflexivity || ring).
    split; intros (a & b & A & H); destruct (A eq_refl) as [-> ->]; exists 0%Z, 0%Z; (split; [auto|]); apply (X 0%Z 0%Z 0%Z 0%Z); try exact H; rewrite !Z0; ring.
Qed.
Theorem moved_joined M m m' t t' i j i' j' f g f' g' s s' : net_new m false None = Ok t -> net_new m' false None = Ok t' ->
  proper M -> moved_pair M f g f' g' -> i <> j -> i' <> j' ->
  has_fiber m i f -> has_fiber m j g -> has_fiber m' i' f' -> has_fiber m' j' g' ->
  (joined t i j s s' <-> joined t' i' j' (mv_k M * s) (mv_k M * s')).
Proof.
  intros Ht Ht' HM HP N N' Hf Hg Hf' Hg'.
  rewrite (joined_flat m t i j f g s s' Ht N Hf Hg), (joined_flat m' t' i' j' f' g' _ _ Ht' N' Hf' Hg').
  symmetry. apply moved_meet; auto. discriminate.
Qed.
Theorem moved_linked M m m' per t t' i j i' j' f g f' g' : net_new m per None = Ok t -> net_new m' per None = Ok t' ->
  proper M -> moved_pair M f g f' g' ->
  (per = true -> quarter M /\ q_size m' == mv_k M * q_size m /\ lengths_le m (q_size m) /\ lengths_le m' (q_size m')) ->
  i <> j -> i' <> j' -> has_fiber m i f -> has_fiber m j g -> has_fiber m' i' f' -> has_fiber m' j' g' ->
  (linked t i j <-> linked t' i' j').
Proof.
  intros Ht Ht' HM HP HB N N' Hf Hg Hf' Hg'.
  rewrite (linked_iff m per t Ht i j f g), (linked_iff m' per t' Ht' i' j' f' g'); auto; try (intros E; apply (HB E)).
  assert (HK : ~ mv_k M == 0) by (destruct HM; lra).
  assert (MB : per = true -> quarter M /\ q_size m' == mv_k M * q_size m) by (intros E; destruct (HB E) as (A & B & _); auto).
  split; intros (s & s' & J).
  - exists (mv_k M * s), (mv_k M * s'). apply (moved_meet M m m' per f g f' g' s s' HM HP MB). exact J.
  - exists (s / mv_k M), (s' / mv_k M). apply (moved_meet M m m' per f g f' g' _ _ HM HP MB).
    destruct J as (a & b & A & C & F & I1 & I2). exists a, b.
    assert (E1 : s == mv_k M * (s / mv_k M)) by (field; exact HK). assert (E2 : s' == mv_k M * (s' / mv_k M)) by (field; exact HK).
    split; [exact A|]. split; [exact C|]. split; [exact (facing_eq _ _ _ _ _ _ _ _ _ E1 E2 F)|]. split; [exact (inside_eq _ _ _ E1 I1)|exact (inside_eq _ _ _ E2 I2)].
Qed.

(** ** short in-plane fibers in a periodic box *)
Lemma meet_crosses m f g s s' : in_plane f -> in_plane g -> meet m true f g s s' -> exists a b, crosses_at (q_size m) f g a b s s'.
Proof.
  intros Pf Pg (a & b & _ & _ & F & I1 & I2). apply facing_normal in F. apply (normal_meets m f g Pf Pg) in F. destruct F as (X & Y & N).
  exists a, b. split; [exact I1|]. split; [exact I2|]. auto.
Qed.
Lemma joined_short m t i j f g s s' : net_new m true None = Ok t -> all_in_plane m -> all_at_most_unit m ->
  (forall f, In f (q_rows m) -> 2 * ql f <= q_size m) -> i <> j -> has_fiber m i f -> has_fiber m j g ->
  (joined t i j s s' <-> meet m true f g s s').
Proof.
  intros Ht HP HU HL N Hf Hg. split; [apply (joined_meet m true t Ht); auto|].
  assert (X : forall i j f g s s', (i < j)%Z -> has_fiber m i f -> has_fiber m j g -> meet m true f g s s' -> joined t i j s s').
  { clear i j f g s s' N Hf Hg. intros i j f g s s' L Hf Hg J. apply meet_crosses in J.
    - destruct J as (a & b & J). destruct (short_crossing_kept m t i j f g a b s s' Ht HP HU HL Hf Hg L J) as (k & c & Hr & H).
      exists k, c. split; [exact Hr|]. left. exact H.
    - apply HP. eapply nth_error_In, Hf.
    - apply HP. eapply nth_error_In, Hg. }
  intros J. destruct (Z.lt_trichotomy i j) as [L|[L|L]]; [eapply X; eauto|contradiction|].
  apply joined_swap. apply (X j i g f s' s); auto. apply meet_swap. exact J.
Qed.
Theorem moved_short M m m' t t' i j i' j' f g f' g' s s' : net_new m true None = Ok t -> net_new m' true None = Ok t' ->
  proper M -> moved_pair M f g f' g' -> quarter M -> q_size m' == mv_k M * q_size m ->
  all_in_plane m -> all_at_most_unit m -> (forall f, In f (q_rows m) -> 2 * ql f <= q_size m) ->
  all_in_plane m' -> all_at_most_unit m' -> (forall f, In f (q_rows m') -> 2 * ql f <= q_size m') ->
  i <> j -> i' <> j' -> has_fiber m i f -> has_fiber m j g -> has_fiber m' i' f' -> has_fiber m' j' g' ->
  (joined t i j s s' <-> joined t' i' j' (mv_k M * s) (mv_k M * s')).
Proof.
  intros Ht Ht' HM HP HQ HS P1 U1 L1 P2 U2 L2 N N' Hf Hg Hf' Hg'.
  rewrite (joined_short m t i j f g s s' Ht P1 U1 L1 N Hf Hg), (joined_short m' t' i' j' f' g' _ _ Ht' P2 U2 L2 N' Hf' Hg').
  symmetry. apply moved_meet; auto.
Qed.

(** ** the periodic network contains the non periodic one *)
Lemma dedup_head {A} (eqk : A -> A -> bool) (R : forall x, eqk x x = true) (Sy : forall x y, eqk x y = eqk y x)
  (T : forall x y z, eqk x y = true -> eqk y z = true -> eqk x z = true) l d :
  In d (dedup eqk l) <-> exists r, filter (eqk d) l = d :: r.
Proof.
  assert (H : forall l d, In d (dedup eqk l) -> exists r, filter (eqk d) l = d :: r).
  { clear l d. induction l as [|x l IH]; simpl; [tauto|]. intros d [->|Hd].
    - rewrite R. eauto.
    - apply filter_In in Hd. destruct Hd as [Hd E]. apply negb_true_iff in E. rewrite Sy in E. rewrite E. auto. }
  split; [apply H|]. intros (r & E).
  assert (I : In d l) by (apply (proj1 (filter_In (eqk d) d l)); rewrite E; left; reflexivity).
  destruct (dedup_complete eqk R T d l I) as (y & Hy & Ey). destruct (H l y Hy) as (r' & E').
  assert (X : filter (eqk y) l = filter (eqk d) l).
  { apply filter_ext. intros z. destruct (eqk y z) eqn:Ez, (eqk d z) eqn:Ez'; auto.
    - rewrite Sy in Ey. rewrite (T _ _ _ Ey Ez) in Ez'. discriminate.
    - rewrite (T _ _ _ Ey Ez') in Ez. discriminate. }
  rewrite E', E in X. injection X as -> _. exact Hy.
Qed.
Lemma cand_dup_sym c d : cand_dup c d = cand_dup d c.
Proof. unfold cand_dup. rewrite (Nat.eqb_sym (kA c)), (Nat.eqb_sym (kB c)). reflexivity. Qed.
Lemma final_head l d : In d (final l) <-> exists r, filter (cand_dup d) l = d :: r.
Proof.
  unfold final. rewrite (dedup_head cand_dup).
  - rewrite (isort_filter cand_leb); [reflexivity|]. intros x y _ _ Hx Hy. apply cand_dup_iff in Hx, Hy.
    unfold cand_leb. apply orb_true_iff. right. rewrite andb_true_iff, Nat.eqb_eq, Nat.leb_le. lia.
  - intros x. apply cand_dup_iff. auto.
  - apply cand_dup_sym.
  - intros x y z. rewrite !cand_dup_iff. intuition congruence.
Qed.
Definition plex (p q : nat * nat) : Prop := (fst p < fst q)%nat \/ (fst p = fst q /\ (snd p < snd q)%nat).
Lemma SS_app {A} (R : A -> A -> Prop) l l' : StronglySorted R l -> StronglySorted R l' -> (forall x y, In x l -> In y l' -> R x y) ->
  StronglySorted R (l ++ l').
Proof.
  intros H H' HR. induction H as [|x l Hl IH F]; simpl; auto. constructor; [apply IH; intros; apply HR; simpl; auto|].
  apply Forall_app. split; auto. apply Forall_forall. intros y Hy. apply HR; simpl; auto.
Qed.
Lemma seq_strict a n : StronglySorted lt (seq a n).
Proof. revert a. induction n as [|n IH]; intros a; simpl; constructor; auto. apply Forall_forall. intros x Hx. apply in_seq in Hx. lia. Qed.
Lemma triu_sorted n : StronglySorted plex (triu n).
Proof.
  unfold triu. assert (G : forall l, StronglySorted lt l -> StronglySorted plex (flat_map (fun i => map (pair i) (seq i (n - i))) l)).
  { intros l Hl. induction Hl as [|x l Hl IH F]; simpl; [constructor|]. apply SS_app; auto.
    - assert (K : forall l', StronglySorted lt l' -> StronglySorted plex (map (pair x) l')).
      { intros l' K. induction K as [|y l' K IK FK]; simpl; constructor; auto. rewrite Forall_forall in *. intros z Hz. apply in_map_iff in Hz.
        destruct Hz as (w & <- & Hw). right. simpl. split; auto. }
      apply K, seq_strict.
    - intros p q Hp Hq. apply in_map_iff in Hp. destruct Hp as (b & <- & _). apply in_flat_map in Hq. destruct Hq as (y & Hy & Hq).
      apply in_map_iff in Hq. destruct Hq as (b' & <- & _). left. simpl. rewrite Forall_forall in F. auto. }
  apply G, seq_strict.
Qed.
Lemma before l1 p l2 : StronglySorted plex (l1 ++ p :: l2) -> forall q, In q l1 -> plex q p.
Proof.
  induction l1 as [|x l1 IH]; simpl; [tauto|]. intros H q [->|Hq].
  - inversion H as [|? ? _ F]. rewrite Forall_forall in F. apply F. apply in_or_app. right. left. reflexivity.
  - inversion H. auto.
Qed.
(** the candidate of a pair of positions, if any *)
Definition cand_at (im : list (nat * qfiber)) (ij : nat * nat) : list cand :=
  let p := nth_image im (fst ij) in let q := nth_image im (snd ij) in
  if near (snd p) (snd q) then if keep im (cand_of p q) then [orient (cand_of p q)] else [] else [].
Lemma candidates_at im ps : map orient (candidates im ps) = flat_map (cand_at im) ps.
Proof.
  unfold candidates. induction ps as [|[i j] ps IH]; simpl; auto. unfold cand_at at 1. cbn [fst snd].
  destruct (near (snd (nth_image im i)) (snd (nth_image im j))); simpl; [|exact IH].
  destruct (keep im (cand_of (nth_image im i) (nth_image im j))); simpl; rewrite IH; reflexivity.
Qed.
Lemma filter_flat_map {A B} (p : B -> bool) (g : A -> list B) l : filter p (flat_map g l) = flat_map (fun x => filter p (g x)) l.
Proof. induction l as [|x l IH]; simpl; auto. rewrite filter_app, IH. reflexivity. Qed.

Section Contains.
  Variable m : qmat.
  Let n := length (q_rows m).
  Lemma base_image per i : (i < n)%nat -> nth_image (images per m) i = (i, nth i (q_rows m) fiber0).
  Proof.
    intros Hi. unfold nth_image. destruct (nth_error (q_rows m) i) as [f|] eqn:E; [|apply nth_error_None in E; unfold n in Hi; lia].
    rewrite (nth_error_nth (q_rows m) i fiber0 E). apply nth_error_nth. rewrite (images_base m per i Hi), E. reflexivity.
  Qed.
  Lemma base_label per per' i : (i < n)%nat -> by_label (images per m) i = by_label (images per' m) i.
  Proof.
    intros Hi. destruct (nth_error (q_rows m) i) as [f|] eqn:E; [|apply nth_error_None in E; unfold n in Hi; lia].
    rewrite !(by_label_nth m _ i f E). reflexivity.
  Qed.
  Lemma base_at per per' i j : (i < n)%nat -> (j < n)%nat -> cand_at (images per m) (i, j) = cand_at (images per' m) (i, j).
  Proof.
    intros Hi Hj. unfold cand_at. cbn [fst snd]. rewrite !base_image by assumption.
    destruct (cand_labels (i, nth i (q_rows m) fiber0) (j, nth j (q_rows m) fiber0)) as [LA LB]. cbn [fst] in LA, LB.
    assert (K : keep (images per m) (cand_of (i, nth i (q_rows m) fiber0) (j, nth j (q_rows m) fiber0)) =
      keep (images per' m) (cand_of (i, nth i (q_rows m) fiber0) (j, nth j (q_rows m) fiber0))).
    { unfold keep. rewrite LA, LB, (base_label per per' i Hi), (base_label per per' j Hj). reflexivity. }
    rewrite K. reflexivity.
  Qed.
  Lemma at_labels per p q d : In d (cand_at (images per m) (p, q)) ->
    (kA d = fst (nth_image (images per m) p) /\ kB d = fst (nth_image (images per m) q)) \/
    (kA d = fst (nth_image (images per m) q) /\ kB d = fst (nth_image (images per m) p)).
  Proof.
    unfold cand_at. cbn [fst snd]. destruct (near _ _); [|intros []]. destruct (keep _ _); [|intros []]. intros [<-|[]].
    destruct (cand_labels (nth_image (images per m) p) (nth_image (images per m) q)) as [LA LB]. unfold orient. rewrite LA, LB.
    destruct (Nat.leb _ _); cbn [kA kB]; [left|right]; rewrite ?LA, ?LB; auto.
  Qed.
  Lemma base_final per d : In d (final (flat_map (cand_at (images false m)) (triu n))) ->
    (kA d < n)%nat /\ (kB d < n)%nat /\ In d (final (flat_map (cand_at (images per m)) (triu (length (images per m))))).
  Proof.
    intros Hd. apply final_incl in Hd. apply in_flat_map in Hd. destruct Hd as ((p & q) & Hpq & Hd).
    apply in_triu in Hpq. assert (Hp : (p < n)%nat) by lia. assert (Hq : (q < n)%nat) by lia.
    pose proof (at_labels false p q d Hd) as Lab. rewrite !base_image in Lab by assumption. cbn [fst] in Lab.
    split; [lia|]. split; [lia|]. apply final_head. rewrite filter_flat_map.
    pose proof (images_len m per) as Len. fold n in Len.
    assert (I : In (p, q) (triu (length (images per m)))) by (apply in_triu; lia).
    pose proof (triu_sorted (length (images per m))) as Srt. apply in_split in I. destruct I as (l1 & l2 & E). rewrite E in Srt |- *.
    rewrite flat_map_app. cbn [flat_map].
    assert (Z : flat_map (fun x => filter (cand_dup d) (cand_at (images per m) x)) l1 = []).
    { assert (ZZ : forall x, In x l1 -> filter (cand_dup d) (cand_at (images per m) x) = []).
      { intros [p' q'] Hx. pose proof (before l1 (p, q) l2 Srt _ Hx) as B. unfold plex in B. cbn [fst snd] in B.
        assert (Ix : In (p', q') (triu (length (images per m)))) by (rewrite E; apply in_or_app; left; exact Hx). apply in_triu in Ix.
        destruct (filter (cand_dup d) (cand_at (images per m) (p', q'))) as [|e r] eqn:F; [reflexivity|exfalso].
        assert (He : In e (filter (cand_dup d) (cand_at (images per m) (p', q')))) by (rewrite F; left; reflexivity).
        apply filter_In in He. destruct He as [He De]. apply cand_dup_iff in De. destruct De as [DA DB].
        apply at_labels in He. rewrite (base_image per p') in He by lia. cbn [fst] in He.
        destruct B as [B|[-> B]]; [lia|]. rewrite (base_image per q') in He by lia. cbn [fst] in He. lia. }
      clear - ZZ. induction l1 as [|x l1 IH]; simpl; auto. rewrite ZZ by (left; reflexivity). apply IH. intros y Hy. apply ZZ. right. exact Hy. }
    rewrite Z. cbn [app]. rewrite (base_at per false p q Hp Hq).
    assert (D1 : cand_at (images false m) (p, q) = [d]).
    { unfold cand_at in Hd |- *. cbn [fst snd] in Hd |- *. destruct (near _ _); [|destruct Hd]. destruct (keep _ _); [|destruct Hd]. destruct Hd as [<-|[]]. reflexivity. }
    rewrite D1. cbn [filter]. assert (Dd : cand_dup d d = true) by (apply cand_dup_iff; auto). rewrite Dd. cbn [app]. eauto.
  Qed.
  Theorem periodic_contains t t' k c : net_new m false None = Ok t -> net_new m true None = Ok t' ->
    is_row t k c -> exists k', is_row t' k' c.
  Proof.
    intros Ht Ht' Hr. rewrite (full_table m false t Ht) in Hr. rewrite (full_table m true t' Ht').
    unfold is_row, net_table in *. cbn [n_rows] in *. rewrite enum_nth_error in Hr. unfold net_conns in *.
    rewrite candidates_at in *. fold (final (flat_map (cand_at (images false m)) (triu (length (images false m))))) in Hr.
    fold (final (flat_map (cand_at (images true m)) (triu (length (images true m))))).
    assert (L0 : length (images false m) = n) by (unfold images; apply labelled_length). rewrite L0 in Hr.
    rewrite nth_error_map in Hr. destruct (nth_error (final (flat_map (cand_at (images false m)) (triu n))) k) as [d|] eqn:Ed; [|discriminate Hr].
    apply nth_error_In in Ed. destruct (base_final true d Ed) as (LA & LB & Hd). cbn in Hr. injection Hr as <-.
    apply In_nth_error in Hd. destruct Hd as (k' & Hd). exists k'. rewrite enum_nth_error, nth_error_map, Hd.
    assert (X : conn_of (images true m) d = conn_of (images false m) d).
    { unfold conn_of. rewrite (base_label true false _ LA), (base_label true false _ LB). reflexivity. }
    cbn [option_map]. rewrite X. reflexivity.
  Qed.
End Contains.

(** ** comparison of stacks *)
Section Compare.
  Variables (k : Q) (m m' : qmat) (t t' : net_df) (z z' : list Q) (e : Z -> Z).
  Hypothesis Hk : 0 < k.
  Lemma label_ind (P : Z -> qfiber -> Prop) (m0 : qmat) :
    (forall i f, has_fiber m0 i f -> (forall j g, (j < i)%Z -> has_fiber m0 j g -> P j g) -> P i f) -> forall i f, has_fiber m0 i f -> P i f.
  Proof.
    intros H i. assert (G : forall n i, (Z.to_nat i < n)%nat -> forall f, has_fiber m0 i f -> P i f).
    { induction n as [|n IH]; intros i0 L f Hf; [lia|]. apply H; auto. intros j g Lj Hg. apply IH; auto. destruct Hg, Hf. lia. }
    apply (G (Datatypes.S (Z.to_nat i))). lia.
  Qed.
  Hypothesis Hplaced : forall i f, has_fiber m i f -> exists f', has_fiber m' (e i) f' /\ k * qh f <= qh f'.
  Hypothesis Hconn : forall A B f g, has_fiber m A f -> has_fiber m B g -> connected t A B -> connected t' (e A) (e B).
  Lemma compare_le : supported m t z -> admissible m' t' z' -> forall i f, has_fiber m i f -> k * height z i <= height z' (e i).
  Proof.
    intros HS (_ & HF & HN). apply (label_ind (fun i f => k * height z i <= height z' (e i)) m). intros i f Hf IH.
    destruct (Hplaced i f Hf) as (f' & Hf' & Lf). destruct (HS i f Hf) as [E|(A & g & C & Hg & E)].
    - rewrite E. specialize (HF _ _ Hf'). qlra.
    - destruct (Hplaced A g Hg) as (g' & Hg' & Lg). pose proof (HN _ _ _ _ (Hconn A i g f Hg Hf C) Hg' Hf') as N.
      specialize (IH A g (proj1 C) Hg). rewrite E. qlra.
  Qed.
End Compare.
Section CompareGe.
  Variables (k : Q) (m m' : qmat) (t t' : net_df) (z z' : list Q) (e : Z -> Z).
  Hypothesis Hk : 0 < k.
  Hypothesis Hplaced : forall i f f', has_fiber m i f -> has_fiber m' (e i) f' -> qh f' <= k * qh f.
  Hypothesis Hthere : forall i f, has_fiber m i f -> exists f', has_fiber m' (e i) f'.
  Hypothesis Hconn : forall A B g f, has_fiber m B g -> has_fiber m' A f -> connected t' A (e B) -> 
    exists A' f', has_fiber m A' f' /\ A = e A' /\ connected t A' B.
  Lemma compare_ge : admissible m t z -> supported m' t' z' -> forall i f, has_fiber m i f -> height z' (e i) <= k * height z i.
  Proof.
    intros (_ & HF & HN) HS. apply (label_ind (fun i f => height z' (e i) <= k * height z i) m). intros i f Hf IH.
    destruct (Hthere i f Hf) as (f' & Hf'). pose proof (Hplaced i f f' Hf Hf') as Lf. destruct (HS _ f' Hf') as [E|(A & g' & C & Hg' & E)].
    - rewrite E. specialize (HF _ _ Hf). assert (Y : k * (qh f / 2) <= k * height z i) by (apply Qmult_le_l; auto). qlra.
    - destruct (Hconn A i f g' Hf Hg' C) as (A' & g & Hg & -> & C'). pose proof (Hplaced A' g g' Hg Hg') as Lg.
      pose proof (HN _ _ _ _ C' Hg Hf) as N. specialize (IH A' g (proj1 C') Hg).
      assert (Y : k * ((qh g + qh f) / 2) <= k * (height z i - height z A')) by (apply Qmult_le_l; auto). rewrite E. qlra.
  Qed.
End CompareGe.
Lemma connected_linked m per t A B : net_new m per None = Ok t -> (connected t A B <-> (A < B)%Z /\ linked t A B).
Proof.
  intros Ht. split.
  - intros (L & k & c & Hr & EA & EB). split; auto. exists (csA c), (csB c), k, c. split; [exact Hr|]. left. repeat split; auto; reflexivity.
  - intros (L & s & s' & k & c & Hr & [(EA & EB & _)|(EA & EB & _)]).
    + split; auto. exists k, c. auto.
    + exfalso. destruct (row_facts m per None t Ht k c Hr) as (f & g & _ & _ & O & _). lia.
Qed.
Section Stacks.
  Variables (linprog linprog' : lp -> list Q) (M : motion) (m m' : qmat) (per : bool) (t t' : net_df) (e : Z -> Z).
  Hypothesis Ht : net_new m per None = Ok t.
  Hypothesis Ht' : net_new m' per None = Ok t'.
  Hypothesis HM : proper M.
  Hypothesis P1 : all_in_plane m.
  Hypothesis P2 : all_in_plane m'.
  Hypothesis HB : per = true -> boxes M m m'.
  Lemma placed_connected R A B f g : placed M R e m m' -> has_fiber m A f -> has_fiber m B g -> (A < B)%Z ->
    (connected t A B <-> connected t' (e A) (e B)).
  Proof.
    intros (HP & HI) Hf Hg L. rewrite (connected_linked m per t A B Ht), (connected_linked m' per t' _ _ Ht').
    pose proof (HI _ _ _ _ Hf Hg L) as L'. destruct (HP _ _ Hf) as (f' & Hf' & Ff & _). destruct (HP _ _ Hg) as (g' & Hg' & Fg & _).
    assert (X : linked t A B <-> linked t' (e A) (e B)).
    { apply (moved_linked M m m' per t t' A B (e A) (e B) f g f' g'); auto; try lia.
      - split; [exact Ff|]. split; [exact Fg|]. left. split; apply P1; eapply nth_error_In; [apply Hf|apply Hg]. }
    tauto.
  Qed.
  Variables (thr thr' : option Q) (st st' : net_df) (n n' : qmat).
  Hypothesis S1 : solved linprog m t.
  Hypothesis S2 : solved linprog' m' t'.
  Hypothesis R1 : stack_new linprog m t thr = Ok (st, n).
  Hypothesis R2 : stack_new linprog' m' t' thr' = Ok (st', n').
  Theorem stacks_le : placed M Qle e m m' -> forall i f, has_fiber m i f ->
    mv_k M * height (heights n) i <= height (heights n') (e i).
  Proof.
    intros HP. destruct (built_heights linprog m per t Ht S1 thr st n R1) as (_ & _ & Sup).
    destruct (built_heights linprog' m' per t' Ht' S2 thr' st' n' R2) as (_ & Adm & _).
    apply (compare_le (mv_k M) m m' t t' (heights n) (heights n') e); auto; try apply HM.
    - intros i f Hf. destruct (proj1 HP i f Hf) as (f' & Hf' & _ & L). eauto.
    - intros A B f g Hf Hg C. apply (placed_connected Qle A B f g HP Hf Hg); [apply C|exact C].
  Qed.
  Theorem stacks_eq : placed M Qeq e m m' -> lowest e m m' -> forall i f, has_fiber m i f ->
    height (heights n') (e i) == mv_k M * height (heights n) i.
  Proof.
    intros HP HL i f Hf. apply Qle_antisym.
    - revert i f Hf. destruct (built_heights linprog m per t Ht S1 thr st n R1) as (_ & Adm & _).
      destruct (built_heights linprog' m' per t' Ht' S2 thr' st' n' R2) as (_ & _ & Sup).
      apply (compare_ge (mv_k M) m m' t t' (heights n) (heights n') e); auto; try apply HM.
      + intros i f f' Hf Hf'. destruct (proj1 HP i f Hf) as (f2 & Hf2 & _ & L).
        assert (f2 = f') by (destruct Hf2 as [_ A]; destruct Hf' as [_ B]; congruence). subst f2. rewrite L. apply Qle_refl.
      + intros i f Hf. destruct (proj1 HP i f Hf) as (f2 & Hf2 & _). eauto.
      + intros A B g f' Hg Hf' C. destruct (HL B A g f' Hg Hf' (proj1 C)) as (A' & f0 & Hf0 & ->).
        exists A', f0. split; [exact Hf0|]. split; [reflexivity|].
        assert (L : (A' < B)%Z).
        { destruct (Z.lt_trichotomy A' B) as [L|[->|L]]; [exact L| |]; destruct C as [C _]; [lia|].
          pose proof (proj2 HP _ _ _ _ Hg Hf0 L). lia. }
        apply (placed_connected Qeq A' B f0 g HP Hf0 Hg L). exact C.
    - apply stacks_le with (f := f); auto. destruct HP as [HP HI]. split; [|exact HI]. intros j g Hg. destruct (HP j g Hg) as (f' & A & B & C).
      exists f'. split; [exact A|]. split; [exact B|]. rewrite C. apply Qle_refl.
  Qed.
End Stacks.
