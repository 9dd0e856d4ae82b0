(** Proofs about images and orientation of fibers (C98). *)
From Verif Require Import Num NumP ListX ListP Frames MatM NetM StackM Spec SpecNet SpecStack SpecMeta SpecTorus
  CheckP NetP NetGeoP NetZP StackP StackNewP MetaP.
Open Scope Q_scope.

Definition flat_or_level (f g f' g' : qfiber) : Prop := (in_plane f /\ in_plane g) \/ (qz f' == qz f /\ qz g' == qz g).
Lemma sign_sq r : r == 1 \/ r == - (1) -> r * r == 1.
Proof. intros [->| ->]; ring. Qed.
Lemma sign_nz r : r == 1 \/ r == - (1) -> ~ r == 0.
Proof. intros [->| ->]; discriminate. Qed.
Lemma strand_sym per S r f f' : strand per S r f f' -> strand per S r f' f.
Proof.
  intros (HR & L & (a & b & A & X & Y) & U & V & W). pose proof (sign_sq r HR) as R2.
  split; [exact HR|]. split; [symmetry; exact L|]. split; [|split; [|split]].
  - exists (- a)%Z, (- b)%Z. split; [apply allowed_opp; exact A|]. rewrite X, Y, !inject_Z_opp. split; ring.
  - rewrite U. setoid_replace (r * (r * qu f)) with (r * r * qu f) by ring. rewrite R2. ring.
  - rewrite V. setoid_replace (r * (r * qv f)) with (r * r * qv f) by ring. rewrite R2. ring.
  - rewrite W. setoid_replace (r * (r * qw f)) with (r * r * qw f) by ring. rewrite R2. ring.
Qed.
Lemma level_sym per S r r' f g f' g' : strand per S r f f' -> strand per S r' g g' -> flat_or_level f g f' g' -> flat_or_level f' g' f g.
Proof.
  intros (_ & _ & _ & _ & _ & W) (_ & _ & _ & _ & _ & W') [[P P']|[E E']]; [left|right; split; symmetry; assumption].
  unfold in_plane in *. rewrite W, W', P, P'. split; ring.
Qed.
Lemma strand_inside per S r f f' s : strand per S r f f' -> inside f s -> inside f' (r * s).
Proof. intros ([E|E] & L & _) [I1 I2]. all: unfold inside; rewrite L, E; split; qlra. Qed.

Lemma strand_meet1 m m' per r r' f g f' g' s s' : q_size m' == q_size m -> strand per (q_size m) r f f' -> strand per (q_size m) r' g g' ->
  flat_or_level f g f' g' -> meet m per f g s s' -> meet m' per f' g' (r * s) (r' * s').
Proof.
  intros ES HF HG HZ (a & b & A & C & (F1 & F2 & F3) & I1 & I2). pose proof (strand_inside _ _ _ _ _ s HF I1) as J1. pose proof (strand_inside _ _ _ _ _ s' HG I2) as J2.
  destruct HF as (HR & Lf & (af & bf & Af & Xf & Yf) & Uf & Vf & Wf). destruct HG as (HR' & Lg & (ag & bg & Ag & Xg & Yg) & Ug & Vg & Wg).
  pose proof (sign_sq r HR) as R2. pose proof (sign_sq r' HR') as R2'. pose proof (sign_nz r HR) as RN. pose proof (sign_nz r' HR') as RN'.
  exists (a + af - ag)%Z, (b + bf - bg)%Z.
  assert (Ea : forall S, S == q_size m -> inject_Z (a + af - ag) * S == inject_Z a * q_size m + inject_Z af * q_size m - inject_Z ag * q_size m).
  { intros S0 ->. unfold Zminus. rewrite !inject_Z_plus, inject_Z_opp. ring. }
  assert (Eb : forall S, S == q_size m -> inject_Z (b + bf - bg) * S == inject_Z b * q_size m + inject_Z bf * q_size m - inject_Z bg * q_size m).
  { intros S0 ->. unfold Zminus. rewrite !inject_Z_plus, inject_Z_opp. ring. }
  specialize (Ea _ ES). specialize (Eb _ ES).
  split. { intros E. destruct (A E), (Af E), (Ag E). lia. }
  split.
  { unfold close in *. cbv zeta in *. rewrite Ea, Eb, Xf, Xg, Yf, Yg, Lf, Lg.
    setoid_replace (qx g + inject_Z ag * q_size m + (inject_Z a * q_size m + inject_Z af * q_size m - inject_Z ag * q_size m) - (qx f + inject_Z af * q_size m))
      with (qx g + inject_Z a * q_size m - qx f) by ring.
    setoid_replace (qy g + inject_Z bg * q_size m + (inject_Z b * q_size m + inject_Z bf * q_size m - inject_Z bg * q_size m) - (qy f + inject_Z bf * q_size m))
      with (qy g + inject_Z b * q_size m - qy f) by ring. exact C. }
  split; [|split; assumption].
  unfold facing, ax, ay, az in *. cbv zeta in *.
  set (dx := qx g + s' * qu g + inject_Z a * q_size m - (qx f + s * qu f)) in *. set (dy := qy g + s' * qv g + inject_Z b * q_size m - (qy f + s * qv f)) in *.
  set (dz := qz g + s' * qw g - (qz f + s * qw f)) in *.
  assert (P : forall x, r * s * (r * x) == s * x) by (intros x; setoid_replace (r * s * (r * x)) with (r * r * (s * x)) by ring; rewrite R2; ring).
  assert (P' : forall x, r' * s' * (r' * x) == s' * x) by (intros x; setoid_replace (r' * s' * (r' * x)) with (r' * r' * (s' * x)) by ring; rewrite R2'; ring).
  assert (Dx : qx g' + r' * s' * qu g' + inject_Z (a + af - ag) * q_size m' - (qx f' + r * s * qu f') == dx).
  { rewrite Ea, Xf, Xg, Uf, Ug, P, P'. unfold dx. ring. }
  assert (Dy : qy g' + r' * s' * qv g' + inject_Z (b + bf - bg) * q_size m' - (qy f' + r * s * qv f') == dy).
  { rewrite Eb, Yf, Yg, Vf, Vg, P, P'. unfold dy. ring. }
  assert (Dz : forall w, w == qw f \/ w == qw g -> (qz g' + r' * s' * qw g' - (qz f' + r * s * qw f')) * w == dz * w).
  { intros w Hw. destruct HZ as [[Pf Pg]|[Zf Zg]].
    - assert (W0 : w == 0) by (destruct Hw as [->| ->]; assumption). rewrite W0. ring.
    - rewrite Zf, Zg, Wf, Wg, P, P'. unfold dz. ring. }
  rewrite Dx, Dy. split; [|split].
  - setoid_replace (dx * qu f' + dy * qv f' + (qz g' + r' * s' * qw g' - (qz f' + r * s * qw f')) * qw f')
      with (r * (dx * qu f + dy * qv f + (qz g' + r' * s' * qw g' - (qz f' + r * s * qw f')) * qw f)).
    + rewrite (Dz (qw f) (or_introl (Qeq_refl _))), F1. ring.
    + rewrite Uf, Vf. setoid_replace ((qz g' + r' * s' * qw g' - (qz f' + r * s * qw f')) * qw f') with (r * ((qz g' + r' * s' * qw g' - (qz f' + r * s * qw f')) * qw f)); [ring|].
      generalize (qz g' + r' * s' * qw g' - (qz f' + r * s * qw f')). intros y. rewrite Wf. ring.
  - setoid_replace (dx * qu g' + dy * qv g' + (qz g' + r' * s' * qw g' - (qz f' + r * s * qw f')) * qw g')
      with (r' * (dx * qu g + dy * qv g + (qz g' + r' * s' * qw g' - (qz f' + r * s * qw f')) * qw g)).
    + rewrite (Dz (qw g) (or_intror (Qeq_refl _))), F2. ring.
    + rewrite Ug, Vg. setoid_replace ((qz g' + r' * s' * qw g' - (qz f' + r * s * qw f')) * qw g') with (r' * ((qz g' + r' * s' * qw g' - (qz f' + r * s * qw f')) * qw g)); [ring|].
      generalize (qz g' + r' * s' * qw g' - (qz f' + r * s * qw f')). intros y. rewrite Wg. ring.
  - intros (Q1 & Q2 & Q3). apply F3. rewrite Uf, Vf, Wf, Ug, Vg, Wg in *.
    assert (RR : ~ r * r' == 0) by (intros E; apply Qmult_integral in E; destruct E; contradiction).
    assert (X : forall x y z w, r * x * (r' * y) == r * z * (r' * w) -> x * y == z * w).
    { intros x y z w E. apply (Qmult_inj_l _ _ (r * r') RR). setoid_replace (r * r' * (x * y)) with (r * x * (r' * y)) by ring. rewrite E. ring. }
    repeat split; apply X; assumption.
Qed.
Lemma meet_eq m per f g s s' t t' : s == t -> s' == t' -> meet m per f g s s' -> meet m per f g t t'.
Proof.
  intros E E' (a & b & A & C & F & I1 & I2). exists a, b. split; [exact A|]. split; [exact C|].
  split; [exact (facing_eq _ _ _ _ _ _ _ _ _ E E' F)|]. split; [exact (inside_eq _ _ _ E I1)|exact (inside_eq _ _ _ E' I2)].
Qed.
Lemma strand_size per S S' r f f' : S == S' -> strand per S r f f' -> strand per S' r f f'.
Proof. intros E (A & B & (a & b & C & D & F) & G). split; [exact A|]. split; [exact B|]. split; [|exact G]. exists a, b. rewrite <- E. auto. Qed.
Lemma strand_meet m m' per r r' f g f' g' s s' : q_size m' == q_size m -> strand per (q_size m) r f f' -> strand per (q_size m) r' g g' ->
  flat_or_level f g f' g' -> (meet m per f g s s' <-> meet m' per f' g' (r * s) (r' * s')).
Proof.
  intros ES HF HG HZ. split; [apply (strand_meet1 m m'); auto|]. intros J.
  apply (strand_meet1 m' m per r r' f' g' f g) in J.
  - revert J. apply meet_eq.
    + setoid_replace (r * (r * s)) with (r * r * s) by ring. rewrite (sign_sq r (proj1 HF)). ring.
    + setoid_replace (r' * (r' * s')) with (r' * r' * s') by ring. rewrite (sign_sq r' (proj1 HG)). ring.
  - symmetry. exact ES.
  - apply strand_sym, (strand_size per (q_size m)); [symmetry; exact ES|exact HF].
  - apply strand_sym, (strand_size per (q_size m)); [symmetry; exact ES|exact HG].
  - apply (level_sym per (q_size m) r r'); assumption.
Qed.

(** composition with motions *)
Section Alike.
  Variables (M : motion) (m m' : qmat) (per : bool) (r r' : Q) (f g f' g' : qfiber).
  Hypothesis HM : proper M.
  Hypothesis HA : alike_pair M per (q_size m') r r' f g f' g'.
  Hypothesis HB : per = true -> quarter M /\ q_size m' == mv_k M * q_size m.
  Lemma alike_meet s s' : meet m per f g s s' <-> meet m' per f' g' (r * (mv_k M * s)) (r' * (mv_k M * s')).
  Proof.
    destruct HA as ((f1 & Ff & Rf & Sf) & (g1 & Fg & Rg & Sg) & HZ).
    rewrite <- (moved_meet M m m' per f g f1 g1 s s' HM); [|split; [exact Ff|]; split; [exact Fg|]; right; split; assumption|exact HB].
    apply (strand_meet m' m' per r r' f1 g1 f' g'); auto; [reflexivity|].
    destruct HZ as [[P P']|[Z Z']]; [left|right].
    - destruct Ff as (_ & _ & _ & _ & _ & W). destruct Fg as (_ & _ & _ & _ & _ & W'). unfold in_plane in *. rewrite W, W'. auto.
    - unfold rises in *. rewrite Z, Z', Rf, Rg. split; reflexivity.
  Qed.
  Lemma alike_meets : (exists s s', meet m per f g s s') <-> (exists s s', meet m' per f' g' s s').
  Proof.
    split; intros (s & s' & J).
    - apply alike_meet in J. eauto.
    - assert (HK : ~ mv_k M == 0) by (destruct HM; lra).
      exists (r * s / mv_k M), (r' * s' / mv_k M). apply alike_meet. revert J. destruct HA as ((f1 & _ & _ & Sf) & (g1 & _ & _ & Sg) & _).
      apply meet_eq.
      + setoid_replace (r * (mv_k M * (r * s / mv_k M))) with (r * r * s) by (field; exact HK). rewrite (sign_sq r (proj1 Sf)). ring.
      + setoid_replace (r' * (mv_k M * (r' * s' / mv_k M))) with (r' * r' * s') by (field; exact HK). rewrite (sign_sq r' (proj1 Sg)). ring.
  Qed.
  Variables (t t' : net_df) (i j i' j' : Z).
  Hypothesis Ht : net_new m per None = Ok t.
  Hypothesis Ht' : net_new m' per None = Ok t'.
  Hypothesis N : i <> j.
  Hypothesis N' : i' <> j'.
  Hypothesis Hf : has_fiber m i f.
  Hypothesis Hg : has_fiber m j g.
  Hypothesis Hf' : has_fiber m' i' f'.
  Hypothesis Hg' : has_fiber m' j' g'.
  Lemma alike_linked : (per = true -> lengths_le m (q_size m) /\ lengths_le m' (q_size m')) -> (linked t i j <-> linked t' i' j').
  Proof.
    intros HL. rewrite (linked_iff m per t Ht i j f g), (linked_iff m' per t' Ht' i' j' f' g'); auto; try (intros E; apply (HL E)). exact alike_meets.
  Qed.
  Lemma alike_joined s s' : (per = true -> all_in_plane m /\ all_at_most_unit m /\ (forall f, In f (q_rows m) -> 2 * ql f <= q_size m) /\
      all_in_plane m' /\ all_at_most_unit m' /\ (forall f, In f (q_rows m') -> 2 * ql f <= q_size m')) ->
    (joined t i j s s' <-> joined t' i' j' (r * (mv_k M * s)) (r' * (mv_k M * s'))).
  Proof.
    intros HS. pose proof (alike_meet s s') as E. destruct per.
    - destruct (HS eq_refl) as (A1 & A2 & A3 & A4 & A5 & A6).
      rewrite (joined_short m t i j f g s s' Ht A1 A2 A3 N Hf Hg), (joined_short m' t' i' j' f' g' _ _ Ht' A4 A5 A6 N' Hf' Hg'). exact E.
    - rewrite (joined_flat m t i j f g s s' Ht N Hf Hg), (joined_flat m' t' i' j' f' g' _ _ Ht' N' Hf' Hg'). exact E.
  Qed.
End Alike.
