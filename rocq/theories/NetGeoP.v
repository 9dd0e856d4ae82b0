(** Geometry of the network (C06, C09 - C13). *)
From Coq Require Import String Permutation.
From Verif Require Import Num NumP ListX ListP Frames MatM NetM Spec SpecNet CheckP MatP NetP.
Open Scope Q_scope.

Lemma abs_lt x a : Qabs x < a <-> - a < x < a.
Proof.
  split.
  - intros H. pose proof (Qle_Qabs x). pose proof (Qle_Qabs (- x)). rewrite Qabs_opp in *. lra.
  - intros [H1 H2]. apply Qabs_case; intros; lra.
Qed.
Lemma inside_half f s : inside f s <-> Qabs s < half * ql f.
Proof. unfold inside, half. rewrite abs_lt. split; intros; split; qlra. Qed.

(** ** Nearest points (C09) *)
Section Nearest.
  Variable m : qmat.
  Variables f g : qfiber.
  Variables a b : Z.
  Variables s t : Q.
  Hypothesis HN : normal m f g a b s t.
  Let S := q_size m.

  Lemma gram_pos : 0 < gram f f * gram g g - gram f g * gram f g.
  Proof.
    destruct HN as (_ & _ & H). unfold gram in *.
    set (c1 := qu f * qv g - qv f * qu g). set (c2 := qv f * qw g - qw f * qv g).
    set (c3 := qw f * qu g - qu f * qw g).
    assert (E : (qu f * qu f + qv f * qv f + qw f * qw f) * (qu g * qu g + qv g * qv g + qw g * qw g) -
      (qu f * qu g + qv f * qv g + qw f * qw g) * (qu f * qu g + qv f * qv g + qw f * qw g)
      == c1 * c1 + c2 * c2 + c3 * c3) by (unfold c1, c2, c3; ring).
    rewrite E in *. assert (0 <= c1 * c1 + c2 * c2 + c3 * c3) by nra.
    destruct (Qle_lt_or_eq _ _ H0) as [L|L]; auto. exfalso. apply H. symmetry. exact L.
  Qed.
  (** the distance is the minimum plus a definite form *)
  Lemma dist_split s' t' :
    dist2 S f g a b s' t' == dist2 S f g a b s t
      + (gram f f * (s' - s) * (s' - s) - 2 * gram f g * (s' - s) * (t' - t)
         + gram g g * (t' - t) * (t' - t)).
  Proof.
    destruct HN as (H1 & H2 & _). unfold dist2, ax, ay, az, gram, S in *.
    set (rx := qx g + inject_Z a * q_size m - qx f) in *.
    set (ry := qy g + inject_Z b * q_size m - qy f) in *.
    set (rz := qz g - qz f) in *.
    set (G := qu f * qu f + qv f * qv f + qw f * qw f) in *.
    set (H := qu g * qu g + qv g * qv g + qw g * qw g) in *.
    set (K := qu f * qu g + qv f * qv g + qw f * qw g) in *.
    set (P := qu f * rx + qv f * ry + qw f * rz) in *.
    set (R := qu g * rx + qv g * ry + qw g * rz) in *.
    assert (E : forall s t,
      (qx g + t * qu g + inject_Z a * q_size m - (qx f + s * qu f)) *
      (qx g + t * qu g + inject_Z a * q_size m - (qx f + s * qu f)) +
      (qy g + t * qv g + inject_Z b * q_size m - (qy f + s * qv f)) *
      (qy g + t * qv g + inject_Z b * q_size m - (qy f + s * qv f)) +
      (qz g + t * qw g - (qz f + s * qw f)) * (qz g + t * qw g - (qz f + s * qw f))
      == rx * rx + ry * ry + rz * rz + 2 * t * R - 2 * s * P + t * t * H - 2 * s * t * K + s * s * G).
    { intros x y. unfold G, H, K, P, R, rx, ry, rz. ring. }
    rewrite (E s' t'), (E s t). clear E.
    assert (EP : P == s * G - t * K) by lra. assert (ER : R == s * K - t * H) by lra.
    rewrite EP, ER. ring.
  Qed.

  Lemma form_pos G H K x y : 0 < G * H - K * K -> 0 <= G ->
    0 <= G * x * x - 2 * K * x * y + H * y * y /\
    (G * x * x - 2 * K * x * y + H * y * y == 0 -> x == 0 /\ y == 0).
  Proof.
    intros HD HG.
    assert (G0 : 0 < G) by (destruct (Qle_lt_or_eq _ _ HG) as [L|L]; auto; rewrite <- L in HD; nra).
    set (q := G * x * x - 2 * K * x * y + H * y * y).
    assert (E : G * q == (G * x - K * y) * (G * x - K * y) + (G * H - K * K) * (y * y))
      by (unfold q; ring).
    set (z := G * x - K * y) in *. set (d := G * H - K * K) in *.
    assert (Hz : 0 <= z * z) by nra. assert (Hy : 0 <= y * y) by nra.
    assert (Hdy : 0 <= d * (y * y)) by nra.
    split.
    - destruct (Qlt_le_dec q 0) as [C|C]; auto. exfalso.
      assert (G * q < 0) by nra. lra.
    - intros Hq. rewrite Hq in E.
      assert (d * (y * y) == 0) by lra.
      assert (Ey : y == 0).
      { apply Qmult_integral in H0. destruct H0 as [H0|H0]; [rewrite H0 in HD; lra|].
        apply Qmult_integral in H0. tauto. }
      assert (Ez : z * z == 0) by lra. apply Qmult_integral in Ez.
      assert (Ex : z == 0) by tauto. unfold z in Ex. rewrite Ey in Ex.
      assert (G * x == 0) by lra. apply Qmult_integral in H1. destruct H1 as [H1|H1]; [lra|].
      split; auto.
  Qed.
  Lemma nearest s' t' :
    dist2 S f g a b s t <= dist2 S f g a b s' t' /\
    (dist2 S f g a b s' t' == dist2 S f g a b s t -> s' == s /\ t' == t).
  Proof.
    rewrite (dist_split s' t').
    assert (HG : 0 <= gram f f) by (unfold gram; nra).
    destruct (form_pos (gram f f) (gram g g) (gram f g) (s' - s) (t' - t) gram_pos HG) as [H1 H2].
    split; [lra|]. intros E. destruct H2 as [H2 H3]; [lra|]. split; lra.
  Qed.
End Nearest.

(** ** In-plane fibers (C10) *)
Section Planar.
  Variable m : qmat.
  Variables f g : qfiber.
  Hypothesis Pf : qw f == 0.
  Hypothesis Pg : qw g == 0.

  Lemma gram_planar : gram f f * gram g g - gram f g * gram f g
    == (qu f * qv g - qv f * qu g) * (qu f * qv g - qv f * qu g).
  Proof. unfold gram. rewrite Pf, Pg. ring. Qed.

  Lemma normal_meets a b s t : normal m f g a b s t ->
    ax f s == ax g t + inject_Z a * q_size m /\ ay f s == ay g t + inject_Z b * q_size m /\
    ~ qu f * qv g - qv f * qu g == 0.
  Proof.
    intros (H1 & H2 & H3). rewrite gram_planar in H3.
    assert (Hc : ~ qu f * qv g - qv f * qu g == 0) by (intro C; apply H3; rewrite C; ring).
    unfold gram in *. rewrite Pf, Pg in *.
    set (ex := ax g t + inject_Z a * q_size m - ax f s).
    set (ey := ay g t + inject_Z b * q_size m - ay f s).
    assert (E1 : qu f * ex + qv f * ey == 0).
    { rewrite <- H1. unfold ex, ey, ax, ay. ring. }
    assert (E2 : qu g * ex + qv g * ey == 0).
    { rewrite <- H2. unfold ex, ey, ax, ay. ring. }
    assert (F1 : (qu f * qv g - qv f * qu g) * ex == 0).
    { setoid_replace ((qu f * qv g - qv f * qu g) * ex)
        with (qv g * (qu f * ex + qv f * ey) - qv f * (qu g * ex + qv g * ey)) by ring.
      rewrite E1, E2. ring. }
    assert (F2 : (qu f * qv g - qv f * qu g) * ey == 0).
    { setoid_replace ((qu f * qv g - qv f * qu g) * ey)
        with (qu f * (qu g * ex + qv g * ey) - qu g * (qu f * ex + qv f * ey)) by ring.
      rewrite E1, E2. ring. }
    apply Qmult_integral in F1. apply Qmult_integral in F2.
    destruct F1 as [F1|F1]; [contradiction|]. destruct F2 as [F2|F2]; [contradiction|].
    unfold ex, ey in *. split; [lra|]. split; [lra|auto].
  Qed.
  Lemma meets_normal a b s t :
    ax f s == ax g t + inject_Z a * q_size m -> ay f s == ay g t + inject_Z b * q_size m ->
    ~ qu f * qv g - qv f * qu g == 0 -> normal m f g a b s t.
  Proof.
    intros E1 E2 H3. split; [|split].
    - transitivity (qu f * (ax g t + inject_Z a * q_size m - ax f s)
        + qv f * (ay g t + inject_Z b * q_size m - ay f s)).
      + unfold gram, ax, ay. rewrite Pf, Pg. ring.
      + rewrite E1, E2. ring.
    - transitivity (qu g * (ax g t + inject_Z a * q_size m - ax f s)
        + qv g * (ay g t + inject_Z b * q_size m - ay f s)).
      + unfold gram, ax, ay. rewrite Pf, Pg. ring.
      + rewrite E1, E2. ring.
    - rewrite gram_planar. intro C. apply Qmult_integral in C. tauto.
  Qed.
End Planar.

(** ** The pre-filter never drops a crossing *)
Lemma sq_lt x y : 0 <= y -> x * x < y * y -> - y < x < y.
Proof.
  intros Hy H. split; apply Qnot_le_lt; intro C.
  - assert (0 <= (- y - x) * (y - x)) by (apply Qmult_le_0_compat; lra). lra.
  - assert (0 <= (x - y) * (x + y)) by (apply Qmult_le_0_compat; lra). lra.
Qed.
Lemma sq_le x y : 0 <= y -> x * x <= y * y -> - y <= x <= y.
Proof.
  intros Hy H. split; apply Qnot_lt_le; intro C.
  - assert (0 < (- y - x) * (y - x)) by (apply Qmult_lt_0_compat; lra). lra.
  - assert (0 < (x - y) * (x + y)) by (apply Qmult_lt_0_compat; lra). lra.
Qed.

Lemma cs2 a b c d : a * a + b * b <= 1 -> c * c + d * d <= 1 -> -(1) <= a * c + b * d <= 1.
Proof.
  intros H1 H2. apply sq_le; [lra|].
  assert (E : (a * c + b * d) * (a * c + b * d) ==
              (a * a + b * b) * (c * c + d * d) - (a * d - b * c) * (a * d - b * c)) by ring.
  rewrite E. pose proof (sq_pos (a * d - b * c)).
  pose proof (sq_pos a). pose proof (sq_pos b). pose proof (sq_pos c). pose proof (sq_pos d).
  set (A := a * a + b * b) in *. set (C := c * c + d * d) in *.
  assert (A * C <= 1 * C) by (apply Qmult_le_compat_r; unfold A, C in *; lra).
  unfold A, C in *. lra.
Qed.

Lemma crossing_near S f g a b s t :
  0 < ql f -> 0 < ql g -> at_most_unit f -> at_most_unit g -> crosses_at S f g a b s t ->
  (qx g + inject_Z a * S - qx f) * (qx g + inject_Z a * S - qx f)
  + (qy g + inject_Z b * S - qy f) * (qy g + inject_Z b * S - qy f)
  < (half * (ql f + ql g)) * (half * (ql f + ql g)).
Proof.
  intros Lf Lg Uf Ug (I1 & I2 & E1 & E2 & _). unfold ax, ay in *.
  assert (X : qx g + inject_Z a * S - qx f == s * qu f - t * qu g) by lra.
  assert (Y : qy g + inject_Z b * S - qy f == s * qv f - t * qv g) by lra.
  rewrite X, Y.
  unfold inside, at_most_unit, half in *.
  pose proof (cs2 _ _ _ _ Uf Ug) as HK. set (K := qu f * qu g + qv f * qv g) in *.
  assert (E : (s * qu f - t * qu g) * (s * qu f - t * qu g) + (s * qv f - t * qv g) * (s * qv f - t * qv g)
    == s * s * (qu f * qu f + qv f * qv f) - 2 * (s * t) * K + t * t * (qu g * qu g + qv g * qv g))
    by (unfold K; ring).
  rewrite E. clear E X Y E1 E2.
  set (U := qu f * qu f + qv f * qv f) in *. set (V := qu g * qu g + qv g * qv g) in *.
  clearbody U V K.
  assert (Hs : s * s * U <= s * s) by nra. assert (Ht : t * t * V <= t * t) by nra.
  set (p := ql f / 2) in *. set (q := ql g / 2) in *.
  assert (Ep : (1 # 2) * (ql f + ql g) == p + q) by (unfold p, q; field). rewrite Ep.
  assert (s * s < p * p) by nra. assert (t * t < q * q) by nra.
  assert (Hst : - (p * q) <= s * t <= p * q).
  { apply sq_le.
    - assert (0 < p) by lra. assert (0 < q) by lra. nra.
    - setoid_replace (s * t * (s * t)) with ((s * s) * (t * t)) by ring.
      setoid_replace (p * q * (p * q)) with ((p * p) * (q * q)) by ring.
      assert (0 <= s * s) by nra. assert (0 <= t * t) by nra. nra. }
  assert (- (2 * (s * t) * K) <= 2 * (p * q)).
  { destruct (Qlt_le_dec (s * t) 0); [|]; nra. }
  nra.
Qed.
(** each coordinate separately *)
Lemma crossing_near_coord S f g a b s t :
  0 < ql f -> 0 < ql g -> at_most_unit f -> at_most_unit g -> crosses_at S f g a b s t ->
  let l := half * (ql f + ql g) in
  - l < qx g + inject_Z a * S - qx f < l /\ - l < qy g + inject_Z b * S - qy f < l.
Proof.
  intros Lf Lg Uf Ug Hc l. pose proof (crossing_near S f g a b s t Lf Lg Uf Ug Hc) as H.
  fold l in H. assert (Hl : 0 <= l) by (unfold l, half; lra).
  set (X := qx g + inject_Z a * S - qx f) in *. set (Y := qy g + inject_Z b * S - qy f) in *.
  assert (0 <= X * X) by nra. assert (0 <= Y * Y) by nra.
  split; apply sq_lt; auto; lra.
Qed.

(** ** Existence of rows *)
Section Complete.
  Variable m : qmat.
  Variable per : bool.
  Variable t : net_df.
  Hypothesis Hnew : net_new m per None = Ok t.
  Let im := images per m.

  Lemma full_table : t = net_table m per (triu (length im)).
  Proof.
    apply net_new_inv in Hnew. destruct Hnew as (_ & ps & E & _ & ->). simpl in E.
    inversion E. reflexivity.
  Qed.

  Lemma found_row c : In c (candidates im (triu (length im))) ->
    exists k d, is_row t k d /\ cA d = Z.of_nat (kA (orient c)) /\ cB d = Z.of_nat (kB (orient c)).
  Proof.
    intros Hc. assert (H : In (orient c) (map orient (candidates im (triu (length im))))) by (apply in_map; auto).
    apply final_complete in H. destruct H as (d & Hd & EA & EB).
    apply In_nth_error in Hd. destruct Hd as (k & Hd).
    exists k, (conn_of im d). unfold is_row. rewrite full_table. simpl. rewrite enum_nth_error.
    unfold net_conns. fold im. fold (final (map orient (candidates im (triu (length im))))).
    rewrite nth_error_map, Hd. simpl. rewrite <- EA, <- EB. auto.
  Qed.

  Lemma near_of f g : 0 < ql f -> 0 < ql g ->
    (qx g - qx f) * (qx g - qx f) + (qy g - qy f) * (qy g - qy f)
      < (half * (ql f + ql g)) * (half * (ql f + ql g)) ->
    near f g = true /\ near g f = true.
  Proof.
    intros Lf Lg H. unfold near, sq. rewrite !andb_true_iff. unfold half in *.
    assert (E1 : (qx f - qx g) * (qx f - qx g) == (qx g - qx f) * (qx g - qx f)) by ring.
    assert (E2 : (qy f - qy g) * (qy f - qy g) == (qy g - qy f) * (qy g - qy f)) by ring.
    assert (E3 : (1 # 2) * (ql g + ql f) == (1 # 2) * (ql f + ql g)) by ring.
    repeat split; qb; rewrite ?E1, ?E2, ?E3; lra.
  Qed.

  Lemma found i j f g a b a' b' f' g' s s' :
    nth_error (q_rows m) i = Some f -> nth_error (q_rows m) j = Some g -> (i < j)%nat ->
    moved m a b f f' -> moved m a' b' g g' -> In (i, f') im -> In (j, g') im ->
    normal m f g (a' - a) (b' - b) s s' -> inside f s -> inside g s' ->
    0 < ql f -> 0 < ql g ->
    (qx g + inject_Z (a' - a) * q_size m - qx f) * (qx g + inject_Z (a' - a) * q_size m - qx f)
    + (qy g + inject_Z (b' - b) * q_size m - qy f) * (qy g + inject_Z (b' - b) * q_size m - qy f)
      < (half * (ql f + ql g)) * (half * (ql f + ql g)) ->
    exists k c, is_row t k c /\ cA c = Z.of_nat i /\ cB c = Z.of_nat j.
  Proof.
    intros Fi Fj Hij Mf Mg If Ig HN Hs Hs' Lf Lg Hnear.
    destruct (moved_data _ _ _ _ _ Mf) as (El & _). destruct (moved_data _ _ _ _ _ Mg) as (El' & _).
    destruct (moved_coord _ _ _ _ _ Mf) as (Ex & Ey). destruct (moved_coord _ _ _ _ _ Mg) as (Ex' & Ey').
    assert (Hd : ~ gram f f * gram g g - gram f g * gram f g == 0) by apply HN.
    assert (Hd' : ~ gram g g * gram f f - gram g f * gram g f == 0).
    { intro C. apply Hd. rewrite <- C. unfold gram. ring. }
    pose proof (cramer _ _ _ _ _ _ _ _ _ Mf Mg Hd) as HN1.
    pose proof (cramer _ _ _ _ _ _ _ _ _ Mg Mf Hd') as HN2.
    apply normal_swap in HN2.
    replace (- (a - a'))%Z with (a' - a)%Z in HN2 by lia.
    replace (- (b - b'))%Z with (b' - b)%Z in HN2 by lia.
    destruct (normal_unique _ _ _ _ _ _ _ _ _ HN HN1) as [S1 T1].
    destruct (normal_unique _ _ _ _ _ _ _ _ _ HN HN2) as [S2 T2].
    apply inside_half in Hs. apply inside_half in Hs'.
    assert (HNE : near f' g' = true /\ near g' f' = true).
    { apply near_of; rewrite <- ?El, <- ?El'; auto.
      rewrite Ex, Ey, Ex', Ey'. unfold Zminus in Hnear. rewrite !inject_Z_plus, !inject_Z_opp in Hnear.
      eapply Qle_lt_trans; [|exact Hnear]. apply Qle_lteq. right. ring. }
    destruct HNE as [N1 N2].
    apply In_nth_error in If. destruct If as (p & If).
    apply In_nth_error in Ig. destruct Ig as (q & Ig).
    assert (Lp : (p < length im)%nat) by (apply nth_error_Some; congruence).
    assert (Lq : (q < length im)%nat) by (apply nth_error_Some; congruence).
    assert (Hrow : exists c, In c (candidates im (triu (length im))) /\ kA (orient c) = i /\ kB (orient c) = j).
    { destruct (Nat.le_gt_cases p q) as [L|L].
      - exists (cand_of (i, f') (j, g')).
        pose proof (cand_labels (i, f') (j, g')) as [LA LB].
        pose proof (cand_abs (i, f') (j, g')) as [SA SB]. cbn [fst snd] in *.
        split.
        + apply (in_candidates m per _ p q); auto.
          * apply in_triu. lia.
          * unfold keep. fold im. rewrite LA, LB, SA, SB. unfold im.
            rewrite (by_label_nth m per i f Fi), (by_label_nth m per j g Fj).
            apply orb_true_iff. left. apply andb_true_iff. split; qb; [rewrite <- S1|rewrite <- T1]; auto.
        + unfold orient. rewrite LA, LB. destruct (Nat.leb_spec i j); [auto|lia].
      - exists (cand_of (j, g') (i, f')).
        pose proof (cand_labels (j, g') (i, f')) as [LA LB].
        pose proof (cand_abs (j, g') (i, f')) as [SA SB]. cbn [fst snd] in *.
        split.
        + apply (in_candidates m per _ q p); auto.
          * apply in_triu. lia.
          * unfold keep. fold im. rewrite LA, LB, SA, SB. unfold im.
            rewrite (by_label_nth m per i f Fi), (by_label_nth m per j g Fj).
            apply orb_true_iff. left. apply andb_true_iff. split; qb; [rewrite <- T2|rewrite <- S2]; auto.
        + unfold orient. rewrite LA, LB. destruct (Nat.leb_spec j i); [lia|cbn; auto]. }
    destruct Hrow as (c & Hc & E1 & E2). apply found_row in Hc.
    destruct Hc as (k & d & Hd1 & EA & EB). exists k, d. rewrite EA, EB, E1, E2. auto.
  Qed.

  (** *** C06 *)
  Lemma end_row_exists i f : nth_error (q_rows m) i = Some f ->
    exists k c, is_row t k c /\ cA c = Z.of_nat i /\ cB c = Z.of_nat i.
  Proof.
    intros Fi. pose proof (new_valid _ _ _ _ Hnew) as Hv.
    destruct (valid_fiber m Hv f) as (Lf & _); [eapply nth_error_In; eauto|].
    assert (Hi : (i < length (q_rows m))%nat) by (apply nth_error_Some; congruence).
    pose proof (images_base m per i Hi) as Hb. rewrite Fi in Hb. simpl in Hb.
    pose proof (images_len m per) as Hl.
    pose proof (cand_labels (i, f) (i, f)) as [LA LB]. cbn [fst] in *.
    destruct (found_row (cand_of (i, f) (i, f))) as (k & d & Hd & EA & EB).
    - apply (in_candidates m per _ i i); auto.
      + apply in_triu. unfold im. lia.
      + apply near_of; auto. unfold half. nra.
      + unfold keep. apply orb_true_iff. right. rewrite LA, LB. apply Nat.eqb_refl.
    - exists k, d. unfold orient in EA, EB. rewrite LA, LB, Nat.leb_refl in EA, EB.
      rewrite EA, EB, LA, LB. auto.
  Qed.

  (** *** C65 *)
  Lemma close_half S f g a b : close S f g a b ->
    (qx g + inject_Z a * S - qx f) * (qx g + inject_Z a * S - qx f) + (qy g + inject_Z b * S - qy f) * (qy g + inject_Z b * S - qy f)
      < (half * (ql f + ql g)) * (half * (ql f + ql g)).
  Proof.
    unfold close, half. intros H. setoid_replace ((1 # 2) * (ql f + ql g)) with ((ql f + ql g) / 2) by field. exact H.
  Qed.
  Lemma close_coord S f g a b : 0 < ql f -> 0 < ql g -> close S f g a b -> let l := half * (ql f + ql g) in
    - l < qx g + inject_Z a * S - qx f < l /\ - l < qy g + inject_Z b * S - qy f < l.
  Proof.
    intros Lf Lg H l. apply close_half in H. fold l in H. assert (Hl : 0 <= l) by (unfold l, half; lra).
    set (X := qx g + inject_Z a * S - qx f) in *. set (Y := qy g + inject_Z b * S - qy f) in *.
    assert (0 <= X * X) by nra. assert (0 <= Y * Y) by nra. split; apply sq_lt; auto; lra.
  Qed.
  Lemma facing_row_flat i j f g s s' :
    nth_error (q_rows m) i = Some f -> nth_error (q_rows m) j = Some g -> (i < j)%nat ->
    close (q_size m) f g 0 0 -> normal m f g 0 0 s s' -> inside f s -> inside g s' ->
    exists k c, is_row t k c /\ cA c = Z.of_nat i /\ cB c = Z.of_nat j.
  Proof.
    intros Fi Fj Hij HC HN Is Is'. pose proof (new_valid _ _ _ _ Hnew) as Hv.
    assert (If : In f (q_rows m)) by (eapply nth_error_In; eauto).
    assert (Ig : In g (q_rows m)) by (eapply nth_error_In; eauto).
    destruct (valid_fiber m Hv f If) as (Lf & _). destruct (valid_fiber m Hv g Ig) as (Lg & _).
    apply (found i j f g 0 0 0 0 f g s s'); auto; try (left; auto; fail).
    - apply image_mk_base; auto.
    - apply image_mk_base; auto.
    - apply (close_half (q_size m) f g 0 0). exact HC.
  Qed.

  (** *** C11 *)
  Lemma crossing_row_flat i j f g s s' :
    nth_error (q_rows m) i = Some f -> nth_error (q_rows m) j = Some g -> (i < j)%nat ->
    all_in_plane m -> all_at_most_unit m -> crosses_at (q_size m) f g 0 0 s s' ->
    exists k c, is_row t k c /\ cA c = Z.of_nat i /\ cB c = Z.of_nat j.
  Proof.
    intros Fi Fj Hij HP HU Hc. pose proof (new_valid _ _ _ _ Hnew) as Hv.
    assert (If : In f (q_rows m)) by (eapply nth_error_In; eauto).
    assert (Ig : In g (q_rows m)) by (eapply nth_error_In; eauto).
    destruct (valid_fiber m Hv f If) as (Lf & _). destruct (valid_fiber m Hv g Ig) as (Lg & _).
    apply (found i j f g 0 0 0 0 f g s s'); auto; try (left; auto; fail).
    - apply image_mk_base; auto.
    - apply image_mk_base; auto.
    - destruct Hc as (_ & _ & E1 & E2 & H). apply meets_normal; auto; apply HP; auto.
    - apply Hc.
    - apply Hc.
    - apply (crossing_near (q_size m) f g 0 0 s s'); auto.
  Qed.

  Lemma facing_row_periodic i j f g a b s s' : per = true ->
    nth_error (q_rows m) i = Some f -> nth_error (q_rows m) j = Some g -> (i < j)%nat -> lengths_le m (q_size m) ->
    close (q_size m) f g a b -> normal m f g a b s s' -> inside f s -> inside g s' ->
    exists k c, is_row t k c /\ cA c = Z.of_nat i /\ cB c = Z.of_nat j.
  Proof.
    intros Hper Fi Fj Hij HL HC HN I1 I2. pose proof (new_valid _ _ _ _ Hnew) as Hv.
    assert (If : In f (q_rows m)) by (eapply nth_error_In; eauto).
    assert (Ig : In g (q_rows m)) by (eapply nth_error_In; eauto).
    destruct (valid_fiber m Hv f If) as (Lf & _ & _ & Xf & Yf & _).
    destruct (valid_fiber m Hv g Ig) as (Lg & _ & _ & Xg & Yg & _).
    assert (Hnear := close_half _ _ _ _ _ HC).
    destruct (close_coord _ _ _ _ _ Lf Lg HC) as [NX NY].
    pose proof (lmax_ge m f If) as Mf. pose proof (lmax_ge m g Ig) as Mg.
    assert (HS : 0 < q_size m) by (specialize (HL f If); lra).
    assert (Hl : lmax_of (q_rows m) <= q_size m) by (apply lmax_le; auto; lra).
    set (l := lmax_of (q_rows m)) in *. set (S := q_size m) in *.
    set (h := half * (ql f + ql g)) in *.
    assert (Hh : h <= l) by (unfold h, half; lra).
    assert (Bound : forall k, (- (2 * S) < inject_Z k * S < 2 * S) -> (k = -1 \/ k = 0 \/ k = 1)%Z).
    { intros k Hk.
      assert (K1 : inject_Z k < 2) by nra. assert (K2 : - (2) < inject_Z k) by nra.
      unfold inject_Z, Qlt in K1, K2. simpl in K1, K2. lia. }
    assert (Ha : (a = -1 \/ a = 0 \/ a = 1)%Z) by (apply Bound; qlra).
    assert (Hb : (b = -1 \/ b = 0 \/ b = 1)%Z) by (apply Bound; qlra).
    clear Bound.
    assert (GO : forall a1 b1 a2 b2 f' g', a = (a2 - a1)%Z -> b = (b2 - b1)%Z ->
       moved m a1 b1 f f' -> moved m a2 b2 g g' -> In (i, f') im -> In (j, g') im ->
       exists k c, is_row t k c /\ cA c = Z.of_nat i /\ cB c = Z.of_nat j).
    { intros a1 b1 a2 b2 f' g' -> -> M1 M2 If' Ig'.
      apply (found i j f g a1 b1 a2 b2 f' g' s s'); auto. }
    assert (Bf : In (i, f) im) by (apply image_mk_base; auto).
    assert (Bg : In (j, g) im) by (apply image_mk_base; auto).
    assert (M0 : forall x, moved m 0 0 x x) by (intros; left; auto).
    assert (M1 : forall x, moved m 1 0 x (shift S 0 x)) by (intros; right; left; auto).
    assert (M2 : forall x, moved m 0 1 x (shift 0 S x)) by (intros; right; right; left; auto).
    assert (M3 : forall x, moved m (-1) (-1) x (shift (- S) (- S) x)) by (intros; right; right; right; auto).
    unfold inject_Z in NX, NY.
    destruct Ha as [-> | [-> | ->]]; destruct Hb as [-> | [-> | ->]].
    - apply (GO 0%Z 0%Z (-1)%Z (-1)%Z f (shift (- S) (- S) g)); auto.
      apply image_mk_xy; auto; fold S l; unfold half; qlra.
    - apply (GO 1%Z 0%Z 0%Z 0%Z (shift S 0 f) g); auto.
      apply image_mk_x; auto; fold S l; unfold half; qlra.
    - apply (GO 1%Z 0%Z 0%Z 1%Z (shift S 0 f) (shift 0 S g)); auto.
      + apply image_mk_x; auto; fold S l; unfold half; qlra.
      + apply image_mk_y; auto; fold S l; unfold half; qlra.
    - apply (GO 0%Z 1%Z 0%Z 0%Z (shift 0 S f) g); auto.
      apply image_mk_y; auto; fold S l; unfold half; qlra.
    - apply (GO 0%Z 0%Z 0%Z 0%Z f g); auto.
    - apply (GO 0%Z 0%Z 0%Z 1%Z f (shift 0 S g)); auto.
      apply image_mk_y; auto; fold S l; unfold half; qlra.
    - apply (GO 0%Z 1%Z 1%Z 0%Z (shift 0 S f) (shift S 0 g)); auto.
      + apply image_mk_y; auto; fold S l; unfold half; qlra.
      + apply image_mk_x; auto; fold S l; unfold half; qlra.
    - apply (GO 0%Z 0%Z 1%Z 0%Z f (shift S 0 g)); auto.
      apply image_mk_x; auto; fold S l; unfold half; qlra.
    - apply (GO (-1)%Z (-1)%Z 0%Z 0%Z (shift (- S) (- S) f) g); auto.
      apply image_mk_xy; auto; fold S l; unfold half; qlra.
  Qed.

  (** *** C12 *)
  Lemma crossing_row_periodic i j f g a b s s' : per = true ->
    nth_error (q_rows m) i = Some f -> nth_error (q_rows m) j = Some g -> (i < j)%nat ->
    all_in_plane m -> all_at_most_unit m -> lengths_le m (q_size m) ->
    crosses_at (q_size m) f g a b s s' ->
    exists k c, is_row t k c /\ cA c = Z.of_nat i /\ cB c = Z.of_nat j.
  Proof.
    intros Hper Fi Fj Hij HP HU HL Hc. pose proof (new_valid _ _ _ _ Hnew) as Hv.
    assert (If : In f (q_rows m)) by (eapply nth_error_In; eauto).
    assert (Ig : In g (q_rows m)) by (eapply nth_error_In; eauto).
    destruct (valid_fiber m Hv f If) as (Lf & _). destruct (valid_fiber m Hv g Ig) as (Lg & _).
    assert (HN : normal m f g a b s s')
      by (destruct Hc as (_ & _ & E1 & E2 & H); apply meets_normal; auto; apply HP; auto).
    apply (facing_row_periodic i j f g a b s s'); auto; [|apply Hc|apply Hc].
    unfold close. pose proof (crossing_near (q_size m) f g a b s s' Lf Lg (HU f If) (HU g Ig) Hc) as H. unfold half in H.
    setoid_replace ((ql f + ql g) / 2) with ((1 # 2) * (ql f + ql g)) by field. exact H.
  Qed.
End Complete.

(** ** From rows to crossings *)
Section Rows.
  Variable m : qmat.
  Variable per : bool.
  Variable pairs : option (list (Z * Z)).
  Variable t : net_df.
  Hypothesis Hnew : net_new m per pairs = Ok t.

  Lemma fiber_fun i f g : has_fiber m i f -> has_fiber m i g -> f = g.
  Proof. intros [_ H] [_ H']. congruence. Qed.

  Lemma row_crosses k c f g : is_row t k c -> (cA c < cB c)%Z ->
    has_fiber m (cA c) f -> has_fiber m (cB c) g -> in_plane f -> in_plane g ->
    exists a b, allowed per a b /\ crosses_at (q_size m) f g a b (csA c) (csB c).
  Proof.
    intros Hr L Hf Hg Pf Pg. destruct (row_facts _ _ _ _ Hnew _ _ Hr) as
      (f' & g' & Hf' & Hg' & _ & _ & _ & _ & _ & _ & _ & H).
    rewrite <- (fiber_fun _ _ _ Hf Hf') in *. rewrite <- (fiber_fun _ _ _ Hg Hg') in *.
    destruct H as [(E & _)|(_ & H1 & H2 & a & b & Hab & _ & HN)]; [lia|].
    exists a, b. split; auto.
    destruct (normal_meets m f g Pf Pg a b _ _ HN) as (E1 & E2 & E3).
    split; [apply inside_half; auto|]. split; [apply inside_half; auto|]. auto.
  Qed.
End Rows.
