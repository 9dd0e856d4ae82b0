(** Proofs about interpolation. *)
From Coq Require Import Qround Morphisms.
From Verif Require Import Num NumP ListX ListP InterpM SpecInterp.
Open Scope Q_scope.

Global Instance blend_mor : Proper (Qeq ==> Qeq ==> Qeq ==> Qeq) blend.
Proof. intros a b E x x' Ex y y' Ey. unfold blend. rewrite E, Ex, Ey. reflexivity. Qed.
Definition nq (k : nat) : Q := inject_Z (Z.of_nat k).
Lemma nq_S k : nq (S k) == nq k + 1.
Proof. unfold nq. rewrite Nat2Z.inj_succ. unfold Z.succ. rewrite inject_Z_plus. reflexivity. Qed.
Lemma nq_le a b : (a <= b)%nat -> nq a <= nq b.
Proof. intros H. unfold nq. rewrite <- Zle_Qle. lia. Qed.
Lemma nq_lt a b : (a < b)%nat -> nq a + 1 <= nq b.
Proof. intros H. rewrite <- nq_S. apply nq_le. lia. Qed.
Lemma nq_pos k : 0 <= nq k.
Proof. apply (nq_le 0 k). lia. Qed.

(** ** Knots *)
Lemma linspace_length n : length (linspace n) = n.
Proof. unfold linspace. rewrite map_length. apply seq_length. Qed.
Lemma linspace_nth n k d : (2 <= n)%nat -> (k < n)%nat -> nth k (linspace n) d = nq k / nq (n - 1).
Proof.
  intros Hn Hk. apply nth_error_nth. unfold linspace. rewrite nth_error_map. rewrite (nth_error_nth' _ 0%nat) by (rewrite seq_length; auto).
  rewrite seq_nth by auto. simpl. destruct (Nat.eqb_spec n 1); [lia|reflexivity].
Qed.
Lemma filter_seq (f : nat -> bool) n : forall a j, (j <= n)%nat -> (forall i, (a <= i < a + j)%nat -> f i = true) -> (forall i, (a + j <= i < a + n)%nat -> f i = false) ->
  length (filter f (seq a n)) = j.
Proof.
  induction n as [|n IH]; intros a j L H1 H2; simpl; [lia|]. destruct j as [|j].
  - rewrite H2 by lia. apply IH; [lia|intros; lia|intros i Hi; apply H2; lia].
  - rewrite H1 by lia. simpl. f_equal. apply IH; [lia|intros i Hi; apply H1; lia|intros i Hi; apply H2; lia].
Qed.
Lemma filter_map {A B} (f : A -> B) p l : filter p (map f l) = map f (filter (fun x => p (f x)) l).
Proof. induction l; simpl; auto. destruct (p (f a)); simpl; congruence. Qed.

Section Knots.
  Variable n : nat.
  Hypothesis Hn : (2 <= n)%nat.
  Let d := nq (n - 1).
  Lemma d_pos : 0 < d.
  Proof. unfold d. pose proof (nq_lt 0 (n - 1) ltac:(lia)). change (nq 0) with 0 in H. lra. Qed.
  Lemma linspace_eq : linspace n = map (fun k => nq k / d) (seq 0 n).
  Proof. unfold linspace. apply map_ext. intros k. destruct (Nat.eqb_spec n 1); [lia|reflexivity]. Qed.
  Lemma knot_lt k t : nq k / d < t <-> nq k < t * d.
  Proof. pose proof d_pos. split; intros H0; [|apply Qlt_shift_div_r; auto]. apply (Qmult_lt_r _ _ d) in H0; auto. field_simplify in H0; lra. Qed.
  Lemma knot_le k t : nq k / d <= t <-> nq k <= t * d.
  Proof. pose proof d_pos. split; intros H0; [|apply Qle_shift_div_r; auto]. apply (Qmult_le_r _ _ d) in H0; auto. field_simplify in H0; lra. Qed.
  Lemma param_mul k a : param n k a * d == nq k + a.
  Proof. unfold param. fold (nq k). change (inject_Z (Z.of_nat (n - 1))) with d. pose proof d_pos. field. lra. Qed.

  Lemma search_left_eq k a t : t == param n k a -> 0 < a -> a <= 1 -> (S k < n)%nat -> search_left (linspace n) t = S k.
  Proof.
    intros Et A0 A1 Hk. unfold search_left. rewrite linspace_eq, filter_map, map_length. apply filter_seq; [lia| |].
    - intros i Hi. apply Qltb_lt. apply knot_lt. rewrite Et, param_mul. pose proof (nq_le i k ltac:(lia)). lra.
    - intros i Hi. apply Qltb_ge. assert (L : ~ nq i / d < t); [|lra]. intros L. apply knot_lt in L. rewrite Et, param_mul in L. pose proof (nq_lt k i ltac:(lia)). lra.
  Qed.
  Lemma search_left_zero t : t == 0 -> search_left (linspace n) t = 0%nat.
  Proof.
    intros Et. unfold search_left. rewrite linspace_eq, filter_map, map_length. apply filter_seq; [lia|intros; lia|].
    intros i Hi. apply Qltb_ge. assert (L : ~ nq i / d < t); [|lra]. intros L. apply knot_lt in L. rewrite Et in L. pose proof (nq_pos i). lra.
  Qed.
  Lemma search_right_eq k a t : t == param n k a -> 0 <= a -> a < 1 -> (k < n)%nat -> search_right (linspace n) t = S k.
  Proof.
    intros Et A0 A1 Hk. unfold search_right. rewrite linspace_eq, filter_map, map_length. apply filter_seq; [lia| |].
    - intros i Hi. apply Qleb_le. apply knot_le. rewrite Et, param_mul. pose proof (nq_le i k ltac:(lia)). lra.
    - intros i Hi. apply Qleb_gt. assert (L : ~ nq i / d <= t); [|lra]. intros L. apply knot_le in L. rewrite Et, param_mul in L. pose proof (nq_lt k i ltac:(lia)). lra.
  Qed.
  Lemma linspace_last : last (linspace n) 0 == 1.
  Proof.
    assert (E : last (linspace n) 0 = nth (n - 1) (linspace n) 0).
    { pose proof (linspace_length n) as L. destruct (linspace n) as [|x l] using rev_ind; [simpl in L; lia|]. rewrite last_last, app_nth2; rewrite app_length in L; simpl in L; [|lia].
      replace (n - 1 - length l)%nat with 0%nat by lia. reflexivity. }
    rewrite E, linspace_nth by lia. pose proof d_pos. change (d / d == 1). field. lra.
  Qed.
  Lemma linspace_first : exists x l, linspace n = x :: l /\ x == 0.
  Proof.
    rewrite linspace_eq. destruct n as [|k]; [lia|]. simpl. eexists. eexists. split; [reflexivity|]. change (nq 0) with 0. unfold Qdiv. ring.
  Qed.

  (** evaluation inside the range *)
  Variable y : list num.
  Hypothesis Hy : length y = n.
  Hypothesis fin : forall v, In v y -> exists q, v = Fin q.
  Definition yv (k : nat) : Q := qof (nth k y NaN).
  Lemma yv_eq k : (k < n)%nat -> nth k y NaN = Fin (yv k).
  Proof.
    intros Hk. unfold yv. destruct (nth_error y k) as [v|] eqn:E; [|apply nth_error_None in E; lia].
    rewrite (nth_error_nth _ _ _ E). destruct (fin v (nth_error_In _ _ E)) as (q & ->). reflexivity.
  Qed.
  Lemma inside_linear_vec k a t : t == param n k a -> 0 <= a -> a <= 1 -> (S k < n)%nat -> is_num (call_linear (linspace n) y t) (blend a (yv k) (yv (S k))).
  Proof.
    intros Et A0 A1 Hk. pose proof d_pos as D.
    assert (GO : forall j b, t == param n j b -> (S j < n)%nat -> Nat.min (Nat.max (search_left (linspace n) t) 1) (length (linspace n) - 1) = S j ->
      is_num (call_linear (linspace n) y t) (blend b (yv j) (yv (S j)))).
    { intros j b Ej Hj EM. unfold call_linear. rewrite EM. cbn [Nat.eqb]. replace (S j - 1)%nat with j by lia.
      rewrite !linspace_nth, !yv_eq by lia. change (nq (n - 1)) with d.
      assert (NZ : ~ nq (S j) / d - nq j / d == 0).
      { rewrite nq_S. intros E. assert (E2 : (nq j + 1) / d - nq j / d == 1 / d) by (field; lra). rewrite E2 in E.
        assert (E3 : 1 / d * d == 0 * d) by (rewrite E; reflexivity). field_simplify in E3; lra. }
      unfold nsub, nopp, nadd at 2, ndiv. destruct (Qeqb (nq (S j) / d - nq j / d) 0) eqn:Q; [apply Qeqb_eq in Q; contradiction|].
      cbn [nmul nadd]. eexists. split; [reflexivity|]. pose proof (param_mul j b) as PM. rewrite <- Ej in PM. unfold blend. rewrite nq_S in *.
      assert (Eb : b == t * d - nq j) by lra. rewrite Eb. field. split; [lra|]. lra. }
    destruct (Qlt_le_dec 0 a) as [A|A].
    - apply GO; auto. rewrite (search_left_eq k a t), linspace_length by auto. lia.
    - assert (E0 : a == 0) by lra. destruct k as [|k].
      + apply GO; auto. rewrite search_left_zero, linspace_length; [lia|]. rewrite Et. unfold param. rewrite E0. change (inject_Z (Z.of_nat 0)) with 0. unfold Qdiv. ring.
      + assert (E1 : t == param n k 1). { rewrite Et. unfold param. rewrite E0. fold (nq (S k)) (nq k). rewrite nq_S. change (inject_Z (Z.of_nat (n - 1))) with d. field. lra. }
        destruct (GO k 1 E1 ltac:(lia)) as (w & Ew & Qw).
        * rewrite (search_left_eq k 1 t), linspace_length by (auto; lra || lia). lia.
        * exists w. split; auto. rewrite Qw. unfold blend. rewrite E0. ring.
  Qed.
  Lemma inside_linear_np k a t : t == param n k a -> 0 <= a -> a <= 1 -> (S k < n)%nat -> is_num (call_np (linspace n) y t) (blend a (yv k) (yv (S k))).
  Proof.
    intros Et A0 A1 Hk. pose proof d_pos as D.
    destruct (Qlt_le_dec a 1) as [A|A].
    - unfold call_np. rewrite (search_right_eq k a t) by (auto; lia). replace (S k - 1)%nat with k by lia. rewrite linspace_length.
      destruct (Nat.leb_spec (n - 1) k); [lia|]. rewrite !linspace_nth, !yv_eq by lia. change (nq (n - 1)) with d. pose proof (param_mul k a) as PM. rewrite <- Et in PM.
      destruct (Qeqb (nq k / d) t) eqn:Q.
      + apply Qeqb_eq in Q. exists (yv k). split; auto. assert (a == 0). { rewrite <- Q in PM. field_simplify in PM; lra. } unfold blend. rewrite H0. ring.
      + rewrite Nat.add_1_r in *. unfold nsub, nopp, nadd at 2, ndiv.
        assert (NZ : ~ nq (S k) / d - nq k / d == 0).
        { rewrite nq_S. intros E. assert (E2 : (nq k + 1) / d - nq k / d == 1 / d) by (field; lra). rewrite E2 in E.
          assert (E3 : 1 / d * d == 0 * d) by (rewrite E; reflexivity). field_simplify in E3; lra. }
        destruct (Qeqb (nq (S k) / d - nq k / d) 0) eqn:Q2; [apply Qeqb_eq in Q2; contradiction|].
        cbn [nmul nadd]. eexists. split; [reflexivity|]. unfold blend. rewrite nq_S in *.
        assert (Eb : a == t * d - nq k) by lra. rewrite Eb. field. split; [lra|]. lra.
    - assert (E1 : a == 1) by lra. assert (Et' : t == param n (S k) 0).
      { rewrite Et. unfold param. rewrite E1. fold (nq (S k)) (nq k). rewrite nq_S. change (inject_Z (Z.of_nat (n - 1))) with d. field. lra. }
      unfold call_np. rewrite (search_right_eq (S k) 0 t) by (auto; lra || lia). replace (S (S k) - 1)%nat with (S k) by lia. rewrite linspace_length.
      rewrite !linspace_nth by lia. change (nq (n - 1)) with d.
      assert (Q : Qeqb (nq (S k) / d) t = true). { apply Qeqb_eq. rewrite Et'. unfold param. fold (nq (S k)). change (inject_Z (Z.of_nat (n - 1))) with d. field. lra. }
      rewrite Q, yv_eq by lia. exists (yv (S k)). split; [destruct (Nat.leb _ _); reflexivity|]. unfold blend. rewrite E1. ring.
  Qed.
End Knots.

Lemma is_num_eqv v p q : is_num v p -> p == q -> is_num v q.
Proof. intros (w & E & H) H'. exists w. split; auto. rewrite H; auto. Qed.
Lemma is_num_fun v p q : is_num v p -> is_num v q -> p == q.
Proof. intros (w & E & H) (w' & E' & H'). assert (w = w') by congruence. subst. rewrite <- H; auto. Qed.
Lemma is_num_qof v q : is_num v q -> qof v == q.
Proof. intros (w & -> & H). exact H. Qed.
Lemma blend_bounds a x y lo hi : 0 <= a -> a <= 1 -> lo <= x -> lo <= y -> x <= hi -> y <= hi -> lo <= blend a x y /\ blend a x y <= hi.
Proof.
  intros. unfold blend. assert (0 <= (1 - a) * (x - lo)) by (apply Qmult_le_0_compat; lra). assert (0 <= a * (y - lo)) by (apply Qmult_le_0_compat; lra).
  assert (0 <= (1 - a) * (hi - x)) by (apply Qmult_le_0_compat; lra). assert (0 <= a * (hi - y)) by (apply Qmult_le_0_compat; lra). split; lra.
Qed.
Lemma param_range n k a : (S k < n)%nat -> 0 <= a -> a <= 1 -> 0 <= param n k a /\ param n k a <= 1.
Proof.
  intros H A0 A1. unfold param. fold (nq k) (nq (n - 1)). pose proof (d_pos n ltac:(lia)) as D. cbv zeta in D. pose proof (nq_pos k). pose proof (nq_lt k (n - 1) ltac:(lia)).
  split; [apply Qle_shift_div_l; lra|apply Qle_shift_div_r; lra].
Qed.
Lemma find_interval n t : (2 <= n)%nat -> 0 <= t -> t <= 1 -> exists k a, (S k < n)%nat /\ 0 <= a /\ a <= 1 /\ t == param n k a.
Proof.
  intros Hn T0 T1. pose proof (d_pos n Hn) as D. cbv zeta in D. set (f := Qfloor (t * nq (n - 1))).
  pose proof (Qfloor_le (t * nq (n - 1))) as F1. pose proof (Qlt_floor (t * nq (n - 1))) as F2. fold f in F1, F2. rewrite inject_Z_plus in F2.
  change (inject_Z 1) with 1 in F2. assert (P : 0 <= t * nq (n - 1)) by (apply Qmult_le_0_compat; lra).
  assert (F0 : (0 <= f)%Z). { assert (0 < inject_Z f + 1) by lra. assert (H' : inject_Z (-1) < inject_Z f) by (change (inject_Z (-1)) with (-(1)); lra). rewrite <- Zlt_Qlt in H'. lia. }
  assert (T : t == (t * nq (n - 1)) / nq (n - 1)) by (field; lra).
  destruct (Z_lt_le_dec f (Z.of_nat (n - 1))) as [L|L].
  - exists (Z.to_nat f), (t * nq (n - 1) - inject_Z f). split; [lia|]. split; [lra|]. split; [lra|].
    unfold param. rewrite Z2Nat.id by auto. fold (nq (n - 1)). rewrite T at 1. field. lra.
  - exists (n - 2)%nat, 1. split; [lia|]. split; [lra|]. split; [lra|]. unfold param. fold (nq (n - 2)) (nq (n - 1)).
    assert (E : nq (n - 1) == nq (n - 2) + 1) by (rewrite <- nq_S; replace (S (n - 2)) with (n - 1)%nat by lia; reflexivity).
    rewrite <- E. assert (nq (n - 1) <= inject_Z f) by (unfold nq; rewrite <- Zle_Qle; auto). assert (t * nq (n - 1) <= 1 * nq (n - 1)) by (apply Qmult_le_compat_r; lra).
    rewrite T. assert (E2 : t * nq (n - 1) == nq (n - 1)) by lra. rewrite E2. reflexivity.
Qed.

Lemma eval_in k n y fill t : (2 <= n)%nat -> 0 <= t -> t <= 1 -> eval1d k (linspace n) y fill t = call k (linspace n) y t.
Proof.
  intros Hn T0 T1. unfold eval1d. destruct (linspace_first n Hn) as (x & l & E & E0). pose proof (linspace_last n Hn) as EL. rewrite E in *.
  replace (Qltb t x || Qltb (last (x :: l) 0) t) with false; auto. symmetry. apply orb_false_intro; apply Qltb_ge; lra.
Qed.
Lemma eval_out k n y fill t : (2 <= n)%nat -> t < 0 \/ 1 < t -> eval1d k (linspace n) y fill t = fill.
Proof.
  intros Hn T. unfold eval1d. destruct (linspace_first n Hn) as (x & l & E & E0). pose proof (linspace_last n Hn) as EL. rewrite E in *.
  replace (Qltb t x || Qltb (last (x :: l) 0) t) with true; auto. symmetry. apply orb_true_intro. destruct T; [left|right]; apply Qltb_lt; lra.
Qed.
Lemma eval_linear kd n y fill k a t : linear kd -> (2 <= n)%nat -> length y = n -> (forall v, In v y -> exists q, v = Fin q) ->
  t == param n k a -> 0 <= a -> a <= 1 -> (S k < n)%nat -> is_num (eval1d kd (linspace n) y fill t) (blend a (yv y k) (yv y (S k))).
Proof.
  intros HK Hn Hy F Et A0 A1 Hk. destruct (param_range n k a Hk A0 A1). rewrite eval_in by (auto; rewrite Et; auto).
  destruct HK as [->| ->]; [apply (inside_linear_vec n Hn y Hy F k a t)|apply (inside_linear_np n Hn y Hy F k a t)]; auto.
Qed.
(** a sample, seen from either side *)
Lemma knot_param n k : (2 <= n)%nat -> (k < n)%nat -> exists j a, (S j < n)%nat /\ 0 <= a /\ a <= 1 /\ nq k / nq (n - 1) == param n j a /\
  forall f : nat -> Q, blend a (f j) (f (S j)) == f k.
Proof.
  intros Hn Hk. pose proof (d_pos n Hn) as D. cbv zeta in D. destruct (Nat.eq_dec k (n - 1)) as [E|E].
  - exists (n - 2)%nat, 1. split; [lia|]. split; [lra|]. split; [lra|]. split.
    + unfold param. fold (nq (n - 2)) (nq (n - 1)). subst k. replace (nq (n - 1)) with (nq (S (n - 2))) by (f_equal; lia). rewrite nq_S. reflexivity.
    + intros f. unfold blend. replace (S (n - 2)) with k by lia. ring.
  - exists k, 0. split; [lia|]. split; [lra|]. split; [lra|]. split.
    + unfold param. fold (nq k) (nq (n - 1)). assert (Z : nq k + 0 == nq k) by ring. rewrite Z. reflexivity.
    + intros f. unfold blend. ring.
Qed.

(** ** Interpolate objects *)
Definition msize (y : list num) (size : option nat) : nat := match size with None => length y | Some n => n end.
Lemma new_t kd y size : in_t (interp_new kd y size) = linspace (msize y size).
Proof. destruct size; reflexivity. Qed.
Lemma new_y kd y size : in_y (interp_new kd y size) = map (eval1d kd (linspace (length y)) y (ylast y)) (linspace (msize y size)).
Proof. destruct size; reflexivity. Qed.
Lemma new_y_nth kd y size k : (2 <= msize y size)%nat -> (k < msize y size)%nat ->
  nth_error (in_y (interp_new kd y size)) k = Some (eval1d kd (linspace (length y)) y (ylast y) (nq k / nq (msize y size - 1))).
Proof.
  intros Hn Hk. rewrite new_y, nth_error_map. rewrite (nth_error_nth' _ 0) by (rewrite linspace_length; auto). rewrite linspace_nth by auto. reflexivity.
Qed.
Lemma new_y_length kd y size : length (in_y (interp_new kd y size)) = msize y size.
Proof. rewrite new_y, map_length. apply linspace_length. Qed.

Section Linear.
  Variable kd : kind.
  Hypothesis HK : linear kd.
  Variable y : list Q.
  Variable size : option nat.
  Let ys := map Fin y.
  Let n := length y.
  Let n' := msize ys size.
  Hypothesis Hn : (2 <= n)%nat.
  Hypothesis Hn' : (2 <= n')%nat.
  Lemma ys_len : length ys = n.
  Proof. apply map_length. Qed.
  Lemma ys_fin v : In v ys -> exists q, v = Fin q.
  Proof. intros H. apply in_map_iff in H. destruct H as (q & <- & _). eauto. Qed.
  Lemma ys_val k : (k < n)%nat -> yv ys k = nth k y 0.
  Proof.
    intros Hk. unfold yv, ys. rewrite (nth_error_nth (map Fin y) k NaN (x := Fin (nth k y 0))); [reflexivity|].
    rewrite nth_error_map, (nth_error_nth' y 0) by auto. reflexivity.
  Qed.
  Let f := interp_new kd ys size.
  Lemma base_value t k a : t == param n k a -> 0 <= a -> a <= 1 -> (S k < n)%nat ->
    is_num (eval1d kd (linspace n) ys (ylast ys) t) (blend a (nth k y 0) (nth (S k) y 0)).
  Proof.
    intros Et A0 A1 Hk. pose proof (eval_linear kd n ys (ylast ys) k a t HK Hn ys_len ys_fin Et A0 A1 Hk) as H. rewrite !ys_val in H by lia. exact H.
  Qed.
  (** resampled ordinates *)
  Definition rs (k : nat) : Q := yv (in_y f) k.
  Lemma rs_fin v : In v (in_y f) -> exists q, v = Fin q.
  Proof.
    intros H. apply In_nth_error in H. destruct H as (k & H). assert (Hk : (k < n')%nat) by (unfold n'; rewrite <- (new_y_length kd ys size); apply nth_error_Some; unfold f in H; congruence).
    unfold f in H. rewrite new_y_nth in H by auto. rewrite ys_len in H. injection H as <-.
    destruct (knot_param n' k Hn' Hk) as (j & a & Hj & A0 & A1 & E & _). destruct (param_range n' j a Hj A0 A1).
    destruct (find_interval n (nq k / nq (n' - 1)) Hn) as (i & b & Hi & B0 & B1 & Eb); [rewrite E; auto|rewrite E; auto|].
    destruct (base_value _ i b Eb B0 B1 Hi) as (w & Ew & _). exists w. exact Ew.
  Qed.
  Lemma rs_value k j a : (k < n')%nat -> nq k / nq (n' - 1) == param n j a -> 0 <= a -> a <= 1 -> (S j < n)%nat ->
    rs k == blend a (nth j y 0) (nth (S j) y 0).
  Proof.
    intros Hk E A0 A1 Hj. unfold rs, yv. pose proof (new_y_nth kd ys size k Hn' Hk) as H. fold f in H. rewrite (nth_error_nth _ _ _ H). rewrite ys_len.
    apply is_num_qof. apply base_value; auto.
  Qed.
  Lemma call_value t k a : t == param n' k a -> 0 <= a -> a <= 1 -> (S k < n')%nat -> is_num (interp_call f t) (blend a (rs k) (rs (S k))).
  Proof.
    intros Et A0 A1 Hk. unfold interp_call. replace (in_t f) with (linspace n') by (symmetry; apply new_t). change (in_kind f) with kd.
    exact (eval_linear kd n' (in_y f) (in_fill f) k a t HK Hn' (new_y_length kd ys size) rs_fin Et A0 A1 Hk).
  Qed.
  Lemma rs_bounds lo hi : (forall q, In q y -> lo <= q /\ q <= hi) -> forall k, (k < n')%nat -> lo <= rs k /\ rs k <= hi.
  Proof.
    intros HB k Hk. destruct (knot_param n' k Hn' Hk) as (j & a & Hj & A0 & A1 & E & _). destruct (param_range n' j a Hj A0 A1).
    destruct (find_interval n (nq k / nq (n' - 1)) Hn) as (i & b & Hi & B0 & B1 & Eb); [rewrite E; auto|rewrite E; auto|].
    rewrite (rs_value k i b Hk Eb B0 B1 Hi). assert (Li : (i < length y)%nat) by (fold n; lia).
    destruct (HB (nth i y 0) (nth_In y 0 Li)), (HB (nth (S i) y 0) (nth_In y 0 Hi)).
    apply blend_bounds; auto.
  Qed.
  Lemma call_bounds lo hi : (forall q, In q y -> lo <= q /\ q <= hi) -> forall t, 0 <= t -> t <= 1 ->
    exists v, interp_call f t = Fin v /\ lo <= v /\ v <= hi.
  Proof.
    intros HB t T0 T1. destruct (find_interval n' t Hn' T0 T1) as (k & a & Hk & A0 & A1 & E).
    destruct (call_value t k a E A0 A1 Hk) as (v & Ev & Qv). exists v. split; auto. rewrite Qv.
    destruct (rs_bounds lo hi HB k ltac:(lia)). destruct (rs_bounds lo hi HB (S k) ltac:(lia)). apply blend_bounds; auto.
  Qed.
  (** ends *)
  Lemma call_first t : t == 0 -> is_num (interp_call f t) (nth 0 y 0).
  Proof.
    intros Et. apply (is_num_eqv _ (blend 0 (rs 0) (rs 1))).
    - apply call_value; [|lra|lra|lia]. rewrite Et. unfold param. change (inject_Z (Z.of_nat 0)) with 0. unfold Qdiv. ring.
    - rewrite (rs_value 0 0 0); try lra; try lia; [unfold blend; ring|].
      unfold param. change (inject_Z (Z.of_nat 0)) with 0. change (nq 0) with 0. unfold Qdiv. ring.
  Qed.
  Lemma call_last t : t == 1 -> is_num (interp_call f t) (nth (n - 1) y 0).
  Proof.
    intros Et. pose proof (d_pos n Hn) as D. cbv zeta in D. pose proof (d_pos n' Hn') as D'. cbv zeta in D'.
    assert (ES : forall k, (2 <= k)%nat -> nq (k - 2) + 1 == nq (k - 1)) by (intros k Hk; rewrite <- nq_S; replace (S (k - 2)) with (k - 1)%nat by lia; reflexivity).
    apply (is_num_eqv _ (blend 1 (rs (n' - 2)) (rs (S (n' - 2))))).
    - apply call_value; [|lra|lra|lia]. rewrite Et. unfold param. fold (nq (n' - 2)) (nq (n' - 1)). rewrite ES by auto. field. lra.
    - rewrite (rs_value (S (n' - 2)) (n - 2) 1); try lra; try lia.
      + unfold blend. replace (S (n - 2)) with (n - 1)%nat by lia. ring.
      + unfold param. fold (nq (n - 2)) (nq (n - 1)). rewrite ES by auto. replace (S (n' - 2)) with (n' - 1)%nat by lia. field. split; lra.
  Qed.
End Linear.

(** monotone ordinates *)
Definition mono_to (f : nat -> Q) (n : nat) : Prop := forall i j, (i <= j)%nat -> (j < n)%nat -> f i <= f j.
Lemma mono_step f n : (forall k, (S k < n)%nat -> f k <= f (S k)) -> mono_to f n.
Proof.
  intros H i j Hij. induction j as [|j IH]; intros Hj.
  - replace i with 0%nat by lia. lra.
  - destruct (Nat.eq_dec i (S j)) as [->|N]; [lra|]. specialize (IH ltac:(lia) ltac:(lia)). specialize (H j Hj). lra.
Qed.
Lemma mono_blend f n i j a b : mono_to f n -> (S i < n)%nat -> (S j < n)%nat -> 0 <= a -> a <= 1 -> 0 <= b -> b <= 1 ->
  nq i + a <= nq j + b -> blend a (f i) (f (S i)) <= blend b (f j) (f (S j)).
Proof.
  intros M Hi Hj A0 A1 B0 B1 L. destruct (Nat.lt_trichotomy i j) as [H|[H|H]].
  - pose proof (M (S i) j ltac:(lia) ltac:(lia)). pose proof (M i (S i) ltac:(lia) ltac:(lia)). pose proof (M j (S j) ltac:(lia) ltac:(lia)).
    destruct (blend_bounds a (f i) (f (S i)) (f i) (f (S i)) A0 A1) as [_ U]; try lra. destruct (blend_bounds b (f j) (f (S j)) (f j) (f (S j)) B0 B1) as [U' _]; lra.
  - subst j. pose proof (M i (S i) ltac:(lia) ltac:(lia)). unfold blend. assert (0 <= (b - a) * (f (S i) - f i)) by (apply Qmult_le_0_compat; lra). lra.
  - pose proof (nq_lt j i H). assert (EB : b == 1) by lra. assert (EA : a == 0) by lra. assert (EN : nq i == nq (S j)) by (rewrite nq_S; lra).
    assert (i = S j). { unfold nq in EN. rewrite inject_Z_injective in EN. lia. } subst i. unfold blend. rewrite EA, EB. lra.
Qed.
Section Mono.
  Variable kd : kind.
  Hypothesis HK : linear kd.
  Variable y : list Q.
  Variable size : option nat.
  Hypothesis Hn : (2 <= length y)%nat.
  Hypothesis Hn' : (2 <= msize (map Fin y) size)%nat.
  Lemma param_le n i j a b : (2 <= n)%nat -> param n i a <= param n j b -> nq i + a <= nq j + b.
  Proof. intros H L. pose proof (d_pos n H) as D. cbv zeta in D. rewrite <- !(param_mul n H). apply Qmult_le_compat_r; lra. Qed.
  Variable c : Q.
  Hypothesis M : mono_to (fun k => c * nth k y 0) (length y).
  Lemma rs_mono : mono_to (fun k => c * rs kd y size k) (msize (map Fin y) size).
  Proof.
    intros i j Hij Hj. set (n' := msize (map Fin y) size) in *. pose proof (d_pos n' Hn') as D. cbv zeta in D.
    assert (R : forall k, (k < n')%nat -> 0 <= nq k / nq (n' - 1) /\ nq k / nq (n' - 1) <= 1).
    { intros k Hk. pose proof (nq_pos k). pose proof (nq_le k (n' - 1) ltac:(lia)). split; [apply Qle_shift_div_l; lra|apply Qle_shift_div_r; lra]. }
    destruct (R i ltac:(lia)) as [I0 I1], (R j Hj) as [J0 J1].
    destruct (find_interval (length y) _ Hn I0 I1) as (i' & a & Hi' & A0 & A1 & Ea). destruct (find_interval (length y) _ Hn J0 J1) as (j' & b & Hj' & B0 & B1 & Eb).
    rewrite (rs_value kd HK y size Hn Hn' i i' a ltac:(fold n'; lia) Ea A0 A1 Hi'), (rs_value kd HK y size Hn Hn' j j' b Hj Eb B0 B1 Hj').
    assert (BE : forall a x z, c * blend a x z == blend a (c * x) (c * z)) by (intros; unfold blend; ring). rewrite !BE.
    apply (mono_blend (fun k => c * nth k y 0) (length y)); auto. apply (param_le (length y)); auto. rewrite <- Ea, <- Eb.
    apply Qle_shift_div_l; auto. pose proof (nq_le i j Hij). assert (E : nq i / nq (n' - 1) * nq (n' - 1) == nq i) by (field; lra). lra.
  Qed.
  Lemma call_mono : forall t t', 0 <= t -> t <= t' -> t' <= 1 ->
    exists v v', interp_call (interp_new kd (map Fin y) size) t = Fin v /\ interp_call (interp_new kd (map Fin y) size) t' = Fin v' /\ c * v <= c * v'.
  Proof.
    intros t t' T0 L T1. destruct (find_interval _ t Hn' T0 ltac:(lra)) as (i & a & Hi & A0 & A1 & Ea). destruct (find_interval _ t' Hn' ltac:(lra) T1) as (j & b & Hj & B0 & B1 & Eb).
    destruct (call_value kd HK y size Hn Hn' t i a Ea A0 A1 Hi) as (v & Ev & Qv). destruct (call_value kd HK y size Hn Hn' t' j b Eb B0 B1 Hj) as (v' & Ev' & Qv').
    exists v, v'. split; auto. split; auto. rewrite Qv, Qv'.
    assert (BE : forall a x z, c * blend a x z == blend a (c * x) (c * z)) by (intros; unfold blend; ring). rewrite !BE.
    apply (mono_blend (fun k => c * rs kd y size k) (msize (map Fin y) size)); auto; [apply rs_mono|].
    apply (param_le _ _ _ _ _ Hn'). rewrite <- Ea, <- Eb. exact L.
  Qed.
End Mono.

(** ** Shape of a value: the same weights for all data of a given length *)
Lemma call_shape n size t : (2 <= n)%nat -> (2 <= match size with None => n | Some k => k end)%nat -> 0 <= t -> t <= 1 ->
  exists a i b i' b', 0 <= a /\ a <= 1 /\ (S i < n)%nat /\ 0 <= b /\ b <= 1 /\ (S i' < n)%nat /\ 0 <= b' /\ b' <= 1 /\
  forall kd y, linear kd -> length y = n ->
    is_num (interp_call (interp_new kd (map Fin y) size) t) (blend a (blend b (nth i y 0) (nth (S i) y 0)) (blend b' (nth i' y 0) (nth (S i') y 0))).
Proof.
  intros Hn Hn' T0 T1. set (n' := match size with None => n | Some k => k end) in *.
  destruct (find_interval n' t Hn' T0 T1) as (k & a & Hk & A0 & A1 & Ea). pose proof (d_pos n' Hn') as D. cbv zeta in D.
  assert (R : forall k, (k < n')%nat -> exists i b, (S i < n)%nat /\ 0 <= b /\ b <= 1 /\ nq k / nq (n' - 1) == param n i b).
  { intros j Hj. apply find_interval; auto; pose proof (nq_pos j); pose proof (nq_le j (n' - 1) ltac:(lia)); [apply Qle_shift_div_l; lra|apply Qle_shift_div_r; lra]. }
  destruct (R k ltac:(lia)) as (i & b & Hi & B0 & B1 & Eb). destruct (R (S k) Hk) as (i' & b' & Hi' & B0' & B1' & Eb').
  exists a, i, b, i', b'. repeat (split; [assumption|]). intros kd y HK Ly.
  assert (EM : msize (map Fin y) size = n') by (unfold msize, n'; rewrite map_length, Ly; reflexivity).
  assert (H2 : (2 <= msize (map Fin y) size)%nat) by (rewrite EM; exact Hn').
  rewrite <- Ly in Hn, Hi, Hi', Eb, Eb'. rewrite <- EM in Hk, Ea, Eb, Eb'.
  pose proof (call_value kd HK y size Hn H2 t k a Ea A0 A1 Hk) as H.
  eapply is_num_eqv; [exact H|].
  rewrite (rs_value kd HK y size Hn H2 k i b ltac:(lia) Eb B0 B1 Hi), (rs_value kd HK y size Hn H2 (S k) i' b' Hk Eb' B0' B1' Hi'). reflexivity.
Qed.
(** between two recorded states, without resampling *)
Lemma call_plain kd y k a t : linear kd -> (2 <= length y)%nat -> t == param (length y) k a -> 0 <= a -> a <= 1 -> (S k < length y)%nat ->
  is_num (interp_call (interp_new kd (map Fin y) None) t) (blend a (nth k y 0) (nth (S k) y 0)).
Proof.
  intros HK Hn Et A0 A1 Hk. assert (EM : msize (map Fin y) None = length y) by apply map_length.
  assert (H2 : (2 <= msize (map Fin y) None)%nat) by (rewrite EM; exact Hn).
  assert (Et' : t == param (msize (map Fin y) None) k a) by (rewrite EM; exact Et).
  eapply is_num_eqv; [apply (call_value kd HK y None Hn H2 t k a Et' A0 A1); rewrite EM; exact Hk|].
  assert (RS : forall j, (j < length y)%nat -> rs kd y None j == nth j y 0).
  { intros j Hj. destruct (knot_param (length y) j Hn Hj) as (i & b & Hi & B0 & B1 & E & HB).
    rewrite (rs_value kd HK y None Hn H2 j i b); [apply (HB (fun i => nth i y 0))|rewrite EM; exact Hj|rewrite EM; exact E|auto..]. }
  rewrite (RS k), (RS (S k)) by lia. reflexivity.
Qed.

(** ** Outside the range *)
Lemma call_outside kd y size t : y <> [] -> size <> Some 0%nat -> t < 0 \/ 1 < t -> interp_call (interp_new kd y size) t = last y NaN.
Proof.
  intros Hy Hs HT. unfold interp_call. rewrite new_t. change (in_fill (interp_new kd y size)) with (ylast y). set (yy := in_y _).
  assert (L : (1 <= msize y size)%nat) by (destruct size as [[|k]|]; simpl; [congruence|lia|destruct y; simpl; [congruence|lia]]).
  destruct (Nat.eq_dec (msize y size) 1) as [E|E]; [|apply eval_out; auto; lia].
  rewrite E. unfold linspace, eval1d. simpl. replace (Qltb t 0 || Qltb 0 t) with true; auto. symmetry. apply orb_true_intro.
  destruct HT; [left|right]; apply Qltb_lt; lra.
Qed.

(** ** Steps *)
Lemma previous_base y t k a : (2 <= length y)%nat -> t == param (length y) k a -> 0 <= a -> a < 1 -> (k < length y)%nat ->
  call_previous (linspace (length y)) y t = nth k y NaN.
Proof.
  intros Hn Et A0 A1 Hk. unfold call_previous. rewrite (search_right_eq _ Hn k a t), linspace_length by auto. f_equal. lia.
Qed.
Lemma previous_range n k a : (2 <= n)%nat -> (k < n)%nat -> 0 <= a -> a < 1 -> (k = n - 1 -> a == 0)%nat -> 0 <= param n k a /\ param n k a <= 1.
Proof.
  intros Hn Hk A0 A1 H. unfold param. fold (nq k) (nq (n - 1)). pose proof (d_pos n Hn) as D. cbv zeta in D. pose proof (nq_pos k).
  split; [apply Qle_shift_div_l; lra|apply Qle_shift_div_r; auto]. destruct (Nat.eq_dec k (n - 1)) as [->|N].
  - rewrite (H eq_refl). lra.
  - pose proof (nq_lt k (n - 1) ltac:(lia)). lra.
Qed.
Lemma call_previous_value y t k a : (2 <= length y)%nat -> t == param (length y) k a -> 0 <= a -> a < 1 -> (k < length y)%nat -> ((k = length y - 1)%nat -> a == 0) ->
  interp_call (interp_new Previous y None) t = nth k y NaN.
Proof.
  intros Hn Et A0 A1 Hk Ha. destruct (previous_range _ k a Hn Hk A0 A1 Ha). unfold interp_call. rewrite new_t. simpl msize.
  rewrite eval_in by (auto; rewrite Et; auto). cbn [call in_kind interp_new].
  assert (EY : in_y (interp_new Previous y None) = y).
  { apply (nth_ext _ _ NaN NaN); [apply new_y_length|]. intros j Hj. rewrite new_y_length in Hj. simpl in Hj.
    pose proof (new_y_nth Previous y None j Hn Hj) as E. rewrite (nth_error_nth _ _ _ E). simpl msize.
    assert (Ej : nq j / nq (length y - 1) == param (length y) j 0).
    { unfold param. fold (nq j) (nq (length y - 1)). assert (Z : nq j + 0 == nq j) by ring. rewrite Z. reflexivity. }
    destruct (previous_range _ j 0 Hn Hj ltac:(lra) ltac:(lra) ltac:(reflexivity)).
    rewrite eval_in by (auto; rewrite Ej; auto). apply (previous_base y _ j 0); auto; lra. }
  change (in_y (mkInterp _ _ _ _)) with (in_y (interp_new Previous y None)). rewrite EY. apply (previous_base y t k a); auto.
Qed.
Lemma step_param n t : (2 <= n)%nat -> 0 <= t -> t <= 1 -> exists a, 0 <= a /\ a < 1 /\
  let k := Z.to_nat (Qfloor (t * nq (n - 1))) in t == param n k a /\ (k < n)%nat /\ ((k = n - 1)%nat -> a == 0).
Proof.
  intros Hn T0 T1. pose proof (d_pos n Hn) as D. cbv zeta in D. set (f := Qfloor (t * nq (n - 1))).
  pose proof (Qfloor_le (t * nq (n - 1))) as F1. pose proof (Qlt_floor (t * nq (n - 1))) as F2. fold f in F1, F2. rewrite inject_Z_plus in F2.
  change (inject_Z 1) with 1 in F2. assert (P : 0 <= t * nq (n - 1)) by (apply Qmult_le_0_compat; lra).
  assert (F0 : (0 <= f)%Z). { assert (H' : inject_Z (-1) < inject_Z f) by (change (inject_Z (-1)) with (-(1)); lra). rewrite <- Zlt_Qlt in H'. lia. }
  assert (U : t * nq (n - 1) <= nq (n - 1)) by (assert (t * nq (n - 1) <= 1 * nq (n - 1)) by (apply Qmult_le_compat_r; lra); lra).
  exists (t * nq (n - 1) - inject_Z f). split; [lra|]. split; [lra|]. cbv zeta. split; [|split].
  - unfold param. rewrite Z2Nat.id by auto. fold (nq (n - 1)). field. lra.
  - assert (inject_Z f <= nq (n - 1)) by lra. unfold nq in H. rewrite <- Zle_Qle in H. lia.
  - intros E. assert (Ef : f = Z.of_nat (n - 1)) by lia. assert (E2 : inject_Z f == nq (n - 1)) by (rewrite Ef; reflexivity). lra.
Qed.

(** ** Statements about the API *)
Lemma knot_value kd y k t : linear kd -> (2 <= length y)%nat -> (k < length y)%nat -> t == param (length y) k 0 ->
  is_num (interp_call (interp_new kd (map Fin y) None) t) (nth k y 0).
Proof.
  intros HK Hn Hk Et. assert (E0 : param (length y) k 0 == nq k / nq (length y - 1)) by (unfold param; fold (nq k) (nq (length y - 1)); rewrite Qplus_0_r; reflexivity).
  destruct (knot_param (length y) k Hn Hk) as (i & b & Hi & B0 & B1 & E & HB).
  eapply is_num_eqv; [apply (call_plain kd y i b t); auto; rewrite Et, E0; exact E|]. apply (HB (fun i => nth i y 0)).
Qed.
Lemma all_value kd y k q : linear kd -> (2 <= length y)%nat -> nth_error y k = Some q ->
  exists v, nth_error (interp_all (interp_new kd (map Fin y) None)) k = Some v /\ is_num v q.
Proof.
  intros HK Hn Hk. assert (L : (k < length y)%nat) by (apply nth_error_Some; congruence). unfold interp_all. rewrite nth_error_map, new_t. simpl msize.
  rewrite map_length. rewrite (nth_error_nth' (linspace (length y)) 0) by (rewrite linspace_length; auto). rewrite linspace_nth by auto. simpl. eexists. split; [reflexivity|].
  rewrite <- (nth_error_nth _ _ 0 Hk). apply knot_value; auto. unfold param. fold (nq k) (nq (length y - 1)). rewrite Qplus_0_r. reflexivity.
Qed.
Lemma resample_value kd y n' j t : linear kd -> (2 <= length y)%nat -> (2 <= n')%nat -> (j < n')%nat -> t == param n' j 0 ->
  exists q, is_num (interp_call (interp_new kd (map Fin y) (Some n')) t) q /\ is_num (interp_call (interp_new kd (map Fin y) None) t) q.
Proof.
  intros HK Hn Hn' Hj Et. assert (E0 : param n' j 0 == nq j / nq (n' - 1)) by (unfold param; fold (nq j) (nq (n' - 1)); rewrite Qplus_0_r; reflexivity).
  pose proof (d_pos n' Hn') as D. cbv zeta in D.
  assert (R0 : 0 <= t /\ t <= 1).
  { rewrite Et, E0. pose proof (nq_pos j). pose proof (nq_le j (n' - 1) ltac:(lia)). split; [apply Qle_shift_div_l; lra|apply Qle_shift_div_r; lra]. }
  destruct (find_interval (length y) t Hn (proj1 R0) (proj2 R0)) as (i & b & Hi & B0 & B1 & Eb).
  exists (blend b (nth i y 0) (nth (S i) y 0)). split; [|apply call_plain; auto].
  destruct (knot_param n' j Hn' Hj) as (k & a & Hk & A0 & A1 & E & HB).
  assert (Etk : t == param n' k a) by (rewrite Et, E0; exact E).
  eapply is_num_eqv; [apply (call_value kd HK y (Some n') Hn Hn' t k a Etk A0 A1 Hk)|]. rewrite (HB (rs kd y (Some n'))).
  apply (rs_value kd HK y (Some n') Hn Hn' j i b Hj); auto. rewrite <- E0, <- Et. exact Eb.
Qed.
Lemma previous_floor y t : (2 <= length y)%nat -> 0 <= t -> t <= 1 ->
  interp_call (interp_new Previous y None) t = nth (Z.to_nat (Qfloor (t * inject_Z (Z.of_nat (length y - 1))))) y NaN.
Proof.
  intros Hn T0 T1. destruct (step_param (length y) t Hn T0 T1) as (a & A0 & A1 & Et & Hk & Ha).
  apply (call_previous_value y t _ a); auto.
Qed.
Lemma single_scalar v t : t == 0 -> interp_call (interp_new LinearScalar [v] None) t = v /\ interp_call (interp_new Previous [v] None) t = v.
Proof.
  intros Et. assert (N1 : Qltb t 0 = false) by (apply Qltb_ge; rewrite Et; apply Qle_refl). assert (N2 : Qltb 0 t = false) by (apply Qltb_ge; rewrite Et; apply Qle_refl).
  assert (L : Qleb 0 t = true) by (apply Qleb_le; rewrite Et; apply Qle_refl).
  split; unfold interp_call, interp_new, eval1d, linspace; simpl; rewrite N1, N2; cbn [orb call]; unfold call_np, call_previous, search_right; simpl; rewrite L; reflexivity.
Qed.
Lemma api_ends kd y size : linear kd -> (2 <= length y)%nat -> size_ok size -> forall t,
  (t == 0 -> is_num (interp_call (interp_new kd (map Fin y) size) t) (nth 0 y 0)) /\
  (t == 1 -> is_num (interp_call (interp_new kd (map Fin y) size) t) (nth (length y - 1) y 0)).
Proof.
  intros HK Hn HS t. assert (Hn' : (2 <= msize (map Fin y) size)%nat) by (destruct size; simpl in *; [lia|rewrite map_length; lia]).
  split; intros E; [apply (call_first kd HK y size Hn Hn' t E)|apply (call_last kd HK y size Hn Hn' t E)].
Qed.
Lemma api_bounds kd y size lo hi : linear kd -> (2 <= length y)%nat -> size_ok size -> (forall q, In q y -> lo <= q /\ q <= hi) -> forall t,
  exists v, interp_call (interp_new kd (map Fin y) size) t = Fin v /\ lo <= v /\ v <= hi.
Proof.
  intros HK Hn HS HB t. assert (Hn' : (2 <= msize (map Fin y) size)%nat) by (destruct size; simpl in *; [lia|rewrite map_length; lia]).
  assert (D : (0 <= t /\ t <= 1) \/ (t < 0 \/ 1 < t)) by (destruct (Qlt_le_dec t 0); [tauto|]; destruct (Qlt_le_dec 1 t); tauto).
  destruct D as [[T0 T1]|T]; [destruct (call_bounds kd HK y size Hn Hn' lo hi HB t T0 T1) as (v & E & L); eauto|].
  rewrite call_outside; auto.
  - exists (last y 0). assert (E : last (map Fin y) NaN = Fin (last y 0) /\ In (last y 0) y).
    { destruct y as [|q y]; [simpl in Hn; lia|]. clear. revert q. induction y as [|z y IH]; intros q; [split; [reflexivity|left; reflexivity]|].
      destruct (IH z) as [E I]. split; [exact E|right; exact I]. }
    destruct E as [E I]. split; auto.
  - destruct y; [simpl in Hn; lia|discriminate].
  - destruct size as [[|k]|]; [simpl in HS; lia|discriminate..].
Qed.
Lemma api_increasing kd y size : linear kd -> (2 <= length y)%nat -> size_ok size -> nondecreasing y -> forall t t', 0 <= t -> t <= t' -> t' <= 1 ->
  exists v v', interp_call (interp_new kd (map Fin y) size) t = Fin v /\ interp_call (interp_new kd (map Fin y) size) t' = Fin v' /\ v <= v'.
Proof.
  intros HK Hn HS HM t t' T0 L T1. assert (Hn' : (2 <= msize (map Fin y) size)%nat) by (destruct size; simpl in *; [lia|rewrite map_length; lia]).
  destruct (call_mono kd HK y size Hn Hn' 1 ltac:(apply mono_step; intros k Hk; specialize (HM k Hk); lra) t t' T0 L T1) as (v & v' & E & E' & D).
  exists v, v'. repeat split; auto. lra.
Qed.
Lemma api_decreasing kd y size : linear kd -> (2 <= length y)%nat -> size_ok size -> nonincreasing y -> forall t t', 0 <= t -> t <= t' -> t' <= 1 ->
  exists v v', interp_call (interp_new kd (map Fin y) size) t = Fin v /\ interp_call (interp_new kd (map Fin y) size) t' = Fin v' /\ v' <= v.
Proof.
  intros HK Hn HS HM t t' T0 L T1. assert (Hn' : (2 <= msize (map Fin y) size)%nat) by (destruct size; simpl in *; [lia|rewrite map_length; lia]).
  destruct (call_mono kd HK y size Hn Hn' (-(1)) ltac:(apply mono_step; intros k Hk; specialize (HM k Hk); lra) t t' T0 L T1) as (v & v' & E & E' & D).
  exists v, v'. repeat split; auto. lra.
Qed.
Lemma Qle_lteq_eq x y : x == y -> x <= y.
Proof. intros ->. apply Qle_refl. Qed.
