(** The draws of [Mat.init] (C64). *)
From Coq Require Import String Permutation.
From Verif Require Import Num NumP ListX ListP Frames MatM NetM Spec SpecDraw CheckP MatP.
Open Scope Q_scope.

Section Draws.
  Variable R : rng.
  Variables cos sin : Q -> Q.
  Lemma after_add k : forall j s, after R (j + k) s = after R j (after R k s).
  Proof using. intros j s. induction j as [|j IH]; simpl; congruence. Qed.
  Lemma draw_add k j s : draw R (k + j) s = draw R j (after R k s).
  Proof using. unfold draw. rewrite Nat.add_comm, after_add. reflexivity. Qed.
  Lemma draws_eq n : forall s, draws R n s = (map (fun i => draw R i s) (seq 0 n), after R n s).
  Proof using.
    induction n as [|n IH]; intros s; [reflexivity|]. cbn [draws]. destruct (rng_draw R s) as [x s1] eqn:E. rewrite IH.
    assert (E1 : s1 = after R 1 s) by (simpl; rewrite E; reflexivity).
    change (seq 0 (S n)) with (0%nat :: seq 1 n). cbn [map]. rewrite <- seq_shift, map_map. f_equal.
    - f_equal; [unfold draw; simpl; rewrite E; reflexivity|]. apply map_ext. intros i. rewrite E1, <- draw_add. reflexivity.
    - rewrite E1, <- after_add. f_equal. lia.
  Qed.
  Lemma make_rows_nth p : forall xs ys zs ps qs k f, nth_error (make_rows cos sin p xs ys zs ps qs) k = Some f ->
    exists x y z a q, nth_error xs k = Some x /\ nth_error ys k = Some y /\ nth_error zs k = Some z /\
      nth_error ps k = Some a /\ nth_error qs k = Some q /\ f = make_fiber cos sin p x y z a q.
  Proof using.
    induction xs as [|x xs IH]; intros [|y ys] [|z zs] [|a ps] [|q qs] [|k] f H; simpl in H; try discriminate H.
    - injection H as <-. exists x, y, z, a, q. auto 10.
    - apply IH in H. exact H.
  Qed.
  Lemma nth_map_seq' {A} (g : nat -> A) n k x : nth_error (map g (seq 0 n)) k = Some x -> (k < n)%nat /\ x = g k.
  Proof using.
    intros H. rewrite nth_error_map in H. destruct (nth_error (seq 0 n) k) as [j|] eqn:E; [|discriminate H].
    assert (L : (k < n)%nat) by (rewrite <- (seq_length n 0); apply nth_error_Some; congruence).
    pose proof (@List.seq_nth n 0 k 0 L) as E'. apply nth_error_nth with (d := 0%nat) in E. simpl in H, E'. split; auto. congruence.
  Qed.
  Lemma mat_new_inv p ent prior m s : mat_new R cos sin p ent prior = Ok (m, s) -> exists s0,
    reseed R (p_seed p) ent = Ok s0 /\ (0 <= p_n p)%Z /\ let n := Z.to_nat (p_n p) in s = after R (5 * n) s0 /\
    let col k c := map (fun d => d * c) (map (fun i => draw R (k * n + i) s0) (seq 0 n)) in
    m_rows m = enum (make_rows cos sin p (col 0%nat (p_size p)) (col 1%nat (p_size p)) (isort Qleb (col 2%nat (p_size p)))
      (col 3%nat (p_theta p)) (col 4%nat (p_psi p))).
  Proof using.
    unfold mat_new, mat_init. destruct (reseed R (p_seed p) ent) as [s0|]; [|discriminate]. cbn [bind].
    destruct (Z.ltb_spec (p_n p) 0); [discriminate|]. set (n := Z.to_nat (p_n p)). rewrite !draws_eq. rewrite <- !after_add. cbn [bind fst].
    destruct (mat_check _); [|discriminate]. cbn [bind]. intros H1. injection H1 as <- <-. exists s0. split; auto. split; auto.
    split; [f_equal; lia|]. cbn [m_rows].
    assert (C : forall j k, j = (k * n)%nat -> map (fun i => draw R i (after R j s0)) (seq 0 n) = map (fun i => draw R (k * n + i) s0) (seq 0 n)).
    { intros j k ->. apply map_ext. intros i. rewrite draw_add. reflexivity. }
    rewrite (C n 1%nat), (C _ 2%nat), (C _ 3%nat), (C _ 4%nat) by lia. reflexivity.
  Qed.
  Lemma mat_draws p ent prior m s : mat_new R cos sin p ent prior = Ok (m, s) ->
    let n := Z.to_nat (p_n p) in let s0 := match p_seed p with Some k => rng_seed R k | None => ent end in
    length (m_rows m) = n /\ s = after R (5 * n) s0 /\
    (forall i lab f, nth_error (m_rows m) i = Some (lab, f) -> placed R cos sin p n s0 i f) /\
    (exists zs, map (fun r => fz (snd r)) (m_rows m) = map Fin zs /\
      Permutation zs (map (fun i => draw R (2 * n + i) s0 * p_size p) (seq 0 n)) /\
      forall i j, (i <= j < n)%nat -> nth i zs 0 <= nth j zs 0).
  Proof using.
    intros H n s0. destruct (mat_new_inv _ _ _ _ _ H) as (s0' & HS & HN & HA & HR). fold n in HA, HR. cbv zeta in HA, HR.
    assert (X : s0' = s0) by (unfold s0; unfold reseed in HS; destruct (p_seed p) as [k|]; [destruct (_ && _) in HS; [|discriminate HS]|]; injection HS as <-; reflexivity).
    subst s0'. clearbody s0. clear HS.
    set (zs := isort Qleb (map (fun d => d * p_size p) (map (fun i => draw R (2 * n + i) s0) (seq 0 n)))) in *.
    assert (LZ : length zs = n) by (unfold zs; rewrite isort_length, !map_length, seq_length; auto).
    rewrite HR. split; [|split; [exact HA|split]].
    - rewrite enum_length. apply make_rows_length; auto; rewrite !map_length, seq_length; reflexivity.
    - intros i lab f Hi. rewrite enum_nth_error in Hi. destruct (nth_error (make_rows _ _ _ _ _ _ _ _) i) as [f'|] eqn:E; [|discriminate Hi].
      injection Hi as _ ->. apply make_rows_nth in E. destruct E as (x & y & z & a & q & E1 & E2 & _ & E4 & E5 & ->). rewrite map_map in E1, E2, E4, E5.
      apply nth_map_seq' in E1, E2, E4, E5. destruct E1 as [_ ->], E2 as [_ ->], E4 as [_ ->], E5 as [_ ->].
      split; [reflexivity|]. split; [cbn [make_fiber fy]; do 2 f_equal; rewrite Nat.mul_1_l; reflexivity|].
      do 2 eexists. split; [reflexivity|]. split; [reflexivity|]. repeat split.
    - exists zs. split; [|split].
      + rewrite <- (make_rows_z cos sin p n (map (fun d => d * p_size p) (map (fun i => draw R (0 * n + i) s0) (seq 0 n)))
          (map (fun d => d * p_size p) (map (fun i => draw R (1 * n + i) s0) (seq 0 n))) zs
          (map (fun d => d * p_theta p) (map (fun i => draw R (3 * n + i) s0) (seq 0 n)))
          (map (fun d => d * p_psi p) (map (fun i => draw R (4 * n + i) s0) (seq 0 n)))) by (auto; rewrite !map_length, seq_length; reflexivity).
        rewrite <- (map_map snd fz). rewrite enum_snd. reflexivity.
      + unfold zs. rewrite isort_perm, map_map. apply Permutation_refl.
      + intros i j L. assert (Hso : StronglySorted (fun a b => Qleb a b = true) zs).
        { apply isort_sorted; intros.
          - rewrite !Qleb_le. destruct (Qlt_le_dec x y); [left|right]; lra.
          - rewrite !Qleb_le in *. lra. }
        rewrite StronglySorted_nth in Hso. destruct (Nat.eq_dec i j) as [->|N]; [lra|].
        apply Qleb_le. apply (Hso i j); [lia| |]; apply nth_error_nth'; lia.
  Qed.
  Lemma draw_range k s : draws_in_range R -> - (1 # 2) <= draw R k s <= 1 # 2.
  Proof using. intros H. apply H. Qed.
  Lemma mat_angles p n s i f : draws_in_range R -> 0 <= p_theta p -> 0 <= p_psi p -> placed R cos sin p n s i f ->
    exists a q, - p_theta p / 2 <= a <= p_theta p / 2 /\ - p_psi p / 2 <= q <= p_psi p / 2 /\
      fu f = Fin (cos a * cos q) /\ fv f = Fin (sin a * cos q) /\ fw f = Fin (sin q).
  Proof using.
    intros HR HT HP (_ & _ & a & q & Ea & Eq & E). exists a, q. split; [|split; [|exact E]].
    - pose proof (draw_range (3 * n + i) s HR). subst a. set (d := draw R _ _) in *. clearbody d. qdiv. nra.
    - pose proof (draw_range (4 * n + i) s HR). subst q. set (d := draw R _ _) in *. clearbody d. qdiv. nra.
  Qed.
  Lemma mat_flat p n s i f : (forall a, a == 0 -> sin a == 0) -> p_psi p == 0 -> placed R cos sin p n s i f -> exists w, fw f = Fin w /\ w == 0.
  Proof using.
    intros HS HP (_ & _ & a & q & Ea & Eq & _ & _ & E). exists (sin q). split; auto. apply HS. rewrite Eq, HP. ring.
  Qed.
  Lemma mat_raises p ent prior e : mat_init R cos sin p ent prior = Exn e <->
    e = ValueErr /\ ((exists k, p_seed p = Some k /\ ~ (0 <= k < 4294967296)%Z) \/ (p_n p < 0)%Z).
  Proof using.
    unfold mat_init, reseed. split.
    - destruct (p_seed p) as [k|]; cbn [bind].
      + destruct (Z.leb_spec 0 k), (Z.ltb_spec k 4294967296); cbn [andb bind];
          try (intros H1; injection H1 as <-; split; auto; left; exists k; split; auto; lia).
        destruct (Z.ltb_spec (p_n p) 0); [intros H2; injection H2 as <-; auto|]. rewrite !draws_eq. discriminate.
      + destruct (Z.ltb_spec (p_n p) 0); [intros H2; injection H2 as <-; auto|]. rewrite !draws_eq. discriminate.
    - intros [-> [(k & -> & H)|H]].
      + destruct (Z.leb_spec 0 k), (Z.ltb_spec k 4294967296); cbn [andb bind]; auto; lia.
      + assert (E : (p_n p <? 0)%Z = true) by (apply Z.ltb_lt; auto). destruct (p_seed p) as [k|]; [destruct (_ && _)|]; cbn [bind]; rewrite ?E; reflexivity.
  Qed.
End Draws.
