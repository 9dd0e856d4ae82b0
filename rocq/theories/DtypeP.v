(** Proofs for C103. *)
From Coq Require Import Lqa.
From Verif Require Import Num NumP ListX ListP InterpM SpecInterp InterpP DtypeM.
Open Scope Q_scope.

Lemma floor_bounds q : inject_Z (Qfloor q) <= q /\ q < inject_Z (Qfloor q) + 1.
Proof. split; [apply Qfloor_le|]. pose proof (Qlt_floor q) as H. rewrite inject_Z_plus in H. exact H. Qed.
Lemma trunc_spec q : (0 <= q -> inject_Z (qtrunc q) <= q /\ q < inject_Z (qtrunc q) + 1 /\ (0 <= qtrunc q)%Z) /\
  (q <= 0 -> q <= inject_Z (qtrunc q) /\ inject_Z (qtrunc q) < q + 1 /\ (qtrunc q <= 0)%Z).
Proof.
  unfold qtrunc. destruct (Qltb q 0) eqn:E; qb.
  - split; intros H; [lra|]. pose proof (floor_bounds (- q)) as (A & B). rewrite inject_Z_opp. split; [lra|]. split; [lra|].
    assert (C : (0 <= Qfloor (- q))%Z). { apply (Qfloor_resp_le 0). lra. } lia.
  - pose proof (floor_bounds q) as (A & B). assert (C : (0 <= Qfloor q)%Z) by (apply (Qfloor_resp_le 0); lra).
    split; intros H; [split; [lra|split; [lra|exact C]]|].
    assert (E0 : Qfloor q = 0%Z). { assert (X : (Qfloor q <= 0)%Z) by (apply (Qfloor_resp_le q 0); exact H). lia. }
    rewrite E0 in *. change (inject_Z 0) with 0. split; [lra|]. split; [lra|lia].
Qed.
Lemma trunc_int q z : q == inject_Z z -> qtrunc q = z.
Proof.
  intros E. unfold qtrunc. destruct (Qltb q 0).
  - rewrite (Qfloor_comp (- q) (inject_Z (- z))); [rewrite Qfloor_Z; lia|]. rewrite inject_Z_opp, E. reflexivity.
  - rewrite (Qfloor_comp _ _ E). apply Qfloor_Z.
Qed.
Lemma trunc_mono p q : p <= q -> (qtrunc p <= qtrunc q)%Z.
Proof.
  intros H. unfold qtrunc. destruct (Qltb p 0) eqn:E1, (Qltb q 0) eqn:E2; qb.
  - assert (X : (Qfloor (- q) <= Qfloor (- p))%Z) by (apply Qfloor_resp_le; lra). lia.
  - assert (X : (0 <= Qfloor (- p))%Z) by (apply (Qfloor_resp_le 0); lra). assert (Y : (0 <= Qfloor q)%Z) by (apply (Qfloor_resp_le 0); lra). lia.
  - lra.
  - apply Qfloor_resp_le. exact H.
Qed.
Lemma trunc_between q lo hi : inject_Z lo <= q -> q <= inject_Z hi -> (lo <= qtrunc q <= hi)%Z.
Proof.
  intros A B. pose proof (trunc_mono _ _ A) as X. pose proof (trunc_mono _ _ B) as Y.
  rewrite (trunc_int (inject_Z lo) lo) in X by reflexivity. rewrite (trunc_int (inject_Z hi) hi) in Y by reflexivity. lia.
Qed.
Lemma trunc_close q : Qabs (q - inject_Z (qtrunc q)) < 1 /\ Qabs (inject_Z (qtrunc q)) <= Qabs q.
Proof.
  destruct (trunc_spec q) as (P & N). destruct (Qlt_le_dec q 0) as [H|H].
  - destruct (N (Qlt_le_weak _ _ H)) as (A & B & C). assert (C' : inject_Z (qtrunc q) <= 0) by (change 0 with (inject_Z 0); rewrite <- Zle_Qle; exact C).
    split; [rewrite Qabs_neg by lra; lra|]. rewrite (Qabs_neg q), Qabs_neg by lra. lra.
  - destruct (P H) as (A & B & C). assert (C' : 0 <= inject_Z (qtrunc q)) by (change 0 with (inject_Z 0); rewrite <- Zle_Qle; exact C).
    split; [rewrite Qabs_pos by lra; lra|]. rewrite (Qabs_pos q), Qabs_pos by lra. lra.
Qed.

Lemma int_map y : int_samples y = map Fin (map inject_Z y).
Proof. unfold int_samples. rewrite map_map. reflexivity. Qed.
Lemma bool_map y : bool_samples y = map Fin (map (fun b : bool => if b then 1 else 0) y).
Proof. unfold bool_samples. rewrite map_map. reflexivity. Qed.
Lemma int_at y k : (k < length y)%nat -> nth k (map inject_Z y) 0 = inject_Z (nth k y 0%Z).
Proof. intros H. rewrite (nth_indep _ 0 (inject_Z 0%Z)) by (rewrite map_length; exact H). apply map_nth. Qed.
Lemma bool_at y k : (k < length y)%nat -> nth k (map (fun b : bool => if b then 1 else 0) y) 0 = if nth k y false then 1 else 0.
Proof. intros H. apply (map_nth (fun b : bool => if b then 1 else 0) y false k). Qed.

Lemma int_knot kd y k t : linear kd -> (2 <= length y)%nat -> (k < length y)%nat -> t == param (length y) k 0 ->
  typed_call TInt (interp_new kd (int_samples y) None) t = Some (Fin (inject_Z (nth k y 0%Z))).
Proof.
  intros L N K T. rewrite int_map. destruct (knot_value kd (map inject_Z y) k t L) as (w & E & W); [rewrite map_length; exact N|rewrite map_length; exact K|rewrite map_length; exact T|].
  unfold typed_call. rewrite E. cbn [astype]. rewrite int_at in W by exact K. rewrite (trunc_int w _ W). reflexivity.
Qed.
Lemma int_between kd y size lo hi t : linear kd -> (2 <= length y)%nat -> size_ok size -> (forall z, In z y -> (lo <= z <= hi)%Z) ->
  exists v z, interp_call (interp_new kd (int_samples y) size) t = Fin v /\ typed_call TInt (interp_new kd (int_samples y) size) t = Some (Fin (inject_Z z)) /\
    (lo <= z <= hi)%Z /\ Qabs (v - inject_Z z) < 1 /\ Qabs (inject_Z z) <= Qabs v.
Proof.
  intros L N S B. rewrite int_map. destruct (api_bounds kd (map inject_Z y) size (inject_Z lo) (inject_Z hi) L) with (t := t) as (v & E & V1 & V2);
    [rewrite map_length; exact N|exact S| |].
  { intros q Hq. apply in_map_iff in Hq as (z & <- & Hz). destruct (B z Hz). split; rewrite <- Zle_Qle; assumption. }
  exists v, (qtrunc v). split; [exact E|]. unfold typed_call. rewrite E. split; [reflexivity|]. split; [exact (trunc_between v lo hi V1 V2)|]. apply trunc_close.
Qed.
Lemma int_monotone kd y size : linear kd -> (2 <= length y)%nat -> size_ok size -> (forall k, (S k < length y)%nat -> (nth k y 0 <= nth (S k) y 0)%Z) ->
  forall t t', 0 <= t -> t <= t' -> t' <= 1 -> exists z z', typed_call TInt (interp_new kd (int_samples y) size) t = Some (Fin (inject_Z z)) /\
    typed_call TInt (interp_new kd (int_samples y) size) t' = Some (Fin (inject_Z z')) /\ (z <= z')%Z.
Proof.
  intros L N S M t t' A B C. rewrite int_map. destruct (api_increasing kd (map inject_Z y) size L) with (t := t) (t' := t') as (v & v' & E & E' & V); auto.
  - rewrite map_length. exact N.
  - intros k Hk. rewrite map_length in Hk. rewrite !int_at by lia. rewrite <- Zle_Qle. exact (M k Hk).
  - exists (qtrunc v), (qtrunc v'). unfold typed_call. rewrite E, E'. split; [reflexivity|]. split; [reflexivity|]. exact (trunc_mono v v' V).
Qed.
Lemma nth_int y k : (k < length y)%nat -> nth k (int_samples y) NaN = Fin (inject_Z (nth k y 0%Z)).
Proof. intros H. unfold int_samples. rewrite (nth_indep _ NaN (Fin (inject_Z 0%Z))) by (rewrite map_length; exact H). apply (map_nth (fun z => Fin (inject_Z z)) y 0%Z k). Qed.
Lemma nth_bool y k : (k < length y)%nat -> nth k (bool_samples y) NaN = Fin (if nth k y false then 1 else 0).
Proof. intros H. unfold bool_samples. rewrite (nth_indep _ NaN (Fin (if false then 1 else 0))) by (rewrite map_length; exact H). apply (map_nth (fun b : bool => Fin (if b then 1 else 0)) y false k). Qed.
Definition latest (n : nat) (t : Q) : nat := Z.to_nat (Qfloor (t * inject_Z (Z.of_nat (n - 1)))).
Lemma latest_lt n t : (2 <= n)%nat -> 0 <= t -> t <= 1 -> (latest n t < n)%nat.
Proof.
  intros N A B. unfold latest.
  assert (P : 0 < inject_Z (Z.of_nat (n - 1))) by (change 0 with (inject_Z 0); rewrite <- Zlt_Qlt; lia).
  assert (U : (Qfloor (t * inject_Z (Z.of_nat (n - 1))) <= Z.of_nat (n - 1))%Z).
  { rewrite <- (Qfloor_Z (Z.of_nat (n - 1))) at 2. apply Qfloor_resp_le.
    setoid_replace (inject_Z (Z.of_nat (n - 1))) with (1 * inject_Z (Z.of_nat (n - 1))) at 2 by ring.
    apply Qmult_le_compat_r; [exact B|lra]. }
  lia.
Qed.
Lemma int_step y t : (2 <= length y)%nat -> 0 <= t -> t <= 1 ->
  typed_call TInt (interp_new Previous (int_samples y) None) t = Some (Fin (inject_Z (nth (latest (length y) t) y 0%Z))).
Proof.
  intros N A B. unfold typed_call. assert (L : length (int_samples y) = length y) by (unfold int_samples; apply map_length).
  rewrite previous_floor by (rewrite ?L; assumption). rewrite L. fold (latest (length y) t). rewrite nth_int by (apply latest_lt; assumption).
  cbn [astype]. rewrite (trunc_int _ _ (Qeq_refl _)). reflexivity.
Qed.
Lemma bool_step y t : (2 <= length y)%nat -> 0 <= t -> t <= 1 ->
  typed_call TBool (interp_new Previous (bool_samples y) None) t = Some (Fin (if nth (latest (length y) t) y false then 1 else 0)).
Proof.
  intros N A B. unfold typed_call. assert (L : length (bool_samples y) = length y) by (unfold bool_samples; apply map_length).
  rewrite previous_floor by (rewrite ?L; assumption). rewrite L. fold (latest (length y) t). rewrite nth_bool by (apply latest_lt; assumption).
  destruct (nth _ y false); reflexivity.
Qed.
Lemma bool_linear kd y k a t : linear kd -> (2 <= length y)%nat -> (S k < length y)%nat -> 0 < a -> a < 1 -> t == param (length y) k a ->
  typed_call TBool (interp_new kd (bool_samples y) None) t = Some (Fin (if nth k y false || nth (S k) y false then 1 else 0)).
Proof.
  intros L N K A B T. rewrite bool_map. destruct (call_plain kd (map (fun b : bool => if b then 1 else 0) y) k a t L) as (w & E & W);
    [rewrite map_length; exact N|rewrite map_length; exact T|lra|lra|rewrite map_length; exact K|].
  unfold typed_call. rewrite E. cbn [astype]. rewrite !bool_at in W by lia. unfold blend in W.
  destruct (Qeqb w 0) eqn:Ew; qb; destruct (nth k y false), (nth (S k) y false); cbn [orb]; try reflexivity; exfalso; lra.
Qed.
Lemma outside_typed d kd y size t : y <> [] -> size <> Some 0%nat -> t < 0 \/ 1 < t -> typed_call d (interp_new kd y size) t = astype d (last y NaN).
Proof. intros A B C. unfold typed_call. rewrite (call_outside kd y size t A B C). reflexivity. Qed.
