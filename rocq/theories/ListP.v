(** Facts about the list primitives. *)
From Verif Require Import ListX.
From Coq Require Export Permutation Sorted.

Section SortP.
  Context {A : Type} (leb : A -> A -> bool).
  Hypothesis leb_total : forall x y, leb x y = true \/ leb y x = true.
  Hypothesis leb_trans : forall x y z, leb x y = true -> leb y z = true -> leb x z = true.
  Let le x y := leb x y = true.

  Lemma insert_perm x l : Permutation (insert leb x l) (x :: l).
  Proof using.
    induction l as [|y t IH]; simpl; [reflexivity|].
    destruct (leb x y); [reflexivity|].
    rewrite IH. apply perm_swap.
  Qed.
  Lemma isort_perm l : Permutation (isort leb l) l.
  Proof using.
    induction l as [|x t IH]; simpl; [reflexivity|].
    rewrite insert_perm. now constructor.
  Qed.
  Lemma isort_length l : length (isort leb l) = length l.
  Proof using. apply Permutation_length, isort_perm. Qed.
  Lemma isort_in x l : In x (isort leb l) <-> In x l.
  Proof using.
    split; apply Permutation_in; [|symmetry]; apply isort_perm.
  Qed.

  Lemma insert_sorted x l : StronglySorted le l -> StronglySorted le (insert leb x l).
  Proof using leb_total leb_trans.
    induction l as [|y t IH]; simpl; intro H.
    - repeat constructor.
    - inversion H as [|? ? H1 H2]; subst. destruct (leb x y) eqn:E.
      + constructor; auto. constructor; auto.
        eapply Forall_impl; [|exact H2]. intros z Hz. eapply leb_trans; eauto.
      + constructor; [auto|].
        assert (Hyx : leb y x = true) by (destruct (leb_total x y); congruence).
        rewrite Forall_forall in *. intros z Hz.
        apply (Permutation_in _ (insert_perm x t)) in Hz. destruct Hz; subst; auto.
  Qed.
  Lemma isort_sorted l : StronglySorted le (isort leb l).
  Proof using leb_total leb_trans.
    induction l; simpl; [constructor | now apply insert_sorted].
  Qed.

  (** sorting a sorted list does nothing *)
  Lemma isort_id l : StronglySorted le l -> isort leb l = l.
  Proof using.
    induction 1 as [|x t H IH F]; simpl; auto.
    rewrite IH. destruct t as [|y t]; simpl; auto.
    inversion F as [|? ? Hxy ?]; subst. unfold le in Hxy. now rewrite Hxy.
  Qed.

  (** stability: elements of one class keep their order *)
  Lemma insert_filter (p : A -> bool) x l :
    (forall y, In y l -> p x = true -> p y = true -> leb x y = true) ->
    filter p (insert leb x l) = filter p (x :: l).
  Proof using.
    induction l as [|y t IH]; intros Hp; simpl; [reflexivity|].
    destruct (leb x y) eqn:E; simpl; auto.
    rewrite IH by (intros; apply Hp; simpl; auto). simpl.
    destruct (p x) eqn:Px, (p y) eqn:Py; auto.
    rewrite Hp in E; simpl; auto; discriminate.
  Qed.
  Lemma isort_filter (p : A -> bool) l :
    (forall x y, In x l -> In y l -> p x = true -> p y = true -> leb x y = true) ->
    filter p (isort leb l) = filter p l.
  Proof using.
    induction l as [|x t IH]; intros Hp; simpl; auto.
    rewrite insert_filter.
    - simpl. rewrite IH; auto. intros; apply Hp; simpl; auto.
    - intros y Hy. apply (Permutation_in _ (isort_perm t)) in Hy. apply Hp; simpl; auto.
  Qed.
End SortP.

(** pairs in order: the head relation for [nth_error] *)
Lemma StronglySorted_nth {A} (R : A -> A -> Prop) l :
  StronglySorted R l <->
  (forall i j x y, (i < j)%nat -> nth_error l i = Some x -> nth_error l j = Some y -> R x y).
Proof.
  split.
  - induction 1 as [|a l H IH F]; intros i j x y Hij Hi Hj.
    + destruct i; discriminate.
    + destruct j; [lia|]. simpl in Hj. destruct i; simpl in Hi.
      * inversion Hi; subst. rewrite Forall_forall in F. apply F. eapply nth_error_In; eauto.
      * apply (IH i j); auto. lia.
  - induction l as [|a l IH]; intros H; constructor.
    + apply IH. intros i j x y Hij Hi Hj. apply (H (S i) (S j)); auto. lia.
    + rewrite Forall_forall. intros x Hx. apply In_nth_error in Hx. destruct Hx as [j Hj].
      apply (H 0%nat (S j)); auto. lia.
Qed.

Section DedupP.
  Context {A : Type} (eqk : A -> A -> bool).
  Hypothesis eqk_refl : forall x, eqk x x = true.
  Hypothesis eqk_sym : forall x y, eqk x y = eqk y x.
  Hypothesis eqk_trans : forall x y z, eqk x y = true -> eqk y z = true -> eqk x z = true.

  Lemma dedup_incl x l : In x (dedup eqk l) -> In x l.
  Proof using.
    revert x. induction l as [|a t IH]; simpl; auto. intros x [->|H]; auto.
    apply filter_In in H. destruct H; auto.
  Qed.
  (** every key survives *)
  Lemma dedup_complete x l : In x l -> exists y, In y (dedup eqk l) /\ eqk y x = true.
  Proof using eqk_refl eqk_trans.
    induction l as [|a t IH]; simpl; [tauto|]. intros [->|H].
    - exists x; auto.
    - destruct (IH H) as (y & Hy & E). destruct (eqk a y) eqn:Ey.
      + exists a. split; auto. eapply eqk_trans; eauto.
      + exists y. split; auto. right. apply filter_In. rewrite Ey; auto.
  Qed.
  (** keys are pairwise different afterwards *)
  Lemma dedup_nodup l : StronglySorted (fun x y => eqk x y = false) (dedup eqk l).
  Proof using.
    induction l as [|a t IH]; simpl; constructor.
    - clear - IH. induction IH as [|b l H IH F]; simpl; [constructor|].
      destruct (negb (eqk a b)); auto. constructor; auto.
      rewrite Forall_forall in *. intros x Hx. apply filter_In in Hx. apply F; tauto.
    - rewrite Forall_forall. intros x Hx. apply filter_In in Hx. destruct Hx as [_ Hx].
      now apply negb_true_iff in Hx.
  Qed.
  Lemma filter_sorted (R : A -> A -> Prop) p l :
    StronglySorted R l -> StronglySorted R (filter p l).
  Proof using.
    induction 1 as [|b l' H IH F]; simpl; [constructor|].
    destruct (p b); auto. constructor; auto.
    rewrite Forall_forall in *. intros x Hx. apply filter_In in Hx. apply F; tauto.
  Qed.
  Lemma dedup_sorted (R : A -> A -> Prop) l :
    StronglySorted R l -> StronglySorted R (dedup eqk l).
  Proof using.
    induction 1 as [|a t H IH F]; simpl; constructor.
    - now apply filter_sorted.
    - rewrite Forall_forall in *. intros x Hx. apply filter_In in Hx. destruct Hx as [Hx _].
      apply dedup_incl in Hx. auto.
  Qed.
  Lemma dedup_id l : StronglySorted (fun x y => eqk x y = false) l -> dedup eqk l = l.
  Proof using.
    induction 1 as [|a t H IH F]; simpl; auto. rewrite IH. f_equal.
    clear - F. induction t as [|b t IH]; simpl; auto.
    inversion F as [|? ? Hb F']; subst. rewrite Hb; simpl. f_equal; auto.
  Qed.
  Lemma filter_length_le (p : A -> bool) l : (length (filter p l) <= length l)%nat.
  Proof using. induction l; simpl; auto. destruct (p a); simpl; lia. Qed.
  Lemma dedup_length_le l : (length (dedup eqk l) <= length l)%nat.
  Proof using.
    induction l; simpl; auto. pose proof (filter_length_le (fun y => negb (eqk a y)) (dedup eqk l)). lia.
  Qed.
  (** dedup removes nothing only if keys were already pairwise different *)
  Lemma dedup_length_eq l :
    length (dedup eqk l) = length l -> StronglySorted (fun x y => eqk x y = false) l.
  Proof using.
    induction l as [|a t IH]; simpl; intro H; [constructor|].
    pose proof (filter_length_le (fun y => negb (eqk a y)) (dedup eqk t)) as H1.
    pose proof (dedup_length_le t) as H2.
    assert (length (dedup eqk t) = length t) by lia.
    assert (Ht := IH H0). constructor; auto.
    rewrite (dedup_id t Ht) in H.
    clear - H. rewrite Forall_forall. intros x Hx.
    destruct (eqk a x) eqn:E; auto. exfalso.
    assert (forall l, In x l -> (length (filter (fun y => negb (eqk a y)) l) < length l)%nat).
    { intros l. induction l as [|b l IHl]; simpl; [tauto|]. intros [->|Hin].
      - rewrite E. simpl. pose proof (filter_length_le (fun y => negb (eqk a y)) l). lia.
      - specialize (IHl Hin). destruct (negb (eqk a b)); simpl; lia. }
    specialize (H0 t Hx). lia.
  Qed.
End DedupP.

Lemma in_triu n i j : In (i, j) (triu n) <-> (i <= j < n)%nat.
Proof.
  unfold triu. rewrite in_flat_map. split.
  - intros (k & Hk & H). apply in_seq in Hk. apply in_map_iff in H.
    destruct H as (x & E & Hx). inversion E; subst. apply in_seq in Hx. lia.
  - intros H. exists i. split; [apply in_seq; lia|]. apply in_map_iff.
    exists j. split; auto. apply in_seq. lia.
Qed.

Lemma roll_length {A} (l : list A) : length (roll l) = length l.
Proof. destruct l; simpl; auto. rewrite app_length; simpl; lia. Qed.
Lemma roll_perm {A} (l : list A) : Permutation (roll l) l.
Proof. destruct l; simpl; auto. symmetry. apply Permutation_cons_append. Qed.

Lemma enum_length {A} (l : list A) : length (enum l) = length l.
Proof. unfold enum. rewrite combine_length, map_length, seq_length. lia. Qed.
Lemma enum_fst {A} (l : list A) : map fst (enum l) = arange (length l).
Proof.
  unfold enum, arange. generalize 0%nat. induction l as [|x t IH]; intros k; simpl; auto.
  f_equal. apply IH.
Qed.
Lemma enum_snd {A} (l : list A) : map snd (enum l) = l.
Proof.
  unfold enum. generalize 0%nat. induction l as [|x t IH]; intros k; simpl; auto.
  f_equal. apply IH.
Qed.
Lemma enum_nth_error {A} (l : list A) i :
  nth_error (enum l) i = option_map (fun x => (Z.of_nat i, x)) (nth_error l i).
Proof.
  unfold enum.
  enough (H : forall k, nth_error (combine (map Z.of_nat (seq k (length l))) l) i
     = option_map (fun x => (Z.of_nat (k + i), x)) (nth_error l i)) by apply H.
  revert i. induction l as [|x t IH]; intros i k; destruct i; simpl; auto.
  - now rewrite Nat.add_0_r.
  - rewrite IH. now rewrite Nat.add_succ_comm.
Qed.

Lemma arange_length n : length (arange n) = n.
Proof. unfold arange. now rewrite map_length, seq_length. Qed.

Lemma eqlZ_eq a b : eqlZ a b = true <-> a = b.
Proof.
  revert b; induction a as [|x a IH]; destruct b as [|y b]; simpl; split; intro H;
    try discriminate; auto.
  - apply andb_true_iff in H. destruct H as [H1 H2].
    apply Z.eqb_eq in H1. apply IH in H2. congruence.
  - inversion H; subst. rewrite Z.eqb_refl. simpl. now apply IH.
Qed.

Lemma arange_sorted n : StronglySorted (fun a b => Z.leb a b = true) (arange n).
Proof.
  unfold arange. generalize 0%nat. induction n; intros k; simpl; constructor; auto.
  rewrite Forall_forall. intros x Hx. apply in_map_iff in Hx. destruct Hx as (m & <- & Hm).
  apply in_seq in Hm. apply Z.leb_le. lia.
Qed.
Lemma arange_strict n : StronglySorted (fun a b => (a < b)%Z) (arange n).
Proof.
  unfold arange. generalize 0%nat. induction n; intros k; simpl; constructor; auto.
  rewrite Forall_forall. intros x Hx. apply in_map_iff in Hx. destruct Hx as (m & <- & Hm).
  apply in_seq in Hm. lia.
Qed.

Lemma StronglySorted_impl {A} (R S : A -> A -> Prop) l :
  (forall x y, In x l -> In y l -> R x y -> S x y) -> StronglySorted R l -> StronglySorted S l.
Proof.
  intros H Hs. induction Hs as [|a l Hs IH F]; constructor.
  - apply IH. intros; apply H; simpl; auto.
  - rewrite Forall_forall in *. intros x Hx. apply H; simpl; auto.
Qed.

Lemma Zleb_total x y : Z.leb x y = true \/ Z.leb y x = true.
Proof. rewrite !Z.leb_le. lia. Qed.
Lemma Zleb_trans x y z : Z.leb x y = true -> Z.leb y z = true -> Z.leb x z = true.
Proof. rewrite !Z.leb_le. lia. Qed.

Lemma uniqueZ_in x l : In x (uniqueZ l) <-> In x l.
Proof.
  unfold uniqueZ. split; intro H.
  - apply dedup_incl in H. now apply isort_in in H.
  - apply (isort_in Z.leb) in H.
    destruct (dedup_complete Z.eqb Z.eqb_refl
       (fun a b c Hab Hbc => proj2 (Z.eqb_eq a c)
          (eq_trans (proj1 (Z.eqb_eq a b) Hab) (proj1 (Z.eqb_eq b c) Hbc))) _ _ H)
      as (y & Hy & E). apply Z.eqb_eq in E. now subst.
Qed.
Lemma uniqueZ_strict l : StronglySorted (fun a b => (a < b)%Z) (uniqueZ l).
Proof.
  unfold uniqueZ.
  pose proof (dedup_nodup Z.eqb (isort Z.leb l)) as H1.
  pose proof (dedup_sorted Z.eqb _ _ (isort_sorted Z.leb Zleb_total Zleb_trans l)) as H2.
  apply StronglySorted_nth. rewrite StronglySorted_nth in H1, H2.
  intros i j x y Hij Hi Hj. specialize (H1 _ _ _ _ Hij Hi Hj). specialize (H2 _ _ _ _ Hij Hi Hj).
  cbv beta in *. apply Z.eqb_neq in H1. apply Z.leb_le in H2. lia.
Qed.
(** a strictly increasing integer list is determined by its elements *)
Lemma strict_ext l1 l2 :
  StronglySorted (fun a b => (a < b)%Z) l1 -> StronglySorted (fun a b => (a < b)%Z) l2 ->
  (forall x, In x l1 <-> In x l2) -> l1 = l2.
Proof.
  intros H1; revert l2. induction H1 as [|a l1 H1 IH F1]; intros l2 H2 He.
  - destruct l2 as [|b l2]; auto. destruct (proj2 (He b)); simpl; auto.
  - destruct H2 as [|b l2 H2 F2]. { destruct (proj1 (He a)); simpl; auto. }
    rewrite Forall_forall in F1, F2.
    assert (a = b).
    { destruct (proj1 (He a)) as [|Ha]; simpl; auto.
      destruct (proj2 (He b)) as [|Hb]; simpl; auto.
      specialize (F1 _ Hb). specialize (F2 _ Ha). lia. }
    subst b. f_equal. apply IH; auto. intros x. split; intro Hx.
    + destruct (proj1 (He x)) as [->|]; simpl; auto. specialize (F1 _ Hx). lia.
    + destruct (proj2 (He x)) as [->|]; simpl; auto. specialize (F2 _ Hx). lia.
Qed.
Lemma uniqueZ_arange n : uniqueZ (arange n) = arange n.
Proof.
  apply strict_ext; [apply uniqueZ_strict | apply arange_strict | intro; apply uniqueZ_in].
Qed.

Lemma nth_error_ext {A} (l1 l2 : list A) :
  (forall k, nth_error l1 k = nth_error l2 k) -> l1 = l2.
Proof.
  revert l2. induction l1 as [|a l1 IH]; intros [|b l2] H; auto.
  - specialize (H 0%nat). discriminate.
  - specialize (H 0%nat). discriminate.
  - pose proof (H 0%nat) as H0. simpl in H0. inversion H0; subst. f_equal.
    apply IH. intros k. apply (H (S k)).
Qed.
