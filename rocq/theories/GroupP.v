(** Group-wise operations on a table sorted by its key. *)
From Verif Require Import ListX ListP.
Open Scope Z_scope.

Section Group.
  Context {A B : Type} (key : A -> Z).
  Let eqk k (a : A) := Z.eqb (key a) k.
  Let ltk k (a : A) := Z.ltb (key a) k.
  Let gtk k (a : A) := Z.ltb k (key a).

  Definition key_sorted (l : list A) : Prop :=
    StronglySorted (fun a b => key a <= key b) l.

  Lemma key_sorted_filter p l : key_sorted l -> key_sorted (filter p l).
  Proof using. apply filter_sorted. Qed.

  (** a sorted table is: rows below k, rows at k, rows above k *)
  Lemma sorted_split k l : key_sorted l ->
    l = filter (ltk k) l ++ filter (eqk k) l ++ filter (gtk k) l.
  Proof using.
    unfold ltk, eqk, gtk.
    induction 1 as [|a l H IH F]; simpl; auto.
    rewrite Forall_forall in F.
    destruct (Z.ltb_spec (key a) k) as [L|L].
    - simpl. rewrite (proj2 (Z.eqb_neq _ _)) by lia. rewrite (proj2 (Z.ltb_ge _ _)) by lia.
      f_equal. exact IH.
    - assert (E1 : filter (fun x => key x <? k) l = []).
      { clear IH H. induction l as [|b l IHl]; simpl; auto.
        rewrite (proj2 (Z.ltb_ge _ _)).
        - apply IHl. intros; apply F; simpl; auto.
        - specialize (F b (or_introl eq_refl)). lia. }
      rewrite E1 in *. simpl in *.
      destruct (Z.eqb_spec (key a) k) as [E|E].
      + rewrite (proj2 (Z.ltb_ge _ _)) by lia. simpl. f_equal. exact IH.
      + assert (E2 : filter (fun x => key x =? k) l = []).
        { clear IH H E1. induction l as [|b l IHl]; simpl; auto.
          rewrite (proj2 (Z.eqb_neq _ _)).
          - apply IHl. intros; apply F; simpl; auto.
          - specialize (F b (or_introl eq_refl)). lia. }
        rewrite E2 in *. simpl in *. rewrite (proj2 (Z.ltb_lt _ _)) by lia.
        f_equal. exact IH.
  Qed.

  Lemma flat_map_ext_in {X Y} (f g : X -> list Y) l :
    (forall x, In x l -> f x = g x) -> flat_map f l = flat_map g l.
  Proof using.
    induction l; simpl; auto. intros H. rewrite H, IHl; auto.
  Qed.

  Lemma filter_none {X} (p : X -> bool) l : (forall x, In x l -> p x = false) -> filter p l = [].
  Proof using.
    induction l as [|a l IH]; simpl; auto. intros H. rewrite H by auto. auto.
  Qed.
  Lemma filter_all {X} (p : X -> bool) l : (forall x, In x l -> p x = true) -> filter p l = l.
  Proof using.
    induction l as [|a l IH]; simpl; auto. intros H. rewrite H by auto. f_equal; auto.
  Qed.

  Lemma strict_app (l1 l2 : list Z) :
    StronglySorted Z.lt l1 -> StronglySorted Z.lt l2 ->
    (forall a b, In a l1 -> In b l2 -> a < b) -> StronglySorted Z.lt (l1 ++ l2).
  Proof using.
    induction 1 as [|a l1 H IH F]; simpl; auto. intros H2 Hab. constructor.
    - apply IH; auto.
    - rewrite Forall_forall in *. intros x Hx. apply in_app_or in Hx. destruct Hx; auto.
  Qed.

  (** group-wise results of two key ranges are concatenated *)
  Lemma groupcat_app (f : list A -> list B) l1 l2 :
    (forall a b, In a l1 -> In b l2 -> key a < key b) ->
    groupcat key f (l1 ++ l2) = groupcat key f l1 ++ groupcat key f l2.
  Proof using.
    intros H. unfold groupcat.
    assert (E : uniqueZ (map key (l1 ++ l2)) = uniqueZ (map key l1) ++ uniqueZ (map key l2)).
    { apply strict_ext.
      - apply uniqueZ_strict.
      - apply strict_app; try apply uniqueZ_strict.
        intros a b Ha Hb. rewrite (uniqueZ_in a (map key l1)) in Ha. rewrite (uniqueZ_in b (map key l2)) in Hb.
        apply in_map_iff in Ha. apply in_map_iff in Hb.
        destruct Ha as (x & <- & Hx). destruct Hb as (y & <- & Hy). auto.
      - intros x. rewrite in_app_iff, !uniqueZ_in, map_app, in_app_iff. tauto. }
    rewrite E, flat_map_app. f_equal; apply flat_map_ext_in; intros k Hk;
      apply (proj1 (uniqueZ_in k _)) in Hk; apply in_map_iff in Hk; destruct Hk as (x & <- & Hx);
      rewrite filter_app.
    - rewrite (filter_none _ l2); [now rewrite app_nil_r|].
      intros y Hy. apply Z.eqb_neq. specialize (H x y Hx Hy). lia.
    - rewrite (filter_none _ l1); auto.
      intros y Hy. apply Z.eqb_neq. specialize (H y x Hy Hx). lia.
  Qed.

  Lemma groupcat_one (f : list A -> list B) k l :
    l <> [] -> (forall a, In a l -> key a = k) -> groupcat key f l = f l.
  Proof using.
    intros Hn H. unfold groupcat.
    assert (E : uniqueZ (map key l) = [k]).
    { apply strict_ext; [apply uniqueZ_strict | repeat constructor|].
      intros x. rewrite uniqueZ_in, in_map_iff. split.
      - intros (a & <- & Ha). left. symmetry. auto.
      - intros [<-|[]]. destruct l as [|a l]; [congruence|]. exists a; simpl; split; auto.
        apply H; simpl; auto. }
    rewrite E. simpl. rewrite app_nil_r. f_equal. apply filter_all.
    intros a Ha. apply Z.eqb_eq; auto.
  Qed.

  Lemma groupcat_split (f : list A -> list B) k l :
    key_sorted l -> In k (map key l) ->
    groupcat key f l = groupcat key f (filter (ltk k) l) ++ f (filter (eqk k) l)
                       ++ groupcat key f (filter (gtk k) l).
  Proof using.
    intros Hs Hk. rewrite (sorted_split k l Hs) at 1.
    rewrite groupcat_app.
    - rewrite groupcat_app.
      + rewrite (groupcat_one f k (filter (eqk k) l)); auto.
        * intro E. apply in_map_iff in Hk. destruct Hk as (a & E1 & Ha).
          assert (In a (filter (eqk k) l)) by (apply filter_In; split; auto; apply Z.eqb_eq; auto).
          rewrite E in H. destruct H.
        * intros a Ha. apply filter_In in Ha. apply Z.eqb_eq; tauto.
      + intros a b Ha Hb. apply filter_In in Ha. apply filter_In in Hb.
        unfold eqk, gtk in *. rewrite Z.eqb_eq in Ha. rewrite Z.ltb_lt in Hb. lia.
    - intros a b Ha Hb. apply filter_In in Ha. apply in_app_or in Hb.
      unfold ltk in Ha. rewrite Z.ltb_lt in Ha.
      destruct Hb as [Hb|Hb]; apply filter_In in Hb; unfold eqk, gtk in Hb;
        rewrite ?Z.eqb_eq, ?Z.ltb_lt in Hb; lia.
  Qed.

  Lemma groupcat_length (f : list A -> list B) l :
    (forall g, length (f g) = length g) -> key_sorted l ->
    length (groupcat key f l) = length l.
  Proof using.
    intros Hf. remember (length l) as n eqn:En. revert l En.
    induction n as [n IH] using lt_wf_ind. intros l -> Hs.
    destruct l as [|a l]; [reflexivity|].
    set (k := key a). set (l0 := a :: l) in *.
    assert (Hk : In k (map key l0)) by (left; reflexivity).
    rewrite (groupcat_split f k l0 Hs Hk).
    rewrite (sorted_split k l0 Hs) at 4.
    rewrite !app_length, Hf.
    assert (Hlt : forall p, p a = false -> (length (filter p l0) < length l0)%nat).
    { intros p Hp. unfold l0. simpl. rewrite Hp.
      pose proof (filter_length_le p l). lia. }
    rewrite (IH (length (filter (ltk k) l0))); auto.
    - rewrite (IH (length (filter (gtk k) l0))); auto.
      + apply Hlt. apply Z.ltb_irrefl.
      + now apply key_sorted_filter.
    - apply Hlt. apply Z.ltb_irrefl.
    - now apply key_sorted_filter.
  Qed.

  Definition before (k : Z) (l : list A) : nat := length (filter (ltk k) l).
  Definition count (k : Z) (l : list A) : nat := length (filter (eqk k) l).

  (** entry of the group-wise result at the [off]-th row of group [k] *)
  Lemma groupcat_nth (f : list A -> list B) k l off :
    (forall g, length (f g) = length g) -> key_sorted l ->
    (off < count k l)%nat ->
    nth_error (groupcat key f l) (before k l + off) = nth_error (f (filter (eqk k) l)) off.
  Proof using.
    intros Hf Hs Ho. unfold before, count in *.
    assert (Hk : In k (map key l)).
    { destruct (filter (eqk k) l) as [|a g] eqn:E; [simpl in Ho; lia|].
      assert (Ha : In a (filter (eqk k) l)) by (rewrite E; simpl; auto).
      apply filter_In in Ha. apply in_map_iff. exists a. split; [apply Z.eqb_eq|]; tauto. }
    rewrite (groupcat_split f k l Hs Hk).
    assert (Hl1 : length (groupcat key f (filter (ltk k) l)) = length (filter (ltk k) l))
      by (apply groupcat_length; auto; now apply key_sorted_filter).
    rewrite nth_error_app2 by (rewrite Hl1; lia).
    rewrite Hl1. replace (_ + off - _)%nat with off by lia.
    rewrite nth_error_app1 by (rewrite Hf; lia). reflexivity.
  Qed.
  Lemma sorted_nth k l off :
    key_sorted l -> (off < count k l)%nat ->
    nth_error l (before k l + off) = nth_error (filter (eqk k) l) off.
  Proof using.
    intros Hs Ho. unfold before, count in *. rewrite (sorted_split k l Hs) at 1.
    rewrite nth_error_app2 by lia. replace (_ + off - _)%nat with off by lia.
    rewrite nth_error_app1 by lia. reflexivity.
  Qed.
  (** rows of key [k] occupy the positions before k .. before k + count k - 1 *)
  Lemma sorted_pos l i a :
    key_sorted l -> nth_error l i = Some a ->
    (before (key a) l <= i < before (key a) l + count (key a) l)%nat.
  Proof using.
    intros Hs Hi. unfold before, count. set (k := key a) in *.
    rewrite (sorted_split k l Hs) in Hi.
    destruct (Nat.lt_ge_cases i (length (filter (ltk k) l))) as [H|H].
    - rewrite nth_error_app1 in Hi by auto. apply nth_error_In in Hi. apply filter_In in Hi.
      unfold ltk in Hi. rewrite Z.ltb_lt in Hi. lia.
    - rewrite nth_error_app2 in Hi by auto.
      destruct (Nat.lt_ge_cases (i - length (filter (ltk k) l)) (length (filter (eqk k) l))) as [H1|H1];
        [lia|].
      rewrite nth_error_app2 in Hi by auto. apply nth_error_In in Hi. apply filter_In in Hi.
      unfold gtk in Hi. rewrite Z.ltb_lt in Hi. lia.
  Qed.
  Lemma pos_key l k i a :
    key_sorted l -> nth_error l i = Some a ->
    (before k l <= i < before k l + count k l)%nat -> key a = k.
  Proof using.
    intros Hs Hi H. replace i with (before k l + (i - before k l))%nat in Hi by lia.
    rewrite sorted_nth in Hi by (auto; lia). apply nth_error_In in Hi.
    apply filter_In in Hi. apply Z.eqb_eq. tauto.
  Qed.
End Group.

Lemma roll_nth {A} (l : list A) i :
  (i < length l)%nat ->
  nth_error (roll l) i = if Nat.eqb (i + 1) (length l) then nth_error l 0 else nth_error l (i + 1).
Proof.
  destruct l as [|x t]; simpl; [lia|]. intros H.
  destruct (Nat.eqb_spec (i + 1) (S (length t))) as [E|E].
  - rewrite nth_error_app2 by lia. replace (i - length t)%nat with 0%nat by lia. reflexivity.
  - rewrite nth_error_app1 by lia. replace (i + 1)%nat with (S i) by lia. reflexivity.
Qed.
