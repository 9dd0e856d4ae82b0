(** The three [check] methods against their specifications. *)
From Coq Require Import String.
From Verif Require Import Num NumP ListX ListP Frames MatM NetM MeshM Spec.
Open Scope Q_scope.

(** ** Generic reflection *)
Lemma has_cols_iff req cols : has_cols req cols = true <-> columns_present req cols.
Proof.
  unfold has_cols, columns_present. rewrite forallb_forall. split; intros H c Hc.
  - specialize (H c Hc). apply existsb_exists in H. destruct H as (x & Hx & E).
    apply String.eqb_eq in E. now subst.
  - apply existsb_exists. exists c. split; auto. apply String.eqb_refl.
Qed.

Lemma arange_nth n i : (i < n)%nat -> nth_error (arange n) i = Some (Z.of_nat i).
Proof.
  intro H. unfold arange. rewrite nth_error_map.
  rewrite (nth_error_nth' _ 0%nat) by (rewrite seq_length; auto).
  rewrite seq_nth by auto. reflexivity.
Qed.

Lemma labels_arange {A} (rows : list (Z * A)) :
  map fst rows = arange (length rows) <-> labelled_in_order rows.
Proof.
  split.
  - intros H k lab a Hk.
    assert (Hl : (k < length rows)%nat) by (apply nth_error_Some; congruence).
    apply (map_nth_error fst) in Hk. rewrite H in Hk. rewrite arange_nth in Hk by auto.
    simpl in Hk. congruence.
  - intros H. apply nth_error_ext. intros k.
    destruct (Nat.lt_ge_cases k (length rows)) as [Hk|Hk].
    + rewrite arange_nth by auto. rewrite nth_error_map.
      destruct (nth_error rows k) as [[lab a]|] eqn:E.
      * simpl. f_equal. eapply H; eauto.
      * apply nth_error_None in E. lia.
    + rewrite (proj2 (nth_error_None _ _)) by (rewrite map_length; auto).
      symmetry. apply nth_error_None. rewrite arange_length. auto.
Qed.

Lemma forallb_every {A} (p : A -> bool) (P : A -> Prop) (rows : list (Z * A)) :
  (forall a, p a = true <-> P a) ->
  (forallb p (map snd rows) = true <-> every P rows).
Proof.
  intros HP. rewrite forallb_forall. unfold every. split.
  - intros H lab a Hin. apply HP, H. apply in_map_iff. exists (lab, a); auto.
  - intros H a Hin. apply in_map_iff in Hin. destruct Hin as ((lab, a') & <- & Hin).
    apply HP. eapply H; eauto.
Qed.

Lemma nltb_positive x : nltb (Fin 0) x = true <-> positive x.
Proof. destruct x; simpl; try (split; [congruence|tauto]); try tauto. apply Qltb_lt. Qed.

Lemma unique_length l : length (uniqueZ l) = length l <-> NoDup l.
Proof.
  unfold uniqueZ. split.
  - intros H. rewrite <- (isort_length Z.leb l) in H.
    apply dedup_length_eq in H.
    assert (Hn : NoDup (isort Z.leb l)).
    { clear - H. induction H as [|a l' H IH F]; constructor; auto.
      intro Hin. rewrite Forall_forall in F. specialize (F _ Hin).
      rewrite Z.eqb_refl in F. discriminate. }
    eapply Permutation_NoDup; [apply isort_perm | exact Hn].
  - intros H. rewrite <- (isort_length Z.leb l). f_equal. apply dedup_id.
    assert (Hn : NoDup (isort Z.leb l)).
    { eapply Permutation_NoDup; [symmetry; apply isort_perm | exact H]. }
    clear - Hn. induction Hn as [|a l' Hn H IH]; constructor; auto.
    rewrite Forall_forall. intros x Hx. apply Z.eqb_neq. intros ->. contradiction.
Qed.

Lemma NoDup_arange n : NoDup (arange n).
Proof.
  unfold arange. apply FinFun.Injective_map_NoDup; [|apply seq_NoDup].
  intros a b. apply Nat2Z.inj.
Qed.

Lemma unique_test_bad {A} (rows : list (Z * A)) :
  labels_broadcast_fail rows -> unique_test (map fst rows) = Exn BroadcastErr.
Proof.
  intros (Hn & a & b & Ha & Hb & Hab). unfold unique_test.
  rewrite <- unique_length in Hn.
  destruct (Nat.eqb _ _) eqn:E; [apply Nat.eqb_eq in E; contradiction|].
  destruct (uniqueZ (map fst rows)) as [|x [|y l]] eqn:E2; auto.
  exfalso. apply uniqueZ_in in Ha, Hb. rewrite E2 in Ha, Hb.
  destruct Ha as [|[]]; destruct Hb as [|[]]; congruence.
Qed.
Lemma unique_test_good {A} (rows : list (Z * A)) :
  ~ labels_broadcast_fail rows ->
  exists b, unique_test (map fst rows) = Ok b /\ (map fst rows = arange (length rows) -> b = true).
Proof.
  intros H. unfold unique_test.
  destruct (Nat.eqb _ _) eqn:E.
  - eexists; split; eauto. intros Hr. rewrite Hr, uniqueZ_arange, arange_length.
    now apply eqlZ_eq.
  - destruct (uniqueZ (map fst rows)) as [|x [|y l]] eqn:E2.
    + exfalso. destruct (map fst rows) as [|a l] eqn:Er; [discriminate|].
      assert (Ha : In a (uniqueZ (a :: l))) by (apply uniqueZ_in; simpl; auto).
      rewrite E2 in Ha. destruct Ha.
    + eexists; split; eauto. intros Hr. exfalso. rewrite Hr in E, E2.
      rewrite uniqueZ_arange in E2. rewrite E2 in E. discriminate.
    + exfalso. apply H. split.
      * rewrite <- unique_length. rewrite E2. apply Nat.eqb_neq in E. auto.
      * exists x, y. rewrite <- (uniqueZ_in x), <- (uniqueZ_in y), E2. simpl. repeat split; auto.
        pose proof (uniqueZ_strict (map fst rows)) as Hs. rewrite E2 in Hs.
        inversion Hs as [|? ? ? F]; subst. inversion F; subst. lia.
Qed.
Lemma unique_test_exn {A} (rows : list (Z * A)) e :
  unique_test (map fst rows) = Exn e -> labels_broadcast_fail rows /\ e = BroadcastErr.
Proof.
  intros Eu.
  assert (HB : labels_broadcast_fail rows).
  { unfold unique_test in Eu.
    destruct (Nat.eqb _ _) eqn:E1; [discriminate|].
    split.
    - rewrite <- unique_length. apply Nat.eqb_neq in E1. exact E1.
    - destruct (uniqueZ (map fst rows)) as [|x [|y l]] eqn:E2; [|discriminate|].
      + destruct (map fst rows) as [|a l] eqn:Er; [discriminate|].
        assert (Ha : In a (uniqueZ (a :: l))) by (apply uniqueZ_in; simpl; auto).
        rewrite E2 in Ha. destruct Ha.
      + exists x, y. rewrite <- (uniqueZ_in x), <- (uniqueZ_in y), E2. simpl.
        repeat split; auto.
        pose proof (uniqueZ_strict (map fst rows)) as Hs. rewrite E2 in Hs.
        inversion Hs as [|? ? ? F]; subst. inversion F; subst. lia. }
  split; auto. rewrite (unique_test_bad _ HB) in Eu. congruence.
Qed.
Lemma in_order_no_fail {A} (rows : list (Z * A)) :
  labelled_in_order rows -> ~ labels_broadcast_fail rows.
Proof.
  intros H (Hn & _). apply Hn. apply labels_arange in H. rewrite H. apply NoDup_arange.
Qed.

Lemma skipped_iff a : skipped a = true <-> flag_set a.
Proof. unfold skipped, flag_set. destruct (at_skip a) as [[]|]; split; congruence. Qed.
Lemma is_some_iff {A} (o : option A) : is_some o = true <-> o <> None.
Proof. destruct o; simpl; split; congruence. Qed.

(** ** Mat.check *)
Lemma dims_pos_iff f : dims_pos f = true <-> dims_ok f.
Proof. unfold dims_pos, dims_ok. rewrite !andb_true_iff, !nltb_positive. tauto. Qed.
Lemma moduli_pos_iff f : moduli_pos f = true <-> moduli_ok f.
Proof. unfold moduli_pos, moduli_ok. rewrite !andb_true_iff, !nltb_positive. tauto. Qed.

Lemma unit_norm_iff f : unit_norm f = true <-> near_unit (fu f) (fv f) (fw f).
Proof.
  unfold unit_norm, near_unit. split.
  - destruct (fu f) as [a| | |], (fv f) as [b| | |], (fw f) as [c| | |]; simpl; try discriminate.
    rewrite andb_true_iff. intros (H1 & H2). qb. exists a, b, c. repeat split; auto;
      unfold sq, close_tol in *; lra.
  - intros (a & b & c & -> & -> & -> & H1 & H2). simpl.
    rewrite andb_true_iff. split; qb; unfold sq, close_tol; lra.
Qed.

Lemma in_box_iff size f : in_box size f = true <-> inside_box size (fx f) (fy f).
Proof.
  unfold in_box, inside_box. destruct size as [s| | |]; simpl.
  - split.
    + destruct (fx f) as [a| | |], (fy f) as [b| | |]; simpl;
        try (rewrite ?andb_false_r, ?andb_false_l; discriminate).
      unfold nleb; simpl. rewrite !andb_true_iff, !orb_true_iff.
      intros ((H1 & H2) & (H3 & H4)). exists a, b.
      repeat split; auto.
      * destruct H1 as [H1|H1]; qb; qlra.
      * destruct H2 as [H2|H2]; qb; qlra.
      * destruct H3 as [H3|H3]; qb; qlra.
      * destruct H4 as [H4|H4]; qb; qlra.
    + intros (a & b & -> & -> & Ha & Hb). unfold nleb; simpl.
      rewrite !andb_true_iff, !orb_true_iff.
      assert (E : forall x y, x <= y -> Qltb x y = true \/ Qeqb x y = true).
      { intros x y Hxy. destruct (Qltb x y) eqn:E; auto. right. qb. lra. }
      repeat split; apply E; qlra.
  - unfold nleb. destruct (fx f), (fy f); simpl; split;
      try discriminate; try tauto; try (intros [? ?]; congruence); intros _; split; discriminate.
  - unfold nleb. destruct (fx f), (fy f); simpl; split; try discriminate; tauto.
  - unfold nleb. destruct (fx f), (fy f); simpl; split; try discriminate; tauto.
Qed.

Section Mat.
  Variable m : mat_df.

  Lemma label_test_iff :
    negb (Nat.eqb (length (uniqueZ (m_index m))) (length (m_rows m)))
     || negb (eqlZ (uniqueZ (m_index m)) (arange (length (m_rows m)))) = true ->
    ~ labelled_in_order (m_rows m).
  Proof using.
    intros H Hl. apply labels_arange in Hl. unfold m_index in H. rewrite Hl in H.
    rewrite uniqueZ_arange, arange_length, Nat.eqb_refl in H. simpl in H.
    rewrite (proj2 (eqlZ_eq _ _) eq_refl) in H. discriminate.
  Qed.

  Lemma mat_check_raises e : mat_check m = Exn e <-> ~ flag_set (m_attrs m) /\ mat_fails m e.
  Proof using.
    rewrite <- skipped_iff. unfold mat_check, raise_if.
    destruct (skipped (m_attrs m)). { split; [discriminate | intros [H _]; congruence]. }
    assert (Hns : ~ false = true) by discriminate.
    pose proof (has_cols_iff mat_columns (m_cols m)) as Hc.
    destruct (has_cols mat_columns (m_cols m)); simpl.
    2:{ assert (~ columns_present mat_cols (m_cols m)) by (intro; apply Hns, Hc; auto).
        split.
        - intros E; inversion E; subst. split; auto. now constructor.
        - intros [_ F]. destruct F; try contradiction; reflexivity. }
    assert (Hp : columns_present mat_cols (m_cols m)) by (apply Hc; auto). clear Hc.
    destruct (at_n (m_attrs m)) as [n|] eqn:En.
    2:{ split.
        - intros E; inversion E; subst. split; auto. apply MF_attr; auto.
        - intros [_ F]. destruct F; try contradiction; try congruence. }
    destruct (at_size (m_attrs m)) as [size|] eqn:Es.
    2:{ split.
        - intros E; inversion E; subst. split; auto. apply MF_attr; auto.
        - intros [_ F]. destruct F; try contradiction; try congruence. }
    destruct (Z.eqb_spec (Z.of_nat (length (m_rows m))) n) as [Hn|Hn]; simpl.
    2:{ split.
        - intros E; inversion E; subst. split; auto. eapply MF_n; eauto.
        - intros [_ F]. destruct F as [|? [|]| | |]; try contradiction; try congruence. }
    subst n.
    destruct (negb _ || negb _) eqn:E1.
    { apply label_test_iff in E1. split.
      - intros E; inversion E; subst. split; auto. eapply MF_label; eauto.
      - intros [_ F]. destruct F as [|? [|]| | |]; try contradiction; try congruence. }
    clear E1. unfold m_index.
    pose proof (eqlZ_eq (map fst (m_rows m)) (arange (length (m_rows m)))) as Hl.
    destruct (eqlZ _ _); simpl.
    2:{ assert (~ labelled_in_order (m_rows m))
          by (rewrite <- labels_arange; intro; apply Hns, Hl; auto).
        split.
        - intros E; inversion E; subst. split; auto. eapply MF_label; eauto.
        - intros [_ F]. destruct F as [|? [|]| | |]; try contradiction; try congruence. }
    assert (Hlab : labelled_in_order (m_rows m)) by (apply labels_arange, Hl; auto). clear Hl.
    pose proof (forallb_every dims_pos dims_ok (m_rows m) dims_pos_iff) as H1.
    pose proof (forallb_every _ _ (m_rows m) (in_box_iff size)) as H2.
    pose proof (forallb_every _ _ (m_rows m) unit_norm_iff) as H3.
    pose proof (forallb_every _ _ (m_rows m) moduli_pos_iff) as H4.
    assert (HV : (~ every dims_ok (m_rows m)
       \/ ~ every (fun f => inside_box size (fx f) (fy f)) (m_rows m)
       \/ ~ every (fun f => near_unit (fu f) (fv f) (fw f)) (m_rows m)
       \/ ~ every moduli_ok (m_rows m)) ->
       (Exn ValueErr = @Exn bool e <-> ~ false = true /\ mat_fails m e)).
    { intros HV. split.
      - intros E; inversion E; subst. split; auto. eapply MF_value; eauto.
      - intros [_ F]. destruct F as [|? [|]| | |]; try contradiction; try congruence. }
    destruct (forallb dims_pos _); simpl.
    2:{ refine (HV _). left. intro C. apply Hns, H1, C. }
    destruct (forallb (in_box size) _); simpl.
    2:{ refine (HV _). right; left. intro C. apply Hns, H2, C. }
    destruct (forallb unit_norm _); simpl.
    2:{ refine (HV _). right; right; left. intro C. apply Hns, H3, C. }
    destruct (forallb moduli_pos _); simpl.
    2:{ refine (HV _). right; right; right. intro C. apply Hns, H4, C. }
    split; [discriminate|]. intros [_ F]. exfalso.
    destruct F as [|? [|]|n' s' ? ? ? ?| |s' ? ? Es' ? V]; try contradiction; try congruence.
    assert (s' = size) by congruence. subst s'.
    destruct V as [V|[V|[V|V]]]; apply V; [apply H1|apply H2|apply H3|apply H4]; reflexivity.
  Qed.

  Lemma mat_check_true b : mat_check m = Ok b -> b = true.
  Proof using.
    unfold mat_check, raise_if. destruct (skipped _); [congruence|].
    destruct (negb _); [discriminate|].
    destruct (at_n _); [|discriminate]. destruct (at_size _); [|discriminate].
    repeat match goal with |- context[if ?c then Exn _ else _] => destruct c; [discriminate|] end.
    congruence.
  Qed.

  Lemma mat_check_ok : mat_check m = Ok true <-> flag_set (m_attrs m) \/ mat_ok m.
  Proof using.
    destruct (mat_check m) as [b|e] eqn:E.
    - pose proof (mat_check_true _ E). subst b. split; auto. intros _.
      destruct (skipped (m_attrs m)) eqn:Sk; [left; now apply skipped_iff|right].
      unfold mat_check, raise_if in E. rewrite Sk in E.
      destruct (has_cols mat_columns (m_cols m)) eqn:Ec; [|discriminate]. simpl in E.
      apply has_cols_iff in Ec.
      destruct (at_n (m_attrs m)) as [n|] eqn:En; [|discriminate].
      destruct (at_size (m_attrs m)) as [size|] eqn:Es; [|discriminate].
      destruct (Z.eqb_spec (Z.of_nat (length (m_rows m))) n) as [Hn|Hn]; [|discriminate].
      subst n. simpl in E.
      destruct (negb _ || negb _); [discriminate|].
      destruct (eqlZ (m_index m) _) eqn:E1; [|discriminate]. simpl in E.
      destruct (forallb dims_pos _) eqn:E2; [|discriminate]. simpl in E.
      destruct (forallb (in_box size) _) eqn:E3; [|discriminate]. simpl in E.
      destruct (forallb unit_norm _) eqn:E4; [|discriminate]. simpl in E.
      destruct (forallb moduli_pos _) eqn:E5; [|discriminate]. clear E.
      split; auto. exists size.
      split; [exact En|]. split; [exact Es|].
      split; [apply labels_arange; now apply eqlZ_eq|].
      split; [now apply (forallb_every _ _ _ dims_pos_iff)|].
      split; [now apply (forallb_every _ _ _ (in_box_iff size))|].
      split; [now apply (forallb_every _ _ _ unit_norm_iff)|].
      now apply (forallb_every _ _ _ moduli_pos_iff).
    - split; [discriminate|]. intros H. apply mat_check_raises in E. destruct E as [Ef F].
      exfalso. destruct H as [H|H]; [contradiction|].
      destruct H as (Hc & size & Hn & Hs & Hl & H1 & H2 & H3 & H4).
      destruct F as [|? [|]|n' s' ? ? ? ?| |s' ? ? Es' ? V]; try contradiction; try congruence.
      assert (s' = size) by congruence. subst s'. tauto.
  Qed.
End Mat.

(** ** Net.check *)
Lemma conn_dup_iff c d : conn_dup c d = true <-> same_conn c d.
Proof.
  unfold conn_dup, same_conn. rewrite !andb_true_iff, !Z.eqb_eq, !Qeqb_eq. tauto.
Qed.
Lemma no_repeat_iff (rows : list (Z * conn)) :
  Nat.eqb (length (map snd rows)) (length (dedup conn_dup (map snd rows))) = true <-> no_repeat rows.
Proof.
  rewrite Nat.eqb_eq. split.
  - intros H i j li lj c d Hij Hi Hj Hs. symmetry in H. apply dedup_length_eq in H.
    rewrite StronglySorted_nth in H.
    apply conn_dup_iff in Hs.
    rewrite (H i j c d) in Hs; auto; [discriminate| |].
    + apply (map_nth_error snd) in Hi. exact Hi.
    + apply (map_nth_error snd) in Hj. exact Hj.
  - intros H. f_equal. symmetry. apply dedup_id. apply StronglySorted_nth.
    intros i j c d Hij Hi Hj. rewrite nth_error_map in Hi, Hj.
    destruct (nth_error rows i) as [[li c']|] eqn:Ei; [|discriminate].
    destruct (nth_error rows j) as [[lj d']|] eqn:Ej; [|discriminate].
    simpl in Hi, Hj. inversion Hi; inversion Hj; subst.
    destruct (conn_dup c d) eqn:E; auto. apply conn_dup_iff in E.
    exfalso. eapply H; eauto.
Qed.

Section Net.
  Variable t : net_df.

  Lemma labels_in_iff n c :
    ((0 <=? cA c)%Z && (0 <=? cB c)%Z && (cA c <? n)%Z && (cB c <? n)%Z) = true <-> labels_in n c.
  Proof using.
    unfold labels_in. rewrite !andb_true_iff, !Z.leb_le, !Z.ltb_lt. tauto.
  Qed.
  Lemma ordered_iff c : (cA c <=? cB c)%Z = true <-> ordered c.
  Proof using. apply Z.leb_le. Qed.

  Lemma net_check_raises e : net_check t = Exn e <-> ~ flag_set (n_attrs t) /\ net_fails t e.
  Proof using.
    rewrite <- skipped_iff. unfold net_check, raise_if.
    destruct (skipped (n_attrs t)). { split; [discriminate | intros [H _]; congruence]. }
    assert (Hns : ~ false = true) by discriminate.
    pose proof (has_cols_iff net_columns (n_cols t)) as Hc.
    destruct (has_cols net_columns (n_cols t)); simpl.
    2:{ assert (~ columns_present net_cols (n_cols t)) by (intro; apply Hns, Hc; auto).
        split.
        - intros E; inversion E; subst. split; auto. now constructor.
        - intros [_ F]. destruct F; try contradiction; reflexivity. }
    assert (Hp : columns_present net_cols (n_cols t)) by (apply Hc; auto). clear Hc.
    assert (HA : ~ net_attrs_present (n_attrs t) ->
       (Exn AttrErr = @Exn bool e <-> ~ false = true /\ net_fails t e)).
    { intros HA. split.
      - intros E; inversion E; subst. split; auto. apply NF_attr; auto.
      - intros [_ F]. destruct F; try contradiction; reflexivity. }
    destruct (at_n (n_attrs t)) as [n|] eqn:En.
    2:{ refine (HA _). intros (H & _). auto. }
    destruct (is_some (at_size (n_attrs t))) eqn:Es; simpl.
    2:{ refine (HA _). intros (_ & H & _). apply is_some_iff in H. congruence. }
    destruct (is_some (at_periodic (n_attrs t))) eqn:Epe; simpl.
    2:{ refine (HA _). intros (_ & _ & H). apply is_some_iff in H. congruence. }
    clear HA. apply is_some_iff in Es, Epe.
    assert (HA : net_attrs_present (n_attrs t)).
    { split; [congruence|auto]. }
    destruct (unique_test (n_index t)) as [u|e'] eqn:Eu; simpl.
    2:{ assert (HB : labels_broadcast_fail (n_rows t)).
        { unfold unique_test in Eu.
          destruct (Nat.eqb _ _) eqn:E1; [discriminate|].
          split.
          - rewrite <- unique_length. apply Nat.eqb_neq in E1. exact E1.
          - destruct (uniqueZ (n_index t)) as [|x [|y l]] eqn:E2; [|discriminate|].
            + destruct (n_index t) as [|a l] eqn:Er; [discriminate|].
              assert (Ha : In a (uniqueZ (a :: l))) by (apply uniqueZ_in; simpl; auto).
              rewrite E2 in Ha. destruct Ha.
            + exists x, y. unfold n_index in E2. rewrite <- (uniqueZ_in x), <- (uniqueZ_in y), E2. simpl.
              repeat split; auto.
              pose proof (uniqueZ_strict (map fst (n_rows t))) as Hs. rewrite E2 in Hs.
              inversion Hs as [|? ? ? F]; subst. inversion F; subst. lia. }
        assert (e' = BroadcastErr).
        { unfold n_index in Eu. rewrite (unique_test_bad _ HB) in Eu. congruence. }
        subst e'. split.
        - intros E; inversion E; subst. split; auto. apply NF_broadcast; auto.
        - intros [_ F].
          destruct F; try contradiction; try reflexivity;
            exfalso; eapply in_order_no_fail; eauto. }
    assert (HB : ~ labels_broadcast_fail (n_rows t)).
    { intros HB. apply unique_test_bad in HB. unfold n_index in Eu. congruence. }
    destruct (unique_test_good _ HB) as (b & Eb & Hb).
    unfold n_index in *. assert (b = u) by congruence. subst b. clear Eb.
    rewrite map_length.
    pose proof (eqlZ_eq (map fst (n_rows t)) (arange (length (n_rows t)))) as Hl.
    destruct u; simpl.
    2:{ assert (~ labelled_in_order (n_rows t)).
        { rewrite <- labels_arange. intro C. specialize (Hb C). discriminate. }
        split.
        - intros E; inversion E; subst. split; auto. eapply NF_label; eauto.
        - intros [_ F]. destruct F; try contradiction; reflexivity. }
    destruct (eqlZ _ _); simpl.
    2:{ assert (~ labelled_in_order (n_rows t))
          by (rewrite <- labels_arange; intro; apply Hns, Hl; auto).
        split.
        - intros E; inversion E; subst. split; auto. eapply NF_label; eauto.
        - intros [_ F]. destruct F; try contradiction; reflexivity. }
    assert (Hlab : labelled_in_order (n_rows t)) by (apply labels_arange, Hl; auto). clear Hl.
    destruct (n_int t) eqn:Ei; simpl.
    2:{ split.
        - intros E; inversion E; subst. split; auto. eapply NF_type; eauto.
        - intros [_ F]. destruct F; try contradiction; try reflexivity; congruence. }
    pose proof (forallb_every _ _ (n_rows t) (labels_in_iff n)) as H1.
    pose proof (no_repeat_iff (n_rows t)) as H2. rewrite map_length in H2.
    pose proof (forallb_every _ _ (n_rows t) ordered_iff) as H3.
    assert (HV : (~ every (labels_in n) (n_rows t) \/ ~ no_repeat (n_rows t)
                  \/ ~ every ordered (n_rows t)) ->
       (Exn ValueErr = @Exn bool e <-> ~ false = true /\ net_fails t e)).
    { intros HV. split.
      - intros E; inversion E; subst. split; auto. eapply NF_value; eauto.
      - intros [_ F]. destruct F; try contradiction; try reflexivity; congruence. }
    destruct (forallb (fun c => _ && _ && _ && _) _); simpl.
    2:{ refine (HV _). left. intro C. apply Hns, H1, C. }
    destruct (Nat.eqb _ _); simpl.
    2:{ refine (HV _). right; left. intro C. apply Hns, H2, C. }
    destruct (forallb _ _); simpl.
    2:{ refine (HV _). right; right. intro C. apply Hns, H3, C. }
    split; [discriminate|]. intros [_ F]. exfalso.
    destruct F as [| | | | |n' ? ? En' ? ? V]; try contradiction; try congruence.
    assert (n' = n) by congruence. subst n'.
    destruct V as [V|[V|V]]; apply V; [apply H1|apply H2|apply H3]; reflexivity.
  Qed.

  Lemma net_check_true b : net_check t = Ok b -> b = true.
  Proof using.
    unfold net_check, raise_if. destruct (skipped _); [congruence|].
    destruct (negb _); [discriminate|].
    destruct (at_n _); [|discriminate].
    repeat match goal with |- context[if ?c then Exn _ else _] => destruct c; [discriminate|] end.
    destruct (unique_test _); [|discriminate]. simpl.
    repeat match goal with |- context[if ?c then Exn _ else _] => destruct c; [discriminate|] end.
    congruence.
  Qed.

  Lemma net_check_ok : net_check t = Ok true <-> flag_set (n_attrs t) \/ net_ok t.
  Proof using.
    destruct (net_check t) as [b|e] eqn:E.
    - pose proof (net_check_true _ E). subst b. split; auto. intros _.
      destruct (skipped (n_attrs t)) eqn:Sk; [left; now apply skipped_iff|right].
      unfold net_check, raise_if in E. rewrite Sk in E.
      destruct (has_cols net_columns (n_cols t)) eqn:Ec; [|discriminate]. simpl in E.
      apply has_cols_iff in Ec.
      destruct (at_n (n_attrs t)) as [n|] eqn:En; [|discriminate].
      destruct (is_some (at_size (n_attrs t))) eqn:Es; [|discriminate]. simpl in E.
      destruct (is_some (at_periodic (n_attrs t))) eqn:Epe; [|discriminate]. simpl in E.
      apply is_some_iff in Es, Epe.
      destruct (unique_test (n_index t)) as [u|]; [|discriminate]. simpl in E.
      destruct u; [|discriminate]. simpl in E.
      destruct (eqlZ (n_index t) _) eqn:E1; [|discriminate]. simpl in E.
      destruct (n_int t) eqn:Ei; [|discriminate]. simpl in E.
      destruct (forallb _ _) eqn:E2; [|discriminate]. simpl in E.
      destruct (Nat.eqb _ _) eqn:E3; [|discriminate]. simpl in E.
      destruct (forallb (fun c => (cA c <=? cB c)%Z) _) eqn:E4; [|discriminate]. clear E.
      split; auto. exists n.
      split; [exact En|]. split; [exact Es|]. split; [exact Epe|].
      split; [apply labels_arange; apply eqlZ_eq; now rewrite map_length in E1|].
      split; [exact Ei|].
      split; [now apply (forallb_every _ _ _ (labels_in_iff n))|].
      split; [now apply (forallb_every _ _ _ ordered_iff)|].
      now apply no_repeat_iff.
    - split; [discriminate|]. intros H. apply net_check_raises in E. destruct E as [Ef F].
      exfalso. destruct H as [H|H]; [contradiction|].
      destruct H as (Hc & n & Hn & Hs & Hpe & Hl & Hi & H1 & H2 & H3).
      pose proof (in_order_no_fail _ Hl).
      assert (net_attrs_present (n_attrs t)) by (split; [congruence|auto]).
      destruct F as [| | | | |n' ? ? En' ? ? V]; try contradiction; try congruence.
      assert (n' = n) by congruence. subst n'. tauto.
  Qed.
End Net.
