(** Mesh.check agrees with its specification. *)
From Coq Require Import String Permutation.
From Verif Require Import Num NumP ListX ListP GroupP Frames MatM NetM MeshM Spec CheckP.
Open Scope Q_scope.

Definition fs_le {A} (f : A -> Z) (s : A -> Q) (a b : A) : Prop :=
  (f a < f b)%Z \/ (f a = f b /\ s a <= s b).
Lemma fs_leb_iff f f' s s' :
  fs_leb f f' s s' = true <-> (f < f')%Z \/ (f = f' /\ s <= s').
Proof.
  unfold fs_leb. rewrite orb_true_iff, andb_true_iff, Z.ltb_lt, Z.eqb_eq, Qleb_le. tauto.
Qed.
Lemma fs_leb_total f f' s s' : fs_leb f f' s s' = true \/ fs_leb f' f s' s = true.
Proof.
  rewrite !fs_leb_iff. destruct (Z.lt_trichotomy f f') as [H|[H|H]]; auto.
  destruct (Qlt_le_dec s s'); [left|right]; right; split; auto; lra.
Qed.
Lemma fs_leb_trans f f' f'' s s' s'' :
  fs_leb f f' s s' = true -> fs_leb f' f'' s' s'' = true -> fs_leb f f'' s s'' = true.
Proof.
  rewrite !fs_leb_iff. intros [H|[H H1]] [H'|[H' H1']]; try (left; lia).
  right; split; [lia|lra].
Qed.

Lemma perm_fst_nodup {A} (l l' : list (Z * A)) :
  Permutation l l' -> NoDup (map fst l') -> map fst l = map fst l' -> l = l'.
Proof.
  revert l'. induction l as [|[k a] l IH]; intros [|[k' a'] l'] Hp Hn He; simpl in *;
    try discriminate; auto.
  inversion He; subst k'. inversion Hn; subst.
  assert (E : (k, a) = (k, a')).
  { assert (Hin : In (k, a) ((k, a') :: l')) by (eapply Permutation_in; [exact Hp|simpl; auto]).
    destruct Hin as [E|Hin]; [congruence|]. exfalso. apply H2. apply (in_map fst) in Hin. exact Hin. }
  inversion E; subst a'. f_equal. apply IH; auto. eapply Permutation_cons_inv; eauto.
Qed.

Lemma last_nth {A} (l : list A) r : l <> [] -> nth_error l (length l - 1) = Some (last l r).
Proof.
  induction l as [|a l IH]; [congruence|]. intros _. destruct l as [|b l]; [reflexivity|].
  replace (length (a :: b :: l) - 1)%nat with (S (length (b :: l) - 1)) by (simpl; lia).
  change (nth_error (a :: b :: l) (S (length (b :: l) - 1)))
    with (nth_error (b :: l) (length (b :: l) - 1)).
  rewrite IH by discriminate. reflexivity.
Qed.

Section Rows.
  Variable rs : list (Z * node).
  Hypothesis Hlab : labelled_in_order rs.
  Let fk (r : Z * node) := nf (snd r).
  Let len := length rs.

  Lemma row_at i r : nth_error rs i = Some r -> fst r = Z.of_nat i /\ is_node rs i (snd r).
  Proof using Hlab.
    destruct r as [k d]. intros H. split; [simpl; eapply Hlab; eauto | exists k; auto].
  Qed.
  Lemma node_row i d : is_node rs i d <-> nth_error rs i = Some (Z.of_nat i, d).
  Proof using Hlab.
    split; [|intros H; eexists; eauto].
    intros (k & H). rewrite (Hlab _ _ _ H) in H. exact H.
  Qed.
  Lemma node_fun i d e : is_node rs i d -> is_node rs i e -> d = e.
  Proof using Hlab. rewrite !node_row. congruence. Qed.
  Lemma node_lt i d : is_node rs i d -> (i < len)%nat.
  Proof using. intros (k & H). apply nth_error_Some. congruence. Qed.
  Lemma node_ex i : (i < len)%nat -> exists d, is_node rs i d.
  Proof using.
    intros H. destruct (nth_error rs i) as [[k d]|] eqn:E.
    - exists d, k; auto.
    - apply nth_error_None in E. unfold len in H. lia.
  Qed.
  Lemma fst_nodup : NoDup (map fst rs).
  Proof using Hlab.
    rewrite (proj2 (labels_arange rs)) by auto. apply NoDup_arange.
  Qed.

  Lemma forallb_nodes (p : node -> bool) (P : node -> Prop) :
    (forall d, p d = true <-> P d) ->
    (forallb p (map snd rs) = true <-> forall i d, is_node rs i d -> P d).
  Proof using.
    intros Hp. rewrite forallb_forall. split.
    - intros H i d (k & Hi). apply Hp, H. apply nth_error_In in Hi. apply (in_map snd) in Hi. exact Hi.
    - intros H d Hd. apply in_map_iff in Hd. destruct Hd as ([k d'] & <- & Hd). simpl.
      apply In_nth_error in Hd. destruct Hd as (i & Hi). apply Hp. apply (H i). exists k; auto.
  Qed.

  (** ** ordering *)
  Lemma ordered_test :
    eqlZ (map fst (isort (fun r r' => fs_leb (nf (snd r)) (nf (snd r'))
                                             (ns (snd r)) (ns (snd r'))) rs))
         (map fst rs) = true <-> nodes_ordered rs.
  Proof using Hlab.
    rewrite eqlZ_eq. set (leb := fun r r' => _).
    split.
    - intros H. assert (E : isort leb rs = rs).
      { apply perm_fst_nodup; auto. apply isort_perm. apply fst_nodup. }
      assert (Hs : StronglySorted (fun a b => leb a b = true) (isort leb rs)).
      { apply isort_sorted; unfold leb; intros; [apply fs_leb_total | eapply fs_leb_trans; eauto]. }
      rewrite E in Hs. rewrite StronglySorted_nth in Hs.
      intros i j d e Hij (k & Hi) (k' & Hj). specialize (Hs _ _ _ _ Hij Hi Hj).
      apply fs_leb_iff in Hs. exact Hs.
    - intros H. f_equal. apply isort_id. apply StronglySorted_nth.
      intros i j [k d] [k' e] Hij Hi Hj. apply fs_leb_iff. apply (H i j); auto; eexists; eauto.
  Qed.

  Lemma fiber_sorted_test : nodes_ordered rs ->
    eqlZ (isort Z.leb (map nf (map snd rs))) (map nf (map snd rs)) = true.
  Proof using.
    intros H. apply eqlZ_eq. apply isort_id. apply StronglySorted_nth.
    intros i j x y Hij Hi Hj. rewrite map_map, nth_error_map in Hi, Hj.
    destruct (nth_error rs i) as [[k d]|] eqn:Ei; [|discriminate].
    destruct (nth_error rs j) as [[k' e]|] eqn:Ej; [|discriminate].
    simpl in *. inversion Hi; inversion Hj; subst. apply Z.leb_le.
    destruct (H i j d e) as [|[]]; auto; try lia; eexists; eauto.
  Qed.

  Hypothesis Hord : nodes_ordered rs.
  Lemma keys_sorted : key_sorted fk rs.
  Proof using Hord.
    apply StronglySorted_nth. intros i j [k d] [k' e] Hij Hi Hj. unfold fk; simpl.
    destruct (Hord i j d e) as [|[]]; auto; try lia; eexists; eauto.
  Qed.

  Lemma node_pos i d : is_node rs i d ->
    (before fk (nf d) rs <= i < before fk (nf d) rs + count fk (nf d) rs)%nat.
  Proof using Hord.
    intros (k & H). apply (sorted_pos fk rs i (k, d) keys_sorted H).
  Qed.
  Lemma pos_node i d k : is_node rs i d ->
    (before fk k rs <= i < before fk k rs + count fk k rs)%nat -> nf d = k.
  Proof using Hord.
    intros (l & H). apply (pos_key fk rs k i (l, d) keys_sorted H).
  Qed.
  Lemma pos_bound k : (before fk k rs + count fk k rs <= len)%nat.
  Proof using Hord.
    unfold len. rewrite (sorted_split fk k rs keys_sorted) at 3.
    rewrite !app_length. unfold before, count. lia.
  Qed.

  (** ** beams *)
  Definition next_pos (i : nat) (k : Z) : nat :=
    if Nat.eqb (i + 1) (before fk k rs + count fk k rs) then before fk k rs else (i + 1)%nat.

  Lemma group_fst k off : (off < count fk k rs)%nat ->
    nth_error (map fst (filter (fun r => Z.eqb (fk r) k) rs)) off
    = Some (Z.of_nat (before fk k rs + off)).
  Proof using Hlab Hord.
    intros H. rewrite nth_error_map.
    rewrite <- (sorted_nth fk k rs off keys_sorted H).
    destruct (nth_error rs (before fk k rs + off)) as [r|] eqn:E.
    - apply row_at in E. simpl. f_equal. tauto.
    - apply nth_error_None in E. pose proof (pos_bound k). unfold len in *. lia.
  Qed.

  Lemma beam_list i d : is_node rs i d ->
    nth_error (groupcat fk (fun l => roll (map fst l)) rs) i
    = Some (Z.of_nat (next_pos i (nf d))).
  Proof using Hlab Hord.
    intros Hi. pose proof (node_pos i d Hi) as Hp. set (k := nf d) in *.
    replace i with (before fk k rs + (i - before fk k rs))%nat at 1 by lia.
    rewrite groupcat_nth; [| intros; now rewrite roll_length, map_length | apply keys_sorted | lia].
    assert (Hl : length (map fst (filter (fun r => Z.eqb (fk r) k) rs)) = count fk k rs)
      by now rewrite map_length.
    rewrite roll_nth by (rewrite Hl; lia). rewrite Hl.
    unfold next_pos.
    destruct (Nat.eqb_spec (i - before fk k rs + 1) (count fk k rs)) as [E|E];
      destruct (Nat.eqb_spec (i + 1) (before fk k rs + count fk k rs)) as [E'|E']; try lia;
      rewrite group_fst by lia; do 2 f_equal; lia.
  Qed.

  Lemma next_pos_spec i d : is_node rs i d -> next_on_fiber rs i (next_pos i (nf d)).
  Proof using Hlab Hord.
    intros Hi. pose proof (node_pos i d Hi) as Hp. pose proof (pos_bound (nf d)) as Hb.
    unfold next_pos.
    destruct (Nat.eqb_spec (i + 1) (before fk (nf d) rs + count fk (nf d) rs)) as [E|E].
    - destruct (node_ex (before fk (nf d) rs)) as (e & He); [lia|].
      exists d, e. split; auto. split; auto. split.
      { symmetry. apply (pos_node _ _ _ He). lia. }
      right. split; [lia|]. split; intros j f Hj Hf C; apply node_pos in Hf; rewrite C in Hf; lia.
    - destruct (node_ex (i + 1)) as (e & He); [lia|].
      exists d, e. split; auto. split; auto. split.
      { symmetry. apply (pos_node _ _ _ He). lia. }
      left. split; [lia|]. intros; lia.
  Qed.
  Lemma next_unique i b b' : next_on_fiber rs i b -> next_on_fiber rs i b' -> b = b'.
  Proof using Hlab.
    intros (d & e & Hd & He & Ef & H) (d' & e' & Hd' & He' & Ef' & H').
    assert (d' = d) by (eapply node_fun; eauto). subst d'.
    destruct H as [[H1 H2]|[H1 [H2 H3]]]; destruct H' as [[H1' H2']|[H1' [H2' H3']]].
    - destruct (Nat.lt_trichotomy b b') as [L|[L|L]]; auto; exfalso.
      + apply (H2' b e); auto; lia.
      + apply (H2 b' e'); auto; lia.
    - exfalso. apply (H2' b e); auto.
    - exfalso. apply (H2 b' e'); auto.
    - destruct (Nat.lt_trichotomy b b') as [L|[L|L]]; auto; exfalso.
      + apply (H3' b e); auto.
      + apply (H3 b' e'); auto.
  Qed.

  Lemma beams_test :
    eqlZ (map nbeam (map snd rs)) (groupcat fk (fun l => roll (map fst l)) rs) = true
    <-> beams_ok rs.
  Proof using Hlab Hord.
    rewrite eqlZ_eq. split.
    - intros H i d Hi. exists (next_pos i (nf d)). split; [|now apply next_pos_spec].
      pose proof (beam_list i d Hi) as E. rewrite <- H in E.
      destruct Hi as (k & Hi). rewrite map_map, nth_error_map, Hi in E. simpl in E. congruence.
    - intros H. apply nth_error_ext. intros i.
      destruct (Nat.lt_ge_cases i len) as [L|L].
      + destruct (node_ex i L) as (d & Hd). rewrite (beam_list i d Hd).
        destruct (H i d Hd) as (b & Eb & Hn).
        rewrite (next_unique i _ _ (next_pos_spec i d Hd) Hn). rewrite <- Eb.
        destruct Hd as (k & Hi). rewrite map_map, nth_error_map, Hi. reflexivity.
      + assert (E : length (groupcat fk (fun l => roll (map fst l)) rs) = len).
        { apply groupcat_length; [intros; now rewrite roll_length, map_length | apply keys_sorted]. }
        rewrite (proj2 (nth_error_None _ _)), (proj2 (nth_error_None _ _)); auto; [lia|].
        now rewrite !map_length.
  Qed.

  Lemma beams_range : beams_ok rs ->
    forallb (fun d => in_range (Z.of_nat (length rs)) (nbeam d)) (map snd rs) = true.
  Proof using.
    intros H. apply (forallb_nodes _ (fun d => (0 <= nbeam d < Z.of_nat (length rs))%Z)).
    { intros d. unfold in_range. rewrite andb_true_iff, Z.leb_le, Z.ltb_lt. tauto. }
    intros i d Hi. destruct (H i d Hi) as (b & -> & (? & e & _ & He & _)).
    apply node_lt in He. unfold len in He. lia.
  Qed.

  (** ** constraints *)
  Lemma row_loc_spec (c : Z) d : row_loc rs c = Some d <-> exists i, c = Z.of_nat i /\ is_node rs i d.
  Proof using Hlab.
    unfold row_loc. split.
    - destruct (find _ rs) as [r|] eqn:E; [|discriminate]. intros H; inversion H; subst d.
      apply find_some in E. destruct E as [E1 E2]. apply Z.eqb_eq in E2.
      apply In_nth_error in E1. destruct E1 as (i & Hi). apply row_at in Hi.
      exists i. split; [lia|tauto].
    - intros (i & -> & Hi). destruct (find _ rs) as [r|] eqn:E.
      + apply find_some in E. destruct E as [E1 E2]. apply Z.eqb_eq in E2.
        apply In_nth_error in E1. destruct E1 as (j & Hj). apply row_at in Hj. destruct Hj as [Ej Hj].
        assert (j = i) by lia. subst j. f_equal. eapply node_fun; eauto.
      + exfalso. apply node_row in Hi. apply nth_error_In in Hi.
        pose proof (find_none _ _ E _ Hi) as C. simpl in C. rewrite Z.eqb_refl in C. discriminate.
  Qed.

  Lemma cons_test :
    eqlZ (map (fun d => match row_loc rs (ncons d) with
                        | Some e => ncons e | None => (-1)%Z end) (map snd rs)) (map fst rs) = true
    <-> cons_involution rs.
  Proof using Hlab.
    rewrite eqlZ_eq. split.
    - intros H i d Hi. assert (E := f_equal (fun l => nth_error l i) H). simpl in E.
      pose proof (proj1 (node_row i d) Hi) as Hr.
      rewrite map_map, !nth_error_map, Hr in E. simpl in E. inversion E as [E1]. clear E H.
      destruct (row_loc rs (ncons d)) as [e|] eqn:El.
      + apply row_loc_spec in El. destruct El as (c & Ec & He). exists c, e. auto.
      + lia.
    - intros H. apply nth_error_ext. intros i. rewrite map_map, !nth_error_map.
      destruct (nth_error rs i) as [[k d]|] eqn:E; [|reflexivity]. simpl.
      assert (Hi : is_node rs i d) by (exists k; auto).
      destruct (H i d Hi) as (c & e & Ec & He & Ei).
      rewrite (proj2 (row_loc_spec (ncons d) e)) by (exists c; auto).
      rewrite (Hlab _ _ _ E). congruence.
  Qed.
  Lemma cons_range : cons_involution rs ->
    forallb (fun d => in_range (Z.of_nat (length rs)) (ncons d)) (map snd rs) = true.
  Proof using.
    intros H. apply (forallb_nodes _ (fun d => (0 <= ncons d < Z.of_nat (length rs))%Z)).
    { intros d. unfold in_range. rewrite andb_true_iff, Z.leb_le, Z.ltb_lt. tauto. }
    intros i d Hi. destruct (H i d Hi) as (c & e & -> & He & _).
    apply node_lt in He. unfold len in He. lia.
  Qed.

  (** ** end nodes *)
  Lemma first_iff i d : is_node rs i d ->
    ((forall j e, (j < i)%nat -> is_node rs j e -> nf e <> nf d) <-> i = before fk (nf d) rs).
  Proof using Hord.
    intros Hi. pose proof (node_pos i d Hi) as Hp. split.
    - intros H. destruct (Nat.eq_dec i (before fk (nf d) rs)); auto. exfalso.
      destruct (node_ex (before fk (nf d) rs)) as (e & He); [apply node_lt in Hi; lia|].
      apply (H (before fk (nf d) rs) e); auto; [lia|]. apply (pos_node _ _ _ He). lia.
    - intros E j e Hj He C. apply node_pos in He. rewrite C in He. lia.
  Qed.
  Lemma last_iff i d : is_node rs i d ->
    ((forall j e, (i < j)%nat -> is_node rs j e -> nf e <> nf d)
     <-> (i + 1 = before fk (nf d) rs + count fk (nf d) rs)%nat).
  Proof using Hord.
    intros Hi. pose proof (node_pos i d Hi) as Hp. pose proof (pos_bound (nf d)) as Hb. split.
    - intros H. destruct (Nat.eq_dec (i + 1) (before fk (nf d) rs + count fk (nf d) rs)); auto. exfalso.
      destruct (node_ex (i + 1)) as (e & He); [lia|].
      apply (H (i + 1)%nat e); auto; [lia|]. apply (pos_node _ _ _ He). lia.
    - intros E j e Hj He C. apply node_pos in He. rewrite C in He. lia.
  Qed.

  Lemma group_nth k off : (off < count fk k rs)%nat ->
    nth_error (group rs k) off = nth_error rs (before fk k rs + off).
  Proof using Hord.
    intros H. symmetry. apply (sorted_nth fk k rs off keys_sorted H).
  Qed.

  Lemma ends_test :
    forallb (fun f => match group rs f with
                      | [] => true
                      | r :: _ => self_cons rs r && self_cons rs (last (group rs f) r)
                      end) (fibers_of rs) = true
    <-> ends_free rs.
  Proof using Hlab Hord.
    rewrite forallb_forall. split.
    - intros H i d Hi Hend. pose proof (node_pos i d Hi) as Hp.
      assert (Hk : In (nf d) (fibers_of rs)).
      { apply uniqueZ_in. destruct Hi as (k & Hi). apply nth_error_In in Hi.
        apply in_map_iff. exists (k, d); auto. }
      specialize (H _ Hk).
      assert (Hc : length (group rs (nf d)) = count fk (nf d) rs) by reflexivity.
      destruct (group rs (nf d)) as [|r g] eqn:Eg; [simpl in Hc; lia|].
      apply andb_true_iff in H. destruct H as [H1 H2].
      unfold self_cons in H1, H2. apply Z.eqb_eq in H1, H2.
      apply (proj1 (node_row i d)) in Hi as Hr.
      destruct Hend as [Hend|Hend].
      + apply (first_iff i d Hi) in Hend.
        assert (E : nth_error (group rs (nf d)) 0 = Some r) by (rewrite Eg; reflexivity).
        rewrite group_nth in E by lia. rewrite Nat.add_0_r, <- Hend, Hr in E.
        inversion E; subst r. exact H1.
      + apply (last_iff i d Hi) in Hend.
        assert (E : nth_error (group rs (nf d)) (length (group rs (nf d)) - 1)
                    = Some (last (group rs (nf d)) r)) by (apply last_nth; rewrite Eg; discriminate).
        rewrite Eg in E. rewrite Hc in E. rewrite <- Eg in E. rewrite group_nth in E by lia.
        replace (before fk (nf d) rs + (count fk (nf d) rs - 1))%nat with i in E by lia.
        rewrite Hr in E. inversion E as [E1]. rewrite Eg in E1. rewrite <- E1 in H2. exact H2.
    - intros H k _. destruct (group rs k) as [|r g] eqn:Eg; auto.
      assert (Hc : (0 < count fk k rs)%nat).
      { change (0 < length (group rs k))%nat. rewrite Eg. simpl; lia. }
      pose proof (pos_bound k) as Hb.
      apply andb_true_iff. unfold self_cons. rewrite !Z.eqb_eq. split.
      + assert (E : nth_error (group rs k) 0 = Some r) by (rewrite Eg; reflexivity).
        rewrite group_nth in E by lia. rewrite Nat.add_0_r in E.
        apply row_at in E. destruct E as [E1 E2]. rewrite E1. apply H; auto.
        left. apply first_iff; auto. rewrite (pos_node _ _ k E2); auto. lia.
      + assert (E : nth_error (group rs k) (length (group rs k) - 1)
                    = Some (last (group rs k) r)) by (apply last_nth; rewrite Eg; discriminate).
        rewrite group_nth in E by (change (count fk k rs) with (length (group rs k)); rewrite Eg; simpl; lia).
        change (length (group rs k)) with (count fk k rs) in E.
        apply row_at in E. destruct E as [E1 E2]. rewrite <- Eg. rewrite E1. apply H; auto.
        right. apply last_iff; auto. rewrite (pos_node _ _ k E2); auto; lia.
  Qed.
End Rows.

Section Check.
  Variable g : mesh_df.

  Lemma mesh_check_raises e : mesh_check g = Exn e <-> ~ flag_set (g_attrs g) /\ mesh_fails g e.
  Proof using.
    rewrite <- skipped_iff. unfold mesh_check, raise_if.
    destruct (skipped (g_attrs g)). { split; [discriminate | intros [H _]; congruence]. }
    assert (Hns : ~ false = true) by discriminate.
    pose proof (has_cols_iff mesh_columns (g_cols g)) as Hc.
    destruct (has_cols mesh_columns (g_cols g)); simpl.
    2:{ assert (~ columns_present mesh_cols (g_cols g)) by (intro; apply Hns, Hc; auto).
        split.
        - intros E; inversion E; subst. split; auto. now constructor.
        - intros [_ F]. destruct F; try contradiction; reflexivity. }
    assert (Hp : columns_present mesh_cols (g_cols g)) by (apply Hc; auto). clear Hc.
    assert (HA : ~ net_attrs_present (g_attrs g) ->
       (Exn AttrErr = @Exn bool e <-> ~ false = true /\ mesh_fails g e)).
    { intros HA. split.
      - intros E; inversion E; subst. split; auto. apply GF_attr; auto.
      - intros [_ F]. destruct F; try contradiction; reflexivity. }
    destruct (at_n (g_attrs g)) as [n|] eqn:En.
    2:{ refine (HA _). intros (H & _). auto. }
    destruct (is_some (at_size (g_attrs g))) eqn:Es; simpl.
    2:{ refine (HA _). intros (_ & H & _). apply is_some_iff in H. congruence. }
    destruct (is_some (at_periodic (g_attrs g))) eqn:Epe; simpl.
    2:{ refine (HA _). intros (_ & _ & H). apply is_some_iff in H. congruence. }
    clear HA. apply is_some_iff in Es, Epe.
    assert (HA : net_attrs_present (g_attrs g)).
    { split; [congruence|auto]. }
    destruct (unique_test (g_index g)) as [u|e'] eqn:Eu; simpl.
    2:{ destruct (unique_test_exn _ _ Eu) as [HB ->]. split.
        - intros E; inversion E; subst. split; auto. apply GF_broadcast; auto.
        - intros [_ F].
          destruct F; try contradiction; try reflexivity;
            exfalso; eapply in_order_no_fail; eauto. }
    assert (HB : ~ labels_broadcast_fail (g_rows g)).
    { intros HB. apply unique_test_bad in HB. unfold g_index in Eu. congruence. }
    destruct (unique_test_good _ HB) as (b & Eb & Hb).
    unfold g_index in *. assert (b = u) by congruence. subst b. clear Eb.
    pose proof (eqlZ_eq (map fst (g_rows g)) (arange (length (g_rows g)))) as Hl.
    destruct u; simpl.
    2:{ assert (~ labelled_in_order (g_rows g)).
        { rewrite <- labels_arange. intro C. specialize (Hb C). discriminate. }
        split.
        - intros E; inversion E; subst. split; auto. eapply GF_label; eauto.
        - intros [_ F]. destruct F; try contradiction; reflexivity. }
    destruct (eqlZ (map fst _) _) eqn:El; simpl.
    2:{ assert (~ labelled_in_order (g_rows g))
          by (rewrite <- labels_arange; intro; apply Hns, Hl; auto).
        split.
        - intros E; inversion E; subst. split; auto. eapply GF_label; eauto.
        - intros [_ F]. destruct F; try contradiction; reflexivity. }
    assert (Hlab : labelled_in_order (g_rows g)) by (apply labels_arange, Hl; auto). clear Hl El.
    destruct (g_intf g) eqn:Ei; simpl.
    2:{ split.
        - intros E; inversion E; subst. split; auto. eapply GF_type; eauto.
        - intros [_ F]. destruct F; try contradiction; try reflexivity; congruence. }
    destruct (g_intl g) eqn:Ej; simpl.
    2:{ split.
        - intros E; inversion E; subst. split; auto. eapply GF_type; eauto.
        - intros [_ F]. destruct F; try contradiction; try reflexivity; congruence. }
    set (rs := g_rows g) in *.
    assert (HV : (~ fibers_in n rs \/ ~ nodes_ordered rs \/ ~ beams_ok rs
                  \/ ~ cons_involution rs \/ ~ ends_free rs) ->
       (Exn ValueErr = @Exn bool e <-> ~ false = true /\ mesh_fails g e)).
    { intros HV. split.
      - intros E; inversion E; subst. split; auto. eapply GF_value; eauto.
      - intros [_ F]. destruct F as [| | | |? ? ? [|]|]; try contradiction; try reflexivity; congruence. }
    assert (HT : fibers_in n rs -> nodes_ordered rs -> beams_ok rs -> cons_involution rs ->
                 ends_free rs -> (Ok true = @Exn bool e <-> ~ false = true /\ mesh_fails g e)).
    { intros. split; [discriminate|]. intros [_ F]. exfalso.
      destruct F as [| | | |? ? ? [|]|n' ? ? En' ? ? ? V]; try contradiction; try congruence.
      assert (n' = n) by congruence. subst n'. fold rs in V. tauto. }
    assert (Hf : forallb (fun d => in_range n (nf d)) (map snd rs) = true <-> fibers_in n rs).
    { apply (forallb_nodes rs _ (fun d => (0 <= nf d < n)%Z)). intros d.
      unfold in_range. rewrite andb_true_iff, Z.leb_le, Z.ltb_lt. tauto. }
    destruct (Nat.eqb (length rs) 0) eqn:E0.
    { apply Nat.eqb_eq in E0. assert (HN : forall i d, ~ is_node rs i d).
      { intros i d (k & H). destruct rs; [destruct i; discriminate|discriminate]. }
      refine (HT _ _ _ _ _); intros i; intros; exfalso; eapply HN; eauto. }
    destruct (forallb (fun d => in_range n (nf d)) (map snd rs)); simpl.
    2:{ refine (HV _). left. intro C. apply Hns, Hf, C. }
    destruct (forallb (fun d => in_range _ (nbeam d)) (map snd rs)) eqn:E1; simpl.
    2:{ refine (HV _). right; right; left. intro C. apply beams_range in C. congruence. }
    destruct (forallb (fun d => in_range _ (ncons d)) (map snd rs)) eqn:E2; simpl.
    2:{ refine (HV _). right; right; right; left. intro C. apply cons_range in C. congruence. }
    destruct (eqlZ (isort _ _) _) eqn:E3; simpl.
    2:{ refine (HV _). right; left. intro C. apply fiber_sorted_test in C. congruence. }
    destruct (eqlZ (map fst (isort _ _)) _) eqn:E4; simpl.
    2:{ refine (HV _). right; left. intro C. apply ordered_test in C; auto. congruence. }
    apply ordered_test in E4; auto.
    destruct (eqlZ (map nbeam _) _) eqn:E5; simpl.
    2:{ refine (HV _). right; right; left. intro C. apply beams_test in C; auto. congruence. }
    apply beams_test in E5; auto.
    destruct (eqlZ (map _ (map snd rs)) _) eqn:E6; simpl.
    2:{ refine (HV _). right; right; right; left. intro C. apply cons_test in C; auto. congruence. }
    apply cons_test in E6; auto.
    destruct (forallb _ (fibers_of rs)) eqn:E7; simpl.
    2:{ refine (HV _). right; right; right; right. intro C. apply ends_test in C; auto. congruence. }
    apply ends_test in E7; auto.
    apply HT; auto. apply Hf; reflexivity.
  Qed.

  Lemma mesh_check_true b : mesh_check g = Ok b -> b = true.
  Proof using.
    unfold mesh_check, raise_if. destruct (skipped _); [congruence|].
    destruct (negb _); [discriminate|].
    destruct (at_n _); [|discriminate].
    repeat match goal with |- context[if ?c then Exn _ else _] => destruct c; [discriminate|] end.
    destruct (unique_test _); [|discriminate]. simpl.
    do 4 match goal with |- context[if ?c then Exn _ else _] => destruct c; [discriminate|] end.
    destruct (Nat.eqb _ _); [congruence|].
    repeat match goal with |- context[if ?c then Exn _ else _] => destruct c; [discriminate|] end.
    congruence.
  Qed.

  Lemma mesh_fails_not_ok e : mesh_fails g e -> ~ mesh_ok g.
  Proof using.
    intros F (Hc & n & En & Es & Ep & Hl & Ei & Ej & Hf & Ho & Hb & Hr & He).
    assert (HA : net_attrs_present (g_attrs g)) by (split; [congruence|auto]).
    destruct F as [| |? ? HB| |? ? ? [|]|n' ? ? En' ? ? ? V]; try contradiction; try congruence.
    - eapply in_order_no_fail; eauto.
    - assert (n' = n) by congruence. subst n'. tauto.
  Qed.

  Lemma mesh_check_ok : mesh_check g = Ok true <-> flag_set (g_attrs g) \/ mesh_ok g.
  Proof using.
    split.
    - intros E. destruct (skipped (g_attrs g)) eqn:Sk; [left; now apply skipped_iff|right].
      assert (HF : forall e, ~ mesh_fails g e).
      { intros e F. assert (mesh_check g = Exn e); [|congruence].
        apply mesh_check_raises. split; auto. rewrite <- skipped_iff. congruence. }
      destruct (has_cols mesh_columns (g_cols g)) eqn:Hc.
      2:{ exfalso. apply (HF KeyErr). constructor. intro C. apply has_cols_iff in C.
          change mesh_cols with mesh_columns in C. congruence. }
      apply has_cols_iff in Hc. change mesh_columns with mesh_cols in Hc.
      assert (HA : net_attrs_present (g_attrs g)).
      { destruct (at_n (g_attrs g)) eqn:E1; [destruct (at_size (g_attrs g)) eqn:E2;
          [destruct (at_periodic (g_attrs g)) eqn:E3|]|].
        1:{ split; [congruence|split; congruence]. }
        all: exfalso; apply (HF AttrErr); apply GF_attr; auto; intros (H1 & H2 & H3); auto. }
      destruct (at_n (g_attrs g)) as [n|] eqn:En; [|exfalso; now apply (proj1 HA)].
      destruct (unique_test (g_index g)) as [u|e'] eqn:Eu.
      2:{ destruct (unique_test_exn _ _ Eu) as [HB ->]. exfalso. eapply (HF BroadcastErr).
          apply GF_broadcast; auto. }
      assert (HB : ~ labels_broadcast_fail (g_rows g)).
      { intros HB. apply unique_test_bad in HB. unfold g_index in Eu. congruence. }
      destruct (eqlZ (map fst (g_rows g)) (arange (length (g_rows g)))) eqn:El.
      2:{ exfalso. apply (HF IndexErr). apply GF_label; auto. rewrite <- labels_arange.
          intros C. apply eqlZ_eq in C. congruence. }
      apply eqlZ_eq in El. apply labels_arange in El.
      destruct (g_intf g) eqn:Ei.
      2:{ exfalso. apply (HF TypeErr). apply GF_type; auto. }
      destruct (g_intl g) eqn:Ej.
      2:{ exfalso. apply (HF TypeErr). apply GF_type; auto. }
      split; auto. exists n. split; auto. split; [apply HA|]. split; [apply HA|].
      do 3 (split; [assumption || reflexivity|]).
      set (rs := g_rows g) in *.
      assert (HV : ~ (~ fibers_in n rs \/ ~ nodes_ordered rs \/ ~ beams_ok rs
                  \/ ~ cons_involution rs \/ ~ ends_free rs)).
      { intros V. apply (HF ValueErr). eapply GF_value; eauto. }
      assert (Df : fibers_in n rs \/ ~ fibers_in n rs).
      { assert (Hf : forallb (fun d => in_range n (nf d)) (map snd rs) = true <-> fibers_in n rs).
        { apply (forallb_nodes rs _ (fun d => (0 <= nf d < n)%Z)). intros d.
          unfold in_range. rewrite andb_true_iff, Z.leb_le, Z.ltb_lt. tauto. }
        destruct (forallb _ _); [left|right]; rewrite <- Hf; congruence. }
      assert (D1 : nodes_ordered rs \/ ~ nodes_ordered rs).
      { rewrite <- (ordered_test rs El). destruct (eqlZ _ _); auto. }
      assert (D2 : cons_involution rs \/ ~ cons_involution rs).
      { rewrite <- (cons_test rs El). destruct (eqlZ _ _); auto. }
      assert (Ho : nodes_ordered rs) by tauto.
      assert (D3 : beams_ok rs \/ ~ beams_ok rs).
      { rewrite <- (beams_test rs El Ho). destruct (eqlZ _ _); auto. }
      assert (D4 : ends_free rs \/ ~ ends_free rs).
      { rewrite <- (ends_test rs El Ho). destruct (forallb _ _); auto. }
      tauto.
    - intros H. destruct (mesh_check g) as [b|e] eqn:E.
      + now rewrite (mesh_check_true _ E).
      + apply mesh_check_raises in E. destruct E as [E1 E2]. apply mesh_fails_not_ok in E2. tauto.
  Qed.
End Check.
