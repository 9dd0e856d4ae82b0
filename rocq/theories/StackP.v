(** Proofs about Stack (C16 - C22). *)
From Coq Require Import String Permutation.
From Verif Require Import Num NumP ListX ListP Frames MatM NetM StackM Spec SpecNet SpecStack
  CheckP MatP NetP NetGeoP NetZP.
Open Scope Q_scope.

(** ** Least admissible heights *)
  Lemma dotp_le : forall (f : list Q) z z', length z = length f -> length z' = length f ->
    (forall i, (i < length f)%nat -> 0 < nth i f 0) ->
    (forall i, (i < length f)%nat -> nth i z 0 <= nth i z' 0) ->
    dotp f z <= dotp f z' /\ (dotp f z' <= dotp f z -> forall i, (i < length f)%nat -> nth i z 0 == nth i z' 0).
  Proof.
    induction f as [|a f IH]; intros [|x z] [|y z']; simpl; try discriminate.
    - intros. split; [lra|]. intros; lia.
    - intros L1 L2 Hp Hle. destruct (IH z z') as [IH1 IH2]; try lia.
      { intros i Hi. apply (Hp (S i)). lia. }
      { intros i Hi. apply (Hle (S i)). lia. }
      pose proof (Hp 0%nat ltac:(lia)) as P0. pose proof (Hle 0%nat ltac:(lia)) as L0. simpl in P0, L0.
      assert (M : 0 <= a * (y - x)) by (apply Qmult_le_0_compat; lra).
      split; [lra|]. intros C i Hi. assert (E : a * (y - x) == 0) by lra.
      apply Qmult_integral in E. destruct i as [|i].
      + destruct E; lra.
      + apply IH2; [lra|lia].
  Qed.

Section Least.
  Variable h : list Q.
  Variable edge : nat -> nat -> Prop.
  Let n := length h.
  Hypothesis edge_lt : forall a b, edge a b -> (a < b)%nat.
  Definition gap (a b : nat) : Q := (nth a h 0 + nth b h 0) / 2.
  Definition adm (z : list Q) : Prop :=
    length z = n /\ (forall i, (i < n)%nat -> nth i h 0 / 2 <= nth i z 0) /\
    (forall a b, edge a b -> (b < n)%nat -> nth a z 0 + gap a b <= nth b z 0).
  Definition sup (z : list Q) : Prop :=
    forall i, (i < n)%nat -> nth i z 0 == nth i h 0 / 2 \/
      exists a, edge a i /\ nth i z 0 == nth a z 0 + gap a i.

  Lemma sup_least z z' : adm z' -> sup z -> forall i, (i < n)%nat -> nth i z 0 <= nth i z' 0.
  Proof.
    intros (_ & Hf & He) Hs i. induction i as [i IH] using lt_wf_ind. intros Hi.
    destruct (Hs i Hi) as [E|(a & Ea & E)].
    - rewrite E. auto.
    - pose proof (edge_lt _ _ Ea). rewrite E. specialize (He _ _ Ea Hi). specialize (IH a H ltac:(lia)). lra.
  Qed.

End Least.

Section Best.
  Variable h : list Q.
  Variable edge : nat -> nat -> Prop.
  Let n := length h.
  Hypothesis edge_lt : forall a b, edge a b -> (a < b)%nat.
  Variable f : list Q.
  Hypothesis f_len : length f = n.
  Hypothesis f_pos : forall i, (i < n)%nat -> 0 < nth i f 0.

  Lemma sup_optimal z : adm h edge z -> sup h edge z -> forall z', adm h edge z' -> dotp f z <= dotp f z'.
  Proof.
    intros Ha Hs z' Ha'. apply (dotp_le f z z'); try (rewrite f_len; apply Ha || apply Ha' || apply f_pos).
    rewrite f_len. apply (sup_least h edge edge_lt); auto.
  Qed.
  Lemma optimal_unique z z' : adm h edge z -> sup h edge z -> adm h edge z' -> dotp f z' <= dotp f z ->
    forall i, (i < n)%nat -> nth i z 0 == nth i z' 0.
  Proof.
    intros Ha Hs Ha' C. rewrite <- f_len.
    apply (dotp_le f z z'); try (rewrite f_len; apply Ha || apply Ha' || apply f_pos); auto.
    rewrite f_len. apply (sup_least h edge edge_lt); auto.
  Qed.

End Best.

Section Exist.
  Variable h : list Q.
  Variable edge : nat -> nat -> Prop.
  Let n := length h.
  Hypothesis edge_lt : forall a b, edge a b -> (a < b)%nat.
  (** existence, for a decidable finite set of edges *)
  Variable edges : list (nat * nat).
  Hypothesis edges_iff : forall a b, In (a, b) edges <-> edge a b.

  Fixpoint top (z : list Q) (i : nat) (l : list (nat * nat)) : Q :=
    match l with
    | [] => nth i h 0 / 2
    | (a, b) :: l' => if Nat.eqb b i then Qmax (nth a z 0 + gap h a i) (top z i l') else top z i l'
    end.
  Lemma top_ge z i l : nth i h 0 / 2 <= top z i l /\
    forall a, In (a, i) l -> nth a z 0 + gap h a i <= top z i l.
  Proof.
    induction l as [|[a b] l [IH1 IH2]]; simpl.
    - split; [lra|tauto].
    - destruct (Nat.eqb_spec b i) as [->|N].
      + split; [eapply Qle_trans; [apply IH1|apply Q.le_max_r]|]. intros a' [E|H].
        * inversion E; subst. apply Q.le_max_l.
        * eapply Qle_trans; [apply IH2; auto|apply Q.le_max_r].
      + split; auto. intros a' [E|H]; [inversion E; congruence|auto].
  Qed.
  Lemma top_eq z i l : top z i l == nth i h 0 / 2 \/ exists a, In (a, i) l /\ top z i l == nth a z 0 + gap h a i.
  Proof.
    induction l as [|[a b] l IH]; simpl; [left; reflexivity|].
    destruct (Nat.eqb_spec b i) as [->|N].
    - destruct (Q.max_spec (nth a z 0 + gap h a i) (top z i l)) as [[_ E]|[_ E]].
      + destruct IH as [IH|(a' & H & IH)]; [left; rewrite E; auto|right; exists a'; rewrite E; auto].
      + right. exists a. split; auto.
    - destruct IH as [IH|(a' & H & IH)]; [auto|right; eauto].
  Qed.
  Lemma least_prefix k : exists z, length z = k /\
    (forall i, (i < k)%nat -> nth i h 0 / 2 <= nth i z 0) /\
    (forall a b, edge a b -> (b < k)%nat -> nth a z 0 + gap h a b <= nth b z 0) /\
    (forall i, (i < k)%nat -> nth i z 0 == nth i h 0 / 2 \/ exists a, edge a i /\ nth i z 0 == nth a z 0 + gap h a i).
  Proof.
    induction k as [|k (z & L & Hf & He & Hs)].
    - exists []. split; auto. split; [intros; lia|]. split; intros; lia.
    - exists (z ++ [top z k edges]). rewrite app_length. simpl. split; [lia|].
      assert (N1 : forall i, (i < k)%nat -> nth i (z ++ [top z k edges]) 0 = nth i z 0)
        by (intros; apply app_nth1; lia).
      assert (N2 : nth k (z ++ [top z k edges]) 0 = top z k edges)
        by (rewrite app_nth2 by lia; rewrite L, Nat.sub_diag; auto).
      split; [|split].
      + intros i Hi. destruct (Nat.eq_dec i k) as [->|N].
        * rewrite N2. apply top_ge.
        * rewrite N1 by lia. apply Hf. lia.
      + intros a b E Hb. pose proof (edge_lt _ _ E). rewrite (N1 a) by lia.
        destruct (Nat.eq_dec b k) as [->|N].
        * rewrite N2. apply top_ge. apply edges_iff; auto.
        * rewrite N1 by lia. apply He; auto. lia.
      + intros i Hi. destruct (Nat.eq_dec i k) as [->|N].
        * rewrite N2. destruct (top_eq z k edges) as [E|(a & Ha & E)]; [auto|].
          right. exists a. apply edges_iff in Ha. split; auto. rewrite N1; auto.
        * rewrite N1 by lia. destruct (Hs i ltac:(lia)) as [E|(a & Ha & E)]; [auto|].
          right. exists a. split; auto. pose proof (edge_lt _ _ Ha). rewrite N1 by lia. auto.
  Qed.
  Lemma least_exists : exists z, adm h edge z /\ sup h edge z.
  Proof.
    destruct (least_prefix n) as (z & L & Hf & He & Hs). exists z. split; [split; auto|auto].
  Qed.
End Exist.

(** ** The program of a network *)
Lemma coo_part (g : nat * nat -> nat) (v : Q) z : forall l a k,
  qsum (map (fun e => let '(r, c, w) := e in if Nat.eqb r k then w * nth c z 0 else 0)
     (map (fun e => (fst e, g (snd e), v)) (combine (seq a (length l)) l)))
  == match nth_error l (k - a) with
     | Some p => if Nat.leb a k then v * nth (g p) z 0 else 0
     | None => 0 end.
Proof.
  induction l as [|p l IH]; intros a k; simpl.
  - destruct (k - a)%nat; reflexivity.
  - rewrite IH. destruct (Nat.eqb_spec a k) as [->|N].
    + rewrite Nat.sub_diag. simpl. rewrite Nat.leb_refl.
      replace (k - S k)%nat with 0%nat by lia.
      destruct l; simpl; [ring|]. destruct k; [ring|]. destruct (Nat.leb_spec (S k) k); [lia|ring].
    + destruct (Nat.leb_spec a k) as [L|L].
      * replace (k - a)%nat with (S (k - S a)) by lia. simpl.
        destruct (nth_error l (k - S a)); [|ring].
        destruct k; [lia|]. destruct (Nat.leb_spec a k); [ring|lia].
      * replace (k - a)%nat with 0%nat by lia. replace (k - S a)%nat with 0%nat by lia. simpl.
        destruct l; [ring|]. simpl. destruct k; [ring|]. destruct (Nat.leb_spec a k); [lia|ring].
Qed.
Lemma qsum_app l l' : qsum (l ++ l') == qsum l + qsum l'.
Proof. induction l; simpl; [ring|rewrite IHl; ring]. Qed.

Lemma eq_all n z z' : length z = n -> length z' = n -> (forall i, (i < n)%nat -> nth i z 0 == nth i z' 0) ->
  same_heights z z'.
Proof.
  unfold same_heights. revert z z'. induction n as [|n IH]; intros [|x z] [|y z'];
    simpl; try discriminate; auto. intros L1 L2 H. constructor; [apply (H 0%nat); lia|].
  apply IH; try lia. intros i Hi. apply (H (S i)). lia.
Qed.

Section Program.
  Variable m : qmat.
  Variable t : net_df.
  Variable p : lp.
  Hypothesis HC : stack_constraint m t = Ok p.
  Let n := length (q_rows m).
  Let h := map qh (q_rows m).
  Let ij := map (fun p => (Z.to_nat (fst p), Z.to_nat (snd p))) (strict_pairs t).

  Lemma prog_inv : mat_check (df_of m) = Ok true /\ net_check t = Ok true /\
    (forall A B, In (A, B) (strict_pairs t) -> (0 <= A < Z.of_nat n)%Z /\ (0 <= B < Z.of_nat n)%Z) /\
    p = mkLp
        (map (fun e => (fst e, fst (snd e), 1)) (combine (seq 0 (length ij)) ij)
          ++ map (fun e => (fst e, snd (snd e), - (1))) (combine (seq 0 (length ij)) ij))
        (map (fun f => np_pi / 4 * (ql f * qb f * qh f)) (q_rows m))
        (map (fun p => 0 - half * (nth (fst p) h 0 + nth (snd p) h 0)) ij) h.
  Proof.
    revert HC. unfold stack_constraint.
    destruct (mat_check (df_of m)) as [b|] eqn:E1; [|discriminate]. simpl.
    destruct (net_check t) as [b'|] eqn:E2; [|discriminate]. simpl.
    apply mat_check_true in E1 as ->. apply net_check_true in E2 as ->.
    destruct (forallb _ (strict_pairs t)) eqn:E3; simpl; [|discriminate].
    intros H; inversion H. split; auto. split; auto. split.
    - intros A B HAB. rewrite forallb_forall in E3. specialize (E3 _ HAB). simpl in E3.
      rewrite !andb_true_iff, !Z.leb_le, !Z.ltb_lt in E3. unfold n. lia.
    - reflexivity.
  Qed.
  Lemma strict_in A B : In (A, B) (strict_pairs t) <-> connected t A B \/
    ((A < B)%Z /\ exists i c, In (i, c) (n_rows t) /\ cA c = A /\ cB c = B).
  Proof.
    unfold strict_pairs, connected. rewrite in_map_iff. split.
    - intros (c & E & Hc). inversion E; subst. apply filter_In in Hc. destruct Hc as [Hc L].
      apply Z.ltb_lt in L. apply in_map_iff in Hc. destruct Hc as ([i c'] & <- & Hc). right.
      split; auto. exists i, c'. auto.
    - intros [[L (k & c & H & <- & <-)]|[L (i & c & H & <- & <-)]].
      + exists c. split; auto. apply filter_In. split; [|apply Z.ltb_lt; auto].
        apply in_map_iff. exists (Z.of_nat k, c). split; auto. eapply nth_error_In; eauto.
      + exists c. split; auto. apply filter_In. split; [|apply Z.ltb_lt; auto].
        apply in_map_iff. exists (i, c). auto.
  Qed.
  Lemma net_rows_ok : net_check t = Ok true -> ~ flag_set (n_attrs t) ->
    forall i c, In (i, c) (n_rows t) -> exists k, is_row t k c.
  Proof.
    intros H Hf i c Hc. apply net_check_ok in H. destruct H as [H|H]; [contradiction|].
    destruct H as (_ & nn & _ & _ & _ & HL & _). apply In_nth_error in Hc. destruct Hc as (k & Hk).
    exists k. unfold is_row. rewrite Hk. f_equal. f_equal. eapply HL; eauto.
  Qed.

  Hypothesis noflag : ~ flag_set (n_attrs t).
  Definition edge (a b : nat) : Prop := connected t (Z.of_nat a) (Z.of_nat b).

  Lemma strict_connected A B : In (A, B) (strict_pairs t) <-> connected t A B.
  Proof.
    rewrite strict_in. split; [|auto]. intros [H|(L & i & c & Hc & EA & EB)]; auto.
    destruct (net_rows_ok (proj1 (proj2 prog_inv)) noflag i c Hc) as (k & Hk).
    split; auto. exists k, c. auto.
  Qed.
  Lemma edge_ij a b : In (a, b) ij <-> edge a b.
  Proof.
    unfold ij, edge. rewrite in_map_iff. split.
    - intros ([A B] & E & H). simpl in E. inversion E; subst.
      destruct (proj1 (proj2 (proj2 prog_inv)) _ _ H) as [HA HB].
      rewrite !Z2Nat.id by lia. apply strict_connected. auto.
    - intros H. apply strict_connected in H. exists (Z.of_nat a, Z.of_nat b). simpl.
      rewrite !Nat2Z.id. auto.
  Qed.
  Lemma edge_lt a b : edge a b -> (a < b)%nat.
  Proof. intros [H _]. lia. Qed.
  Lemma edge_range a b : edge a b -> (b < n)%nat.
  Proof.
    intros H. apply strict_connected in H. apply (proj1 (proj2 (proj2 prog_inv))) in H. lia.
  Qed.

  Lemma h_len : length h = n. Proof. unfold h. apply map_length. Qed.
  Lemma h_nth i f : nth_error (q_rows m) i = Some f -> nth i h 0 = qh f.
  Proof. intros H. unfold h. apply nth_error_nth. rewrite nth_error_map, H. auto. Qed.

  Lemma admissible_adm z : admissible m t z <-> adm h edge z.
  Proof.
    unfold admissible, adm. fold n. rewrite h_len. split.
    - intros (L & H1 & H2). split; auto. split.
      + intros i Hi. destruct (nth_error (q_rows m) i) as [f|] eqn:E; [|apply nth_error_None in E; unfold n in Hi; lia].
        rewrite (h_nth i f E). specialize (H1 (Z.of_nat i) f). unfold height in H1. rewrite Nat2Z.id in H1.
        apply H1. split; [lia|]. rewrite Nat2Z.id. auto.
      + intros a b Hab Hb. pose proof (edge_lt _ _ Hab).
        destruct (nth_error (q_rows m) a) as [f|] eqn:E; [|apply nth_error_None in E; unfold n in Hb; lia].
        destruct (nth_error (q_rows m) b) as [g|] eqn:E'; [|apply nth_error_None in E'; unfold n in Hb; lia].
        unfold gap. rewrite (h_nth a f E), (h_nth b g E').
        specialize (H2 (Z.of_nat a) (Z.of_nat b) f g Hab). unfold height in H2. rewrite !Nat2Z.id in H2.
        assert (X : (qh f + qh g) / 2 <= nth b z 0 - nth a z 0)
          by (apply H2; split; try lia; rewrite Nat2Z.id; auto). lra.
    - intros (L & H1 & H2). split; auto. split.
      + intros i f [Hi E]. unfold height. rewrite <- (h_nth _ f E). apply H1. apply nth_error_Some. congruence.
      + intros A B f g Hc [HA EA] [HB EB]. unfold height. rewrite <- (h_nth _ f EA), <- (h_nth _ g EB).
        assert (X : nth (Z.to_nat A) z 0 + gap h (Z.to_nat A) (Z.to_nat B) <= nth (Z.to_nat B) z 0).
        { apply H2; [unfold edge; rewrite !Z2Nat.id by lia; auto|]. apply nth_error_Some. congruence. }
        unfold gap in X. lra.
  Qed.
  Lemma supported_sup z : supported m t z <-> sup h edge z.
  Proof.
    unfold supported, sup. rewrite h_len. split.
    - intros H i Hi. destruct (nth_error (q_rows m) i) as [f|] eqn:E; [|apply nth_error_None in E; unfold n in Hi; lia].
      destruct (H (Z.of_nat i) f) as [H1|(A & g & Hc & [HA EA] & H1)].
      + split; [lia|]. rewrite Nat2Z.id; auto.
      + unfold height in H1. rewrite Nat2Z.id in H1. left. rewrite (h_nth i f E). auto.
      + unfold height in H1. rewrite Nat2Z.id in H1. right. exists (Z.to_nat A).
        unfold edge. rewrite Z2Nat.id by lia. split; auto. unfold gap. rewrite (h_nth i f E), (h_nth _ g EA). auto.
    - intros H i f [Hi E]. assert (Hn : (Z.to_nat i < n)%nat) by (apply nth_error_Some; congruence).
      destruct (H _ Hn) as [H1|(a & Ha & H1)].
      + left. unfold height. rewrite <- (h_nth _ f E). auto.
      + right. pose proof (edge_lt _ _ Ha).
        destruct (nth_error (q_rows m) a) as [g|] eqn:E'; [|apply nth_error_None in E'; unfold n in Hn; lia].
        exists (Z.of_nat a), g. unfold edge in Ha. rewrite Z2Nat.id in Ha by lia. split; auto.
        unfold has_fiber, height. rewrite Nat2Z.id. split; [split; auto; lia|].
        unfold gap in H1. rewrite (h_nth _ f E), (h_nth _ g E') in H1. auto.
  Qed.

  Lemma row_product z k a b : nth_error ij k = Some (a, b) ->
    coo_row (lpC p) z k == nth a z 0 - nth b z 0.
  Proof.
    intros E. rewrite (proj2 (proj2 (proj2 prog_inv))). cbn [lpC]. unfold coo_row.
    rewrite map_app, qsum_app.
    rewrite (coo_part fst 1 z ij 0 k), (coo_part snd (- (1)) z ij 0 k).
    rewrite Nat.sub_0_r, E. simpl. ring.
  Qed.
  Lemma feasible_iff z : lp_feasible p z <-> admissible m t z.
  Proof.
    rewrite admissible_adm. unfold lp_feasible, adm.
    pose proof (proj2 (proj2 (proj2 prog_inv))) as Ep.
    assert (Eh : lph p = h) by (rewrite Ep; auto).
    assert (EH : lpH p = map (fun p => 0 - half * (nth (fst p) h 0 + nth (snd p) h 0)) ij) by (rewrite Ep; auto).
    rewrite Eh. split.
    - intros (L & H1 & H2). split; auto. split; [auto|]. intros a b Hab Hb.
      apply edge_ij in Hab. apply In_nth_error in Hab. destruct Hab as (k & Hk).
      assert (Lk : (k < length (lpH p))%nat) by (rewrite EH, map_length; apply nth_error_Some; congruence).
      specialize (H1 k Lk). rewrite (row_product z k a b Hk) in H1.
      assert (EN : nth k (lpH p) 0 = 0 - half * (nth a h 0 + nth b h 0))
        by (apply nth_error_nth; rewrite EH, nth_error_map, Hk; auto).
      rewrite EN in H1.
      unfold gap, half in *. qlra.
    - intros (L & H1 & H2). split; auto. split; auto. intros k Lk.
      rewrite EH, map_length in Lk. destruct (nth_error ij k) as [[a b]|] eqn:Hk; [|apply nth_error_None in Hk; lia].
      assert (EN : nth k (lpH p) 0 = 0 - half * (nth a h 0 + nth b h 0))
        by (apply nth_error_nth; rewrite EH, nth_error_map, Hk; auto).
      rewrite (row_product z k a b Hk), EN.
      assert (Hab : edge a b) by (apply edge_ij; eapply nth_error_In; eauto).
      pose proof (edge_range _ _ Hab) as Hb. rewrite <- h_len in Hb. specialize (H2 a b Hab Hb).
      unfold gap, half in *. qlra.
  Qed.

  Lemma weights : length (lpf p) = n /\ forall i, (i < n)%nat -> 0 < nth i (lpf p) 0.
  Proof.
    rewrite (proj2 (proj2 (proj2 prog_inv))). cbn [lpf]. rewrite map_length. split; auto.
    intros i Hi. destruct (nth_error (q_rows m) i) as [f|] eqn:E; [|apply nth_error_None in E; unfold n in Hi; lia].
    erewrite nth_error_nth by (rewrite nth_error_map, E; reflexivity).
    assert (Hv : valid m).
    { pose proof (proj1 prog_inv) as Hc. apply mat_check_ok in Hc. destruct Hc as [Hc|Hc]; [discriminate Hc|exact Hc]. }
    destruct (valid_fiber m Hv f) as (H1 & H2 & H3 & _); [eapply nth_error_In; eauto|].
    assert (0 < np_pi / 4) by reflexivity.
    apply Qmult_lt_0_compat; auto. apply Qmult_lt_0_compat; auto. apply Qmult_lt_0_compat; auto.
  Qed.

  Lemma optimum_exists : exists z, lp_optimal p z /\ supported m t z.
  Proof.
    destruct (least_exists h edge edge_lt ij edge_ij) as (z & Ha & Hs).
    exists z. split; [|apply supported_sup; auto]. split; [apply feasible_iff, admissible_adm; auto|].
    intros z' Hz'. apply feasible_iff, admissible_adm in Hz'.
    apply (sup_optimal h edge edge_lt (lpf p)); auto; rewrite h_len; apply weights.
  Qed.
  Lemma supported_optimal z : admissible m t z -> supported m t z -> lp_optimal p z.
  Proof.
    intros Ha Hs. split; [apply feasible_iff; auto|].
    intros z' Hz'. apply feasible_iff, admissible_adm in Hz'. apply admissible_adm in Ha. apply supported_sup in Hs.
    apply (sup_optimal h edge edge_lt (lpf p)); auto; rewrite h_len; apply weights.
  Qed.
  Lemma optimum_unique z z' : lp_optimal p z -> lp_optimal p z' -> same_heights z z'.
  Proof.
    intros [F1 O1] [F2 O2]. destruct optimum_exists as (w & [Fw Ow] & Hs).
    pose proof (proj1 (feasible_iff _) F1) as A1. pose proof (proj1 (feasible_iff _) F2) as A2.
    pose proof (proj1 (feasible_iff _) Fw) as Aw.
    pose proof (proj1 A1) as L1. pose proof (proj1 A2) as L2.
    apply admissible_adm in A1. apply admissible_adm in A2. apply admissible_adm in Aw. apply supported_sup in Hs.
    apply (eq_all n); auto. intros i Hi. rewrite <- h_len in Hi.
    assert (X1 : nth i w 0 == nth i z 0).
    { apply (optimal_unique h edge edge_lt (lpf p)); auto; rewrite ?h_len; apply weights. }
    assert (X2 : nth i w 0 == nth i z' 0).
    { apply (optimal_unique h edge edge_lt (lpf p)); auto; rewrite ?h_len; apply weights. }
    rewrite <- X1. auto.
  Qed.
  Lemma heights_same_height z z' i : same_heights z z' -> height z i == height z' i.
  Proof. intros H. unfold height. apply (Forall2_nth' Qeq); auto. reflexivity. Qed.
  Lemma optimal_supported z : lp_optimal p z -> supported m t z.
  Proof.
    intros H. destruct optimum_exists as (w & Hw & Hs).
    pose proof (optimum_unique _ _ H Hw) as E. intros i f Hf.
    pose proof (heights_same_height z w i E) as Ei.
    destruct (Hs i f Hf) as [H1|(A & g & Hc & Hg & H1)]; [left; lra|]. right. exists A, g.
    rewrite (heights_same_height z w A E), Ei. auto.
  Qed.

  (** *** the sweep *)
  Hypothesis byA : rows_by_A t.
  Let rows := map snd (n_rows t).

  Lemma put_len i x z : length (put i x z) = length z.
  Proof. revert i. induction z; intros [|i]; simpl; auto. Qed.
  Lemma put_nth i j x z : (i < length z)%nat -> nth j (put i x z) 0 = if Nat.eqb j i then x else nth j z 0.
  Proof.
    revert i j. induction z as [|a z IH]; intros [|i] [|j] H; simpl in *; auto; try lia.
    apply IH. lia.
  Qed.

  Lemma rows_split l1 c l2 : rows = l1 ++ c :: l2 ->
    is_row t (length l1) c /\ forall d, In d l1 -> exists k, (k < length l1)%nat /\ is_row t k d.
  Proof.
    unfold rows. intros E. pose proof (proj1 (proj2 prog_inv)) as Hc.
    apply net_check_ok in Hc. destruct Hc as [Hc|Hc]; [contradiction|].
    destruct Hc as (_ & nn & _ & _ & _ & HL & _).
    assert (N : forall k d, nth_error (l1 ++ c :: l2) k = Some d -> is_row t k d).
    { intros k d Hk. rewrite <- E, nth_error_map in Hk.
      destruct (nth_error (n_rows t) k) as [[i d']|] eqn:Ek; [|discriminate]. simpl in Hk. inversion Hk; subst.
      unfold is_row. rewrite Ek. f_equal. f_equal. eapply HL; eauto. }
    split.
    - apply N. rewrite nth_error_app2 by lia. rewrite Nat.sub_diag. auto.
    - intros d Hd. apply In_nth_error in Hd. destruct Hd as (k & Hk).
      assert (k < length l1)%nat by (apply nth_error_Some; congruence).
      exists k. split; auto. apply N. rewrite nth_error_app1; auto.
  Qed.

  Definition done (l : list conn) (a b : nat) : Prop :=
    (a < b)%nat /\ exists c, In c l /\ cA c = Z.of_nat a /\ cB c = Z.of_nat b.
  Definition swept (l : list conn) (z : list Q) : Prop :=
    length z = n /\ (forall i, (i < n)%nat -> nth i h 0 / 2 <= nth i z 0) /\
    (forall a b, done l a b -> nth a z 0 + gap h a b <= nth b z 0) /\
    (forall i, (i < n)%nat -> nth i z 0 == nth i h 0 / 2 \/
       exists a, done l a i /\ nth i z 0 == nth a z 0 + gap h a i).

  Lemma sweep_inv l2 : forall l1 z, rows = l1 ++ l2 -> swept l1 z ->
    swept rows (fold_left (lift h) l2 z).
  Proof.
    induction l2 as [|c l2 IH]; intros l1 z E HS; simpl.
    - rewrite app_nil_r in E. rewrite E. auto.
    - apply (IH (l1 ++ [c])); [rewrite <- app_assoc; auto|].
      destruct (rows_split l1 c l2 E) as [Hrow Hbefore].
      destruct HS as (L & H1 & H2 & H3).
      assert (Hdone : forall a b, done l1 a b -> done (l1 ++ [c]) a b).
      { intros a b (Hab & d & Hd & EA & EB). split; auto. exists d. rewrite in_app_iff. auto. }
      unfold lift. destruct (Z.ltb_spec (cA c) (cB c)) as [Lab|Lab].
      + assert (Hst : In (cA c, cB c) (strict_pairs t)).
        { apply strict_connected. split; auto. exists (length l1), c. auto. }
        destruct (proj1 (proj2 (proj2 prog_inv)) _ _ Hst) as [RA RB].
        set (A := Z.to_nat (cA c)) in *. set (B := Z.to_nat (cB c)) in *.
        assert (HAB : (A < B)%nat) by (unfold A, B; lia). assert (HB : (B < n)%nat) by (unfold B; lia).
        unfold height. fold A B.
        set (x := Qmax (nth B z 0) (nth A z 0 + (nth A h 0 + nth B h 0) / 2)).
        assert (Hx1 : nth B z 0 <= x) by apply Q.le_max_l.
        assert (Hx2 : nth A z 0 + gap h A B <= x) by apply Q.le_max_r.
        assert (Hx3 : x == nth B z 0 \/ x == nth A z 0 + gap h A B).
        { destruct (Q.max_spec (nth B z 0) (nth A z 0 + (nth A h 0 + nth B h 0) / 2)) as [[_ X]|[_ X]]; auto. }
        clearbody x.
        assert (P : forall j, nth j (put B x z) 0 = if Nat.eqb j B then x else nth j z 0)
          by (intros; apply put_nth; lia).
        assert (NB : forall b, ~ done l1 B b).
        { intros b (Hb & d & Hd & EA & EB). destruct (Hbefore d Hd) as (k & Hk & Hr).
          pose proof (byA _ _ _ _ Hk Hr Hrow) as C. rewrite EA in C. unfold B in *. lia. }
        assert (Hle : forall i, nth i z 0 <= nth i (put B x z) 0).
        { intros i. rewrite P. destruct (Nat.eqb_spec i B) as [->|]; lra. }
        assert (Hnew : done (l1 ++ [c]) A B).
        { split; auto. exists c. rewrite in_app_iff. simpl. unfold A, B. rewrite !Z2Nat.id by lia. auto. }
        split; [rewrite put_len; auto|]. split; [|split].
        * intros i Hi. eapply Qle_trans; [apply H1; auto|apply Hle].
        * intros a b (Hab & d & Hd & EA & EB). apply in_app_iff in Hd. destruct Hd as [Hd|[<-|[]]].
          -- assert (Hd' : done l1 a b) by (split; auto; exists d; auto).
             assert (a <> B) by (intros ->; eapply NB; eauto).
             rewrite (P a). destruct (Nat.eqb_spec a B); [contradiction|].
             eapply Qle_trans; [apply H2; auto|apply Hle].
          -- assert (a = A) by (unfold A; lia). assert (b = B) by (unfold B; lia). subst a b.
             rewrite (P A), (P B), Nat.eqb_refl. destruct (Nat.eqb_spec A B); [lia|]. auto.
        * intros i Hi. assert (Hcase : (exists a, done l1 a i /\ nth i z 0 == nth a z 0 + gap h a i) ->
             nth i (put B x z) 0 == nth i z 0 ->
             exists a, done (l1 ++ [c]) a i /\ nth i (put B x z) 0 == nth a (put B x z) 0 + gap h a i).
          { intros (a & Ha & E1) E2. exists a. split; auto.
            assert (a <> B) by (intros ->; eapply NB; eauto).
            rewrite (P a). destruct (Nat.eqb_spec a B); [contradiction|]. rewrite E2. auto. }
          destruct (Nat.eq_dec i B) as [->|Ni].
          -- destruct Hx3 as [Hx3|Hx3].
             ++ assert (E2 : nth B (put B x z) 0 == nth B z 0) by (rewrite P, Nat.eqb_refl; auto).
                destruct (H3 B HB) as [H|H]; [left; rewrite E2; auto|right; auto].
             ++ right. exists A. split; auto. rewrite (P A), (P B), Nat.eqb_refl.
                destruct (Nat.eqb_spec A B); [lia|]. auto.
          -- assert (E2 : nth i (put B x z) 0 == nth i z 0)
               by (rewrite P; destruct (Nat.eqb_spec i B); [contradiction|reflexivity]).
             destruct (H3 i Hi) as [H|H]; [left; rewrite E2; auto|right; auto].
      + split; auto. split; auto. split.
        * intros a b (Hab & d & Hd & EA & EB). apply in_app_iff in Hd. destruct Hd as [Hd|[<-|[]]]; [|lia].
          apply H2. split; auto. exists d; auto.
        * intros i Hi. destruct (H3 i Hi) as [H|(a & Ha & H)]; [auto|]. right. exists a. auto.
  Qed.
  Lemma sweep_start : swept [] (map (fun f => qh f / 2) (q_rows m)).
  Proof.
    assert (E : forall i, (i < n)%nat -> nth i (map (fun f => qh f / 2) (q_rows m)) 0 = nth i h 0 / 2).
    { intros i Hi. destruct (nth_error (q_rows m) i) as [f|] eqn:E; [|apply nth_error_None in E; unfold n in Hi; lia].
      rewrite (h_nth i f E). apply nth_error_nth. rewrite nth_error_map, E. auto. }
    split; [apply map_length|]. split; [|split].
    - intros i Hi. rewrite E; auto. lra.
    - intros a b (_ & c & [] & _).
    - intros i Hi. left. rewrite E; auto. reflexivity.
  Qed.
  Lemma done_edge a b : done rows a b <-> edge a b.
  Proof.
    unfold edge. rewrite <- strict_connected, strict_in. unfold done, rows. split.
    - intros (L & c & Hc & EA & EB). apply in_map_iff in Hc. destruct Hc as ([i c'] & <- & Hc).
      right. split; [lia|]. exists i, c'. auto.
    - intros [(L & k & c & Hc & EA & EB)|(L & i & c & Hc & EA & EB)].
      + split; [lia|]. exists c. split; auto. apply in_map_iff. exists (Z.of_nat k, c). split; auto.
        eapply nth_error_In; eauto.
      + split; [lia|]. exists c. split; auto. apply in_map_iff. exists (i, c). auto.
  Qed.
  Lemma sweep_adm : admissible m t (sweep m t) /\ supported m t (sweep m t).
  Proof.
    pose proof (sweep_inv rows [] (map (fun f => qh f / 2) (q_rows m)) eq_refl sweep_start) as H.
    change (fold_left (lift h) rows (map (fun f => qh f / 2) (q_rows m))) with (sweep m t) in H.
    destruct H as (L & H1 & H2 & H3). split.
    - apply admissible_adm. unfold adm. rewrite h_len. split; auto. split; auto.
      intros a b Hab Hb. apply H2. apply done_edge; auto.
    - apply supported_sup. unfold sup. rewrite h_len. intros i Hi.
      destruct (H3 i Hi) as [H|(a & Ha & H)]; [auto|]. right. exists a. rewrite <- done_edge. auto.
  Qed.
  Lemma sweep_optimal : lp_optimal p (sweep m t).
  Proof. apply supported_optimal; apply sweep_adm. Qed.
End Program.
