(** One step of the solver loop on finite data. *)
From Coq Require Import String Permutation.
From Verif Require Import Num NumP ListX ListP Frames MatM NetM MeshM ModelM SolverM Spec SpecNet SpecMesh SpecModel
  StiffP StiffLimP.
Open Scope Q_scope.

Definition fin (x : num) : Prop := exists q, x = Fin q.

(** *** lists *)
Lemma combine_nth_eq {A B} (l : list A) : forall (l' : list B) k, nth_error (combine l l') k =
  match nth_error l k, nth_error l' k with Some a, Some b => Some (a, b) | _, _ => None end.
Proof.
  induction l as [|x l IH]; intros [|y l'] [|k]; simpl; auto.
  - destruct (nth_error l k); auto.
Qed.
Lemma seq_nth_eq n : forall a k, nth_error (seq a n) k = if Nat.ltb k n then Some (a + k)%nat else None.
Proof.
  induction n as [|n IH]; intros a k; [destruct k; auto|]. destruct k; simpl.
  - f_equal. lia.
  - rewrite IH. change (S k <? S n)%nat with (k <? n)%nat. destruct (Nat.ltb k n); auto. f_equal. lia.
Qed.
Lemma indexed_nth {A} (l : list A) k : nth_error (combine (seq 0 (length l)) l) k = option_map (pair k) (nth_error l k).
Proof.
  rewrite combine_nth_eq, seq_nth_eq. destruct (Nat.ltb_spec k (length l)) as [H|H].
  - destruct (nth_error l k); auto.
  - apply nth_error_None in H. rewrite H. auto.
Qed.
Lemma nth_of {A} (l : list A) k d : nth k l d = match nth_error l k with Some a => a | None => d end.
Proof. destruct (nth_error l k) eqn:E; [apply nth_error_nth; auto|apply nth_overflow, nth_error_None; auto]. Qed.

(** *** places, scatter *)
Lemma places_in a r l : In a (places r l) <-> nth_error l a = Some r.
Proof.
  unfold places. rewrite in_map_iff. split.
  - intros ([k y] & E & H). simpl in E. subst k. apply filter_In in H. destruct H as [H E]. simpl in E.
    apply Nat.eqb_eq in E. subst y. apply In_nth_error in H. destruct H as (i & H). rewrite indexed_nth in H.
    destruct (nth_error l i) eqn:E; inversion H; subst. auto.
  - intros H. exists (a, r). split; auto. apply filter_In. split; [|simpl; apply Nat.eqb_refl].
    apply (nth_error_In _ a). rewrite indexed_nth, H. auto.
Qed.
Lemma scatter_length dx ps sol : length (scatter dx ps sol) = length dx.
Proof. unfold scatter. rewrite map_length, combine_length, seq_length. lia. Qed.
Lemma scatter_nth dx ps sol r : nth_error (scatter dx ps sol) r =
  option_map (fun old => match rev (places r ps) with a :: _ => nth a sol NaN | [] => old end) (nth_error dx r).
Proof. unfold scatter. rewrite nth_error_map, indexed_nth. destruct (nth_error dx r); auto. Qed.
Lemma scatter_case dx ps sol r old : nth_error dx r = Some old ->
  (In r ps /\ exists a, nth_error ps a = Some r /\ nth_error (scatter dx ps sol) r = Some (nth a sol NaN)) \/
  (~ In r ps /\ nth_error (scatter dx ps sol) r = Some old).
Proof.
  intros H. rewrite scatter_nth, H. simpl. destruct (rev (places r ps)) as [|a l] eqn:E.
  - right. split; auto. intros C. apply In_nth_error in C. destruct C as (a & C). apply places_in in C.
    apply in_rev in C. rewrite E in C. destruct C.
  - left. assert (C : In a (places r ps)) by (apply in_rev; rewrite E; left; auto). apply places_in in C.
    split; [eapply nth_error_In; eauto|]. exists a. auto.
Qed.

(** *** sums *)
Lemma nsum_fin l : (forall x, In x l -> fin x) -> nsum l = Fin (qsum (map qof l)).
Proof.
  induction l as [|x l IH]; intros H; simpl; auto. rewrite IH by (intros; apply H; right; auto).
  destruct (H x (or_introl eq_refl)) as (q & ->). reflexivity.
Qed.
Lemma nadd_nan x : nadd x NaN = NaN.
Proof. destruct x; auto. Qed.
Lemma nsum_nan l : In NaN l -> nsum l = NaN.
Proof. induction l as [|x l IH]; intros H; [destruct H|]. simpl. destruct H as [->|H]; [auto|]. rewrite IH by auto. apply nadd_nan. Qed.
Lemma nmul_fin_inv x y : fin (nmul x y) -> fin x /\ fin y.
Proof.
  unfold fin. destruct x as [a| | |], y as [b| | |]; simpl; intros [q H]; try discriminate H; try (destruct (qsgn _); discriminate H).
  split; eexists; eauto.
Qed.
Lemma nadd_fin_inv x y : fin (nadd x y) -> fin x /\ fin y.
Proof. unfold fin. destruct x, y; simpl; intros [r H]; try discriminate H. split; eexists; eauto. Qed.
Lemma nsum_fin_inv l : fin (nsum l) -> forall x, In x l -> fin x.
Proof.
  induction l as [|y l IH]; intros H x Hx; [destruct Hx|]. simpl in H. apply nadd_fin_inv in H. destruct H as [H1 H2].
  destruct Hx as [->|Hx]; auto.
Qed.
Lemma fin_dec x : fin x \/ ~ fin x.
Proof. destruct x; [left; eexists; eauto|right; intros (q & H); discriminate H ..]. Qed.

Lemma eqb_trans x y z : Nat.eqb x y = true -> Nat.eqb y z = true -> Nat.eqb x z = true.
Proof. rewrite !Nat.eqb_eq. congruence. Qed.

Section System.
  Variable P : ncoo.
  Variable n : nat.
  Definition fin_row (r : nat) : Prop := forall c v, In (r, c, v) P -> fin v.
  Definition dead (r : nat) : Prop := exists v, In (r, r, v) P /\ ~ fin v.
  Hypothesis idx : forall r c v, In (r, c, v) P -> (r < n /\ c < n)%nat.
  Hypothesis sym : forall r c, neqv (entry P r c) (entry P c r).
  Hypothesis rows : forall r, fin_row r \/ dead r.

  Lemma matvec_fin x r : length x = n -> (forall c, (c < n)%nat -> fin (nth c x NaN)) -> fin_row r ->
    matvec P x r = Fin (product P (map qof x) r).
  Proof.
    intros L HX HR. unfold matvec, product. rewrite nsum_fin.
    - rewrite map_map. f_equal. f_equal. apply map_ext_in. intros [[i c] v] H.
      destruct (Nat.eqb_spec i r) as [->|N]; [|reflexivity]. destruct (HR c v H) as (q & ->).
      destruct (idx _ _ _ H) as [_ Lc]. destruct (HX c Lc) as (a & Ea). rewrite Ea. simpl.
      rewrite (nth_of (map qof x)), nth_error_map. rewrite nth_of in Ea. destruct (nth_error x c); [|discriminate Ea].
      simpl. subst. reflexivity.
    - intros z Hz. apply in_map_iff in Hz. destruct Hz as ([[i c] v] & <- & H).
      destruct (Nat.eqb_spec i r) as [->|N]; [|eexists; reflexivity]. destruct (HR c v H) as (q & ->).
      destruct (idx _ _ _ H) as [_ Lc]. destruct (HX c Lc) as (a & Ea). rewrite Ea. eexists. reflexivity.
  Qed.
  Lemma matvec_dead x r : dead r -> (exists q, nth r x NaN = Fin q /\ q == 0) -> matvec P x r = NaN.
  Proof.
    intros (v & Hv & N) (q & Ex & Zq). unfold matvec. apply nsum_nan. apply in_map_iff. exists (r, r, v). split; auto.
    rewrite Nat.eqb_refl, Ex. assert (Z : qsgn q = Eq) by (unfold qsgn; apply Qeq_alt; auto).
    assert (Z' : qsgn (- q) = Eq) by (unfold qsgn; apply Qeq_alt; rewrite Zq; reflexivity).
    destruct v; simpl; try rewrite Z; try rewrite Z'; auto. destruct N. eexists; eauto.
  Qed.
  Lemma matvec_nan x r c v : In (r, c, v) P -> nth c x NaN = NaN -> matvec P x r = NaN.
  Proof.
    intros H E. unfold matvec. apply nsum_nan. apply in_map_iff. exists (r, c, v). split; auto.
    rewrite Nat.eqb_refl, E. destruct v; auto.
  Qed.
  Lemma entry_fin r c : fin_row r -> fin (entry P r c).
  Proof.
    intros H. unfold entry. rewrite nsum_fin; [eexists; reflexivity|]. intros v Hv. apply in_map_iff in Hv.
    destruct Hv as ([[i j] w] & <- & Hw). apply filter_In in Hw. destruct Hw as [Hw E]. simpl in E.
    apply andb_true_iff in E. destruct E as [E _]. apply Nat.eqb_eq in E. subst i. simpl. eapply H; eauto.
  Qed.
  (** a row as a sum over columns *)
  Lemma product_cols y r : fin_row r ->
    product P y r == qsum (map (fun c => qof (entry P r c) * nth c y 0) (seq 0 n)).
  Proof.
    assert (G : forall P', (forall c v, In (r, c, v) P' -> fin v) -> (forall i c v, In (i, c, v) P' -> (c < n)%nat) ->
      product P' y r == qsum (map (fun c => qof (entry P' r c) * nth c y 0) (seq 0 n))).
    { induction P' as [|[[i j] v] P' IH]; intros HF HI.
      - unfold product. simpl. symmetry. apply qsum_zeros. intros z Hz. apply in_map_iff in Hz. destruct Hz as (c & <- & _).
        unfold entry. simpl. ring.
      - pose proof (IH (fun c v H => HF c v (or_intror H)) (fun i c v H => HI i c v (or_intror H))) as IH'. clear IH.
        change (product ((i, j, v) :: P') y r) with ((if Nat.eqb i r then qof v * nth j y 0 else 0) + product P' y r).
        rewrite IH'. clear IH'. pose proof (HI i j v (or_introl eq_refl)) as Lj.
        assert (FE : forall c, fin (entry P' r c)).
        { intros c. unfold entry. rewrite nsum_fin; [eexists; reflexivity|]. intros w Hw. apply in_map_iff in Hw.
          destruct Hw as ([[i' j'] w'] & <- & Hw). apply filter_In in Hw. destruct Hw as [Hw E]. simpl in E.
          apply andb_true_iff in E. destruct E as [E _]. apply Nat.eqb_eq in E. subst i'. simpl. eapply HF; right; eauto. }
        destruct (Nat.eqb_spec i r) as [->|N].
        + destruct (HF j v (or_introl eq_refl)) as (q & ->). simpl qof.
          assert (S1 : q * nth j y 0 == qsum (map (fun c => (if Nat.eqb j c then q else 0) * nth c y 0) (seq 0 n))).
          { rewrite <- (qsum_pick (fun c => q * nth c y 0) j n 0) by lia. apply qsum_ext. intros c _.
            destruct (Nat.eqb j c); ring. }
          rewrite S1, <- qsum_plus. apply qsum_ext. intros c _. rewrite entry_cons, Nat.eqb_refl. simpl andb.
          destruct (FE c) as (w & Ew). rewrite Ew. destruct (Nat.eqb j c); simpl; ring.
        + rewrite Qplus_0_l. apply qsum_ext. intros c _. rewrite entry_cons.
          destruct (Nat.eqb_spec i r); [congruence|]. reflexivity. }
    intros HR. apply G; [exact HR|]. intros i c v H. apply (idx _ _ _ H).
  Qed.
  Lemma zero_col r : fin_row r -> nltb (Fin 0) (colsum P r) = false -> forall y, product P y r == 0.
  Proof.
    intros HR HC y. rewrite product_cols by auto. apply qsum_zeros. intros z Hz. apply in_map_iff in Hz.
    destruct Hz as (c & <- & _). setoid_replace (qof (entry P r c)) with 0; [ring|].
    assert (FE : forall c, fin (entry P c r)).
    { intros c'. pose proof (sym c' r) as S. destruct (entry_fin r c' HR) as (q & Eq). rewrite Eq in S.
      destruct (entry P c' r); try contradiction. eexists; reflexivity. }
    pose proof (sym r c) as S. destruct (entry_fin r c HR) as (q & Eq). rewrite Eq in *. simpl.
    destruct (FE c) as (w & Ew). rewrite Ew in S. simpl in S. rewrite S. clear S Eq q.
    unfold colsum in HC. set (rs := dedup _ _) in HC. rewrite nsum_fin in HC.
    2:{ intros v Hv. apply in_map_iff in Hv. destruct Hv as (k & <- & _). destruct (FE k) as (a & ->). eexists; reflexivity. }
    simpl in HC. qb.
    destruct (in_dec Nat.eq_dec c (map (fun e : nat * nat * num => fst (fst e)) (filter (fun e => Nat.eqb (snd (fst e)) r) P))) as [I|I].
    - apply (dedup_complete Nat.eqb Nat.eqb_refl eqb_trans) in I.
      destruct I as (c' & I & E). apply Nat.eqb_eq in E. subst c'.
      assert (Z : Qabs w == 0).
      { assert (T : qsum (map qof (map (fun r0 => nabs (entry P r0 r)) rs)) == 0).
        { apply Qle_antisym; auto. apply qsum_nonneg. intros v Hv. apply in_map_iff in Hv. destruct Hv as (v' & <- & Hv).
          apply in_map_iff in Hv. destruct Hv as (k & <- & _). destruct (FE k) as (a & ->). apply Qabs_nonneg. }
        apply (qsum_zero_all _ ) with (x := Qabs w) in T; auto.
        - intros v Hv. apply in_map_iff in Hv. destruct Hv as (v' & <- & Hv).
          apply in_map_iff in Hv. destruct Hv as (k & <- & _). destruct (FE k) as (a & ->). apply Qabs_nonneg.
        - apply in_map_iff. exists (Fin (Qabs w)). split; auto. apply in_map_iff. exists c. rewrite Ew. auto. }
      pose proof (Qle_Qabs w). pose proof (Qle_Qabs (- w)). rewrite Qabs_opp in *. lra.
    - assert (E0 : entry P c r = Fin 0).
      { apply entry_none. intros v Hv. apply I. apply in_map_iff. exists (c, r, v). split; auto. apply filter_In. split; auto.
        simpl. apply Nat.eqb_refl. }
      rewrite E0 in Ew. inversion Ew. reflexivity.
  Qed.
End System.

(** *** minimum *)
Lemma min_from_fin l : forall a, (forall x, In x l -> fin x) ->
  exists t, min_from (Fin a) l = Fin t /\ In (Fin t) (Fin a :: l) /\ t <= a /\ forall x, In x l -> t <= qof x.
Proof.
  induction l as [|y l IH]; intros a H; simpl.
  - exists a. split; auto. split; auto. split; [lra|]. intros x [].
  - destruct (H y (or_introl eq_refl)) as (b & ->). simpl. destruct (Qltb a b) eqn:E1, (Qltb b a) eqn:E2; qb; try lra;
    (destruct (IH b ltac:(intros; apply H; right; auto)) as (t & E & I & L & M) || idtac).
    + destruct (IH a ltac:(intros; apply H; right; auto)) as (t' & E' & I' & L' & M').
      exists t'. split; auto. split; [simpl in *; tauto|]. split; auto. intros x [<-|Hx]; simpl; [lra|auto].
    + exists t. split; auto. split; [simpl in *; tauto|]. split; [lra|]. intros x [<-|Hx]; simpl; [lra|auto].
    + destruct (IH a ltac:(intros; apply H; right; auto)) as (t' & E' & I' & L' & M').
      exists t'. split; auto. split; [simpl in *; tauto|]. split; auto. intros x [<-|Hx]; simpl; [lra|auto].
Qed.
Lemma py_min_fin l : (forall x, In x l -> fin x) -> forall m, py_min l = Some m ->
  exists t, m = Fin t /\ In (Fin t) l /\ forall x, In x l -> t <= qof x.
Proof.
  destruct l as [|a l]; intros H m E; [discriminate E|]. simpl in E. inversion E; subst m.
  destruct (H a (or_introl eq_refl)) as (q & ->).
  destruct (min_from_fin l q ltac:(intros; apply H; right; auto)) as (t & -> & I & L & M).
  exists t. split; auto. split; auto. intros x [<-|Hx]; auto.
Qed.

Lemma product_linear P x y z t r : (forall c, nth c z 0 == nth c x 0 - t * nth c y 0) ->
  product P z r == product P x r - t * product P y r.
Proof.
  intros H. unfold product. induction P as [|[[i c] v] P IH]; simpl; [ring|]. rewrite IH.
  destruct (Nat.eqb i r); [rewrite H|]; ring.
Qed.
Lemma nth_qof x r : nth r (map qof x) 0 = qof (nth r x NaN).
Proof. change 0 with (qof NaN). apply map_nth. Qed.
Lemma gaps_length P x q : length (gaps P x q) = length q.
Proof. unfold gaps. rewrite map_length, combine_length, seq_length. lia. Qed.
Lemma gaps_nth P x q r : nth_error (gaps P x q) r = option_map (fun b => nsub b (matvec P x r)) (nth_error q r).
Proof. unfold gaps. rewrite nth_error_map, indexed_nth. destruct (nth_error q r); auto. Qed.

Lemma product_filter P (mask : list bool) y r : nth r mask false = true ->
  (forall c, nth c mask false = false -> nth c y 0 == 0) ->
  product (filter (fun e => nth (fst (fst e)) mask false && nth (snd (fst e)) mask false) P) y r == product P y r.
Proof.
  intros Hr Hy. unfold product. induction P as [|[[i c] w] P IH]; simpl; [reflexivity|].
  destruct (nth i mask false && nth c mask false) eqn:E; simpl.
  - rewrite IH. reflexivity.
  - rewrite IH. destruct (Nat.eqb_spec i r) as [->|N]; [|ring]. rewrite Hr in E. simpl in E. rewrite (Hy c E). ring.
Qed.

Section Step.
  Variable lsolve : ncoo -> list num -> list num.
  Variable S : sysdata.
  Let P := sy_P S.
  Let dq := sy_dq S.
  Let n := length dq.
  Let tol := sy_tol S.
  Let errtol := sy_errtol S.
  Hypothesis idx : forall r c v, In (r, c, v) P -> (r < n /\ c < n)%nat.
  Hypothesis sym : forall r c, neqv (entry P r c) (entry P c r).
  Hypothesis rows : forall r, fin_row P r \/ dead P r.
  Hypothesis dqfin : forall r, (r < n)%nat -> fin (nth r dq NaN).
  Hypothesis lens : forall A b, length (lsolve A b) = length b.

  Definition dqr (r : nat) : Q := qof (nth r (sy_dq S) NaN).
  (** rows without effect on the displacements *)
  Definition free (r : nat) : Prop := fin_row (sy_P S) r /\ dqr r == 0 /\ forall y, product (sy_P S) y r == 0.
  Definition xs (s : state) : list Q := map qof (st_x s).
  Definition D (s : state) (r : nat) : Q := qof (nth r (st_q s) NaN) - product (sy_P S) (xs s) r.
  Definition V (y : list Q) (r : nat) : Q := dqr r - product (sy_P S) y r.
  Definition qfin (s : state) (r : nat) : Prop := fin (nth r (st_q s) NaN).
  Definition act (s : state) (r : nat) : Prop := nth r (active S (gaps (sy_P S) (st_x s) (st_q s))) false = true.

  Record Inv (s : state) : Prop := mkInv {
    inv_x : length (st_x s) = length (sy_dq S); inv_dx : length (st_dx s) = length (sy_dq S);
    inv_q : length (st_q s) = length (sy_dq S);
    inv_xf : forall r, (r < length (sy_dq S))%nat -> fin (nth r (st_x s) NaN);
    inv_dxf : forall r, (r < length (sy_dq S))%nat -> fin (nth r (st_dx s) NaN);
    inv_dead : forall r, dead (sy_P S) r -> nth r (xs s) 0 == 0;
    inv_qf : forall r, (r < length (sy_dq S))%nat -> qfin s r \/ (nth r (st_q s) NaN = PInf /\ free r);
    inv_Z : fin (st_Z s)
  }.

  Lemma not_both r : fin_row P r -> dead P r -> False.
  Proof. intros H (v & Hv & N). apply N. eapply H; eauto. Qed.
  Lemma dead_lt r : dead P r -> (r < n)%nat.
  Proof. intros (v & Hv & _). apply (idx _ _ _ Hv). Qed.

  Lemma gap_case s r : Inv s -> (r < n)%nat ->
    (fin_row P r /\ qfin s r /\ nth_error (gaps P (st_x s) (st_q s)) r = Some (Fin (D s r))) \/
    (free r /\ nth r (st_q s) NaN = PInf /\ nth_error (gaps P (st_x s) (st_q s)) r = Some PInf) \/
    (dead P r /\ nth_error (gaps P (st_x s) (st_q s)) r = Some NaN).
  Proof.
    intros I L. rewrite gaps_nth. destruct (nth_error (st_q s) r) as [b|] eqn:Eb.
    2:{ apply nth_error_None in Eb. rewrite (inv_q s I) in Eb. unfold n, dq in L. lia. }
    assert (En : nth r (st_q s) NaN = b) by (apply nth_error_nth; auto).
    simpl. destruct (rows r) as [HR|HD].
    - rewrite (matvec_fin P n idx _ _ (inv_x s I) (inv_xf s I) HR).
      destruct (inv_qf s I r L) as [[q Q]|[Q F]].
      + left. split; auto. split; [exists q; auto|]. rewrite En in Q. subst b. simpl. unfold D. rewrite Q. reflexivity.
      + right. left. split; auto. split; auto. rewrite <- En, Q. reflexivity.
    - right. right. split; auto. rewrite matvec_dead; auto.
      + destruct b; auto.
      + destruct (inv_xf s I r L) as (q & E). exists q. split; auto. pose proof (inv_dead s I r HD) as Z. unfold xs in Z.
        rewrite nth_qof, E in Z. auto.
  Qed.
  Lemma active_nth d r : nth r (active S d) false =
    match nth_error d r with Some g => nleb g (Fin tol) && nltb (Fin 0) (colsum P r) | None => false end.
  Proof.
    unfold active. rewrite nth_of, nth_error_map, indexed_nth. destruct (nth_error d r); auto.
  Qed.
  Lemma nleb_pinf q : nleb PInf (Fin q) = false.
  Proof. reflexivity. Qed.
  Lemma nleb_q a b : nleb (Fin a) (Fin b) = true <-> a <= b.
  Proof.
    unfold nleb. simpl. rewrite orb_true_iff. split; [intros [H|H]; qb; lra|].
    intros H. destruct (Qlt_le_dec a b); [left|right]; qb; lra.
  Qed.
  Lemma act_fin s r : Inv s -> act s r <->
    ((r < n)%nat /\ fin_row P r /\ qfin s r /\ D s r <= tol /\ nltb (Fin 0) (colsum P r) = true).
  Proof.
    intros I. unfold act. rewrite active_nth. fold P. split.
    - intros H. destruct (Nat.lt_ge_cases r n) as [L|L].
      2:{ rewrite (proj2 (nth_error_None _ _)) in H; [discriminate H|]. rewrite gaps_length, (inv_q s I). exact L. }
      destruct (gap_case s r I L) as [(A & B & E)|[(A & _ & E)|(A & E)]]; rewrite E in H; try discriminate H.
      apply andb_true_iff in H. destruct H as [H1 H2]. apply nleb_q in H1. auto.
    - intros (L & A & B & C & E). destruct (gap_case s r I L) as [(_ & _ & G)|[(_ & Q & _)|(Dd & _)]].
      + rewrite G. apply andb_true_iff. split; auto. apply nleb_q. auto.
      + destruct B as (q & B). rewrite B in Q. discriminate Q.
      + destruct (not_both r A Dd).
  Qed.
  Lemma act_dec s r : act s r \/ ~ act s r.
  Proof. unfold act. destruct (nth r _ false); auto. Qed.

  (** positions solved for *)
  Definition ps (s : state) : list nat := filter (fun r => nth r (active S (gaps (sy_P S) (st_x s) (st_q s))) false) (sy_perm S).
  Definition answer (s : state) : list num :=
    lsolve (submatrix (sy_P S) (ps s)) (map (fun r => nth r (sy_dq S) NaN) (ps s)).
  Definition dxn (s : state) : list num := increment lsolve S s (active S (gaps (sy_P S) (st_x s) (st_q s))).
  Lemma dxn_eq s : dxn s = scatter (map (fun v => nmul v (Fin 0)) (st_dx s)) (ps s) (answer s).
  Proof. reflexivity. Qed.
  Lemma dxn_length s : Inv s -> length (dxn s) = n.
  Proof. intros I. rewrite dxn_eq, scatter_length, map_length. apply (inv_dx s I). Qed.
  Lemma ps_act s r : In r (ps s) <-> In r (sy_perm S) /\ act s r.
  Proof. unfold ps. rewrite filter_In. tauto. Qed.
  Lemma dxn_case s r : Inv s -> (r < n)%nat ->
    (In r (ps s) /\ exists v, In v (answer s) /\ nth r (dxn s) NaN = v) \/
    (~ In r (ps s) /\ exists q, nth r (dxn s) NaN = Fin q /\ q == 0).
  Proof.
    intros I L. rewrite dxn_eq.
    destruct (nth_error (st_dx s) r) as [w|] eqn:Ew.
    2:{ apply nth_error_None in Ew. rewrite (inv_dx s I) in Ew. unfold n, dq in L. lia. }
    assert (Eo : nth_error (map (fun v => nmul v (Fin 0)) (st_dx s)) r = Some (nmul w (Fin 0))) by (rewrite nth_error_map, Ew; auto).
    destruct (scatter_case _ (ps s) (answer s) r _ Eo) as [[H (a & Ha & E)]|[H E]].
    - left. split; auto. exists (nth a (answer s) NaN). split; [|apply nth_error_nth; auto]. apply nth_In.
      unfold answer. rewrite lens, map_length. apply nth_error_Some. congruence.
    - right. split; auto. destruct (inv_dxf s I r L) as (q & Eq). rewrite (nth_error_nth _ _ _ Ew) in Eq. subst w.
      exists (q * 0). split; [apply nth_error_nth; auto|ring].
  Qed.

  Section Finite.
    Variable s : state.
    Hypothesis I : Inv s.
    Hypothesis fin_answer : forall v, In v (answer s) -> fin v.
    Let y := map qof (dxn s).
    Lemma dxn_fin r : (r < n)%nat -> fin (nth r (dxn s) NaN).
    Proof.
      intros L. destruct (dxn_case s r I L) as [(_ & v & Hv & ->)|(_ & q & -> & _)]; [auto|eexists; eauto].
    Qed.
    Lemma y_zero r : ~ act s r -> nth r y 0 == 0.
    Proof.
      intros N. unfold y. rewrite nth_qof. destruct (Nat.lt_ge_cases r n) as [L|L].
      - destruct (dxn_case s r I L) as [(H & _)|(_ & q & -> & Z)]; [|exact Z]. apply ps_act in H. tauto.
      - rewrite nth_overflow; [reflexivity|]. rewrite dxn_length; auto.
    Qed.
    Let v := gaps P (dxn s) dq.
    Lemma v_case r : (r < n)%nat -> (fin_row P r /\ nth_error v r = Some (Fin (V y r))) \/ (dead P r /\ nth_error v r = Some NaN).
    Proof.
      intros L. unfold v. rewrite gaps_nth. destruct (dqfin r L) as (b & Eb).
      assert (En : nth_error dq r = Some (Fin b)).
      { rewrite nth_of in Eb. destruct (nth_error dq r); [congruence|discriminate Eb]. }
      rewrite En. simpl. destruct (rows r) as [HR|HD].
      - left. split; auto. rewrite (matvec_fin P n idx _ _ (dxn_length s I) dxn_fin HR). simpl. unfold V, dqr. fold dq.
        rewrite Eb. reflexivity.
      - right. split; auto. rewrite matvec_dead; auto.
        destruct (dxn_fin r L) as (q & E). exists q. split; auto.
        assert (Z : nth r y 0 == 0).
        { apply y_zero. intros A. apply (act_fin s r I) in A. destruct A as (_ & HR & _). apply (not_both r HR HD). }
        unfold y in Z. rewrite nth_qof, E in Z. auto.
    Qed.
    Lemma resid : err_gt (error2 S (active S (gaps P (st_x s) (st_q s))) (dxn s)) errtol = false ->
      0 <= errtol /\ forall r, act s r -> - errtol <= V y r /\ V y r <= errtol.
    Proof.
      intros HE. set (mask := active S (gaps P (st_x s) (st_q s))) in *.
      unfold error2 in HE. cbv zeta in HE. set (PM := filter _ (sy_P S)) in HE. set (rs := filter _ (seq 0 (length mask))) in HE.
      assert (EM : forall r, In r rs -> matvec PM (dxn s) r = Fin (product PM y r)).
      { intros r Hr. apply filter_In in Hr. destruct Hr as [_ Hr]. assert (A : act s r) by exact Hr.
        apply (act_fin s r I) in A. destruct A as (L & HR & _). apply (matvec_fin PM n).
        - intros r' c w Hw. apply filter_In in Hw. apply (idx r' c w). apply Hw.
        - apply dxn_length; auto.
        - apply dxn_fin.
        - intros c w Hw. apply filter_In in Hw. eapply HR. apply Hw. }
      assert (EP : forall r, In r rs -> product PM y r == product P y r).
      { intros r Hr. apply filter_In in Hr. destruct Hr as [_ Hr]. apply product_filter; auto.
        intros c E. apply y_zero. unfold act. fold P mask. rewrite E. discriminate. }
      assert (EL : nsum (map (fun r => nmul (nsub (matvec PM (dxn s) r) (nth r (sy_dq S) NaN)) (nsub (matvec PM (dxn s) r) (nth r (sy_dq S) NaN))) rs)
        = Fin (qsum (map (fun r => (product PM y r + - dqr r) * (product PM y r + - dqr r)) rs))).
      { rewrite nsum_fin.
        - f_equal. rewrite map_map. f_equal. apply map_ext_in. intros r Hr. cbv zeta. rewrite (EM r Hr).
          assert (L : (r < n)%nat). { apply filter_In in Hr. destruct Hr as [_ Hr]. apply (act_fin s r I) in Hr. tauto. }
          destruct (dqfin r L) as (b & Eb). unfold dqr. fold dq. rewrite Eb. reflexivity.
        - intros z Hz. apply in_map_iff in Hz. destruct Hz as (r & <- & Hr). cbv zeta. rewrite (EM r Hr).
          assert (L : (r < n)%nat). { apply filter_In in Hr. destruct Hr as [_ Hr]. apply (act_fin s r I) in Hr. tauto. }
          destruct (dqfin r L) as (b & Eb). fold dq. rewrite Eb. eexists. reflexivity. }
      rewrite EL in HE. unfold err_gt in HE. destruct (Qltb errtol 0) eqn:E0; [discriminate HE|]. qb.
      simpl in HE. qb. split; auto. intros r A.
      assert (Hr : In r rs).
      { apply filter_In. split; [|exact A]. apply in_seq. destruct (Nat.lt_ge_cases r (length mask)); [lia|].
        unfold act in A. fold P mask in A. rewrite nth_overflow in A by auto. discriminate A. }
      assert (LE : (product PM y r + - dqr r) * (product PM y r + - dqr r) <= errtol * errtol).
      { eapply Qle_trans; [|exact HE]. clear - Hr. induction rs as [|a l IH]; [destruct Hr|]. simpl.
        assert (0 <= qsum (map (fun r => (product PM y r + - dqr r) * (product PM y r + - dqr r)) l)).
        { apply qsum_nonneg. intros z Hz. apply in_map_iff in Hz. destruct Hz as (k & <- & _). apply sq_pos. }
        pose proof (sq_pos (product PM y a + - dqr a)). destruct Hr as [->|Hr]; [lra|]. specialize (IH Hr). lra. }
      rewrite (EP r Hr) in LE. unfold V. set (e := product P y r) in *. change (product (sy_P S) y r) with e.
      split; apply Qnot_lt_le; intros C; nra.
    Qed.

    (** what a step does, on rationals *)
    Definition move (s s' : state) (y : list Q) (t : Q) : Prop :=
      length y = length (sy_dq S) /\
      (forall r, nth r (xs s') 0 == nth r (xs s) 0 - t * nth r y 0) /\
      (forall r, (r < length (sy_dq S))%nat -> qfin s r -> qfin s' r /\ qof (nth r (st_q s') NaN) == qof (nth r (st_q s) NaN) - t * dqr r) /\
      (forall r, (r < length (sy_dq S))%nat -> ~ qfin s r -> ~ qfin s' r) /\
      qof (st_Z s') == qof (st_Z s) - t /\
      st_rl s' = ndiv (sy_Z0 S) (st_Z s') /\
      st_mask s' = active S (gaps (sy_P S) (st_x s) (st_q s)) /\
      0 <= sy_errtol S /\
      (forall r, act s r -> - sy_errtol S <= V y r /\ V y r <= sy_errtol S) /\
      (forall r, ~ act s r -> nth r y 0 == 0) /\
      (forall r, (r < length (sy_dq S))%nat -> fin_row (sy_P S) r -> qfin s r -> sy_tol S < D s r -> 0 < V y r -> t * V y r <= D s r) /\
      (exists r, (r < length (sy_dq S))%nat /\ fin_row (sy_P S) r /\ qfin s r /\ sy_tol S < D s r /\ 0 < V y r /\ t * V y r == D s r).

    Lemma ratio_in z : In z (ratios S (gaps P (st_x s) (st_q s)) v) -> exists r, (r < n)%nat /\ fin_row P r /\ qfin s r /\
      tol < D s r /\ 0 < V y r /\ z = Fin (D s r / V y r).
    Proof.
      intros Hz. unfold ratios in Hz. apply in_map_iff in Hz. destruct Hz as ([d w] & Ez & Hz).
      apply filter_In in Hz. destruct Hz as [Hz C]. simpl in Ez, C. apply andb_true_iff in C. destruct C as [C1 C2].
      apply In_nth_error in Hz. destruct Hz as (r & Hr). rewrite combine_nth_eq in Hr.
      assert (L : (r < n)%nat).
      { destruct (Nat.lt_ge_cases r n) as [L|L]; auto. rewrite (proj2 (nth_error_None _ _)) in Hr; [discriminate Hr|].
        rewrite gaps_length, (inv_q s I). exact L. }
      exists r. split; auto.
      destruct (v_case r L) as [(HR & Ev)|(HD & Ev)]; rewrite Ev in Hr.
      - destruct (gap_case s r I L) as [(_ & Q & G)|[(F & Q & G)|(HD & _)]].
        + rewrite G in Hr. inversion Hr; subst d w. simpl in C1, C2. qb. split; auto. split; auto. split; auto. split; auto.
          rewrite <- Ez. simpl. destruct (Qeqb (V y r) 0) eqn:E; auto. qb. lra.
        + rewrite G in Hr. inversion Hr; subst d w. simpl in C2. qb. destruct F as (_ & F1 & F2).
          unfold V in C2. rewrite F2, F1 in C2. lra.
        + destruct (not_both r HR HD).
      - destruct (nth_error (gaps P (st_x s) (st_q s)) r); [|discriminate Hr]. inversion Hr; subst. discriminate C2.
    Qed.
    Lemma ratio_of r : (r < n)%nat -> fin_row P r -> qfin s r -> tol < D s r -> 0 < V y r ->
      In (Fin (D s r / V y r)) (ratios S (gaps P (st_x s) (st_q s)) v).
    Proof.
      intros L HR HQ H1 H2. unfold ratios. apply in_map_iff. exists (Fin (D s r), Fin (V y r)). split.
      - simpl. destruct (Qeqb (V y r) 0) eqn:E; auto. qb. lra.
      - apply filter_In. split.
        + apply (nth_error_In _ r). rewrite combine_nth_eq.
          destruct (gap_case s r I L) as [(_ & _ & G)|[(_ & Q & _)|(HD & _)]].
          * destruct (v_case r L) as [(_ & Ev)|(HD & _)]; [|destruct (not_both r HR HD)]. rewrite G, Ev. auto.
          * destruct HQ as (b & HQ). rewrite HQ in Q. discriminate Q.
          * destruct (not_both r HR HD).
        + simpl. apply andb_true_iff. split; qb; auto.
    Qed.
    Lemma move_nth (l dl : list num) m r : length l = length dl -> nth r (map (fun p => nadd (fst p) (nmul (snd p) m)) (combine l dl)) NaN =
      match nth_error l r, nth_error dl r with Some a, Some b => nadd a (nmul b m) | _, _ => NaN end.
    Proof.
      intros L. rewrite nth_of, nth_error_map, combine_nth_eq. destruct (nth_error l r), (nth_error dl r); auto.
    Qed.
    Lemma step_fin s' : step lsolve S s = Some s' -> exists t, move s s' y t /\ Inv s'.
    Proof.
      unfold step. fold P. fold dq.
      change (increment lsolve S s (active S (gaps P (st_x s) (st_q s)))) with (dxn s).
      change (gaps P (dxn s) dq) with v.
      destruct (py_min (ratios S (gaps P (st_x s) (st_q s)) v)) as [m|] eqn:Em; [|discriminate].
      fold errtol. destruct (err_gt _ errtol) eqn:EE; [discriminate|]. intros E. injection E as Es.
      destruct (resid EE) as [E0 ER].
      destruct (py_min_fin _ (fun z Hz => match ratio_in z Hz with ex_intro _ r (conj _ (conj _ (conj _ (conj _ (conj _ e))))) => ex_intro _ _ e end) m Em)
        as (t & Et & It & Mt). subst m.
      destruct (ratio_in _ It) as (r0 & L0 & HR0 & HQ0 & T0 & V0 & Er0). injection Er0 as Er0'.
      assert (Xn : forall r, (r < n)%nat -> nth r (st_x s') NaN = Fin (nth r (xs s) 0 + nth r y 0 * - t)).
      { intros r L. rewrite <- Es. cbn [st_x nopp]. rewrite move_nth by (rewrite dxn_length; auto; apply (inv_x s I)).
        destruct (inv_xf s I r L) as (a & Ea). destruct (dxn_fin r L) as (b & Eb).
        unfold xs, y. rewrite !nth_qof, Ea, Eb. rewrite nth_of in Ea, Eb.
        destruct (nth_error (st_x s) r); [|discriminate Ea]. destruct (nth_error (dxn s) r); [|discriminate Eb]. subst. reflexivity. }
      assert (Ln : length (st_x s') = n).
      { rewrite <- Es. cbn [st_x]. rewrite map_length, combine_length, dxn_length, (inv_x s I) by auto. apply Nat.min_id. }
      assert (Xq : forall r, nth r (xs s') 0 == nth r (xs s) 0 - t * nth r y 0).
      { intros r. destruct (Nat.lt_ge_cases r n) as [L|L].
        - unfold xs at 1. rewrite nth_qof, (Xn r L). simpl. ring.
        - rewrite (nth_overflow (xs s')), (nth_overflow (xs s)), (nth_overflow y); [ring| | |].
          + unfold y. rewrite map_length, dxn_length; auto.
          + unfold xs. rewrite map_length, (inv_x s I). auto.
          + unfold xs. rewrite map_length, Ln. auto. }
      assert (Qn : forall r, (r < n)%nat -> nth r (st_q s') NaN = nadd (nth r (st_q s) NaN) (Fin (dqr r * - t))).
      { intros r L. rewrite <- Es. cbn [st_q nopp]. rewrite move_nth by apply (inv_q s I).
        destruct (dqfin r L) as (b & Eb). unfold dqr. fold dq. rewrite Eb. rewrite (nth_of (st_q s)). rewrite nth_of in Eb.
        destruct (nth_error dq r); [|discriminate Eb]. destruct (nth_error (st_q s) r) as [a|] eqn:Ea; [|].
        - subst. reflexivity.
        - apply nth_error_None in Ea. rewrite (inv_q s I) in Ea. unfold n, dq in L. lia. }
      destruct (inv_Z s I) as (z & Ez).
      assert (Zn : st_Z s' = Fin (z + - t)) by (rewrite <- Es; cbn [st_Z]; rewrite Ez; reflexivity).
      exists t. split.
      - split; [unfold y; rewrite map_length; apply dxn_length; auto|]. split; [exact Xq|].
        split; [|split; [|split; [|split; [|split; [|split; [|split; [|split; [|split]]]]]]]].
        + intros r L (b & Eb). unfold qfin. rewrite (Qn r L), Eb. split; [eexists; reflexivity|]. simpl. ring.
        + intros r L N (b & Eb). rewrite (Qn r L) in Eb. apply N. unfold qfin.
          destruct (nadd_fin_inv _ _ (ex_intro _ b Eb)) as [A _]. exact A.
        + rewrite Zn, Ez. simpl. ring.
        + rewrite Zn, <- Es. cbn [st_rl]. rewrite Ez. reflexivity.
        + rewrite <- Es. reflexivity.
        + exact E0.
        + exact ER.
        + apply y_zero.
        + intros r L HR HQ T Vp. pose proof (Mt _ (ratio_of r L HR HQ T Vp)) as M. simpl in M.
          apply (Qmult_le_compat_r _ _ (V y r)) in M; [|lra].
          assert (EQ : D s r / V y r * V y r == D s r) by (field; lra). rewrite EQ in M. exact M.
        + exists r0. split; auto. split; auto. split; auto. split; auto. split; auto.
          rewrite Er0'. field. lra.
      - constructor.
        + exact Ln.
        + rewrite <- Es. cbn [st_dx]. apply dxn_length; auto.
        + rewrite <- Es. cbn [st_q]. rewrite map_length, combine_length, (inv_q s I). apply Nat.min_id.
        + intros r L. rewrite (Xn r L). eexists; reflexivity.
        + intros r L. rewrite <- Es. cbn [st_dx]. apply dxn_fin. auto.
        + intros r HD. rewrite Xq, (inv_dead s I r HD), y_zero; [ring|]. intros A. apply (act_fin s r I) in A.
          destruct A as (_ & HR & _). apply (not_both r HR HD).
        + intros r L. unfold qfin. rewrite (Qn r L). destruct (inv_qf s I r L) as [(b & Eb)|(Eb & F)].
          * left. rewrite Eb. eexists; reflexivity.
          * right. rewrite Eb. auto.
        + rewrite Zn. eexists; reflexivity.
    Qed.
  End Finite.

  (** a solve that returns only NaN *)
  Lemma step_nan s : Inv s -> (forall v, In v (answer s) -> v = NaN) ->
    (forall r g, nth_error (gaps P (st_x s) (st_q s)) r = Some g -> nltb (Fin tol) g = true ->
       exists c v, In (r, c, v) P /\ act s c /\ In c (sy_perm S)) ->
    step lsolve S s = None.
  Proof.
    intros I HN HC. unfold step. fold P. fold dq.
    change (increment lsolve S s (active S (gaps P (st_x s) (st_q s)))) with (dxn s).
    assert (E : ratios S (gaps P (st_x s) (st_q s)) (gaps P (dxn s) dq) = []).
    { unfold ratios. match goal with |- map _ ?l = [] => destruct l as [|[d w] l'] eqn:El; [reflexivity|exfalso] end.
      assert (Hi : In (d, w) ((d, w) :: l')) by (left; auto). rewrite <- El in Hi. clear El.
      apply filter_In in Hi. destruct Hi as [Hi C]. simpl in C. apply andb_true_iff in C. destruct C as [C1 C2].
      apply In_nth_error in Hi. destruct Hi as (r & Hr). rewrite combine_nth_eq in Hr.
      destruct (nth_error (gaps P (st_x s) (st_q s)) r) as [g|] eqn:Eg; [|discriminate Hr].
      destruct (nth_error (gaps P (dxn s) dq) r) as [w'|] eqn:Ew; [|discriminate Hr]. inversion Hr; subst g w'.
      destruct (HC r d Eg C1) as (c & v & Hv & A & Hp).
      rewrite gaps_nth in Ew. destruct (nth_error dq r) as [b|]; [|discriminate Ew]. simpl in Ew.
      rewrite (matvec_nan P (dxn s) r c v Hv) in Ew.
      - inversion Ew; subst w. destruct b; discriminate C2.
      - destruct (dxn_case s c I) as [(_ & v' & Hv' & ->)|(N & _)].
        + apply (idx _ _ _ Hv).
        + auto.
        + destruct N. apply ps_act. auto. }
    rewrite E. reflexivity.
  Qed.
End Step.
