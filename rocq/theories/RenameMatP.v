(** Proofs for C104: sparse matrices whose rows and columns are numbered differently, some of
    them counted with the other sign. *)
From Coq Require Import Permutation Lia Lqa.
From Verif Require Import Num NumP ListX ListP Frames MatM NetM MeshM ModelM SolverM Spec SpecModel SpecSolver SpecPerm StiffP SolverP PermP.
Open Scope Q_scope.

(** *** pairing two lists *)
Lemma matched {A B} (R : A -> B -> Prop) l l' :
  (forall x, In x l -> exists y, In y l' /\ R x y) -> (forall y, In y l' -> exists x, In x l /\ R x y) ->
  (forall x y y', In x l -> In y l' -> In y' l' -> R x y -> R x y' -> y = y') ->
  (forall x x' y, In x l -> In x' l -> In y l' -> R x y -> R x' y -> x = x') ->
  NoDup l -> NoDup l' -> exists q, Permutation q l' /\ Forall2 R l q.
Proof.
  intros T O F I N N'.
  assert (C : forall k, (forall x, In x k -> In x l) -> exists q, Forall2 R k q /\ forall y, In y q -> In y l').
  { induction k as [|x k IH]; intros K; [exists []; split; [constructor|intros y []]|].
    destruct IH as (q & Q & H); [intros; apply K; right; auto|]. destruct (T x (K x (or_introl eq_refl))) as (y & Hy & Rxy).
    exists (y :: q). split; [constructor; auto|]. intros z [<-|Hz]; auto. }
  destruct (C l (fun x H => H)) as (q & Q & H). exists q. split; [|exact Q].
  assert (QL : forall y, In y q -> exists x, In x l /\ R x y).
  { clear - Q. induction Q as [|x y l q r Q IH]; intros z [].
    - subst. exists x. split; [left; auto|exact r].
    - destruct (IH z H) as (x' & Hx & Rx). exists x'. split; [right; auto|exact Rx]. }
  apply NoDup_Permutation; [|exact N'|].
  - assert (G : forall k q, (forall x, In x k -> In x l) -> NoDup k -> Forall2 R k q -> (forall y, In y q -> In y l') -> NoDup q).
    { induction k as [|x k IH]; intros p K ND FA L; inversion FA as [|? y ? p' Rxy FA']; subst; [constructor|]. inversion ND as [|? ? NX ND']; subst.
      constructor; [|apply IH; auto; [intros; apply K; right; auto|intros; apply L; right; auto]].
      intros Hy. assert (E : exists x', In x' k /\ R x' y).
      { clear - FA' Hy. induction FA' as [|a b k p r Q IH]; [destruct Hy|]. destruct Hy as [->|Hy]; [exists a; split; [left; auto|exact r]|].
        destruct (IH Hy) as (x' & Hx & Rx). exists x'. split; [right; auto|exact Rx]. }
      destruct E as (x' & Hx & Rx). apply NX. rewrite (I x x' y); auto; [apply K; left; auto|apply K; right; auto|apply L; left; auto]. }
    apply (G l q); auto.
  - intros y. split; [apply H|]. intros Hy. destruct (O y Hy) as (x & Hx & Rxy).
    assert (E : exists z, In z q /\ R x z).
    { clear - Q Hx. induction Q as [|a b l q r Q IH]; [destruct Hx|]. destruct Hx as [->|Hx]; [exists b; split; [left; auto|exact r]|].
      destruct (IH Hx) as (z & Hz & Rz). exists z. split; [right; auto|exact Rz]. }
    destruct E as (z & Hz & Rz). rewrite (F x y z); auto.
Qed.

(** *** inverse of a numbering *)
Fixpoint posn (x : nat) (l : list nat) : nat :=
  match l with [] => 0%nat | y :: t => if Nat.eqb x y then 0%nat else S (posn x t) end.
Lemma posn_in x l : In x l -> (posn x l < length l)%nat /\ nth (posn x l) l 0%nat = x.
Proof.
  induction l as [|y l IH]; intros H; [destruct H|]. cbn [posn length nth]. destruct (Nat.eqb_spec x y) as [->|N]; [split; [lia|reflexivity]|].
  destruct H as [H|H]; [congruence|]. destruct (IH H). split; [lia|assumption].
Qed.
Definition inv_of (n : nat) (f : nat -> nat) (r : nat) : nat := posn r (map f (seq 0 n)).
Lemma inv_of_ok n f : (forall i, (i < n)%nat -> (f i < n)%nat) -> (forall i j, (i < n)%nat -> (j < n)%nat -> f i = f j -> i = j) ->
  (forall r, (r < n)%nat -> (inv_of n f r < n)%nat /\ f (inv_of n f r) = r) /\ (forall r, (r < n)%nat -> inv_of n f (f r) = r).
Proof.
  intros L I.
  assert (ND : NoDup (map f (seq 0 n))).
  { assert (G : forall k, (forall x, In x k -> (x < n)%nat) -> NoDup k -> NoDup (map f k)).
    { induction k as [|x k IH]; intros K N; [constructor|]. inversion N; subst. cbn [map]. constructor; [|apply IH; auto; intros; apply K; right; auto].
      intros H. apply in_map_iff in H. destruct H as (y & E & Hy). apply I in E; [subst; contradiction|apply K; right; auto|apply K; left; auto]. }
    apply G; [|apply seq_NoDup]. intros x H. apply in_seq in H. lia. }
  assert (P : Permutation (map f (seq 0 n)) (seq 0 n)).
  { apply NoDup_Permutation_bis; [exact ND|rewrite map_length; auto|].
    intros x H. apply in_map_iff in H. destruct H as (y & <- & Hy). apply in_seq in Hy. apply in_seq. specialize (L y). lia. }
  assert (A : forall r, (r < n)%nat -> (inv_of n f r < n)%nat /\ f (inv_of n f r) = r).
  { intros r H. assert (Hi : In r (map f (seq 0 n))) by (apply (Permutation_in r (Permutation_sym P)); apply in_seq; lia).
    destruct (posn_in r _ Hi) as [B C]. rewrite map_length, seq_length in B. fold (inv_of n f r) in B, C. split; [exact B|].
    rewrite (nth_indep _ 0%nat (f 0%nat)) in C by (rewrite map_length, seq_length; exact B). rewrite map_nth, seq_nth in C by exact B. exact C. }
  split; [exact A|]. intros r H. destruct (A (f r) (L r H)) as [B C]. apply I; auto.
Qed.

(** *** matrices *)
Definition flip (b : bool) (v : num) : num := if b then nopp v else v.
Definition sgn (b : bool) : Q := if b then - (1) else 1.
Lemma sgn_sq b : sgn b * sgn b == 1.
Proof. destruct b; reflexivity. Qed.
Lemma sgn_xor a b : sgn (xorb a b) == sgn a * sgn b.
Proof. destruct a, b; reflexivity. Qed.
Lemma nopp_nopp v : neqv (nopp (nopp v)) v.
Proof. destruct v; simpl; auto. ring. Qed.
Lemma flip_eqv b v w : neqv v w -> neqv (flip b v) (flip b w).
Proof. destruct b; simpl; auto. apply nopp_eqv. Qed.
Lemma flip_fin b v : fin (flip b v) <-> fin v.
Proof. destruct b, v; simpl; split; intros (x & H); try discriminate H; eexists; reflexivity. Qed.
Lemma flip_q b v : qof (flip b v) == sgn b * qof v.
Proof. destruct b, v; simpl; ring. Qed.
Lemma eqv_fin v w : neqv v w -> fin v <-> fin w.
Proof. destruct v, w; simpl; intros H; try contradiction; split; intros (x & E); try discriminate E; eexists; reflexivity. Qed.
Lemma eqv_q v w : neqv v w -> qof v == qof w.
Proof. destruct v, w; simpl; intros H; try contradiction; auto; reflexivity. Qed.
Lemma nopp_add a b : neqv (nopp (nadd a b)) (nadd (nopp a) (nopp b)).
Proof. destruct a, b; simpl; auto. ring. Qed.
Lemma flip_sum b l : neqv (flip b (nsum l)) (nsum (map (flip b) l)).
Proof.
  destruct b; [|rewrite map_id; apply neqv_refl]. induction l as [|x l IH]; [reflexivity|]. cbn [nsum map flip fold_right] in *.
  etransitivity; [apply nopp_add|]. apply nadd_eqv; [apply neqv_refl|exact IH].
Qed.
Lemma nabs_flip b v w : neqv (flip b v) w -> neqv (nabs v) (nabs w).
Proof.
  destruct b, v, w; simpl; auto; intros H; rewrite <- H; [symmetry; apply Qabs_opp|reflexivity].
Qed.

Lemma dedup_in (l : list nat) x : In x (dedup Nat.eqb l) <-> In x l.
Proof.
  induction l as [|y l IH]; [reflexivity|]. cbn [dedup]. split.
  - intros [->|H]; [left; auto|]. apply filter_In in H. right. apply IH. apply H.
  - intros [->|H]; [left; auto|]. destruct (Nat.eqb_spec y x) as [->|N]; [left; auto|]. right. apply filter_In. split; [apply IH; exact H|].
    apply Nat.eqb_neq in N. rewrite N. reflexivity.
Qed.
Lemma dedup_nodup_nat (l : list nat) : NoDup (dedup Nat.eqb l).
Proof.
  induction l as [|y l IH]; [constructor|]. cbn [dedup]. constructor; [|apply NoDup_filter; exact IH].
  intros H. apply filter_In in H. destruct H as [_ H]. rewrite Nat.eqb_refl in H. discriminate H.
Qed.

Section Matrices.
  Variable N : nat.
  Variable ta : nat -> nat.
  Variable si : nat -> bool.
  Hypothesis ta_inj : forall i j, (i < N)%nat -> (j < N)%nat -> ta i = ta j -> i = j.

  (** the same entry, renumbered *)
  Definition erel (e e' : nat * nat * num) : Prop :=
    fst (fst e') = ta (fst (fst e)) /\ snd (fst e') = ta (snd (fst e)) /\
    neqv (flip (xorb (si (fst (fst e))) (si (snd (fst e)))) (snd e)) (snd e').
  Definition mat_rn (P P' : ncoo) : Prop := exists Q, Permutation Q P' /\ Forall2 erel P Q.
  Definition inside (P : ncoo) : Prop := forall r c v, In (r, c, v) P -> (r < N /\ c < N)%nat.

  Lemma rn_app P P' Q Q' : mat_rn P P' -> mat_rn Q Q' -> mat_rn (P ++ Q) (P' ++ Q').
  Proof. intros (A & A1 & A2) (B & B1 & B2). exists (A ++ B). split; [apply Permutation_app; auto|apply Forall2_app; auto]. Qed.
  Lemma rn_perm P P' P'' : mat_rn P P' -> Permutation P' P'' -> mat_rn P P''.
  Proof. intros (A & A1 & A2) H. exists A. split; [rewrite A1; exact H|exact A2]. Qed.
  Lemma rn_perm_l P P' P'' : mat_rn P P' -> Permutation P P'' -> mat_rn P'' P'.
  Proof.
    intros (A & A1 & A2) H. destruct (Permutation_Forall2 H A2) as (B & B1 & B2). exists B. split; [rewrite <- B1; exact A1|exact B2].
  Qed.
  Lemma rn_flat {A B} (R : A -> B -> Prop) (F : A -> ncoo) (F' : B -> ncoo) l l' :
    (forall a b, In a l -> R a b -> mat_rn (F a) (F' b)) -> Forall2 R l l' -> mat_rn (flat_map F l) (flat_map F' l').
  Proof.
    intros H G. induction G as [|a b l l' r G IH]; [exists []; split; constructor|]. cbn [flat_map]. apply rn_app; [apply H; [left; auto|exact r]|].
    apply IH. intros; apply H; [right|]; auto.
  Qed.
  Lemma product_perm P P' y r : Permutation P P' -> product P y r == product P' y r.
  Proof.
    unfold product. induction 1 as [|[[i c] v] l l' H IH|[[i c] v] [[i' c'] v'] l|l l' l'' H1 IH1 H2 IH2]; cbn [map qsum fold_right]; [reflexivity| | |].
    - cbn [map qsum] in *. rewrite IH. reflexivity.
    - ring.
    - rewrite IH1. exact IH2.
  Qed.
  Lemma rn_product P P' y y' : mat_rn P P' -> inside P -> (forall c, (c < N)%nat -> nth (ta c) y' 0 == sgn (si c) * nth c y 0) ->
    forall r, (r < N)%nat -> product P' y' (ta r) == sgn (si r) * product P y r.
  Proof.
    intros (Q & HP & HF) HI Y r Lr. rewrite <- (product_perm Q P' y' (ta r) HP). clear HP. unfold product.
    induction HF as [|[[i c] v] [[i' c'] v'] P Q (E1 & E2 & E3) HF IH]; cbn [map qsum fold_right]; [ring|].
    cbn [fst snd] in E1, E2, E3. subst i' c'. cbn [map qsum] in *. rewrite IH by (intros a b w Hw; apply (HI a b w); right; exact Hw).
    destruct (HI i c v (or_introl eq_refl)) as [Li Lc].
    destruct (Nat.eqb_spec i r) as [->|Ne].
    - rewrite Nat.eqb_refl, (Y c Lc), <- (eqv_q _ _ E3), flip_q, sgn_xor. pose proof (sgn_sq (si c)) as K.
      setoid_replace (sgn (si r) * sgn (si c) * qof v * (sgn (si c) * nth c y 0)) with (sgn (si r) * (sgn (si c) * sgn (si c)) * (qof v * nth c y 0)) by ring.
      rewrite K. ring.
    - destruct (Nat.eqb_spec (ta i) (ta r)) as [E|_]; [exfalso; apply Ne; apply ta_inj; auto|]. ring.
  Qed.
  Lemma rn_in P P' r c v : mat_rn P P' -> In (r, c, v) P -> exists v', In (ta r, ta c, v') P' /\ neqv (flip (xorb (si r) (si c)) v) v'.
  Proof.
    intros (Q & HP & HF) H. assert (G : exists v', In (ta r, ta c, v') Q /\ neqv (flip (xorb (si r) (si c)) v) v').
    { clear HP. induction HF as [|[[i x] w] [[i' x'] w'] P Q (E1 & E2 & E3) HF IH]; [destruct H|]. destruct H as [H|H].
      - injection H as -> -> ->. cbn [fst snd] in E1, E2, E3. subst. exists w'. split; [left; reflexivity|exact E3].
      - destruct (IH H) as (v' & A & B). exists v'. split; [right; exact A|exact B]. }
    destruct G as (v' & A & B). exists v'. split; [apply (Permutation_in _ HP A)|exact B].
  Qed.
  Lemma rn_in_back P P' r' c' v' : mat_rn P P' -> In (r', c', v') P' ->
    exists r c v, In (r, c, v) P /\ r' = ta r /\ c' = ta c /\ neqv (flip (xorb (si r) (si c)) v) v'.
  Proof.
    intros (Q & HP & HF) H. apply (Permutation_in _ (Permutation_sym HP)) in H. clear HP.
    induction HF as [|[[i x] w] [[i' x'] w'] P Q (E1 & E2 & E3) HF IH]; [destruct H|]. destruct H as [H|H].
    - injection H as -> -> ->. cbn [fst snd] in E1, E2, E3. subst. exists i, x, w. split; [left; reflexivity|]. auto.
    - destruct (IH H) as (r & c & v & A & B). exists r, c, v. split; [right; exact A|exact B].
  Qed.
  Lemma rn_fin P P' : mat_rn P P' -> inside P -> forall r, (r < N)%nat -> fin_row P' (ta r) <-> fin_row P r.
  Proof.
    intros H HI r Lr. split; intros F c v Hv.
    - destruct (rn_in P P' r c v H Hv) as (v' & A & B). apply (flip_fin (xorb (si r) (si c))). apply (eqv_fin _ _ B). apply (F _ _ A).
    - destruct (rn_in_back P P' _ _ _ H Hv) as (r0 & c0 & v0 & A & E & _ & B).
      assert (r0 = r) by (symmetry; apply ta_inj; auto; apply (HI _ _ _ A)). subst r0.
      apply (eqv_fin _ _ B). apply flip_fin. apply (F _ _ A).
  Qed.
  Lemma rn_entry P P' : mat_rn P P' -> inside P -> forall r c, (r < N)%nat -> (c < N)%nat ->
    neqv (flip (xorb (si r) (si c)) (entry P r c)) (entry P' (ta r) (ta c)).
  Proof.
    intros (Q & HP & HF) HI r c Lr Lc. etransitivity; [|apply entry_perm; exact HP]. clear HP. unfold entry.
    etransitivity; [apply flip_sum|]. apply nsum_eqv.
    induction HF as [|[[i x] w] [[i' x'] w'] P Q (E1 & E2 & E3) HF IH]; [constructor|]. cbn [fst snd] in E1, E2, E3. subst i' x'.
    destruct (HI i x w (or_introl eq_refl)) as [Li Lx]. specialize (IH (fun a b v Hv => HI a b v (or_intror Hv))). cbn [filter fst snd].
    assert (B1 : Nat.eqb (ta i) (ta r) = Nat.eqb i r).
    { destruct (Nat.eqb_spec i r) as [->|Ne]; [apply Nat.eqb_refl|]. apply Nat.eqb_neq. intros E. apply Ne. apply ta_inj; auto. }
    assert (B2 : Nat.eqb (ta x) (ta c) = Nat.eqb x c).
    { destruct (Nat.eqb_spec x c) as [->|Ne]; [apply Nat.eqb_refl|]. apply Nat.eqb_neq. intros E. apply Ne. apply ta_inj; auto. }
    rewrite B1, B2. destruct (Nat.eqb_spec i r) as [->|_]; [|exact IH]. destruct (Nat.eqb_spec x c) as [->|_]; [|exact IH].
    cbn [andb map snd]. constructor; [exact E3|exact IH].
  Qed.
  Definition col_rows (P : ncoo) (c : nat) : list nat :=
    dedup Nat.eqb (map (fun e => fst (fst e)) (filter (fun e => Nat.eqb (snd (fst e)) c) P)).
  Lemma col_rows_in P c r : In r (col_rows P c) <-> exists v, In (r, c, v) P.
  Proof.
    unfold col_rows. rewrite dedup_in, in_map_iff. split.
    - intros ([[i x] v] & E & H). apply filter_In in H. destruct H as [H B]. cbn [fst snd] in *. apply Nat.eqb_eq in B. subst. eauto.
    - intros (v & H). exists (r, c, v). split; [reflexivity|]. apply filter_In. split; [exact H|]. apply Nat.eqb_refl.
  Qed.
  Lemma rn_colsum P P' : mat_rn P P' -> inside P -> forall c, (c < N)%nat -> neqv (colsum P c) (colsum P' (ta c)).
  Proof.
    intros H HI c Lc. unfold colsum. fold (col_rows P c). fold (col_rows P' (ta c)). cbv zeta.
    assert (ND : NoDup (col_rows P c)) by apply dedup_nodup_nat.
    assert (ND' : NoDup (col_rows P' (ta c))) by apply dedup_nodup_nat.
    assert (LT : forall r, In r (col_rows P c) -> (r < N)%nat) by (intros r Hr; apply col_rows_in in Hr; destruct Hr as (v & Hv); apply (HI _ _ _ Hv)).
    assert (PM : Permutation (map ta (col_rows P c)) (col_rows P' (ta c))).
    { apply NoDup_Permutation; [|exact ND'|].
      - revert ND LT. generalize (col_rows P c) as l. induction l as [|x l IH]; intros ND LT; [constructor|]. inversion ND; subst. cbn [map].
        constructor; [|apply IH; auto; intros; apply LT; right; auto]. intros K. apply in_map_iff in K. destruct K as (y & E & Hy).
        apply ta_inj in E; [subst; contradiction|apply LT; right; auto|apply LT; left; auto].
      - intros r'. rewrite in_map_iff, col_rows_in. split.
        + intros (r & <- & Hr). apply col_rows_in in Hr. destruct Hr as (v & Hv). destruct (rn_in P P' r c v H Hv) as (v' & A & _). eauto.
        + intros (v' & Hv). destruct (rn_in_back P P' _ _ _ H Hv) as (r & c0 & v & A & E1 & E2 & _).
          assert (c0 = c) by (symmetry; apply ta_inj; auto; apply (HI _ _ _ A)). subst c0. exists r. split; [auto|]. apply col_rows_in. eauto. }
    etransitivity; [|apply nsum_perm; apply Permutation_map; exact PM]. rewrite map_map. apply nsum_eqv. apply map_eqv.
    intros r Hr. apply (nabs_flip (xorb (si r) (si c))). apply rn_entry; auto.
  Qed.
End Matrices.
