(** Proofs for C107: a sparse matrix that contains another one, not coupled to the rest. *)
From Coq Require Import Permutation Lia Lqa.
From Verif Require Import Num NumP ListX ListP Frames MatM NetM MeshM ModelM SolverM Spec SpecModel SpecSolver SpecPerm StiffP SolverP SolverSysP PermP RenameMatP.
Open Scope Q_scope.

(** *** pairing a list with a part of another *)
Lemma sub_perm {A} (q l : list A) : NoDup q -> (forall x, In x q -> In x l) -> exists r, Permutation (q ++ r) l.
Proof.
  revert l. induction q as [|x q IH]; intros l N H; [exists l; reflexivity|]. inversion N as [|? ? NX N']; subst.
  destruct (in_split x l (H x (or_introl eq_refl))) as (l1 & l2 & ->).
  destruct (IH (l1 ++ l2) N') as (r & P).
  { intros y Hy. pose proof (H y (or_intror Hy)) as HI. apply in_app_or in HI. apply in_or_app. destruct HI as [HI|[HI|HI]]; auto. subst. contradiction. }
  exists r. cbn [app]. rewrite <- Permutation_middle. apply perm_skip. exact P.
Qed.
Lemma matched_part {A B} (R : A -> B -> Prop) l l' :
  (forall x, In x l -> exists y, In y l' /\ R x y) ->
  (forall x y y', In x l -> In y l' -> In y' l' -> R x y -> R x y' -> y = y') ->
  (forall x x' y, In x l -> In x' l -> In y l' -> R x y -> R x' y -> x = x') ->
  NoDup l -> NoDup l' -> exists q r, Permutation (q ++ r) l' /\ Forall2 R l q /\ forall y, In y r -> In y l' /\ ~ exists x, In x l /\ R x y.
Proof.
  intros T F I N N'.
  assert (C : forall k, (forall x, In x k -> In x l) -> NoDup k -> exists q, Forall2 R k q /\ NoDup q /\ (forall y, In y q -> In y l' /\ exists x, In x k /\ R x y)).
  { induction k as [|x k IH]; intros K ND; [exists []; split; [constructor|split; [constructor|intros y []]]|].
    inversion ND as [|? ? NX ND']; subst. destruct IH as (q & Q & NQ & H); [intros; apply K; right; auto|exact ND'|].
    destruct (T x (K x (or_introl eq_refl))) as (y & Hy & Rxy). exists (y :: q). split; [constructor; auto|]. split.
    - constructor; [|exact NQ]. intros HI. destruct (H y HI) as (_ & x' & Hx' & R'). apply NX. rewrite (I x x' y); auto; [apply K; left; auto|apply K; right; auto].
    - intros z [<-|Hz]; [split; [exact Hy|exists x; split; [left; auto|exact Rxy]]|]. destruct (H z Hz) as (A1 & x' & A2 & A3). split; [exact A1|]. exists x'. split; [right; auto|exact A3]. }
  destruct (C l (fun x H => H) N) as (q & Q & NQ & H). destruct (sub_perm q l' NQ (fun y Hy => proj1 (H y Hy))) as (r & P).
  exists q, r. split; [exact P|]. split; [exact Q|]. intros y Hy.
  assert (HL : In y l') by (apply (Permutation_in _ P); apply in_or_app; right; exact Hy). split; [exact HL|].
  intros (x & Hx & Rxy). assert (E : exists z, In z q /\ R x z).
  { clear - Q Hx. induction Q as [|a b l q r Q IH]; [destruct Hx|]. destruct Hx as [->|Hx]; [exists b; split; [left; auto|exact r]|].
    destruct (IH Hx) as (z & Hz & Rz). exists z. split; [right; auto|exact Rz]. }
  destruct E as (z & Hz & Rz). assert (z = y) by (apply (F x z y Hx (proj1 (H z Hz)) HL Rz Rxy)). subst z.
  assert (ND : NoDup (q ++ r)) by (apply (Permutation_NoDup (Permutation_sym P)); exact N').
  clear - ND Hz Hy. induction q as [|a q IH]; [destruct Hz|]. cbn [app] in ND. inversion ND as [|? ? NX ND']; subst. destruct Hz as [->|Hz]; [|apply IH; auto].
  apply NX. apply in_or_app. right. exact Hy.
Qed.

Section Within.
  Variable N : nat.
  Variable ta : nat -> nat.
  Hypothesis ta_inj : forall i j, (i < N)%nat -> (j < N)%nat -> ta i = ta j -> i = j.
  Definition none (r : nat) : bool := false.
  (** entries that have nothing to do with the part *)
  Definition outside (P : ncoo) : Prop := forall r c v, In (r, c, v) P -> forall i, (i < N)%nat -> r <> ta i /\ c <> ta i.
  Definition mat_in (P P' : ncoo) : Prop := exists A B, Permutation (A ++ B) P' /\ mat_rn ta none P A /\ outside B.

  Lemma in_app_mat P P' Q Q' : mat_in P P' -> mat_in Q Q' -> mat_in (P ++ Q) (P' ++ Q').
  Proof.
    intros (A & B & A1 & A2 & A3) (C & D & C1 & C2 & C3). exists (A ++ C), (B ++ D). split; [|split].
    - rewrite <- A1, <- C1, <- !app_assoc. apply Permutation_app_head. rewrite !app_assoc. apply Permutation_app_tail. apply Permutation_app_comm.
    - apply rn_app; assumption.
    - intros r c v HI. apply in_app_or in HI. destruct HI as [HI|HI]; [apply (A3 r c v HI)|apply (C3 r c v HI)].
  Qed.
  Lemma outside_product B y r : outside B -> (r < N)%nat -> product B y (ta r) == 0.
  Proof. intros H L. apply product_zero. intros c v HI. destruct (H _ _ _ HI r L) as [X _]. apply X. reflexivity. Qed.
  Lemma in_product P P' y y' : mat_in P P' -> inside N P -> (forall c, (c < N)%nat -> nth (ta c) y' 0 == nth c y 0) ->
    forall r, (r < N)%nat -> product P' y' (ta r) == product P y r.
  Proof.
    intros (A & B & A1 & A2 & A3) HI Y r L. rewrite <- (product_perm _ _ y' (ta r) A1), product_app, (outside_product B y' r A3 L).
    rewrite (rn_product N ta none ta_inj P A y y' A2 HI); [cbn [none sgn]; ring| |exact L]. intros c Lc. cbn [none sgn]. rewrite (Y c Lc). ring.
  Qed.
  Lemma in_zero P P' y' r' : mat_in P P' -> inside N P -> (forall r', (forall c, (c < N)%nat -> r' <> ta c) -> nth r' y' 0 == 0) ->
    (forall c, (c < N)%nat -> r' <> ta c) -> product P' y' r' == 0.
  Proof.
    intros (A & B & A1 & A2 & A3) HI Y O. rewrite <- (product_perm _ _ y' r' A1), product_app. rewrite (product_zero A).
    - assert (E : product B y' r' == 0); [|rewrite E; ring]. unfold product. apply qsum_zeros. intros z Hz. apply in_map_iff in Hz. destruct Hz as ([[i c] v] & <- & Hi).
      destruct (Nat.eqb i r'); [|reflexivity]. rewrite (Y c); [ring|]. intros i0 L0. apply (A3 i c v Hi i0 L0).
    - intros c v Hv. destruct (rn_in_back ta none P A r' c v A2 Hv) as (r & c0 & v0 & HP & E & _). apply (O r); [apply (HI _ _ _ HP)|exact E].
  Qed.
  Lemma in_fin P P' : mat_in P P' -> inside N P -> forall r, (r < N)%nat -> fin_row P' (ta r) <-> fin_row P r.
  Proof.
    intros (A & B & A1 & A2 & A3) HI r L. rewrite <- (rn_fin N ta none ta_inj P A A2 HI r L). split; intros F c v Hv.
    - apply (F c v). apply (Permutation_in _ A1). apply in_or_app. left. exact Hv.
    - apply (Permutation_in _ (Permutation_sym A1)) in Hv. apply in_app_or in Hv. destruct Hv as [Hv|Hv]; [apply (F c v Hv)|].
      destruct (A3 _ _ _ Hv r L) as [X _]. destruct (X eq_refl).
  Qed.
  Lemma filter_app_none {T} (p : T -> bool) a b : (forall x, In x b -> p x = false) -> filter p (a ++ b) = filter p a.
  Proof.
    intros H. induction a as [|x a IH]; cbn [app filter]; [|rewrite IH; reflexivity].
    induction b as [|y b IHb]; [reflexivity|]. cbn [filter]. rewrite (H y (or_introl eq_refl)). apply IHb. intros z Hz. apply H. right. exact Hz.
  Qed.
  Lemma in_colsum P P' N' : mat_in P P' -> inside N P -> inside N' P' -> (forall r, (r < N)%nat -> (ta r < N')%nat) ->
    forall c, (c < N)%nat -> neqv (colsum P c) (colsum P' (ta c)).
  Proof.
    intros (A & B & A1 & A2 & A3) HI HI' LT c L. etransitivity; [apply (rn_colsum N ta none ta_inj P A A2 HI c L)|].
    assert (ID : mat_rn (fun x => x) none (A ++ B) P').
    { exists (A ++ B). split; [exact A1|]. clear. induction (A ++ B) as [|e l IH]; constructor; [|exact IH]. split; [reflexivity|]. split; [reflexivity|apply neqv_refl]. }
    assert (HIA : inside N' (A ++ B)) by (intros r x v Hv; apply (HI' r x v); apply (Permutation_in _ A1 Hv)).
    pose proof (rn_colsum N' (fun x => x) none (fun i j _ _ E => E) (A ++ B) P' ID HIA (ta c) (LT c L)) as X. etransitivity; [|exact X].
    assert (E : colsum (A ++ B) (ta c) = colsum A (ta c)); [|rewrite E; apply neqv_refl].
    unfold colsum. rewrite filter_app_none; [|intros [[i x] v] Hv; apply Nat.eqb_neq; cbn [fst snd]; apply (A3 _ _ _ Hv c L)]. cbv zeta. f_equal. apply map_ext. intros r. f_equal. unfold entry.
    rewrite filter_app_none; [reflexivity|]. intros [[i x] v] Hv. cbn [fst snd]. apply andb_false_iff. right. apply Nat.eqb_neq. apply (A3 _ _ _ Hv c L).
  Qed.
End Within.
