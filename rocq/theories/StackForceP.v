(** Proofs about the forces in a stack (C71). *)
From Coq Require Import Permutation.
From Verif Require Import Num NumP ListX ListP Frames MatM NetM StackM Spec SpecNet SpecStack
  CheckP MatP NetP NetGeoP NetZP StackP.
Open Scope Q_scope.

(** ** weighted sums over a list of edges *)
Fixpoint wsum {E} (cs : list E) (x : list Q) (g : E -> Q) : Q :=
  match cs, x with
  | c :: cs', v :: x' => v * g c + wsum cs' x' g
  | _, _ => 0
  end.
Lemma total_wsum {E} (cs : list E) x s : total cs x s == wsum cs x (fun e => if s e then 1 else 0).
Proof. revert x. induction cs as [|c cs IH]; intros [|v x]; simpl; try reflexivity. rewrite IH. destruct (s c); ring. Qed.
Lemma wsum_ext {E} (cs : list E) x g g' : (forall e, In e cs -> g e == g' e) -> wsum cs x g == wsum cs x g'.
Proof.
  revert x. induction cs as [|c cs IH]; intros [|v x] H; simpl; try reflexivity.
  rewrite (H c) by (left; auto). rewrite IH; [reflexivity|]. intros e He. apply H. right. auto.
Qed.
Lemma wsum_add {E} (cs : list E) x g g' : wsum cs x (fun e => g e + g' e) == wsum cs x g + wsum cs x g'.
Proof. revert x. induction cs as [|c cs IH]; intros [|v x]; simpl; try reflexivity. rewrite IH. ring. Qed.
Lemma wsum_scale {E} (cs : list E) x g c : wsum cs x (fun e => c * g e) == c * wsum cs x g.
Proof. revert x. induction cs as [|d cs IH]; intros [|v x]; simpl; try ring. rewrite IH. ring. Qed.
Lemma wsum_map {D E} (h : D -> E) cs x g : wsum (map h cs) x g = wsum cs x (fun e => g (h e)).
Proof. revert x. induction cs as [|c cs IH]; intros [|v x]; simpl; auto. rewrite IH. reflexivity. Qed.
Lemma total_map {D E} (h : D -> E) cs x s : total (map h cs) x s = total cs x (fun e => s (h e)).
Proof. revert x. induction cs as [|c cs IH]; intros [|v x]; simpl; auto. rewrite IH. reflexivity. Qed.
Lemma wsum_opp {E} (cs : list E) x g : wsum cs (map Qopp x) g == - wsum cs x g.
Proof. revert x. induction cs as [|c cs IH]; intros [|v x]; simpl; try reflexivity. rewrite IH. ring. Qed.
Lemma wsum_opp' {E} (cs : list E) x g : wsum cs x (fun e => - g e) == - wsum cs x g.
Proof. revert x. induction cs as [|c cs IH]; intros [|v x]; simpl; try reflexivity. rewrite IH. ring. Qed.
Lemma wsum_nonneg {E} (cs : list E) x g : (forall k, 0 <= nth k x 0) -> (forall e, In e cs -> 0 <= g e) -> 0 <= wsum cs x g.
Proof.
  revert x. induction cs as [|c cs IH]; intros [|v x] Hx Hg; simpl; try lra.
  pose proof (Hx 0%nat) as V. simpl in V. assert (0 <= v * g c) by (apply Qmult_le_0_compat; auto; apply Hg; left; auto).
  assert (0 <= wsum cs x g); [|lra]. apply IH; [intros k; apply (Hx (S k))|intros e He; apply Hg; right; auto].
Qed.
(** a vanishing sum of non-negative terms *)
Lemma wsum_zero {E} (cs : list E) x g : (forall k, 0 <= nth k x 0) -> (forall e, In e cs -> 0 <= g e) -> wsum cs x g == 0 ->
  forall k e, nth_error cs k = Some e -> nth k x 0 * g e == 0.
Proof.
  revert x. induction cs as [|c cs IH]; intros [|v x] Hx Hg Hs k e Hk.
  - destruct k; discriminate Hk.
  - destruct k; discriminate Hk.
  - simpl. destruct k; ring.
  - simpl in Hs. pose proof (Hx 0%nat) as V. simpl in V. assert (P : 0 <= v * g c) by (apply Qmult_le_0_compat; auto; apply Hg; left; auto).
    assert (W : 0 <= wsum cs x g) by (apply wsum_nonneg; [intros j; apply (Hx (S j))|intros e' He; apply Hg; right; auto]).
    destruct k as [|k]; simpl in *.
    + injection Hk as <-. lra.
    + apply (IH x); auto; [intros j; apply (Hx (S j))|lra].
Qed.
Lemma wsum_all_zero {E} (cs : list E) x g : (forall k e, nth_error cs k = Some e -> nth k x 0 * g e == 0) -> wsum cs x g == 0.
Proof.
  revert x. induction cs as [|c cs IH]; intros [|v x] H; simpl; try reflexivity.
  pose proof (H 0%nat c eq_refl) as H0. cbn [nth] in H0. rewrite H0, IH; [reflexivity|]. intros k e Hk. apply (H (S k) e Hk).
Qed.
Lemma wsum_put {E} (cs : list E) x g k e d : length x = length cs -> nth_error cs k = Some e ->
  wsum cs (put k (nth k x 0 + d) x) g == wsum cs x g + d * g e.
Proof.
  revert x k. induction cs as [|c cs IH]; intros [|v x] k L Hk; try (destruct k; discriminate Hk); [discriminate L|].
  destruct k as [|k]; simpl in *.
  - injection Hk as <-. ring.
  - rewrite IH by (auto; lia). ring.
Qed.
Lemma total_put {E} (cs : list E) x s k e d : length x = length cs -> nth_error cs k = Some e ->
  total cs (put k (nth k x 0 + d) x) s == total cs x s + if s e then d else 0.
Proof. intros L H. rewrite !total_wsum, (wsum_put cs x _ k e d L H). destruct (s e); ring. Qed.
Lemma total_nonneg {E} (cs : list E) x s : (forall k, 0 <= nth k x 0) -> 0 <= total cs x s.
Proof. intros H. rewrite total_wsum. apply wsum_nonneg; auto. intros e _. destruct (s e); lra. Qed.
Lemma total_zero {E} (cs : list E) x s : (forall k e, nth_error cs k = Some e -> s e = true -> nth k x 0 == 0) -> total cs x s == 0.
Proof.
  revert x. induction cs as [|c cs IH]; intros [|v x] H; simpl; try reflexivity.
  rewrite IH; [|intros k e Hk; apply (H (S k) e Hk)]. destruct (s c) eqn:Sc; [|ring]. specialize (H 0%nat c eq_refl Sc). simpl in H. lra.
Qed.

Lemma set_len i x z : length (put i x z) = length z.
Proof. revert i. induction z; intros [|i]; simpl; auto. Qed.
Lemma set_nth i j x z : (i < length z)%nat -> nth j (put i x z) 0 = if Nat.eqb j i then x else nth j z 0.
Proof. revert i j. induction z as [|a z IH]; intros [|i] [|j] H; simpl in *; auto; try lia. apply IH. lia. Qed.

(** ** sums over the fibers *)
Definition upto (n : nat) (g : nat -> Q) : Q := qsum (map g (seq 0 n)).
Lemma upto_S n g : upto (S n) g == upto n g + g n.
Proof. unfold upto. rewrite seq_S, map_app, qsum_app. simpl. ring. Qed.
Lemma upto_ext n g g' : (forall i, (i < n)%nat -> g i == g' i) -> upto n g == upto n g'.
Proof. induction n as [|n IH]; intros H; [reflexivity|]. rewrite !upto_S, IH, (H n) by (intros; auto; apply H; lia). reflexivity. Qed.
Lemma upto_add n g g' : upto n (fun i => g i + g' i) == upto n g + upto n g'.
Proof. induction n as [|n IH]; [reflexivity|]. rewrite !upto_S, IH. ring. Qed.
Lemma upto_scale n g c : upto n (fun i => c * g i) == c * upto n g.
Proof. induction n as [|n IH]; [unfold upto; simpl; ring|]. rewrite !upto_S, IH. ring. Qed.
Lemma upto_zero n : upto n (fun _ => 0) == 0.
Proof. induction n as [|n IH]; [reflexivity|]. rewrite upto_S, IH. ring. Qed.
Lemma upto_pick n g a : (a < n)%nat -> upto n (fun i => if Nat.eqb a i then g i else 0) == g a.
Proof.
  intros H. induction n as [|n IH]; [lia|]. rewrite upto_S. destruct (Nat.eqb_spec a n) as [->|N].
  - rewrite (upto_ext n _ (fun _ => 0)), upto_zero; [ring|]. intros i Hi. destruct (Nat.eqb_spec n i); [lia|reflexivity].
  - rewrite IH by lia. ring.
Qed.
Lemma upto_wsum {E} n (cs : list E) x g : upto n (fun i => wsum cs x (fun e => g i e)) == wsum cs x (fun e => upto n (fun i => g i e)).
Proof.
  revert x. induction cs as [|c cs IH]; intros [|v x]; simpl; try apply upto_zero.
  rewrite upto_add, upto_scale, IH. reflexivity.
Qed.
Lemma dotp_upto f z : length f = length z -> dotp f z == upto (length f) (fun i => nth i f 0 * nth i z 0).
Proof.
  revert z. induction f as [|a f IH]; intros [|b z] L; try discriminate L; [reflexivity|].
  simpl in L. simpl dotp. rewrite IH by lia. unfold upto. simpl length. cbn [seq map]. rewrite <- seq_shift, map_map. simpl. reflexivity.
Qed.
Lemma upto_seq_sum l : upto (length l) (fun i => nth i l 0) == qsum l.
Proof.
  induction l as [|a l IH]; [reflexivity|]. unfold upto in *. simpl length. cbn [seq map]. rewrite <- seq_shift, map_map. simpl. rewrite IH. reflexivity.
Qed.
Lemma dotp_wsum {E} (cs : list E) y H g : length y = length cs -> H = map g cs -> dotp H y == wsum cs y g.
Proof.
  intros L ->. revert y L. induction cs as [|c cs IH]; intros [|v y] L; try discriminate L; [reflexivity|].
  simpl in *. rewrite IH by lia. ring.
Qed.

(** ** the support forces of a least stack *)
Section Forces.
  Variable n : nat.
  Variable ed : list (nat * nat).
  Hypothesis ed_ok : forall a b, In (a, b) ed -> (a < b < n)%nat.
  Variable f h z : list Q.
  Hypothesis f_pos : forall i, (i < n)%nat -> 0 <= nth i f 0.
  Definition onto (x : list Q) (i : nat) : Q := total ed x (fun e => Nat.eqb (fst e) i).
  Definition under (x : list Q) (i : nat) : Q := total ed x (fun e => Nat.eqb (snd e) i).
  Definition touch (k : nat) : Prop := forall a b, nth_error ed k = Some (a, b) -> nth b z 0 == nth a z 0 + gap h a b.
  Hypothesis supports : forall i, (i < n)%nat -> nth i z 0 == nth i h 0 / 2 \/
    exists k a, nth_error ed k = Some (a, i) /\ touch k.

  (** the forces: each fiber, from the highest label down, gives its load to the floor or to one fiber it lies on *)
  Definition support (i : nat) : option nat :=
    find (fun k => match nth_error ed k with Some (a, b) => Nat.eqb b i && Qeqb (nth b z 0) (nth a z 0 + gap h a b) | None => false end) (seq 0 (length ed)).
  Fixpoint carry (j : nat) : list Q * list Q :=
    match j with
    | O => (repeat 0 (length ed), repeat 0 n)
    | S j' =>
      let '(x, w) := carry j' in
      let i := (n - S j')%nat in
      let d := nth i f 0 + onto x i in
      if Qeqb (nth i z 0) (nth i h 0 / 2) then (x, put i (nth i w 0 + d) w)
      else match support i with Some k => (put k (nth k x 0 + d) x, w) | None => (x, w) end
    end.
  Lemma support_ok i k : support i = Some k -> exists a, nth_error ed k = Some (a, i) /\ touch k.
  Proof.
    intros H. apply find_some in H. destruct H as [_ H]. destruct (nth_error ed k) as [[a b]|] eqn:E; [|discriminate H]. apply andb_prop in H. destruct H as [H1 H2].
    apply Nat.eqb_eq in H1. subst b. apply Qeqb_eq in H2. exists a. split; [reflexivity|]. intros a' b' E'. rewrite E in E'. injection E' as <- <-. exact H2.
  Qed.
  Lemma support_some i k a : nth_error ed k = Some (a, i) -> touch k -> exists k', support i = Some k'.
  Proof.
    intros E T. destruct (support i) as [k'|] eqn:S; [eauto|]. exfalso. unfold support in S. pose proof (find_none _ _ S k) as N.
    cbv beta in N. rewrite E in N. specialize (N ltac:(apply in_seq; assert (k < length ed)%nat by (apply nth_error_Some; congruence); lia)).
    rewrite Nat.eqb_refl, (proj2 (Qeqb_eq _ _) (T a i E)) in N. discriminate N.
  Qed.
  Lemma forces_from j : (j <= n)%nat -> let '(x, w) := carry j in length x = length ed /\ length w = n /\
    (forall k, 0 <= nth k x 0) /\ (forall i, 0 <= nth i w 0) /\
    (forall k a b, nth_error ed k = Some (a, b) -> (b < n - j)%nat -> nth k x 0 == 0) /\
    (forall i, (i < n - j)%nat -> nth i w 0 == 0) /\
    (forall i, (n - j <= i < n)%nat -> nth i f 0 + onto x i == under x i + nth i w 0) /\
    (forall k, (k < length ed)%nat -> ~ nth k x 0 == 0 -> touch k) /\
    (forall i, (i < n)%nat -> ~ nth i w 0 == 0 -> nth i z 0 == nth i h 0 / 2).
  Proof.
    induction j as [|j IH]; intros Lj.
    - cbn [carry]. rewrite !repeat_length.
      assert (R : forall k m, nth k (repeat 0 m) 0 = 0) by (intros k m; revert k; induction m; intros [|k]; simpl; auto).
      split; [auto|]. split; [auto|]. split; [intros; rewrite R; lra|]. split; [intros; rewrite R; lra|].
      split; [intros; rewrite R; reflexivity|]. split; [intros; rewrite R; reflexivity|]. split; [intros; lia|].
      split; intros ? _ N; destruct N; rewrite R; reflexivity.
    - cbn [carry]. specialize (IH ltac:(lia)). destruct (carry j) as [x w]. destruct IH as (Lx & Lw & Px & Pw & Zx & Zw & B & T & F).
      remember (n - S j)%nat as i eqn:Ei. assert (Hi : (i < n)%nat) by lia. assert (Ej : (n - j)%nat = S i) by lia. rewrite Ej in *.
      set (d := nth i f 0 + onto x i).
      assert (Pd : 0 <= d) by (unfold d; pose proof (f_pos i Hi); pose proof (total_nonneg ed x (fun e => Nat.eqb (fst e) i) Px); unfold onto; lra).
      assert (U0 : under x i == 0).
      { apply total_zero. intros k [a b] Hk E. simpl in E. apply Nat.eqb_eq in E. subst b. apply (Zx k a i Hk). lia. }
      fold d. destruct (Qeqb (nth i z 0) (nth i h 0 / 2)) eqn:EF; [apply Qeqb_eq in EF|apply Qeqb_neq in EF].
      + (* on the floor *)
        assert (PN : forall l, nth l (put i (nth i w 0 + d) w) 0 = if Nat.eqb l i then nth i w 0 + d else nth l w 0) by (intros l; apply set_nth; lia).
        split; [exact Lx|]. split; [rewrite set_len; exact Lw|]. split; [exact Px|]. split.
        { intros l. rewrite PN. destruct (Nat.eqb l i); [pose proof (Pw i); lra|apply Pw]. }
        split; [intros k a b Hk Hb; apply (Zx k a b Hk); lia|]. split.
        { intros l Hl. rewrite PN. destruct (Nat.eqb_spec l i); [lia|]. apply Zw. lia. }
        split.
        { intros l Hl. rewrite PN. destruct (Nat.eqb_spec l i) as [->|N].
          - rewrite U0. pose proof (Zw i ltac:(lia)). unfold d. lra.
          - apply B. lia. }
        split; [exact T|]. intros l Hl. rewrite PN. destruct (Nat.eqb_spec l i) as [->|N]; [auto|apply F; auto].
      + (* on the fiber [a] *)
        assert (SU : exists k, support i = Some k). { destruct (supports i Hi) as [C|(k & a & Hk & E)]; [contradiction|exact (support_some i k a Hk E)]. }
        destruct SU as (k & SU). rewrite SU. destruct (support_ok i k SU) as (a & Hk & E).
        assert (Lk : (k < length x)%nat) by (rewrite Lx; apply nth_error_Some; congruence).
        assert (PN : forall l, nth l (put k (nth k x 0 + d) x) 0 = if Nat.eqb l k then nth k x 0 + d else nth l x 0) by (intros l; apply set_nth; lia).
        assert (Hai : (a < i)%nat) by (apply nth_error_In, ed_ok in Hk; lia).
        split; [rewrite set_len; exact Lx|]. split; [exact Lw|]. split.
        { intros l. rewrite PN. destruct (Nat.eqb l k); [pose proof (Px k); lra|apply Px]. }
        split; [exact Pw|]. split.
        { intros l c b Hl Hb. rewrite PN. destruct (Nat.eqb_spec l k) as [->|N].
          - rewrite Hk in Hl. injection Hl as -> ->. lia.
          - apply (Zx l c b Hl). lia. }
        split; [intros l Hl; apply Zw; lia|]. split.
        { intros l Hl. unfold onto, under. rewrite !(total_put ed x _ k (a, i) d Lx Hk). cbn [fst snd].
          destruct (Nat.eqb_spec a l); [lia|]. destruct (Nat.eqb_spec i l) as [<-|N].
          - fold (onto x i) (under x i). rewrite U0. pose proof (Zw i ltac:(lia)). unfold d. lra.
          - pose proof (B l ltac:(lia)) as Bl. unfold onto, under in Bl. lra. }
        split; [|exact F].
        intros l Hl. rewrite PN. destruct (Nat.eqb_spec l k) as [->|N]; [intros _; exact E|apply T; exact Hl].
  Qed.
End Forces.

(** ** the program of a network *)
Lemma skipn_nth (y : list Q) a : skipn a y = match skipn a y with [] => [] | _ :: _ => nth a y 0 :: skipn (S a) y end.
Proof. revert a. induction y as [|v y IH]; intros [|a]; simpl; auto. apply IH. Qed.
Lemma skipn_none (y : list Q) a : skipn a y = [] -> nth a y 0 = 0 /\ skipn (S a) y = [].
Proof. revert a. induction y as [|v y IH]; intros [|a] H; simpl in *; try discriminate H; auto. Qed.
Lemma col_part (g : nat * nat -> nat) v y i : forall l a,
  qsum (map (fun e => let '(r, c, w) := e in if Nat.eqb c i then nth r y 0 * w else 0)
     (map (fun e => (fst e, g (snd e), v)) (combine (seq a (length l)) l)))
  == v * wsum l (skipn a y) (fun e => if Nat.eqb (g e) i then 1 else 0).
Proof.
  induction l as [|e l IH]; intros a; [simpl; ring|].
  cbn [length seq combine map qsum fst snd]. rewrite IH. rewrite (skipn_nth y a). destruct (skipn a y) as [|v0 r] eqn:E.
  - apply skipn_none in E. destruct E as [-> ->]. cbn [wsum]. destruct (Nat.eqb (g e) i); destruct l; simpl; ring.
  - cbn [wsum]. destruct (Nat.eqb (g e) i); ring.
Qed.
Lemma coo_abs_app C C' : coo_abs (C ++ C') = coo_abs C ++ coo_abs C'.
Proof. apply map_app. Qed.
Lemma coo_abs_part (g : nat * nat -> nat) v l : coo_abs (map (fun e : nat * (nat * nat) => (fst e, g (snd e), v)) l) = map (fun e => (fst e, g (snd e), Qabs v)) l.
Proof. unfold coo_abs. rewrite map_map. reflexivity. Qed.
Lemma wsum_seq w g n : length w = n -> upto n (fun i => nth i w 0 * g i) == wsum (seq 0 n) w g.
Proof.
  intros <-. unfold upto.
  assert (X : forall u k, (forall i, nth (k + i) w 0 = nth i u 0) -> qsum (map (fun i => nth i w 0 * g i) (seq k (length u))) == wsum (seq k (length u)) u g).
  { induction u as [|v u IH]; intros k H; [reflexivity|]. cbn [length seq map qsum wsum].
    rewrite IH; [|intros i; specialize (H (S i)); cbn [nth] in H; rewrite <- H; f_equal; lia]. pose proof (H 0%nat) as E. rewrite Nat.add_0_r in E. rewrite E. reflexivity. }
  apply X. intros i. reflexivity.
Qed.
Lemma total_ext {E} (cs : list E) x s s' : (forall e, In e cs -> s e = s' e) -> total cs x s == total cs x s'.
Proof. intros H. rewrite !total_wsum. apply wsum_ext. intros e He. rewrite (H e He). reflexivity. Qed.
Lemma contacts_strict t : contacts t = strict_pairs t.
Proof.
  unfold contacts, strict_pairs. induction (n_rows t) as [|[i c] l IH]; [reflexivity|]. cbn [map filter fst snd].
  destruct (Z.ltb (cA c) (cB c)); cbn [map]; rewrite IH; reflexivity.
Qed.
Lemma nth_skipn_at (l : list Q) i k : nth k (skipn i l) 0 = nth (i + k) l 0.
Proof. revert i. induction l as [|a l IH]; intros [|i]; simpl; auto. destruct k; reflexivity. Qed.
Lemma qsum_skipn l i : qsum (skipn (S i) l) == upto (length l) (fun j => if Nat.ltb i j then nth j l 0 else 0).
Proof.
  rewrite <- (upto_seq_sum (skipn (S i) l)), skipn_length. destruct (Nat.leb_spec (length l) (S i)) as [L|L].
  - replace (length l - S i)%nat with 0%nat by lia. rewrite (upto_ext (length l) _ (fun _ => 0)), upto_zero; [reflexivity|].
    intros j Hj. destruct (Nat.ltb_spec i j); [lia|reflexivity].
  - assert (X : forall k, upto (S i + k) (fun j => if Nat.ltb i j then nth j l 0 else 0) == upto k (fun j => nth j (skipn (S i) l) 0)).
    { induction k as [|k IH].
      - rewrite Nat.add_0_r, (upto_ext _ _ (fun _ => 0)), upto_zero; [reflexivity|]. intros j Hj. destruct (Nat.ltb_spec i j); [lia|reflexivity].
      - rewrite Nat.add_succ_r, !upto_S, IH. destruct (Nat.ltb_spec i (S i + k)); [|lia].
        rewrite nth_skipn_at. reflexivity. }
    rewrite <- X. replace (S i + (length l - S i))%nat with (length l) by lia. reflexivity.
Qed.

Section ProgramForces.
  Variable m : qmat.
  Variable t : net_df.
  Variable p : lp.
  Hypothesis HC : stack_constraint m t = Ok p.
  Let n := length (q_rows m).
  Let h := map qh (q_rows m).
  Let ij := map (fun p => (Z.to_nat (fst p), Z.to_nat (snd p))) (strict_pairs t).
  Let g (e : nat * nat) : Q := 0 - half * (nth (fst e) h 0 + nth (snd e) h 0).

  Lemma p_eq : lpC p = map (fun e => (fst e, fst (snd e), 1)) (combine (seq 0 (length ij)) ij)
          ++ map (fun e => (fst e, snd (snd e), - (1))) (combine (seq 0 (length ij)) ij) /\
    lpf p = map weight (q_rows m) /\ lpH p = map g ij /\ lph p = h.
  Proof. destruct (prog_inv m t p HC) as (_ & _ & _ & ->). split; [reflexivity|]. split; [reflexivity|]. split; reflexivity. Qed.
  Lemma ij_ok a b : In (a, b) ij -> (a < b < n)%nat.
  Proof.
    intros H. unfold ij in H. apply in_map_iff in H. destruct H as ([A B] & E & H). cbn in E. injection E as <- <-.
    destruct (prog_inv m t p HC) as (_ & _ & R & _). destruct (R _ _ H) as [RA RB]. fold n in RA, RB.
    unfold strict_pairs in H. apply in_map_iff in H. destruct H as (c & E & H). injection E as <- <-. apply filter_In in H. destruct H as [_ H]. apply Z.ltb_lt in H. lia.
  Qed.
  Definition side (i : nat) (e : nat * nat) : Q := (if Nat.eqb (fst e) i then 1 else 0) - (if Nat.eqb (snd e) i then 1 else 0).
  Lemma col_eq y i : coo_col (lpC p) y i == wsum ij y (side i).
  Proof.
    rewrite (proj1 p_eq). unfold coo_col. rewrite map_app, qsum_app, (col_part fst), (col_part snd). cbn [skipn].
    unfold side. rewrite (wsum_ext ij y (fun e => (if Nat.eqb (fst e) i then 1 else 0) - (if Nat.eqb (snd e) i then 1 else 0)) (fun e => (if Nat.eqb (fst e) i then 1 else 0) + (- (1)) * (if Nat.eqb (snd e) i then 1 else 0))).
    - rewrite wsum_add, wsum_scale. ring.
    - intros e _. ring.
  Qed.
  Lemma abs_eq y i : coo_col (coo_abs (lpC p)) y i == wsum ij y (fun e => if Nat.eqb (fst e) i then 1 else 0) + wsum ij y (fun e => if Nat.eqb (snd e) i then 1 else 0).
  Proof.
    rewrite (proj1 p_eq), coo_abs_app, (coo_abs_part fst), (coo_abs_part snd). unfold coo_col. rewrite map_app, qsum_app, (col_part fst), (col_part snd). cbn [skipn].
    assert (E1 : Qabs 1 == 1) by reflexivity. assert (E2 : Qabs (- (1)) == 1) by reflexivity. rewrite E1, E2. ring.
  Qed.
  Lemma side_onto y i : wsum ij y (side i) == onto ij y i - under ij y i.
  Proof.
    unfold side, onto, under. rewrite !total_wsum.
    rewrite (wsum_ext ij y (fun e => (if Nat.eqb (fst e) i then 1 else 0) - (if Nat.eqb (snd e) i then 1 else 0)) (fun e => (if Nat.eqb (fst e) i then 1 else 0) + (- (1)) * (if Nat.eqb (snd e) i then 1 else 0))).
    - rewrite wsum_add, wsum_scale. ring.
    - intros e _. ring.
  Qed.
  (** the difference between the two objectives *)
  Lemma duality z y w : length z = n -> length y = length ij -> length w = n ->
    (forall i, (i < n)%nat -> nth i (lpf p) 0 == coo_col (lpC p) y i + nth i w 0) ->
    dotp (lpf p) z == dotp (lpH p) y + dotp (map (fun h => h / 2) (lph p)) w
      + wsum ij (map Qopp y) (fun e => nth (snd e) z 0 - nth (fst e) z 0 - gap h (fst e) (snd e))
      + wsum (seq 0 n) w (fun i => nth i z 0 - nth i h 0 / 2).
  Proof.
    intros Lz Ly Lw D. destruct p_eq as (_ & Ef & EH & Eh). assert (Lf : length (lpf p) = n) by (rewrite Ef; apply map_length).
    rewrite dotp_upto by congruence. rewrite Lf.
    rewrite (upto_ext n _ (fun i => wsum ij y (fun e => nth i z 0 * side i e) + nth i w 0 * nth i z 0)).
    2:{ intros i Hi. rewrite (D i Hi), col_eq, wsum_scale. ring. }
    rewrite upto_add, (upto_wsum n ij y (fun i e => nth i z 0 * side i e)).
    rewrite (dotp_wsum ij y (lpH p) g Ly EH). rewrite Eh.
    assert (E2 : dotp (map (fun h => h / 2) h) w == wsum (seq 0 n) w (fun i => nth i h 0 / 2)).
    { rewrite dotp_upto by (unfold h; rewrite !map_length; fold n; congruence). rewrite map_length. replace (length h) with n by (unfold h, n; rewrite map_length; reflexivity).
      rewrite <- (wsum_seq w (fun i => nth i h 0 / 2) n Lw). apply upto_ext. intros i Hi.
      assert (Hh : (i < length h)%nat) by (unfold h; rewrite map_length; exact Hi).
      rewrite (nth_indep _ 0 (0 / 2)) by (rewrite map_length; exact Hh). rewrite (map_nth (fun h => h / 2)). ring. }
    rewrite E2, (wsum_seq w (fun i => nth i z 0) n Lw), wsum_opp.
    rewrite (wsum_ext (seq 0 n) w (fun i => nth i z 0 - nth i h 0 / 2) (fun i => nth i z 0 + (- (1)) * (nth i h 0 / 2))) by (intros; ring).
    rewrite wsum_add, (wsum_scale (seq 0 n) w (fun i => nth i h 0 / 2)).
    assert (E3 : wsum ij y (fun e => upto n (fun i => nth i z 0 * side i e)) ==
      wsum ij y g + - wsum ij y (fun e => nth (snd e) z 0 - nth (fst e) z 0 - gap h (fst e) (snd e))).
    { rewrite <- wsum_opp'. rewrite <- wsum_add. apply wsum_ext. intros [a b] He. apply ij_ok in He. cbn [fst snd].
      unfold side. cbn [fst snd].
      rewrite (upto_ext n _ (fun i => (if Nat.eqb a i then nth i z 0 else 0) + (- (1)) * (if Nat.eqb b i then nth i z 0 else 0))).
      2:{ intros i _. destruct (Nat.eqb a i), (Nat.eqb b i); ring. }
      rewrite upto_add, upto_scale, !upto_pick by lia. unfold g, gap, half. cbn [fst snd]. qlra. }
    rewrite E3. ring.
  Qed.

  Hypothesis noflag : ~ flag_set (n_attrs t).
  Lemma ij_len : length ij = length (contacts t).
  Proof. unfold ij. rewrite map_length, contacts_strict. reflexivity. Qed.
  Lemma above_onto x i : (0 <= i)%Z -> from_above t x i == onto ij x (Z.to_nat i).
  Proof.
    intros Hi. unfold from_above, onto, ij. rewrite contacts_strict, total_map. apply total_ext. intros [A B] He. cbn [fst snd].
    destruct (prog_inv m t p HC) as (_ & _ & R & _). destruct (R _ _ He) as [RA RB].
    destruct (Z.eqb_spec A i) as [->|N]; [symmetry; apply Nat.eqb_refl|]. symmetry. apply Nat.eqb_neq. lia.
  Qed.
  Lemma below_under x i : (0 <= i)%Z -> to_below t x i == under ij x (Z.to_nat i).
  Proof.
    intros Hi. unfold to_below, under, ij. rewrite contacts_strict, total_map. apply total_ext. intros [A B] He. cbn [fst snd].
    destruct (prog_inv m t p HC) as (_ & _ & R & _). destruct (R _ _ He) as [RA RB].
    destruct (Z.eqb_spec B i) as [->|N]; [symmetry; apply Nat.eqb_refl|]. symmetry. apply Nat.eqb_neq. lia.
  Qed.
  Lemma onto_opp y i : onto ij (map Qopp y) i == - onto ij y i.
  Proof. unfold onto. rewrite !total_wsum. apply wsum_opp. Qed.
  Lemma under_opp y i : under ij (map Qopp y) i == - under ij y i.
  Proof. unfold under. rewrite !total_wsum. apply wsum_opp. Qed.
  Lemma nth_opp (y : list Q) k : nth k (map Qopp y) 0 = - nth k y 0.
  Proof. change 0 with (- 0) at 1. apply (map_nth Qopp). Qed.
  Lemma weight_nth i f : nth_error (q_rows m) i = Some f -> nth i (lpf p) 0 = weight f.
  Proof. intros H. destruct p_eq as (_ & -> & _). apply nth_error_nth. rewrite nth_error_map, H. reflexivity. Qed.
  Lemma fiber_at i : (i < n)%nat -> exists f, nth_error (q_rows m) i = Some f.
  Proof. intros H. destruct (nth_error (q_rows m) i) as [f|] eqn:E; [eauto|]. apply nth_error_None in E. unfold n in H. lia. Qed.
  Lemma gaps_pos z : lp_feasible p z -> (forall e, In e ij -> 0 <= nth (snd e) z 0 - nth (fst e) z 0 - gap h (fst e) (snd e)) /\
    (forall i, In i (seq 0 n) -> 0 <= nth i z 0 - nth i h 0 / 2) /\ length z = n.
  Proof.
    intros Hz. apply (feasible_iff m t p HC noflag) in Hz. apply (admissible_adm m t) in Hz. destruct Hz as (L & Hf & He).
    assert (Lh : length h = n) by (unfold h; apply map_length). fold h in L, Hf, He. rewrite Lh in L, Hf, He.
    split; [|split; [|exact L]].
    - intros [a b] Hab. pose proof (ij_ok _ _ Hab) as R. apply (edge_ij m t p HC noflag) in Hab. specialize (He a b Hab ltac:(lia)). cbn [fst snd]. lra.
    - intros i Hi. apply in_seq in Hi. specialize (Hf i ltac:(lia)). lra.
  Qed.

  Theorem forces z y w : lp_feasible p z -> marginals p z y w -> equilibrium m t z (map Qopp y) w.
  Proof.
    intros Hz [Ry Rw Ny Pw D Gp]. destruct p_eq as (_ & Ef & EH & Eh).
    rewrite EH, map_length in Ry. rewrite Eh in Rw. assert (Lh : length h = n) by (unfold h; apply map_length). rewrite Eh, Lh in D. rewrite Lh in Rw.
    destruct (gaps_pos z Hz) as (G1 & G2 & Lz). pose proof (duality z y w Lz Ry Rw D) as Du. rewrite Gp in Du.
    assert (Px : forall k, 0 <= nth k (map Qopp y) 0) by (intros k; rewrite nth_opp; pose proof (Ny k); lra).
    pose proof (wsum_nonneg ij (map Qopp y) _ Px G1) as S1. pose proof (wsum_nonneg (seq 0 n) w _ Pw G2) as S2.
    assert (Z1 : wsum ij (map Qopp y) (fun e => nth (snd e) z 0 - nth (fst e) z 0 - gap h (fst e) (snd e)) == 0) by lra.
    assert (Z2 : wsum (seq 0 n) w (fun i => nth i z 0 - nth i h 0 / 2) == 0) by lra.
    split; auto.
    - rewrite map_length, <- ij_len. exact Ry.
    - intros i f [Hi E]. rewrite above_onto, below_under by exact Hi. unfold height.
      assert (Hn : (Z.to_nat i < n)%nat) by (apply nth_error_Some; congruence).
      pose proof (D _ Hn) as Di. rewrite (weight_nth _ f E), col_eq, side_onto in Di. rewrite onto_opp, under_opp. lra.
    - intros k A B f f' Hk [HA EA] [HB EB] Nz. unfold height.
      assert (Hk' : nth_error ij k = Some (Z.to_nat A, Z.to_nat B)) by (unfold ij; rewrite nth_error_map, <- contacts_strict, Hk; reflexivity).
      pose proof (wsum_zero ij _ _ Px G1 Z1 k _ Hk') as P. cbn [fst snd] in P. apply Qmult_integral in P. destruct P as [P|P]; [contradiction|].
      unfold gap, h in P. rewrite (h_nth m _ f EA), (h_nth m _ f' EB) in P. lra.
    - intros i f [Hi E] Nz. unfold height in *. assert (Hn : (Z.to_nat i < n)%nat) by (apply nth_error_Some; congruence).
      assert (Hs : nth_error (seq 0 n) (Z.to_nat i) = Some (Z.to_nat i)) by (rewrite (nth_error_nth' _ 0%nat) by (rewrite seq_length; exact Hn); rewrite List.seq_nth by exact Hn; reflexivity).
      pose proof (wsum_zero (seq 0 n) w _ Pw G2 Z2 _ _ Hs) as P. apply Qmult_integral in P. destruct P as [P|P]; [contradiction|].
      unfold h in P. rewrite (h_nth m _ f E) in P. lra.
  Qed.

  Theorem forces_certify z push floor : lp_feasible p z -> equilibrium m t z push floor ->
    lp_optimal p z /\ marginals p z (map Qopp push) floor.
  Proof.
    intros Hz [Lp Lf Pp Pf B T R]. destruct p_eq as (_ & Ef & EH & Eh). assert (Lh : length h = n) by (unfold h; apply map_length). fold n in Lf.
    assert (Ly : length (map Qopp push) = length ij) by (rewrite map_length, ij_len; exact Lp).
    assert (D : forall i, (i < n)%nat -> nth i (lpf p) 0 == coo_col (lpC p) (map Qopp push) i + nth i floor 0).
    { intros i Hi. destruct (fiber_at i Hi) as (f & E). assert (Hf : has_fiber m (Z.of_nat i) f) by (split; [lia|rewrite Nat2Z.id; exact E]).
      specialize (B _ _ Hf). rewrite above_onto, below_under in B by lia. unfold height in B. rewrite Nat2Z.id in B.
      rewrite (weight_nth i f E), col_eq, side_onto, onto_opp, under_opp. lra. }
    assert (Eo : map Qopp (map Qopp push) = map (fun x => - - x) push) by (rewrite map_map; reflexivity).
    assert (Px : forall k, 0 <= nth k (map Qopp (map Qopp push)) 0) by (intros k; rewrite !nth_opp; pose proof (Pp k); lra).
    destruct (gaps_pos z Hz) as (G1 & G2 & Lz).
    assert (Gp : dotp (lpf p) z == dotp (lpH p) (map Qopp push) + dotp (map (fun h => h / 2) (lph p)) floor).
    { rewrite (duality z _ floor Lz Ly Lf D).
      assert (Z1 : wsum ij (map Qopp (map Qopp push)) (fun e => nth (snd e) z 0 - nth (fst e) z 0 - gap h (fst e) (snd e)) == 0).
      { apply wsum_all_zero. intros k [a b] Hk. rewrite !nth_opp. cbn [fst snd].
        destruct (Qeq_dec (nth k push 0) 0) as [E0|N0]; [rewrite E0; ring|].
        pose proof (ij_ok a b (nth_error_In _ _ Hk)) as Rab. destruct (fiber_at a ltac:(lia)) as (f & Ea). destruct (fiber_at b ltac:(lia)) as (f' & Eb).
        unfold ij in Hk. rewrite nth_error_map in Hk. destruct (nth_error (strict_pairs t) k) as [[A C]|] eqn:Es; [|discriminate Hk]. cbn in Hk. injection Hk as Ha Hb.
        destruct (prog_inv m t p HC) as (_ & _ & Rg & _). destruct (Rg _ _ (nth_error_In _ _ Es)) as [RA RB]. rewrite <- contacts_strict in Es.
        assert (X : height z C - height z A == (qh f + qh f') / 2).
        { apply (T k A C f f' Es); [split; [lia|rewrite Ha; exact Ea]|split; [lia|rewrite Hb; exact Eb]|exact N0]. }
        unfold height in X. rewrite Ha, Hb in X. unfold gap. unfold h. rewrite (h_nth m _ f Ea), (h_nth m _ f' Eb).
        assert (X' : nth b z 0 - nth a z 0 - (qh f + qh f') / 2 == 0) by lra. rewrite X'. ring. }
      assert (Z2 : wsum (seq 0 n) floor (fun i => nth i z 0 - nth i h 0 / 2) == 0).
      { apply wsum_all_zero. intros k i Hk.
        assert (Hkn : (k < n)%nat) by (rewrite <- (seq_length n 0); apply nth_error_Some; congruence).
        rewrite (nth_error_nth' _ 0%nat) in Hk by (rewrite seq_length; exact Hkn). rewrite List.seq_nth in Hk by exact Hkn. injection Hk as <-. cbn [plus].
        destruct (Qeq_dec (nth k floor 0) 0) as [E0|N0]; [rewrite E0; ring|].
        destruct (fiber_at k Hkn) as (f & E). assert (Hf : has_fiber m (Z.of_nat k) f) by (split; [lia|rewrite Nat2Z.id; exact E]).
        specialize (R _ _ Hf). unfold height in R. rewrite Nat2Z.id in R. specialize (R N0). unfold h. rewrite (h_nth m _ f E).
        assert (X' : nth k z 0 - qh f / 2 == 0) by lra. rewrite X'. ring. }
      rewrite Z1, Z2. ring. }
    split.
    - split; [exact Hz|]. intros z' Hz'. rewrite Gp. destruct (gaps_pos z' Hz') as (G1' & G2' & Lz').
      rewrite (duality z' _ floor Lz' Ly Lf D).
      pose proof (wsum_nonneg ij _ _ Px G1') as S1. pose proof (wsum_nonneg (seq 0 n) floor _ Pf G2') as S2. lra.
    - split; auto.
      + rewrite EH, !map_length. rewrite map_length in Ly. exact Ly.
      + rewrite Eh, Lh. exact Lf.
      + intros k. rewrite nth_opp. pose proof (Pp k). lra.
      + rewrite Eh, Lh. exact D.
  Qed.

  Theorem forces_carried z : lp_optimal p z -> let c := carry n ij (lpf p) h z n in equilibrium m t z (fst c) (snd c).
  Proof.
    intros Ho. cbv zeta. pose proof (optimal_supported m t p HC noflag z Ho) as Hs. apply (supported_sup m t) in Hs. fold h in Hs. unfold sup in Hs.
    assert (Lh : length h = n) by (unfold h; apply map_length). rewrite Lh in Hs. destruct p_eq as (_ & Ef & EH & Eh).
    assert (Fp : forall i, (i < n)%nat -> 0 <= nth i (lpf p) 0) by (intros i Hi; apply Qlt_le_weak, (proj2 (weights m t p HC)); exact Hi).
    assert (SUP : forall i, (i < n)%nat -> nth i z 0 == nth i h 0 / 2 \/ exists k a, nth_error ij k = Some (a, i) /\ touch ij h z k).
    { intros i Hi. destruct (Hs i Hi) as [E|(a & Ha & E)]; [left; exact E|right].
      apply (edge_ij m t p HC noflag) in Ha. apply In_nth_error in Ha. destruct Ha as (k & Hk). exists k, a. split; [exact Hk|].
      intros a' b' Hk'. fold ij in Hk. rewrite Hk in Hk'. injection Hk' as <- <-. exact E. }
    pose proof (forces_from n ij ij_ok (lpf p) h z Fp SUP n (le_n n)) as FF. destruct (carry n ij (lpf p) h z n) as [x w]. cbn [fst snd].
    destruct FF as (Lx & Lw & Px & Pw & _ & _ & B & T & F).
    - rewrite Nat.sub_diag in B. split; auto.
      + rewrite Lx. apply ij_len.
      + intros i f [Hi E]. rewrite above_onto, below_under by exact Hi. assert (Hn : (Z.to_nat i < n)%nat) by (apply nth_error_Some; congruence).
        rewrite <- (weight_nth _ f E). apply B. lia.
      + intros k A C f f' Hk [HA EA] [HB EB] Nz. assert (Hk' : nth_error ij k = Some (Z.to_nat A, Z.to_nat C)) by (unfold ij; rewrite nth_error_map, <- contacts_strict, Hk; reflexivity).
        specialize (T k ltac:(apply nth_error_Some; congruence) Nz _ _ Hk'). unfold height. unfold gap, h in T. rewrite (h_nth m _ f EA), (h_nth m _ f' EB) in T. lra.
      + intros i f [Hi E] Nz. assert (Hn : (Z.to_nat i < n)%nat) by (apply nth_error_Some; congruence).
        specialize (F _ Hn Nz). unfold height. unfold h in F. rewrite (h_nth m _ f E) in F. exact F.
  Qed.

  Theorem forces_exist z : lp_optimal p z -> exists push floor, equilibrium m t z push floor.
  Proof. intros Ho. eexists. eexists. exact (forces_carried z Ho). Qed.
  Lemma balance_at z push floor : equilibrium m t z push floor -> forall i, (i < n)%nat ->
    nth i (lpf p) 0 + onto ij push i == under ij push i + nth i floor 0.
  Proof.
    intros [Lp Lf Pp Pf B T R] i Hi. destruct (fiber_at i Hi) as (f & E). assert (Hf : has_fiber m (Z.of_nat i) f) by (split; [lia|rewrite Nat2Z.id; exact E]).
    specialize (B _ _ Hf). rewrite above_onto, below_under in B by lia. unfold height in B. rewrite Nat2Z.id in B. rewrite (weight_nth i f E). exact B.
  Qed.
  (** sums of the balances over the fibers selected by [s] *)
  Lemma balance_sum z push floor (s : nat -> bool) : equilibrium m t z push floor ->
    upto n (fun i => if s i then nth i (lpf p) 0 else 0) + wsum ij push (fun e => if s (fst e) then 1 else 0)
    == wsum ij push (fun e => if s (snd e) then 1 else 0) + upto n (fun i => if s i then nth i floor 0 else 0).
  Proof.
    intros Q. pose proof (balance_at z push floor Q) as B.
    assert (X : forall pr : nat * nat -> nat, (forall e, In e ij -> (pr e < n)%nat) ->
      wsum ij push (fun e => if s (pr e) then 1 else 0) == upto n (fun i => if s i then total ij push (fun e => Nat.eqb (pr e) i) else 0)).
    { intros pr Hpr. rewrite (upto_ext n _ (fun i => wsum ij push (fun e => (if s i then 1 else 0) * (if Nat.eqb (pr e) i then 1 else 0)))).
      2:{ intros i _. rewrite wsum_scale. destruct (s i); [rewrite total_wsum|]; ring. }
      rewrite (upto_wsum n ij push (fun i e => (if s i then 1 else 0) * (if Nat.eqb (pr e) i then 1 else 0))). apply wsum_ext. intros e He.
      rewrite (upto_ext n _ (fun i => if Nat.eqb (pr e) i then (if s i then 1 else 0) else 0)) by (intros i _; destruct (s i), (Nat.eqb (pr e) i); ring).
      rewrite (upto_pick n (fun i => if s i then 1 else 0)) by (apply Hpr; exact He). reflexivity. }
    rewrite (X fst), (X snd) by (intros [a b] He; apply ij_ok in He; cbn [fst snd]; lia).
    rewrite <- !upto_add. apply upto_ext. intros i Hi. destruct (s i); [apply B; exact Hi|ring].
  Qed.
  Theorem floor_carries z push floor : equilibrium m t z push floor -> qsum floor == qsum (map weight (q_rows m)).
  Proof.
    intros Q. pose proof (balance_sum z push floor (fun _ => true) Q) as S. destruct p_eq as (_ & Ef & _).
    assert (L1 : length floor = n) by apply Q. rewrite <- Ef, <- (upto_seq_sum floor), <- (upto_seq_sum (lpf p)), L1.
    replace (length (lpf p)) with n by (rewrite Ef, map_length; reflexivity). cbv beta iota in S. lra.
  Qed.
  Theorem load_value z y w i : marginals p z y w -> (i < n)%nat ->
    nth i (loads p y) 0 == - from_above t (map Qopp y) (Z.of_nat i).
  Proof.
    intros M Hi. rewrite above_onto by lia. rewrite Nat2Z.id, onto_opp. destruct p_eq as (_ & _ & _ & Eh).
    unfold loads. rewrite Eh. replace (length h) with n by (unfold h; rewrite map_length; reflexivity).
    erewrite nth_error_nth by (rewrite nth_error_map, (nth_error_nth' _ 0%nat) by (rewrite seq_length; exact Hi); rewrite List.seq_nth by exact Hi; reflexivity).
    cbn [plus]. rewrite abs_eq, col_eq, side_onto. unfold onto, under, half. rewrite !total_wsum. ring.
  Qed.
  Theorem load_bound z push floor i : equilibrium m t z push floor -> (0 <= i)%Z ->
    0 <= from_above t push i /\ from_above t push i <= weight_above m i.
  Proof.
    intros Q Hi. assert (Pp : forall k, 0 <= nth k push 0) by apply Q. assert (Pf : forall k, 0 <= nth k floor 0) by apply Q.
    split; [apply total_nonneg; exact Pp|].
    pose proof (balance_sum z push floor (fun j => Nat.ltb (Z.to_nat i) j) Q) as S. destruct p_eq as (_ & Ef & _).
    unfold weight_above. rewrite <- Ef, qsum_skipn. replace (length (lpf p)) with n by (rewrite Ef, map_length; reflexivity).
    rewrite above_onto by exact Hi. unfold onto. rewrite total_wsum.
    assert (W : 0 <= upto n (fun j => if Nat.ltb (Z.to_nat i) j then nth j floor 0 else 0)).
    { assert (L1 : length floor = n) by apply Q. rewrite (upto_ext n _ (fun j => nth j floor 0 * (if Nat.ltb (Z.to_nat i) j then 1 else 0))) by (intros j _; destruct (Nat.ltb (Z.to_nat i) j); ring).
      rewrite (wsum_seq floor (fun j => if Nat.ltb (Z.to_nat i) j then 1 else 0) n L1). apply wsum_nonneg; [exact Pf|]. intros j _. destruct (Nat.ltb (Z.to_nat i) j); lra. }
    assert (D : 0 <= wsum ij push (fun e => (if Nat.ltb (Z.to_nat i) (snd e) then 1 else 0) + (- (1)) * (if Nat.ltb (Z.to_nat i) (fst e) then 1 else 0) + (- (1)) * (if Nat.eqb (fst e) (Z.to_nat i) then 1 else 0))).
    { apply wsum_nonneg; [exact Pp|]. intros [a b] He. apply ij_ok in He. cbn [fst snd].
      destruct (Nat.ltb_spec (Z.to_nat i) b), (Nat.ltb_spec (Z.to_nat i) a), (Nat.eqb_spec a (Z.to_nat i)); try lia; lra. }
    rewrite !wsum_add, !wsum_scale in D. cbv beta in D, S |- *. lra.
  Qed.
End ProgramForces.
