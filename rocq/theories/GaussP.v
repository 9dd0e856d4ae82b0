(** The solver of the examples is exact: it answers every system that has one solution. *)
From Coq Require Import Permutation.
From Verif Require Import Num NumP ListX ListP Frames MatM NetM MeshM ModelM SolverM Spec SpecModel SpecSolver GaussX
  StiffP StackP SolverP SpecPerm.
Open Scope Q_scope.

Definition rdot (r Y : list Q) : Q := qsum (map (fun xy => fst xy * snd xy) (combine r Y)).
Lemma rdot_sub c : forall r p Y, length r = length Y -> length p = length Y -> rdot (row_sub r p c) Y == rdot r Y - c * rdot p Y.
Proof.
  unfold rdot, row_sub. induction r as [|x r IH]; intros [|a p] [|y Y] L1 L2; try discriminate; [simpl; ring|].
  cbn [map combine qsum fst snd length] in *. rewrite IH by lia. rewrite (Qred_correct (x - c * a)). ring.
Qed.
Lemma rdot_scale a : forall p Y, ~ a == 0 -> rdot (map (fun x => Qred (x / a)) p) Y == rdot p Y / a.
Proof.
  unfold rdot. intros p Y N. revert Y. induction p as [|x p IH]; intros [|y Y]; try (simpl; field; auto; fail). cbn [map combine qsum fst snd]. rewrite IH, (Qred_correct (x / a)). field. auto.
Qed.
Lemma rdot_zeros r k : rdot r (repeat 0 k) == 0.
Proof.
  unfold rdot. apply qsum_zeros. intros x Hx. apply in_map_iff in Hx. destruct Hx as ([a b] & <- & H). apply in_combine_r, repeat_spec in H. simpl. subst. ring.
Qed.

(** [done] rows give the unknowns [z] already met, [todo] rows constrain the others *)
Definition holds (done todo : list (list Q)) (z Y : list Q) : Prop :=
  Forall2 (fun d v => v + rdot d Y == 0) done z /\ forall r, In r todo -> rdot r Y == 0.
Definition width (k : nat) (l : list (list Q)) : Prop := forall r, In r l -> length r = k.

Lemma pivot_some l p o : pivot l = Some (p, o) -> Permutation l (p :: o) /\ ~ hd 0 p == 0.
Proof.
  revert p o. induction l as [|r l IH]; intros p o; simpl; [discriminate|]. destruct (Qeqb (hd 0 r) 0) eqn:E.
  - destruct (pivot l) as [[p' o']|]; [|discriminate]. intros H. injection H as <- <-. destruct (IH p' o' eq_refl) as [H N].
    split; auto. rewrite H. apply perm_swap.
  - intros H. injection H as <- <-. qb. auto.
Qed.
Lemma pivot_none l : pivot l = None -> forall r, In r l -> hd 0 r == 0.
Proof.
  induction l as [|r l IH]; simpl; [intros _ r []|]. destruct (Qeqb (hd 0 r) 0) eqn:E; [|discriminate].
  destruct (pivot l) as [[p o]|]; [discriminate|]. intros _ r' [<-|H]; [qb; auto|apply IH; auto].
Qed.

Lemma Forall2_cons_inv {A B} (R : A -> B -> Prop) a l m : Forall2 R (a :: l) m -> exists b t, m = b :: t /\ R a b /\ Forall2 R l t.
Proof. inversion 1; subst. eauto. Qed.
Section Elim.
  Variables (done rest : list (list Q)) (p : list Q) (k : nat).
  Hypothesis Wd : width (S k) done.
  Hypothesis Wr : width (S k) rest.
  Hypothesis Wp : length p = S k.
  Hypothesis Np : ~ hd 0 p == 0.
  Let p' := map (fun x => Qred (x / hd 0 p)) (tl p).
  Let red r := row_sub (tl r) p' (hd 0 r).
  Lemma red_len r : length r = S k -> length (red r) = k.
  Proof.
    intros L. unfold red, row_sub, p'. rewrite map_length, combine_length, map_length. destruct r, p; simpl in *; lia.
  Qed.
  Lemma width_next : width k (map red done ++ [p']) /\ width k (map red rest).
  Proof.
    split; intros r H; [apply in_app_iff in H; destruct H as [H|[<-|[]]]|].
    - apply in_map_iff in H. destruct H as (r' & <- & H). apply red_len. auto.
    - unfold p'. rewrite map_length. destruct p; simpl in *; lia.
    - apply in_map_iff in H. destruct H as (r' & <- & H). apply red_len. auto.
  Qed.
  Lemma rdot_hd r y Y : length r = S k -> rdot r (y :: Y) == hd 0 r * y + rdot (tl r) Y.
  Proof. intros L. destruct r as [|x r]; [discriminate L|]. unfold rdot. simpl. reflexivity. Qed.
  Lemma rdot_p' Y : rdot p' Y == rdot (tl p) Y / hd 0 p.
  Proof. apply rdot_scale. exact Np. Qed.
  Lemma rdot_red r Y : length r = S k -> length Y = k -> rdot (red r) Y == rdot (tl r) Y - hd 0 r * rdot p' Y.
  Proof.
    intros L LY. apply rdot_sub; [destruct r; simpl in *; lia|]. unfold p'. rewrite map_length. destruct p; simpl in *; lia.
  Qed.
  Lemma back z y Y : length Y = k -> holds (map red done ++ [p']) (map red rest) (z ++ [y]) Y -> length z = length done ->
    holds done (p :: rest) z (y :: Y).
  Proof.
    intros LY [H1 H2] Lz.
    apply Forall2_app_inv_l in H1. destruct H1 as (z1 & z2 & F1 & F2 & E).
    destruct z2 as [|v [|w z2]]; [inversion F2| |inversion F2 as [|? ? ? ? _ F3]; inversion F3].
    apply app_inj_tail in E. destruct E as [E E']. subst z1 v.
    assert (Hv : y + rdot p' Y == 0) by (inversion F2; auto).
    assert (YP : y == - rdot p' Y) by lra.
    split.
    - clear - F1 YP LY Wd Wp Np. revert F1 Wd. generalize z. clear z. induction done as [|d l IH]; intros z F W; [inversion F; constructor|].
      cbn [map] in F. apply Forall2_cons_inv in F. destruct F as (v & z' & -> & Hd & F). constructor.
      + rewrite rdot_hd by (apply W; left; auto). rewrite rdot_red in Hd by (auto; apply W; left; auto). rewrite YP. lra.
      + apply IH; auto. intros r Hr. apply W. right. auto.
    - intros r [<-|Hr].
      + rewrite rdot_hd by auto. rewrite YP, rdot_p'. field. auto.
      + rewrite rdot_hd by auto. specialize (H2 (red r) (in_map red _ _ Hr)). rewrite rdot_red in H2 by auto. rewrite YP. lra.
  Qed.
End Elim.

Lemma holds_perm done todo todo' z Y : Permutation todo todo' -> holds done todo z Y -> holds done todo' z Y.
Proof. intros P [H1 H2]. split; auto. intros r Hr. apply H2. apply (Permutation_in r (Permutation_sym P)). auto. Qed.
Lemma split_last (x : list Q) n k z : x = z ++ k -> length z = S n -> exists z' y, z = z' ++ [y] /\ length z' = n.
Proof.
  intros _ L. destruct (@exists_last _ z) as (z' & y & ->); [destruct z; [discriminate L|discriminate]|].
  exists z', y. split; auto. rewrite app_length in L. simpl in L. lia.
Qed.

Lemma gj_sound k : forall done todo x, width (S k) done -> width (S k) todo -> length todo = k ->
  gauss_jordan k done todo = Some x -> exists z y, x = z ++ y /\ length z = length done /\ length y = k /\ holds done todo z (y ++ [- (1)]).
Proof.
  induction k as [|k IH]; intros done todo x Wd Wt Lt E.
  - simpl in E. injection E as <-. exists (map (fun r => hd 0 r) done), []. rewrite app_nil_r, map_length. repeat split; auto.
    + clear - Wd. induction done as [|d l IH]; constructor; [|apply IH; intros r Hr; apply Wd; right; auto].
      specialize (Wd d (or_introl eq_refl)). destruct d as [|a [|b d]]; try discriminate Wd. unfold rdot. simpl. ring.
    + destruct todo; [intros r []|discriminate Lt].
  - cbn [gauss_jordan] in E. destruct (pivot todo) as [[p rest]|] eqn:EP; [|discriminate E]. apply pivot_some in EP. destruct EP as [PP NP].
    assert (Wp : length p = S (S k)) by (apply Wt; apply (Permutation_in p (Permutation_sym PP)); left; auto).
    assert (Wr : width (S (S k)) rest) by (intros r Hr; apply Wt; apply (Permutation_in r (Permutation_sym PP)); right; auto).
    destruct (width_next done rest p (S k) Wd Wr Wp NP) as [W1 W2].
    apply IH in E; [|exact W1|exact W2|rewrite map_length; apply Permutation_length in PP; simpl in PP; lia].
    destruct E as (z & y & -> & Lz & Ly & H). rewrite app_length, map_length in Lz. simpl in Lz.
    destruct (split_last _ (length done) y z eq_refl) as (z' & y0 & -> & Lz'); [lia|].
    exists z', (y0 :: y). rewrite <- app_assoc. simpl. repeat split; try lia.
    + apply (holds_perm done (p :: rest) todo z' (y0 :: y ++ [- (1)]) (Permutation_sym PP)).
      apply (back done rest p (S k)); auto. rewrite app_length. simpl. lia.
    + apply (holds_perm done (p :: rest) todo z' (y0 :: y ++ [- (1)]) (Permutation_sym PP)).
      apply (back done rest p (S k)); auto. rewrite app_length. simpl. lia.
Qed.
Lemma gj_complete k : forall done todo, width (S k) done -> width (S k) todo -> length todo = k ->
  gauss_jordan k done todo = None -> exists z y, length z = length done /\ length y = k /\ holds done todo z (y ++ [0]) /\
    exists i, (i < k)%nat /\ ~ nth i y 0 == 0.
Proof.
  induction k as [|k IH]; intros done todo Wd Wt Lt E; [discriminate E|]. cbn [gauss_jordan] in E.
  destruct (pivot todo) as [[p rest]|] eqn:EP.
  - apply pivot_some in EP. destruct EP as [PP NP].
    assert (Wp : length p = S (S k)) by (apply Wt; apply (Permutation_in p (Permutation_sym PP)); left; auto).
    assert (Wr : width (S (S k)) rest) by (intros r Hr; apply Wt; apply (Permutation_in r (Permutation_sym PP)); right; auto).
    destruct (width_next done rest p (S k) Wd Wr Wp NP) as [W1 W2].
    apply IH in E; [|exact W1|exact W2|rewrite map_length; apply Permutation_length in PP; simpl in PP; lia].
    destruct E as (z & y & Lz & Ly & H & i & Li & Ni). rewrite app_length, map_length in Lz. simpl in Lz.
    destruct (split_last _ (length done) y z eq_refl) as (z' & y0 & -> & Lz'); [lia|].
    exists z', (y0 :: y). split; [lia|]. split; [simpl; lia|]. split.
    + apply (holds_perm done (p :: rest) todo z' (y0 :: y ++ [0]) (Permutation_sym PP)).
      apply (back done rest p (S k)); auto. rewrite app_length. simpl. lia.
    + exists (S i). split; [lia|]. exact Ni.
  - pose proof (pivot_none todo EP) as Z.
    assert (EY : (1 :: repeat 0 k) ++ [0] = 1 :: repeat 0 (S k)).
    { simpl. f_equal. rewrite repeat_cons. reflexivity. }
    exists (map (fun d => - rdot d ((1 :: repeat 0 k) ++ [0])) done), (1 :: repeat 0 k).
    rewrite map_length. split; auto. split; [simpl; rewrite repeat_length; auto|]. split.
    + split.
      * clear. induction done; constructor; auto. ring.
      * intros r Hr. rewrite EY. rewrite (rdot_hd (S k)) by (apply Wt; auto). rewrite (Z r Hr), rdot_zeros. ring.
    + exists 0%nat. split; [lia|]. simpl. discriminate.
Qed.

Lemma rdot_dense A b n r y h : length y = n -> (r < n)%nat -> n = length b ->
  (forall r c v, In (r, c, v) A -> (r < n)%nat /\ (c < n)%nat /\ exists q, v = Fin q) -> finite_vec b ->
  rdot (map (fun c => Qred (qof (entry A r c))) (seq 0 n) ++ [Qred (qof (nth r b (Fin 0)))]) (y ++ [h]) == product A y r + h * qof (nth r b NaN).
Proof.
  intros Ly Lr Lb HA Fb.
  assert (IX : forall r c v, In (r, c, v) A -> (r < n /\ c < n)%nat) by (intros i j v H; destruct (HA _ _ _ H) as (? & ? & _); auto).
  rewrite (product_cols A n IX y r) by (intros c v H; destruct (HA _ _ _ H) as (_ & _ & ?); auto).
  unfold rdot.
  assert (G : forall (f : nat -> Q) (l : list nat) (y : list Q) a, length y = length l ->
    qsum (map (fun xy => fst xy * snd xy) (combine (map f l ++ [a]) (y ++ [h]))) ==
    qsum (map (fun xy => f (fst xy) * snd xy) (combine l y)) + a * h).
  { intros f l. induction l as [|x l IH]; intros [|v w] a L; simpl in *; try discriminate; [ring|]. rewrite IH by lia. ring. }
  rewrite G by (rewrite seq_length; auto). rewrite Qred_correct. rewrite (nth_indep b (Fin 0) NaN) by lia.
  apply Qplus_comp; [|ring].
  assert (C : combine (seq 0 n) y = map (fun c => (c, nth c y 0)) (seq 0 n)).
  { subst n. clear. apply nth_ext with (d := (0%nat, 0)) (d' := (0%nat, 0)).
    - rewrite map_length, combine_length, !seq_length. lia.
    - intros k Hk. rewrite combine_length, seq_length, Nat.min_id in Hk. rewrite combine_nth by apply seq_length.
      rewrite (nth_of (map _ _)), nth_error_map, seq_nth_eq. destruct (Nat.ltb_spec k (length y)); [|lia]. simpl.
      rewrite seq_nth by auto. reflexivity. }
  rewrite C, map_map. apply qsum_ext. intros c _. simpl. rewrite Qred_correct. reflexivity.
Qed.

Lemma gauss_exact : exact_solver gauss.
Proof.
  intros A b Fb [HA HN]. set (n := length b) in *.
  assert (W : width (S n) (dense_rows A b)).
  { intros r H. rewrite dense_rows_eq in H. apply in_map_iff in H. destruct H as (k & <- & _). rewrite app_length, map_length, seq_length. simpl. unfold n. lia. }
  assert (LD : length (dense_rows A b) = n) by (rewrite dense_rows_eq, map_length, seq_length; auto).
  assert (IR : forall r, (r < n)%nat -> In (map (fun c => Qred (qof (entry A r c))) (seq 0 n) ++ [Qred (qof (nth r b (Fin 0)))]) (dense_rows A b)).
  { intros r Hr. rewrite dense_rows_eq. apply in_map_iff. exists r. split; auto. apply in_seq. unfold n in *. lia. }
  unfold gauss. fold n.
  assert (F : forallb (fun e : nat * nat * num => is_fin (snd e)) A = true).
  { apply forallb_forall. intros [[r c] v] H. destruct (HA _ _ _ H) as (_ & _ & q & ->). reflexivity. }
  rewrite F. destruct (gauss_jordan n [] (dense_rows A b)) as [x|] eqn:E.
  - apply gj_sound in E; auto; [|intros r []]. destruct E as (z & y & -> & Lz & Ly & H). destruct z; [|discriminate Lz]. simpl.
    split; [rewrite map_length, seq_length; auto|]. split; [intros v Hv; apply in_map_iff in Hv; destruct Hv as (i & <- & _); eauto|].
    intros r Hr. destruct H as [_ H]. specialize (H _ (IR r Hr)). rewrite (rdot_dense A b n r y) in H by auto.
    assert (EV : vals (map (fun i => Fin (nth i y 0)) (seq 0 n)) = y).
    { unfold vals. rewrite map_map. simpl. rewrite <- Ly. clear. apply nth_ext with (d := 0) (d' := 0).
      - rewrite map_length, seq_length. auto.
      - intros k Hk. rewrite map_length, seq_length in Hk. rewrite nth_of, nth_error_map, seq_nth_eq.
        destruct (Nat.ltb_spec k (length y)); [reflexivity|lia]. }
    rewrite EV. lra.
  - exfalso. apply gj_complete in E; auto; [|intros r []]. destruct E as (z & y & Lz & Ly & [_ H] & i & Li & Ni).
    apply Ni. apply HN; auto. intros r Hr. specialize (H _ (IR r Hr)). rewrite (rdot_dense A b n r y) in H by auto. lra.
Qed.

(** *** a system that elimination solves has one solution *)
Section Forth.
  Variables (done rest : list (list Q)) (p : list Q) (k : nat).
  Hypothesis Wd : width (S k) done.
  Hypothesis Wr : width (S k) rest.
  Hypothesis Wp : length p = S k.
  Hypothesis Np : ~ hd 0 p == 0.
  Let p' := map (fun x => Qred (x / hd 0 p)) (tl p).
  Let red r := row_sub (tl r) p' (hd 0 r).
  Lemma forth z y Y : length Y = k -> holds done (p :: rest) z (y :: Y) -> holds (map red done ++ [p']) (map red rest) (z ++ [y]) Y.
  Proof.
    intros LY [H1 H2].
    assert (YP : y == - rdot p' Y).
    { pose proof (H2 p (or_introl eq_refl)) as H. rewrite (rdot_hd k) in H by auto. unfold p'. rewrite (rdot_scale (hd 0 p) (tl p) Y) by auto.
      apply (Qmult_inj_l _ _ (hd 0 p) Np). setoid_replace (hd 0 p * - (rdot (tl p) Y / hd 0 p)) with (- rdot (tl p) Y) by (field; auto). lra. }
    assert (RD : forall r, length r = S k -> rdot (red r) Y == rdot r (y :: Y)).
    { intros r L. rewrite (rdot_hd k) by auto. pose proof (rdot_red p k Wp Np r Y L LY) as E. unfold red, p' in *. rewrite E, YP. ring. }
    split.
    - apply Forall2_app; [|constructor; [lra|constructor]].
      revert H1 Wd. generalize z. clear z. induction done as [|d l IH]; intros z F W; [inversion F; constructor|].
      apply Forall2_cons_inv in F. destruct F as (v & z' & -> & Hd & F). cbn [map]. constructor.
      + rewrite RD by (apply W; left; auto). exact Hd.
      + apply IH; auto. intros r Hr. apply W. right. auto.
    - intros r Hr. apply in_map_iff in Hr. destruct Hr as (r' & <- & Hr). rewrite RD by auto. apply H2. right. auto.
  Qed.
End Forth.
Lemma gj_unique k : forall done todo x, width (S k) done -> width (S k) todo -> length todo = k ->
  gauss_jordan k done todo = Some x -> forall z y, length z = length done -> length y = k -> holds done todo z (y ++ [0]) ->
  (forall i, nth i z 0 == 0) /\ forall i, nth i y 0 == 0.
Proof.
  induction k as [|k IH]; intros done todo x Wd Wt Lt E z y Lz Ly H.
  - destruct y; [|discriminate Ly]. split; [|intros [|i]; reflexivity].
    destruct H as [H _]. clear - H. simpl in H. induction H as [|d v l z Hv H IH]; intros [|i]; try reflexivity; simpl; auto.
    destruct d as [|a d]; unfold rdot in Hv; simpl in Hv; [lra|]. destruct d; simpl in Hv; lra.
  - cbn [gauss_jordan] in E. destruct (pivot todo) as [[p rest]|] eqn:EP; [|discriminate E]. apply pivot_some in EP. destruct EP as [PP NP].
    assert (Wp : length p = S (S k)) by (apply Wt; apply (Permutation_in p (Permutation_sym PP)); left; auto).
    assert (Wr : width (S (S k)) rest) by (intros r Hr; apply Wt; apply (Permutation_in r (Permutation_sym PP)); right; auto).
    destruct (width_next done rest p (S k) Wd Wr Wp NP) as [W1 W2].
    destruct y as [|y0 y]; [discriminate Ly|]. simpl in Ly.
    assert (LR : length rest = k) by (apply Permutation_length in PP; simpl in PP; lia).
    assert (LY : length (y ++ [0]) = S k) by (rewrite app_length; simpl; lia).
    pose proof (holds_perm _ _ _ _ _ PP H) as H'.
    pose proof (forth done rest p (S k) Wd Wr Wp NP z y0 (y ++ [0]) LY H') as F.
    destruct (IH _ _ x W1 W2 ltac:(rewrite map_length; auto) E (z ++ [y0]) y) as [A B]; auto.
    { rewrite !app_length, map_length. simpl. lia. }
    split.
    + intros i. destruct (Nat.lt_ge_cases i (length z)) as [L|L]; [|rewrite nth_overflow by auto; reflexivity].
      specialize (A i). rewrite app_nth1 in A by auto. exact A.
    + intros [|i]; [|apply B]. specialize (A (length z)). rewrite app_nth2, Nat.sub_diag in A by lia. exact A.
Qed.

Definition solvable (n : nat) (A : ncoo) : bool :=
  forallb (fun e => Nat.ltb (fst (fst e)) n && Nat.ltb (snd (fst e)) n && is_fin (snd e)) A &&
  match gauss_jordan n [] (dense_rows A (repeat (Fin 0) n)) with Some _ => true | None => false end.
Lemma product_cut A y n r : (forall r c v, In (r, c, v) A -> (r < n)%nat /\ (c < n)%nat /\ exists q, v = Fin q) ->
  product A y r == product A (map (fun i => nth i y 0) (seq 0 n)) r.
Proof.
  intros H. unfold product. apply qsum_ext. intros [[i c] v] Hin. destruct (Nat.eqb i r); [|reflexivity].
  destruct (H _ _ _ Hin) as (_ & L & _). rewrite (nth_of (map _ _)), nth_error_map, seq_nth_eq.
  destruct (Nat.ltb_spec c n); [reflexivity|lia].
Qed.
Lemma solvable_nonsingular n A : solvable n A = true -> nonsingular n A.
Proof.
  unfold solvable. rewrite andb_true_iff. intros [F E].
  assert (HA : forall r c v, In (r, c, v) A -> (r < n)%nat /\ (c < n)%nat /\ exists q, v = Fin q).
  { intros r c v H. rewrite forallb_forall in F. specialize (F _ H). simpl in F. rewrite !andb_true_iff in F. destruct F as [[F1 F2] F3].
    apply Nat.ltb_lt in F1, F2. destruct v; try discriminate F3. eauto. }
  split; auto. intros y Hy r Hr. set (b := repeat (Fin 0) n) in *. assert (Lb : length b = n) by apply repeat_length.
  destruct (gauss_jordan n [] (dense_rows A b)) as [x|] eqn:EG; [|discriminate E]. clear E.
  set (y' := map (fun i => nth i y 0) (seq 0 n)). assert (Ly : length y' = n) by (unfold y'; rewrite map_length, seq_length; auto).
  assert (LD : length (dense_rows A b) = n) by (rewrite dense_rows_eq, map_length, seq_length; auto).
  assert (W : width (S n) (dense_rows A b)).
  { intros w H. rewrite dense_rows_eq in H. apply in_map_iff in H. destruct H as (k & <- & _). rewrite app_length, map_length, seq_length. simpl. lia. }
  assert (Z : forall i, nth i y' 0 == 0).
  { apply (gj_unique n [] (dense_rows A b) x) with (z := []); auto; [intros w []|]. split; [constructor|].
    intros w Hw. rewrite dense_rows_eq in Hw. apply in_map_iff in Hw. destruct Hw as (k & <- & Hk). apply in_seq in Hk. rewrite Lb in Hk |- *.
    rewrite (rdot_dense A b n k y' 0); auto; [|lia|intros v Hv; apply repeat_spec in Hv; rewrite Hv; eauto].
    pose proof (product_cut A y n k HA) as PC. rewrite (Hy k) in PC by lia. fold y' in PC. rewrite <- PC. ring. }
  specialize (Z r). unfold y' in Z. rewrite nth_of, nth_error_map, seq_nth_eq in Z. destruct (Nat.ltb_spec r n); [exact Z|lia].
Qed.
