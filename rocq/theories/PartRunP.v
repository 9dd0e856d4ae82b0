(** Proofs for C107: the run of a system that contains another one, not coupled to the rest. *)
From Coq Require Import Lia Lqa.
From Verif Require Import Num ListX Frames MatM NetM MeshM ModelM SolverM Spec SpecModel SpecSolver SpecPerm NumP StiffP SolverP SolverRunP SolverSysP PermP ScaleP RenameRunP.
Open Scope Q_scope.

Section Part.
  Variables lsolve lsolve' : ncoo -> list num -> list num.
  Variables S S' : sysdata.
  Hypothesis OK : sys_ok lsolve S.
  Hypothesis OK' : sys_ok lsolve' S'.
  Notation N := (length (sy_dq S)).
  Notation N' := (length (sy_dq S')).
  Notation yq s := (map qof (dxn lsolve S s)).
  Notation yq' s := (map qof (dxn lsolve' S' s)).
  Variable ta : nat -> nat.
  Hypothesis ta_lt : forall r, (r < N)%nat -> (ta r < N')%nat.
  Hypothesis ta_inj : forall r c, (r < N)%nat -> (c < N)%nat -> ta r = ta c -> r = c.
  Hypothesis Hprod : forall y y', (forall c, (c < N)%nat -> nth (ta c) y' 0 == nth c y 0) ->
    forall r, (r < N)%nat -> product (sy_P S') y' (ta r) == product (sy_P S) y r.
  Hypothesis Hout : forall y', (forall r', (forall c, (c < N)%nat -> r' <> ta c) -> nth r' y' 0 == 0) ->
    forall r', (forall c, (c < N)%nat -> r' <> ta c) -> product (sy_P S') y' r' == 0.
  Hypothesis Hfin : forall r, (r < N)%nat -> fin_row (sy_P S') (ta r) <-> fin_row (sy_P S) r.
  Hypothesis Hcol : forall r, (r < N)%nat -> nltb (Fin 0) (colsum (sy_P S') (ta r)) = nltb (Fin 0) (colsum (sy_P S) r).
  Hypothesis Hdq : forall r, (r < N)%nat -> dqr S' (ta r) == dqr S r.
  Hypothesis Htol : sy_tol S == 0.
  Hypothesis Htol' : sy_tol S' == 0.

  (** the part of [s] is [t], moved along [y] *)
  Record psim (s t : state) (e : Q) (y : list Q) : Prop := mkPsim {
    pq_x : forall r, (r < N)%nat -> nth (ta r) (xs s) 0 == nth r (xs t) 0 - e * nth r y 0;
    pq_q : forall r, (r < N)%nat -> qfin s (ta r) <-> qfin t r;
    pq_v : forall r, (r < N)%nat -> qfin t r -> qof (nth (ta r) (st_q s) NaN) == qof (nth r (st_q t) NaN) - e * dqr S r
  }.
  Lemma sub_list (x y : list Q) e : exists w, forall c, nth c w 0 == nth c x 0 - e * nth c y 0.
  Proof.
    exists (map (fun r => nth r x 0 - e * nth r y 0) (seq 0 (length x + length y))). intros c.
    destruct (Nat.lt_ge_cases c (length x + length y)) as [L|L].
    - rewrite (nth_indep _ 0 (nth 0 x 0 - e * nth 0 y 0)) by (rewrite map_length, seq_length; exact L).
      rewrite (map_nth (fun r => nth r x 0 - e * nth r y 0)), seq_nth by exact L. reflexivity.
    - rewrite (nth_overflow (map _ _)) by (rewrite map_length, seq_length; exact L). rewrite (nth_overflow x), (nth_overflow y) by lia. ring.
  Qed.
  Lemma p_gap s t e y r : psim s t e y -> (r < N)%nat -> qfin t r -> D S' s (ta r) == D S t r - e * V S y r.
  Proof.
    intros H L Q. unfold D, V. rewrite (pq_v _ _ _ _ H r L Q).
    destruct (sub_list (xs t) y e) as (w & W).
    rewrite (Hprod w (xs s)); [|intros c Lc; rewrite (pq_x _ _ _ _ H c Lc), W; reflexivity|exact L].
    rewrite (product_linear (sy_P S) (xs t) y w e r W). ring.
  Qed.
  Lemma p_closed s t e y r : good S' s -> psim s t e y -> (r < N)%nat -> closed S' s (ta r) <->
    fin_row (sy_P S) r /\ qfin t r /\ D S t r - e * V S y r <= 0 /\ nltb (Fin 0) (colsum (sy_P S) r) = true.
  Proof.
    intros G H L. rewrite (own_closed lsolve' S' OK' s (ta r) G), (Hfin r L), (pq_q _ _ _ _ H r L), (Hcol r L). split.
    - intros (_ & F & Q & B & C). rewrite (p_gap s t e y r H L Q), Htol' in B. auto.
    - intros (F & Q & B & C). rewrite (p_gap s t e y r H L Q), Htol'. split; [apply ta_lt; exact L|]. auto.
  Qed.
  Lemma t_closed t r : good S t -> (r < N)%nat -> closed S t r <->
    fin_row (sy_P S) r /\ qfin t r /\ D S t r <= 0 /\ nltb (Fin 0) (colsum (sy_P S) r) = true.
  Proof.
    intros G L. rewrite (own_closed lsolve S OK t r G), Htol. tauto.
  Qed.
  (** a vector of the part among the others *)
  Definition ext (z : list Q) : list Q :=
    map (fun r' => match find (fun c => Nat.eqb r' (ta c)) (seq 0 N) with Some c => nth c z 0 | None => 0 end) (seq 0 N').
  Lemma ext_at z c : (c < N)%nat -> nth (ta c) (ext z) 0 == nth c z 0.
  Proof.
    intros L. unfold ext. pose proof (ta_lt c L) as L'.
    set (f := fun r' => match find (fun c => Nat.eqb r' (ta c)) (seq 0 N) with Some c => nth c z 0 | None => 0 end).
    rewrite (nth_indep _ 0 (f 0%nat)) by (rewrite map_length, seq_length; exact L'). rewrite (map_nth f), seq_nth by exact L'. unfold f. cbn [Nat.add].
    destruct (find _ _) as [c'|] eqn:E.
    - apply find_some in E. destruct E as [HI E]. apply Nat.eqb_eq in E. apply in_seq in HI. assert (c = c') by (apply ta_inj; auto; lia). subst c'. reflexivity.
    - pose proof (find_none _ _ E c ltac:(apply in_seq; lia)) as X. cbn beta in X. rewrite Nat.eqb_refl in X. discriminate X.
  Qed.
  Lemma ext_out z r' : (forall c, (c < N)%nat -> r' <> ta c) -> nth r' (ext z) 0 == 0.
  Proof.
    intros H. unfold ext. set (f := fun r' => match find (fun c => Nat.eqb r' (ta c)) (seq 0 N) with Some c => nth c z 0 | None => 0 end).
    destruct (Nat.lt_ge_cases r' N') as [L|L]; [|rewrite nth_overflow by (rewrite map_length, seq_length; exact L); reflexivity].
    rewrite (nth_indep _ 0 (f 0%nat)) by (rewrite map_length, seq_length; exact L). rewrite (map_nth f), seq_nth by exact L. unfold f. cbn [Nat.add].
    destruct (find _ _) as [c'|] eqn:E; [|reflexivity]. exfalso. apply find_some in E. destruct E as [HI E]. apply Nat.eqb_eq in E. apply in_seq in HI.
    apply (H c'); [lia|exact E].
  Qed.
  Lemma image_dec r' : (exists c, (c < N)%nat /\ r' = ta c) \/ (forall c, (c < N)%nat -> r' <> ta c).
  Proof.
    destruct (find (fun c => Nat.eqb r' (ta c)) (seq 0 N)) as [c|] eqn:E.
    - apply find_some in E. destruct E as [HI E]. apply Nat.eqb_eq in E. apply in_seq in HI. left. exists c. split; [lia|exact E].
    - right. intros c L X. pose proof (find_none _ _ E c ltac:(apply in_seq; lia)) as Y. cbn beta in Y. rewrite X, Nat.eqb_refl in Y. discriminate Y.
  Qed.
  Lemma part_unique s z : regular S' s ->
    (forall r, (r < N)%nat -> ~ closed S' s (ta r) -> nth r z 0 == 0) ->
    (forall r, (r < N)%nat -> closed S' s (ta r) -> product (sy_P S) z r == 0) -> forall r, (r < N)%nat -> nth r z 0 == 0.
  Proof.
    intros [_ R] Z1 Z2 r L. rewrite <- (ext_at z r L). apply R.
    - intros r' NC. destruct (image_dec r') as [(c & Lc & ->)|O]; [|apply ext_out; exact O]. rewrite (ext_at z c Lc). apply Z1; auto.
    - intros r' C. destruct (image_dec r') as [(c & Lc & ->)|O].
      + rewrite (Hprod z (ext z) (ext_at z) c Lc). apply Z2; auto.
      + apply Hout; [apply ext_out|exact O].
  Qed.

  (** *** the increment of the part *)
  Definition back (y' : list Q) : list Q := map (fun r => nth (ta r) y' 0) (seq 0 N).
  Lemma back_at y' c : (c < N)%nat -> nth (ta c) y' 0 == nth c (back y') 0.
  Proof.
    intros L. unfold back. rewrite (nth_indep (map _ _) 0 (nth (ta 0%nat) y' 0)) by (rewrite map_length, seq_length; exact L).
    rewrite (map_nth (fun r => nth (ta r) y' 0)), seq_nth by exact L. reflexivity.
  Qed.
  (** any solution of the part is the part of the solution *)
  Lemma part_dx s y : good S' s -> regular S' s ->
    (forall r, (r < N)%nat -> ~ closed S' s (ta r) -> nth r y 0 == 0) ->
    (forall r, (r < N)%nat -> closed S' s (ta r) -> product (sy_P S) y r == dqr S r) ->
    forall r, (r < N)%nat -> nth (ta r) (yq' s) 0 == nth r y 0.
  Proof.
    intros G R Y1 Y2. destruct (own_dx lsolve' S' OK' s G R) as (_ & Z1 & Z2 & _).
    destruct (sub_list (back (yq' s)) y 1) as (w & W).
    assert (W0 : forall r, (r < N)%nat -> nth r w 0 == 0).
    { apply (part_unique s w R).
      - intros r L NC. rewrite W, <- (back_at (yq' s) r L), (Z1 _ NC), (Y1 r L NC). ring.
      - intros r L C. rewrite (product_linear (sy_P S) (back (yq' s)) y w 1 r W), (Y2 r L C), <- (Hprod (back (yq' s)) (yq' s) (back_at (yq' s)) r L), (Z2 _ C), (Hdq r L). ring. }
    intros r L. rewrite (back_at (yq' s) r L). pose proof (W0 r L) as X. rewrite W in X. lra.
  Qed.

  (** *** one step *)
  Lemma p_moved s s' t e k y : psim s t e y -> move S' s s' (yq' s) k ->
    (forall r, (r < N)%nat -> nth (ta r) (yq' s) 0 == nth r y 0) -> psim s' t (e + k) y.
  Proof.
    intros H M Y. destruct M as (_ & MX & MQ & MN & _). split.
    - intros r L. rewrite MX, (pq_x _ _ _ _ H r L), (Y r L). ring.
    - intros r L. rewrite <- (pq_q _ _ _ _ H r L). split.
      + intros Q. assert (X : qfin s (ta r) \/ ~ qfin s (ta r)).
        { unfold qfin. destruct (nth (ta r) (st_q s) NaN); [left; eexists; reflexivity|right|right|right]; intros (b & B); discriminate B. }
        destruct X as [X|X]; [exact X|]. destruct (MN (ta r) (ta_lt r L) X Q).
      + intros Q. apply (MQ (ta r) (ta_lt r L) Q).
    - intros r L Q. assert (Q' : qfin s (ta r)) by (apply (pq_q _ _ _ _ H r L); exact Q).
      rewrite (proj2 (MQ (ta r) (ta_lt r L) Q')), (pq_v _ _ _ _ H r L Q), (Hdq r L). ring.
  Qed.
  Lemma p_next s t t' k y : psim s t k y -> move S t t' y k -> psim s t' 0 [].
  Proof.
    intros H (_ & MX & MQ & MN & _).
    assert (X : forall r, qfin t r \/ ~ qfin t r).
    { intros r. unfold qfin. destruct (nth r (st_q t) NaN); [left; eexists; reflexivity|right|right|right]; intros (b & B); discriminate B. }
    split.
    - intros r L. rewrite (pq_x _ _ _ _ H r L), MX. ring.
    - intros r L. rewrite (pq_q _ _ _ _ H r L). split; intros Q.
      + apply (MQ r L Q).
      + destruct (X r) as [Y|Y]; [exact Y|]. destruct (MN r L Y Q).
    - intros r L Q. destruct (X r) as [Y|Y]; [|destruct (MN r L Y Q)]. rewrite (pq_v _ _ _ _ H r L Y), (proj2 (MQ r L Y)). ring.
  Qed.
  Lemma p_still s t e e' y y' : e == 0 -> e' == 0 -> psim s t e y -> psim s t e' y'.
  Proof.
    intros E E' H. split.
    - intros r L. rewrite (pq_x _ _ _ _ H r L), E, E'. ring.
    - apply (pq_q _ _ _ _ H).
    - intros r L Q. rewrite (pq_v _ _ _ _ H r L Q), E, E'. ring.
  Qed.
  Lemma p_eq s t e e' y : e == e' -> psim s t e y -> psim s t e' y.
  Proof.
    intros E H. split.
    - intros r L. rewrite (pq_x _ _ _ _ H r L), E. reflexivity.
    - apply (pq_q _ _ _ _ H).
    - intros r L Q. rewrite (pq_v _ _ _ _ H r L Q), E. reflexivity.
  Qed.
  Lemma move_pos T s s' y k : sy_tol T == 0 -> move T s s' y k -> 0 < k.
  Proof.
    intros HT (_ & _ & _ & _ & _ & _ & _ & _ & _ & _ & _ & r & _ & _ & _ & B & W & E). rewrite HT in B.
    apply Qnot_le_lt. intros C. assert (k * V T y r <= 0 * V T y r) by (apply Qmult_le_compat_r; lra). lra.
  Qed.

  (** between two states of the part *)
  Lemma step_inside s s' t t' e k k' : good S' s -> regular S' s -> good S t -> regular S t ->
    move S t t' (yq t) k -> move S' s s' (yq' s) k' -> psim s t e (yq t) -> 0 <= e -> e < k ->
    e + k' <= k /\ psim s' t (e + k') (yq t).
  Proof.
    intros G R Gt Rt M M' H E0 EK. destruct (own_dx lsolve S OK t Gt Rt) as (_ & Y1 & Y2 & _).
    pose proof M as (_ & _ & _ & _ & _ & _ & _ & _ & _ & _ & MM & r0 & L0 & F0 & Q0 & T0 & W0 & X0).
    assert (C : forall r, (r < N)%nat -> closed S' s (ta r) <-> closed S t r).
    { intros r L. rewrite (p_closed s t e (yq t) r G H L), (t_closed t r Gt L). split; intros (F & Q & B & U); repeat split; auto.
      - apply Qnot_lt_le. intros P. destruct (Qlt_le_dec 0 (V S (yq t) r)) as [W|W].
        + assert (T : sy_tol S < D S t r) by lra. pose proof (MM r L F Q T W) as X.
          assert (e * V S (yq t) r < k * V S (yq t) r) by (apply Qmult_lt_compat_r; assumption). lra.
        + assert (e * V S (yq t) r <= 0); [|lra]. setoid_replace (e * V S (yq t) r) with (- (e * - V S (yq t) r)) by ring.
          assert (0 <= e * - V S (yq t) r) by (apply Qmult_le_0_compat; lra). lra.
      - assert (CL : closed S t r) by (apply (t_closed t r Gt L); auto).
        assert (W : V S (yq t) r == 0) by (unfold V; rewrite (Y2 r CL); ring). rewrite W. setoid_replace (D S t r - e * 0) with (D S t r) by ring. exact B. }
    assert (Y : forall r, (r < N)%nat -> nth (ta r) (yq' s) 0 == nth r (yq t) 0).
    { apply (part_dx s (yq t) G R).
      - intros r L NC. apply Y1. intros X. apply NC. apply (C r L). exact X.
      - intros r L X. apply Y2. apply (C r L). exact X. }
    split; [|apply (p_moved s s' t e k' (yq t) H M' Y)].
    destruct M' as (_ & _ & _ & _ & _ & _ & _ & _ & _ & _ & MM' & _).
    assert (V' : V S' (yq' s) (ta r0) == V S (yq t) r0) by (unfold V; rewrite (Hdq r0 L0), (Hprod (yq t) (yq' s) Y r0 L0); reflexivity).
    pose proof (p_gap s t e (yq t) r0 H L0 Q0) as D'.
    assert (P : e * V S (yq t) r0 < k * V S (yq t) r0) by (apply Qmult_lt_compat_r; assumption).
    assert (B : k' * V S' (yq' s) (ta r0) <= D S' s (ta r0)).
    { apply MM'; [apply ta_lt; exact L0|apply (Hfin r0 L0); exact F0|apply (pq_q _ _ _ _ H r0 L0); exact Q0|rewrite D', Htol'; lra|rewrite V'; exact W0]. }
    rewrite V', D' in B. apply Qnot_lt_le. intros X.
    assert (k * V S (yq t) r0 < (e + k') * V S (yq t) r0) by (apply Qmult_lt_compat_r; assumption). lra.
  Qed.
  (** before the lid comes to the part *)
  Lemma step_above s s' t e k' : good S' s -> regular S' s -> good S t -> move S' s s' (yq' s) k' -> psim s t e [] -> e < 0 ->
    (forall r, nth r (xs t) 0 == 0) ->
    (forall r, (r < N)%nat -> qfin t r -> dqr S r == 0 \/ (dqr S r == 1 /\ 0 <= qof (nth r (st_q t) NaN))) ->
    (exists r, (r < N)%nat /\ fin_row (sy_P S) r /\ qfin t r /\ qof (nth r (st_q t) NaN) == 0 /\ dqr S r == 1) ->
    e + k' <= 0 /\ psim s' t (e + k') [].
  Proof.
    intros G R Gt M' H E0 X0 LQ (r0 & L0 & F0 & Q0 & Z0 & D0).
    assert (Y0 : forall c : nat, nth c (@nil Q) 0 == 0) by (intros c; destruct c; reflexivity).
    assert (P0 : forall y r, (forall c, nth c y 0 == 0) -> product (sy_P S) y r == 0).
    { intros y r Hy. pose proof (product_linear (sy_P S) y y y 1 r) as X. rewrite X; [ring|]. intros c. rewrite !Hy. ring. }
    assert (GD : forall r, (r < N)%nat -> qfin t r -> D S t r - e * V S [] r == qof (nth r (st_q t) NaN) - e * dqr S r).
    { intros r L Q. unfold D, V. rewrite (P0 (xs t) r X0), (P0 [] r Y0). ring. }
    assert (Y : forall r, (r < N)%nat -> nth (ta r) (yq' s) 0 == nth r (@nil Q) 0).
    { apply (part_dx s [] G R).
      - intros r _ _. apply Y0.
      - intros r L C. apply (p_closed s t e [] r G H L) in C. destruct C as (_ & Q & B & _). rewrite (GD r L Q) in B. rewrite (P0 [] r Y0).
        destruct (LQ r L Q) as [X|[X1 X2]]; [rewrite X; reflexivity|]. rewrite X1 in B. lra. }
    split; [|apply (p_moved s s' t e k' [] H M' Y)].
    destruct M' as (_ & _ & _ & _ & _ & _ & _ & _ & _ & _ & MM' & _).
    assert (V' : V S' (yq' s) (ta r0) == 1) by (unfold V; rewrite (Hdq r0 L0), (Hprod [] (yq' s) Y r0 L0), (P0 [] r0 Y0), D0; ring).
    pose proof (p_gap s t e [] r0 H L0 Q0) as D'. rewrite (GD r0 L0 Q0), Z0, D0 in D'.
    assert (B : k' * V S' (yq' s) (ta r0) <= D S' s (ta r0)).
    { apply MM'; [apply ta_lt; exact L0|apply (Hfin r0 L0); exact F0|apply (pq_q _ _ _ _ H r0 L0); exact Q0|rewrite D', Htol'; lra|rewrite V'; lra]. }
    rewrite V', D' in B. lra.
  Qed.

  (** *** whole runs *)
  Variables h h' : list state.
  Variables t0 s0 : state.
  Hypothesis Ht0 : nth_error h 0 = Some t0.
  Hypothesis Hs0 : nth_error h' 0 = Some s0.
  Hypothesis chain : forall k s s', nth_error h k = Some s -> nth_error h (Datatypes.S k) = Some s' -> step lsolve S s = Some s'.
  Hypothesis chain' : forall k s s', nth_error h' k = Some s -> nth_error h' (Datatypes.S k) = Some s' -> step lsolve' S' s = Some s'.
  Hypothesis reg : forall k s s', nth_error h k = Some s -> nth_error h (Datatypes.S k) = Some s' -> regular S s.
  Hypothesis reg' : forall k s s', nth_error h' k = Some s -> nth_error h' (Datatypes.S k) = Some s' -> regular S' s.
  Hypothesis Gt0 : good S t0.
  Hypothesis Gs0 : good S' s0.
  Hypothesis Hx0 : forall r, nth r (xs t0) 0 == 0.
  Hypothesis Hlq : forall r, (r < N)%nat -> qfin t0 r -> dqr S r == 0 \/ (dqr S r == 1 /\ 0 <= qof (nth r (st_q t0) NaN)).
  Hypothesis Hlid : exists r, (r < N)%nat /\ fin_row (sy_P S) r /\ qfin t0 r /\ qof (nth r (st_q t0) NaN) == 0 /\ dqr S r == 1.
  Notation zz s := (qof (st_Z s)).
  Hypothesis Hstart : psim s0 t0 (zz t0 - zz s0) [].
  Hypothesis Hhigh : zz t0 <= zz s0.

  Lemma goods k : forall s, nth_error h k = Some s -> good S s.
  Proof.
    induction k as [|k IH]; intros s E; [rewrite Ht0 in E; injection E as <-; exact Gt0|].
    destruct (nth_error h k) as [u|] eqn:U; [|apply nth_error_None in U; assert (Datatypes.S k < length h)%nat by (apply nth_error_Some; congruence); lia].
    apply (own_step lsolve S OK u s (IH u eq_refl) (reg k u s U E) (chain k u s U E)).
  Qed.
  Lemma goods' k : forall s, nth_error h' k = Some s -> good S' s.
  Proof.
    induction k as [|k IH]; intros s E; [rewrite Hs0 in E; injection E as <-; exact Gs0|].
    destruct (nth_error h' k) as [u|] eqn:U; [|apply nth_error_None in U; assert (Datatypes.S k < length h')%nat by (apply nth_error_Some; congruence); lia].
    apply (own_step lsolve' S' OK' u s (IH u eq_refl) (reg' k u s U E) (chain' k u s U E)).
  Qed.
  Lemma moves k s s' : nth_error h k = Some s -> nth_error h (Datatypes.S k) = Some s' -> exists x, move S s s' (yq s) x /\ 0 < x /\ zz s' == zz s - x.
  Proof.
    intros A B. destruct (own_step lsolve S OK s s' (goods k s A) (reg k s s' A B) (chain k s s' A B)) as (_ & x & M). exists x. split; [exact M|].
    split; [apply (move_pos S s s' _ x Htol M)|]. apply M.
  Qed.
  Lemma moves' k s s' : nth_error h' k = Some s -> nth_error h' (Datatypes.S k) = Some s' -> exists x, move S' s s' (yq' s) x /\ 0 < x /\ zz s' == zz s - x.
  Proof.
    intros A B. destruct (own_step lsolve' S' OK' s s' (goods' k s A) (reg' k s s' A B) (chain' k s s' A B)) as (_ & x & M). exists x. split; [exact M|].
    split; [apply (move_pos S' s s' _ x Htol' M)|]. apply M.
  Qed.
  (** where the part of a state is on its own run *)
  Definition placed (s : state) : Prop :=
    (zz t0 < zz s /\ psim s t0 (zz t0 - zz s) []) \/
    (exists j t t', nth_error h j = Some t /\ nth_error h (Datatypes.S j) = Some t' /\ zz t' < zz s /\ zz s <= zz t /\ psim s t (zz t - zz s) (yq t)) \/
    (exists j t, nth_error h j = Some t /\ length h = Datatypes.S j /\ zz s == zz t /\ psim s t 0 []).
  Lemma placed_at s j t : nth_error h j = Some t -> zz s == zz t -> psim s t 0 [] -> placed s.
  Proof.
    intros J E H. right. destruct (nth_error h (Datatypes.S j)) as [t'|] eqn:J'.
    - left. exists j, t, t'. split; [exact J|]. split; [exact J'|]. destruct (moves j t t' J J') as (x & _ & X1 & X2). split; [lra|]. split; [lra|].
      apply (p_still s t 0 _ []); [reflexivity|lra|exact H].
    - right. exists j, t. split; [exact J|]. apply nth_error_None in J'. assert (j < length h)%nat by (apply nth_error_Some; congruence). split; [lia|]. auto.
  Qed.
  Theorem all_placed k : forall s, nth_error h' k = Some s ->
    (forall j t, nth_error h j = Some t -> length h = Datatypes.S j -> zz t <= zz s) -> placed s.
  Proof.
    induction k as [|k IH]; intros s E B.
    - rewrite Hs0 in E. injection E as <-. destruct (Qlt_le_dec (zz t0) (zz s0)) as [L|L]; [left; split; [exact L|exact Hstart]|].
      apply (placed_at s0 0%nat t0 Ht0); [lra|]. apply (p_eq s0 t0 (zz t0 - zz s0)); [lra|exact Hstart].
    - destruct (nth_error h' k) as [u|] eqn:U; [|apply nth_error_None in U; assert (Datatypes.S k < length h')%nat by (apply nth_error_Some; congruence); lia].
      destruct (moves' k u s U E) as (x & M & X1 & X2). pose proof (goods' k u U) as Gu. pose proof (reg' k u s U E) as Ru.
      assert (BU : forall j t, nth_error h j = Some t -> length h = Datatypes.S j -> zz t <= zz u) by (intros j t J1 J2; pose proof (B j t J1 J2); lra).
      destruct (IH u eq_refl BU) as [(L & P)|[(j & t & t' & J & J' & L1 & L2 & P)|(j & t & J & J' & L & P)]].
      + destruct (step_above u s t0 (zz t0 - zz u) x Gu Ru Gt0 M P ltac:(lra) Hx0 Hlq Hlid) as (A1 & A2).
        destruct (Qlt_le_dec (zz t0) (zz s)) as [F|F].
        * left. split; [exact F|]. apply (p_eq s t0 (zz t0 - zz u + x)); [lra|exact A2].
        * apply (placed_at s 0%nat t0 Ht0); [lra|]. apply (p_eq s t0 (zz t0 - zz u + x)); [lra|exact A2].
      + destruct (moves j t t' J J') as (y & N0 & Y1 & Y2).
        destruct (step_inside u s t t' (zz t - zz u) y x Gu Ru (goods j t J) (reg j t t' J J') N0 M P ltac:(lra) ltac:(lra)) as (A1 & A2).
        destruct (Qlt_le_dec (zz t') (zz s)) as [F|F].
        * right. left. exists j, t, t'. split; [exact J|]. split; [exact J'|]. split; [exact F|]. split; [lra|]. apply (p_eq s t (zz t - zz u + x)); [lra|exact A2].
        * apply (placed_at s (Datatypes.S j) t' J'); [lra|]. apply (p_next s t t' y (yq t)); [|exact N0]. apply (p_eq s t (zz t - zz u + x)); [lra|exact A2].
      + exfalso. pose proof (B j t J J'). lra.
  Qed.
  (** ... read on the recorded states *)
  Theorem part_values k s : nth_error h' k = Some s ->
    (forall j t, nth_error h j = Some t -> length h = Datatypes.S j -> zz t <= zz s) ->
    (zz t0 <= zz s /\ forall r, (r < N)%nat -> nth (ta r) (xs s) 0 == 0) \/
    exists j t t', nth_error h j = Some t /\ nth_error h (Datatypes.S j) = Some t' /\ zz t' <= zz s /\ zz s <= zz t /\ zz t' < zz t /\
      forall r, (r < N)%nat -> (zz t - zz t') * nth (ta r) (xs s) 0 == (zz s - zz t') * nth r (xs t) 0 + (zz t - zz s) * nth r (xs t') 0.
  Proof.
    intros E B. destruct (all_placed k s E B) as [(L & P)|[(j & t & t' & J & J' & L1 & L2 & P)|(j & t & J & J' & L & P)]].
    - left. split; [lra|]. intros r Lr. rewrite (pq_x _ _ _ _ P r Lr), Hx0. replace (nth r (@nil Q) 0) with 0 by (destruct r; reflexivity). ring.
    - right. exists j, t, t'. split; [exact J|]. split; [exact J'|]. destruct (moves j t t' J J') as (y & N0 & Y1 & Y2). repeat (split; [lra|]).
      intros r Lr. rewrite (pq_x _ _ _ _ P r Lr). destruct N0 as (_ & MX & _). rewrite MX.
      setoid_replace (zz t - zz t') with y by lra. setoid_replace (zz s - zz t') with (y - (zz t - zz s)) by lra. ring.
    - destruct j as [|j].
      + left. rewrite Ht0 in J. injection J as <-. split; [lra|]. intros r Lr. rewrite (pq_x _ _ _ _ P r Lr), Hx0. ring.
      + right. destruct (nth_error h j) as [u|] eqn:U; [|apply nth_error_None in U; assert (Datatypes.S j < length h)%nat by (apply nth_error_Some; congruence); lia].
        exists j, u, t. split; [exact U|]. split; [exact J|]. destruct (moves j u t U J) as (y & N0 & Y1 & Y2). repeat (split; [lra|]).
        intros r Lr. rewrite (pq_x _ _ _ _ P r Lr). setoid_replace (zz s - zz t) with 0 by lra. setoid_replace (zz u - zz s) with (zz u - zz t) by lra. ring.
  Qed.
  Lemma descends j : forall t, nth_error h j = Some t -> zz t <= zz t0.
  Proof.
    induction j as [|j IH]; intros t E; [rewrite Ht0 in E; injection E as <-; lra|].
    destruct (nth_error h j) as [u|] eqn:U; [|apply nth_error_None in U; assert (Datatypes.S j < length h)%nat by (apply nth_error_Some; congruence); lia].
    destruct (moves j u t U E) as (x & _ & X1 & X2). pose proof (IH u eq_refl). lra.
  Qed.
  Lemma lowest d : forall j t e t', nth_error h j = Some t -> e = (j + d)%nat -> nth_error h e = Some t' -> zz t' <= zz t.
  Proof.
    induction d as [|d IH]; intros j t e t' J E E'.
    - replace e with j in E' by lia. rewrite J in E'. injection E' as <-. lra.
    - destruct (nth_error h (j + d)) as [u|] eqn:U; [|apply nth_error_None in U; assert (e < length h)%nat by (apply nth_error_Some; congruence); lia].
      pose proof (IH j t _ u J eq_refl U). replace e with (Datatypes.S (j + d)) in E' by lia. destruct (moves _ u t' U E') as (x & _ & X1 & X2). lra.
  Qed.
  (** the lid does not go below the part when it cannot be compressed further *)
  Theorem part_ends : (forall k u s j t, nth_error h' k = Some u -> nth_error h' (Datatypes.S k) = Some s -> nth_error h j = Some t -> length h = Datatypes.S j ->
      zz u == zz t -> psim u t 0 [] -> False) ->
    forall k s, nth_error h' k = Some s -> forall j t, nth_error h j = Some t -> length h = Datatypes.S j -> zz t <= zz s.
  Proof.
    intros NO. induction k as [|k IH]; intros s E e te Ee Le.
    - rewrite Hs0 in E. injection E as <-. pose proof (descends e te Ee). lra.
    - destruct (nth_error h' k) as [u|] eqn:U; [|apply nth_error_None in U; assert (Datatypes.S k < length h')%nat by (apply nth_error_Some; congruence); lia].
      destruct (moves' k u s U E) as (x & M & X1 & X2). pose proof (goods' k u U) as Gu. pose proof (reg' k u s U E) as Ru.
      destruct (all_placed k u U (IH u eq_refl)) as [(L & P)|[(j & t & t' & J & J' & L1 & L2 & P)|(j & t & J & J' & L & P)]].
      + destruct (step_above u s t0 (zz t0 - zz u) x Gu Ru Gt0 M P ltac:(lra) Hx0 Hlq Hlid) as (A1 & A2). pose proof (descends e te Ee). lra.
      + destruct (moves j t t' J J') as (y & N0 & Y1 & Y2).
        destruct (step_inside u s t t' (zz t - zz u) y x Gu Ru (goods j t J) (reg j t t' J J') N0 M P ltac:(lra) ltac:(lra)) as (A1 & A2).
        assert (Datatypes.S j < length h)%nat by (apply nth_error_Some; congruence).
        pose proof (lowest (e - Datatypes.S j) (Datatypes.S j) t' e te J' ltac:(lia) Ee). lra.
      + destruct (NO k u s j t U E J J' L P).
  Qed.
End Part.
