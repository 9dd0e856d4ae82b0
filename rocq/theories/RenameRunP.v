(** Proofs for C104: runs of two systems whose unknowns are numbered differently and whose
    rotations may be counted the other way. *)
From Coq Require Import Permutation Lia Lqa.
From Verif Require Import Num ListX Frames MatM NetM MeshM ModelM SolverM Spec SpecModel SpecSolver SpecPerm NumP StiffP SolverP SolverRunP PermP ScaleP.
Open Scope Q_scope.

(** what is known of a system on its own *)
Record sys_ok (lsolve : ncoo -> list num -> list num) (S : sysdata) : Prop := mkOk {
  ok_exact : exact_solver lsolve;
  ok_lens : forall A b, length (lsolve A b) = length b;
  ok_nums : Permutation (sy_perm S) (seq 0 (length (sy_dq S)));
  ok_idx : forall r c v, In (r, c, v) (sy_P S) -> (r < length (sy_dq S) /\ c < length (sy_dq S))%nat;
  ok_sym : forall r c, neqv (entry (sy_P S) r c) (entry (sy_P S) c r);
  ok_rows : forall r, fin_row (sy_P S) r \/ dead (sy_P S) r;
  ok_dqfin : forall r, (r < length (sy_dq S))%nat -> fin (nth r (sy_dq S) NaN);
  ok_zerodq : forall r, (r < length (sy_dq S))%nat -> nltb (Fin 0) (colsum (sy_P S) r) = false -> dqr S r == 0;
  ok_nun : (sy_nu S <= length (sy_dq S))%nat;
  ok_tol : 0 <= sy_tol S;
  ok_err : 0 <= sy_errtol S
}.

Section Own.
  Variable lsolve : ncoo -> list num -> list num.
  Variable S : sysdata.
  Hypothesis OK : sys_ok lsolve S.
  Notation N := (length (sy_dq S)).
  Notation yq s := (map qof (dxn lsolve S s)).

  Lemma own_sized s : good S s -> sized S s.
  Proof. intros G. pose proof (good_inv S s G) as I. split; [apply (inv_x S s I)|]. split; [apply (inv_dx S s I)|apply (inv_q S s I)]. Qed.
  Lemma own_closed s r : good S s -> closed S s r <->
    (r < N)%nat /\ fin_row (sy_P S) r /\ qfin s r /\ D S s r <= sy_tol S /\ nltb (Fin 0) (colsum (sy_P S) r) = true.
  Proof.
    intros G. pose proof (good_inv S s G) as I. rewrite <- (active_iff S s (inv_q S s I) r).
    apply (act_fin S (ok_idx _ _ OK) (ok_rows _ _ OK) s r I).
  Qed.
  Lemma own_fin s r c v : good S s -> closed S s r -> In (r, c, v) (sy_P S) -> exists q, v = Fin q.
  Proof. intros G H I. apply (own_closed s r G) in H. destruct H as (_ & F & _). apply (F c v I). Qed.
  (** the increment of a state *)
  Lemma own_dx s : good S s -> regular S s ->
    (forall v, In v (answer lsolve S s) -> fin v) /\
    (forall r, ~ closed S s r -> nth r (yq s) 0 == 0) /\
    (forall r, closed S s r -> product (sy_P S) (yq s) r == dqr S r) /\
    length (yq s) = N.
  Proof.
    intros G R. destruct (own_sized s G) as (LX & LD & LQ).
    pose proof (dq_fin_vec S (ok_dqfin _ _ OK)) as FV.
    destruct (solved lsolve (ok_exact _ _ OK) S (ok_nums _ _ OK) FV s LQ R) as (FA & _).
    destruct (increment_solves lsolve S s (ok_exact _ _ OK) (ok_nums _ _ OK) FV (conj LX (conj LD LQ)) (good_dx S s G) R) as (_ & Y1 & Y2).
    split; [exact FA|]. split; [exact Y1|]. split; [exact Y2|]. rewrite map_length. apply dxn_length. apply (good_inv S s G).
  Qed.
  Lemma own_step s t : good S s -> regular S s -> step lsolve S s = Some t -> good S t /\ exists k, move S s t (yq s) k.
  Proof.
    intros G R E. pose proof (good_inv S s G) as I. destruct (own_dx s G R) as (FA & Y1 & Y2 & L). destruct OK.
    destruct (step_fin lsolve S ok_idx0 ok_rows0 ok_dqfin0 ok_lens0 s I FA t E) as (k & M & I').
    split; [|exists k; exact M]. pose proof M as (_ & MX & MQ & _). split; [exact I'| |].
    - intros r Lr. apply (MQ r); [lia|]. apply (good_q S s G r Lr).
    - intros r Lr FR. assert (Ln : (r < N)%nat) by lia.
      rewrite (move_gap S s t _ k r M Ln (good_q S s G r Lr)), (good_bal S s G r Lr FR).
      assert (V0 : V S (yq s) r == 0).
      { destruct (act_dec S s r) as [A|A].
        - unfold V. rewrite Y2 by (apply (active_iff S s (inv_q S s I) r); exact A). ring.
        - apply (idle_row S ok_idx0 ok_sym0 ok_rows0 ok_zerodq0 s _ r I Ln FR (good_q S s G r Lr) A). rewrite (good_bal S s G r Lr FR). exact ok_tol0. }
      rewrite V0. ring.
  Qed.
  (** the run goes on exactly when some bound is approached *)
  Lemma own_goes s : good S s -> regular S s -> (exists t, step lsolve S s = Some t) <->
    exists r, (r < N)%nat /\ fin_row (sy_P S) r /\ qfin s r /\ sy_tol S < D S s r /\ 0 < V S (yq s) r.
  Proof.
    intros G R. pose proof (good_inv S s G) as I. destruct (own_dx s G R) as (FA & Y1 & Y2 & L). pose proof OK as OK'. destruct OK'. split.
    - intros (t & E). destruct (step_fin lsolve S ok_idx0 ok_rows0 ok_dqfin0 ok_lens0 s I FA t E) as (k & M & _).
      destruct M as (_ & _ & _ & _ & _ & _ & _ & _ & _ & _ & _ & r & M). exists r. tauto.
    - intros (r & Lr & F & Q & T & W).
      pose proof (ratio_of lsolve S ok_idx0 ok_rows0 ok_dqfin0 ok_lens0 s I FA r Lr F Q T W) as HI.
      assert (FD : finite_vec (dxn lsolve S s)).
      { destruct (increment_solves lsolve S s ok_exact0 ok_nums0 (dq_fin_vec S ok_dqfin0) (own_sized s G) (good_dx S s G) R) as (F' & _). exact F'. }
      assert (LD : length (dxn lsolve S s) = N) by (apply dxn_length; exact I).
      destruct (error_zero S S eq_refl eq_refl ok_nun0 S s (dxn lsolve S s) FD LD ok_idx0 (dq_fin_vec S ok_dqfin0) (inv_q S s I) R Y1 Y2) as (e & Ee & Ze).
      unfold step. fold (dxn lsolve S s). rewrite Ee, (err_ok e _ Ze ok_err0).
      destruct (ratios S _ _) as [|a l]; [destruct HI|]. cbn [py_min]. eauto.
  Qed.
End Own.

Section Runs.
  Variables lsolve lsolve' : ncoo -> list num -> list num.
  Variables S S' : sysdata.
  Hypothesis OK : sys_ok lsolve S.
  Hypothesis OK' : sys_ok lsolve' S'.
  Notation N := (length (sy_dq S)).
  Notation yq s := (map qof (dxn lsolve S s)).
  Notation yq' s := (map qof (dxn lsolve' S' s)).
  Variables ta ta' : nat -> nat.
  Variable sg : nat -> Q.
  Hypothesis Hlen : length (sy_dq S') = N.
  Hypothesis Hnu : sy_nu S' = sy_nu S.
  Hypothesis ta_lt : forall r, (r < N)%nat -> (ta r < N)%nat.
  Hypothesis ta'_lt : forall r, (r < N)%nat -> (ta' r < N)%nat.
  Hypothesis ta_ta' : forall r, (r < N)%nat -> ta (ta' r) = r.
  Hypothesis ta'_ta : forall r, (r < N)%nat -> ta' (ta r) = r.
  Hypothesis ta_nu : forall r, (r < N)%nat -> (ta r < sy_nu S)%nat <-> (r < sy_nu S)%nat.
  Hypothesis sg_sq : forall r, sg r * sg r == 1.
  Hypothesis sg_low : forall r, (sy_nu S <= r)%nat -> sg r == 1.
  Hypothesis Hprod : forall y y', (forall c, (c < N)%nat -> nth (ta c) y' 0 == sg c * nth c y 0) ->
    forall r, (r < N)%nat -> product (sy_P S') y' (ta r) == sg r * product (sy_P S) y r.
  Hypothesis Hfin : forall r, (r < N)%nat -> fin_row (sy_P S') (ta r) <-> fin_row (sy_P S) r.
  Hypothesis Hcol : forall r, (r < N)%nat -> nltb (Fin 0) (colsum (sy_P S') (ta r)) = nltb (Fin 0) (colsum (sy_P S) r).
  Hypothesis Hdq : forall r, (r < N)%nat -> dqr S' (ta r) == sg r * dqr S r.
  Hypothesis dqup : forall r, (r < sy_nu S)%nat -> dqr S r == 0.
  Hypothesis Htol : sy_tol S' == sy_tol S.
  Hypothesis Hpack : sy_packing S' = sy_packing S.
  Hypothesis HZ0 : neqv (sy_Z0 S) (sy_Z0 S').

  (** the two states are the same seen through the two numberings *)
  Record rsim (s s' : state) : Prop := mkRsim {
    rs_x : forall r, (r < N)%nat -> nth (ta r) (xs s') 0 == sg r * nth r (xs s) 0;
    rs_q : forall r, (r < N)%nat -> qfin s' (ta r) <-> qfin s r;
    rs_qv : forall r, (r < N)%nat -> qfin s r -> qof (nth (ta r) (st_q s') NaN) == sg r * qof (nth r (st_q s) NaN);
    rs_Z : neqv (st_Z s) (st_Z s'); rs_rl : neqv (st_rl s) (st_rl s');
    rs_mask : forall r, (r < N)%nat -> nth (ta r) (st_mask s') false = nth r (st_mask s) false
  }.

  Lemma r_gap s s' r : rsim s s' -> (r < N)%nat -> qfin s r -> D S' s' (ta r) == sg r * D S s r.
  Proof. intros H L Q. unfold D. rewrite (rs_qv _ _ H r L Q), (Hprod (xs s) (xs s') (rs_x _ _ H) r L). ring. Qed.
  Lemma r_below s s' r : good S s -> rsim s s' -> (r < N)%nat -> qfin s r -> fin_row (sy_P S) r ->
    D S' s' (ta r) <= sy_tol S' <-> D S s r <= sy_tol S.
  Proof.
    intros G H L Q F. rewrite (r_gap s s' r H L Q), Htol. pose proof (ok_tol _ _ OK) as T. destruct (Nat.lt_ge_cases r (sy_nu S)) as [U|U].
    - rewrite (good_bal S s G r U F). split; intros _; [exact T|]. setoid_replace (sg r * 0) with 0 by ring. exact T.
    - rewrite (sg_low r U). setoid_replace (1 * D S s r) with (D S s r) by ring. tauto.
  Qed.
  Lemma r_closed s s' r : good S s -> good S' s' -> rsim s s' -> (r < N)%nat -> closed S' s' (ta r) <-> closed S s r.
  Proof.
    intros G G' H L. rewrite (own_closed lsolve S OK s r G), (own_closed lsolve' S' OK' s' (ta r) G'), Hlen, (Hfin r L), (rs_q _ _ H r L), (Hcol r L).
    split.
    - intros (_ & F & Q & B & C). repeat split; auto. apply (r_below s s' r G H L Q F). exact B.
    - intros (_ & F & Q & B & C). repeat split; auto. apply (r_below s s' r G H L Q F). exact B.
  Qed.
  (** a vector of the second system seen in the first numbering *)
  Definition back (y' : list Q) : list Q := map (fun r => sg r * nth (ta r) y' 0) (seq 0 N).
  Lemma back_at y' c : (c < N)%nat -> nth c (back y') 0 == sg c * nth (ta c) y' 0.
  Proof.
    intros L. unfold back. rewrite (nth_indep _ 0 (sg 0%nat * nth (ta 0%nat) y' 0)) by (rewrite map_length, seq_length; exact L).
    rewrite (map_nth (fun r => sg r * nth (ta r) y' 0)), seq_nth by exact L. reflexivity.
  Qed.
  Lemma back_out y' c : (N <= c)%nat -> nth c (back y') 0 = 0.
  Proof. intros L. apply nth_overflow. unfold back. rewrite map_length, seq_length. exact L. Qed.
  Lemma back_is y' c : (c < N)%nat -> nth (ta c) y' 0 == sg c * nth c (back y') 0.
  Proof. intros L. rewrite (back_at y' c L). rewrite Qmult_assoc, sg_sq. ring. Qed.
  Lemma back_prod y' r : (r < N)%nat -> product (sy_P S) (back y') r == sg r * product (sy_P S') y' (ta r).
  Proof. intros L. rewrite (Hprod (back y') y' (back_is y') r L). rewrite Qmult_assoc, sg_sq. ring. Qed.
  Lemma closed_lt T s r : good T s -> closed T s r -> (r < length (sy_dq T))%nat.
  Proof.
    intros G (b & E & _). rewrite <- (inv_q T s (good_inv T s G)). apply nth_error_Some. congruence.
  Qed.
  Lemma r_regular s s' : good S s -> good S' s' -> rsim s s' -> regular S s -> regular S' s'.
  Proof.
    intros G G' H [_ R]. split; [intros r c v A _ I; apply (own_fin lsolve' S' OK' s' r c v G' A I)|].
    intros y' Y1 Y2 r'. assert (B : forall r, nth r (back y') 0 == 0).
    { apply R.
      - intros r NC. destruct (Nat.lt_ge_cases r N) as [L|L]; [|rewrite (back_out y' r L); reflexivity].
        rewrite (back_at y' r L), Y1; [ring|]. intros C. apply NC. apply (r_closed s s' r G G' H L). exact C.
      - intros r C. pose proof (closed_lt S s r G C) as L. rewrite (back_prod y' r L), Y2; [ring|]. apply (r_closed s s' r G G' H L). exact C. }
    destruct (Nat.lt_ge_cases r' N) as [L|L].
    - rewrite <- (ta_ta' r' L). rewrite (back_is y' (ta' r') (ta'_lt r' L)), B. ring.
    - apply Y1. intros C. pose proof (closed_lt S' s' r' G' C). lia.
  Qed.
  Lemma r_dx s s' : good S s -> good S' s' -> rsim s s' -> regular S s -> forall c, (c < N)%nat -> nth (ta c) (yq' s') 0 == sg c * nth c (yq s) 0.
  Proof.
    intros G G' H R. pose proof (r_regular s s' G G' H R) as R'.
    destruct (own_dx lsolve S OK s G R) as (_ & Y1 & Y2 & LY). destruct (own_dx lsolve' S' OK' s' G' R') as (_ & Z1 & Z2 & LZ).
    set (y := yq s) in *. set (z := yq' s') in *. clearbody y z. destruct R as [_ R].
    pose (w := map (fun r => nth r (back z) 0 - 1 * nth r y 0) (seq 0 N)).
    assert (W : forall c, nth c w 0 == nth c (back z) 0 - 1 * nth c y 0).
    { intros c. destruct (Nat.lt_ge_cases c N) as [L|L].
      - unfold w. rewrite (nth_indep _ 0 (nth 0 (back z) 0 - 1 * nth 0 y 0)) by (rewrite map_length, seq_length; exact L).
        rewrite (map_nth (fun r => nth r (back z) 0 - 1 * nth r y 0)), seq_nth by exact L. reflexivity.
      - rewrite (back_out z c L), (nth_overflow y) by lia. unfold w. rewrite nth_overflow by (rewrite map_length, seq_length; exact L). ring. }
    assert (W0 : forall c, nth c w 0 == 0).
    { apply R.
      - intros r NC. rewrite W, (Y1 r NC). destruct (Nat.lt_ge_cases r N) as [L|L]; [|rewrite (back_out z r L); ring].
        rewrite (back_at z r L), Z1; [ring|]. intros C. apply NC. apply (r_closed s s' r G G' H L). exact C.
      - intros r C. pose proof (closed_lt S s r G C) as L. rewrite (product_linear (sy_P S) (back z) y w 1 r W), (Y2 r C), (back_prod z r L).
        rewrite Z2 by (apply (r_closed s s' r G G' H L); exact C). rewrite (Hdq r L). rewrite Qmult_assoc, sg_sq. ring. }
    intros c L. rewrite (back_is z c L). pose proof (W0 c) as E. rewrite W in E. setoid_replace (nth c (back z) 0) with (nth c y 0) by lra. reflexivity.
  Qed.
  Lemma r_V s s' : good S s -> good S' s' -> rsim s s' -> regular S s -> forall r, (r < N)%nat -> V S' (yq' s') (ta r) == sg r * V S (yq s) r.
  Proof.
    intros G G' H R r L. unfold V. rewrite (Hdq r L), (Hprod (yq s) (yq' s') (r_dx s s' G G' H R) r L). ring.
  Qed.
  (** rows with something left lie below *)
  Lemma r_side s s' r : good S s -> good S' s' -> rsim s s' -> (r < N)%nat -> fin_row (sy_P S) r -> qfin s r ->
    (sy_tol S < D S s r \/ sy_tol S' < D S' s' (ta r)) -> sg r == 1.
  Proof.
    intros G G' H L F Q T. destruct (Nat.lt_ge_cases r (sy_nu S)) as [U|U]; [|apply sg_low; exact U]. exfalso.
    pose proof (ok_tol _ _ OK) as T0. pose proof (ok_tol _ _ OK') as T0'. rewrite (r_gap s s' r H L Q), (good_bal S s G r U F) in T.
    destruct T as [T|T]; [lra|]. setoid_replace (sg r * 0) with 0 in T by ring. lra.
  Qed.
  Lemma r_candidate s s' r : good S s -> good S' s' -> rsim s s' -> regular S s -> (r < N)%nat ->
    (fin_row (sy_P S') (ta r) /\ qfin s' (ta r) /\ sy_tol S' < D S' s' (ta r) /\ 0 < V S' (yq' s') (ta r)) <->
    (fin_row (sy_P S) r /\ qfin s r /\ sy_tol S < D S s r /\ 0 < V S (yq s) r).
  Proof.
    intros G G' H R L. rewrite (Hfin r L), (rs_q _ _ H r L). split; intros (F & Q & T & W); (split; [exact F|split; [exact Q|]]).
    - pose proof (r_side s s' r G G' H L F Q (or_intror T)) as E. rewrite (r_gap s s' r H L Q), Htol, E in T.
      rewrite (r_V s s' G G' H R r L), E in W. split; lra.
    - pose proof (r_side s s' r G G' H L F Q (or_introl T)) as E. rewrite (r_gap s s' r H L Q), Htol, E.
      rewrite (r_V s s' G G' H R r L), E. split; lra.
  Qed.
  Lemma move_same s s' t t' k k' : good S s -> good S' s' -> rsim s s' -> regular S s ->
    move S s t (yq s) k -> move S' s' t' (yq' s') k' -> k' == k.
  Proof.
    intros G G' H R M M'.
    destruct M as (_ & _ & _ & _ & _ & _ & _ & _ & _ & _ & MM & r & L & F & Q & T & W & E).
    destruct M' as (_ & _ & _ & _ & _ & _ & _ & _ & _ & _ & MM' & r' & L' & F' & Q' & T' & W' & E').
    rewrite Hlen in L', MM'. rewrite <- (ta_ta' r' L') in F', Q', T', W', E'. set (r2 := ta' r') in *. assert (L2 : (r2 < N)%nat) by (apply ta'_lt; exact L').
    destruct (proj1 (r_candidate s s' r2 G G' H R L2) (conj F' (conj Q' (conj T' W')))) as (F2 & Q2 & T2 & W2).
    destruct (proj2 (r_candidate s s' r G G' H R L) (conj F (conj Q (conj T W)))) as (F1 & Q1 & T1 & W1).
    pose proof (MM r2 L2 F2 Q2 T2 W2) as A. pose proof (MM' (ta r) (ta_lt r L) F1 Q1 T1 W1) as B.
    pose proof (r_side s s' r G G' H L F Q (or_introl T)) as S1. pose proof (r_side s s' r2 G G' H L2 F2 Q2 (or_introl T2)) as S2.
    rewrite (r_gap s s' r H L Q), (r_V s s' G G' H R r L), S1 in B. rewrite (r_gap s s' r2 H L2 Q2), (r_V s s' G G' H R r2 L2), S2 in E'.
    set (v := V S (yq s) r) in *. set (d := D S s r) in *. set (v2 := V S (yq s) r2) in *. set (d2 := D S s r2) in *. clearbody v d v2 d2.
    assert (C1 : k' <= k).
    { apply Qnot_lt_le. intros C. assert (k * v < k' * v) by (apply Qmult_lt_compat_r; assumption). lra. }
    assert (C2 : k <= k').
    { apply Qnot_lt_le. intros C. assert (k' * v2 < k * v2) by (apply Qmult_lt_compat_r; assumption). lra. }
    lra.
  Qed.
  Theorem r_step s s' : good S s -> good S' s' -> rsim s s' -> regular S s ->
    match step lsolve S s, step lsolve' S' s' with
    | None, None => True
    | Some t, Some t' => rsim t t' /\ good S t /\ good S' t'
    | _, _ => False
    end.
  Proof.
    intros G G' H R. pose proof (r_regular s s' G G' H R) as R'.
    destruct (step lsolve S s) as [t|] eqn:E, (step lsolve' S' s') as [t'|] eqn:E'.
    - destruct (own_step lsolve S OK s t G R E) as (Gt & k & M). destruct (own_step lsolve' S' OK' s' t' G' R' E') as (Gt' & k' & M').
      split; [|split; assumption]. pose proof (move_same s s' t t' k k' G G' H R M M') as EK.
      pose proof (r_dx s s' G G' H R) as Y.
      destruct M as (_ & MX & MQ & MN & MZ & ML & MK & _). destruct M' as (_ & MX' & MQ' & MN' & MZ' & ML' & MK' & _). rewrite Hlen in MQ', MN'.
      assert (QD : forall r, qfin s r \/ ~ qfin s r).
      { intros r. unfold qfin. destruct (nth r (st_q s) NaN); [left; eexists; reflexivity|right|right|right]; intros (b & B); discriminate B. }
      assert (EZ : neqv (st_Z t) (st_Z t')).
      { destruct (inv_Z S t (good_inv S t Gt)) as (z & Ez). destruct (inv_Z S' t' (good_inv S' t' Gt')) as (z' & Ez').
        rewrite Ez in MZ |- *. rewrite Ez' in MZ' |- *. cbn [qof] in MZ, MZ'. cbn [neqv]. rewrite MZ, MZ', EK.
        pose proof (rs_Z _ _ H) as Z0. destruct (inv_Z S s (good_inv S s G)) as (w & Ew). destruct (inv_Z S' s' (good_inv S' s' G')) as (w' & Ew').
        rewrite Ew, Ew' in *. cbn [neqv qof] in *. lra. }
      split.
      + intros r L. rewrite MX, MX', (rs_x _ _ H r L), (Y r L), EK. ring.
      + intros r L. destruct (QD r) as [Q|Q].
        * split; intros _; [apply (MQ r L Q)|]. apply (MQ' (ta r) (ta_lt r L)). apply (rs_q _ _ H r L). exact Q.
        * split; intros A; exfalso; [|apply (MN r L Q A)]. apply (MN' (ta r) (ta_lt r L)); [|exact A]. intros B. apply Q. apply (rs_q _ _ H r L). exact B.
      + intros r L Qt. destruct (QD r) as [Q|Q]; [|exfalso; apply (MN r L Q Qt)].
        assert (Q' : qfin s' (ta r)) by (apply (rs_q _ _ H r L); exact Q).
        rewrite (proj2 (MQ r L Q)), (proj2 (MQ' (ta r) (ta_lt r L) Q')), (rs_qv _ _ H r L Q), (Hdq r L), EK. ring.
      + exact EZ.
      + rewrite ML, ML'. apply ndiv_eqv; assumption.
      + intros r L. rewrite MK, MK'. pose proof (active_iff S s (inv_q S s (good_inv S s G)) r) as A. pose proof (active_iff S' s' (inv_q S' s' (good_inv S' s' G')) (ta r)) as A'.
        pose proof (r_closed s s' r G G' H L) as C. rewrite <- A, <- A' in C. destruct (nth (ta r) _ false), (nth r _ false); auto; [symmetry|]; apply C; reflexivity.
    - assert (X : exists t', step lsolve' S' s' = Some t').
      { apply (own_goes lsolve' S' OK' s' G' R'). destruct (proj1 (own_goes lsolve S OK s G R) (ex_intro _ t E)) as (r & L & A).
        exists (ta r). rewrite Hlen. split; [apply ta_lt; exact L|]. apply (r_candidate s s' r G G' H R L). exact A. }
      destruct X as (t' & X). congruence.
    - assert (X : exists t, step lsolve S s = Some t).
      { apply (own_goes lsolve S OK s G R). destruct (proj1 (own_goes lsolve' S' OK' s' G' R') (ex_intro _ t' E')) as (r' & L & A). rewrite Hlen in L.
        rewrite <- (ta_ta' r' L) in A. exists (ta' r'). split; [apply ta'_lt; exact L|]. apply (r_candidate s s' _ G G' H R (ta'_lt r' L)). exact A. }
      destruct X as (t & X). congruence.
    - exact I.
  Qed.
  Theorem r_run fuel : forall s s', good S s -> good S' s' -> rsim s s' ->
    (forall k t, nth_error (s :: run lsolve S fuel s) k = Some t -> (k < fuel)%nat -> nltb (st_rl t) (sy_packing S) = true -> regular S t) ->
    Forall2 (fun t t' => rsim t t' /\ good S t /\ good S' t') (run lsolve S fuel s) (run lsolve' S' fuel s').
  Proof.
    induction fuel as [|fuel IH]; intros s s' G G' H R; [constructor|]. cbn [run].
    assert (E : nltb (st_rl s) (sy_packing S) = nltb (st_rl s') (sy_packing S')).
    { rewrite Hpack. apply nltb_eqv; [apply (rs_rl _ _ H)|apply neqv_refl]. }
    rewrite <- E. destruct (nltb (st_rl s) (sy_packing S)) eqn:B; [|constructor].
    pose proof (r_step s s' G G' H (R 0%nat s eq_refl ltac:(lia) B)) as T.
    destruct (step lsolve S s) as [t|] eqn:E1, (step lsolve' S' s') as [t'|]; try contradiction; constructor; [exact T|].
    apply IH; [apply T|apply T|apply T|]. intros k u Hk Lk. apply (R (Datatypes.S k) u); [|lia].
    cbn [run]. rewrite B, E1. exact Hk.
  Qed.
End Runs.
