(** Runs of the solver loop. *)
From Coq Require Import String Permutation.
From Verif Require Import Num NumP ListX ListP Frames MatM NetM MeshM ModelM SolverM Spec SpecNet SpecMesh SpecModel
  StiffP StiffLimP SolverP.
Open Scope Q_scope.

Section Run.
  Variable lsolve : ncoo -> list num -> list num.
  Variable S : sysdata.
  Variable s0 : state.
  Let P := sy_P S.
  Let n := length (sy_dq S).
  Let nu := sy_nu S.
  Let tol := sy_tol S.
  Let errtol := sy_errtol S.
  Hypothesis idx : forall r c v, In (r, c, v) (sy_P S) -> (r < length (sy_dq S) /\ c < length (sy_dq S))%nat.
  Hypothesis sym : forall r c, neqv (entry (sy_P S) r c) (entry (sy_P S) c r).
  Hypothesis rows : forall r, fin_row (sy_P S) r \/ dead (sy_P S) r.
  Hypothesis dqfin : forall r, (r < length (sy_dq S))%nat -> fin (nth r (sy_dq S) NaN).
  Hypothesis lens : forall A b, length (lsolve A b) = length b.
  Hypothesis zerodq : forall r, (r < length (sy_dq S))%nat -> nltb (Fin 0) (colsum (sy_P S) r) = false -> dqr S r == 0.
  Hypothesis tol0 : 0 <= sy_tol S.
  Hypothesis errtol0 : 0 <= sy_errtol S.
  Hypothesis start : Inv S s0.
  Hypothesis nun : (sy_nu S <= length (sy_dq S))%nat.
  Hypothesis kq0 : forall r, (r < sy_nu S)%nat -> qfin s0 r.
  Hypothesis kbal0 : forall r, (r < sy_nu S)%nat -> D S s0 r == 0.
  Hypothesis startZ : st_Z s0 = sy_Z0 S.

  Inductive reach : state -> Prop :=
  | reach0 : reach s0
  | reachS s s' : reach s -> nltb (st_rl s) (sy_packing S) = true -> step lsolve S s = Some s' -> reach s'.

  Lemma run_reach fuel : forall s, reach s -> forall s', In s' (run lsolve S fuel s) -> reach s'.
  Proof.
    induction fuel as [|f IH]; simpl; intros s R s' H; [destruct H|].
    destruct (nltb (st_rl s) (sy_packing S)) eqn:E; [|destruct H].
    destruct (step lsolve S s) as [s1|] eqn:Es; [|destruct H]. destruct H as [<-|H].
    - eapply reachS; eauto.
    - apply (IH s1); auto. eapply reachS; eauto.
  Qed.
  Lemma history_reach itermax s : In s (history lsolve S itermax s0) -> reach s.
  Proof. intros [<-|H]; [apply reach0|]. eapply run_reach; [apply reach0|exact H]. Qed.

  Definition zz (s : state) : Q := qof (st_Z s).
  Definition drift (s : state) : Q := errtol * (zz s0 - zz s).
  Definition slack (s : state) : Prop := errtol == 0 \/ (fin (st_Z s) /\ drift s <= tol).
  Definition finite_solver : Prop := forall A b v, In v (lsolve A b) -> fin v.
  Definition sound_solver : Prop := forall A b, (forall v, In v (lsolve A b) -> fin v) \/ (forall v, In v (lsolve A b) -> v = NaN).
  Definition covered : Prop := (forall r, (r < length (sy_dq S))%nat -> In r (sy_perm S)) /\
    forall r, (sy_nu S <= r < length (sy_dq S))%nat ->
      exists c v, In (r, c, v) (sy_P S) /\ (c < sy_nu S)%nat /\ fin_row (sy_P S) c /\ nltb (Fin 0) (colsum (sy_P S) c) = true.
  Definition good (s : state) : Prop := finite_solver \/ (sound_solver /\ covered /\ slack s).

  (** steps never raise the lid *)
  Lemma ndiv_pos d v q : nltb (Fin tol) d = true -> nltb (Fin 0) v = true -> ndiv d v = Fin q -> 0 <= q.
  Proof.
    intros Hd Hv. destruct d as [a| | |], v as [b| | |]; simpl in *; try discriminate.
    - qb. destruct (Qeqb b 0) eqn:E; [destruct (qsgn a); discriminate|]. intros H. injection H as <-.
      unfold tol in *. apply Qle_shift_div_l; [auto|]. lra.
    - intros H. injection H as <-. lra.
    - destruct (Qltb b 0); discriminate.
  Qed.
  Lemma min_from_in l : forall a, In (min_from a l) (a :: l).
  Proof.
    induction l as [|y l IH]; intros a; simpl; auto. destruct (nltb y a).
    - destruct (IH y); auto.
    - destruct (IH a) as [H|H]; auto.
  Qed.
  Lemma step_down s s' : step lsolve S s = Some s' -> fin (st_Z s') -> fin (st_Z s) /\ zz s' <= zz s.
  Proof.
    unfold step. set (dx := increment _ _ _ _). destruct (py_min _) as [m|] eqn:Em; [|discriminate].
    destruct (err_gt _ _); [discriminate|]. intros E. injection E as <-. simpl. intros F. unfold zz. simpl.
    pose proof F as F'. apply nadd_fin_inv in F'. destruct F' as [F1 F2]. split; auto. destruct F1 as (z & Ez). rewrite Ez.
    destruct m as [t| | |]; try (destruct F2 as (w & F2); discriminate F2). simpl.
    assert (Ht : 0 <= t); [|lra].
    unfold ratios in Em. match type of Em with py_min ?l = _ => assert (HI : In (Fin t) l) end.
    { destruct (map _ _) as [|a l] eqn:El; [discriminate Em|]. simpl in Em. injection Em as Em. rewrite <- Em. apply min_from_in. }
    apply in_map_iff in HI. destruct HI as ([d v] & Eq & HI). apply filter_In in HI. destruct HI as [_ C].
    apply andb_true_iff in C. destruct C as [C1 C2]. simpl in *. eapply ndiv_pos; eauto.
  Qed.
  Lemma slack_back s s' : step lsolve S s = Some s' -> slack s' -> slack s.
  Proof.
    intros Es [H|[F H]]; [left; auto|]. destruct (step_down s s' Es F) as [F' L]. right. split; auto.
    unfold drift in *. assert (errtol * (zz s0 - zz s) <= errtol * (zz s0 - zz s')); [|lra].
    apply Qmult_le_l_weak; [exact errtol0|lra] || (rewrite (Qmult_comm errtol), (Qmult_comm errtol (zz s0 - zz s')); apply Qmult_le_compat_r; [lra|exact errtol0]).
  Qed.
  Lemma good_back s s' : step lsolve S s = Some s' -> good s' -> good s.
  Proof.
    intros Es [H|(H1 & H2 & H3)]; [left; auto|right]. split; auto. split; auto. eapply slack_back; eauto.
  Qed.

  Definition balanced (s : state) : Prop :=
    forall r, (r < nu)%nat -> fin_row P r -> qfin s r -> - drift s <= D S s r /\ D S s r <= drift s.

  Lemma start_drift : drift s0 == 0.
  Proof. unfold drift. ring. Qed.

  (** the gap after a step *)
  Lemma move_gap s s' y t r : move S s s' y t -> (r < n)%nat -> qfin s r -> D S s' r == D S s r - t * V S y r.
  Proof.
    intros (_ & HX & HQ & _) L Q. destruct (HQ r L Q) as [_ E]. unfold D, V. rewrite E.
    rewrite (product_linear (sy_P S) (xs s) y (xs s') t r HX). ring.
  Qed.
  Lemma move_pos s s' y t : move S s s' y t -> 0 < t.
  Proof.
    intros (_ & _ & _ & _ & _ & _ & _ & _ & _ & _ & _ & (r & _ & _ & _ & T & Vp & E)).
    apply Qnot_le_lt. intros C. assert (0 <= - t * V S y r) by (apply Qmult_le_0_compat; lra). lra.
  Qed.
  Lemma move_drift s s' y t : move S s s' y t -> drift s' == drift s + errtol * t.
  Proof. intros (_ & _ & _ & _ & HZ & _). unfold drift, zz. rewrite HZ. ring. Qed.
  Lemma idle_row s y r : Inv S s -> (r < n)%nat -> fin_row P r -> qfin s r -> ~ act S s r -> D S s r <= tol -> V S y r == 0.
  Proof.
    intros I L HR HQ NA LD.
    assert (C : nltb (Fin 0) (colsum (sy_P S) r) = false).
    { destruct (nltb (Fin 0) (colsum (sy_P S) r)) eqn:E; auto. destruct NA.
      apply (act_fin S idx rows s r I). split; auto. }
    unfold V. rewrite (zerodq r L C), (zero_col (sy_P S) n idx sym r HR C). ring.
  Qed.
  Lemma balanced_step s s' y t : Inv S s -> slack s -> balanced s ->
    move S s s' y t -> (forall r, (r < nu)%nat -> qfin s r) -> balanced s'.
  Proof.
    intros I SL B M HQ r L HR Q'. assert (Ln : (r < n)%nat) by (unfold n, nu in *; lia). pose proof (HQ r L) as Q.
    rewrite (move_gap s s' y t r M Ln Q). rewrite (move_drift _ _ _ _ M).
    destruct (B r L HR Q) as [B1 B2]. pose proof (move_pos _ _ _ _ M) as T.
    destruct (act_dec S s r) as [A|A].
    - pose proof M as (_ & _ & _ & _ & _ & _ & _ & _ & HA & _). destruct (HA r A) as [A1 A2].
      fold errtol in A1, A2.
      assert (0 <= t * (V S y r + errtol)) by (apply Qmult_le_0_compat; lra).
      assert (0 <= t * (errtol - V S y r)) by (apply Qmult_le_0_compat; lra). split; lra.
    - assert (LD : D S s r <= tol).
      { destruct SL as [E|[_ E]]; [|lra]. assert (drift s == 0) by (unfold drift; rewrite E; ring). unfold tol in *. lra. }
      rewrite (idle_row s y r I Ln HR Q A LD). assert (0 <= errtol * t) by (apply Qmult_le_0_compat; [exact errtol0|lra]).
      split; lra.
  Qed.

  Definition well (s : state) : Prop := Inv S s /\ zz s <= zz s0 /\
    (forall r, (r < n)%nat -> (qfin s r <-> qfin s0 r)) /\ (slack s -> balanced s).

  Lemma nan_stops s : well s -> covered -> slack s -> (forall v, In v (answer lsolve S s) -> v = NaN) -> step lsolve S s = None.
  Proof.
    intros (I & HZ & HQ & HB) [C1 C2] SL F. apply (step_nan lsolve S idx lens s I F).
    intros r gp Hg T.
    assert (L : (r < n)%nat).
    { assert (r < length (gaps (sy_P S) (st_x s) (st_q s)))%nat by (apply nth_error_Some; congruence).
      rewrite gaps_length, (inv_q S s I) in *. assumption. }
    assert (DL : drift s <= tol).
    { destruct SL as [E0|[_ E0]]; auto. assert (drift s == 0) by (unfold drift; rewrite E0; ring). unfold tol in *. lra. }
    destruct (Nat.lt_ge_cases r nu) as [Lr|Lr].
    - exfalso. destruct (gap_case S idx rows s r I L) as [(HR & Q & E)|[(_ & Q & _)|(_ & E)]].
      + rewrite Hg in E. injection E as ->. simpl in T. qb. destruct (HB SL r Lr HR Q) as [_ B]. unfold tol in *. lra.
      + destruct (proj2 (HQ r L) (kq0 r Lr)) as (b & Eb). rewrite Eb in Q. discriminate Q.
      + rewrite Hg in E. injection E as ->. discriminate T.
    - destruct (C2 r) as (c & v & Hv & Lc & HR & CS); [split; auto|]. exists c, v. split; auto.
      assert (Lc' : (c < n)%nat) by (unfold n; lia). split; [|apply C1; auto].
      apply (act_fin S idx rows s c I). assert (Q : qfin s c) by (apply HQ; auto).
      split; [exact Lc'|]. split; [exact HR|]. split; [exact Q|]. split; [|exact CS].
      destruct (HB SL c Lc HR Q) as [_ B]. unfold tol in *. lra.
  Qed.
  Lemma well_step s s' : well s -> good s -> step lsolve S s = Some s' ->
    exists t, move S s s' (map qof (dxn lsolve S s)) t /\ well s'.
  Proof.
    intros W G Es. pose proof W as (I & HZ & HQ & HB).
    assert (FA : forall v, In v (answer lsolve S s) -> fin v).
    { destruct G as [G|(G & C & SL)]; [apply G|]. destruct (G (submatrix (sy_P S) (ps S s)) (map (fun r => nth r (sy_dq S) NaN) (ps S s))) as [F|F]; [exact F|].
      exfalso. rewrite (nan_stops s W C SL F) in Es. discriminate Es. }
    destruct (step_fin lsolve S idx rows dqfin lens s I FA s' Es) as (t & M & I'). exists t. split; [exact M|].
    split; [exact I'|]. split; [|split].
    - pose proof M as (_ & _ & _ & _ & EZ & _). pose proof (move_pos _ _ _ _ M). unfold zz in *. lra.
    - intros r L. rewrite <- (HQ r L). pose proof M as (_ & _ & M3 & M4 & _). split.
      + intros Q'. destruct (inv_qf S s I r L) as [Q|[Q _]]; auto. exfalso. apply (M4 r L); auto.
        intros (b & Eb). rewrite Eb in Q. discriminate Q.
      + intros Q. apply M3; auto.
    - intros SL'. assert (SL : slack s) by (eapply slack_back; eauto).
      apply (balanced_step s s' _ t I SL (HB SL) M). intros r L. apply HQ; [unfold n, nu in *; lia|]. apply kq0; auto.
  Qed.
  Lemma reach_well s : reach s -> good s -> well s.
  Proof.
    induction 1 as [|s s' R IH HR Es]; intros G.
    - split; auto. split; [lra|]. split; [intros; tauto|]. intros _ r L HRr Q.
      pose proof start_drift. rewrite (kbal0 r L). lra.
    - pose proof (good_back _ _ Es G) as G'. destruct (well_step s s' (IH G') G' Es) as (t & _ & W). exact W.
  Qed.

  (** an invariant of the steps holds in every state *)
  Lemma reach_ind_move (Pr : state -> Prop) : Pr s0 ->
    (forall s s' y t, reach s -> well s -> good s -> Pr s -> move S s s' y t -> well s' -> good s' ->
       step lsolve S s = Some s' -> Pr s') ->
    forall s, reach s -> good s -> Pr s.
  Proof.
    intros H0 HS s R. induction R as [|s s' R IH HR Es]; intros G; auto.
    pose proof (good_back _ _ Es G) as G'. pose proof (reach_well s R G') as W.
    destruct (well_step s s' W G' Es) as (t & M & W'). eapply HS; eauto.
  Qed.

  Lemma drift_zero s : errtol == 0 -> drift s == 0.
  Proof. intros E. unfold drift. rewrite E. ring. Qed.
  Lemma drift_le s : slack s -> drift s <= tol.
  Proof. intros [E|[_ E]]; auto. rewrite (drift_zero s E). exact tol0. Qed.

  (** gaps never get below the accumulated error (C37) *)
  Lemma gap_lower s : reach s -> good s -> forall r, (r < n)%nat -> fin_row P r -> qfin s r -> 0 <= D S s0 r ->
    - drift s <= D S s r.
  Proof.
    apply (reach_ind_move (fun s => forall r, (r < n)%nat -> fin_row P r -> qfin s r -> 0 <= D S s0 r -> - drift s <= D S s r)).
    - intros r L HR Q H. pose proof start_drift. lra.
    - intros a b y t R W G IH M W' G' Es r L HR Q' H.
      destruct W as (I & _ & HQ & _). assert (Q : qfin a r) by (apply HQ; auto; apply (proj1 (proj2 (proj2 W'))); auto).
      specialize (IH r L HR Q H). rewrite (move_gap _ _ _ _ r M L Q), (move_drift _ _ _ _ M).
      pose proof (move_pos _ _ _ _ M) as T. assert (E0 : 0 <= errtol * t) by (apply Qmult_le_0_compat; [exact errtol0|lra]).
      pose proof M as (_ & _ & _ & _ & _ & _ & _ & _ & HA & _ & HV & _).
      assert (DD : 0 <= drift b). { unfold drift. apply Qmult_le_0_compat; [exact errtol0|]. destruct W' as (_ & LZ & _). lra. }
      rewrite (move_drift _ _ _ _ M) in DD.
      destruct (act_dec S a r) as [A|A].
      + destruct (HA r A) as [_ A2]. fold errtol in A2. assert (0 <= t * (errtol - V S y r)) by (apply Qmult_le_0_compat; lra). lra.
      + destruct (Qlt_le_dec tol (D S a r)) as [C|C].
        * destruct (Qlt_le_dec 0 (V S y r)) as [C'|C'].
          -- specialize (HV r L HR Q C C'). lra.
          -- assert (0 <= t * - V S y r) by (apply Qmult_le_0_compat; lra). lra.
        * rewrite (idle_row a y r I L HR Q A C). lra.
  Qed.

  (** one step more (C39, C40) *)
  Lemma active_kept s s' y t r : errtol == 0 -> well s -> well s' -> move S s s' y t -> act S s r ->
    D S s' r == D S s r /\ act S s' r.
  Proof.
    intros E (I & _ & HQ & _) (I' & _ & HQ' & _) M A. pose proof A as A'. apply (act_fin S idx rows s r I) in A'.
    destruct A' as (L & HR & Q & LD & CS). pose proof M as (_ & _ & _ & _ & _ & _ & _ & _ & HA & _).
    destruct (HA r A) as [A1 A2]. fold errtol in A1, A2. assert (VZ : V S y r == 0) by lra.
    assert (ED : D S s' r == D S s r) by (rewrite (move_gap _ _ _ _ r M L Q), VZ; ring). split; auto.
    apply (act_fin S idx rows s' r I'). split; auto. split; auto. split; [apply HQ'; auto; apply HQ; auto|]. split; auto.
    rewrite ED. exact LD.
  Qed.
  Lemma contact_made s s' y t : slack s -> well s -> well s' -> move S s s' y t ->
    exists r, (nu <= r < n)%nat /\ ~ act S s r /\ fin_row P r /\ qfin s' r /\ D S s' r == 0 /\
      nltb (Fin 0) (colsum (sy_P S) r) = true /\ act S s' r.
  Proof.
    intros SL W W' M. pose proof W as (I & _ & HQ & HB). pose proof W' as (I' & _ & HQ' & _).
    pose proof M as (_ & _ & _ & _ & _ & _ & _ & _ & HA & _ & _ & (r & L & HR & Q & T & Vp & Ee)).
    assert (NA : ~ act S s r). { intros A. apply (act_fin S idx rows s r I) in A. destruct A as (_ & _ & _ & LD & _). lra. }
    assert (Q' : qfin s' r) by (apply HQ'; auto; apply HQ; auto).
    assert (D0 : D S s' r == 0) by (rewrite (move_gap _ _ _ _ r M L Q); lra).
    assert (CS : nltb (Fin 0) (colsum (sy_P S) r) = true).
    { destruct (nltb (Fin 0) (colsum (sy_P S) r)) eqn:C; auto. exfalso.
      unfold V in Vp. rewrite (zerodq r L C), (zero_col (sy_P S) n idx sym r HR C) in Vp. lra. }
    exists r. split; [|repeat split; auto].
    - split; auto. destruct (Nat.lt_ge_cases r nu) as [Lr|Lr]; auto. exfalso.
      destruct (HB SL r Lr HR Q) as [_ B]. pose proof (drift_le s SL). unfold tol in *. lra.
    - apply (act_fin S idx rows s' r I'). repeat split; auto. rewrite D0. exact tol0.
  Qed.
  (** a force is only found on rows in contact *)
  Lemma force_active s : errtol == 0 -> (forall r, nth r (xs s0) 0 == 0) -> reach s -> good s ->
    forall r, ~ nth r (xs s) 0 == 0 -> act S s r.
  Proof.
    intros E X0. revert s. apply (reach_ind_move (fun s => forall r, ~ nth r (xs s) 0 == 0 -> act S s r)).
    - intros r H. destruct (H (X0 r)).
    - intros a b y t R W G IH M W' G' Es r H.
      destruct (act_dec S a r) as [A|A]; [apply (active_kept a b y t r E W W' M A)|].
      exfalso. apply A, IH. intros Ea. apply H. pose proof M as (_ & HX & _ & _ & _ & _ & _ & _ & _ & HY & _).
      rewrite (HX r), Ea, (HY r A). ring.
  Qed.
  (** whatever the tolerance, a force is only found on rows that have been in contact *)
  Lemma force_history s : (forall r, nth r (xs s0) 0 == 0) -> reach s -> good s ->
    forall r, ~ nth r (xs s) 0 == 0 -> exists a, reach a /\ act S a r.
  Proof.
    intros X0. revert s. apply (reach_ind_move (fun s => forall r, ~ nth r (xs s) 0 == 0 -> exists a, reach a /\ act S a r)).
    - intros r H. destruct (H (X0 r)).
    - intros a b y t R W G IH M W' G' Es r H.
      destruct (act_dec S a r) as [A|A]; [eauto|].
      apply IH. intros Ea. apply H. pose proof M as (_ & HX & _ & _ & _ & _ & _ & _ & _ & HY & _).
      rewrite (HX r), Ea, (HY r A). ring.
  Qed.

  (** the number of steps (C40) *)
  Inductive reachn : nat -> state -> Prop :=
  | reachn0 : reachn 0 s0
  | reachnS k s s' : reachn k s -> nltb (st_rl s) (sy_packing S) = true -> step lsolve S s = Some s' -> reachn (Datatypes.S k) s'.
  Lemma reachn_reach k s : reachn k s -> reach s.
  Proof. induction 1; [apply reach0|eapply reachS; eauto]. Qed.
  Lemma run_reachn fuel : forall j s, reachn j s -> forall k s', nth_error (run lsolve S fuel s) k = Some s' -> reachn (Datatypes.S j + k) s'.
  Proof.
    induction fuel as [|f IH]; simpl; intros j s R k s' H; [destruct k; discriminate H|].
    destruct (nltb (st_rl s) (sy_packing S)) eqn:E; [|destruct k; discriminate H].
    destruct (step lsolve S s) as [s1|] eqn:Es; [|destruct k; discriminate H].
    assert (R1 : reachn (Datatypes.S j) s1) by (eapply reachnS; eauto).
    destruct k as [|k]; simpl in H.
    - injection H as <-. rewrite Nat.add_0_r. exact R1.
    - specialize (IH _ s1 R1 k s' H). replace (Datatypes.S (j + Datatypes.S k)) with (Datatypes.S (Datatypes.S j) + k)%nat by lia. exact IH.
  Qed.
  Lemma history_nth itermax k s : nth_error (history lsolve S itermax s0) k = Some s -> reachn k s.
  Proof.
    destruct k as [|k]; simpl; intros H; [injection H as <-; apply reachn0|].
    exact (run_reachn itermax 0 s0 reachn0 k s H).
  Qed.
  Lemma touched k s : reachn k s -> good s -> slack s -> exists rs, NoDup rs /\ length rs = k /\
    forall r, In r rs -> (nu <= r < n)%nat /\ fin_row P r /\ qfin s r /\ D S s r <= drift s /\ nltb (Fin 0) (colsum (sy_P S) r) = true.
  Proof.
    induction 1 as [|k s s' R IH HR Es]; intros G' SL'.
    - exists []. split; [constructor|]. split; auto. intros r [].
    - pose proof (good_back _ _ Es G') as G. pose proof (slack_back _ _ Es SL') as SL.
      destruct (IH G SL) as (rs & ND & Ln & HI). pose proof (reach_well s (reachn_reach _ _ R) G) as W.
      destruct (well_step s s' W G Es) as (t & M & W').
      destruct (contact_made _ _ _ _ SL W W' M) as (r0 & L0 & NA & HR0 & Q0 & D0 & CS0 & A0).
      pose proof W as (I & _ & HQ & _). pose proof W' as (I' & LZ & HQ' & _).
      assert (AR : forall r, In r rs -> act S s r).
      { intros r Hr. destruct (HI r Hr) as ((_ & Lr) & HRr & Qr & Dr & Cr). apply (act_fin S idx rows s r I).
        repeat split; auto. pose proof (drift_le s SL). unfold tol in *. lra. }
      exists (r0 :: rs). split; [constructor; auto|]. split; [simpl; congruence|].
      intros r [<-|Hr].
      + repeat split; try tauto. rewrite D0. unfold drift. apply Qmult_le_0_compat; [exact errtol0|lra].
      + destruct (HI r Hr) as ((Lr0 & Lr) & HRr & Qr & Dr & Cr). repeat split; auto.
        * apply HQ'; auto. apply HQ; auto.
        * rewrite (move_gap _ _ _ _ r M Lr Qr), (move_drift _ _ _ _ M).
          pose proof M as (_ & _ & _ & _ & _ & _ & _ & _ & HA & _). destruct (HA r (AR r Hr)) as [A1 _]. fold errtol in A1.
          pose proof (move_pos _ _ _ _ M). assert (0 <= t * (errtol + V S (map qof (dxn lsolve S s)) r)) by (apply Qmult_le_0_compat; lra). lra.
  Qed.
  Lemma touched_bound k s : reachn k s -> good s -> slack s -> (k <= n - nu)%nat.
  Proof.
    intros R G SL. destruct (touched k s R G SL) as (rs & ND & <- & HI).
    rewrite <- (seq_length (n - nu) nu). apply NoDup_incl_length; auto.
    intros r Hr. apply in_seq. destruct (HI r Hr) as ((H1 & H2) & _). lia.
  Qed.
  (** the recorded states that satisfy [slack] are at most one more than the constraints *)
  Lemma last_state itermax : exists k s, nth_error (history lsolve S itermax s0) k = Some s /\
    length (history lsolve S itermax s0) = Datatypes.S k.
  Proof.
    destruct (nth_error (history lsolve S itermax s0) (length (history lsolve S itermax s0) - 1)) as [s|] eqn:E.
    - exists (length (history lsolve S itermax s0) - 1)%nat, s. split; auto. simpl. lia.
    - apply nth_error_None in E. simpl in E. lia.
  Qed.
End Run.
