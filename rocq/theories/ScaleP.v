(** The results of the solver do not depend on the units. *)
From Coq Require Import Permutation.
From Verif Require Import Num NumP ListX ListP Frames MatM NetM MeshM ModelM SolverM Spec SpecNet SpecMesh SpecModel SpecSolver
  StiffP StackP ConstraintP SolverP SolverRunP SolverSysP SolverApiP SolverFinP SpecPerm PermP SpecScale.
Open Scope Q_scope.

(** *** scaled numbers *)
Lemma t_ext a b x y : a == b -> times a x y -> times b x y.
Proof. intros E. destruct x, y; simpl; auto. intros ->. rewrite E. reflexivity. Qed.
Lemma t_one x : times 1 x x.
Proof. destruct x; simpl; auto. ring. Qed.
Lemma t_eqv x y : times 1 x y <-> neqv x y.
Proof. destruct x, y; simpl; try tauto. rewrite Qmult_1_l. split; intros H; rewrite H; reflexivity. Qed.
Lemma t_zero a : times a (Fin 0) (Fin 0).
Proof. simpl. ring. Qed.
Lemma t_fin a x q : times a x (Fin q) -> exists p, x = Fin p /\ q == a * p.
Proof. destruct x; simpl; try tauto. eauto. Qed.
Lemma t_fin_r a y p : times a (Fin p) y -> exists q, y = Fin q /\ q == a * p.
Proof. destruct y; simpl; try tauto. eauto. Qed.
Lemma t_qof a x y : times a x y -> qof y == a * qof x.
Proof. destruct x, y; simpl; try tauto; intros; ring. Qed.
Lemma t_opp a x x' : times a x x' -> times a (nopp x) (nopp x').
Proof. destruct x, x'; simpl; auto. intros ->. ring. Qed.
Lemma t_add a x x' y y' : times a x x' -> times a y y' -> times a (nadd x y) (nadd x' y').
Proof. destruct x, x', y, y'; simpl; auto; try tauto. intros -> ->. ring. Qed.
Lemma t_sub a x x' y y' : times a x x' -> times a y y' -> times a (nsub x y) (nsub x' y').
Proof. intros H K. apply t_add; auto. apply t_opp; auto. Qed.
Lemma t_sgn a p q : 0 < a -> q == a * p -> qsgn q = qsgn p.
Proof.
  intros H E. rewrite (qsgn_eqv q (a * p) E). unfold qsgn. destruct (Qcompare p 0) eqn:C.
  - apply Qeq_alt in C. apply Qeq_alt. rewrite C. ring.
  - rewrite <- Qlt_alt in C. rewrite <- Qlt_alt. setoid_replace 0 with (a * 0) by ring. apply Qmult_lt_l; auto.
  - rewrite <- Qgt_alt in C. rewrite <- Qgt_alt. apply (Qmult_lt_l 0 p a H) in C. lra.
Qed.
Lemma t_inf a c : times a (inf_of c) (inf_of c).
Proof. destruct c; simpl; auto. Qed.
Lemma t_mul a b x x' y y' : 0 < a -> 0 < b -> times a x x' -> times b y y' -> times (a * b) (nmul x y) (nmul x' y').
Proof.
  intros Ha Hb. destruct x as [p| | |], x' as [p'| | |]; try (simpl; tauto); intros H;
  destruct y as [q| | |], y' as [q'| | |]; try (simpl; tauto); intros K; cbn [nmul times] in *; auto.
  - rewrite H, K. ring.
  - rewrite (t_sgn a p p') by auto. apply t_inf.
  - rewrite (t_sgn a (- p) (- p')) by (auto; rewrite H; ring). apply t_inf.
  - rewrite (t_sgn b q q') by auto. apply t_inf.
  - rewrite (t_sgn b (- q) (- q')) by (auto; rewrite K; ring). apply t_inf.
Qed.
Lemma pos_zero a p q : 0 < a -> q == a * p -> Qeqb q 0 = Qeqb p 0.
Proof.
  intros H E. destruct (Qeqb q 0) eqn:A, (Qeqb p 0) eqn:B; auto; qb; exfalso.
  - apply B. rewrite E in A. apply Qmult_integral in A. destruct A as [A|A]; [lra|exact A].
  - apply A. rewrite E, B. ring.
Qed.
Lemma pos_lt a p q r s : 0 < a -> q == a * p -> s == a * r -> Qltb q s = Qltb p r.
Proof.
  intros H E F. destruct (Qltb q s) eqn:A, (Qltb p r) eqn:B; auto; qb; exfalso.
  - apply (Qmult_le_l r p a H) in B. lra.
  - apply (Qmult_lt_l p r a H) in B. lra.
Qed.
Lemma pos_lt0 a p q : 0 < a -> q == a * p -> Qltb q 0 = Qltb p 0 /\ Qltb 0 q = Qltb 0 p.
Proof. intros H E. split; apply (pos_lt a); auto; ring. Qed.
Lemma pos_eq a p q r s : 0 < a -> q == a * p -> s == a * r -> Qeqb q s = Qeqb p r.
Proof.
  intros H E F. destruct (Qeqb q s) eqn:A, (Qeqb p r) eqn:B; auto; qb; exfalso.
  - apply B. rewrite E, F in A. apply Qmult_inj_l in A; auto. lra.
  - apply A. rewrite E, F, B. reflexivity.
Qed.
Lemma t_div a b x x' y y' : 0 < a -> 0 < b -> times a x x' -> times b y y' -> times (a / b) (ndiv x y) (ndiv x' y').
Proof.
  intros Ha Hb. destruct x as [p| | |], x' as [p'| | |]; try (simpl; tauto); intros H;
  destruct y as [q| | |], y' as [q'| | |]; try (simpl; tauto); intros K; cbn [ndiv times] in *; auto; try ring.
  - rewrite (pos_zero b q q') by auto. destruct (Qeqb q 0) eqn:Z.
    + rewrite (t_sgn a p p') by auto. apply t_inf.
    + simpl. qb. rewrite H, K. field. split; [exact Z|]. lra.
  - destruct (pos_lt0 b q q' Hb K) as [-> _]. destruct (Qltb q 0); simpl; auto.
  - destruct (pos_lt0 b q q' Hb K) as [-> _]. destruct (Qltb q 0); simpl; auto.
Qed.
Lemma t_ltb a x x' y y' : 0 < a -> times a x x' -> times a y y' -> nltb x' y' = nltb x y.
Proof. intros Ha. destruct x, x', y, y'; simpl; try tauto. intros H K. apply (pos_lt a); auto. Qed.
Lemma t_leb a x x' y y' : 0 < a -> times a x x' -> times a y y' -> nleb x' y' = nleb x y.
Proof.
  intros Ha H K. unfold nleb. rewrite (t_ltb a x x' y y' Ha H K). f_equal.
  destruct x, x', y, y'; simpl in *; try tauto. apply (pos_eq a); auto.
Qed.
Lemma t_pos a x x' : 0 < a -> times a x x' -> nltb (Fin 0) x' = nltb (Fin 0) x.
Proof. intros Ha H. apply (t_ltb a); auto. apply t_zero. Qed.
Lemma t_abs a x x' : 0 < a -> times a x x' -> times a (nabs x) (nabs x').
Proof. intros Ha. destruct x, x'; simpl; auto. intros ->. rewrite Qabs_Qmult, (Qabs_pos a) by lra. reflexivity. Qed.
Lemma t_sum a l l' : Forall2 (times a) l l' -> times a (nsum l) (nsum l').
Proof. induction 1; simpl; [ring|]. apply t_add; auto. Qed.
Lemma t_map {A B} a (f : A -> num) (f' : B -> num) l l' : Forall2 (fun x y => times a (f x) (f' y)) l l' -> Forall2 (times a) (map f l) (map f' l').
Proof. induction 1; simpl; constructor; auto. Qed.

(** a sum of absolute values, the terms being scaled independently *)
Lemma sum_pos l l' : Forall2 (fun x y => exists a, 0 < a /\ times a x y) l l' ->
  nltb (Fin 0) (nsum (map nabs l')) = nltb (Fin 0) (nsum (map nabs l)).
Proof.
  assert (C : forall l, (nsum (map nabs l) = NaN) \/ (nsum (map nabs l) = PInf) \/ exists q, nsum (map nabs l) = Fin q /\ 0 <= q).
  { clear. induction l as [|x l IH]; simpl; [right; right; exists 0; split; [reflexivity|lra]|].
    destruct IH as [->|[->|(q & -> & Hq)]]; destruct x as [p| | |]; simpl; auto. right. right. exists (Qabs p + q). split; auto.
    pose proof (Qabs_nonneg p). lra. }
  intros H. assert (G : (nsum (map nabs l) = NaN /\ nsum (map nabs l') = NaN) \/ (nsum (map nabs l) = PInf /\ nsum (map nabs l') = PInf) \/
    exists p q, nsum (map nabs l) = Fin p /\ nsum (map nabs l') = Fin q /\ 0 <= p /\ 0 <= q /\ (p == 0 <-> q == 0)).
  { induction H as [|x y l l' (a & Ha & T) H IH]; simpl; [right; right; exists 0, 0; repeat split; auto; lra|].
    apply (t_abs a x y Ha) in T. destruct IH as [(-> & ->)|[(-> & ->)|(p & q & -> & -> & Hp & Hq & E)]]; destruct x as [u| | |], y as [v| | |]; simpl in T |- *; try contradiction; auto.
    right. right. exists (Qabs u + p), (Qabs v + q). pose proof (Qabs_nonneg u). pose proof (Qabs_nonneg v).
    split; auto. split; auto. split; [lra|]. split; [lra|]. split; intros Z.
    - assert (U : Qabs u == 0) by lra. assert (Zp : p == 0) by lra. rewrite T, U. apply E in Zp. rewrite Zp. ring.
    - assert (U : Qabs v == 0) by lra. assert (Zq : q == 0) by lra. apply E in Zq. rewrite U in T. symmetry in T. apply Qmult_integral in T.
      destruct T as [T|T]; [lra|]. rewrite T, Zq. ring. }
  destruct G as [(-> & ->)|[(-> & ->)|(p & q & -> & -> & Hp & Hq & E)]]; auto. simpl.
  destruct (Qltb 0 q) eqn:A, (Qltb 0 p) eqn:B; auto; qb; exfalso.
  - assert (Z : p == 0) by lra. apply E in Z. lra.
  - assert (Z : q == 0) by lra. apply E in Z. lra.
Qed.

(** *** scaled matrices *)
Definition mat_sc (R D : nat -> Q) (P P' : ncoo) : Prop :=
  Forall2 (fun e e' : nat * nat * num => fst e' = fst e /\ times (R (fst (fst e)) / D (snd (fst e))) (snd e) (snd e')) P P'.
Section Matrices.
  Variables R D : nat -> Q.
  Hypothesis HR : forall r, 0 < R r.
  Hypothesis HD : forall r, 0 < D r.
  Lemma rd_pos r c : 0 < R r / D c.
  Proof. apply Qlt_shift_div_l; [apply HD|]. rewrite Qmult_0_l. apply HR. Qed.
  Lemma sc_matvec k P P' x x' r : 0 < k -> mat_sc R D P P' -> (forall c, times (D c * k) (nth c x NaN) (nth c x' NaN)) -> times (R r * k) (matvec P x r) (matvec P' x' r).
  Proof.
    intros Hk H HX. unfold matvec. apply t_sum, t_map. induction H as [|[[i c] v] [[i' c'] v'] P P' [E T] H IH]; constructor; auto.
    cbn [fst snd] in E, T. injection E as -> ->. destruct (Nat.eqb_spec i r) as [->|_]; [|apply t_zero].
    apply (t_ext (R r / D c * (D c * k))); [field; specialize (HD c); lra|]. apply t_mul; auto; [apply rd_pos|apply Qmult_lt_0_compat; auto].
  Qed.
  Lemma sc_product k P P' x x' r : mat_sc R D P P' -> (forall c, nth c x' 0 == D c * k * nth c x 0) -> product P' x' r == R r * k * product P x r.
  Proof.
    intros H HX. unfold product. induction H as [|[[i c] v] [[i' c'] v'] P P' [E T] H IH]; simpl; [ring|].
    cbn [fst snd] in E, T. injection E as -> ->. rewrite IH. destruct (Nat.eqb_spec i r) as [->|_]; [|ring].
    rewrite (t_qof _ _ _ T), HX. field. specialize (HD c). lra.
  Qed.
  Lemma sc_filter (p : nat * nat -> bool) P P' : mat_sc R D P P' ->
    mat_sc R D (filter (fun e => p (fst e)) P) (filter (fun e => p (fst e)) P').
  Proof.
    intros H. induction H as [|e e' P P' [E T] H IH]; simpl; [constructor|]. rewrite E. destruct (p (fst e)); auto. constructor; auto.
  Qed.
  Lemma sc_entry P P' r c : mat_sc R D P P' -> times (R r / D c) (entry P r c) (entry P' r c).
  Proof.
    intros H. unfold entry. apply t_sum, t_map. pose proof (sc_filter (fun k => Nat.eqb (fst k) r && Nat.eqb (snd k) c) P P' H) as G. cbv beta in G.
    assert (A : forall e, In e (filter (fun e => Nat.eqb (fst (fst e)) r && Nat.eqb (snd (fst e)) c) P) -> fst e = (r, c)).
    { intros [[i j] v] He. apply filter_In in He. destruct He as [_ He]. cbn [fst snd] in He. apply andb_true_iff in He.
      rewrite !Nat.eqb_eq in He. destruct He as [-> ->]. reflexivity. }
    revert A. induction G as [|e e' l l' [E T] G IH]; intros A; constructor.
    - rewrite (A e (or_introl eq_refl)) in T. exact T.
    - apply IH. intros x Hx. apply A. right. exact Hx.
  Qed.
  Lemma sc_places P P' c : mat_sc R D P P' ->
    map (fun e : nat * nat * num => fst (fst e)) (filter (fun e => Nat.eqb (snd (fst e)) c) P') =
    map (fun e : nat * nat * num => fst (fst e)) (filter (fun e => Nat.eqb (snd (fst e)) c) P).
  Proof.
    intros H. induction H as [|e e' P P' [E T] H IH]; simpl; auto. rewrite E. destruct (Nat.eqb (snd (fst e)) c); simpl; auto. rewrite E. f_equal. exact IH.
  Qed.
  Lemma sc_colsum P P' c : mat_sc R D P P' -> nltb (Fin 0) (colsum P' c) = nltb (Fin 0) (colsum P c).
  Proof.
    intros H. unfold colsum. rewrite (sc_places P P' c H). set (rows := dedup _ _). clearbody rows.
    rewrite <- (map_map (fun r => entry P' r c) nabs), <- (map_map (fun r => entry P r c) nabs). apply sum_pos.
    induction rows as [|r rows IH]; constructor; auto. exists (R r / D c). split; [apply rd_pos|]. apply sc_entry. exact H.
  Qed.
  Lemma sc_fin P P' r c v' : mat_sc R D P P' -> In (r, c, v') P' -> exists v, In (r, c, v) P /\ times (R r / D c) v v'.
  Proof.
    intros H. induction H as [|e e' P P' [E T] H IH]; simpl; [tauto|]. intros [->|K].
    - destruct e as [[i j] v]. cbn [fst snd] in E, T. injection E as -> ->. exists v. auto.
    - destruct (IH K) as (v & A & B). exists v. auto.
  Qed.
End Matrices.

Lemma Forall2_nth {A B} (Q : A -> B -> Prop) (d : A) (d' : B) l : forall l', length l' = length l -> (forall r, (r < length l)%nat -> Q (nth r l d) (nth r l' d')) -> Forall2 Q l l'.
Proof.
  induction l as [|x l IH]; intros [|x' l'] L H; simpl in L; try discriminate; constructor.
  - apply (H 0%nat). simpl. lia.
  - apply IH; [lia|]. intros r Hr. apply (H (Datatypes.S r)). simpl. lia.
Qed.

(** *** two runs *)
Section Runs.
  Variables lsolve lsolve' : ncoo -> list num -> list num.
  Hypothesis exact : exact_solver lsolve.
  Hypothesis exact' : exact_solver lsolve'.
  Variables S S' : sysdata.
  Variable lam : Q.
  Variables Rr Dc : nat -> Q.
  Hypothesis Hlam : 0 < lam.
  Hypothesis HR : forall r, 0 < Rr r.
  Hypothesis HD : forall r, 0 < Dc r.
  Hypothesis HP : mat_sc Rr Dc (sy_P S) (sy_P S').
  Hypothesis Hnu : sy_nu S' = sy_nu S.
  Hypothesis Hlen : length (sy_dq S') = length (sy_dq S).
  Hypothesis Hdq : forall r, times (Rr r * / lam) (nth r (sy_dq S) NaN) (nth r (sy_dq S') NaN).
  Hypothesis Rlow : forall r, (sy_nu S <= r)%nat -> Rr r == lam.
  Hypothesis Htol : sy_tol S' == lam * sy_tol S.
  Hypothesis tol0 : 0 <= sy_tol S.
  Hypothesis err0 : 0 <= sy_errtol S.
  Hypothesis err0' : 0 <= sy_errtol S'.
  Hypothesis Hpack : sy_packing S' = sy_packing S.
  Hypothesis HZ0 : times lam (sy_Z0 S) (sy_Z0 S').
  Hypothesis nums : Permutation (sy_perm S) (seq 0 (length (sy_dq S))).
  Hypothesis nums' : Permutation (sy_perm S') (seq 0 (length (sy_dq S'))).
  Hypothesis idx : forall r c v, In (r, c, v) (sy_P S) -> (r < length (sy_dq S) /\ c < length (sy_dq S))%nat.
  Hypothesis sym : forall r c, neqv (entry (sy_P S) r c) (entry (sy_P S) c r).
  Hypothesis rows : forall r, fin_row (sy_P S) r \/ dead (sy_P S) r.
  Hypothesis dqfin : forall r, (r < length (sy_dq S))%nat -> fin (nth r (sy_dq S) NaN).
  Hypothesis lens : forall A b, length (lsolve A b) = length b.
  Hypothesis zerodq : forall r, (r < length (sy_dq S))%nat -> nltb (Fin 0) (colsum (sy_P S) r) = false -> dqr S r == 0.
  Hypothesis nun : (sy_nu S <= length (sy_dq S))%nat.
  Hypothesis dqup : forall r, (r < sy_nu S)%nat -> dqr S r == 0.

  Lemma ilam : 0 < / lam.
  Proof. apply Qinv_lt_0_compat. exact Hlam. Qed.
  Lemma tol0' : 0 <= sy_tol S'.
  Proof. rewrite Htol. apply Qmult_le_0_compat; lra. Qed.
  Lemma dq_fin_vec : finite_vec (sy_dq S).
  Proof. intros v Hv. apply In_nth with (d := NaN) in Hv. destruct Hv as (r & Lr & <-). apply dqfin. exact Lr. Qed.
  Lemma dq_fin_vec' : finite_vec (sy_dq S').
  Proof.
    intros v Hv. apply In_nth with (d := NaN) in Hv. destruct Hv as (r & Lr & <-). rewrite Hlen in Lr. destruct (dqfin r Lr) as (q & E).
    pose proof (Hdq r) as T. rewrite E in T. apply t_fin_r in T. destruct T as (q' & -> & _). eauto.
  Qed.

  Record sim (s s' : state) : Prop := mkSim {
    sim_lx : length (st_x s') = length (st_x s); sim_ld : length (st_dx s') = length (st_dx s); sim_lq : length (st_q s') = length (st_q s);
    sim_x : forall r, times (Dc r) (nth r (st_x s) NaN) (nth r (st_x s') NaN);
    sim_d : finite_vec (st_dx s');
    sim_q : forall r, times (Rr r) (nth r (st_q s) NaN) (nth r (st_q s') NaN);
    sim_Z : times lam (st_Z s) (st_Z s'); sim_rl : times 1 (st_rl s) (st_rl s'); sim_mask : st_mask s' = st_mask s
  }.
  Record good (s : state) : Prop := mkGood {
    good_inv : Inv S s; good_q : forall r, (r < sy_nu S)%nat -> qfin s r;
    good_bal : forall r, (r < sy_nu S)%nat -> fin_row (sy_P S) r -> D S s r == 0
  }.
  Definition gapv (T : sysdata) (s : state) (r : nat) : num := nsub (nth r (st_q s) NaN) (matvec (sy_P T) (st_x s) r).
  Lemma gapv_gaps T s r : (r < length (st_q s))%nat -> nth_error (gaps (sy_P T) (st_x s) (st_q s)) r = Some (gapv T s r).
  Proof.
    intros L. rewrite gaps_nth. unfold gapv. rewrite (nth_of (st_q s)). destruct (nth_error (st_q s) r) eqn:E; auto. apply nth_error_None in E. lia.
  Qed.
  Lemma sim_gap s s' r : sim s s' -> times (Rr r) (gapv S s r) (gapv S' s' r).
  Proof.
    intros H. unfold gapv. apply t_sub; [apply (sim_q _ _ H)|]. apply (t_ext (Rr r * 1)); [ring|].
    apply (sc_matvec Rr Dc HR HD 1); auto; [lra|]. intros c. apply (t_ext (Dc c)); [ring|]. apply (sim_x _ _ H).
  Qed.
  Lemma gap_test s s' r : good s -> sim s s' -> (r < length (sy_dq S))%nat ->
    nleb (gapv S' s' r) (Fin (sy_tol S')) = nleb (gapv S s r) (Fin (sy_tol S)) /\
    nltb (Fin (sy_tol S')) (gapv S' s' r) = nltb (Fin (sy_tol S)) (gapv S s r).
  Proof.
    intros G H L. pose proof (sim_gap s s' r H) as T. pose proof tol0' as T0.
    destruct (Nat.lt_ge_cases r (sy_nu S)) as [U|U].
    - assert (Lq : (r < length (st_q s))%nat) by (rewrite (inv_q S s (good_inv s G)); exact L).
      pose proof (gap_case S idx rows s r (good_inv s G) L) as C. rewrite (gapv_gaps S s r Lq) in C.
      destruct C as [(F & _ & E)|[(_ & E & _)|(_ & E)]].
      + injection E as E. rewrite E in T |- *. apply t_fin_r in T. destruct T as (q & -> & Eq0). pose proof (good_bal s G r U F) as B. rewrite B in Eq0.
        assert (Z : q == 0) by (rewrite Eq0; ring). split.
        * rewrite (proj2 (nleb_q q (sy_tol S'))), (proj2 (nleb_q (D S s r) (sy_tol S))) by lra. reflexivity.
        * simpl. destruct (Qltb (sy_tol S') q) eqn:A1, (Qltb (sy_tol S) (D S s r)) eqn:A2; auto; qb; lra.
      + destruct (good_q s G r U) as (x & X). congruence.
      + injection E as E. rewrite E in T |- *. destruct (gapv S' s' r); simpl in T; try contradiction. split; reflexivity.
    - assert (K : times lam (gapv S s r) (gapv S' s' r)) by (apply (t_ext (Rr r)); auto).
      assert (K' : times lam (Fin (sy_tol S)) (Fin (sy_tol S'))) by exact Htol. split; [apply (t_leb lam)|apply (t_ltb lam)]; auto.
  Qed.
  Lemma closed_gap T s r : closed T s r <-> (r < length (st_q s))%nat /\ nleb (gapv T s r) (Fin (sy_tol T)) = true /\ nltb (Fin 0) (colsum (sy_P T) r) = true.
  Proof.
    unfold closed, gapv. rewrite (nth_of (st_q s)). destruct (nth_error (st_q s) r) as [b|] eqn:E.
    - assert (r < length (st_q s))%nat by (apply nth_error_Some; congruence). split; [intros (b' & X & A); injection X as <-; auto|]. intros (_ & A). exists b. auto.
    - apply nth_error_None in E. split; [intros (b' & X & A); discriminate X|lia].
  Qed.
  Lemma closed_sim s s' r : good s -> sim s s' -> (closed S' s' r <-> closed S s r).
  Proof.
    intros G H. rewrite !closed_gap, (sim_lq _ _ H), (inv_q S s (good_inv s G)).
    assert (X : (r < length (sy_dq S))%nat -> nleb (gapv S' s' r) (Fin (sy_tol S')) = nleb (gapv S s r) (Fin (sy_tol S))) by (intros L; apply gap_test; auto).
    rewrite (sc_colsum Rr Dc HR HD _ _ r HP). split; intros (L & A & B); rewrite ?X in *; auto.
  Qed.
  Lemma regular_sim s s' : good s -> sim s s' -> regular S s -> regular S' s'.
  Proof.
    intros G H [R1 R2]. split.
    - intros r c v' Hr Hc Hv. apply (closed_sim s s' r G H) in Hr. apply (closed_sim s s' c G H) in Hc.
      destruct (sc_fin Rr Dc _ _ r c v' HP Hv) as (v & Hv' & T). destruct (R1 r c v Hr Hc Hv') as (q & ->).
      apply t_fin_r in T. destruct T as (q' & -> & _). eauto.
    - intros y Y1 Y2 r. set (z := map (fun c => nth c y 0 / Dc c) (seq 0 (length y))).
      assert (Nz : forall c, nth c z 0 == nth c y 0 / Dc c).
      { intros c. unfold z. rewrite nth_map_seq. destruct (Nat.ltb_spec c (length y)); [reflexivity|]. rewrite nth_overflow by lia. specialize (HD c). field. lra. }
      assert (Zz : forall c, nth c z 0 == 0).
      { apply R2.
        - intros c Hc. rewrite Nz, Y1; [field; specialize (HD c); lra|]. rewrite (closed_sim s s' c G H). exact Hc.
        - intros c Hc. assert (E : product (sy_P S') y c == Rr c * 1 * product (sy_P S) z c).
          { apply (sc_product Rr Dc HD 1 _ _ z y c HP). intros j. rewrite Nz. field. specialize (HD j). lra. }
          rewrite Y2 in E by (apply (closed_sim s s' c G H); exact Hc). specialize (HR c). symmetry in E. apply Qmult_integral in E.
          destruct E as [E|E]; [lra|exact E]. }
      specialize (Zz r). rewrite Nz in Zz. pose proof (HD r). assert (E : nth r y 0 == nth r y 0 / Dc r * Dc r) by (field; lra). rewrite E, Zz. ring.
  Qed.
  Lemma good_sized s : good s -> sized S s.
  Proof. intros G. pose proof (good_inv s G) as I. split; [apply (inv_x S s I)|]. split; [apply (inv_dx S s I)|apply (inv_q S s I)]. Qed.
  Lemma good_dx s : good s -> finite_vec (st_dx s).
  Proof.
    intros G v Hv. apply In_nth with (d := NaN) in Hv. destruct Hv as (r & Lr & <-). apply (inv_dxf S s (good_inv s G)).
    rewrite <- (inv_dx S s (good_inv s G)). exact Lr.
  Qed.
  Lemma sized_sim s s' : good s -> sim s s' -> sized S' s'.
  Proof.
    intros G H. destruct (good_sized s G) as (A & B & C). unfold sized. rewrite Hlen, (sim_lx _ _ H), (sim_ld _ _ H), (sim_lq _ _ H). auto.
  Qed.
  Lemma dx_sim s s' : good s -> sim s s' -> regular S s ->
    finite_vec (dxn lsolve S s) /\ finite_vec (dxn lsolve' S' s') /\ length (dxn lsolve S s) = length (sy_dq S) /\ length (dxn lsolve' S' s') = length (sy_dq S) /\
    (forall r, times (Dc r * / lam) (nth r (dxn lsolve S s) NaN) (nth r (dxn lsolve' S' s') NaN)) /\
    (forall r, ~ closed S s r -> nth r (vals (dxn lsolve S s)) 0 == 0) /\
    (forall r, closed S s r -> product (sy_P S) (vals (dxn lsolve S s)) r == dqr S r).
  Proof.
    intros G H R. pose proof (regular_sim s s' G H R) as R'. pose proof (sized_sim s s' G H) as Z'.
    destruct (increment_solves lsolve S s exact nums dq_fin_vec (good_sized s G) (good_dx s G) R) as (F & Y1 & Y2).
    destruct (increment_solves lsolve' S' s' exact' nums' dq_fin_vec' Z' (sim_d _ _ H) R') as (F' & Y1' & Y2').
    assert (L : length (dxn lsolve S s) = length (sy_dq S)) by (apply dxn_length, (good_inv s G)).
    assert (L' : length (dxn lsolve' S' s') = length (sy_dq S)).
    { rewrite dxn_eq, scatter_length, map_length, (sim_ld _ _ H). apply (inv_dx S s (good_inv s G)). }
    set (y := vals (dxn lsolve S s)) in *. set (y' := vals (dxn lsolve' S' s')) in *.
    assert (Ly : length y = length (sy_dq S)) by (unfold y, vals; rewrite map_length; exact L).
    assert (Ly' : length y' = length (sy_dq S)) by (unfold y', vals; rewrite map_length; exact L').
    set (w := map (fun r => Dc r * / lam * nth r y 0) (seq 0 (length (sy_dq S)))).
    assert (Nw : forall r, nth r w 0 == Dc r * / lam * nth r y 0).
    { intros r. unfold w. rewrite nth_map_seq. destruct (Nat.ltb_spec r (length (sy_dq S))); [reflexivity|]. rewrite (nth_overflow y) by lia. ring. }
    set (d := map (fun r => nth r y' 0 - 1 * nth r w 0) (seq 0 (length (sy_dq S)))).
    assert (Nd : forall r, nth r d 0 == nth r y' 0 - 1 * nth r w 0).
    { intros r. unfold d. rewrite nth_map_seq. destruct (Nat.ltb_spec r (length (sy_dq S))) as [Lr|Lr]; [reflexivity|].
      rewrite Nw, (nth_overflow y), (nth_overflow y') by lia. ring. }
    assert (Zd : forall r, nth r d 0 == 0).
    { apply R'.
      - intros r Hr. rewrite Nd, Nw, Y1' by auto. rewrite Y1; [ring|]. intros C. apply Hr. apply (closed_sim s s' r G H). exact C.
      - intros r Hr. rewrite (product_linear (sy_P S') y' w d 1 r Nd), (Y2' r Hr).
        rewrite (sc_product Rr Dc HD (/ lam) _ _ y w r HP Nw). apply (closed_sim s s' r G H) in Hr. rewrite (Y2 r Hr).
        rewrite (t_qof _ _ _ (Hdq r)). ring. }
    split; [exact F|]. split; [exact F'|]. split; [exact L|]. split; [exact L'|]. split; [|split; [exact Y1|exact Y2]].
    intros r. destruct (Nat.lt_ge_cases r (length (sy_dq S))) as [Lr|Lr].
    - assert (L1 : (r < length (dxn lsolve S s))%nat) by (rewrite L; exact Lr). assert (L2 : (r < length (dxn lsolve' S' s'))%nat) by (rewrite L'; exact Lr).
      destruct (F _ (nth_In _ NaN L1)) as (q & E). destruct (F' _ (nth_In _ NaN L2)) as (q' & E').
      rewrite E, E'. simpl. specialize (Zd r). rewrite Nd, Nw in Zd. unfold y, y', vals in Zd. rewrite !nth_qof, E, E' in Zd. simpl in Zd. lra.
    - rewrite (nth_overflow (dxn lsolve S s)), (nth_overflow (dxn lsolve' S' s')) by (rewrite ?L, ?L'; exact Lr). exact Logic.I.
  Qed.
  Lemma active_sim s s' : good s -> sim s s' ->
    active S' (gaps (sy_P S') (st_x s') (st_q s')) = active S (gaps (sy_P S) (st_x s) (st_q s)).
  Proof.
    intros G H. destruct (good_sized s G) as (_ & _ & L). destruct (sized_sim s s' G H) as (_ & _ & L').
    assert (Len : forall T d, length (active T d) = length d).
    { intros T d. unfold active. rewrite map_length, combine_length, seq_length. lia. }
    apply nth_ext with (d := false) (d' := false); [rewrite !Len, !gaps_length; apply (sim_lq _ _ H)|].
    intros r _. pose proof (active_iff S s L r) as A. pose proof (active_iff S' s' L' r) as A'. pose proof (closed_sim s s' r G H) as C.
    destruct (nth r (active S' _) false), (nth r (active S _) false); auto; exfalso.
    - assert (X : true = true) by reflexivity. apply A', C, A in X. discriminate X.
    - assert (X : true = true) by reflexivity. apply A, C, A' in X. discriminate X.
  Qed.
  Lemma error_zero T s dx : finite_vec dx -> length dx = length (sy_dq T) ->
    (forall r c v, In (r, c, v) (sy_P T) -> (r < length (sy_dq T) /\ c < length (sy_dq T))%nat) ->
    finite_vec (sy_dq T) -> length (st_q s) = length (sy_dq T) -> regular T s -> (forall r, ~ closed T s r -> nth r (vals dx) 0 == 0) ->
    (forall r, closed T s r -> product (sy_P T) (vals dx) r == dqr T r) ->
    exists e, error2 T (active T (gaps (sy_P T) (st_x s) (st_q s))) dx = Fin e /\ e == 0.
  Proof.
    intros F L ID FQ LQ [R1 _] Y1 Y2. unfold error2. set (mask := active T _). set (PM := filter _ (sy_P T)).
    assert (AC : forall r, nth r mask false = true <-> closed T s r) by (intros r; apply active_iff; exact LQ).
    assert (X : forall r, nth r mask false = true -> exists e, nmul (nsub (matvec PM dx r) (nth r (sy_dq T) NaN)) (nsub (matvec PM dx r) (nth r (sy_dq T) NaN)) = Fin e /\ e == 0).
    { intros r Hr. assert (FR : fin_row PM r).
      { intros c v Hv. apply filter_In in Hv. destruct Hv as [Hv E]. cbn [fst snd] in E. apply andb_true_iff in E. destruct E as [_ E].
        apply (R1 r c v); auto; apply AC; auto. }
      assert (ID' : forall r c v, In (r, c, v) PM -> (r < length (sy_dq T) /\ c < length (sy_dq T))%nat) by (intros i c v Hv; apply filter_In in Hv; apply (ID i c v), Hv).
      assert (FX : forall c, (c < length (sy_dq T))%nat -> fin (nth c dx NaN)) by (intros c Lc; apply F, nth_In; lia).
      pose proof (matvec_fin PM (length (sy_dq T)) ID' dx r L FX FR) as M. fold (vals dx) in M. rewrite M.
      assert (Lr : (r < length (sy_dq T))%nat).
      { apply AC in Hr. apply closed_gap in Hr. rewrite <- LQ. apply Hr. }
      destruct (FQ (nth r (sy_dq T) NaN) (nth_In _ _ Lr)) as (b & Eb). pose proof (Y2 r (proj1 (AC r) Hr)) as Y. unfold dqr in Y. rewrite Eb in Y |- *. simpl in Y.
      assert (P0 : product PM (vals dx) r == b).
      { rewrite <- Y. apply (product_filter (sy_P T) mask (vals dx) r Hr). intros c Hc. apply Y1. intros C. apply AC in C. congruence. }
      simpl. eexists. split; [reflexivity|]. rewrite P0. ring. }
    assert (W : forall l, (forall r, In r l -> nth r mask false = true) ->
      exists e, nsum (map (fun r => nmul (nsub (matvec PM dx r) (nth r (sy_dq T) NaN)) (nsub (matvec PM dx r) (nth r (sy_dq T) NaN))) l) = Fin e /\ e == 0).
    { induction l as [|r l IH]; intros HL; simpl; [exists 0; split; reflexivity|].
      destruct (X r (HL r (or_introl eq_refl))) as (e & E & Ze). destruct IH as (e' & E' & Ze'); [intros; apply HL; right; auto|].
      rewrite E, E'. exists (e + e'). split; [reflexivity|]. lra. }
    apply W. intros r Hr. apply filter_In in Hr. apply Hr.
  Qed.
  Lemma err_ok e t : e == 0 -> 0 <= t -> err_gt (Fin e) t = false.
  Proof.
    intros E T. unfold err_gt. assert (A : Qltb t 0 = false) by (destruct (Qltb t 0) eqn:A; auto; qb; lra). rewrite A. simpl.
    destruct (Qltb (sq t) e) eqn:B; auto. qb. unfold sq in B. assert (0 <= t * t) by (apply Qmult_le_0_compat; lra). lra.
  Qed.
  Lemma sim_ratios (l : list (num * num)) : forall l' : list (num * num),
    Forall2 (fun p p' => (nltb (Fin (sy_tol S')) (fst p') && nltb (Fin 0) (snd p')) = (nltb (Fin (sy_tol S)) (fst p) && nltb (Fin 0) (snd p)) /\
      times lam (ndiv (fst p) (snd p)) (ndiv (fst p') (snd p'))) l l' ->
    Forall2 (times lam) (map (fun p => ndiv (fst p) (snd p)) (filter (fun p => nltb (Fin (sy_tol S)) (fst p) && nltb (Fin 0) (snd p)) l))
      (map (fun p => ndiv (fst p) (snd p)) (filter (fun p => nltb (Fin (sy_tol S')) (fst p) && nltb (Fin 0) (snd p)) l')).
  Proof.
    intros l' H. induction H as [|p p' l l' [E T] H IH]; [constructor|]. cbn [filter]. rewrite E. destruct (nltb (Fin (sy_tol S)) (fst p) && nltb (Fin 0) (snd p)); cbn [map]; [constructor; [exact T|exact IH]|exact IH].
  Qed.
  Lemma sim_min l l' : Forall2 (times lam) l l' -> forall m m', times lam m m' -> times lam (min_from m l) (min_from m' l').
  Proof.
    induction 1 as [|y y' l l' Hy H IH]; intros m m' Hm; simpl; auto. apply IH. rewrite (t_ltb lam y y' m m') by auto. destruct (nltb y m); auto.
  Qed.
  Lemma move_at (l d : list num) m r : length d = length l ->
    nth r (map (fun p => nadd (fst p) (nmul (snd p) m)) (combine l d)) NaN = nadd (nth r l NaN) (nmul (nth r d NaN) m).
  Proof.
    intros L. rewrite nth_of, nth_error_map, combine_nth_eq, (nth_of l), (nth_of d).
    destruct (nth_error l r) eqn:E, (nth_error d r) eqn:F; simpl; auto.
    apply nth_error_None in F. assert (r < length l)%nat by (apply nth_error_Some; congruence). lia.
  Qed.
  Theorem step_sim s s' : good s -> sim s s' -> regular S s ->
    match step lsolve S s, step lsolve' S' s' with
    | None, None => True
    | Some t, Some t' => sim t t' /\ good t
    | _, _ => False
    end.
  Proof.
    intros G H R. pose proof (good_inv s G) as I. destruct (good_sized s G) as (LX & LDX & LQ). destruct (sized_sim s s' G H) as (LX' & LDX' & LQ').
    destruct (dx_sim s s' G H R) as (F & F' & L & L' & T & Y1 & Y2). pose proof (regular_sim s s' G H R) as R'.
    destruct (increment_solves lsolve' S' s' exact' nums' dq_fin_vec' (sized_sim s s' G H) (sim_d _ _ H) R') as (_ & Y1' & Y2').
    assert (IDX' : forall r c v, In (r, c, v) (sy_P S') -> (r < length (sy_dq S') /\ c < length (sy_dq S'))%nat).
    { intros r c v Hv. rewrite Hlen. destruct (sc_fin Rr Dc _ _ r c v HP Hv) as (v0 & Hv0 & _). apply (idx r c v0 Hv0). }
    assert (FA : forall v, In v (answer lsolve S s) -> fin v).
    { intros v Hv. destruct (solved lsolve exact S nums dq_fin_vec s LQ R) as (FA & _). apply FA. exact Hv. }
    assert (SF : forall t, step lsolve S s = Some t -> good t).
    { intros t E. destruct (step_fin lsolve S idx rows dqfin lens s I FA t E) as (k & M & I').
      pose proof M as (_ & MX & MQ & _ & _ & _ & _ & _ & _ & _). split; [exact I'| |].
      - intros r Lr. apply (MQ r); [lia|]. apply (good_q s G r Lr).
      - intros r Lr FR. assert (Ln : (r < length (sy_dq S))%nat) by lia.
        rewrite (move_gap S s t _ k r M Ln (good_q s G r Lr)), (good_bal s G r Lr FR).
        assert (V0 : V S (map qof (dxn lsolve S s)) r == 0).
        { destruct (act_dec S s r) as [A|A].
          - unfold V. unfold vals in Y2. rewrite Y2 by (apply (active_iff S s LQ r); exact A). ring.
          - apply (idle_row S idx sym rows zerodq s _ r I Ln FR (good_q s G r Lr) A). rewrite (good_bal s G r Lr FR). exact tol0. }
        rewrite V0. ring. }
    specialize (fun t => SF t). unfold step in *. pose proof (active_sim s s' G H) as EA. rewrite EA in *.
    pose proof (error_zero S s (dxn lsolve S s) F L idx dq_fin_vec LQ R Y1 Y2) as (e & Ee & Ze).
    pose proof (error_zero S' s' (dxn lsolve' S' s') F' ltac:(lia) IDX' dq_fin_vec' LQ' R' Y1' Y2') as (e' & Ee' & Ze').
    unfold dxn in Ee, Ee', T, L, L', F, F'. rewrite EA in Ee', T, L', F'.
    set (mask := active S (gaps (sy_P S) (st_x s) (st_q s))) in *.
    set (dx := increment lsolve S s mask) in *. set (dx' := increment lsolve' S' s' mask) in *. rewrite Ee, Ee' in *.
    rewrite (err_ok e _ Ze err0), (err_ok e' _ Ze' err0') in *. clear Ee Ee'.
    assert (RT : Forall2 (times lam) (ratios S (gaps (sy_P S) (st_x s) (st_q s)) (gaps (sy_P S) dx (sy_dq S)))
      (ratios S' (gaps (sy_P S') (st_x s') (st_q s')) (gaps (sy_P S') dx' (sy_dq S')))).
    { unfold ratios. apply sim_ratios. apply Forall2_nth with (d := (NaN, NaN)) (d' := (NaN, NaN)).
      - rewrite !combine_length, !gaps_length. rewrite LQ, LQ', Hlen. reflexivity.
      - intros r Lr. rewrite combine_length, !gaps_length in Lr. rewrite !combine_nth by (rewrite !gaps_length; congruence). cbn [fst snd].
        assert (G1 : nth r (gaps (sy_P S) (st_x s) (st_q s)) NaN = gapv S s r) by (rewrite nth_of, gapv_gaps by lia; reflexivity).
        assert (G2 : nth r (gaps (sy_P S') (st_x s') (st_q s')) NaN = gapv S' s' r) by (rewrite nth_of, gapv_gaps by lia; reflexivity).
        assert (NV : forall P x q, (r < length q)%nat -> nth r (gaps P x q) NaN = nsub (nth r q NaN) (matvec P x r)).
        { intros P0 x q Lq. rewrite nth_of, gaps_nth, (nth_of q). destruct (nth_error q r) eqn:E; reflexivity. }
        rewrite G1, G2, (NV (sy_P S) dx), (NV (sy_P S') dx') by lia.
        assert (TV : times (Rr r * / lam) (nsub (nth r (sy_dq S) NaN) (matvec (sy_P S) dx r)) (nsub (nth r (sy_dq S') NaN) (matvec (sy_P S') dx' r))).
        { apply t_sub; [apply Hdq|]. apply (sc_matvec Rr Dc HR HD); auto. apply ilam. }
        assert (PL : 0 < Rr r * / lam) by (apply Qmult_lt_0_compat; [apply HR|apply ilam]). split.
        + rewrite (t_pos _ _ _ PL TV). destruct (gap_test s s' r G H ltac:(lia)) as [_ ->]. reflexivity.
        + apply (t_ext (Rr r / (Rr r * / lam))); [specialize (HR r); field; split; lra|]. apply t_div; auto. apply sim_gap. exact H. }
    destruct RT as [|a a' l l' Ha RT]; cbn [py_min]; [exact Logic.I|].
    cbn [py_min] in SF. pose proof (sim_min l l' RT a a' Ha) as TM. set (mm := min_from a l) in *. set (mm' := min_from a' l') in *.
    pose proof (t_opp _ _ _ TM) as TU. split; [|apply SF; reflexivity].
    assert (LDX2 : length dx = length (st_x s)) by lia. assert (LDX2' : length dx' = length (st_x s')) by lia.
    assert (LDQ : length (sy_dq S) = length (st_q s)) by lia. assert (LDQ' : length (sy_dq S') = length (st_q s')) by lia.
    split; cbn [st_x st_q st_dx st_Z st_rl st_mask].
    - rewrite !map_length, !combine_length. lia.
    - lia.
    - rewrite !map_length, !combine_length. lia.
    - intros r. rewrite !move_at by assumption. apply t_add; [apply (sim_x _ _ H)|].
      apply (t_ext (Dc r * / lam * lam)); [field; lra|]. apply t_mul; auto. apply Qmult_lt_0_compat; [apply HD|apply ilam].
    - exact F'.
    - intros r. rewrite !move_at by assumption. apply t_add; [apply (sim_q _ _ H)|].
      apply (t_ext (Rr r * / lam * lam)); [field; lra|]. apply t_mul; auto. apply Qmult_lt_0_compat; [apply HR|apply ilam].
    - apply t_add; [apply (sim_Z _ _ H)|exact TU].
    - apply (t_ext (lam / lam)); [field; lra|]. apply t_div; auto. apply t_add; [apply (sim_Z _ _ H)|exact TU].
    - reflexivity.
  Qed.
  Theorem run_sim fuel : forall s s', good s -> sim s s' ->
    (forall k t, nth_error (s :: run lsolve S fuel s) k = Some t -> (k < fuel)%nat -> nltb (st_rl t) (sy_packing S) = true -> regular S t) ->
    Forall2 sim (run lsolve S fuel s) (run lsolve' S' fuel s').
  Proof.
    induction fuel as [|fuel IH]; intros s s' G H R; [constructor|]. cbn [run].
    assert (E : nltb (st_rl s) (sy_packing S) = nltb (st_rl s') (sy_packing S')).
    { rewrite Hpack. apply nltb_eqv; [|apply neqv_refl]. apply t_eqv. apply (sim_rl _ _ H). }
    rewrite <- E. destruct (nltb (st_rl s) (sy_packing S)) eqn:B; [|constructor].
    pose proof (step_sim s s' G H (R 0%nat s eq_refl ltac:(lia) B)) as T.
    destruct (step lsolve S s) as [t|] eqn:E1, (step lsolve' S' s') as [t'|]; try contradiction; constructor; [apply T|].
    apply IH; [apply T|apply T|]. intros k u Hk Lk. apply (R (Datatypes.S k) u); [|lia].
    cbn [run]. rewrite B, E1. exact Hk.
  Qed.
End Runs.

(** *** the assembled systems *)
Section Data.
  Variable U : units.
  Hypothesis HU : units_ok U.
  Let lam := un_len U.
  Let c := un_mod U.
  Lemma lpos : 0 < lam.
  Proof. apply HU. Qed.
  Lemma cpos : 0 < c.
  Proof. apply HU. Qed.
  Definition scq (x y : Q) : Prop := y == lam * x.

  Lemma sc_min a b a' b' : scq a a' -> scq b b' -> scq (Qmin a b) (Qmin a' b').
  Proof.
    unfold scq. intros A B. pose proof lpos as L. destruct (Q.min_spec a b) as [[H E]|[H E]], (Q.min_spec a' b') as [[H' E']|[H' E']]; rewrite E, E'; auto.
    - apply (Qmult_lt_l a b lam L) in H. lra.
    - apply (Qmult_le_l b a lam L) in H. lra.
  Qed.
  Lemma sc_max a b a' b' : scq a a' -> scq b b' -> scq (Qmax a b) (Qmax a' b').
  Proof.
    unfold scq. intros A B. pose proof lpos as L. destruct (Q.max_spec a b) as [[H E]|[H E]], (Q.max_spec a' b') as [[H' E']|[H' E']]; rewrite E, E'; auto.
    - apply (Qmult_lt_l a b lam L) in H. lra.
    - apply (Qmult_le_l b a lam L) in H. lra.
  Qed.
  Lemma sc_minl x x' l l' : scq x x' -> Forall2 scq l l' -> scq (qmin_list x l) (qmin_list x' l').
  Proof. intros X H. induction H; simpl; auto. apply sc_min; auto. Qed.
  Lemma sc_maxl x x' l l' : scq x x' -> Forall2 scq l l' -> scq (qmax_list x l) (qmax_list x' l').
  Proof. intros X H. induction H; simpl; auto. apply sc_max; auto. Qed.
  Lemma sc_interp a b lo hi x a' b' lo' hi' x' : scq a a' -> scq b b' -> scq lo lo' -> scq hi hi' -> scq x x' ->
    scq (interp2 a b lo hi x) (interp2 a' b' lo' hi' x').
  Proof.
    unfold scq. intros A B Lo Hi X. pose proof lpos as L. unfold interp2.
    assert (E : Qleb b' x' = Qleb b x).
    { destruct (Qleb b' x') eqn:Y, (Qleb b x) eqn:Z; auto; qb; exfalso.
      - apply (Qmult_lt_l x b lam L) in Z. lra.
      - apply (Qmult_le_l b x lam L) in Z. lra. }
    rewrite E. destruct (Qleb b x); auto. unfold Qdiv.
    assert (D1 : / (b' - a') == / lam * / (b - a)) by (rewrite <- Qinv_mult_distr; rewrite A, B; apply Qinv_comp; ring).
    rewrite D1, Hi, Lo, X, A. generalize (/ (b - a)) as k. intros k. field. lra.
  Qed.
  Lemma sc_rescale lmin lmin' lmax lmax' ls ls' out out' : option_in U lmin lmin' -> option_in U lmax lmax' -> Forall2 scq ls ls' ->
    rescale lmin lmax ls = Ok out -> rescale lmin' lmax' ls' = Ok out' -> Forall2 scq out out'.
  Proof.
    intros A B H E E'. unfold rescale in *. destruct H as [|l0 l0' t t' H0 H]; [discriminate|]. injection E as <-. injection E' as <-.
    pose proof (sc_minl _ _ _ _ H0 H) as MN. pose proof (sc_maxl _ _ _ _ H0 H) as MX.
    set (lo := match lmin with Some v => v | None => qmin_list l0 t end). set (lo' := match lmin' with Some v => v | None => qmin_list l0' t' end).
    set (hi := match lmax with Some v => v | None => qmax_list l0 t end). set (hi' := match lmax' with Some v => v | None => qmax_list l0' t' end).
    assert (Lo : scq lo lo') by (unfold lo, lo'; destruct lmin, lmin'; simpl in A; try contradiction; auto).
    assert (Hi : scq hi hi') by (unfold hi, hi'; destruct lmax, lmax'; simpl in B; try contradiction; auto).
    clearbody lo lo' hi hi'. assert (G : Forall2 scq (l0 :: t) (l0' :: t')) by (constructor; auto). clear H H0.
    change (Forall2 scq (map (interp2 (Qmin (qmin_list l0 t) lo) (Qmax (qmax_list l0 t) hi) lo hi) (l0 :: t))
      (map (interp2 (Qmin (qmin_list l0' t') lo') (Qmax (qmax_list l0' t') hi') lo' hi') (l0' :: t'))).
    induction G; cbn [map]; constructor; auto. apply sc_interp; auto; [apply sc_min; auto|apply sc_max; auto].
  Qed.

  Lemma mulpos a b : 0 < a -> 0 < b -> 0 < a * b.
  Proof. apply Qmult_lt_0_compat. Qed.
  Lemma divpos a b : 0 < a -> 0 < b -> 0 < a / b.
  Proof. intros A B. apply Qlt_shift_div_l; auto. lra. Qed.
  Ltac pos := repeat first [apply divpos | apply mulpos | exact lpos | exact cpos | lra].
  Lemma t_fin2 a p q : q == a * p -> times a (Fin p) (Fin q).
  Proof. auto. Qed.
  Ltac fld := field; pose proof lpos; pose proof cpos; repeat split; lra.
  Lemma sc_k0 f f' l l' : fiber_seen U f f' -> scq l l' -> times (c * lam) (k0_of f l) (k0_of f' l').
  Proof.
    intros (Hb & Hh & HG & HE) Hl. unfold k0_of. fold c in HG, HE. fold lam in Hb, Hh.
    apply (t_ext ((1 * (c * lam * lam)) / lam / 1)); [fld|]. apply t_div; [pos|pos| |].
    - apply t_div; [pos|pos| |exact Hl]. apply t_mul; [pos|pos|apply t_one|]. apply t_mul; [pos|pos| |exact Hh]. apply t_mul; [pos|pos|exact HG|exact Hb].
    - apply t_add; [apply t_one|]. apply (t_ext ((c / c) * ((lam / lam) * (lam / lam)))); [fld|].
      apply t_mul; [pos|pos| |]; [apply t_div; auto; pos|]. apply t_mul; [pos|pos| |]; apply t_div; auto; pos.
  Qed.
  Lemma sc_k1 cp cp' f f' l l' : cp' == cp -> fiber_seen U f f' -> scq l l' -> times (c * lam * lam) (k1_of cp f l) (k1_of cp' f' l').
  Proof.
    intros Hc Hf Hl. unfold k1_of. apply (t_ext ((c * lam * lam) / 1 * 1)); [fld|]. apply t_mul; [pos|pos| |simpl; lra].
    apply t_div; [pos|pos| |apply t_one]. apply t_mul; [pos|pos|apply sc_k0; auto|exact Hl].
  Qed.
  Lemma sc_sq x x' : scq x x' -> times (lam * lam) (Fin (x * x)) (Fin (x' * x')).
  Proof. unfold scq. intros H. simpl. rewrite H. ring. Qed.
  Lemma sc_k2 f f' l l' : fiber_seen U f f' -> scq l l' -> times (c * lam * lam * lam) (k2_of f l) (k2_of f' l').
  Proof.
    intros Hf Hl. pose proof (sc_k0 f f' l l' Hf Hl) as K. destruct Hf as (_ & Hh & HG & HE). fold c in HG, HE. fold lam in Hh.
    unfold k2_of. apply t_add.
    - apply (t_ext ((c * lam * (lam * lam)) / 1)); [fld|]. apply t_div; [pos|pos| |apply t_one]. apply t_mul; [pos|pos|exact K|apply sc_sq; exact Hl].
    - apply (t_ext ((c * lam * (c / c)) * (lam * lam))); [fld|]. apply t_mul; [pos|pos| |apply sc_sq; exact Hh].
      apply t_mul; [pos|pos|exact K|]. apply t_div; auto; pos.
  Qed.
  Lemma sc_k4 f f' l l' : fiber_seen U f f' -> scq l l' -> times (c * lam * lam * lam) (k4_of f l) (k4_of f' l').
  Proof.
    intros Hf Hl. unfold k4_of. apply t_sub; [apply sc_k2; auto|]. unfold k3_of.
    apply (t_ext ((c * lam * (lam * lam)) / 1)); [fld|]. apply t_div; [pos|pos| |apply t_one]. apply t_mul; [pos|pos|apply sc_k0; auto|apply sc_sq; exact Hl].
  Qed.
  (** factors of the rows and of the unknowns of K *)
  Definition kr (r : nat) : Q := if Nat.even r then c * lam * lam else c * lam * lam * lam.
  Definition kd (r : nat) : Q := if Nat.even r then lam else 1.
  Lemma even2 i : Nat.even (2 * i) = true.
  Proof. rewrite Nat.even_mul. reflexivity. Qed.
  Lemma odd2 i : Nat.even (2 * i + 1) = false.
  Proof. rewrite Nat.even_add, even2. reflexivity. Qed.
  Lemma sc_block cp cp' i j f f' l l' : cp' == cp -> fiber_seen U f f' -> scq l l' -> mat_sc kr kd (block cp i j f l) (block cp' i j f' l').
  Proof.
    intros Hc Hf Hl. pose proof (sc_k0 f f' l l' Hf Hl) as K0. pose proof (sc_k1 cp cp' f f' l l' Hc Hf Hl) as K1.
    pose proof (sc_k2 f f' l l' Hf Hl) as K2. pose proof (sc_k4 f f' l l' Hf Hl) as K4. unfold block.
    pose proof (t_opp _ _ _ K0) as K0'. pose proof (t_opp _ _ _ K1) as K1'. pose proof (t_opp _ _ _ K4) as K4'.
    set (k0 := k0_of f l) in *. set (k1 := k1_of cp f l) in *. set (k2 := k2_of f l) in *. set (k4 := k4_of f l) in *.
    set (k0' := k0_of f' l') in *. set (k1' := k1_of cp' f' l') in *. set (k2' := k2_of f' l') in *. set (k4' := k4_of f' l') in *. clearbody k0 k1 k2 k4 k0' k1' k2' k4'.
    pose proof lpos as LP.
    repeat (apply Forall2_cons; [split; [reflexivity|]; cbn [fst snd]; unfold kr, kd; rewrite ?even2, ?odd2;
      first [apply (t_ext (c * lam)); [field; lra|assumption] | apply (t_ext (c * lam * lam)); [field; lra|assumption] |
             apply (t_ext (c * lam * lam * lam)); [field; lra|assumption]]|]).
    apply Forall2_nil.
  Qed.

  Variables m m' : qmat.
  Hypothesis Hm : mat_seen U m m'.
  Variables g g' : mesh_df.
  Hypothesis Hg : mesh_seen U g g'.
  Lemma Forall2_at {A B} (Q : A -> B -> Prop) l l' : Forall2 Q l l' -> forall n d d', Q d d' -> Q (nth n l d) (nth n l' d').
  Proof. induction 1; intros [|n] d d' H'; simpl; auto. Qed.
  Lemma fiber_nth i : fiber_seen U (nth i (q_rows m) fiber0) (nth i (q_rows m') fiber0).
  Proof. apply Forall2_at; [apply Hm|]. unfold fiber_seen. cbn [fiber0 ql qb qh qx qy qz qu qv qw qG qE times]. repeat split; ring. Qed.
  Lemma node_nth i : ns (nth i (map snd (g_rows g')) node0) == lam * ns (nth i (map snd (g_rows g)) node0) /\
    nz (nth i (map snd (g_rows g')) node0) == lam * nz (nth i (map snd (g_rows g)) node0).
  Proof.
    revert i. pose proof Hg as G. unfold mesh_seen in G. induction G as [|r r' l l' (_ & _ & _ & _ & A & B) H IH]; intros [|i]; cbn [map nth].
    - cbn. split; ring.
    - cbn. split; ring.
    - split; assumption.
    - apply IH.
  Qed.
  Definition elem_sc (e e' : elem) : Prop := ei e' = ei e /\ ej e' = ej e /\ fiber_seen U (ef e) (ef e') /\ scq (el e) (el e').
  Lemma sc_elements : Forall2 elem_sc (elements m (g_rows g)) (elements m' (g_rows g')).
  Proof.
    unfold elements. set (ds := map snd (g_rows g)). set (ds' := map snd (g_rows g')).
    assert (ND : forall i, ns (node_at ds' i) == lam * ns (node_at ds i)) by (intros i; apply node_nth).
    pose proof Hg as G. unfold mesh_seen in G. clearbody ds ds'. induction G as [|r r' l l' (A1 & A2 & A3 & _) H IH]; [constructor|]. cbn [filter]. rewrite A1, A3.
    destruct (Z.ltb (fst r) (nbeam (snd r))); [|exact IH]. cbn [map]. constructor; [|exact IH]. rewrite A1, A2, A3.
    split; [reflexivity|]. split; [reflexivity|]. cbn [ef el]. split; [apply fiber_nth|]. unfold scq. rewrite !ND. ring.
  Qed.
  Lemma sc_stiffness lmin lmin' lmax lmax' cp cp' K K' : option_in U lmin lmin' -> option_in U lmax lmax' -> cp' == cp ->
    stiffness m g lmin lmax cp = Ok K -> stiffness m' g' lmin' lmax' cp' = Ok K' -> mat_sc kr kd K K'.
  Proof.
    intros A B Hc. unfold stiffness. destruct (mat_check (df_of m)); [|discriminate]. destruct (mesh_check g); [|discriminate]. cbn [bind].
    destruct (mat_check (df_of m')); [|intros _; discriminate]. destruct (mesh_check g'); [|intros _; discriminate]. cbn [bind].
    destruct (negb _); [discriminate|]. destruct (negb _); [intros _; discriminate|].
    pose proof sc_elements as E. set (es := elements m (g_rows g)) in *. set (es' := elements m' (g_rows g')) in *.
    destruct (rescale lmin lmax (map el es)) as [ls|] eqn:R; [|discriminate]. destruct (rescale lmin' lmax' (map el es')) as [ls'|] eqn:R'; [|intros _; discriminate].
    cbn [bind]. intros X Y. injection X as <-. injection Y as <-.
    assert (L : Forall2 scq ls ls').
    { apply (sc_rescale lmin lmin' lmax lmax' (map el es) (map el es')); auto. clear - E. induction E as [|e e' l l' (_ & _ & _ & H) E IH]; cbn [map]; constructor; auto. }
    clear R R'. clearbody es es'. revert ls ls' L. induction E as [|e e' es es' (E1 & E2 & E3 & E4) E IH]; intros ls ls' L; cbn [combine flat_map]; [constructor|].
    destruct L as [|l l' ls ls' Hl L]; cbn [combine flat_map]; [constructor|]. apply Forall2_app; [|apply IH; exact L].
    cbn [fst snd]. rewrite E1, E2. apply sc_block; auto.
  Qed.
  Lemma same_pairs : cons_pairs (g_rows g') = cons_pairs (g_rows g).
  Proof.
    unfold cons_pairs. pose proof Hg as G. unfold mesh_seen in G. induction G as [|r r' l l' (A1 & _ & _ & A4 & _) H IH]; [reflexivity|]. cbn [filter]. rewrite A1, A4.
    destruct (Z.leb (fst r) (ncons (snd r))); [|exact IH]. cbn [map]. rewrite A1, A4, IH. reflexivity.
  Qed.
  Lemma same_len : length (g_rows g') = length (g_rows g).
  Proof. pose proof Hg as G. unfold mesh_seen in G. induction G; simpl; auto. Qed.
  Lemma sc_hcol : Forall2 scq (h_column m (map snd (g_rows g))) (h_column m' (map snd (g_rows g'))).
  Proof.
    unfold h_column. pose proof Hg as G. unfold mesh_seen in G. induction G as [|r r' l l' (_ & A2 & _) H IH]; simpl; constructor; auto. rewrite A2.
    apply (fiber_nth (Z.to_nat (nf (snd r)))).
  Qed.
  Lemma sc_tops : Forall2 scq (tops (map snd (g_rows g)) (h_column m (map snd (g_rows g)))) (tops (map snd (g_rows g')) (h_column m' (map snd (g_rows g')))).
  Proof.
    unfold tops. pose proof sc_hcol as H. set (h := h_column m _) in *. set (h' := h_column m' _) in *. clearbody h h'. revert h h' H. pose proof Hg as G. unfold mesh_seen in G.
    induction G as [|r r' l l' (_ & _ & _ & _ & _ & B) G IH]; intros h h' H; cbn [map combine]; [constructor|].
    destruct H as [|x x' h h' Hx H]; cbn [combine map]; constructor; [|apply IH; exact H]. unfold scq in *. cbn [fst snd]. rewrite Hx, B. fold lam. ring.
  Qed.
  Lemma sc_constraint cs cs' : constraint m g = Ok cs -> constraint m' g' = Ok cs' ->
    csC cs' = csC cs /\ csdH cs' = csdH cs /\ Forall2 (times lam) (csH cs) (csH cs') /\ scq (csZ cs) (csZ cs').
  Proof.
    intros E E'. destruct (cons_inv m g cs E) as (_ & _ & _ & t0 & t & T & ->). destruct (cons_inv m' g' cs' E') as (_ & _ & _ & t0' & t' & T' & ->).
    pose proof sc_tops as ST. rewrite T, T' in ST. cbn [csC csdH csH csZ]. rewrite same_pairs. split; [reflexivity|]. split; [reflexivity|].
    assert (HZ : scq (qmax_list t0 t) (qmax_list t0' t')) by (inversion ST; subst; apply sc_maxl; auto). split; [|exact HZ].
    pose proof sc_hcol as H. set (h := h_column m _) in *. set (h' := h_column m' _) in *. set (zz := qmax_list t0 t) in *. set (zz' := qmax_list t0' t') in *.
    assert (HN : forall i, nth i h' 0 == lam * nth i h 0) by (intros i; apply (Forall2_at scq h h' H i 0 0); unfold scq; ring).
    generalize (cons_pairs (g_rows g)) as ps. induction ps as [|[i j] ps IH]; [constructor|]. cbn [flat_map]. apply Forall2_app; [|exact IH].
    pose proof (node_nth i) as [_ Zi]. pose proof (node_nth j) as [_ Zj]. unfold h_rows. cbn [fst snd]. unfold scq in HZ.
    constructor; [|constructor; [|constructor; [|constructor]]].
    - simpl. rewrite Zi, HN. ring.
    - destruct (Nat.eqb i j); simpl; auto. rewrite Zi, Zj, !HN. ring.
    - simpl. rewrite Zj, HN, HZ. ring.
  Qed.
End Data.

(** *** the whole call *)
Definition rr (U : units) (nu r : nat) : Q := if Nat.ltb r nu then kr U r else un_len U.
Definition dd (U : units) (nu r : nat) : Q := if Nat.ltb r nu then kd U r else un_mod U * un_len U * un_len U.
Lemma rr_pos U nu r : units_ok U -> 0 < rr U nu r.
Proof.
  intros [L C]. unfold rr, kr. destruct (Nat.ltb r nu); [destruct (Nat.even r)|]; auto; repeat apply Qmult_lt_0_compat; auto.
Qed.
Lemma dd_pos U nu r : units_ok U -> 0 < dd U nu r.
Proof.
  intros [L C]. unfold dd, kd. destruct (Nat.ltb r nu); [destruct (Nat.even r)|]; auto; [lra|]. repeat apply Qmult_lt_0_compat; auto.
Qed.
Lemma sc_bmat U nu K K' ps : units_ok U -> mat_sc (kr U) (kd U) K K' ->
  (forall r c v, In (r, c, v) K -> (r < nu /\ c < nu)%nat) -> (forall r c v, In (r, c, v) (c_matrix ps) -> (c < nu)%nat) ->
  mat_sc (rr U nu) (dd U nu) (bmat nu K (c_matrix ps)) (bmat nu K' (c_matrix ps)).
Proof.
  intros [L M] H HK HC. unfold bmat. apply Forall2_app; [|apply Forall2_app].
  - revert HK. induction H as [|[[i j] v] e' P P' [E T] H IH]; intros HK; constructor.
    + split; [exact E|]. cbn [fst snd] in *. destruct (HK i j v (or_introl eq_refl)) as [A B]. unfold rr, dd.
      rewrite (proj2 (Nat.ltb_lt i nu) A), (proj2 (Nat.ltb_lt j nu) B). exact T.
    + apply IH. intros r c0 w Hw. apply (HK r c0 w). right. exact Hw.
  - assert (G : forall l, (forall r c v, In (r, c, v) l -> In (r, c, v) (c_matrix ps)) ->
      mat_sc (rr U nu) (dd U nu) (map (fun e : nat * nat * num => let '(r, c, v) := e in (c, (nu + r)%nat, v)) l) (map (fun e : nat * nat * num => let '(r, c, v) := e in (c, (nu + r)%nat, v)) l)).
    { induction l as [|[[i j] v] l IH]; intros Hl; constructor; [|apply IH; intros; apply Hl; right; auto].
      split; [reflexivity|]. cbn [fst snd]. pose proof (Hl i j v (or_introl eq_refl)) as Hi. unfold rr, dd, kr.
      rewrite (proj2 (Nat.ltb_lt j nu) (HC i j v Hi)), (proj2 (Nat.ltb_ge (nu + i) nu)) by lia.
      destruct (c_matrix_in ps i j v Hi) as (k & a & b & _ & D). assert (E : exists z, j = (2 * z)%nat) by (decompose [or and] D; eauto).
      destruct E as (z & ->). rewrite even2. apply (t_ext 1); [field; split; lra|]. apply t_one. }
    apply G. auto.
  - assert (G : forall l, (forall r c v, In (r, c, v) l -> In (r, c, v) (c_matrix ps)) ->
      mat_sc (rr U nu) (dd U nu) (map (fun e : nat * nat * num => let '(r, c, v) := e in ((nu + r)%nat, c, v)) l) (map (fun e : nat * nat * num => let '(r, c, v) := e in ((nu + r)%nat, c, v)) l)).
    { induction l as [|[[i j] v] l IH]; intros Hl; constructor; [|apply IH; intros; apply Hl; right; auto].
      split; [reflexivity|]. cbn [fst snd]. pose proof (Hl i j v (or_introl eq_refl)) as Hi. unfold rr, dd, kd.
      rewrite (proj2 (Nat.ltb_lt j nu) (HC i j v Hi)), (proj2 (Nat.ltb_ge (nu + i) nu)) by lia.
      destruct (c_matrix_in ps i j v Hi) as (k & a & b & _ & D). assert (E : exists z, j = (2 * z)%nat) by (decompose [or and] D; eauto).
      destruct E as (z & ->). rewrite even2. apply (t_ext 1); [field; lra|]. apply t_one. }
    apply G. auto.
Qed.
Lemma nth_firstn_or (l : list num) k i : nth i (firstn k l) NaN = if Nat.ltb i k then nth i l NaN else NaN.
Proof.
  destruct (Nat.ltb_spec i k) as [L|L]; [apply nth_firstn; exact L|]. apply nth_overflow. rewrite firstn_length. lia.
Qed.
Lemma sim_record U S S' s s' : units_ok U -> sy_nu S' = sy_nu S ->
  sim (un_len U) (rr U (sy_nu S)) (dd U (sy_nu S)) s s' -> record_in U S S' s s'.
Proof.
  intros HU En H. unfold record_in, st_u, st_f, st_H. rewrite En. set (nu := sy_nu S) in *. split; [|split; [|split; [|split; [|split; [|split]]]]].
  - intros i. rewrite !nth_firstn_or. destruct (Nat.ltb_spec (2 * i) nu) as [L|L]; [|exact I].
    apply (t_ext (dd U nu (2 * i))); [|apply (sim_x _ _ _ _ _ H)]. unfold dd, kd. rewrite (proj2 (Nat.ltb_lt (2 * i) nu) L), even2. reflexivity.
  - intros i. rewrite !nth_firstn_or. destruct (Nat.ltb_spec (2 * i + 1) nu) as [L|L]; [|exact I].
    apply (t_ext (dd U nu (2 * i + 1))); [|apply (sim_x _ _ _ _ _ H)]. unfold dd, kd. rewrite (proj2 (Nat.ltb_lt (2 * i + 1) nu) L), odd2. reflexivity.
  - apply Forall2_nth with (d := NaN) (d' := NaN); [rewrite !skipn_length, (sim_lx _ _ _ _ _ H); reflexivity|]. intros r _. rewrite !nth_skipn.
    apply (t_ext (dd U nu (nu + r))); [|apply (sim_x _ _ _ _ _ H)]. unfold dd. rewrite (proj2 (Nat.ltb_ge (nu + r) nu)) by lia. reflexivity.
  - apply Forall2_nth with (d := NaN) (d' := NaN); [rewrite !skipn_length, (sim_lq _ _ _ _ _ H); reflexivity|]. intros r _. rewrite !nth_skipn.
    apply (t_ext (rr U nu (nu + r))); [|apply (sim_q _ _ _ _ _ H)]. unfold rr. rewrite (proj2 (Nat.ltb_ge (nu + r) nu)) by lia. reflexivity.
  - apply (sim_Z _ _ _ _ _ H).
  - apply (sim_rl _ _ _ _ _ H).
  - apply (sim_mask _ _ _ _ _ H).
Qed.
Lemma nth_zeros {A} (l : list A) r : nth r (map (fun _ => Fin 0) l) NaN = if Nat.ltb r (length l) then Fin 0 else NaN.
Proof.
  rewrite nth_of, nth_error_map. destruct (Nat.ltb_spec r (length l)) as [L|L].
  - destruct (nth_error l r) eqn:E; [reflexivity|]. apply nth_error_None in E. lia.
  - rewrite (proj2 (nth_error_None l r)) by exact L. reflexivity.
Qed.
Theorem seen_solve U lsolve lsolve' m m' g g' p p' S h S' h' : units_ok U -> mat_seen U m m' -> mesh_seen U g g' -> params_in U p p' ->
  exact_solver lsolve -> exact_solver lsolve' -> right_length lsolve -> tolerances_ok p -> tolerances_ok p' -> ~ flag_set (g_attrs g) ->
  solve lsolve m g p = Ok (S, h) -> solve lsolve' m' g' p' = Ok (S', h') ->
  numbering (length (sy_dq S)) (sp_perm p) -> numbering (length (sy_dq S)) (sp_perm p') ->
  (forall k s, nth_error h k = Some s -> (k < sp_itermax p)%nat -> nltb (st_rl s) (sp_packing p) = true -> regular S s) ->
  Forall2 (record_in U S S') h h'.
Proof.
  intros HU Hm Hg (P1 & P2 & P3 & P4 & P5 & P6) X X' RL T T' NF E E' N N' R.
  destruct (solve_inv _ _ _ _ _ _ E) as (K & cs & HK & HC & ES & EH). destruct (solve_inv _ _ _ _ _ _ E') as (K' & cs' & HK' & HC' & ES' & EH').
  cbv zeta in *. rewrite (same_len U g g' Hg) in ES', EH'. set (nu := (2 * length (g_rows g))%nat) in *.
  destruct (sc_constraint U HU m m' Hm g g' Hg cs cs' HC HC') as (C1 & C2 & C3 & C4).
  pose proof (sc_stiffness U HU m m' Hm g g' Hg _ _ _ _ _ _ K K' P4 P5 P6 HK HK') as SK. rewrite C1, C2 in ES'. rewrite C1 in EH'.
  assert (LH : length (csH cs') = length (csH cs)) by (symmetry; apply (NetZP.Forall2_len _ _ _ C3)).
  assert (LQ : length (repeat (Fin 0) nu ++ csH cs) = length (repeat (Fin 0) nu ++ csdH cs)) by (rewrite !app_length; f_equal; rewrite (csH_len m g cs HC), (csdH_len m g cs HC); reflexivity).
  set (q0 := repeat (Fin 0) nu ++ csH cs) in *. set (q0' := repeat (Fin 0) nu ++ csH cs') in *.
  assert (LQ' : length q0' = length q0) by (unfold q0, q0'; rewrite !app_length; lia).
  set (s0 := init_state (bmat nu K (csC cs)) q0 (sp_tol p) (Fin (csZ cs))) in *. set (s0' := init_state (bmat nu K' (csC cs)) q0' (sp_tol p') (Fin (csZ cs'))) in *.
  pose proof (csC_eq m g cs HC) as CC.
  assert (BM : mat_sc (rr U nu) (dd U nu) (bmat nu K (csC cs)) (bmat nu K' (csC cs))).
  { rewrite CC. apply sc_bmat; auto; [intros r c v Hv; apply (K_lt m g _ _ _ K HK NF r c v Hv)|]. intros r c v Hv. rewrite <- CC in Hv. apply (C_lt m g cs HC NF r c v Hv). }
  assert (PS : sy_P S = bmat nu K (csC cs)) by (rewrite ES; reflexivity). assert (PS' : sy_P S' = bmat nu K' (csC cs)) by (rewrite ES'; reflexivity).
  assert (DS : sy_dq S = repeat (Fin 0) nu ++ csdH cs) by (rewrite ES; reflexivity). assert (DS' : sy_dq S' = repeat (Fin 0) nu ++ csdH cs) by (rewrite ES'; reflexivity).
  assert (NS : sy_nu S = nu) by (rewrite ES; reflexivity). assert (NS' : sy_nu S' = nu) by (rewrite ES'; reflexivity).
  assert (TS : sy_tol S = sp_tol p) by (rewrite ES; reflexivity). assert (TS' : sy_tol S' = sp_tol p') by (rewrite ES'; reflexivity).
  assert (KS : sy_packing S = sp_packing p) by (rewrite ES; reflexivity). assert (KS' : sy_packing S' = sp_packing p') by (rewrite ES'; reflexivity).
  assert (FS : sy_errtol S = sp_errtol p) by (rewrite ES; reflexivity). assert (FS' : sy_errtol S' = sp_errtol p') by (rewrite ES'; reflexivity).
  assert (ZS : sy_Z0 S = Fin (csZ cs)) by (rewrite ES; reflexivity). assert (ZS' : sy_Z0 S' = Fin (csZ cs')) by (rewrite ES'; reflexivity).
  destruct (call_facts _ _ _ _ _ _ E N) as (NM & _). assert (N2 : numbering (length (sy_dq S')) (sp_perm p')) by (rewrite DS', <- DS; exact N').
  destruct (call_facts _ _ _ _ _ _ E' N2) as (NM' & _).
  assert (G0 : good S s0).
  { split.
    - rewrite ES. apply (w_start m g p K cs HK HC NF).
    - intros r L. rewrite ES in L. apply (w_kq0 g p K cs r L).
    - intros r L _. rewrite ES in L |- *. apply (w_kbal0 g p K cs r L). }
  assert (QQ : forall r, times (rr U nu r) (nth r q0 NaN) (nth r q0' NaN)).
  { intros r. unfold q0, q0'. destruct (Nat.lt_ge_cases r nu) as [L|L].
    - rewrite !app_nth1 by (rewrite repeat_length; exact L). rewrite nth_of, nth_error_repeat by exact L. apply t_zero.
    - rewrite !app_nth2 by (rewrite repeat_length; exact L). rewrite !repeat_length. apply (t_ext (un_len U)); [unfold rr; rewrite (proj2 (Nat.ltb_ge r nu) L); reflexivity|].
      apply (Forall2_at (times (un_len U)) _ _ C3). exact I. }
  assert (RP : forall r, 0 < rr U nu r) by (intros r; apply rr_pos; exact HU). assert (DP : forall r, 0 < dd U nu r) by (intros r; apply dd_pos; exact HU).
  assert (RL' : forall r, (sy_nu S <= r)%nat -> rr U nu r == un_len U) by (intros r L; rewrite NS in L; unfold rr; rewrite (proj2 (Nat.ltb_ge r nu) L); reflexivity).
  assert (HT : sy_tol S' == un_len U * sy_tol S) by (rewrite TS, TS'; exact P3).
  assert (T0 : 0 <= sy_tol S) by (rewrite TS; apply T).
  assert (XX : forall r, times (dd U nu r) (nth r (st_x s0) NaN) (nth r (st_x s0') NaN)).
  { intros r. unfold s0, s0', init_state. cbn [st_x]. rewrite !nth_zeros, LQ'. destruct (Nat.ltb r (length q0)); [apply t_zero|exact I]. }
  assert (BM' : mat_sc (rr U nu) (dd U nu) (sy_P S) (sy_P S')) by (rewrite PS, PS'; exact BM).
  assert (DQ : forall r, times (rr U nu r * / un_len U) (nth r (sy_dq S) NaN) (nth r (sy_dq S') NaN)).
  { intros r. rewrite DS, DS'. destruct (Nat.lt_ge_cases r nu) as [L|L]; [rewrite !app_nth1 by (rewrite repeat_length; exact L); rewrite nth_of, nth_error_repeat by exact L; apply t_zero|].
    apply (t_ext 1); [|apply t_one]. rewrite (RL' r) by (rewrite NS; exact L). destruct HU as [HL _]. field. lra. }
  assert (ID : forall r c v, In (r, c, v) (sy_P S) -> (r < length (sy_dq S) /\ c < length (sy_dq S))%nat) by (rewrite ES; apply (w_idx m g p K cs HK HC NF)).
  assert (RW : forall r, fin_row (sy_P S) r \/ dead (sy_P S) r) by (rewrite ES; apply (w_rows m g p K cs HK HC NF)).
  assert (NU : (sy_nu S <= length (sy_dq S))%nat) by (rewrite ES; apply (w_nun m g p K cs HC)).
  assert (NN : sy_nu S' = sy_nu S) by congruence. assert (LL : length (sy_dq S') = length (sy_dq S)) by congruence.
  pose (sim0 := sim (un_len U) (rr U nu) (dd U nu)).
  assert (S00 : forall mk, sim0 s0 (mkState (st_x s0') (st_q s0') (st_dx s0') (st_Z s0') (st_rl s0') mk (st_err2 s0')) \/ mk <> st_mask s0).
  { intros mk. destruct (list_eq_dec Bool.bool_dec mk (st_mask s0)) as [M|M]; [left|right; exact M].
    unfold s0, s0', init_state in *. split; cbn [st_x st_q st_dx st_Z st_rl st_mask] in *.
    - rewrite !map_length. exact LQ'.
    - rewrite !map_length. exact LQ'.
    - exact LQ'.
    - exact XX.
    - intros v Hv. apply in_map_iff in Hv. destruct Hv as (_ & <- & _). eauto.
    - exact QQ.
    - exact C4.
    - apply t_one.
    - exact M. }
  assert (SIM : sim0 s0 s0').
  { destruct (S00 (st_mask s0)) as [A|A]; [|congruence]. destruct A as [a1 a2 a3 a4 a5 a6 a7 a8 _]. cbn [st_x st_q st_dx st_Z st_rl] in *. split; auto.
    pose proof (mkSim (un_len U) (rr U nu) (dd U nu) s0 (mkState (st_x s0') (st_q s0') (st_dx s0') (st_Z s0') (st_rl s0') (st_mask s0) (st_err2 s0')) a1 a2 a3 a4 a5 a6 a7 a8 eq_refl) as SM.
    unfold s0', s0, init_state. cbn [st_mask]. apply nth_ext with (d := false) (d' := false); [rewrite !map_length, !gaps_length; exact LQ'|].
    intros r Lr. rewrite map_length, gaps_length, LQ' in Lr.
    assert (LD : (r < length (sy_dq S))%nat) by (rewrite DS, <- LQ; exact Lr).
    destruct (gap_test S S' (un_len U) (rr U nu) (dd U nu) (proj1 HU) RP DP BM' NN LL RL' HT T0 ID RW NU s0 _ r G0 SM LD) as [GT _].
    rewrite TS, TS' in GT. unfold gapv in GT. cbn [st_q st_x] in GT. rewrite PS, PS' in GT.
    assert (AT : forall P x q t, (r < length q)%nat -> nth r (map (fun d => nleb d (Fin t)) (gaps P x q)) false = nleb (nsub (nth r q NaN) (matvec P x r)) (Fin t)).
    { intros P x q t Lq. rewrite nth_of, nth_error_map, gaps_nth, (nth_of q). destruct (nth_error q r) eqn:Er; [reflexivity|]. apply nth_error_None in Er. lia. }
    rewrite !AT by (rewrite ?LQ'; exact Lr). exact GT. }
  rewrite EH, EH'. unfold history. rewrite P2.
  assert (RUN : Forall2 sim0 (run lsolve S (sp_itermax p) s0) (run lsolve' S' (sp_itermax p) s0')).
  { apply (run_sim lsolve lsolve' X X' S S' (un_len U) (rr U nu) (dd U nu) (proj1 HU) RP DP BM'); auto.
    - rewrite FS. apply T.
    - rewrite FS'. apply T'.
    - congruence.
    - rewrite ZS, ZS'. exact C4.
    - rewrite ES. apply (w_sym m g p K cs HK NF).
    - rewrite ES. apply (w_dqfin m g p K cs HC).
    - rewrite ES. apply (w_zerodq m g p K cs HK HC NF).
    - intros k t Hk Lk Ht. apply (R k t); [rewrite EH; exact Hk|exact Lk|congruence]. }
  assert (ALL : Forall2 (sim (un_len U) (rr U (sy_nu S)) (dd U (sy_nu S))) (s0 :: run lsolve S (sp_itermax p) s0) (s0' :: run lsolve' S' (sp_itermax p) s0')).
  { rewrite NS. constructor; [exact SIM|exact RUN]. }
  clear - ALL HU NN. induction ALL; constructor; auto. apply sim_record; auto.
Qed.

(** positions left out *)
Lemma in_seen U m m' : mat_in U m m' -> mat_seen U m m'.
Proof.
  intros [F _]. unfold mat_seen. induction F as [|f f' l l' H F IH]; constructor; auto. destruct H as (_ & A & B & _ & _ & _ & _ & _ & _ & C & D).
  split; [exact A|]. split; [exact B|]. split; assumption.
Qed.
Lemma in_seen_mesh U g g' : mesh_in U g g' -> mesh_seen U g g'.
Proof.
  intros F. unfold mesh_seen. unfold mesh_in in F. induction F as [|r r' l l' H F IH]; constructor; auto. destruct H as (A & B & C & D & E & _ & _ & G).
  do 5 (split; [assumption|]). exact G.
Qed.
Theorem units_solve U lsolve lsolve' m m' g g' p p' S h S' h' : units_ok U -> mat_in U m m' -> mesh_in U g g' -> params_in U p p' ->
  exact_solver lsolve -> exact_solver lsolve' -> right_length lsolve -> tolerances_ok p -> tolerances_ok p' -> ~ flag_set (g_attrs g) ->
  solve lsolve m g p = Ok (S, h) -> solve lsolve' m' g' p' = Ok (S', h') ->
  numbering (length (sy_dq S)) (sp_perm p) -> numbering (length (sy_dq S)) (sp_perm p') ->
  (forall k s, nth_error h k = Some s -> (k < sp_itermax p)%nat -> nltb (st_rl s) (sp_packing p) = true -> regular S s) ->
  Forall2 (record_in U S S') h h'.
Proof. intros HU Hm Hg. apply seen_solve; [exact HU|exact (in_seen U m m' Hm)|exact (in_seen_mesh U g g' Hg)]. Qed.
