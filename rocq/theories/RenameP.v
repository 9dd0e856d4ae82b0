(** Proofs for C104: the results of the solver follow the names of the nodes and of the fibers. *)
From Coq Require Import Permutation Lia Lqa.
From Verif Require Import Num NumP ListX ListP Frames MatM NetM MeshM ModelM SolverM Spec SpecNet SpecMesh SpecModel SpecSolver SpecPerm
  SpecScale SpecProgress SpecRename MeshCheckP StiffP ConstraintP SolverP SolverRunP SolverSysP SolverApiP SolverFinP PermP ScaleP ProgressFinP RenameMatP RenameRunP RenameDataP.
Open Scope Q_scope.

Lemma call_ok lsolve m g p S h : exact_solver lsolve -> right_length lsolve -> tolerances_ok p -> ~ flag_set (g_attrs g) ->
  solve lsolve m g p = Ok (S, h) -> numbering (length (sy_dq S)) (sp_perm p) -> sys_ok lsolve S.
Proof.
  intros X RL T NF E N. destruct (solve_inv _ _ _ _ _ _ E) as (K & cs & HK & HC & ES & EH). cbv zeta in *.
  destruct (call_facts _ _ _ _ _ _ E N) as (NM & _). split; auto.
  - rewrite ES. apply (w_idx m g p K cs HK HC NF).
  - rewrite ES. apply (w_sym m g p K cs HK NF).
  - rewrite ES. apply (w_rows m g p K cs HK HC NF).
  - rewrite ES. apply (w_dqfin m g p K cs HC).
  - rewrite ES. apply (w_zerodq m g p K cs HK HC NF).
  - rewrite ES. apply (w_nun m g p K cs HC).
  - rewrite ES. apply T.
  - rewrite ES. apply T.
Qed.
Lemma start_good lsolve m g p S h : ~ flag_set (g_attrs g) -> solve lsolve m g p = Ok (S, h) ->
  exists K cs, stiffness m g (sp_lmin p) (sp_lmax p) (sp_coupling p) = Ok K /\ constraint m g = Ok cs /\
    sy_nu S = (2 * length (g_rows g))%nat /\ sy_P S = bmat (sy_nu S) K (csC cs) /\ sy_dq S = repeat (Fin 0) (sy_nu S) ++ csdH cs /\
    sy_tol S = sp_tol p /\ sy_packing S = sp_packing p /\ sy_Z0 S = Fin (csZ cs) /\
    let s0 := init_state (sy_P S) (repeat (Fin 0) (sy_nu S) ++ csH cs) (sp_tol p) (Fin (csZ cs)) in
    h = history lsolve S (sp_itermax p) s0 /\ good S s0.
Proof.
  intros NF E. destruct (solve_inv _ _ _ _ _ _ E) as (K & cs & HK & HC & ES & EH). cbv zeta in *. exists K, cs.
  split; [exact HK|]. split; [exact HC|]. rewrite ES in EH |- *. cbn [sy_nu sy_P sy_dq sy_tol sy_packing sy_Z0]. do 6 (split; [reflexivity|]).
  split; [exact EH|]. split.
  - apply (w_start m g p K cs HK HC NF).
  - intros r L. apply (w_kq0 g p K cs r L).
  - intros r L _. apply (w_kbal0 g p K cs r L).
Qed.

Theorem renamed_solve R lsolve lsolve' m m' g g' p p' S h S' h' : mesh_renamed R m m' g g' -> params_renamed p p' ->
  exact_solver lsolve -> exact_solver lsolve' -> right_length lsolve -> right_length lsolve' -> tolerances_ok p -> tolerances_ok p' ->
  ~ flag_set (g_attrs g) -> ~ flag_set (g_attrs g') ->
  solve lsolve m g p = Ok (S, h) -> solve lsolve' m' g' p' = Ok (S', h') ->
  numbering (length (sy_dq S)) (sp_perm p) -> numbering (length (sy_dq S')) (sp_perm p') ->
  (forall k s, nth_error h k = Some s -> (k < sp_itermax p)%nat -> nltb (st_rl s) (sp_packing p) = true -> regular S s) ->
  Forall2 (record_renamed R g g' S S') h h'.
Proof.
  intros HR (P1 & P2 & P3 & P4 & P5 & P6) X X' RL RL' T T' NF NF' E E' NB NB' RG.
  pose proof (call_ok _ _ _ _ _ _ X RL T NF E NB) as OK. pose proof (call_ok _ _ _ _ _ _ X' RL' T' NF' E' NB') as OK'.
  destruct (start_good _ _ _ _ _ _ NF E) as (K & cs & HK & HC & NS & PS & DS & TS & KS & ZS & EH & G0).
  destruct (start_good _ _ _ _ _ _ NF' E') as (K' & cs' & HK' & HC' & NS' & PS' & DS' & TS' & KS' & ZS' & EH' & G0').
  cbv zeta in *. clear E E'. set (s0 := init_state (sy_P S) _ _ _) in *. set (s0' := init_state (sy_P S') _ _ _) in *.
  pose (nu := (2 * length (g_rows g))%nat). pose (ps := cons_pairs (g_rows g)). pose (ps' := cons_pairs (g_rows g')).
  pose proof (len R m m' g g' HR) as LN. rewrite LN in NS'.
  pose proof (pairs_len R m m' g g' HR _ _ _ _ _ _ K K' cs cs' HK HK' HC HC' NF NF') as LP.
  assert (LD : length (sy_dq S) = (nu + 3 * length ps)%nat) by (rewrite DS, app_length, repeat_length, (csdH_len m g cs HC), NS; reflexivity).
  assert (LD' : length (sy_dq S') = (nu + 3 * length ps)%nat) by (rewrite DS', app_length, repeat_length, (csdH_len m' g' cs' HC'), NS', LP; reflexivity).
  assert (LQ : length (repeat (Fin 0) (sy_nu S) ++ csH cs) = (nu + 3 * length ps)%nat) by (rewrite app_length, repeat_length, (csH_len m g cs HC), NS; reflexivity).
  assert (LQ' : length (repeat (Fin 0) (sy_nu S') ++ csH cs') = (nu + 3 * length ps)%nat) by (rewrite app_length, repeat_length, (csH_len m' g' cs' HC'), NS', LP; reflexivity).
  assert (BM : mat_rn (tau R g g') (sig R g) (sy_P S) (sy_P S')).
  { rewrite PS, PS', NS, NS'. apply (bmat_rn R m m' g g' HR _ _ _ _ _ _ K K' cs cs' HK HK' HC HC' NF NF' P4 P5 P6). }
  assert (TL : forall r, (r < nu + 3 * length ps)%nat -> (tau R g g' r < nu + 3 * length ps)%nat) by apply (tau_lt R m m' g g' HR _ _ _ _ _ _ K K' cs cs' HK HK' HC HC' NF NF').
  assert (TI : forall r t, (r < nu + 3 * length ps)%nat -> (t < nu + 3 * length ps)%nat -> tau R g g' r = tau R g g' t -> r = t) by apply (tau_inj R m m' g g' HR _ _ _ _ _ _ K K' cs cs' HK HK' HC HC' NF NF').
  assert (IN : inside (nu + 3 * length ps) (sy_P S)) by (intros r c v Hv; rewrite <- LD; apply (ok_idx _ _ OK r c v Hv)).
  destruct (inv_of_ok (nu + 3 * length ps) (tau R g g') TL TI) as [IV1 IV2].
  set (ta := tau R g g') in *. set (si := sig R g) in *. set (ta' := inv_of (nu + 3 * length ps) ta) in *. pose (sg := fun r => sgn (si r)).
  assert (UP : forall r, (r < nu)%nat -> (ta r < nu)%nat) by (intros r L; apply (tau_up R m m' g g' HR r L)).
  assert (LO : forall r, (nu <= r)%nat -> (nu <= ta r)%nat) by (intros r L; apply (tau_low R g g' r L)).
  assert (TN : forall r, (r < length (sy_dq S))%nat -> (ta r < sy_nu S)%nat <-> (r < sy_nu S)%nat).
  { intros r _. rewrite NS. fold nu. split; [|apply UP]. intros L. destruct (Nat.lt_ge_cases r nu) as [U|U]; [exact U|]. pose proof (LO r U). lia. }
  assert (SQ : forall r, sg r * sg r == 1) by (intros r; apply sgn_sq).
  assert (SLw : forall r, (sy_nu S <= r)%nat -> sg r == 1) by (intros r L; unfold sg, si; rewrite NS in L; rewrite (sig_row R g r L); reflexivity).
  assert (Ztop : csZ cs' == csZ cs) by apply (top_rn R m m' g g' HR cs cs' HC HC').
  (* vectors made of zeros and of rows three by three *)
  assert (ROW : forall (l l' : list num), (forall k a, (k < length ps)%nat -> (a < 3)%nat -> exists b b', nth_error l (3 * k + a) = Some b /\ nth_error l' (3 * kap R g g' k + a) = Some b' /\ neqv b b') ->
    forall r, (r < nu + 3 * length ps)%nat -> neqv (nth r (repeat (Fin 0) (sy_nu S) ++ l) NaN) (nth (ta r) (repeat (Fin 0) (sy_nu S') ++ l') NaN) /\ ((r < nu)%nat -> nth r (repeat (Fin 0) (sy_nu S) ++ l) NaN = Fin 0)).
  { intros l l' H r L. rewrite NS, NS'. fold nu. destruct (Nat.lt_ge_cases r nu) as [U|U].
    - pose proof (UP r U) as U'. rewrite !app_nth1 by (rewrite repeat_length; assumption). rewrite !(nth_of (repeat _ _)), !nth_error_repeat by assumption. split; [apply neqv_refl|reflexivity].
    - split; [|lia]. destruct (split3 (r - nu)) as (k & a & Er & La). assert (Er' : r = (nu + (3 * k + a))%nat) by lia.
      assert (Et : ta r = (nu + (3 * kap R g g' k + a))%nat) by (rewrite Er'; apply (tau_row R g g' k a La)). rewrite Et, Er'.
      destruct (H k a ltac:(lia) La) as (b & b' & B1 & B2 & B3).
      rewrite !app_nth2 by (rewrite repeat_length; lia). rewrite !repeat_length. replace (nu + (3 * k + a) - nu)%nat with (3 * k + a)%nat by lia.
      replace (nu + (3 * kap R g g' k + a) - nu)%nat with (3 * kap R g g' k + a)%nat by lia. rewrite (nth_of l), (nth_of l'), B1, B2. exact B3. }
  assert (HQ0 : forall r, (r < nu + 3 * length ps)%nat -> neqv (nth r (st_q s0) NaN) (nth (ta r) (st_q s0') NaN) /\ ((r < nu)%nat -> nth r (st_q s0) NaN = Fin 0)).
  { apply ROW. intros k a Lk La. destruct (nth_error ps k) as [[i j]|] eqn:Ek; [|apply nth_error_None in Ek; unfold ps in *; lia].
    apply (bound_rn R m m' g g' HR _ _ _ K' cs cs' HK' HC HC' NF NF' k i j a Ek La). }
  assert (HDQ : forall r, (r < length (sy_dq S))%nat -> dqr S' (ta r) == sg r * dqr S r).
  { intros r L. rewrite LD in L. unfold dqr. rewrite DS, DS'. destruct (ROW (csdH cs) (csdH cs')) with (r := r) as [A B]; [|exact L|].
    - intros k a Lk La. destruct (rate_rn R m m' g g' HR _ _ _ K' cs cs' HK' HC HC' NF NF' k a Lk La) as [A (q & B)]. exists (Fin q), (Fin q). rewrite <- A. repeat split; auto; apply neqv_refl.
    - rewrite <- (eqv_q _ _ A). destruct (Nat.lt_ge_cases r nu) as [U|U]; [rewrite (B U); cbn; ring|]. rewrite (SLw r) by (rewrite NS; exact U). ring. }
  assert (XZ : forall P q t z r, nth r (xs (init_state P q t z)) 0 == 0).
  { intros P q t z r. unfold xs, init_state. cbn [st_x]. rewrite map_map, (nth_of (map _ q)), nth_error_map. destruct (nth_error q r); reflexivity. }
  assert (HP : forall y y', (forall c, (c < length (sy_dq S))%nat -> nth (ta c) y' 0 == sg c * nth c y 0) ->
    forall r, (r < length (sy_dq S))%nat -> product (sy_P S') y' (ta r) == sg r * product (sy_P S) y r).
  { rewrite LD. intros y y' Hy r L. apply (rn_product (nu + 3 * length ps) ta si TI (sy_P S) (sy_P S') y y' BM IN Hy r L). }
  assert (HFn : forall r, (r < length (sy_dq S))%nat -> fin_row (sy_P S') (ta r) <-> fin_row (sy_P S) r).
  { rewrite LD. intros r L. apply (rn_fin (nu + 3 * length ps) ta si TI _ _ BM IN r L). }
  assert (HCl : forall r, (r < length (sy_dq S))%nat -> nltb (Fin 0) (colsum (sy_P S') (ta r)) = nltb (Fin 0) (colsum (sy_P S) r)).
  { rewrite LD. intros r L. symmetry. apply nltb_eqv; [apply neqv_refl|]. apply (rn_colsum (nu + 3 * length ps) ta si TI _ _ BM IN r L). }
  assert (TT : sy_tol S' == sy_tol S) by (rewrite TS, TS', P3; cbn; ring).
  assert (QF : forall r, (r < length (sy_dq S))%nat -> qfin s0' (ta r) <-> qfin s0 r).
  { rewrite LD. intros r L. destruct (HQ0 r L) as [A _]. symmetry. apply (eqv_fin _ _ A). }
  assert (QV : forall r, (r < length (sy_dq S))%nat -> qof (nth (ta r) (st_q s0') NaN) == sg r * qof (nth r (st_q s0) NaN)).
  { rewrite LD. intros r L. destruct (HQ0 r L) as [A B]. rewrite <- (eqv_q _ _ A). destruct (Nat.lt_ge_cases r nu) as [U|U]; [rewrite (B U); cbn; ring|]. rewrite (SLw r) by (rewrite NS; exact U). ring. }
  pose (rs := rsim S ta sg).
  assert (PRE : forall mk, rs s0 (mkState (st_x s0') (st_q s0') (st_dx s0') (st_Z s0') (st_rl s0') mk (st_err2 s0')) \/
    exists r, (r < length (sy_dq S))%nat /\ nth (ta r) mk false <> nth r (st_mask s0) false).
  { intros mk. assert (DEC : (forall r, (r < length (sy_dq S))%nat -> nth (ta r) mk false = nth r (st_mask s0) false) \/
      exists r, (r < length (sy_dq S))%nat /\ nth (ta r) mk false <> nth r (st_mask s0) false).
    { generalize (length (sy_dq S)) as b. induction b as [|b IH]; [left; intros r L; lia|]. destruct IH as [IH|(r & L & N)]; [|right; exists r; split; [lia|exact N]].
      destruct (Bool.bool_dec (nth (ta b) mk false) (nth b (st_mask s0) false)) as [Y|Y]; [|right; exists b; split; [lia|exact Y]].
      left. intros r L. destruct (Nat.eq_dec r b) as [->|Nr]; [exact Y|]. apply IH. lia. }
    destruct DEC as [DEC|DEC]; [left|right; exact DEC]. split; auto.
    - intros r L. change (nth (ta r) (xs s0') 0 == sg r * nth r (xs s0) 0). unfold s0, s0'. rewrite !XZ. ring.
    - cbn [st_Z]. unfold s0, s0', init_state. cbn. rewrite Ztop. reflexivity.
    - cbn [st_rl]. unfold s0, s0', init_state. cbn. reflexivity. }
  assert (SIM : rs s0 s0').
  { assert (MK : forall r, (r < length (sy_dq S))%nat -> nth (ta r) (st_mask s0') false = nth r (st_mask s0) false).
    { intros r L. pose proof (TL r ltac:(lia)) as L'.
      assert (AT : forall T s t d, nth_error (gaps (sy_P T) (st_x s) (st_q s)) r = Some d -> nth r (map (fun d => nleb d (Fin t)) (gaps (sy_P T) (st_x s) (st_q s))) false = nleb d (Fin t)).
      { intros T0 s t d Hd. rewrite nth_of, nth_error_map, Hd. reflexivity. }
      assert (AT' : forall T s t d, nth_error (gaps (sy_P T) (st_x s) (st_q s)) (ta r) = Some d -> nth (ta r) (map (fun d => nleb d (Fin t)) (gaps (sy_P T) (st_x s) (st_q s))) false = nleb d (Fin t)).
      { intros T0 s t d Hd. rewrite nth_of, nth_error_map, Hd. reflexivity. }
      pose proof (gap_case S (ok_idx _ _ OK) (ok_rows _ _ OK) s0 r (good_inv S s0 G0) L) as C.
      pose proof (gap_case S' (ok_idx _ _ OK') (ok_rows _ _ OK') s0' (ta r) (good_inv S' s0' G0') ltac:(lia)) as C'.
      change (st_mask s0) with (map (fun d => nleb d (Fin (sp_tol p))) (gaps (sy_P S) (st_x s0) (st_q s0))).
      change (st_mask s0') with (map (fun d => nleb d (Fin (sp_tol p'))) (gaps (sy_P S') (st_x s0') (st_q s0'))).
      assert (NB2 : forall T x, fin_row (sy_P T) x -> dead (sy_P T) x -> False) by (intros T0 x; apply SolverP.not_both).
      destruct C as [(F & Q & C)|[((F & _) & Q & C)|(F & C)]]; rewrite (AT _ _ _ _ C);
        destruct C' as [(F' & Q' & C')|[((F' & _) & Q' & C')|(F' & C')]]; rewrite (AT' _ _ _ _ C'); try reflexivity.
      - assert (GAP : D S' s0' (ta r) == sg r * D S s0 r).
        { unfold D. rewrite (QV r L), (HP (xs s0) (xs s0')); [ring| |exact L]. intros c _. unfold s0, s0'. rewrite !XZ. ring. }
        rewrite <- TS, <- TS'.
        assert (NL : forall a b a' b', (a <= b <-> a' <= b') -> nleb (Fin a) (Fin b) = nleb (Fin a') (Fin b')).
        { intros a b a' b' E0. apply Bool.eq_iff_eq_true. rewrite !SolverP.nleb_q. exact E0. }
        apply NL.
        destruct (Nat.lt_ge_cases r (sy_nu S)) as [U|U].
        + pose proof (good_bal S s0 G0 r U F) as B. rewrite B in GAP. pose proof (ok_tol _ _ OK). pose proof (ok_tol _ _ OK').
          assert (GAP0 : D S' s0' (ta r) == 0) by (rewrite GAP; ring).
          split; intros; lra.
        + rewrite (SLw r U) in GAP. split; intros; lra.
      - exfalso. apply (QF r L) in Q. destruct Q as (b & Q). congruence.
      - exfalso. apply (HFn r L) in F. apply (NB2 S' _ F F').
      - exfalso. apply (QF r L) in Q'. destruct Q' as (b & Q'). congruence.
      - exfalso. apply (HFn r L) in F'. apply (NB2 S _ F' F). }
    destruct (PRE (st_mask s0')) as [A|(r & L & Y)]; [|destruct (Y (MK r L))]. destruct s0'. exact A. }
  assert (LDD : length (sy_dq S') = length (sy_dq S)) by congruence.
  assert (RUN : Forall2 (fun t t' => rs t t' /\ good S t /\ good S' t') (run lsolve S (sp_itermax p) s0) (run lsolve' S' (sp_itermax p) s0')).
  { apply (r_run lsolve lsolve' S S' OK OK' ta ta' sg); auto.
    - congruence.
    - intros r L. rewrite LD in L |- *. apply (TL r L).
    - intros r L. rewrite LD in L |- *. apply (IV1 r L).
    - intros r L. rewrite LD in L. apply (IV1 r L).
    - congruence.
    - rewrite ZS, ZS'. cbn. symmetry. exact Ztop.
    - intros k t Hk Lk Ht. apply (RG k t); [rewrite EH; exact Hk|exact Lk|congruence]. }
  assert (ALL : Forall2 (fun t t' => rs t t' /\ good S t /\ good S' t') h h').
  { rewrite EH, EH'. unfold history. rewrite P2. constructor; [split; [exact SIM|split; assumption]|exact RUN]. }
  clear - ALL NS NS' LD LD' LP HR HK HK' HC HC' NF NF' SLw TL.
  assert (ONE : forall t t', rs t t' -> good S t -> good S' t' -> record_renamed R g g' S S' t t').
  { intros t t' H G G'. pose proof (good_inv S t G) as I0. pose proof (good_inv S' t' G') as I0'.
    assert (XR : forall r, (r < length (sy_dq S))%nat -> neqv (flip (si r) (nth r (st_x t) NaN)) (nth (ta r) (st_x t') NaN)).
    { intros r L. destruct (inv_xf S t I0 r L) as (a & A). destruct (inv_xf S' t' I0' (ta r)) as (b & B); [rewrite LD'; apply TL; lia|].
      pose proof (rs_x _ _ _ _ _ H r L) as Y. unfold xs in Y. rewrite !nth_qof, A, B in Y. rewrite A, B. unfold sg in Y. cbn [qof] in Y. destruct (si r); cbn in *; rewrite Y; ring. }
    assert (QR : forall r, (r < length (sy_dq S))%nat -> (sy_nu S <= r)%nat -> neqv (nth r (st_q t) NaN) (nth (ta r) (st_q t') NaN)).
    { intros r L U. assert (L' : (ta r < length (sy_dq S'))%nat) by (rewrite LD'; apply TL; lia).
      destruct (inv_qf S t I0 r L) as [Q|(Q & _)].
      - pose proof (rs_qv _ _ _ _ _ H r L Q) as Y. destruct (proj2 (rs_q _ _ _ _ _ H r L) Q) as (b & B). destruct Q as (a & A).
        rewrite A, B in Y |- *. rewrite (SLw r U) in Y. cbn in *. rewrite Y. ring.
      - destruct (inv_qf S' t' I0' (ta r) L') as [Q'|(Q' & _)]; [|rewrite Q, Q'; exact I].
        apply (rs_q _ _ _ _ _ H r L) in Q'. destruct Q' as (b & B). congruence. }
    split; [|split; [|split]].
    - intros i d Hd. pose proof (SolverSysP.node_lt _ _ _ Hd) as Li. assert (L1 : (2 * i < length (sy_dq S))%nat) by (rewrite LD; unfold nu; lia).
      assert (L2 : (2 * i + 1 < length (sy_dq S))%nat) by (rewrite LD; unfold nu; lia).
      pose proof (XR _ L1) as A. pose proof (XR _ L2) as B. unfold ta in A, B. rewrite (tau_disp R g g' i Li) in A. rewrite (tau_rot R g g' i Li) in B.
      unfold si in A, B. rewrite (sig_disp R g i) in A. rewrite (sig_rot R g i Li), (turned_at R g i d Hd) in B. cbn [flip] in A.
      pose proof (rho_lt R m m' g g' HR i Li) as Lr. unfold st_u. rewrite NS, NS'.
      rewrite !nth_firstn by lia. split; [exact A|exact B].
    - intros k k' i j a Hk Hk' La. apply (rank_pair m g cs HC NF) in Hk. apply (rank_pair m' g' cs' HC' NF') in Hk'.
      pose proof (kap_any R m m' g g' HR _ _ _ K' cs cs' HK' HC HC' NF NF' k k' i j Hk Hk') as ->.
      assert (Lk : (k < length ps)%nat) by (apply nth_error_Some; unfold ps; congruence).
      assert (Lr : (nu + (3 * k + a) < length (sy_dq S))%nat) by lia. assert (U : (sy_nu S <= nu + (3 * k + a))%nat) by (rewrite NS; fold nu; lia).
      pose proof (XR _ Lr) as A. pose proof (QR _ Lr U) as B. pose proof (rs_mask _ _ _ _ _ H _ Lr) as C.
      unfold ta in A, B, C. unfold nu in A, B, C. rewrite (tau_row R g g' k a La) in A, B, C. unfold si in A. rewrite (sig_row R g) in A by lia. cbn [flip] in A.
      unfold st_f, st_H. rewrite NS, NS', !nth_skipn. split; [exact A|]. split; [exact B|]. symmetry. exact C.
    - apply (rs_Z _ _ _ _ _ H).
    - apply (rs_rl _ _ _ _ _ H). }
  induction ALL as [|t t' l l' (A & B & C) ALL IH]; constructor; auto.
Qed.

(** *** direct solvers *)
Section Held.
  Variable R : renaming.
  Variables m m' : qmat.
  Variables g g' : mesh_df.
  Hypothesis HR : mesh_renamed R m m' g g'.
  Variables cs cs' : csys.
  Hypothesis HC : constraint m g = Ok cs.
  Hypothesis HC' : constraint m' g' = Ok cs'.
  Variables tol tol' z z' : Q.
  Variables u u' : list Q.
  Hypothesis Htol : tol' == tol.
  Hypothesis Hz : z' == z.
  Hypothesis Hu : forall i, (i < length (g_rows g))%nat -> disp u' (rn_node R i) == disp u i.
  Lemma rn_at i d : is_node (g_rows g) i d -> exists d', is_node (g_rows g') (rn_node R i) d' /\ nf d' = rn_fiber R (nf d) /\ nz d' + disp u' (rn_node R i) == nz d + disp u i /\
    forall h, thick m d h -> exists h', thick m' d' h' /\ h' == h.
  Proof.
    intros Hd. pose proof (SolverSysP.node_lt _ _ _ Hd) as L. destruct (nex' R m m' g g' HR _ (rho_lt R m m' g g' HR i L)) as (d' & Hd'). exists d'. split; [exact Hd'|].
    destruct HR as (_ & _ & _ & HN & _). destruct (HN i d d' Hd Hd') as (A & B & _). split; [exact A|]. split; [rewrite B, (Hu i L); reflexivity|].
    intros h Th. destruct (thick_ex m' g' cs' HC' _ _ Hd') as (h' & Th' & _). exists h'. split; [exact Th'|]. apply (thick_rn R m m' g g' HR i d d' h h' Hd Hd' Th Th').
  Qed.
  Lemma rn_paired i j d e : paired g i j d e -> exists d' e', paired g' (rn_node R i) (rn_node R j) d' e' /\ nf d' = rn_fiber R (nf d) /\ nf e' = rn_fiber R (nf e) /\
    (on_floor m tol u i d -> on_floor m' tol' u' (rn_node R i) d') /\ (on_lid m tol u z j e -> on_lid m' tol' u' z' (rn_node R j) e') /\
    (touching m tol u i j d e -> touching m' tol' u' (rn_node R i) (rn_node R j) d' e') /\ (rn_node R i = rn_node R j -> i = j).
  Proof.
    intros (Hd & He & E & L). destruct (rn_at i d Hd) as (d' & Hd' & Fd & Zd & Td). destruct (rn_at j e He) as (e' & He' & Fe & Ze & Te).
    pose proof (SolverSysP.node_lt _ _ _ Hd) as Li. pose proof (SolverSysP.node_lt _ _ _ He) as Lj.
    assert (C : contact g' (rn_node R i) (rn_node R j)).
    { destruct HR as (_ & _ & _ & _ & _ & H). apply (H i j Li Lj). exists d. auto. }
    destruct C as (d2 & Hd2 & E2 & L2). assert (d2 = d') by (destruct Hd2 as (a & A); destruct Hd' as (b & B); congruence). subst d2.
    exists d', e'. split; [split; [exact Hd'|split; [exact He'|split; [exact E2|exact L2]]]|]. split; [exact Fd|]. split; [exact Fe|].
    split; [|split; [|split]].
    - intros (h & Th & B). destruct (Td h Th) as (h' & Th' & Eh). exists h'. split; [exact Th'|]. rewrite Zd, Eh, Htol. exact B.
    - intros (h & Th & B). destruct (Te h Th) as (h' & Th' & Eh). exists h'. split; [exact Th'|]. rewrite Ze, Eh, Htol, Hz. exact B.
    - intros (h & k & Th & Tk & B). destruct (Td h Th) as (h' & Th' & Eh). destruct (Te k Tk) as (k' & Tk' & Ek). exists h', k'. split; [exact Th'|]. split; [exact Tk'|].
      rewrite Zd, Ze, Eh, Ek, Htol. exact B.
    - apply (rho_inj R m m' g g' HR i j Li Lj).
  Qed.
  Lemma rn_compressed : compressed m g tol u z -> compressed m' g' tol' u' z'.
  Proof.
    intros (i & j & d & e & P & F & L & C). destruct (rn_paired i j d e P) as (d' & e' & P' & _ & _ & F' & L' & T' & _). exists (rn_node R i), (rn_node R j), d', e'.
    split; [exact P'|]. split; [exact (F' F)|]. split; [exact (L' L)|]. destruct C as [<-|C]; [left; reflexivity|right; exact (T' C)].
  Qed.
  Lemma rn_held f : held m g tol u z f -> held m' g' tol' u' z' (rn_fiber R f).
  Proof.
    induction 1 as [i j d e P F|i j d e P F|i j d e P N F _ IH|i j d e P N F _ IH]; destruct (rn_paired i j d e P) as (d' & e' & P' & A & B & F' & L' & T' & I').
    - rewrite <- A. apply (held_floor _ _ _ _ _ _ _ _ _ P'). exact (F' F).
    - rewrite <- B. apply (held_lid _ _ _ _ _ _ _ _ _ P'). exact (L' F).
    - rewrite <- B. apply (held_below _ _ _ _ _ _ _ _ _ P'); [intros X; apply N; exact (I' X)|exact (T' F)|rewrite A; exact IH].
    - rewrite <- A. apply (held_above _ _ _ _ _ _ _ _ _ P'); [intros X; apply N; exact (I' X)|exact (T' F)|rewrite B; exact IH].
  Qed.
  Lemma rn_all : all_held m g tol u z -> all_held m' g' tol' u' z'.
  Proof.
    intros H i' d' Hd'. destruct (named R m m' g g' HR i' d' Hd') as (i & d & -> & Hd). destruct (rn_at i d Hd) as (d2 & Hd2 & E & _).
    assert (d2 = d') by (destruct Hd2 as (a & A); destruct Hd' as (b & B); congruence). subst d2. rewrite E. apply rn_held. apply (H i d Hd).
  Qed.
End Held.
Lemma rn_starts R m m' g g' cs cs' tol tol' : mesh_renamed R m m' g g' -> constraint m g = Ok cs -> constraint m' g' = Ok cs' -> tol' == tol ->
  starts_held m g tol -> starts_held m' g' tol'.
Proof.
  intros HR HC HC' Ht H z' Hz'.
  assert (UZ : forall mm gg a b, highest_top mm gg a -> highest_top mm gg b -> a == b).
  { intros mm gg a b (A1 & i & d & h & A2 & A3 & A4) (B1 & j & e & k & B2 & B3 & B4). pose proof (A1 j e k B2 B3). pose proof (B1 i d h A2 A3). qlra. }
  pose proof (top_spec m g cs HC) as T. pose proof (top_spec m' g' cs' HC') as T'. pose proof (top_rn R m m' g g' HR cs cs' HC HC') as E.
  apply (rn_all R m m' g g' HR cs' HC' tol tol' (csZ cs) z' [] [] Ht).
  - rewrite (UZ m' g' z' (csZ cs') Hz' T'). exact E.
  - intros i _. unfold disp. destruct (2 * i)%nat, (2 * rn_node R i)%nat; reflexivity.
  - apply H. exact T.
Qed.
Theorem renamed_calls R lsolve lsolve' m m' g g' p p' S h S' h' : mesh_renamed R m m' g g' -> params_renamed p p' ->
  direct_solver lsolve -> direct_solver lsolve' -> sound_data m g p -> sound_data m' g' p' -> starts_held m g (sp_tol p) ->
  solve lsolve m g p = Ok (S, h) -> solve lsolve' m' g' p' = Ok (S', h') ->
  numbering (length (sy_dq S)) (sp_perm p) -> numbering (length (sy_dq S')) (sp_perm p') ->
  Forall2 (record_renamed R g g' S S') h h'.
Proof.
  intros HR HP D D' SD SD' SH E E' N N'. pose proof HP as (P1 & P2 & P3 & P4 & P5 & P6).
  destruct (solve_inv _ _ _ _ _ _ E) as (K & cs & _ & HC & ES & _). destruct (solve_inv _ _ _ _ _ _ E') as (K' & cs' & _ & HC' & ES' & _). cbv zeta in ES, ES'.
  assert (TE : sp_tol p' == sp_tol p) by (rewrite P3; cbn; ring).
  pose proof (rn_starts R m m' g g' cs cs' _ _ HR HC HC' TE SH) as SH'.
  destruct (fin_history lsolve m g p S h E) as (L & (s0 & Hs0 & _) & _).
  assert (Lh : (0 < length h)%nat) by (destruct h; [discriminate Hs0|cbn [length]; lia]).
  set (n := (length h - 1)%nat). assert (Ln : length h = Datatypes.S n) by (unfold n; lia).
  pose proof (cut_ok lsolve m g p S h n E ltac:(lia)) as Ec. pose proof (cut_ok lsolve' m' g' p' S' h' n E' ltac:(lia)) as Ec'.
  rewrite <- Ln in Ec, Ec'. rewrite firstn_all in Ec.
  assert (F : Forall2 (record_renamed R g g' S S') h (firstn (length h) h')).
  { apply (renamed_solve R lsolve lsolve' m m' g g' (cut n p) (cut n p') S h S' (firstn (length h) h')); auto; try apply D; try apply D'; try apply SD; try apply SD'.
    - unfold params_renamed, params_in, cut. cbn [sp_lmin sp_lmax sp_coupling sp_perm sp_tol sp_errtol sp_packing sp_itermax]. repeat (split; [first [assumption|reflexivity]|]). assumption.
    - intros k s Hk Lk _. cbn [cut sp_itermax] in Lk. destruct (go_regular lsolve m g p S h D SD N SH E k s Hk) as (_ & Q & C). apply Q. intros X. apply C in X. lia. }
  assert (LE : (length h' <= length h)%nat); [|rewrite firstn_all2 in F by exact LE; exact F].
  destruct (fin_history lsolve' m' g' p' S' h' E') as (L' & _ & ST).
  destruct (go_end lsolve m g p S h D SD N SH E) as (s & Hs & [Q|[Q|Q]]); [rewrite P2 in L'; lia| |]; fold n in Hs; destruct (nth2 _ _ _ _ _ F Hs) as (s' & Hs' & (RU & _ & RZ & RR));
    assert (Hs2 : nth_error h' n = Some s') by exact (nth_of_firstn _ _ _ _ Hs').
  - destruct (nth_error h' (Datatypes.S n)) as [s2|] eqn:E2; [|apply nth_error_None in E2; lia].
    destruct (ST n s' s2 Hs2 E2) as [B _]. exfalso. rewrite P1 in B. rewrite <- (nltb_eqv _ _ _ _ RR (neqv_refl (sp_packing p))) in B. congruence.
  - assert (C : compressed_at m' g' S' s').
    { unfold compressed_at in *. apply (rn_compressed R m m' g g' HR cs' HC' (sy_tol S) (sy_tol S') (qof (st_Z s)) (qof (st_Z s')) (vals (st_u S s)) (vals (st_u S' s'))).
      - rewrite ES, ES'. exact TE.
      - symmetry. apply (eqv_q _ _ RZ).
      - intros i Li. destruct (nth_error (g_rows g) i) as [[lb d]|] eqn:Ei; [|apply nth_error_None in Ei; lia].
        destruct (RU i d (ex_intro _ lb Ei)) as [U _]. unfold disp, vals. change 0 with (qof NaN). rewrite !map_nth. symmetry. apply (eqv_q _ _ U).
      - exact Q. }
    destruct (go_regular lsolve' m' g' p' S' h' D' SD' N' SH' E' n s' Hs2) as (_ & _ & C2). specialize (C2 C). lia.
Qed.
