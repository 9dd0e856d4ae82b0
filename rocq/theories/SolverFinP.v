(** Statements about the results of solve. *)
From Coq Require Import String Permutation.
From Verif Require Import Num NumP ListX ListP Frames MatM NetM StackM MeshM ModelM SolverM Spec SpecNet SpecStack SpecMesh SpecModel SpecSolver
  MeshCheckP NetP StackP StackNewP MeshP StiffP StiffLimP StiffLenP ConstraintP SolverP SolverRunP SolverSysP SolverApiP.
Open Scope Q_scope.

(** ** The loop, for any solver *)
Lemma run_length lsolve S f : forall s, (length (run lsolve S f s) <= f)%nat.
Proof.
  induction f as [|f IH]; intros s; simpl; auto. destruct (nltb _ _); simpl; [|lia]. destruct (step lsolve S s); simpl; [|lia].
  apply le_n_S, IH.
Qed.
Lemma run_prefix lsolve S f : forall f' s, (f <= f')%nat -> run lsolve S f s = firstn f (run lsolve S f' s).
Proof.
  induction f as [|f IH]; intros f' s L; auto. destruct f' as [|f']; [lia|]. simpl. destruct (nltb _ _); auto.
  destruct (step lsolve S s) as [s1|]; auto. f_equal. apply IH. lia.
Qed.
Lemma history_next lsolve S itermax s0 : forall k s s', nth_error (history lsolve S itermax s0) k = Some s ->
  nth_error (history lsolve S itermax s0) (Datatypes.S k) = Some s' -> nltb (st_rl s) (sy_packing S) = true /\ step lsolve S s = Some s'.
Proof.
  assert (G : forall f s k a b, nth_error (s :: run lsolve S f s) k = Some a -> nth_error (run lsolve S f s) k = Some b ->
    nltb (st_rl a) (sy_packing S) = true /\ step lsolve S a = Some b).
  { induction f as [|f IH]; intros s k a b Ha Hb; [destruct k; discriminate Hb|]. simpl in Hb.
    destruct (nltb (st_rl s) (sy_packing S)) eqn:E; [|destruct k; discriminate Hb].
    destruct (step lsolve S s) as [s1|] eqn:Es; [|destruct k; discriminate Hb].
    destruct k as [|k]; simpl in Ha, Hb.
    - injection Ha as <-. injection Hb as <-. auto.
    - rewrite E, Es in Ha. apply (IH s1 k); auto. }
  intros k s s' H H'. apply (G itermax s0 k); auto.
Qed.
Lemma history_last lsolve S itermax s0 k s : nth_error (history lsolve S itermax s0) k = Some s ->
  length (history lsolve S itermax s0) = Datatypes.S k -> (k < itermax)%nat -> nltb (st_rl s) (sy_packing S) = false \/ step lsolve S s = None.
Proof.
  unfold history. revert s0 k. induction itermax as [|f IH]; intros s0 k H L Lk; [lia|]. simpl in L.
  destruct (nltb (st_rl s0) (sy_packing S)) eqn:E.
  - destruct (step lsolve S s0) as [s1|] eqn:Es.
    + destruct k as [|k]; [simpl in L; lia|]. simpl in H. rewrite E, Es in H. apply (IH s1 k H); [simpl in L |- *; lia|lia].
    + simpl in L. assert (k = 0)%nat by lia. subst k. injection H as <-. auto.
  - simpl in L. assert (k = 0)%nat by lia. subst k. injection H as <-. auto.
Qed.
(** a step depends on the solver only through its answer *)
Lemma step_same lsolve lsolve' S s : answer lsolve S s = answer lsolve' S s -> step lsolve S s = step lsolve' S s.
Proof.
  intros E. unfold step.
  assert (ED : increment lsolve S s (active S (gaps (sy_P S) (st_x s) (st_q s))) = increment lsolve' S s (active S (gaps (sy_P S) (st_x s) (st_q s)))).
  { change (dxn lsolve S s = dxn lsolve' S s). rewrite !dxn_eq, E. reflexivity. }
  rewrite ED. reflexivity.
Qed.
Lemma state_lengths lsolve S s s' : step lsolve S s = Some s' -> length (st_x s) = length (sy_dq S) -> length (st_dx s) = length (sy_dq S) ->
  length (st_q s) = length (sy_dq S) ->
  length (st_x s') = length (sy_dq S) /\ length (st_dx s') = length (sy_dq S) /\ length (st_q s') = length (sy_dq S) /\
  st_rl s' = ndiv (sy_Z0 S) (st_Z s').
Proof.
  unfold step. intros E L1 L2 L3. set (dx := increment lsolve S s _) in E.
  assert (LD : length dx = length (sy_dq S)).
  { unfold dx, increment. rewrite scatter_length, map_length. exact L2. }
  destruct (py_min _); [|discriminate E]. destruct (err_gt _ _); [discriminate E|]. injection E as <-. simpl.
  rewrite !map_length, !combine_length, L1, L3, LD, !Nat.min_id. auto.
Qed.

Lemma solve_inv lsolve m g p S h : solve lsolve m g p = Ok (S, h) -> exists K cs,
  stiffness m g (sp_lmin p) (sp_lmax p) (sp_coupling p) = Ok K /\ constraint m g = Ok cs /\
  let nu := (2 * length (g_rows g))%nat in
  let q0 := repeat (Fin 0) nu ++ csH cs in
  S = mkSys nu (bmat nu K (csC cs)) (repeat (Fin 0) nu ++ csdH cs)
              (match sp_perm p with Some l => l | None => seq 0 (length q0) end)
              (sp_tol p) (sp_errtol p) (sp_packing p) (Fin (csZ cs)) /\
  h = history lsolve S (sp_itermax p) (init_state (bmat nu K (csC cs)) q0 (sp_tol p) (Fin (csZ cs))).
Proof.
  unfold solve. destruct (assemble m g p) as [[S' s0]|e] eqn:E; [|discriminate]. cbn [bind fst snd]. intros H. injection H as <- <-.
  destruct (asm_inv m g p S' s0 E) as (K & cs & HK & Hcs & ES & E0). exists K, cs. cbv zeta in *. subst. auto.
Qed.

Lemma mask_step lsolve S s s' : step lsolve S s = Some s' -> st_mask s' = active S (gaps (sy_P S) (st_x s) (st_q s)).
Proof.
  unfold step. cbv zeta. destruct (py_min _); [|discriminate]. destruct (err_gt _ _); [discriminate|]. intros H. injection H as <-. reflexivity.
Qed.

Section Fin.
  Variable lsolve : ncoo -> list num -> list num.
  Variable m : qmat.
  Variable g : mesh_df.
  Variable p : solve_params.
  Variable S : sysdata.
  Variable h : list state.
  Hypothesis HS : solve lsolve m g p = Ok (S, h).

  Lemma fin_history : (length h <= Datatypes.S (sp_itermax p))%nat /\
    (exists s0, nth_error h 0 = Some s0 /\ (forall v, In v (st_u S s0) -> v = Fin 0) /\ (forall v, In v (st_f S s0) -> v = Fin 0) /\
       (exists Z, st_Z s0 = Fin Z /\ highest_top m g Z) /\ st_rl s0 = Fin 1) /\
    (forall k s s', nth_error h k = Some s -> nth_error h (Datatypes.S k) = Some s' ->
       nltb (st_rl s) (sp_packing p) = true /\
       exists s0, nth_error h 0 = Some s0 /\ st_rl s' = ndiv (st_Z s0) (st_Z s')).
  Proof.
    destruct (solve_inv _ _ _ _ _ _ HS) as (K & cs & HK & Hcs & ES & Eh). cbv zeta in ES, Eh. rewrite Eh, ES. split; [|split].
    - unfold history. simpl. pose proof (run_length lsolve S (sp_itermax p)) as L. rewrite ES in L. apply le_n_S. apply L.
    - eexists. split; [reflexivity|]. split; [|split; [|split]].
      + intros v Hv. unfold st_u in Hv. simpl in Hv. assert (Hv' : In v (map (fun _ : num => Fin 0) (repeat (Fin 0) (2 * length (g_rows g)) ++ csH cs))).
        { rewrite <- (firstn_skipn (2 * length (g_rows g))). apply in_app_iff. left. exact Hv. }
        apply in_map_iff in Hv'. destruct Hv' as (w & <- & _). reflexivity.
      + intros v Hv. unfold st_f in Hv. simpl in Hv. assert (Hv' : In v (map (fun _ : num => Fin 0) (repeat (Fin 0) (2 * length (g_rows g)) ++ csH cs))).
        { rewrite <- (firstn_skipn (2 * length (g_rows g))). apply in_app_iff. right. exact Hv. }
        apply in_map_iff in Hv'. destruct Hv' as (w & <- & _). reflexivity.
      + simpl. exists (csZ cs). split; auto. apply (top_spec m g cs Hcs).
      + reflexivity.
    - intros k s s' Hs Hs'. destruct (history_next _ _ _ _ _ _ _ Hs Hs') as [E1 E2]. split; [exact E1|].
      eexists. split; [reflexivity|]. unfold step in E2. destruct (py_min _); [|discriminate E2]. destruct (err_gt _ _); [discriminate E2|].
      injection E2 as <-. reflexivity.
  Qed.
  Lemma fin_lengths cs : constraint m g = Ok cs -> forall s, In s h ->
    length (st_u S s) = (2 * length (g_rows g))%nat /\ length (st_F S s) = (2 * length (g_rows g))%nat /\
    length (st_f S s) = length (csH cs) /\ length (st_H S s) = length (csH cs).
  Proof.
    intros Hcs' s Hs. destruct (solve_inv _ _ _ _ _ _ HS) as (K & cs' & HK & Hcs & ES & Eh). assert (cs' = cs) by congruence. subst cs'.
    cbv zeta in ES, Eh. rewrite Eh in Hs. apply history_reach in Hs.
    assert (LD : length (sy_dq S) = (2 * length (g_rows g) + length (csH cs))%nat).
    { rewrite ES. cbn [sy_dq]. rewrite app_length, repeat_length, (csdH_len m g cs Hcs), (csH_len m g cs Hcs). reflexivity. }
    assert (L : length (st_x s) = length (sy_dq S) /\ length (st_dx s) = length (sy_dq S) /\ length (st_q s) = length (sy_dq S)).
    { induction Hs as [|s s' R IH Er Es].
      - rewrite LD. unfold init_state. cbn [st_x st_dx st_q]. rewrite !map_length, app_length, repeat_length. auto.
      - destruct IH as (I1 & I2 & I3). destruct (state_lengths _ _ _ _ Es I1 I2 I3) as (H1 & H2 & H3 & _). auto. }
    destruct L as (L1 & _ & L3). assert (EN : sy_nu S = (2 * length (g_rows g))%nat) by (rewrite ES; reflexivity).
    unfold st_u, st_F, st_f, st_H. rewrite !firstn_length, !skipn_length, L1, L3, LD, EN. lia.
  Qed.
  Lemma fin_more p' S' h' : sp_lmin p' = sp_lmin p -> sp_lmax p' = sp_lmax p -> sp_coupling p' = sp_coupling p ->
    sp_perm p' = sp_perm p -> sp_tol p' = sp_tol p -> sp_errtol p' = sp_errtol p -> sp_packing p' = sp_packing p ->
    (sp_itermax p <= sp_itermax p')%nat -> solve lsolve m g p' = Ok (S', h') ->
    S' = S /\ h = firstn (Datatypes.S (sp_itermax p)) h' /\ ((length h <= sp_itermax p)%nat -> h' = h).
  Proof.
    intros E1 E2 E3 E4 E5 E6 E7 L HS'.
    destruct (solve_inv _ _ _ _ _ _ HS) as (K & cs & HK & Hcs & ES & Eh).
    destruct (solve_inv _ _ _ _ _ _ HS') as (K' & cs' & HK' & Hcs' & ES' & Eh').
    rewrite E1, E2, E3 in HK'. assert (K' = K) by congruence. assert (cs' = cs) by congruence. subst K' cs'.
    cbv zeta in *. rewrite E4, E5, E6, E7 in ES'. rewrite E5 in Eh'.
    assert (EE : S' = S) by congruence. split; auto. rewrite EE in Eh'.
    split.
    - rewrite Eh, Eh'. unfold history. cbn [firstn]. f_equal. apply run_prefix. exact L.
    - intros LL. rewrite Eh, Eh'. unfold history. f_equal.
      assert (LR : (length (run lsolve S (sp_itermax p) (init_state (bmat (2 * length (g_rows g)) K (csC cs)) (repeat (Fin 0) (2 * length (g_rows g)) ++ csH cs) (sp_tol p) (Fin (csZ cs)))) < sp_itermax p)%nat).
      { rewrite Eh in LL. unfold history in LL. simpl in LL. exact LL. }
      revert LR. generalize (init_state (bmat (2 * length (g_rows g)) K (csC cs)) (repeat (Fin 0) (2 * length (g_rows g)) ++ csH cs) (sp_tol p) (Fin (csZ cs))).
      revert L. generalize (sp_itermax p') as f'. generalize (sp_itermax p) as f. intros f f'. revert f. clear. induction f' as [|f' IH]; intros f L s LR.
      + assert (f = 0)%nat by lia. subst f. reflexivity.
      + destruct f as [|f]; [simpl in LR; lia|]. simpl in LR |- *. destruct (nltb _ _); auto. destruct (step lsolve S s) as [s1|]; auto.
        f_equal. apply IH; [lia|]. simpl in LR. lia.
  Qed.
  Lemma fin_default : nltb (Fin 1) (sp_packing p) = false -> length h = 1%nat.
  Proof.
    intros E. destruct (solve_inv _ _ _ _ _ _ HS) as (K & cs & HK & Hcs & ES & Eh). cbv zeta in ES, Eh. rewrite Eh, ES. unfold history.
    destruct (sp_itermax p); auto. cbn [run init_state st_rl sy_packing]. rewrite E. reflexivity.
  Qed.

  Hypothesis noflag : ~ flag_set (g_attrs g).
  Hypothesis tols : tolerances_ok p.
  Lemma fin_finite s : In s h -> reliable lsolve m g p S s -> finite_vec (st_u S s) /\ finite_vec (st_f S s) /\ exists z, st_Z s = Fin z.
  Proof.
    intros Hs (RL & T). destruct (solve_inv _ _ _ _ _ _ HS) as (K & cs & HK & Hcs & ES & Eh). cbv zeta in ES, Eh. rewrite Eh in Hs.
    apply history_reach in Hs. rewrite ES in *. apply (api_finite lsolve m g p K cs HK Hcs noflag tols RL s Hs T).
  Qed.
  Lemma start_satisfies cs : constraint m g = Ok cs -> admissible_start m g -> satisfies (csC cs) (csH cs) [].
  Proof.
    intros Hcs [H1 H2]. apply (cons_admissible m g cs Hcs noflag). split; auto. intros i d hh Hd Hh.
    destruct (top_spec m g cs Hcs) as [T _]. specialize (T i d hh Hd Hh). specialize (H1 i d hh Hd Hh).
    assert (Z : disp [] i == 0) by (unfold disp; destruct (2 * i)%nat; reflexivity). rewrite Z. split; qlra.
  Qed.
  Lemma fin_feasible cs s : constraint m g = Ok cs -> In s h -> reliable lsolve m g p S s -> admissible_start m g ->
    satisfies_upto (sp_errtol p * travel S s) (csC cs) (st_H S s) (vals (st_u S s)).
  Proof.
    intros Hcs' Hs (RL & T) HA. pose proof (start_satisfies cs Hcs' HA) as H0.
    destruct (solve_inv _ _ _ _ _ _ HS) as (K & cs' & HK & Hcs & ES & Eh). assert (cs' = cs) by congruence. subst cs'. cbv zeta in ES, Eh. rewrite Eh in Hs.
    apply history_reach in Hs. rewrite ES in *. apply (api_feasible lsolve m g p K cs HK Hcs noflag tols RL s Hs T H0).
  Qed.
  Lemma fin_admissible s : In s h -> reliable lsolve m g p S s -> admissible_start m g -> sp_errtol p == 0 ->
    exists z, st_Z s = Fin z /\ in_slab m g z (vals (st_u S s)) /\ no_overlap m g (vals (st_u S s)).
  Proof.
    intros Hs R HA E0. destruct (fin_finite s Hs R) as (_ & _ & z & Ez). exists z. split; auto.
    destruct R as (RL & T). destruct (solve_inv _ _ _ _ _ _ HS) as (K & cs & HK & Hcs & ES & Eh). pose proof (start_satisfies cs Hcs HA) as H0.
    cbv zeta in ES, Eh. rewrite Eh in Hs. apply history_reach in Hs. rewrite ES in *.
    pose proof (api_admissible lsolve m g p K cs HK Hcs noflag tols RL s Hs T H0 E0) as A. rewrite Ez in A. exact A.
  Qed.
  Lemma fin_load s : In s h -> reliable lsolve m g p S s -> forall v, In v (st_F S s) -> exists z, v = Fin z /\ z == 0.
  Proof.
    intros Hs (RL & T) v Hv. destruct (solve_inv _ _ _ _ _ _ HS) as (K & cs & HK & Hcs & ES & Eh). cbv zeta in ES, Eh.
    destruct (fin_lengths cs Hcs s Hs) as (_ & LF & _). rewrite Eh in Hs. apply history_reach in Hs.
    apply In_nth_error in Hv. destruct Hv as (r & Hr). assert (L : (r < 2 * length (g_rows g))%nat) by (rewrite <- LF; apply nth_error_Some; congruence).
    rewrite ES in *. destruct (F_zero lsolve m g p K cs HK Hcs noflag tols RL s Hs T r L) as (z & Ez & Z0). exists z. split; auto. congruence.
  Qed.
  Lemma fin_balance K cs s : stiffness m g (sp_lmin p) (sp_lmax p) (sp_coupling p) = Ok K -> constraint m g = Ok cs ->
    In s h -> reliable lsolve m g p S s -> errors_below_tol S s ->
    forall r, (r < 2 * length (g_rows g))%nat -> (forall c v, In (r, c, v) K -> exists q, v = Fin q) ->
    near0 (sp_errtol p * travel S s) (product K (vals (st_u S s)) r + transpose_product (csC cs) (vals (st_f S s)) r).
  Proof.
    intros HK' Hcs' Hs (RL & T) SL r L HR. destruct (solve_inv _ _ _ _ _ _ HS) as (K2 & cs2 & HK & Hcs & ES & Eh).
    assert (cs2 = cs) by congruence. assert (K2 = K) by congruence. subst cs2 K2. cbv zeta in ES, Eh. rewrite Eh in Hs. apply history_reach in Hs.
    rewrite ES in *. apply (api_balance lsolve m g p K cs HK Hcs noflag tols RL s Hs T SL r L HR).
  Qed.
  Lemma fin_displacements K cs s : stiffness m g (sp_lmin p) (sp_lmax p) (sp_coupling p) = Ok K -> constraint m g = Ok cs ->
    In s h -> reliable lsolve m g p S s -> errors_below_tol S s -> lengths_ok g (sp_lmin p) (sp_lmax p) -> finite_shear m ->
    forall i, (i < length (g_rows g))%nat ->
    near0 (sp_errtol p * travel S s) (product K (vals (st_u S s)) (2 * i) + transpose_product (csC cs) (vals (st_f S s)) (2 * i)).
  Proof.
    intros HK Hcs Hs R SL HL HG i Li. apply (fin_balance K cs s HK Hcs Hs R SL); [lia|].
    apply (disp_row m g _ _ _ K HK noflag i HL HG).
  Qed.
  Lemma fin_equilibrium K cs s : stiffness m g (sp_lmin p) (sp_lmax p) (sp_coupling p) = Ok K -> constraint m g = Ok cs ->
    In s h -> reliable lsolve m g p S s -> errors_below_tol S s -> lengths_ok g (sp_lmin p) (sp_lmax p) -> finite_moduli m ->
    forall r, (r < 2 * length (g_rows g))%nat ->
    near0 (sp_errtol p * travel S s) (product K (vals (st_u S s)) r + transpose_product (csC cs) (vals (st_f S s)) r).
  Proof.
    intros HK Hcs Hs R SL HL HG r Lr. apply (fin_balance K cs s HK Hcs Hs R SL); auto.
    intros c v Hv. apply (stiff_finite m g _ _ _ K HK noflag HL HG r c v Hv).
  Qed.
  Lemma fin_unbounded cs s r : constraint m g = Ok cs -> In s h -> reliable lsolve m g p S s -> nth_error (csH cs) r = Some PInf ->
    nth_error (st_H S s) r = Some PInf.
  Proof.
    intros Hcs' Hs (RL & T) Hr. destruct (solve_inv _ _ _ _ _ _ HS) as (K & cs2 & HK & Hcs & ES & Eh).
    assert (cs2 = cs) by congruence. subst cs2. cbv zeta in ES, Eh. rewrite Eh in Hs. apply history_reach in Hs.
    rewrite ES in *. apply (api_unbounded lsolve m g p K cs HK Hcs noflag tols RL s r Hs T Hr).
  Qed.
  Lemma fin_force cs s : constraint m g = Ok cs -> In s h -> reliable lsolve m g p S s -> sp_errtol p == 0 ->
    forall r, ~ nth r (vals (st_f S s)) 0 == 0 ->
    exists q, gap_is (csC cs) (st_H S s) (vals (st_u S s)) r q /\ q <= sp_tol p.
  Proof.
    intros Hcs' Hs (RL & T) E0. destruct (solve_inv _ _ _ _ _ _ HS) as (K & cs2 & HK & Hcs & ES & Eh).
    assert (cs2 = cs) by congruence. subst cs2. cbv zeta in ES, Eh. rewrite Eh in Hs. apply history_reach in Hs.
    rewrite ES in *. apply (api_force lsolve m g p K cs HK Hcs noflag tols RL s Hs T E0).
  Qed.
  Lemma fin_contact cs k s s' : constraint m g = Ok cs -> nth_error h k = Some s -> nth_error h (Datatypes.S k) = Some s' ->
    reliable lsolve m g p S s' -> sp_errtol p == 0 ->
    forall r q, gap_is (csC cs) (st_H S s) (vals (st_u S s)) r q -> q <= sp_tol p -> gap_is (csC cs) (st_H S s') (vals (st_u S s')) r q.
  Proof.
    intros Hcs' Hs Hs' (RL & T) E0. destruct (solve_inv _ _ _ _ _ _ HS) as (K & cs2 & HK & Hcs & ES & Eh).
    assert (cs2 = cs) by congruence. subst cs2. cbv zeta in ES, Eh. rewrite Eh in Hs, Hs'.
    destruct (history_next _ _ _ _ _ _ _ Hs Hs') as [Er Es]. apply nth_error_In in Hs. apply history_reach in Hs.
    rewrite ES in *. apply (api_contact lsolve m g p K cs HK Hcs noflag tols RL s s' Hs Es T Er E0).
  Qed.
  Lemma fin_step_force cs k s s' : constraint m g = Ok cs -> nth_error h k = Some s -> nth_error h (Datatypes.S k) = Some s' ->
    reliable lsolve m g p S s' -> sp_errtol p == 0 ->
    forall r, ~ nth r (vals (st_f S s')) 0 == 0 -> exists q, gap_is (csC cs) (st_H S s) (vals (st_u S s)) r q /\ q <= sp_tol p.
  Proof.
    intros Hcs' Hs Hs' (RL & T) E0. destruct (solve_inv _ _ _ _ _ _ HS) as (K & cs2 & HK & Hcs & ES & Eh).
    assert (cs2 = cs) by congruence. subst cs2. cbv zeta in ES, Eh. rewrite Eh in Hs, Hs'.
    destruct (history_next _ _ _ _ _ _ _ Hs Hs') as [Er Es]. apply nth_error_In in Hs. apply history_reach in Hs.
    rewrite ES in *. apply (api_step_force lsolve m g p K cs HK Hcs noflag tols RL s s' Hs Es T Er E0).
  Qed.
  Lemma fin_steps cs k s : constraint m g = Ok cs -> nth_error h k = Some s -> reliable lsolve m g p S s -> errors_below_tol S s ->
    (k <= length (csH cs))%nat.
  Proof.
    intros Hcs' Hs (RL & T) SL. destruct (solve_inv _ _ _ _ _ _ HS) as (K & cs2 & HK & Hcs & ES & Eh).
    assert (cs2 = cs) by congruence. subst cs2. cbv zeta in ES, Eh. rewrite Eh in Hs. rewrite ES in *.
    apply (api_steps lsolve m g p K cs HK Hcs noflag tols RL _ k s Hs T SL).
  Qed.
  Lemma fin_terminates cs : constraint m g = Ok cs -> (forall s, In s h -> reliable lsolve m g p S s /\ errors_below_tol S s) ->
    (length h <= Datatypes.S (length (csH cs)))%nat.
  Proof.
    intros Hcs HR. destruct (nth_error h (pred (length h))) as [s|] eqn:Hk.
    - destruct (HR s (nth_error_In _ _ Hk)) as [R SL]. pose proof (fin_steps cs _ s Hcs Hk R SL). lia.
    - apply nth_error_None in Hk. lia.
  Qed.
  Lemma fin_down k s s' : nth_error h k = Some s -> nth_error h (Datatypes.S k) = Some s' -> reliable lsolve m g p S s' ->
    exists z0 z z', sy_Z0 S = Fin z0 /\ st_Z s = Fin z /\ st_Z s' = Fin z' /\ z' < z /\ st_rl s' = ndiv (Fin z0) (Fin z').
  Proof.
    intros Hs Hs' (RL & T). destruct (solve_inv _ _ _ _ _ _ HS) as (K & cs & HK & Hcs & ES & Eh). cbv zeta in ES, Eh. rewrite Eh in Hs, Hs'.
    destruct (history_next _ _ _ _ _ _ _ Hs Hs') as [Er Es]. apply nth_error_In in Hs. apply history_reach in Hs.
    rewrite ES in *. destruct (api_down lsolve m g p K cs HK Hcs noflag tols RL s s' Hs Es T Er) as (z & z' & H). exists (csZ cs), z, z'. split; auto.
  Qed.
  Lemma fin_ratio s : In s h -> reliable lsolve m g p S s -> exists z0 z, sy_Z0 S = Fin z0 /\ st_Z s = Fin z /\ z <= z0 /\
    (0 < z -> exists r, st_rl s = Fin r /\ r == z0 / z).
  Proof.
    intros Hs R. destruct (fin_finite s Hs R) as (_ & _ & z & Ez). destruct R as (RL & T).
    destruct (solve_inv _ _ _ _ _ _ HS) as (K & cs & HK & Hcs & ES & Eh). cbv zeta in ES, Eh. rewrite Eh in Hs. apply history_reach in Hs.
    exists (csZ cs), z. rewrite ES in *. split; [reflexivity|]. split; [exact Ez|].
    destruct (w_well lsolve m g p K cs HK Hcs noflag tols RL s Hs T) as (_ & L & _). unfold zz in L. rewrite Ez in L. cbn [qof init_state st_Z] in L.
    split; [exact L|]. intros Lz. destruct Hs as [|s s' R Er Es].
    - exists 1. split; [reflexivity|]. simpl in Ez. injection Ez as <-. field. lra.
    - exists (csZ cs / z). split; [|reflexivity]. unfold step in Es.
      destruct (py_min _); [|discriminate Es]. destruct (err_gt _ _); [discriminate Es|]. injection Es as Es. rewrite <- Es in Ez |- *.
      cbn [st_Z st_rl] in *. rewrite Ez. cbn [sy_Z0]. unfold ndiv. destruct (Qeqb z 0) eqn:E; [qb; lra|reflexivity].
  Qed.
  Lemma fin_compacts k s s' : nth_error h k = Some s -> nth_error h (Datatypes.S k) = Some s' -> reliable lsolve m g p S s -> reliable lsolve m g p S s' ->
    exists z z', st_Z s = Fin z /\ st_Z s' = Fin z' /\ z' < z /\
      (0 < z' -> exists r r', st_rl s = Fin r /\ st_rl s' = Fin r' /\ r < r').
  Proof.
    intros Hs Hs' R R'. destruct (fin_down k s s' Hs Hs' R') as (_ & z & z' & _ & Ez & Ez' & L & _). exists z, z'. repeat split; auto. intros L0.
    destruct (fin_ratio s (nth_error_In _ _ Hs) R) as (z0 & a & E0 & Ea & La & Ra). assert (a = z) by congruence. subst a.
    destruct (fin_ratio s' (nth_error_In _ _ Hs') R') as (z1 & b & E1 & Eb & Lb & Rb). assert (b = z') by congruence. assert (z1 = z0) by congruence. subst b z1.
    destruct (Ra ltac:(lra)) as (r & Er & Qr). destruct (Rb L0) as (r' & Er' & Qr'). exists r, r'. repeat split; auto. rewrite Qr, Qr'.
    apply Qlt_shift_div_l; [lra|]. assert (E : z0 / z * z' == z0 * (z' / z)) by (field; lra). rewrite E.
    assert (z' / z < 1) by (apply Qlt_shift_div_r; lra). rewrite <- (Qmult_1_r z0) at 2. apply Qmult_lt_l; lra.
  Qed.
  Lemma fin_packing s : In s h -> reliable lsolve m g p S s -> admissible_start m g -> sp_errtol p == 0 ->
    forall i d hh, is_node (g_rows g) i d -> thick m d hh -> 0 < hh ->
    exists z0 z rl, sy_Z0 S = Fin z0 /\ st_Z s = Fin z /\ hh <= z /\ st_rl s = Fin rl /\ rl * hh <= z0.
  Proof.
    intros Hs R HA E0 i d hh Hd Hh L0. destruct (fin_finite s Hs R) as (_ & _ & z & Ez).
    destruct (fin_admissible s Hs R HA E0) as (z' & Ez' & IS & _). assert (z' = z) by congruence. subst z'.
    destruct (IS i d hh Hd Hh) as [I1 I2]. assert (Lz : hh <= z) by qlra.
    destruct (solve_inv _ _ _ _ _ _ HS) as (K & cs & HK & Hcs & ES & Eh). cbv zeta in ES, Eh. rewrite Eh in Hs. apply history_reach in Hs.
    destruct (top_spec m g cs Hcs) as [T _]. specialize (T i d hh Hd Hh).
    assert (HZ : hh <= csZ cs) by (destruct HA as [H1 _]; specialize (H1 i d hh Hd Hh); qlra).
    exists (csZ cs), z. assert (RL : st_rl s = Fin 1 \/ st_rl s = ndiv (Fin (csZ cs)) (Fin z)).
    { rewrite <- Ez. clear -Hs ES. destruct Hs as [|s s' R Er Es]; [left; reflexivity|right]. unfold step in Es.
      destruct (py_min _); [|discriminate Es]. destruct (err_gt _ _); [discriminate Es|]. injection Es as <-. rewrite ES. reflexivity. }
    destruct RL as [RL|RL].
    - exists 1. rewrite ES. simpl. repeat split; auto. lra.
    - exists (csZ cs / z). rewrite ES. simpl. rewrite RL. unfold ndiv. destruct (Qeqb z 0) eqn:E; [qb; lra|].
      repeat split; auto. assert (E1 : csZ cs / z * z == csZ cs) by (field; lra).
      assert (L1 : 0 <= csZ cs / z) by (apply Qle_shift_div_l; lra). assert (0 <= csZ cs / z * (z - hh)) by (apply Qmult_le_0_compat; lra). lra.
  Qed.
  Lemma fin_fiber cs s fb : constraint m g = Ok cs -> In s h -> reliable lsolve m g p S s -> errors_below_tol S s ->
    lengths_ok g (sp_lmin p) (sp_lmax p) -> finite_shear m ->
    near0 (inject_Z (Z.of_nat (length (nodes_of g fb))) * (sp_errtol p * travel S s)) (fiber_force (csC cs) g (vals (st_f S s)) fb).
  Proof.
    intros Hcs' Hs (RL & T). destruct (solve_inv _ _ _ _ _ _ HS) as (K & cs2 & HK & Hcs & ES & Eh).
    assert (cs2 = cs) by congruence. subst cs2. cbv zeta in ES, Eh. rewrite Eh in Hs. apply history_reach in Hs.
    rewrite ES in *. apply (api_fiber lsolve m g p K cs HK Hcs noflag tols RL s fb Hs T).
  Qed.
  Lemma fin_total cs k s : constraint m g = Ok cs -> length (csH cs) = (3 * k)%nat -> In s h -> reliable lsolve m g p S s -> errors_below_tol S s ->
    lengths_ok g (sp_lmin p) (sp_lmax p) -> finite_shear m ->
    near0 (inject_Z (Z.of_nat (length (g_rows g))) * (sp_errtol p * travel S s))
      (lid_force (vals (st_f S s)) k - floor_force (vals (st_f S s)) k).
  Proof.
    intros Hcs' EL Hs (RL & T). destruct (solve_inv _ _ _ _ _ _ HS) as (K & cs2 & HK & Hcs & ES & Eh).
    assert (cs2 = cs) by congruence. subst cs2.
    cbv zeta in ES, Eh. rewrite Eh in Hs. apply history_reach in Hs. pose proof (csH_len m g cs Hcs) as L.
    assert (k = length (cons_pairs (g_rows g))) by lia. subst k.
    rewrite ES in *. apply (api_total lsolve m g p K cs HK Hcs noflag tols RL s Hs T).
  Qed.
  Lemma fin_rotation s : In s h -> reliable lsolve m g p S s -> forall i d f, is_node (g_rows g) i d -> has_fiber m (nf d) f -> qE f = PInf ->
    rot (vals (st_u S s)) i == 0.
  Proof.
    intros Hs (RL & T). destruct (solve_inv _ _ _ _ _ _ HS) as (K & cs & HK & Hcs & ES & Eh).
    cbv zeta in ES, Eh. rewrite Eh in Hs. apply history_reach in Hs.
    rewrite ES in *. apply (api_rotation lsolve m g p K cs HK Hcs noflag tols RL s Hs T).
  Qed.

  (** C66, C67 *)
  Lemma fin_mask_start cs s : constraint m g = Ok cs -> nth_error h 0 = Some s ->
    length (st_mask s) = (2 * length (g_rows g) + length (csH cs))%nat /\
    forall r, nth (2 * length (g_rows g) + r) (st_mask s) false = true <-> exists q, gap_is (csC cs) (st_H S s) (vals (st_u S s)) r q /\ q <= sp_tol p.
  Proof.
    intros Hcs' Hs. destruct (solve_inv _ _ _ _ _ _ HS) as (K & cs2 & HK & Hcs & ES & Eh).
    assert (cs2 = cs) by congruence. subst cs2. cbv zeta in ES, Eh. rewrite Eh in Hs. cbn [history nth_error] in Hs. injection Hs as <-. split.
    - cbn [st_mask init_state]. rewrite map_length, gaps_length, app_length, repeat_length. reflexivity.
    - rewrite ES. apply (mask_start m g p K cs HK Hcs noflag).
  Qed.
  Lemma fin_mask_next cs k s s' : constraint m g = Ok cs -> nth_error h k = Some s -> nth_error h (Datatypes.S k) = Some s' -> reliable lsolve m g p S s ->
    length (st_mask s') = (2 * length (g_rows g) + length (csH cs))%nat /\
    (forall r, nth (2 * length (g_rows g) + r) (st_mask s') false = true <-> exists q, gap_is (csC cs) (st_H S s) (vals (st_u S s)) r q /\ q <= sp_tol p) /\
    forall i d f, is_node (g_rows g) i d -> has_fiber m (nf d) f -> qE f = PInf -> nth (2 * i + 1) (st_mask s') false = false.
  Proof.
    intros Hcs' Hs Hs' (RL & T). destruct (solve_inv _ _ _ _ _ _ HS) as (K & cs2 & HK & Hcs & ES & Eh).
    assert (cs2 = cs) by congruence. subst cs2. cbv zeta in ES, Eh. rewrite Eh in Hs, Hs'.
    destruct (history_next _ _ _ _ _ _ _ Hs Hs') as [Er Es]. apply nth_error_In in Hs. apply history_reach in Hs.
    rewrite (mask_step _ _ _ _ Es). rewrite ES in *.
    pose proof (w_well lsolve m g p K cs HK Hcs noflag tols RL s Hs T) as (I & _). split; [|split].
    - unfold active. rewrite map_length, combine_length, seq_length, gaps_length, (inv_q _ s I), Nat.min_id.
      cbn [sy_dq]. rewrite app_length, repeat_length, (csdH_len m g cs Hcs), (csH_len m g cs Hcs). reflexivity.
    - intros r. exact (act_gap lsolve m g p K cs HK Hcs noflag tols RL s r Hs T).
    - intros i d f Hd Hf EE. apply not_true_iff_false. exact (stiff_idle m g p K cs HK Hcs noflag s i d f I Hd Hf EE).
  Qed.
  Lemma fin_new cs k s s' : constraint m g = Ok cs -> nth_error h k = Some s -> nth_error h (Datatypes.S k) = Some s' -> reliable lsolve m g p S s' ->
    errors_below_tol S s ->
    exists r q q', gap_is (csC cs) (st_H S s) (vals (st_u S s)) r q /\ sp_tol p < q /\ gap_is (csC cs) (st_H S s') (vals (st_u S s')) r q' /\ q' == 0.
  Proof.
    intros Hcs' Hs Hs' (RL & T). destruct (solve_inv _ _ _ _ _ _ HS) as (K & cs2 & HK & Hcs & ES & Eh).
    assert (cs2 = cs) by congruence. subst cs2. cbv zeta in ES, Eh. rewrite Eh in Hs, Hs'.
    destruct (history_next _ _ _ _ _ _ _ Hs Hs') as [Er Es]. apply nth_error_In in Hs. apply history_reach in Hs.
    rewrite ES in *. apply (api_new lsolve m g p K cs HK Hcs noflag tols RL s s' Hs Es T Er).
  Qed.
  Lemma fin_bounds cs s r b : constraint m g = Ok cs -> In s h -> reliable lsolve m g p S s -> nth_error (csH cs) r = Some (Fin b) ->
    exists d q, nth_error (csdH cs) r = Some (Fin d) /\ nth_error (st_H S s) r = Some (Fin q) /\ q == b - d * travel S s.
  Proof.
    intros Hcs' Hs (RL & T). destruct (solve_inv _ _ _ _ _ _ HS) as (K & cs2 & HK & Hcs & ES & Eh).
    assert (cs2 = cs) by congruence. subst cs2. cbv zeta in ES, Eh. rewrite Eh in Hs. apply history_reach in Hs.
    rewrite ES in *. apply (api_bounds lsolve m g p K cs HK Hcs noflag tols RL s r b Hs T).
  Qed.
  (** the mask of a state misses the contact just made *)
  (** the recorded bounds are those of the constraint with the lid at the recorded height *)
  Lemma H_kind cs r : constraint m g = Ok cs -> forall b, nth_error (csH cs) r = Some b -> b = PInf \/ exists q, b = Fin q.
  Proof.
    intros Hcs b Hb. destruct (cons_inv m g cs Hcs) as (_ & _ & _ & t0 & t & _ & E). rewrite E in Hb. cbn [csH] in Hb.
    apply nth_error_In, in_flat_map in Hb. destruct Hb as ((i & j) & _ & Hb). unfold h_rows in Hb. cbn [fst snd] in Hb.
    destruct Hb as [<-|[<-|[<-|[]]]]; eauto. destruct (Nat.eqb i j); eauto.
  Qed.
  Lemma dH_finite cs r : constraint m g = Ok cs -> forall b, nth_error (csdH cs) r = Some b -> exists q, b = Fin q.
  Proof.
    intros Hcs b Hb. destruct (cons_inv m g cs Hcs) as (_ & _ & _ & t0 & t & _ & E). rewrite E in Hb. cbn [csdH] in Hb.
    apply nth_error_In, in_flat_map in Hb. destruct Hb as (x & _ & [<-|[<-|[<-|[]]]]); eauto.
  Qed.
  Lemma fin_region cs s z : constraint m g = Ok cs -> In s h -> reliable lsolve m g p S s -> st_Z s = Fin z ->
    forall u, satisfies (csC cs) (st_H S s) u <-> in_slab m g z u /\ no_overlap m g u.
  Proof.
    intros Hcs Hs R Ez u.
    assert (ET : travel S s = csZ cs - z).
    { unfold travel. rewrite Ez. destruct (solve_inv _ _ _ _ _ _ HS) as (K & cs2 & _ & Hcs2 & ES & _). assert (cs2 = cs) by congruence. subst cs2. rewrite ES. reflexivity. }
    assert (EQ : csZ cs + (z - csZ cs) == z) by ring.
    assert (IS : in_slab m g z u <-> in_slab m g (csZ cs + (z - csZ cs)) u).
    { split; intros I i d hh Hd Hh; destruct (I i d hh Hd Hh); split; lra. }
    rewrite IS, <- (cons_moved m g cs Hcs noflag (z - csZ cs) u). 
    assert (LD : length (csdH cs) = length (csH cs)) by (rewrite (csdH_len m g cs Hcs), (csH_len m g cs Hcs); reflexivity).
    assert (LH : length (st_H S s) = length (csH cs)) by (apply (fin_lengths cs Hcs s Hs)).
    assert (N : forall r b, nth_error (csH cs) r = Some b -> exists c, nth_error (csdH cs) r = Some (Fin c) /\
       nth_error (bounds_at (csH cs) (csdH cs) (z - csZ cs)) r = Some (nadd b (Fin ((z - csZ cs) * c)))).
    { intros r b Hb. assert (L : (r < length (csdH cs))%nat) by (rewrite LD; apply nth_error_Some; congruence).
      destruct (nth_error (csdH cs) r) as [c|] eqn:Ec; [|apply nth_error_None in Ec; lia]. destruct (dH_finite cs r Hcs c Ec) as (d & ->). exists d. split; auto.
      unfold bounds_at. rewrite nth_error_map, (combine_nth_error _ _ _ _ _ Hb Ec). reflexivity. }
    assert (G : forall r b, nth_error (csH cs) r = Some b -> (exists x, b = Fin x /\ exists q y, nth_error (st_H S s) r = Some (Fin q) /\
        nth_error (bounds_at (csH cs) (csdH cs) (z - csZ cs)) r = Some (Fin y) /\ q == y) \/
        (nth_error (st_H S s) r = Some PInf /\ nth_error (bounds_at (csH cs) (csdH cs) (z - csZ cs)) r = Some PInf)).
    { intros r b Hb. destruct (N r b Hb) as (c & Ec & Eb). destruct (H_kind cs r Hcs b Hb) as [->|(x & ->)].
      - right. split; [apply (fin_unbounded cs s r Hcs Hs R Hb)|exact Eb].
      - left. exists x. split; auto. destruct (fin_bounds cs s r x Hcs Hs R Hb) as (d & q & Ed & Eq' & Q). assert (d = c) by congruence. subst d.
        exists q, (x + (z - csZ cs) * c). split; auto. split; [exact Eb|]. rewrite Q, ET. ring. }
    assert (LB : length (bounds_at (csH cs) (csdH cs) (z - csZ cs)) = length (csH cs)) by (unfold bounds_at; rewrite map_length, combine_length; lia).
    assert (X : forall r b (l : list num), length l = length (csH cs) -> nth_error l r = Some b -> exists b0, nth_error (csH cs) r = Some b0).
    { intros r b l L Hb. destruct (nth_error (csH cs) r) eqn:E; eauto. apply nth_error_None in E. assert (r < length l)%nat by (apply nth_error_Some; congruence). lia. }
    split; intros SA r b Hb.
    - destruct (X r b _ LB Hb) as (b0 & Hb0). destruct (G r b0 Hb0) as [(x & _ & q & y & E1 & E2 & Q)|(E1 & E2)].
      + rewrite E2 in Hb. injection Hb as <-. specialize (SA r _ E1). apply nleb_fin in SA. apply nleb_fin. lra.
      + rewrite E2 in Hb. injection Hb as <-. reflexivity.
    - destruct (X r b _ LH Hb) as (b0 & Hb0). destruct (G r b0 Hb0) as [(x & _ & q & y & E1 & E2 & Q)|(E1 & E2)].
      + rewrite E1 in Hb. injection Hb as <-. specialize (SA r _ E2). apply nleb_fin in SA. apply nleb_fin. lra.
      + rewrite E1 in Hb. injection Hb as <-. reflexivity.
  Qed.
  Lemma fin_mask_late cs k s s' : constraint m g = Ok cs -> nth_error h k = Some s -> nth_error h (Datatypes.S k) = Some s' -> reliable lsolve m g p S s ->
    reliable lsolve m g p S s' -> errors_below_tol S s ->
    exists r q, gap_is (csC cs) (st_H S s') (vals (st_u S s')) r q /\ q == 0 /\ nth (2 * length (g_rows g) + r) (st_mask s') false = false.
  Proof.
    intros Hcs Hs Hs' R R' SL. destruct (fin_new cs k s s' Hcs Hs Hs' R' SL) as (r & q & q' & (b & Hb & Eq) & Lq & G' & E'). exists r, q'. split; auto. split; auto.
    destruct (fin_mask_next cs k s s' Hcs Hs Hs' R) as (_ & HM & _). apply not_true_iff_false. intros C. apply HM in C.
    destruct C as (q2 & (b2 & Hb2 & Eq2) & L2). rewrite Hb2 in Hb. injection Hb as ->. rewrite <- Eq in Eq2. rewrite Eq2 in L2. lra.
  Qed.
End Fin.

(** ** Failing solvers *)
Section Prefix.
  Variables lsolve lsolve' : ncoo -> list num -> list num.
  Variable m : qmat.
  Variable g : mesh_df.
  Variable p : solve_params.
  Hypothesis noflag : ~ flag_set (g_attrs g).
  Hypothesis tols : tolerances_ok p.
  Hypothesis lens : right_length lsolve'.
  Hypothesis fnan : finite_or_nan lsolve'.
  Hypothesis alt : forall A b, lsolve' A b = lsolve A b \/ forall v, In v (lsolve' A b) -> v = NaN.

  Lemma fin_prefix S h S' h' : solve lsolve m g p = Ok (S, h) -> solve lsolve' m g p = Ok (S', h') ->
    (forall s, In s h' -> failures_detectable m g p S' s) -> S' = S /\ exists k, h' = firstn k h.
  Proof.
    intros HS HS' HF.
    destruct (solve_inv _ _ _ _ _ _ HS) as (K & cs & HK & Hcs & ES & Eh).
    destruct (solve_inv _ _ _ _ _ _ HS') as (K' & cs' & HK' & Hcs' & ES' & Eh').
    assert (K' = K) by congruence. assert (cs' = cs) by congruence. subst K' cs'. cbv zeta in *.
    assert (EE : S' = S) by congruence. split; auto. rewrite EE in *. clear EE HS HS'. rewrite Eh, Eh' in *. clear Eh Eh'. unfold history in *.
    set (s0 := init_state _ _ _ _) in *.
    assert (G : forall f s, reach lsolve' S s0 s -> (forall a, In a (s :: run lsolve' S f s) -> failures_detectable m g p S a) ->
      exists k, run lsolve' S f s = firstn k (run lsolve S f s)).
    { induction f as [|f IH]; intros s R D; [exists 0%nat; reflexivity|]. simpl. destruct (nltb (st_rl s) (sy_packing S)) eqn:Er; [|exists 0%nat; reflexivity].
      assert (Hs : failures_detectable m g p S s) by (apply D; left; reflexivity).
      destruct (alt (submatrix (sy_P S) (ps S s)) (map (fun r => nth r (sy_dq S) NaN) (ps S s))) as [E|E].
      - rewrite <- (step_same lsolve' lsolve S s E). destruct (step lsolve' S s) as [s1|] eqn:Es; [|exists 0%nat; reflexivity].
        destruct (IH s1) as (k & Ek); [eapply reachS; eauto| |exists (Datatypes.S k); simpl; congruence].
        intros a Ha. apply D. simpl. rewrite Er, Es. right. exact Ha.
      - assert (step lsolve' S s = None); [|exists 0%nat; rewrite H; reflexivity].
        rewrite ES in *. apply (api_nan lsolve' m g p K cs HK Hcs noflag tols lens s R fnan Hs E). }
    destruct (G (sp_itermax p) s0 (reach0 _ _ _) HF) as (k & Ek). exists (Datatypes.S k). simpl. f_equal. exact Ek.
  Qed.
End Prefix.

(** ** Stacked meshes *)
Lemma stack_noflag linprog m per t thr st m' g : net_new m per None = Ok t -> solved linprog m t ->
  stack_new linprog m t thr = Ok (st, m') -> mesh_new st = Ok g -> ~ flag_set (g_attrs g).
Proof.
  intros Hn Hsol Hst Hg. pose proof (mesh_new_inv _ _ Hg) as Hi.
  destruct (built_inv linprog m per t Hn Hsol thr st m' Hst) as (p & Ep & _ & HS & EH & full & Hfull & Est).
  destruct (init_inv st g Hi) as (_ & Eg). rewrite Eg. simpl. rewrite Est.
  destruct (new_facts _ _ _ _ Hfull) as (_ & _ & _ & Hf & _). destruct thr; exact Hf.
Qed.
Lemma stack_admissible linprog m per t thr st m' g s : net_new m per None = Ok t -> solved linprog m t -> all_in_plane m ->
  stack_new linprog m t thr = Ok (st, m') -> mesh_new st = Ok g -> constraint m' g = Ok s -> admissible_start m' g.
Proof.
  intros Hn Hsol HP Hst Hg Hs. pose proof (stack_noflag _ _ _ _ _ _ _ _ Hn Hsol Hst Hg) as NF.
  assert (Z : forall r, nth r (@nil Q) 0 == 0) by (intros [|r]; reflexivity).
  pose proof (stack_start _ _ _ _ _ _ _ _ _ Hn Hsol HP Hst Hg Hs [] Z) as H0.
  apply (cons_admissible m' g s Hs NF) in H0. destruct H0 as [H1 H2]. split; auto.
  intros i d h Hd Hh. destruct (H1 i d h Hd Hh) as [H _]. unfold disp in H. rewrite Z in H. lra.
Qed.

Lemma solve_total lsolve m g p : valid m -> mesh_ok g -> at_n (g_attrs g) = Some (Z.of_nat (length (q_rows m))) ->
  (exists i j d e, beam_element g i j d e) -> exists S h, solve lsolve m g p = Ok (S, h).
Proof.
  intros Hv HM Hn HB. destruct (stiffness_total m g (sp_lmin p) (sp_lmax p) (sp_coupling p) Hv HM Hn HB) as (K & HK).
  assert (NE : g_rows g <> []). { destruct HB as (i & j & d & e & (l & H) & _). intros E. rewrite E in H. destruct i; discriminate H. }
  destruct (mesh_constraint_total m g Hv HM NE Hn) as (cs & Hcs). unfold solve, assemble. rewrite HK. cbn [bind]. rewrite Hcs. cbn [bind]. eauto.
Qed.
