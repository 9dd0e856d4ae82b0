(** The targets of the solver only tell when to stop. *)
From Verif Require Import Num NumP ListX ListP Frames MatM NetM StackM MeshM ModelM SolverM InterpM ResultM ErrorM Spec SpecNet SpecStack SpecMesh SpecModel SpecSolver SpecInterp SpecTargets
  InterpP StiffLimP SolverP SolverSysP SolverFinP ResultP.
Open Scope Q_scope.

Lemma nltb_nleb x y z : nltb x y = true -> nleb y z = true -> nltb x z = true.
Proof.
  unfold nleb. intros H1 H2. apply orb_true_iff in H2.
  destruct x as [x| | |], y as [y| | |], z as [z| | |]; destruct H2 as [H2|H2]; simpl in *; try discriminate; auto; qb; lra.
Qed.
Lemma err_gt_le e a b : a <= b -> err_gt e a = false -> err_gt e b = false.
Proof.
  unfold err_gt. intros L H. destruct (Qltb a 0) eqn:A.
  - destruct e; try discriminate H. destruct (Qltb b 0); reflexivity.
  - qb. assert (B : Qltb b 0 = false) by (qb; lra). rewrite B. destruct e as [e| | |]; simpl in *; try discriminate; auto.
    qb. unfold sq in *. assert (a * a <= b * b) by nra. lra.
Qed.

(** systems that differ by the targets *)
Definition retarget (S : sysdata) (e : Q) (c : num) : sysdata :=
  mkSys (sy_nu S) (sy_P S) (sy_dq S) (sy_perm S) (sy_tol S) e c (sy_Z0 S).
Lemma step_further lsolve S e c e' c' s s1 : e <= e' -> step lsolve (retarget S e c) s = Some s1 -> step lsolve (retarget S e' c') s = Some s1.
Proof.
  intros L. unfold step. change (ratios (retarget S e c)) with (ratios S). change (ratios (retarget S e' c')) with (ratios S).
  cbn [retarget sy_P sy_dq sy_errtol sy_Z0].
  change (increment lsolve (retarget S e c)) with (increment lsolve S). change (active (retarget S e c)) with (active S). change (error2 (retarget S e c)) with (error2 S).
  change (increment lsolve (retarget S e' c')) with (increment lsolve S). change (active (retarget S e' c')) with (active S). change (error2 (retarget S e' c')) with (error2 S).
  destruct (py_min _) as [d|]; [|discriminate]. destruct (err_gt _ e) eqn:E; [discriminate|]. rewrite (err_gt_le _ _ _ L E). auto.
Qed.
(** a step refused with the lower error tolerance only *)
Lemma step_refused lsolve S e c e' c' s s1 : step lsolve (retarget S e c) s = None -> step lsolve (retarget S e' c') s = Some s1 -> err_gt (st_err2 s1) e = true.
Proof.
  unfold step. change (ratios (retarget S e c)) with (ratios S). change (ratios (retarget S e' c')) with (ratios S).
  cbn [retarget sy_P sy_dq sy_errtol sy_Z0].
  change (increment lsolve (retarget S e c)) with (increment lsolve S). change (active (retarget S e c)) with (active S). change (error2 (retarget S e c)) with (error2 S).
  change (increment lsolve (retarget S e' c')) with (increment lsolve S). change (active (retarget S e' c')) with (active S). change (error2 (retarget S e' c')) with (error2 S).
  destruct (py_min _) as [d|]; [|discriminate]. destruct (err_gt _ e) eqn:E; [|discriminate]. destruct (err_gt _ e'); [discriminate|]. intros _ H. injection H as <-. exact E.
Qed.
Lemma run_further lsolve S e c e' c' : e <= e' -> nleb c c' = true -> forall f f' s, (f <= f')%nat ->
  exists l, run lsolve (retarget S e' c') f' s = run lsolve (retarget S e c) f s ++ l.
Proof.
  intros L C. induction f as [|f IH]; intros f' s LF; [exists (run lsolve (retarget S e' c') f' s); reflexivity|].
  destruct f' as [|f']; [lia|]. cbn [run]. change (sy_packing (retarget S e c)) with c. change (sy_packing (retarget S e' c')) with c'.
  destruct (nltb (st_rl s) c) eqn:E; [|eexists; reflexivity]. rewrite (nltb_nleb _ _ _ E C).
  destruct (step lsolve (retarget S e c) s) as [s1|] eqn:E1; [|eexists; reflexivity]. rewrite (step_further _ _ _ _ _ _ _ _ L E1).
  destruct (IH f' s1 ltac:(lia)) as (l & El). exists l. cbn [app]. rewrite El. reflexivity.
Qed.

Section Tg.
  Variables (lsolve : ncoo -> list num -> list num) (m : qmat) (g : mesh_df) (p p' : solve_params).
  Lemma tg_assemble : same_problem p p' ->
    match assemble m g p with
    | Ok (S0, s0) => S0 = retarget S0 (sp_errtol p) (sp_packing p) /\ assemble m g p' = Ok (retarget S0 (sp_errtol p') (sp_packing p'), s0)
    | Exn e => assemble m g p' = Exn e end.
  Proof.
    intros (E1 & E2 & E3 & E4 & E5). unfold assemble. rewrite E1, E2, E3, E4, E5.
    destruct (stiffness _ _ _ _ _) as [K|e]; cbn [bind]; [|reflexivity]. destruct (constraint m g) as [cs|e]; cbn [bind]; [|reflexivity]. split; reflexivity.
  Qed.
  Lemma tg_raise e : same_problem p p' -> solve lsolve m g p = Exn e -> solve lsolve m g p' = Exn e.
  Proof.
    intros H. pose proof (tg_assemble H) as A. unfold solve. destruct (assemble m g p) as [[S1 s0]|e1]; cbn [bind]; [discriminate|]. rewrite A. cbn [bind]. auto.
  Qed.
  Variables (S : sysdata) (h : list state).
  Hypothesis HS : solve lsolve m g p = Ok (S, h).
  Lemma tg_inv : same_problem p p' -> exists s0, S = retarget S (sp_errtol p) (sp_packing p) /\ h = history lsolve S (sp_itermax p) s0 /\
    solve lsolve m g p' = Ok (retarget S (sp_errtol p') (sp_packing p'), history lsolve (retarget S (sp_errtol p') (sp_packing p')) (sp_itermax p') s0).
  Proof.
    intros H. pose proof (tg_assemble H) as A. unfold solve in *. destruct (assemble m g p) as [[S1 s0]|e1]; [|discriminate HS]. cbn [bind fst snd] in HS.
    assert (E1 : S1 = S) by congruence. assert (E2 : h = history lsolve S1 (sp_itermax p) s0) by congruence. subst S1. destruct A as [A1 A2]. exists s0. rewrite A2. cbn [bind fst snd]. auto.
  Qed.
  Lemma tg_prefix : further p p' -> exists S' l, solve lsolve m g p' = Ok (S', h ++ l) /\
    (forall s, st_u S' s = st_u S s /\ st_f S' s = st_f S s /\ st_F S' s = st_F S s /\ st_H S' s = st_H S s).
  Proof.
    intros (HP & C & I & E). destruct (tg_inv HP) as (s0 & ES & Eh & H').
    destruct (run_further lsolve S (sp_errtol p) (sp_packing p) (sp_errtol p') (sp_packing p') E C _ _ s0 I) as (l & El).
    exists (retarget S (sp_errtol p') (sp_packing p')), l. split; [|intros s; repeat split; reflexivity].
    rewrite H', Eh. do 2 f_equal. unfold history. rewrite El, <- ES. reflexivity.
  Qed.
  Lemma tg_stop S' l s s' : further p p' -> solve lsolve m g p' = Ok (S', h ++ s' :: l) -> nth_error h (length h - 1) = Some s ->
    length h = Datatypes.S (sp_itermax p) \/ nltb (st_rl s) (sp_packing p) = false \/ err_gt (st_err2 s') (sp_errtol p) = true.
  Proof.
    intros (HP & C & I & E) H1 Es. destruct (tg_inv HP) as (s0 & ES & Eh & H'). rewrite H1 in H'.
    set (S2 := retarget S (sp_errtol p') (sp_packing p')) in *. assert (Eh' : h ++ s' :: l = history lsolve S2 (sp_itermax p') s0) by congruence. clear H1 H'.
    assert (P : (0 < length h)%nat) by (rewrite Eh; unfold history; simpl; lia).
    assert (LE : (length h <= Datatypes.S (sp_itermax p))%nat) by (rewrite Eh; unfold history; cbn [length]; apply le_n_S, run_length).
    destruct (Nat.eq_dec (length h) (Datatypes.S (sp_itermax p))) as [EL|NL]; [left; exact EL|]. right.
    destruct (history_last lsolve S (sp_itermax p) s0 (length h - 1) s) as [Q|Q]; [rewrite <- Eh; exact Es|rewrite <- Eh; lia|lia| |].
    - left. rewrite ES in Q. exact Q.
    - right. assert (N1 : nth_error (history lsolve S2 (sp_itermax p') s0) (length h - 1) = Some s) by (rewrite <- Eh', nth_error_app1 by lia; exact Es).
      assert (N2 : nth_error (history lsolve S2 (sp_itermax p') s0) (Datatypes.S (length h - 1)) = Some s').
      { rewrite <- Eh'. replace (Datatypes.S (length h - 1)) with (length h) by lia. rewrite nth_error_app2, Nat.sub_diag by lia. reflexivity. }
      destruct (history_next _ _ _ _ _ _ _ N1 N2) as [_ Q2]. rewrite ES in Q. exact (step_refused _ _ _ _ _ _ _ _ Q Q2).
  Qed.

  (** results *)
  Lemma tg_retime n n' k a t t' : (Datatypes.S k < n)%nat -> (n <= n')%nat -> t == param n k a -> retimed n n' t t' -> t' == param n' k a.
  Proof.
    intros L1 L2 Et Rt. unfold retimed in Rt. rewrite Et in Rt. pose proof (param_mul n ltac:(lia) k a) as P. unfold nq in P. rewrite P in Rt.
    unfold param. assert (D : ~ inject_Z (Z.of_nat (n' - 1)) == 0).
    { pose proof (d_pos n' ltac:(lia)) as D. unfold nq in D. lra. }
    rewrite <- Rt. field. exact D.
  Qed.

  Section Both.
    Variables (S' : sysdata) (l : list state) (t t' : Q).
    Hypothesis HS' : solve lsolve m g p' = Ok (S', h ++ l).
    Hypothesis HP : same_problem p p'.
    Hypothesis H2 : (2 <= length h)%nat.
    Hypothesis T0 : 0 <= t.
    Hypothesis T1 : t <= 1.
    Hypothesis RT : retimed (length h) (length (h ++ l)) t t'.
    Lemma tg_systems : S' = retarget S (sp_errtol p') (sp_packing p').
    Proof. destruct (tg_inv HP) as (s0 & _ & _ & H'). rewrite HS' in H'. congruence. Qed.
    Lemma tg_t' : 0 <= t' /\ t' <= 1.
    Proof.
      destruct (find_interval (length h) t H2 T0 T1) as (k & a & L & A0 & A1 & Et). assert (LL : (length h <= length (h ++ l))%nat) by (rewrite app_length; lia).
      pose proof (tg_retime _ _ _ _ _ _ L LL Et RT) as Et'. destruct (param_range (length (h ++ l)) k a ltac:(lia) A0 A1) as [P0 P1]. split; lra.
    Qed.
    Lemma tg_floor : Qfloor (t' * inject_Z (Z.of_nat (length (h ++ l) - 1))) = Qfloor (t * inject_Z (Z.of_nat (length h - 1))).
    Proof. apply Qfloor_comp. exact RT. Qed.
    Lemma tg_index : (Z.to_nat (Qfloor (t * inject_Z (Z.of_nat (length h - 1)))) < length h)%nat.
    Proof.
      set (q := t * inject_Z (Z.of_nat (length h - 1))). assert (U : q <= inject_Z (Z.of_nat (length h - 1))).
      { unfold q. setoid_replace (inject_Z (Z.of_nat (length h - 1))) with (1 * inject_Z (Z.of_nat (length h - 1))) at 2 by ring.
        apply Qmult_le_compat_r; auto. change 0 with (inject_Z 0). rewrite <- Zle_Qle. lia. }
      pose proof (Qfloor_le q) as F. assert (H : inject_Z (Qfloor q) <= inject_Z (Z.of_nat (length h - 1))) by (eapply Qle_trans; eauto). rewrite <- Zle_Qle in H. lia.
    Qed.
    Lemma tg_error : interp_call (errors_of (h ++ l)) t' = interp_call (errors_of h) t.
    Proof.
      unfold errors_of. destruct tg_t' as [P0 P1]. assert (LA : (2 <= length (map st_err2 (h ++ l)))%nat) by (rewrite map_length, app_length; lia).
      rewrite previous_floor by auto. rewrite (previous_floor (map st_err2 h)) by (rewrite ?map_length; auto). rewrite !map_length, tg_floor.
      rewrite map_app. apply app_nth1. rewrite map_length. exact tg_index.
    Qed.
    Hypothesis noflag : ~ flag_set (g_attrs g).
    Hypothesis tols : tolerances_ok p.
    Hypothesis tols' : tolerances_ok p'.
    Hypothesis HR : forall s, In s h -> reliable lsolve m g p S s.
    Hypothesis HR' : forall s, In s (h ++ l) -> reliable lsolve m g p' S' s.
    Variables (R R' : results).
    Hypothesis HF : solve_full lsolve m g p None = Ok R.
    Hypothesis HF' : solve_full lsolve m g p' None = Ok R'.
    Lemma tg_interval : exists k a s s', nth_error h k = Some s /\ nth_error h (Datatypes.S k) = Some s' /\ nth_error (h ++ l) k = Some s /\ nth_error (h ++ l) (Datatypes.S k) = Some s' /\
      0 <= a /\ a <= 1 /\ t == param (length h) k a /\ t' == param (length (h ++ l)) k a.
    Proof.
      destruct (find_interval (length h) t H2 T0 T1) as (k & a & L & A0 & A1 & Et). assert (LL : (length h <= length (h ++ l))%nat) by (rewrite app_length; lia).
      destruct (nth_error h k) as [s|] eqn:E1; [|apply nth_error_None in E1; lia]. destruct (nth_error h (Datatypes.S k)) as [s'|] eqn:E2; [|apply nth_error_None in E2; lia].
      exists k, a, s, s'. rewrite !nth_error_app1 by lia. repeat (split; [assumption|]). exact (tg_retime _ _ _ _ _ _ L LL Et RT).
    Qed.
    Lemma tg_results : same_vals (call_vec (r_u R) t) (call_vec (r_u R') t') /\ same_vals (call_vec (r_f R) t) (call_vec (r_f R') t') /\ same_vals (call_vec (r_F R) t) (call_vec (r_F R') t') /\
      same_num (interp_call (r_Z R) t) (interp_call (r_Z R') t') /\
      map as_bool (call_vec (r_mask R) t) = map as_bool (call_vec (r_mask R') t') /\
      (forall cs r b, constraint m g = Ok cs -> nth_error (csH cs) r = Some (Fin b) ->
        exists v v', nth_error (call_vec (r_H R) t) r = Some v /\ nth_error (call_vec (r_H R') t') r = Some v' /\ same_num v v') /\
      ((forall s, In s (h ++ l) -> 0 < qof (st_Z s)) -> same_num (interp_call (r_rl R) t) (interp_call (r_rl R') t')).
    Proof.
      pose proof tg_systems as ES. destruct tg_interval as (k & a & s & s' & E1 & E2 & E1' & E2' & A0 & A1 & Et & Et').
      destruct (res_between _ _ _ _ _ _ HS noflag tols HR None R HF k a t s s' eq_refl E1 E2 A0 A1 Et) as (ut & ft & Ft & U1 & U2 & U3 & F1 & F2 & F3 & L1 & L2 & L3 & V1 & V2 & V3).
      destruct (res_between _ _ _ _ _ _ HS' noflag tols' HR' None R' HF' k a t' s s' eq_refl E1' E2' A0 A1 Et') as (ut' & ft' & Ft' & U1' & U2' & U3' & F1' & F2' & F3' & L1' & L2' & L3' & V1' & V2' & V3').
      rewrite ES in L1', L2', L3', V1', V2'. change (st_u (retarget S (sp_errtol p') (sp_packing p'))) with (st_u S) in *.
      change (st_f (retarget S (sp_errtol p') (sp_packing p'))) with (st_f S) in *. change (st_F (retarget S (sp_errtol p') (sp_packing p'))) with (st_F S) in *.
      rewrite U1, U2, U3, U1', U2', U3'. split; [|split; [|split; [|split; [|split; [|split]]]]].
      - split; auto. split; auto. split; [congruence|]. intros j. rewrite V1, V1'. reflexivity.
      - split; auto. split; auto. split; [congruence|]. intros j. rewrite V2, V2'. reflexivity.
      - split; auto. split; auto. split; [congruence|]. intros j. rewrite V3, V3'. reflexivity.
      - destruct (res_between_Z _ _ _ _ _ _ HS noflag tols HR None R HF k a t s s' eq_refl E1 E2 A0 A1 Et) as (v & z & z' & Q1 & Q2 & Q3 & Q4).
        destruct (res_between_Z _ _ _ _ _ _ HS' noflag tols' HR' None R' HF' k a t' s s' eq_refl E1' E2' A0 A1 Et') as (v' & y & y' & Q1' & Q2' & Q3' & Q4').
        rewrite Q1, Q1'. exists v, v'. split; auto. split; auto. assert (y = z) by congruence. assert (y' = z') by congruence. subst y y'. rewrite Q4, Q4'. reflexivity.
      - destruct (nth_error h (Z.to_nat (Qfloor (t * inject_Z (Z.of_nat (length h - 1)))))) as [x|] eqn:Ex; [|apply nth_error_None in Ex; pose proof tg_index; lia].
        rewrite (res_mask _ _ _ _ _ _ HS noflag tols HR None R HF t x H2 T0 T1 Ex). symmetry. destruct tg_t' as [P0 P1].
        apply (res_mask _ _ _ _ _ _ HS' noflag tols' HR' None R' HF' t' x); auto; [rewrite app_length; lia|]. rewrite tg_floor, nth_error_app1 by exact tg_index. exact Ex.
      - intros cs r b Hcs Hb.
        destruct (res_between_H _ _ _ _ _ _ HS noflag tols HR None R HF k a t s s' eq_refl E1 E2 A0 A1 Et cs r b Hcs Hb) as (v & z & z' & Q1 & Q2 & Q3 & Q4).
        destruct (res_between_H _ _ _ _ _ _ HS' noflag tols' HR' None R' HF' k a t' s s' eq_refl E1' E2' A0 A1 Et' cs r b Hcs Hb) as (v' & y & y' & Q1' & Q2' & Q3' & Q4').
        rewrite ES in Q2', Q3'. change (st_H (retarget S (sp_errtol p') (sp_packing p'))) with (st_H S) in *.
        exists (Fin v), (Fin v'). split; auto. split; auto. exists v, v'. split; auto. split; auto. assert (y = z) by congruence. assert (y' = z') by congruence. subst y y'. rewrite Q4, Q4'. reflexivity.
      - intros LA. rewrite (res_eq _ _ _ _ _ _ HS None R HF), (res_eq _ _ _ _ _ _ HS' None R' HF'). cbn [r_rl results_of].
        destruct (res_first _ _ _ _ _ _ HS noflag tols HR) as (z0 & Z0 & _). destruct (res_first _ _ _ _ _ _ HS' noflag tols' HR') as (z0' & Z0' & _).
        assert (LA0 : lid_above h) by (intros x Hx; apply LA, in_app_iff; auto).
        destruct (res_rl _ _ _ _ _ _ HS noflag tols HR z0 Z0 LA0) as [M _]. destruct (res_rl _ _ _ _ _ _ HS' noflag tols' HR' z0' Z0' LA) as [M' _]. rewrite M, M'.
        destruct (call_plain LinearScalar (map (fun s => qof (st_rl s)) h) k a t (or_intror eq_refl)) as (w & W1 & W2); auto; [rewrite map_length; auto|rewrite map_length; exact Et|rewrite map_length; apply nth_error_Some; congruence|].
        destruct (call_plain LinearScalar (map (fun s => qof (st_rl s)) (h ++ l)) k a t' (or_intror eq_refl)) as (w' & W1' & W2'); auto; [rewrite map_length, app_length; lia|rewrite map_length; exact Et'|rewrite map_length; apply nth_error_Some; congruence|].
        exists w, w'. split; auto. split; auto. rewrite W2, W2'. rewrite map_app, !app_nth1; [reflexivity| |]; rewrite map_length; apply nth_error_Some; congruence.
    Qed.
  End Both.
End Tg.

(** *** the error given back *)
Definition nonneg_num (v : num) : Prop := match v with Fin q => 0 <= q | PInf | NaN => True | NInf => False end.
Lemma nonneg_sum l : (forall v, In v l -> nonneg_num v) -> nonneg_num (nsum l).
Proof.
  induction l as [|v l IH]; intros H; [simpl; lra|]. cbn [nsum]. specialize (IH (fun w Hw => H w (or_intror Hw))). specialize (H v (or_introl eq_refl)).
  destruct v as [x| | |], (nsum l) as [y| | |]; simpl in *; auto; lra.
Qed.
Lemma nonneg_sq v : nonneg_num (nmul v v).
Proof. destruct v as [x| | |]; simpl; auto. nra. Qed.
Section Err.
  Variables (lsolve : ncoo -> list num -> list num) (m : qmat) (g : mesh_df) (p : solve_params) (S : sysdata) (h : list state).
  Hypothesis HS : solve lsolve m g p = Ok (S, h).
  Variable e : interp.
  Hypothesis HE : solve_error lsolve m g p = Ok e.
  Lemma er_eq : e = errors_of h.
  Proof. unfold solve_error in HE. rewrite HS in HE. cbn in HE. congruence. Qed.
  Lemma er_at t : (2 <= length h)%nat -> 0 <= t -> t <= 1 ->
    exists s, nth_error h (Z.to_nat (Qfloor (t * inject_Z (Z.of_nat (length h - 1))))) = Some s /\ interp_call e t = st_err2 s.
  Proof.
    intros H2 T0 T1. destruct (nth_error h (Z.to_nat (Qfloor (t * inject_Z (Z.of_nat (length h - 1)))))) as [x|] eqn:Ex; [|apply nth_error_None in Ex; pose proof (tg_index h t H2 T1); lia].
    exists x. split; auto. rewrite er_eq. unfold errors_of. rewrite previous_floor by (rewrite ?map_length; auto). rewrite map_length.
    apply nth_error_nth. rewrite nth_error_map, Ex. reflexivity.
  Qed.
  Lemma er_accepted s : 0 <= sp_errtol p -> In s h -> err_gt (st_err2 s) (sp_errtol p) = false.
  Proof.
    intros E0 Hs. destruct (solve_inv _ _ _ _ _ _ HS) as (K & cs & _ & _ & ES & Eh). cbv zeta in ES, Eh. apply In_nth_error in Hs. destruct Hs as ([|k] & Hk).
    - rewrite Eh in Hk. cbn in Hk. injection Hk as <-. cbn [st_err2 init_state]. unfold err_gt. assert (B : Qltb (sp_errtol p) 0 = false) by (qb; lra). rewrite B. cbn. qb. unfold sq. nra.
    - destruct (nth_error h k) as [x|] eqn:Ex; [|apply nth_error_None in Ex; assert (Datatypes.S k < length h)%nat by (apply nth_error_Some; congruence); lia].
      rewrite Eh in Hk, Ex. destruct (history_next _ _ _ _ _ _ _ Ex Hk) as [_ Q]. unfold step in Q. destruct (py_min _); [|discriminate Q].
      destruct (err_gt _ _) eqn:E in Q; [discriminate Q|]. injection Q as <-. cbn [st_err2]. rewrite <- E, ES. reflexivity.
  Qed.
  Lemma er_nonneg s : In s h -> nonneg_num (st_err2 s).
  Proof.
    intros Hs. destruct (solve_inv _ _ _ _ _ _ HS) as (K & cs & _ & _ & ES & Eh). cbv zeta in ES, Eh. apply In_nth_error in Hs. destruct Hs as ([|k] & Hk).
    - rewrite Eh in Hk. cbn in Hk. injection Hk as <-. cbn [st_err2 init_state]. simpl. lra.
    - destruct (nth_error h k) as [x|] eqn:Ex; [|apply nth_error_None in Ex; assert (Datatypes.S k < length h)%nat by (apply nth_error_Some; congruence); lia].
      rewrite Eh in Hk, Ex. destruct (history_next _ _ _ _ _ _ _ Ex Hk) as [_ Q]. unfold step in Q. destruct (py_min _); [|discriminate Q].
      destruct (err_gt _ _) eqn:E in Q; [discriminate Q|]. injection Q as <-. cbn [st_err2]. unfold error2. apply nonneg_sum. intros v Hv.
      apply in_map_iff in Hv. destruct Hv as (r & <- & _). apply nonneg_sq.
  Qed.
  Lemma er_bound t : (2 <= length h)%nat -> 0 <= t -> t <= 1 -> 0 <= sp_errtol p -> interp_call e t = NaN \/ exists q, interp_call e t = Fin q /\ 0 <= q /\ q <= sp_errtol p * sp_errtol p.
  Proof.
    intros H2 T0 T1 E0. destruct (er_at t H2 T0 T1) as (s & Es & ->). pose proof (er_accepted s E0 (nth_error_In _ _ Es)) as A. unfold err_gt in A.
    assert (B : Qltb (sp_errtol p) 0 = false) by (qb; lra). rewrite B in A. pose proof (er_nonneg s (nth_error_In _ _ Es)) as N. destruct (st_err2 s) as [q| | |]; auto; [|discriminate A|destruct N]. right. exists q. split; auto. split; auto. cbn in A. qb. exact A.
  Qed.
End Err.
