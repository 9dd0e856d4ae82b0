(** Property theorems: the targets of the solver and the error it gives back (C96, solver.py 138, 163-171, 191-205). *)
From Verif Require Import Num NumP ListX ListP Frames MatM NetM StackM MeshM ModelM SolverM InterpM ResultM ErrorM Spec SpecNet SpecStack SpecMesh SpecModel SpecSolver SpecInterp
  SpecPerm SpecProgress SpecTargets InterpP SolverFinP ResultP ProgressFinP TargetsP GaussX PropsModel PropsSolver PropsInterp PropsPerm PropsProgress.
Open Scope Q_scope.

(** ** C96: the targets only tell when to stop *)
(** exceptions do not depend on the targets *)
Theorem C96_raise : forall lsolve m g p p' e, same_problem p p' -> solve lsolve m g p = Exn e -> solve lsolve m g p' = Exn e.
Proof. exact tg_raise. Qed.
(** asking for more only appends states, and changes none of the vectors recorded *)
Theorem C96_prefix : forall lsolve m g p p' S h, solve lsolve m g p = Ok (S, h) -> further p p' -> exists S' l, solve lsolve m g p' = Ok (S', h ++ l) /\
  (forall s, st_u S' s = st_u S s /\ st_f S' s = st_f S s /\ st_F S' s = st_F S s /\ st_H S' s = st_H S s).
Proof. exact tg_prefix. Qed.
(** a run goes no further than another for one of three reasons *)
Theorem C96_stop : forall lsolve m g p p' S h, solve lsolve m g p = Ok (S, h) -> forall S' l s s', further p p' -> solve lsolve m g p' = Ok (S', h ++ s' :: l) ->
  nth_error h (length h - 1) = Some s ->
  length h = Datatypes.S (sp_itermax p) \/ nltb (st_rl s) (sp_packing p) = false \/ err_gt (st_err2 s') (sp_errtol p) = true.
Proof. exact tg_stop. Qed.
(** the functions given back show the same evolution, in another pseudo-time *)
Theorem C96_results : forall lsolve m g p p' S h, solve lsolve m g p = Ok (S, h) -> forall S' l t t', solve lsolve m g p' = Ok (S', h ++ l) -> same_problem p p' ->
  (2 <= length h)%nat -> 0 <= t -> t <= 1 -> retimed (length h) (length (h ++ l)) t t' ->
  ~ flag_set (g_attrs g) -> tolerances_ok p -> tolerances_ok p' ->
  (forall s, In s h -> reliable lsolve m g p S s) -> (forall s, In s (h ++ l) -> reliable lsolve m g p' S' s) ->
  forall R R', solve_full lsolve m g p None = Ok R -> solve_full lsolve m g p' None = Ok R' ->
  same_vals (call_vec (r_u R) t) (call_vec (r_u R') t') /\ same_vals (call_vec (r_f R) t) (call_vec (r_f R') t') /\ same_vals (call_vec (r_F R) t) (call_vec (r_F R') t') /\
  same_num (interp_call (r_Z R) t) (interp_call (r_Z R') t') /\
  map as_bool (call_vec (r_mask R) t) = map as_bool (call_vec (r_mask R') t') /\
  (forall cs r b, constraint m g = Ok cs -> nth_error (csH cs) r = Some (Fin b) ->
    exists v v', nth_error (call_vec (r_H R) t) r = Some v /\ nth_error (call_vec (r_H R') t') r = Some v' /\ same_num v v') /\
  ((forall s, In s (h ++ l) -> 0 < qof (st_Z s)) -> same_num (interp_call (r_rl R) t) (interp_call (r_rl R') t')).
Proof. exact tg_results. Qed.
(** the error too, for any solver *)
Theorem C96_errors : forall lsolve m g p p' S h, solve lsolve m g p = Ok (S, h) -> forall S' l t t', solve lsolve m g p' = Ok (S', h ++ l) ->
  (2 <= length h)%nat -> 0 <= t -> t <= 1 -> retimed (length h) (length (h ++ l)) t t' ->
  forall e e', solve_error lsolve m g p = Ok e -> solve_error lsolve m g p' = Ok e' -> interp_call e' t' = interp_call e t.
Proof.
  exact (fun lsolve m g p p' S h HS S' l t t' HS' H2 T0 T1 RT e e' He He' =>
    eq_trans (f_equal (fun x => interp_call x t') (er_eq _ _ _ _ _ _ HS' e' He'))
      (eq_trans (tg_error h l t t' H2 T0 T1 RT) (f_equal (fun x => interp_call x t) (eq_sym (er_eq _ _ _ _ _ _ HS e He))))).
Qed.
(** it is the error of the latest state reached ... *)
Theorem C96_error : forall lsolve m g p S h, solve lsolve m g p = Ok (S, h) -> forall e, solve_error lsolve m g p = Ok e -> forall t, (2 <= length h)%nat -> 0 <= t -> t <= 1 ->
  exists s, nth_error h (Z.to_nat (Qfloor (t * inject_Z (Z.of_nat (length h - 1))))) = Some s /\ interp_call e t = st_err2 s.
Proof. exact er_at. Qed.
(** ... not above the error tolerance (squares) unless NaN ... *)
Theorem C96_bound : forall lsolve m g p S h, solve lsolve m g p = Ok (S, h) -> forall e, solve_error lsolve m g p = Ok e -> forall t, (2 <= length h)%nat -> 0 <= t -> t <= 1 ->
  0 <= sp_errtol p -> interp_call e t = NaN \/ exists q, interp_call e t = Fin q /\ 0 <= q /\ q <= sp_errtol p * sp_errtol p.
Proof. exact er_bound. Qed.
(** ... and zero with a direct solver *)
Theorem C96_direct : forall lsolve m g p S h, direct_solver lsolve -> sound_data m g p -> numbering (length (sy_dq S)) (sp_perm p) -> starts_held m g (sp_tol p) ->
  solve lsolve m g p = Ok (S, h) -> forall e, solve_error lsolve m g p = Ok e -> forall t, (2 <= length h)%nat -> 0 <= t -> t <= 1 ->
  exists q, interp_call e t = Fin q /\ q == 0.
Proof.
  exact (fun lsolve m g p S h DS SD NU H0 HS e He t H2 T0 T1 =>
    match er_at _ _ _ _ _ _ HS e He t H2 T0 T1, go_strict lsolve m g p S h DS SD NU H0 HS with
    | ex_intro _ s (conj Es Q), ex_intro _ S0 (conj _ (conj _ HR)) =>
      match HR s (nth_error_In _ _ Es) with conj _ (ex_intro _ q (conj E Z)) => ex_intro _ q (conj (eq_trans Q E) Z) end end).
Qed.

(** the run of three states cut after one step, by itermax or by the packing asked for *)
Definition ex_cut (c : Q) (n : nat) : solve_params := mkSolve (Fin c) n None 0 0 None None 1.
Example ex_cut_further : further (ex_cut 3 1) (ex_p 3 0 0) /\ further (ex_cut (6 # 5) 5) (ex_p 3 0 0).
Proof. split; (split; [repeat split|]; split; [vm_compute; reflexivity|]; split; [simpl; lia|simpl; lra]). Qed.
Example ex_cut_run : exists S s0 s1 s2, S = fst ex_bent /\ solve gauss (ex_bend (Fin 1)) (ex_bendg (Fin 1)) (ex_cut 3 1) = Ok (S, [s0; s1]) /\ snd ex_bent = [s0; s1] ++ [s2] /\
  retimed (length [s0; s1]) (length ([s0; s1] ++ [s2])) 1 (1 # 2).
Proof.
  destruct (ex_bend_total (Fin 1) (or_intror eq_refl)) as (V & M & N & i & j & d & e & B & _).
  destruct (C36_total gauss _ _ (ex_cut 3 1) V M N (ex_intro _ i (ex_intro _ j (ex_intro _ d (ex_intro _ e B))))) as (S & h & Es).
  destruct ex_bent_states as (s0 & s1 & s2 & z0 & z1 & z2 & E & _).
  destruct (C36_itermax _ _ _ _ _ _ Es (ex_p 3 0 0) (fst ex_bent) (snd ex_bent) eq_refl eq_refl eq_refl eq_refl eq_refl eq_refl eq_refl ltac:(simpl; lia) ex_bent_ok) as (ES & H & _).
  rewrite E in H. cbn [sp_itermax ex_cut firstn] in H. exists S, s0, s1, s2. split; [symmetry; exact ES|]. split; [rewrite Es, H; reflexivity|]. split; [exact E|reflexivity].
Qed.
(** the theorem on the results applies to it *)
Example ex_cut_lid : exists R x y, solve_full gauss (ex_bend (Fin 1)) (ex_bendg (Fin 1)) (ex_cut 3 1) None = Ok R /\
  interp_call (r_Z R) 1 = Fin x /\ interp_call (r_Z (results_of (fst ex_bent) (snd ex_bent) None)) (1 # 2) = Fin y /\ x == y.
Proof.
  destruct ex_cut_run as (S & s0 & s1 & s2 & ES & H1 & H2 & RT). pose proof ex_bent_ok as HB. rewrite H2 in HB.
  pose proof (ex_bend_noflag _ (or_intror (eq_refl (Fin 1)))) as NF. pose proof (proj1 ex_tols) as T.
  destruct (C96_results _ _ _ _ _ _ _ H1 _ [s2] 1 (1 # 2) HB (proj1 (proj1 ex_cut_further)) ltac:(simpl; lia) ltac:(lra) ltac:(lra) RT NF T T) with
    (R := results_of S [s0; s1] None) (R' := results_of (fst ex_bent) (snd ex_bent) None) as (_ & _ & _ & (x & y & X & Y & Q) & _).
  - intros s Hs. rewrite ES. apply (ex_bent_reliable s). rewrite H2. apply in_app_iff. left. exact Hs.
  - intros s Hs. rewrite <- H2 in Hs. exact (ex_bent_reliable s Hs).
  - apply full_ok. exact H1.
  - apply full_ok. exact ex_bent_ok.
  - exists (results_of S [s0; s1] None), x, y. split; [apply full_ok; exact H1|]. auto.
Qed.
Lemma error_ok lsolve m g p S h : solve lsolve m g p = Ok (S, h) -> solve_error lsolve m g p = Ok (errors_of h).
Proof. intros H. unfold solve_error. rewrite H. reflexivity. Qed.
(** the error along the run of three states *)
Example ex_cut_error : exists e s, solve_error gauss (ex_bend (Fin 1)) (ex_bendg (Fin 1)) (ex_p 3 0 0) = Ok e /\ (2 <= length (snd ex_bent))%nat /\
  nth_error (snd ex_bent) 1 = Some s /\ interp_call e (3 # 4) = st_err2 s.
Proof.
  pose proof (error_ok _ _ _ _ _ _ ex_bent_ok) as He.
  destruct ex_full_bent as [L _]. destruct (C96_error _ _ _ _ _ _ ex_bent_ok _ He (3 # 4) L ltac:(lra) ltac:(lra)) as (s & Es & Q).
  exists (errors_of (snd ex_bent)), s. split; [exact He|]. split; [exact L|]. split; [|exact Q].
  destruct ex_bent_states as (s0 & s1 & s2 & z0 & z1 & z2 & E & _). rewrite E in Es |- *. exact Es.
Qed.
(** resampled functions do not show the same evolution *)
Theorem C96_resampled_refuted : exists lsolve m g p p' S h S' l t t' R R', solve lsolve m g p = Ok (S, h) /\ solve lsolve m g p' = Ok (S', h ++ l) /\ further p p' /\
  (2 <= length h)%nat /\ 0 <= t /\ t <= 1 /\ retimed (length h) (length (h ++ l)) t t' /\
  solve_full lsolve m g p (Some 2%nat) = Ok R /\ solve_full lsolve m g p' (Some 2%nat) = Ok R' /\ ~ same_num (interp_call (r_Z R) t) (interp_call (r_Z R') t').
Proof.
  destruct ex_cut_run as (S & s0 & s1 & s2 & ES & H1 & H2 & RT). pose proof ex_bent_ok as HB. rewrite H2 in HB.
  destruct ex_bent_states as (x0 & x1 & x2 & z0 & z1 & z2 & E & F0 & F1 & F2 & Q0 & Q1 & Q2). rewrite H2 in E. injection E as <- <- <-.
  exists gauss, (ex_bend (Fin 1)), (ex_bendg (Fin 1)), (ex_cut 3 1), (ex_p 3 0 0), S, [s0; s1], (fst ex_bent), [s2], 1, (1 # 2), (results_of S [s0; s1] (Some 2%nat)), (results_of (fst ex_bent) ([s0; s1] ++ [s2]) (Some 2%nat)).
  split; [exact H1|]. split; [exact HB|]. split; [exact (proj1 ex_cut_further)|]. split; [simpl; lia|]. split; [lra|]. split; [lra|]. split; [exact RT|].
  split; [apply full_ok; exact H1|]. split; [apply full_ok; exact HB|]. intros (x & y & X & Y & Q).
  cbn [r_Z results_of app map] in X, Y. rewrite F0, F1 in X. rewrite F0, F1, F2 in Y.
  destruct (C46_ends LinearScalar [z0; z1] (Some 2%nat) (or_intror eq_refl) ltac:(simpl; lia) ltac:(simpl; lia) 1) as [_ W]. destruct (W (Qeq_refl 1)) as (w & W1 & W2). cbn in W2.
  assert (w = x) by (cbn [map] in W1; congruence). subst w.
  destruct (C46_ends LinearScalar [z0; z1; z2] (Some 2%nat) (or_intror eq_refl) ltac:(simpl; lia) ltac:(simpl; lia) 0) as [W3 _]. destruct (W3 (Qeq_refl 0)) as (w3 & W31 & W32). cbn in W32.
  unfold interp_call, interp_new, eval1d in Y. cbn in Y. injection Y as Y. rewrite <- Y in Q. revert Q. rewrite W2, Q0, Q2, Q1. vm_compute. discriminate.
Qed.
Print Assumptions C96_raise.
Print Assumptions C96_prefix.
Print Assumptions C96_stop.
Print Assumptions C96_results.
Print Assumptions C96_errors.
Print Assumptions C96_error.
Print Assumptions C96_bound.
Print Assumptions C96_direct.
Print Assumptions C96_resampled_refuted.
