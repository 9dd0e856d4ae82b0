(** Property theorems for interpolation and the interpolated results of [solve] (C46 - C50, C59, C60, C68). *)
From Verif Require Import Num NumP ListX ListP Frames MatM NetM StackM MeshM ModelM SolverM InterpM ResultM Spec SpecNet SpecStack SpecMesh SpecModel SpecSolver SpecInterp
  InterpP StiffLimP SolverP SolverSysP SolverFinP ResultP GaussX PropsModel PropsSolver.
Open Scope Q_scope.

(** ** C46: the recorded samples are met *)
Theorem C46_linear : forall kd y k a t, linear kd -> (2 <= length y)%nat -> t == param (length y) k a -> 0 <= a -> a <= 1 -> (S k < length y)%nat ->
  is_num (interp_call (interp_new kd (map Fin y) None) t) (blend a (nth k y 0) (nth (S k) y 0)).
Proof. exact call_plain. Qed.
Theorem C46_samples : forall kd y k t, linear kd -> (2 <= length y)%nat -> (k < length y)%nat -> t == param (length y) k 0 ->
  is_num (interp_call (interp_new kd (map Fin y) None) t) (nth k y 0).
Proof. exact knot_value. Qed.
Theorem C46_ends : forall kd y size, linear kd -> (2 <= length y)%nat -> size_ok size -> forall t,
  (t == 0 -> is_num (interp_call (interp_new kd (map Fin y) size) t) (nth 0 y 0)) /\
  (t == 1 -> is_num (interp_call (interp_new kd (map Fin y) size) t) (nth (length y - 1) y 0)).
Proof. exact api_ends. Qed.
(** resampling keeps the values at the new samples *)
Theorem C46_resample : forall kd y n' j t, linear kd -> (2 <= length y)%nat -> (2 <= n')%nat -> (j < n')%nat -> t == param n' j 0 ->
  exists q, is_num (interp_call (interp_new kd (map Fin y) (Some n')) t) q /\ is_num (interp_call (interp_new kd (map Fin y) None) t) q.
Proof. exact resample_value. Qed.
(** without parameter, the samples are returned *)
Theorem C46_all : forall kd y k q, linear kd -> (2 <= length y)%nat -> nth_error y k = Some q ->
  exists v, nth_error (interp_all (interp_new kd (map Fin y) None)) k = Some v /\ is_num v q.
Proof. exact all_value. Qed.
Example ex_param : param 3 1 (1 # 2) == 3 # 4 /\ (S 1 < length [0; 2; 1])%nat /\ linear LinearVec /\ linear LinearScalar.
Proof. split; [vm_compute; reflexivity|]. split; [simpl; lia|]. split; [left|right]; reflexivity. Qed.
Example ex_interp : map ex_show (map (interp_call (interp_new LinearVec (map Fin [0; 2; 1]) None)) [0; 1 # 4; 1 # 2; 3 # 4; 1]) = [Fin 0; Fin 1; Fin 2; Fin (3 # 2); Fin 1] /\
  map ex_show (interp_all (interp_new LinearScalar (map Fin [0; 2; 1]) None)) = [Fin 0; Fin 2; Fin 1] /\
  map ex_show (interp_all (interp_new LinearScalar (map Fin [0; 2; 1]) (Some 4%nat))) = [Fin 0; Fin (4 # 3); Fin (5 # 3); Fin 1].
Proof. repeat split; vm_compute; reflexivity. Qed.

(** ** C47: values stay between neighbouring samples *)
Theorem C47_neighbours : forall kd y k a t lo hi, linear kd -> (2 <= length y)%nat -> t == param (length y) k a -> 0 <= a -> a <= 1 -> (S k < length y)%nat ->
  lo <= nth k y 0 -> lo <= nth (S k) y 0 -> nth k y 0 <= hi -> nth (S k) y 0 <= hi ->
  exists v, interp_call (interp_new kd (map Fin y) None) t = Fin v /\ lo <= v /\ v <= hi.
Proof.
  exact (fun kd y k a t lo hi HK Hn Et A0 A1 Hk L1 L2 H1 H2 =>
    match call_plain kd y k a t HK Hn Et A0 A1 Hk with ex_intro _ v (conj E Q) =>
    match blend_bounds a _ _ lo hi A0 A1 L1 L2 H1 H2 with conj B1 B2 =>
      ex_intro _ v (conj E (conj (Qle_trans _ _ _ B1 (Qle_lteq_eq _ _ (Qeq_sym _ _ Q))) (Qle_trans _ _ _ (Qle_lteq_eq _ _ Q) B2))) end end).
Qed.
Theorem C47_between : forall kd y size lo hi, linear kd -> (2 <= length y)%nat -> size_ok size -> (forall q, In q y -> lo <= q /\ q <= hi) -> forall t,
  exists v, interp_call (interp_new kd (map Fin y) size) t = Fin v /\ lo <= v /\ v <= hi.
Proof. exact api_bounds. Qed.
Theorem C47_increasing : forall kd y size, linear kd -> (2 <= length y)%nat -> size_ok size -> nondecreasing y -> forall t t', 0 <= t -> t <= t' -> t' <= 1 ->
  exists v v', interp_call (interp_new kd (map Fin y) size) t = Fin v /\ interp_call (interp_new kd (map Fin y) size) t' = Fin v' /\ v <= v'.
Proof. exact api_increasing. Qed.
Theorem C47_decreasing : forall kd y size, linear kd -> (2 <= length y)%nat -> size_ok size -> nonincreasing y -> forall t t', 0 <= t -> t <= t' -> t' <= 1 ->
  exists v v', interp_call (interp_new kd (map Fin y) size) t = Fin v /\ interp_call (interp_new kd (map Fin y) size) t' = Fin v' /\ v' <= v.
Proof. exact api_decreasing. Qed.
Example ex_monotone : nondecreasing [1; 33 # 25; 3 # 2] /\ nonincreasing [3; 25 # 11; 2] /\ size_ok (Some 100%nat).
Proof. repeat split; try (intros k L; do 2 (destruct k as [|k]; [simpl; lra|]); simpl in L; lia). simpl. lia. Qed.

(** ** C48: outside the range *)
Theorem C48_last : forall kd y size t, y <> [] -> size <> Some 0%nat -> t < 0 \/ 1 < t -> interp_call (interp_new kd y size) t = last y NaN.
Proof. exact call_outside. Qed.
Example ex_outside : interp_call (interp_new LinearVec (map Fin [0; 2; 1]) None) (-(1)) = Fin 1 /\ interp_call (interp_new LinearVec (map Fin [0; 2; 1]) None) 2 = Fin 1.
Proof. split; vm_compute; reflexivity. Qed.

(** ** C49: step interpolation *)
Theorem C49_step : forall y t, (2 <= length y)%nat -> 0 <= t -> t <= 1 ->
  interp_call (interp_new Previous y None) t = nth (Z.to_nat (Qfloor (t * inject_Z (Z.of_nat (length y - 1))))) y NaN.
Proof. exact previous_floor. Qed.
Theorem C49_single : forall v t, t == 0 -> interp_call (interp_new LinearScalar [v] None) t = v /\ interp_call (interp_new Previous [v] None) t = v.
Proof. exact single_scalar. Qed.
Example ex_step : map (interp_call (interp_new Previous (mask_num [true; false; true]) None)) [0; 1 # 4; 1 # 2; 3 # 4; 1] = [Fin 1; Fin 1; Fin 0; Fin 0; Fin 1].
Proof. vm_compute. reflexivity. Qed.

(** ** C50: results as numbers *)
Theorem C50_finite : forall lsolve m g p S h, solve lsolve m g p = Ok (S, h) -> ~ flag_set (g_attrs g) -> tolerances_ok p ->
  (forall s, In s h -> reliable lsolve m g p S s) -> forall size R, size_ok size -> solve_full lsolve m g p size = Ok R -> forall t, (2 <= length h)%nat ->
  finite_vec (call_vec (r_u R) t) /\ finite_vec (call_vec (r_f R) t) /\ exists z, interp_call (r_Z R) t = Fin z.
Proof. exact res_finite. Qed.
(** a single recorded state, in particular with the default packing: u(0) is NaN *)
Theorem C50_single_refuted : forall lsolve m g p S h, solve lsolve m g p = Ok (S, h) -> forall size R, solve_full lsolve m g p size = Ok R -> forall v,
  length h = 1%nat -> size = None -> In v (call_vec (r_u R) 0) -> v = NaN.
Proof. exact res_single. Qed.
(** rows of H without bound: NaN at every t, though +inf is recorded at every state *)
Theorem C50_unbounded_refuted : forall lsolve m g p S h, solve lsolve m g p = Ok (S, h) -> ~ flag_set (g_attrs g) -> tolerances_ok p ->
  (forall s, In s h -> reliable lsolve m g p S s) -> forall size R, size_ok size -> solve_full lsolve m g p size = Ok R -> forall cs r t,
  constraint m g = Ok cs -> nth_error (csH cs) r = Some PInf -> 0 <= t -> t <= 1 -> (2 <= length h)%nat \/ t == 0 ->
  nth_error (call_vec (r_H R) t) r = Some NaN /\ forall s, In s h -> nth_error (st_H S s) r = Some PInf.
Proof. exact res_lost. Qed.
Example ex_full E p : E = PInf \/ E = Fin 1 -> exists S h, solve gauss (ex_bend E) (ex_bendg E) p = Ok (S, h) /\
  forall size, solve_full gauss (ex_bend E) (ex_bendg E) p size = Ok (results_of S h size).
Proof.
  intros H. destruct (ex_bend_total E H) as (V & M & N & i & j & d & e & B & _).
  destruct (C36_total gauss _ _ p V M N (ex_intro _ i (ex_intro _ j (ex_intro _ d (ex_intro _ e B))))) as (S & h & Es).
  exists S, h. split; auto. intros size. unfold solve_full. rewrite Es. reflexivity.
Qed.
Lemma full_ok lsolve m g p S h size : solve lsolve m g p = Ok (S, h) -> solve_full lsolve m g p size = Ok (results_of S h size).
Proof. intros H. unfold solve_full. rewrite H. reflexivity. Qed.
Example ex_full_bent : (2 <= length (snd ex_bent))%nat /\ solve_full gauss (ex_bend (Fin 1)) (ex_bendg (Fin 1)) (ex_p 3 0 0) None = Ok (results_of (fst ex_bent) (snd ex_bent) None).
Proof.
  split; [|apply full_ok; exact ex_bent_ok].
  pose proof ex_bent_values as V. apply (f_equal (@length _)) in V. rewrite map_length in V. rewrite V. simpl. lia.
Qed.
(** default packing: one state, 28 displacements *)
Example ex_default : exists S h R, solve gauss (ex_bend (Fin 1)) (ex_bendg (Fin 1)) (ex_p 1 0 0) = Ok (S, h) /\
  solve_full gauss (ex_bend (Fin 1)) (ex_bendg (Fin 1)) (ex_p 1 0 0) None = Ok R /\ length h = 1%nat /\ call_vec (r_u R) 0 = repeat NaN 28.
Proof.
  destruct (ex_full (Fin 1) (ex_p 1 0 0) (or_intror eq_refl)) as (S & h & E & F). exists S, h, (results_of S h None). split; auto. split; auto.
  assert (L : length h = 1%nat) by (apply (C36_default_packing _ _ _ _ _ _ E); reflexivity). split; auto.
  assert (A : forall v, In v (call_vec (r_u (results_of S h None)) 0) -> v = NaN) by (intros v Hv; apply (C50_single_refuted _ _ _ _ _ _ E None _ (F None) v L eq_refl Hv)).
  assert (N : length (call_vec (r_u (results_of S h None)) 0) = 28%nat).
  { unfold call_vec. cbn [r_u results_of]. unfold interp_vec. rewrite !map_length, seq_length. destruct h as [|s h]; [discriminate L|]. cbn [map hd].
    destruct (C36_lengths _ _ _ _ _ _ E _ (ex_bend_cs (Fin 1) (or_intror eq_refl)) s (or_introl eq_refl)) as (-> & _). vm_compute. reflexivity. }
  rewrite <- N. clear N L E F. induction (call_vec _ 0) as [|v l IH]; auto. simpl. rewrite (A v (or_introl eq_refl)). f_equal. apply IH. intros w Hw. apply A. right. auto.
Qed.
Example ex_unbounded : exists r, nth_error (csH (ex_cs (ex_bend (Fin 1)) (ex_bendg (Fin 1)))) r = Some PInf.
Proof. exists 1%nat. vm_compute. reflexivity. Qed.

(** ** C59: interpolated states are admissible and in equilibrium *)
Theorem C59_admissible : forall lsolve m g p S h, solve lsolve m g p = Ok (S, h) -> ~ flag_set (g_attrs g) -> tolerances_ok p ->
  (forall s, In s h -> reliable lsolve m g p S s) -> forall size R, size_ok size -> solve_full lsolve m g p size = Ok R -> forall t, (2 <= length h)%nat ->
  admissible_start m g -> sp_errtol p == 0 ->
  exists z, interp_call (r_Z R) t = Fin z /\ finite_vec (call_vec (r_u R) t) /\
    in_slab m g z (vals (call_vec (r_u R) t)) /\ no_overlap m g (vals (call_vec (r_u R) t)).
Proof. exact res_admissible. Qed.
Theorem C59_equilibrium : forall lsolve m g p S h, solve lsolve m g p = Ok (S, h) -> ~ flag_set (g_attrs g) -> tolerances_ok p ->
  (forall s, In s h -> reliable lsolve m g p S s) -> forall size R, size_ok size -> solve_full lsolve m g p size = Ok R -> forall t K cs, (2 <= length h)%nat ->
  stiffness m g (sp_lmin p) (sp_lmax p) (sp_coupling p) = Ok K -> constraint m g = Ok cs ->
  (forall s, In s h -> errors_below_tol S s) -> lengths_ok g (sp_lmin p) (sp_lmax p) -> finite_moduli m ->
  exists z, interp_call (r_Z R) t = Fin z /\ forall r, (r < 2 * length (g_rows g))%nat ->
    near0 (sp_errtol p * (qof (sy_Z0 S) - z)) (product K (vals (call_vec (r_u R) t)) r + transpose_product (csC cs) (vals (call_vec (r_f R) t)) r).
Proof. exact res_balance. Qed.
Example ex_bent_reliable : forall s, In s (snd ex_bent) -> reliable gauss (ex_bend (Fin 1)) (ex_bendg (Fin 1)) (ex_p 3 0 0) (fst ex_bent) s.
Proof. intros s Hs. exact (ex_reliable (Fin 1) (ex_p 3 0 0) (fst ex_bent) (snd ex_bent) s (or_intror eq_refl) eq_refl ex_bent_ok Hs). Qed.
Example ex_between t : exists z, interp_call (r_Z (results_of (fst ex_bent) (snd ex_bent) None)) t = Fin z /\
  in_slab (ex_bend (Fin 1)) (ex_bendg (Fin 1)) z (vals (call_vec (r_u (results_of (fst ex_bent) (snd ex_bent) None)) t)).
Proof.
  destruct ex_full_bent as [L F]. destruct (C59_admissible _ _ _ _ _ _ ex_bent_ok (ex_bend_noflag _ (or_intror eq_refl)) (proj1 ex_tols) ex_bent_reliable None _ I F t L
    (ex_bend_start _ (or_intror eq_refl)) ltac:(reflexivity)) as (z & E & _ & A & _). eauto.
Qed.

(** ** C60: lid and stretch factor between states *)
Theorem C60_lid : forall lsolve m g p S h, solve lsolve m g p = Ok (S, h) -> ~ flag_set (g_attrs g) -> tolerances_ok p ->
  (forall s, In s h -> reliable lsolve m g p S s) -> forall size R, size_ok size -> solve_full lsolve m g p size = Ok R -> forall t t', (2 <= length h)%nat ->
  0 <= t -> t <= t' -> t' <= 1 -> exists z z', interp_call (r_Z R) t = Fin z /\ interp_call (r_Z R) t' = Fin z' /\ z' <= z.
Proof. exact res_lid. Qed.
Theorem C60_stretch : forall lsolve m g p S h, solve lsolve m g p = Ok (S, h) -> ~ flag_set (g_attrs g) -> tolerances_ok p ->
  (forall s, In s h -> reliable lsolve m g p S s) -> forall size R, solve_full lsolve m g p size = Ok R -> forall t t', (2 <= length h)%nat ->
  (forall s, In s h -> 0 < qof (st_Z s)) -> 0 <= t -> t <= t' -> t' <= 1 ->
  exists r r', interp_call (r_rl R) t = Fin r /\ interp_call (r_rl R) t' = Fin r' /\ r <= r'.
Proof. exact res_stretch. Qed.
Theorem C60_product : forall lsolve m g p S h, solve lsolve m g p = Ok (S, h) -> ~ flag_set (g_attrs g) -> tolerances_ok p ->
  (forall s, In s h -> reliable lsolve m g p S s) -> forall size R, solve_full lsolve m g p size = Ok R -> forall k a t z0 z z' s s', size = None ->
  (forall s, In s h -> 0 < qof (st_Z s)) -> sy_Z0 S = Fin z0 -> nth_error h k = Some s -> nth_error h (Datatypes.S k) = Some s' ->
  st_Z s = Fin z -> st_Z s' = Fin z' -> 0 <= a -> a <= 1 -> t == param (length h) k a ->
  exists zt rt, interp_call (r_Z R) t = Fin zt /\ interp_call (r_rl R) t = Fin rt /\
    rt * zt == z0 * (1 + a * (1 - a) * ((z - z') * (z - z')) / (z * z')) /\ z0 <= rt * zt.
Proof. exact res_product. Qed.
Lemma ex_shown v q : ex_show v = Fin q -> exists w, v = Fin w /\ w == q.
Proof. destruct v as [w| | |]; intros H; try discriminate H. exists w. split; auto. injection H as <-. symmetry. apply Qred_correct. Qed.
Example ex_bent_states : exists s0 s1 s2 z0 z1 z2, snd ex_bent = [s0; s1; s2] /\ st_Z s0 = Fin z0 /\ st_Z s1 = Fin z1 /\ st_Z s2 = Fin z2 /\
  z0 == 3 /\ z1 == 25 # 11 /\ z2 == 2.
Proof.
  pose proof ex_bent_values as V. destruct (snd ex_bent) as [|s0 [|s1 [|s2 [|s3 l]]]]; try (apply (f_equal (@length _)) in V; rewrite map_length in V; discriminate V).
  cbn [map] in V. assert (P1 : forall A B C D E (a a' : A) (b b' : B) (c c' : C) (d d' : D) (e e' : E), (a, b, c, d, e) = (a', b', c', d', e') -> a = a') by (intros; congruence).
  assert (V0 := f_equal (fun l => nth 0 l (Fin 0, Fin 0, [], Fin 0, true)) V). assert (V1 := f_equal (fun l => nth 1 l (Fin 0, Fin 0, [], Fin 0, true)) V).
  assert (V2 := f_equal (fun l => nth 2 l (Fin 0, Fin 0, [], Fin 0, true)) V). cbn [nth] in V0, V1, V2. apply P1 in V0, V1, V2.
  destruct (ex_shown _ _ V0) as (z0 & F0 & Q0). destruct (ex_shown _ _ V1) as (z1 & F1 & Q1). destruct (ex_shown _ _ V2) as (z2 & F2 & Q2).
  exists s0, s1, s2, z0, z1, z2. repeat (split; [assumption || reflexivity|]). exact Q2.
Qed.
Example ex_bent_lid : (forall s, In s (snd ex_bent) -> 0 < qof (st_Z s)) /\ exists z0, sy_Z0 (fst ex_bent) = Fin z0 /\ z0 == 3.
Proof.
  destruct ex_bent_states as (s0 & s1 & s2 & z0 & z1 & z2 & E & F0 & F1 & F2 & Q0 & Q1 & Q2). split.
  - rewrite E. intros s [<-|[<-|[<-|[]]]]; [rewrite F0|rewrite F1|rewrite F2]; cbn [qof]; lra.
  - exists z0. split; [|exact Q0]. rewrite (first_Z _ _ _ _ _ _ s0 ex_bent_ok); [exact F0|]. rewrite E. reflexivity.
Qed.
(** rlambda(t) = Z(0) / Z(t) fails between recorded states *)
Theorem C60_ratio_refuted : exists lsolve m g p S h R t s0 z0 zt rt, solve lsolve m g p = Ok (S, h) /\ solve_full lsolve m g p None = Ok R /\ 0 <= t /\ t <= 1 /\
  nth_error h 0 = Some s0 /\ st_Z s0 = Fin z0 /\ interp_call (r_Z R) t = Fin zt /\ interp_call (r_rl R) t = Fin rt /\ 0 < zt /\ z0 / zt < rt.
Proof.
  destruct ex_bent_states as (s0 & s1 & s2 & z0 & z1 & z2 & E & F0 & F1 & F2 & Q0 & Q1 & Q2). destruct ex_bent_lid as [P (z & EZ & QZ)].
  assert (N0 : nth_error (snd ex_bent) 0 = Some s0) by (rewrite E; reflexivity). assert (N1 : nth_error (snd ex_bent) 1 = Some s1) by (rewrite E; reflexivity).
  assert (ET : 1 # 4 == param (length (snd ex_bent)) 0 (1 # 2)) by (rewrite E; reflexivity). assert (L2 : (2 <= length (snd ex_bent))%nat) by (rewrite E; simpl; lia).
  destruct ex_full_bent as [_ F].
  destruct (C60_product _ _ _ _ _ _ ex_bent_ok (ex_bend_noflag _ (or_intror eq_refl)) (proj1 ex_tols) ex_bent_reliable None _ F 0%nat (1 # 2) (1 # 4) z z0 z1 s0 s1 eq_refl
    P EZ N0 N1 F0 F1 ltac:(lra) ltac:(lra) ET) as (zt & rt & G1 & G2 & G3 & G4).
  assert (RZ : r_Z (results_of (fst ex_bent) (snd ex_bent) None) = interp_new LinearScalar (map Fin [z0; z1; z2]) None)
    by (cbn [r_Z results_of]; rewrite E; cbn [map]; rewrite F0, F1, F2; reflexivity).
  assert (PZ : 0 < zt).
  { destruct (C47_between LinearScalar [z0; z1; z2] None 2 3 (or_intror eq_refl) ltac:(simpl; lia) I) with (t := 1 # 4) as (w & W1 & W2 & _).
    - intros q [<-|[<-|[<-|[]]]]; lra.
    - rewrite <- RZ, G1 in W1. injection W1 as <-. lra. }
  exists gauss, (ex_bend (Fin 1)), (ex_bendg (Fin 1)), (ex_p 3 0 0), (fst ex_bent), (snd ex_bent), (results_of (fst ex_bent) (snd ex_bent) None), (1 # 4), s0, z0, zt, rt.
  split; [exact ex_bent_ok|]. split; [exact F|]. split; [lra|]. split; [lra|]. repeat (split; [assumption|]).
  apply Qlt_shift_div_r; [exact PZ|]. rewrite G3, QZ, Q0, Q1. reflexivity.
Qed.

(** ** C68: results between two recorded states *)
Theorem C68_fields : forall lsolve m g p S h, solve lsolve m g p = Ok (S, h) -> ~ flag_set (g_attrs g) -> tolerances_ok p ->
  (forall s, In s h -> reliable lsolve m g p S s) -> forall size R, solve_full lsolve m g p size = Ok R -> forall k a t s s', size = None -> nth_error h k = Some s -> nth_error h (Datatypes.S k) = Some s' ->
  0 <= a -> a <= 1 -> t == param (length h) k a ->
  exists ut ft Ft, call_vec (r_u R) t = ut /\ call_vec (r_f R) t = ft /\ call_vec (r_F R) t = Ft /\
    finite_vec ut /\ finite_vec ft /\ finite_vec Ft /\ length ut = length (st_u S s) /\ length ft = length (st_f S s) /\ length Ft = length (st_F S s) /\
    (forall j, nth j (vals ut) 0 == blend a (nth j (vals (st_u S s)) 0) (nth j (vals (st_u S s')) 0)) /\
    (forall j, nth j (vals ft) 0 == blend a (nth j (vals (st_f S s)) 0) (nth j (vals (st_f S s')) 0)) /\
    (forall j, nth j (vals Ft) 0 == 0).
Proof. exact res_between. Qed.
Theorem C68_bounds : forall lsolve m g p S h, solve lsolve m g p = Ok (S, h) -> ~ flag_set (g_attrs g) -> tolerances_ok p ->
  (forall s, In s h -> reliable lsolve m g p S s) -> forall size R, solve_full lsolve m g p size = Ok R -> forall k a t s s', size = None -> nth_error h k = Some s -> nth_error h (Datatypes.S k) = Some s' ->
  0 <= a -> a <= 1 -> t == param (length h) k a ->
  forall cs r b, constraint m g = Ok cs -> nth_error (csH cs) r = Some (Fin b) ->
  exists v q q', nth_error (call_vec (r_H R) t) r = Some (Fin v) /\ nth_error (st_H S s) r = Some (Fin q) /\ nth_error (st_H S s') r = Some (Fin q') /\ v == blend a q q'.
Proof. exact res_between_H. Qed.
Theorem C68_lid : forall lsolve m g p S h, solve lsolve m g p = Ok (S, h) -> ~ flag_set (g_attrs g) -> tolerances_ok p ->
  (forall s, In s h -> reliable lsolve m g p S s) -> forall size R, solve_full lsolve m g p size = Ok R -> forall k a t s s', size = None -> nth_error h k = Some s -> nth_error h (Datatypes.S k) = Some s' ->
  0 <= a -> a <= 1 -> t == param (length h) k a ->
  exists v z z', interp_call (r_Z R) t = Fin v /\ st_Z s = Fin z /\ st_Z s' = Fin z' /\ v == blend a z z'.
Proof. exact res_between_Z. Qed.
(** the mask read as booleans is the mask of the latest state reached, whatever [size] *)
Theorem C68_mask : forall lsolve m g p S h, solve lsolve m g p = Ok (S, h) -> ~ flag_set (g_attrs g) -> tolerances_ok p ->
  (forall s, In s h -> reliable lsolve m g p S s) -> forall size R, solve_full lsolve m g p size = Ok R -> forall t s, (2 <= length h)%nat -> 0 <= t -> t <= 1 ->
  nth_error h (Z.to_nat (Qfloor (t * inject_Z (Z.of_nat (length h - 1))))) = Some s -> map as_bool (call_vec (r_mask R) t) = st_mask s.
Proof. exact res_mask. Qed.
Theorem C68_mask_single : forall lsolve m g p S h, solve lsolve m g p = Ok (S, h) -> ~ flag_set (g_attrs g) -> tolerances_ok p ->
  (forall s, In s h -> reliable lsolve m g p S s) -> forall size R, solve_full lsolve m g p size = Ok R -> forall t s, h = [s] -> map as_bool (call_vec (r_mask R) t) = st_mask s.
Proof. exact res_mask_single. Qed.
Theorem C68_mask_outside : forall lsolve m g p S h, solve lsolve m g p = Ok (S, h) -> ~ flag_set (g_attrs g) -> tolerances_ok p ->
  (forall s, In s h -> reliable lsolve m g p S s) -> forall size R, solve_full lsolve m g p size = Ok R -> forall t s, t < 0 \/ 1 < t -> nth_error h (length h - 1) = Some s -> map as_bool (call_vec (r_mask R) t) = st_mask s.
Proof. exact res_mask_outside. Qed.
Example ex_half : exists s0 s1, nth_error (snd ex_bent) 0 = Some s0 /\ nth_error (snd ex_bent) 1 = Some s1 /\ 1 # 4 == param (length (snd ex_bent)) 0 (1 # 2) /\
  (forall j, nth j (vals (call_vec (r_u (results_of (fst ex_bent) (snd ex_bent) None)) (1 # 4))) 0 ==
    blend (1 # 2) (nth j (vals (st_u (fst ex_bent) s0)) 0) (nth j (vals (st_u (fst ex_bent) s1)) 0)) /\
  map as_bool (call_vec (r_mask (results_of (fst ex_bent) (snd ex_bent) (Some 7%nat))) (1 # 4)) = st_mask s0 /\
  map as_bool (call_vec (r_mask (results_of (fst ex_bent) (snd ex_bent) (Some 7%nat))) (3 # 4)) = st_mask s1.
Proof.
  destruct ex_bent_states as (s0 & s1 & s2 & z0 & z1 & z2 & E & _).
  assert (N0 : nth_error (snd ex_bent) 0 = Some s0) by (rewrite E; reflexivity). assert (N1 : nth_error (snd ex_bent) 1 = Some s1) by (rewrite E; reflexivity).
  assert (ET : 1 # 4 == param (length (snd ex_bent)) 0 (1 # 2)) by (rewrite E; reflexivity). assert (L2 : (2 <= length (snd ex_bent))%nat) by (rewrite E; simpl; lia).
  exists s0, s1. split; [exact N0|]. split; [exact N1|]. split; [exact ET|]. pose proof (ex_bend_noflag _ (or_intror (eq_refl (Fin 1)))) as NF. pose proof (proj1 ex_tols) as T.
  split; [|split].
  - destruct (C68_fields _ _ _ _ _ _ ex_bent_ok NF T ex_bent_reliable None _ (full_ok _ _ _ _ _ _ None ex_bent_ok) 0%nat (1 # 2) (1 # 4) s0 s1 eq_refl N0 N1 ltac:(lra) ltac:(lra) ET)
      as (ut & ft & Ft & <- & _ & _ & _ & _ & _ & _ & _ & _ & U & _). exact U.
  - apply (C68_mask _ _ _ _ _ _ ex_bent_ok NF T ex_bent_reliable (Some 7%nat) _ (full_ok _ _ _ _ _ _ _ ex_bent_ok) (1 # 4) s0 L2 ltac:(lra) ltac:(lra)). rewrite E. reflexivity.
  - apply (C68_mask _ _ _ _ _ _ ex_bent_ok NF T ex_bent_reliable (Some 7%nat) _ (full_ok _ _ _ _ _ _ _ ex_bent_ok) (3 # 4) s1 L2 ltac:(lra) ltac:(lra)). rewrite E. reflexivity.
Qed.

Print Assumptions C46_linear.
Print Assumptions C46_samples.
Print Assumptions C46_ends.
Print Assumptions C46_resample.
Print Assumptions C46_all.
Print Assumptions C47_neighbours.
Print Assumptions C47_between.
Print Assumptions C47_increasing.
Print Assumptions C47_decreasing.
Print Assumptions C48_last.
Print Assumptions C49_step.
Print Assumptions C49_single.
Print Assumptions C50_finite.
Print Assumptions C50_single_refuted.
Print Assumptions C50_unbounded_refuted.
Print Assumptions C59_admissible.
Print Assumptions C59_equilibrium.
Print Assumptions C60_lid.
Print Assumptions C60_stretch.
Print Assumptions C60_product.
Print Assumptions C60_ratio_refuted.
Print Assumptions C68_fields.
Print Assumptions C68_bounds.
Print Assumptions C68_lid.
Print Assumptions C68_mask.
Print Assumptions C68_mask_single.
Print Assumptions C68_mask_outside.
