(** Property theorems for the force on the lid during compression (C94) and for the energy with a direct solver (C80, C81). *)
From Coq Require Import String.
From Verif Require Import Num NumP ListX ListP Frames MatM NetM StackM MeshM ModelM SolverM InterpM ResultM Spec SpecNet SpecStack SpecMesh SpecModel SpecSolver SpecInterp SpecPerm SpecScale
  SpecProgress SpecEnergy SpecStiffen
  CheckP MeshCheckP NetP StackP StackNewP MeshP StiffP StiffLimP StiffLenP ConstraintP SolverP SolverRunP SolverSysP SolverApiP SolverFinP EnergyP StiffenP StiffenResP StiffenDirP
  PropsNet PropsStack PropsMesh PropsModel PropsSolver PropsInterp PropsEnergy PropsProgress GaussX.
Open Scope Q_scope.

(** ** C94: the mat never softens *)
(** the force on the lid is not negative and does not decrease; nor does the energy *)
Theorem C94_grows : forall lsolve m g p S h, solve lsolve m g p = Ok (S, h) -> ~ flag_set (g_attrs g) -> tolerances_ok p ->
  forall K cs, stiffness m g (sp_lmin p) (sp_lmax p) (sp_coupling p) = Ok K -> constraint m g = Ok cs -> sp_errtol p == 0 ->
  lengths_ok g (sp_lmin p) (sp_lmax p) -> finite_moduli m -> sp_coupling p * sp_coupling p <= 1 ->
  forall n, length (csH cs) = (3 * n)%nat -> forall i j a b, nth_error h i = Some a -> nth_error h j = Some b -> reliable lsolve m g p S b -> (i <= j)%nat ->
  load S n a <= load S n b.
Proof. exact load_grows. Qed.
Theorem C94_pushes : forall lsolve m g p S h, solve lsolve m g p = Ok (S, h) -> ~ flag_set (g_attrs g) -> tolerances_ok p ->
  forall K cs, stiffness m g (sp_lmin p) (sp_lmax p) (sp_coupling p) = Ok K -> constraint m g = Ok cs -> sp_errtol p == 0 ->
  lengths_ok g (sp_lmin p) (sp_lmax p) -> finite_moduli m -> sp_coupling p * sp_coupling p <= 1 ->
  forall n, length (csH cs) = (3 * n)%nat -> forall s, In s h -> reliable lsolve m g p S s -> 0 <= load S n s.
Proof. exact load_nonneg. Qed.
Theorem C94_energy : forall lsolve m g p S h, solve lsolve m g p = Ok (S, h) -> ~ flag_set (g_attrs g) -> tolerances_ok p ->
  forall K cs, stiffness m g (sp_lmin p) (sp_lmax p) (sp_coupling p) = Ok K -> constraint m g = Ok cs -> sp_errtol p == 0 ->
  lengths_ok g (sp_lmin p) (sp_lmax p) -> finite_moduli m -> sp_coupling p * sp_coupling p <= 1 ->
  forall n, length (csH cs) = (3 * n)%nat -> forall i j a b, nth_error h i = Some a -> nth_error h j = Some b -> reliable lsolve m g p S b -> (i <= j)%nat ->
  stored K (vals (st_u S a)) <= stored K (vals (st_u S b)).
Proof. exact stored_grows. Qed.
(** the force grows faster and faster: it is a convex function of the travel of the lid *)
Theorem C94_stiffens : forall lsolve m g p S h, solve lsolve m g p = Ok (S, h) -> ~ flag_set (g_attrs g) -> tolerances_ok p ->
  forall K cs, stiffness m g (sp_lmin p) (sp_lmax p) (sp_coupling p) = Ok K -> constraint m g = Ok cs -> sp_errtol p == 0 ->
  lengths_ok g (sp_lmin p) (sp_lmax p) -> finite_moduli m -> sp_coupling p * sp_coupling p <= 1 ->
  forall n, length (csH cs) = (3 * n)%nat -> forall i j k a b c, nth_error h i = Some a -> nth_error h j = Some b -> nth_error h k = Some c ->
  reliable lsolve m g p S c -> (i < j)%nat -> (j < k)%nat -> no_softer S n a b c.
Proof. exact stiffens. Qed.
(** so the energy is at most that of a spring with the same final force *)
Theorem C94_spring : forall lsolve m g p S h, solve lsolve m g p = Ok (S, h) -> ~ flag_set (g_attrs g) -> tolerances_ok p ->
  forall K cs, stiffness m g (sp_lmin p) (sp_lmax p) (sp_coupling p) = Ok K -> constraint m g = Ok cs -> sp_errtol p == 0 ->
  lengths_ok g (sp_lmin p) (sp_lmax p) -> finite_moduli m -> sp_coupling p * sp_coupling p <= 1 ->
  forall n, length (csH cs) = (3 * n)%nat -> forall s, In s h -> reliable lsolve m g p S s ->
  2 * stored K (vals (st_u S s)) <= load S n s * travel S s.
Proof. exact stored_bound. Qed.
(** the same at all pseudo-times of the returned functions, resampled or not, with any direct solver and any small error tolerance *)
Theorem C94_results : forall lsolve m g p S h, direct_solver lsolve -> sound_data m g p -> numbering (length (sy_dq S)) (sp_perm p) -> starts_held m g (sp_tol p) ->
  solve lsolve m g p = Ok (S, h) -> forall K cs, stiffness m g (sp_lmin p) (sp_lmax p) (sp_coupling p) = Ok K -> constraint m g = Ok cs -> finite_moduli m ->
  forall n, length (csH cs) = (3 * n)%nat -> forall size R, size_ok size -> solve_full lsolve m g p size = Ok R -> (2 <= length h)%nat ->
  forall t1 t2 t3, 0 <= t1 -> t1 <= t2 -> t2 <= t3 -> t3 <= 1 ->
  0 <= load_at R n t1 /\ load_at R n t1 <= load_at R n t2 /\
  (load_at R n t2 - load_at R n t1) * (height_at R t2 - height_at R t3) <= (load_at R n t3 - load_at R n t2) * (height_at R t1 - height_at R t2).
Proof. exact dir_results. Qed.
Theorem C94_direct : forall lsolve m g p S h, direct_solver lsolve -> sound_data m g p -> numbering (length (sy_dq S)) (sp_perm p) -> starts_held m g (sp_tol p) ->
  solve lsolve m g p = Ok (S, h) -> forall K cs, stiffness m g (sp_lmin p) (sp_lmax p) (sp_coupling p) = Ok K -> constraint m g = Ok cs -> finite_moduli m ->
  forall n, length (csH cs) = (3 * n)%nat -> forall i j a b, nth_error h i = Some a -> nth_error h j = Some b -> (i <= j)%nat ->
  0 <= load S n a /\ load S n a <= load S n b /\ stored K (vals (st_u S a)) <= stored K (vals (st_u S b)).
Proof. exact dir_grows. Qed.
Theorem C94_direct_stiffens : forall lsolve m g p S h, direct_solver lsolve -> sound_data m g p -> numbering (length (sy_dq S)) (sp_perm p) -> starts_held m g (sp_tol p) ->
  solve lsolve m g p = Ok (S, h) -> forall K cs, stiffness m g (sp_lmin p) (sp_lmax p) (sp_coupling p) = Ok K -> constraint m g = Ok cs -> finite_moduli m ->
  forall n, length (csH cs) = (3 * n)%nat -> forall i j k a b c, nth_error h i = Some a -> nth_error h j = Some b -> nth_error h k = Some c ->
  (i < j)%nat -> (j < k)%nat -> no_softer S n a b c.
Proof. exact dir_stiffens. Qed.
Theorem C94_direct_spring : forall lsolve m g p S h, direct_solver lsolve -> sound_data m g p -> numbering (length (sy_dq S)) (sp_perm p) -> starts_held m g (sp_tol p) ->
  solve lsolve m g p = Ok (S, h) -> forall K cs, stiffness m g (sp_lmin p) (sp_lmax p) (sp_coupling p) = Ok K -> constraint m g = Ok cs -> finite_moduli m ->
  forall n, length (csH cs) = (3 * n)%nat -> forall s, In s h -> 2 * stored K (vals (st_u S s)) <= load S n s * travel S s.
Proof. exact dir_bound. Qed.

(** ** C80, C81 with a direct solver, whatever the error tolerance *)
Theorem C80_direct : forall lsolve m g p S h, direct_solver lsolve -> sound_data m g p -> numbering (length (sy_dq S)) (sp_perm p) -> starts_held m g (sp_tol p) ->
  solve lsolve m g p = Ok (S, h) -> forall K cs, stiffness m g (sp_lmin p) (sp_lmax p) (sp_coupling p) = Ok K -> constraint m g = Ok cs -> finite_moduli m ->
  forall n, length (csH cs) = (3 * n)%nat -> forall k s, nth_error h k = Some s -> stored K (vals (st_u S s)) == lid_work S n (firstn (Datatypes.S k) h).
Proof. exact dir_work. Qed.
Theorem C80_direct_contacts : forall lsolve m g p S h, direct_solver lsolve -> sound_data m g p -> numbering (length (sy_dq S)) (sp_perm p) -> starts_held m g (sp_tol p) ->
  solve lsolve m g p = Ok (S, h) -> forall K cs, stiffness m g (sp_lmin p) (sp_lmax p) (sp_coupling p) = Ok K -> constraint m g = Ok cs -> finite_moduli m ->
  forall s, In s h -> quadratic K (vals (st_u S s)) == - contact_work (csC cs) (vals (st_f S s)) (vals (st_u S s)).
Proof. exact dir_contacts. Qed.
Theorem C81_direct : forall lsolve m g p S h, direct_solver lsolve -> sound_data m g p -> numbering (length (sy_dq S)) (sp_perm p) -> starts_held m g (sp_tol p) ->
  solve lsolve m g p = Ok (S, h) -> forall K cs, stiffness m g (sp_lmin p) (sp_lmax p) (sp_coupling p) = Ok K -> constraint m g = Ok cs -> finite_moduli m ->
  forall s, In s h -> pushes (vals (st_f S s)) -> forall z v, st_Z s = Fin z -> in_slab m g z v -> no_overlap m g v ->
  stored K (vals (st_u S s)) <= stored K v + sp_tol p * qsum (vals (st_f S s)).
Proof. exact dir_minimum. Qed.

(** ** examples: three point bending, three states *)
Example ex_bent_loads : map (fun s => (Qred (load (fst ex_bent) 11 s), Qred (height s))) (snd ex_bent) =
  [(0, 3); (11495636347046215 # 24769797950537728, 25 # 11); (195425817899785655 # 231935380809580544, 2)].
Proof. vm_compute. reflexivity. Qed.
Example ex_bent_stiffens : forall a b c, nth_error (snd ex_bent) 0 = Some a -> nth_error (snd ex_bent) 1 = Some b -> nth_error (snd ex_bent) 2 = Some c ->
  no_softer (fst ex_bent) 11 a b c.
Proof.
  intros a b c Ha Hb Hc. pose proof (ex_bend_cs (Fin 1) (or_intror eq_refl)) as Hcs.
  refine (C94_stiffens _ _ _ _ _ _ ex_bent_ok (ex_bend_noflag _ (or_intror eq_refl)) (proj1 ex_tols) _ _ (ex_bend_K _ (or_intror eq_refl)) Hcs (Qeq_refl _)
    (ex_bend_lengths _ (or_intror eq_refl)) (proj2 ex_bend_moduli) _ 11%nat _ 0%nat 1%nat 2%nat a b c Ha Hb Hc _ _ _).
  - cbn. lra.
  - vm_compute. reflexivity.
  - exact (ex_reliable (Fin 1) (ex_p 3 0 0) _ _ c (or_intror eq_refl) eq_refl ex_bent_ok (nth_error_In _ _ Hc)).
  - lia.
  - lia.
Qed.
(** four fibers, default tolerances, any direct solver *)
Lemma ex_pivot_moduli : finite_moduli (ex_pivot None).
Proof. intros f Hf. vm_compute in Hf. intuition subst; repeat eexists. Qed.
Example ex_pivot_stiff c : exists K, stiffness (ex_pivot None) (ex_pivotg None) (sp_lmin (ex_pp c)) (sp_lmax (ex_pp c)) (sp_coupling (ex_pp c)) = Ok K.
Proof.
  destruct (ex_pivot_total gauss None (ex_pp c) (or_introl eq_refl)) as (S & h & E). destruct (solve_inv _ _ _ _ _ _ E) as (K & cs & HK & _). exists K. exact HK.
Qed.
Example ex_pivot_work lsolve c : direct_solver lsolve -> c * c < 1 -> exists S h K, solve lsolve (ex_pivot None) (ex_pivotg None) (ex_pp c) = Ok (S, h) /\
  (2 <= length h)%nat /\ forall k s, nth_error h k = Some s -> stored K (vals (st_u S s)) == lid_work S 11 (firstn (Datatypes.S k) h) /\ 0 <= load S 11 s.
Proof.
  intros D Hc. pose proof (or_introl eq_refl : (None : option Q) = None \/ None = Some (1 # 2)) as H0.
  destruct (ex_pivot_reaches lsolve c D Hc) as (S & h & sl & rl & E & Hl & Er & Lr). destruct (ex_pivot_stiff c) as (K & HK). exists S, h, K. split; [exact E|].
  assert (N : length (csH (ex_cs (ex_pivot None) (ex_pivotg None))) = (3 * 11)%nat) by (vm_compute; reflexivity).
  split.
  - destruct h as [|s0 [|s1 l]]; [discriminate Hl| |cbn; lia]. cbn in Hl. injection Hl as ->.
    destruct (C36_history _ _ _ _ S _ E) as (_ & (x & Hx & _ & _ & _ & Ex) & _). cbn in Hx. injection Hx as ->. rewrite Ex in Er. injection Er as <-. lra.
  - intros k s Hk. split.
    + exact (C80_direct lsolve _ _ _ S h D (ex_pivot_sound c Hc) I ex_pivot_held E K _ HK (ex_pivot_cs None H0) ex_pivot_moduli 11%nat N k s Hk).
    + exact (proj1 (C94_direct lsolve _ _ _ S h D (ex_pivot_sound c Hc) I ex_pivot_held E K _ HK (ex_pivot_cs None H0) ex_pivot_moduli 11%nat N k k s s Hk Hk (le_n k))).
Qed.

(** ** where the hypotheses are needed *)
(** with a coupling above 1 the stiffness is no longer positive: the lid can be pulled down by the mat *)
Definition ex_tenp : solve_params := mkSolve (Fin 3) 1 None 0 0 None None 10.
Definition ex_ten : sysdata * list state := ex_run gauss (ex_bend (Fin 1)) (ex_bendg (Fin 1)) ex_tenp.
Example ex_ten_pulls : existsb (fun s => Qltb (Qred (load (fst ex_ten) 11 s)) 0) (snd ex_ten) = true.
Proof. vm_compute. reflexivity. Qed.
Theorem C94_coupling_refuted : ~ (forall lsolve m g p S h, solve lsolve m g p = Ok (S, h) -> ~ flag_set (g_attrs g) -> tolerances_ok p ->
  forall K cs, stiffness m g (sp_lmin p) (sp_lmax p) (sp_coupling p) = Ok K -> constraint m g = Ok cs -> sp_errtol p == 0 ->
  lengths_ok g (sp_lmin p) (sp_lmax p) -> finite_moduli m ->
  forall n, length (csH cs) = (3 * n)%nat -> forall s, In s h -> reliable lsolve m g p S s -> 0 <= load S n s).
Proof.
  intros H.
  assert (OK : solve gauss (ex_bend (Fin 1)) (ex_bendg (Fin 1)) ex_tenp = Ok (fst ex_ten, snd ex_ten)).
  { unfold ex_ten, ex_run. destruct (ex_bend_total (Fin 1) (or_intror eq_refl)) as (V & M & N & i & j & d & e & B & _).
    destruct (C36_total gauss _ _ ex_tenp V M N (ex_intro _ i (ex_intro _ j (ex_intro _ d (ex_intro _ e B))))) as (S & h & E). rewrite E. reflexivity. }
  destruct (solve_inv _ _ _ _ _ _ OK) as (K & cs & HK & _ & ES & _).
  pose proof ex_ten_pulls as P. apply existsb_exists in P. destruct P as (s & Hs & P). qb. rewrite Qred_correct in P.
  assert (R : reliable gauss (ex_bend (Fin 1)) (ex_bendg (Fin 1)) ex_tenp (fst ex_ten) s).
  { split; [exact gauss_length|]. right. split; [exact gauss_finite|]. split; [eapply ex_perm; [exact OK|reflexivity]|].
    split; [exact (ex_bend_lengths _ (or_intror eq_refl))|]. split.
    - intros f Hf. destruct (proj2 ex_bend_moduli f Hf) as (G & E & HG & _). exists G. exact HG.
    - left. rewrite ES. reflexivity. }
  assert (N : length (csH (ex_cs (ex_bend (Fin 1)) (ex_bendg (Fin 1)))) = (3 * 11)%nat) by (vm_compute; reflexivity).
  pose proof (H _ _ _ _ _ _ OK (ex_bend_noflag _ (or_intror eq_refl)) (conj (Qle_refl 0) (Qle_refl 0)) K _ HK (ex_bend_cs (Fin 1) (or_intror eq_refl)) (Qeq_refl _)
    (ex_bend_lengths _ (or_intror eq_refl)) (proj2 ex_bend_moduli) 11%nat N s Hs R) as L.
  lra.
Qed.
(** the force of one contact may decrease, and even pull *)
Theorem C94_contacts_refuted : ~ (forall lsolve m g p S h, solve lsolve m g p = Ok (S, h) -> ~ flag_set (g_attrs g) -> tolerances_ok p ->
  forall K cs, stiffness m g (sp_lmin p) (sp_lmax p) (sp_coupling p) = Ok K -> constraint m g = Ok cs -> sp_errtol p == 0 ->
  lengths_ok g (sp_lmin p) (sp_lmax p) -> finite_moduli m -> sp_coupling p * sp_coupling p <= 1 -> admissible_start m g ->
  right_length lsolve -> finite_or_nan lsolve -> sp_perm p = None ->
  forall i j a b, nth_error h i = Some a -> nth_error h j = Some b -> (i <= j)%nat -> forall r, nth r (vals (st_f S a)) 0 <= nth r (vals (st_f S b)) 0).
Proof.
  intros H. destruct ex_lift_ok as (NF & Hcs & HK & A & L & M). pose proof ex_lift_run as E3.
  assert (T : tolerances_ok ex_liftp) by (split; simpl; lra).
  destruct (solve gauss ex_lift (ex_g ex_liftt) ex_liftp) as [[S h]|e] eqn:E4; [|discriminate E3].
  cbn [fst snd] in E3. destruct (nth_error h 1) as [s|] eqn:Es; [|discriminate E3]. apply andb_true_iff in E3. destruct E3 as [E3 _].
  destruct (C36_history _ _ _ _ S h E4) as (_ & (s0 & Hs0 & _ & F0 & _) & _).
  assert (Z : nth 22 (vals (st_f S s0)) 0 == 0).
  { destruct (nth_in_or_default 22 (vals (st_f S s0)) 0) as [X|X]; [|rewrite X; reflexivity]. apply in_map_iff in X. destruct X as (w & Ew & Hw).
    rewrite <- Ew, (F0 w Hw). reflexivity. }
  pose proof (H gauss ex_lift (ex_g ex_liftt) ex_liftp S h E4 NF T _ _ HK Hcs (Qeq_refl _) L M ltac:(cbn; lra) A gauss_length gauss_finite eq_refl
    0%nat 1%nat s0 s Hs0 Es ltac:(lia) 22%nat) as X.
  qb. lra.
Qed.

Print Assumptions C94_results.
Print Assumptions C94_stiffens.
Print Assumptions C94_spring.
Print Assumptions C94_direct.
Print Assumptions C80_direct.
Print Assumptions C81_direct.
Print Assumptions C94_coupling_refuted.
Print Assumptions C94_contacts_refuted.
