(** Property theorems for the solver (C36 - C45 without C43, C58, C66, C67). *)
From Coq Require Import String.
From Verif Require Import Num NumP ListX ListP Frames MatM NetM StackM MeshM ModelM SolverM Spec SpecNet SpecStack SpecMesh SpecModel SpecSolver
  CheckP MeshCheckP NetP StackP StackNewP MeshP StiffP StiffLimP StiffLenP ConstraintP SolverP SolverRunP SolverSysP SolverApiP SolverFinP
  PropsNet PropsStack PropsMesh PropsModel GaussX.
Open Scope Q_scope.

(** ** C36: recorded history *)
Theorem C36_total : forall lsolve m g p, valid m -> mesh_ok g -> at_n (g_attrs g) = Some (Z.of_nat (length (q_rows m))) ->
  (exists i j d e, beam_element g i j d e) -> exists S h, solve lsolve m g p = Ok (S, h).
Proof. exact solve_total. Qed.
Theorem C36_history : forall lsolve m g p S h, solve lsolve m g p = Ok (S, h) ->
  (length h <= Datatypes.S (sp_itermax p))%nat /\
  (exists s0, nth_error h 0 = Some s0 /\ (forall v, In v (st_u S s0) -> v = Fin 0) /\ (forall v, In v (st_f S s0) -> v = Fin 0) /\
     (exists Z, st_Z s0 = Fin Z /\ highest_top m g Z) /\ st_rl s0 = Fin 1) /\
  (forall k s s', nth_error h k = Some s -> nth_error h (Datatypes.S k) = Some s' ->
     nltb (st_rl s) (sp_packing p) = true /\
     exists s0, nth_error h 0 = Some s0 /\ st_rl s' = ndiv (st_Z s0) (st_Z s')).
Proof. exact fin_history. Qed.
Theorem C36_lengths : forall lsolve m g p S h, solve lsolve m g p = Ok (S, h) -> forall cs, constraint m g = Ok cs -> forall s, In s h ->
  length (st_u S s) = (2 * length (g_rows g))%nat /\ length (st_F S s) = (2 * length (g_rows g))%nat /\
  length (st_f S s) = length (csH cs) /\ length (st_H S s) = length (csH cs).
Proof. exact fin_lengths. Qed.
(** a larger itermax only appends states *)
Theorem C36_itermax : forall lsolve m g p S h, solve lsolve m g p = Ok (S, h) -> forall p' S' h',
  sp_lmin p' = sp_lmin p -> sp_lmax p' = sp_lmax p -> sp_coupling p' = sp_coupling p ->
  sp_perm p' = sp_perm p -> sp_tol p' = sp_tol p -> sp_errtol p' = sp_errtol p -> sp_packing p' = sp_packing p ->
  (sp_itermax p <= sp_itermax p')%nat -> solve lsolve m g p' = Ok (S', h') ->
  S' = S /\ h = firstn (Datatypes.S (sp_itermax p)) h' /\ ((length h <= sp_itermax p)%nat -> h' = h).
Proof. exact fin_more. Qed.
(** with the default packing (1.0) or less, no step is made *)
Theorem C36_default_packing : forall lsolve m g p S h, solve lsolve m g p = Ok (S, h) ->
  nltb (Fin 1) (sp_packing p) = false -> length h = 1%nat.
Proof. exact fin_default. Qed.

(** ** C37: constraints are satisfied *)
Theorem C37_residual : forall lsolve m g p S h, solve lsolve m g p = Ok (S, h) -> ~ flag_set (g_attrs g) -> tolerances_ok p ->
  forall cs s, constraint m g = Ok cs -> In s h -> reliable lsolve m g p S s -> admissible_start m g ->
  satisfies_upto (sp_errtol p * travel S s) (csC cs) (st_H S s) (vals (st_u S s)).
Proof. exact fin_feasible. Qed.
Theorem C37_exact : forall lsolve m g p S h, solve lsolve m g p = Ok (S, h) -> ~ flag_set (g_attrs g) -> tolerances_ok p ->
  forall s, In s h -> reliable lsolve m g p S s -> admissible_start m g -> sp_errtol p == 0 ->
  exists z, st_Z s = Fin z /\ in_slab m g z (vals (st_u S s)) /\ no_overlap m g (vals (st_u S s)).
Proof. exact fin_admissible. Qed.
(** from the mat to the packed fibers *)
Theorem C37_stacked : forall linprog lsolve m per t thr st m' g p S h,
  net_new m per None = Ok t -> solved linprog m t -> all_in_plane m ->
  stack_new linprog m t thr = Ok (st, m') -> mesh_new st = Ok g -> solve lsolve m' g p = Ok (S, h) ->
  tolerances_ok p -> sp_errtol p == 0 -> forall s, In s h -> reliable lsolve m' g p S s ->
  exists z, st_Z s = Fin z /\ in_slab m' g z (vals (st_u S s)) /\ no_overlap m' g (vals (st_u S s)).
Proof.
  exact (fun linprog lsolve m per t thr st m' g p S h Hn Hs HP Hst Hg HS tols E0 s Hin R =>
    match solve_inv _ _ _ _ _ _ HS with ex_intro _ K (ex_intro _ cs (conj _ (conj Hcs _))) =>
    fin_admissible lsolve m' g p S h HS (stack_noflag _ _ _ _ _ _ _ _ Hn Hs Hst Hg) tols s Hin R
      (stack_admissible _ _ _ _ _ _ _ _ _ Hn Hs HP Hst Hg Hcs) E0 end).
Qed.

(** ** C38: mechanical equilibrium *)
Theorem C38_displacements : forall lsolve m g p S h, solve lsolve m g p = Ok (S, h) -> ~ flag_set (g_attrs g) -> tolerances_ok p ->
  forall K cs s, stiffness m g (sp_lmin p) (sp_lmax p) (sp_coupling p) = Ok K -> constraint m g = Ok cs ->
  In s h -> reliable lsolve m g p S s -> errors_below_tol S s -> lengths_ok g (sp_lmin p) (sp_lmax p) -> finite_shear m ->
  forall i, (i < length (g_rows g))%nat ->
  near0 (sp_errtol p * travel S s) (product K (vals (st_u S s)) (2 * i) + transpose_product (csC cs) (vals (st_f S s)) (2 * i)).
Proof. exact fin_displacements. Qed.
Theorem C38_all : forall lsolve m g p S h, solve lsolve m g p = Ok (S, h) -> ~ flag_set (g_attrs g) -> tolerances_ok p ->
  forall K cs s, stiffness m g (sp_lmin p) (sp_lmax p) (sp_coupling p) = Ok K -> constraint m g = Ok cs ->
  In s h -> reliable lsolve m g p S s -> errors_below_tol S s -> lengths_ok g (sp_lmin p) (sp_lmax p) -> finite_moduli m ->
  forall r, (r < 2 * length (g_rows g))%nat ->
  near0 (sp_errtol p * travel S s) (product K (vals (st_u S s)) r + transpose_product (csC cs) (vals (st_f S s)) r).
Proof. exact fin_equilibrium. Qed.
(** the load F stays zero *)
Theorem C38_load : forall lsolve m g p S h, solve lsolve m g p = Ok (S, h) -> ~ flag_set (g_attrs g) -> tolerances_ok p ->
  forall s, In s h -> reliable lsolve m g p S s -> forall v, In v (st_F S s) -> exists z, v = Fin z /\ z == 0.
Proof. exact fin_load. Qed.

(** ** C39: forces act at contacts, contacts persist *)
Theorem C39_contacts : forall lsolve m g p S h, solve lsolve m g p = Ok (S, h) -> ~ flag_set (g_attrs g) -> tolerances_ok p ->
  forall cs s, constraint m g = Ok cs -> In s h -> reliable lsolve m g p S s -> sp_errtol p == 0 ->
  forall r, ~ nth r (vals (st_f S s)) 0 == 0 ->
  exists q, gap_is (csC cs) (st_H S s) (vals (st_u S s)) r q /\ q <= sp_tol p.
Proof. exact fin_force. Qed.
Theorem C39_persist : forall lsolve m g p S h, solve lsolve m g p = Ok (S, h) -> ~ flag_set (g_attrs g) -> tolerances_ok p ->
  forall cs k s s', constraint m g = Ok cs -> nth_error h k = Some s -> nth_error h (Datatypes.S k) = Some s' ->
  reliable lsolve m g p S s' -> sp_errtol p == 0 ->
  forall r q, gap_is (csC cs) (st_H S s) (vals (st_u S s)) r q -> q <= sp_tol p -> gap_is (csC cs) (st_H S s') (vals (st_u S s')) r q.
Proof. exact fin_contact. Qed.

(** ** C40: termination *)
Theorem C40_steps : forall lsolve m g p S h, solve lsolve m g p = Ok (S, h) -> ~ flag_set (g_attrs g) -> tolerances_ok p ->
  forall cs k s, constraint m g = Ok cs -> nth_error h k = Some s -> reliable lsolve m g p S s -> errors_below_tol S s ->
  (k <= length (csH cs))%nat.
Proof. exact fin_steps. Qed.
Theorem C40_bound : forall lsolve m g p S h, solve lsolve m g p = Ok (S, h) -> ~ flag_set (g_attrs g) -> tolerances_ok p ->
  forall cs, constraint m g = Ok cs -> (forall s, In s h -> reliable lsolve m g p S s /\ errors_below_tol S s) ->
  (length h <= Datatypes.S (length (csH cs)))%nat.
Proof. exact fin_terminates. Qed.

(** ** C41: the lid goes down *)
Theorem C41_lid : forall lsolve m g p S h, solve lsolve m g p = Ok (S, h) -> ~ flag_set (g_attrs g) -> tolerances_ok p ->
  forall k s s', nth_error h k = Some s -> nth_error h (Datatypes.S k) = Some s' -> reliable lsolve m g p S s -> reliable lsolve m g p S s' ->
  exists z z', st_Z s = Fin z /\ st_Z s' = Fin z' /\ z' < z /\
    (0 < z' -> exists r r', st_rl s = Fin r /\ st_rl s' = Fin r' /\ r < r').
Proof. exact fin_compacts. Qed.
Theorem C41_packing : forall lsolve m g p S h, solve lsolve m g p = Ok (S, h) -> ~ flag_set (g_attrs g) -> tolerances_ok p ->
  forall s, In s h -> reliable lsolve m g p S s -> admissible_start m g -> sp_errtol p == 0 ->
  forall i d hh, is_node (g_rows g) i d -> thick m d hh -> 0 < hh ->
  exists z0 z rl, sy_Z0 S = Fin z0 /\ st_Z s = Fin z /\ hh <= z /\ st_rl s = Fin rl /\ rl * hh <= z0.
Proof. exact fin_packing. Qed.

(** ** C42: contact forces balance *)
Theorem C42_fiber : forall lsolve m g p S h, solve lsolve m g p = Ok (S, h) -> ~ flag_set (g_attrs g) -> tolerances_ok p ->
  forall cs s fb, constraint m g = Ok cs -> In s h -> reliable lsolve m g p S s -> errors_below_tol S s ->
  lengths_ok g (sp_lmin p) (sp_lmax p) -> finite_shear m ->
  near0 (inject_Z (Z.of_nat (length (nodes_of g fb))) * (sp_errtol p * travel S s)) (fiber_force (csC cs) g (vals (st_f S s)) fb).
Proof. exact fin_fiber. Qed.
Theorem C42_total : forall lsolve m g p S h, solve lsolve m g p = Ok (S, h) -> ~ flag_set (g_attrs g) -> tolerances_ok p ->
  forall cs k s, constraint m g = Ok cs -> length (csH cs) = (3 * k)%nat -> In s h -> reliable lsolve m g p S s -> errors_below_tol S s ->
  lengths_ok g (sp_lmin p) (sp_lmax p) -> finite_shear m ->
  near0 (inject_Z (Z.of_nat (length (g_rows g))) * (sp_errtol p * travel S s))
    (lid_force (vals (st_f S s)) k - floor_force (vals (st_f S s)) k).
Proof. exact fin_total. Qed.

(** ** C44: failed solves *)
(** a solver that sometimes fails gives the first states of the run with the solver that does not *)
Theorem C44_prefix : forall lsolve lsolve' m g p, ~ flag_set (g_attrs g) -> tolerances_ok p -> right_length lsolve' -> finite_or_nan lsolve' ->
  (forall A b, lsolve' A b = lsolve A b \/ forall v, In v (lsolve' A b) -> v = NaN) ->
  forall S h S' h', solve lsolve m g p = Ok (S, h) -> solve lsolve' m g p = Ok (S', h') ->
  (forall s, In s h' -> failures_detectable m g p S' s) -> S' = S /\ exists k, h' = firstn k h.
Proof. exact fin_prefix. Qed.
Theorem C44_finite : forall lsolve m g p S h, solve lsolve m g p = Ok (S, h) -> ~ flag_set (g_attrs g) -> tolerances_ok p ->
  forall s, In s h -> reliable lsolve m g p S s -> finite_vec (st_u S s) /\ finite_vec (st_f S s) /\ exists z, st_Z s = Fin z.
Proof. exact fin_finite. Qed.

(** ** C45: infinitely stiff fibers do not rotate *)
Theorem C45_rotation : forall lsolve m g p S h, solve lsolve m g p = Ok (S, h) -> ~ flag_set (g_attrs g) -> tolerances_ok p ->
  forall s, In s h -> reliable lsolve m g p S s -> forall i d f, is_node (g_rows g) i d -> has_fiber m (nf d) f -> qE f = PInf ->
  rot (vals (st_u S s)) i == 0.
Proof. exact fin_rotation. Qed.

(** ** C66: recorded contact masks *)
Theorem C66_first_mask : forall lsolve m g p S h, solve lsolve m g p = Ok (S, h) -> ~ flag_set (g_attrs g) ->
  forall cs s, constraint m g = Ok cs -> nth_error h 0 = Some s ->
  length (st_mask s) = (2 * length (g_rows g) + length (csH cs))%nat /\
  forall r, nth (2 * length (g_rows g) + r) (st_mask s) false = true <->
    exists q, gap_is (csC cs) (st_H S s) (vals (st_u S s)) r q /\ q <= sp_tol p.
Proof. exact fin_mask_start. Qed.
(** afterwards the mask is the one the increment was computed with *)
Theorem C66_next_mask : forall lsolve m g p S h, solve lsolve m g p = Ok (S, h) -> ~ flag_set (g_attrs g) -> tolerances_ok p ->
  forall cs k s s', constraint m g = Ok cs -> nth_error h k = Some s -> nth_error h (Datatypes.S k) = Some s' -> reliable lsolve m g p S s ->
  length (st_mask s') = (2 * length (g_rows g) + length (csH cs))%nat /\
  (forall r, nth (2 * length (g_rows g) + r) (st_mask s') false = true <->
    exists q, gap_is (csC cs) (st_H S s) (vals (st_u S s)) r q /\ q <= sp_tol p) /\
  (forall i d f, is_node (g_rows g) i d -> has_fiber m (nf d) f -> qE f = PInf -> nth (2 * i + 1) (st_mask s') false = false).
Proof. exact fin_mask_next. Qed.
(** each recorded increment closes a gap that was open *)
Theorem C66_new_contact : forall lsolve m g p S h, solve lsolve m g p = Ok (S, h) -> ~ flag_set (g_attrs g) -> tolerances_ok p ->
  forall cs k s s', constraint m g = Ok cs -> nth_error h k = Some s -> nth_error h (Datatypes.S k) = Some s' -> reliable lsolve m g p S s' -> errors_below_tol S s ->
  exists r q q', gap_is (csC cs) (st_H S s) (vals (st_u S s)) r q /\ sp_tol p < q /\
    gap_is (csC cs) (st_H S s') (vals (st_u S s')) r q' /\ q' == 0.
Proof. exact fin_new. Qed.
(** hence the mask recorded with a state after the first never lists all its closed gaps *)
Theorem C66_late : forall lsolve m g p S h, solve lsolve m g p = Ok (S, h) -> ~ flag_set (g_attrs g) -> tolerances_ok p ->
  forall cs k s s', constraint m g = Ok cs -> nth_error h k = Some s -> nth_error h (Datatypes.S k) = Some s' -> reliable lsolve m g p S s -> reliable lsolve m g p S s' ->
  errors_below_tol S s ->
  exists r q, gap_is (csC cs) (st_H S s') (vals (st_u S s')) r q /\ q == 0 /\ nth (2 * length (g_rows g) + r) (st_mask s') false = false.
Proof. exact fin_mask_late. Qed.

(** ** C67: recorded bounds *)
Theorem C67_rows : forall lsolve m g p S h, solve lsolve m g p = Ok (S, h) -> ~ flag_set (g_attrs g) -> tolerances_ok p ->
  forall cs s r b, constraint m g = Ok cs -> In s h -> reliable lsolve m g p S s -> nth_error (csH cs) r = Some (Fin b) ->
  exists d q, nth_error (csdH cs) r = Some (Fin d) /\ nth_error (st_H S s) r = Some (Fin q) /\ q == b - d * travel S s.
Proof. exact fin_bounds. Qed.
Theorem C67_region : forall lsolve m g p S h, solve lsolve m g p = Ok (S, h) -> ~ flag_set (g_attrs g) -> tolerances_ok p ->
  forall cs s z, constraint m g = Ok cs -> In s h -> reliable lsolve m g p S s -> st_Z s = Fin z ->
  forall u, satisfies (csC cs) (st_H S s) u <-> in_slab m g z u /\ no_overlap m g u.
Proof. exact fin_region. Qed.

(** ** examples: three point bending, two supports below, one fiber above; heights set by the stack *)
Definition ex_bend0 (E : num) : qmat :=
  mkQmat [mkQ 4 1 1 (-1) 0 3 0 1 0 (Fin 1) E; mkQ 4 1 1 1 0 3 0 1 0 (Fin 1) E;
          mkQ 4 1 1 0 0 4 1 0 0 (Fin 1) E; mkQ 4 1 1 0 0 7 0 1 0 (Fin 1) E] 50.
Definition ex_bendt (E : num) : net_df :=
  match net_new (ex_bend0 E) false None with Ok t => t | Exn _ => mkNetDf [] [] (mkAttrs None None None None) true end.
Definition ex_bends (E : num) : net_df * qmat :=
  match stack_new ex_greedy (ex_bend0 E) (ex_bendt E) None with Ok r => r | Exn _ => (ex_bendt E, ex_bend0 E) end.
Definition ex_bend (E : num) : qmat := snd (ex_bends E).
Definition ex_bendg (E : num) : mesh_df := ex_g (fst (ex_bends E)).
Example ex_bend_net : net_new (ex_bend0 PInf) false None = Ok (ex_bendt PInf) /\ net_new (ex_bend0 (Fin 1)) false None = Ok (ex_bendt (Fin 1)).
Proof. split; vm_compute; reflexivity. Qed.
Example ex_bend_solved : solved ex_greedy (ex_bend0 PInf) (ex_bendt PInf) /\ solved ex_greedy (ex_bend0 (Fin 1)) (ex_bendt (Fin 1)).
Proof.
  destruct ex_bend_net as [N1 N2]. destruct (C17_networks_by_A _ _ _ _ N1) as (_ & K1 & _ & F1 & B1).
  destruct (C17_networks_by_A _ _ _ _ N2) as (_ & K2 & _ & F2 & B2).
  split; apply greedy_solved; auto; vm_compute; reflexivity.
Qed.
Example ex_bend_stack : stack_new ex_greedy (ex_bend0 PInf) (ex_bendt PInf) None = Ok (fst (ex_bends PInf), ex_bend PInf) /\
  stack_new ex_greedy (ex_bend0 (Fin 1)) (ex_bendt (Fin 1)) None = Ok (fst (ex_bends (Fin 1)), ex_bend (Fin 1)).
Proof. split; vm_compute; reflexivity. Qed.
Example ex_bend_heights : map (fun f => Qred (qz f)) (q_rows (ex_bend PInf)) = [1 # 2; 1 # 2; 3 # 2; 5 # 2].
Proof. vm_compute. reflexivity. Qed.
Example ex_bend_mesh : mesh_new (fst (ex_bends PInf)) = Ok (ex_bendg PInf) /\ mesh_new (fst (ex_bends (Fin 1))) = Ok (ex_bendg (Fin 1)).
Proof. split; vm_compute; reflexivity. Qed.
Definition ex_p (packing : Q) (tol errtol : Q) : solve_params := mkSolve (Fin packing) 5 None tol errtol None None 1.
Definition ex_run (lsolve : ncoo -> list num -> list num) (m : qmat) (g : mesh_df) (p : solve_params) : sysdata * list state :=
  match solve lsolve m g p with Ok r => r | Exn _ => (mkSys 0 [] [] [] 0 0 NaN NaN, []) end.
Definition ex_show (v : num) : num := match v with Fin q => Fin (Qred q) | w => w end.
Example ex_bend_total E : E = PInf \/ E = Fin 1 -> valid (ex_bend E) /\ mesh_ok (ex_bendg E) /\
  at_n (g_attrs (ex_bendg E)) = Some (Z.of_nat (length (q_rows (ex_bend E)))) /\
  exists i j d e, beam_element (ex_bendg E) i j d e /\ ns d < ns e.
Proof.
  intros H. split; [|split; [|split]].
  - assert (C : mat_check (df_of (ex_bend E)) = Ok true) by (destruct H as [->| ->]; vm_compute; reflexivity).
    destruct (proj1 (mat_check_ok (df_of (ex_bend E))) C) as [F|F]; [discriminate F|exact F].
  - assert (C : mesh_check (ex_bendg E) = Ok true) by (destruct H as [->| ->]; vm_compute; reflexivity).
    assert (F : at_skip (g_attrs (ex_bendg E)) = None) by (destruct H as [->| ->]; vm_compute; reflexivity).
    destruct (proj1 (mesh_check_ok _) C) as [G|G]; [unfold flag_set in G; congruence|exact G].
  - destruct H as [->| ->]; vm_compute; reflexivity.
  - exists 0%nat, 1%nat. destruct H as [->| ->]; eexists; eexists;
    (split; [split; [eexists; vm_compute; reflexivity|split; [eexists; vm_compute; reflexivity|]]|]; vm_compute; auto).
Qed.
Example ex_bend_noflag E : E = PInf \/ E = Fin 1 -> ~ flag_set (g_attrs (ex_bendg E)).
Proof. intros [->| ->]; vm_compute; discriminate. Qed.
Example ex_bend_K E : E = PInf \/ E = Fin 1 -> stiffness (ex_bend E) (ex_bendg E) None None 1 = Ok (ex_K (ex_bend E) (ex_bendg E) None None 1).
Proof. intros [->| ->]; vm_compute; reflexivity. Qed.
Example ex_bend_cs E : E = PInf \/ E = Fin 1 -> constraint (ex_bend E) (ex_bendg E) = Ok (ex_cs (ex_bend E) (ex_bendg E)).
Proof. intros [->| ->]; vm_compute; reflexivity. Qed.
Example ex_bend_lengths E : E = PInf \/ E = Fin 1 -> lengths_ok (ex_bendg E) None None.
Proof.
  intros H. split; [|apply (ex_bend_total E H)]. apply (ex_long _ _ _ _ _ _ (ex_bend_K E H) (ex_bend_noflag E H)).
  destruct H as [->| ->]; vm_compute; reflexivity.
Qed.
Example ex_bend_moduli : finite_shear (ex_bend PInf) /\ finite_moduli (ex_bend (Fin 1)).
Proof. split; intros f Hf; vm_compute in Hf; intuition subst; repeat eexists. Qed.
Example ex_bend_flat E : all_in_plane (ex_bend0 E).
Proof. intros f Hf. simpl in Hf. intuition subst; reflexivity. Qed.
Example ex_bend_start E : E = PInf \/ E = Fin 1 -> admissible_start (ex_bend E) (ex_bendg E).
Proof.
  intros H. destruct ex_bend_net as [N1 N2], ex_bend_solved as [S1 S2], ex_bend_stack as [T1 T2], ex_bend_mesh as [M1 M2].
  destruct H as [->| ->].
  - exact (stack_admissible _ _ _ _ _ _ _ _ _ N1 S1 (ex_bend_flat PInf) T1 M1 (ex_bend_cs _ (or_introl eq_refl))).
  - exact (stack_admissible _ _ _ _ _ _ _ _ _ N2 S2 (ex_bend_flat (Fin 1)) T2 M2 (ex_bend_cs _ (or_intror eq_refl))).
Qed.
(** runs *)
Definition ex_shear : sysdata * list state := ex_run gauss (ex_bend PInf) (ex_bendg PInf) (ex_p 3 0 0).
Definition ex_bent : sysdata * list state := ex_run gauss (ex_bend (Fin 1)) (ex_bendg (Fin 1)) (ex_p 3 0 0).
Example ex_shear_ok : solve gauss (ex_bend PInf) (ex_bendg PInf) (ex_p 3 0 0) = Ok (fst ex_shear, snd ex_shear).
Proof.
  unfold ex_shear, ex_run. destruct (ex_bend_total PInf (or_introl eq_refl)) as (V & M & N & i & j & d & e & B & _).
  destruct (C36_total gauss _ _ (ex_p 3 0 0) V M N (ex_intro _ i (ex_intro _ j (ex_intro _ d (ex_intro _ e B))))) as (S & h & E). rewrite E. reflexivity.
Qed.
Example ex_bent_ok : solve gauss (ex_bend (Fin 1)) (ex_bendg (Fin 1)) (ex_p 3 0 0) = Ok (fst ex_bent, snd ex_bent).
Proof.
  unfold ex_bent, ex_run. destruct (ex_bend_total (Fin 1) (or_intror eq_refl)) as (V & M & N & i & j & d & e & B & _).
  destruct (C36_total gauss _ _ (ex_p 3 0 0) V M N (ex_intro _ i (ex_intro _ j (ex_intro _ d (ex_intro _ e B))))) as (S & h & E). rewrite E. reflexivity.
Qed.
(** lid heights, stretch factors, displacements of the bent fiber (node 8 is its middle), errors, and whether no contact pulls *)
Example ex_bent_values : map (fun s => (ex_show (st_Z s), ex_show (st_rl s), map ex_show (firstn 10 (skipn 12 (st_u (fst ex_bent) s))), ex_show (st_err2 s),
    forallb (fun x => Qleb 0 x) (vals (st_f (fst ex_bent) s)))) (snd ex_bent) =
  [(Fin 3, Fin 1, [Fin 0; Fin 0; Fin 0; Fin 0; Fin 0; Fin 0; Fin 0; Fin 0; Fin 0; Fin 0], Fin 0, true);
   (Fin (25 # 11), Fin (33 # 25),
     [Fin (3 # 11); Fin (-3 # 11); Fin 0; Fin (-3 # 11); Fin (-8 # 11); Fin 0; Fin 0; Fin (3 # 11); Fin (3 # 11); Fin (3 # 11)], Fin 0, true);
   (Fin 2, Fin (3 # 2),
     [Fin 0; Fin (-15 # 103); Fin 0; Fin (-24 # 103); Fin (-1); Fin 0; Fin 0; Fin (24 # 103); Fin 0; Fin (15 # 103)], Fin 0, true)].
Proof. vm_compute. reflexivity. Qed.
Example ex_shear_values : map (fun s => (ex_show (st_Z s), map ex_show (st_u (fst ex_shear) s), map (fun v => Qeqb (qof v) 0) (st_f (fst ex_shear) s))) (snd ex_shear) =
  [(Fin 3, repeat (Fin 0) 28, repeat true 33);
   (Fin 2, repeat (Fin 0) 16 ++ [Fin (-(1)); Fin 0; Fin 0; Fin 0; Fin 0; Fin 0; Fin (-(1)); Fin 0; Fin (-(1)); Fin 0; Fin (-(1)); Fin 0],
     repeat true 3 ++ [false; false] ++ repeat true 7 ++ [false; false] ++ repeat true 8 ++ [false; false] ++ repeat true 9)].
Proof. vm_compute. reflexivity. Qed.
Lemma ex_perm lsolve m g p S h : solve lsolve m g p = Ok (S, h) -> sp_perm p = None -> perm_complete S.
Proof.
  intros HS E r L. destruct (solve_inv _ _ _ _ _ _ HS) as (K & cs & _ & Hcs & ES & _). cbv zeta in ES. rewrite ES in *. cbn [sy_perm sy_dq] in *. rewrite E.
  apply in_seq. rewrite app_length, repeat_length in *. rewrite (csdH_len m g cs Hcs) in L. rewrite (csH_len m g cs Hcs). lia.
Qed.
Example ex_detectable E p S h s : E = PInf \/ E = Fin 1 -> p = ex_p 3 0 0 -> solve gauss (ex_bend E) (ex_bendg E) p = Ok (S, h) -> In s h ->
  failures_detectable (ex_bend E) (ex_bendg E) p S s.
Proof.
  intros H -> HS Hs. split; [eapply ex_perm; eauto|]. split; [apply ex_bend_lengths; auto|]. split.
  - destruct H as [->| ->]; intros f Hf; vm_compute in Hf; intuition subst; repeat eexists.
  - left. destruct (solve_inv _ _ _ _ _ _ HS) as (K & cs & _ & _ & ES & _). rewrite ES. reflexivity.
Qed.
Example ex_reliable E p S h s : E = PInf \/ E = Fin 1 -> p = ex_p 3 0 0 -> solve gauss (ex_bend E) (ex_bendg E) p = Ok (S, h) -> In s h ->
  reliable gauss (ex_bend E) (ex_bendg E) p S s.
Proof.
  intros H Ep HS Hs. split; [exact gauss_length|]. right. split; [exact gauss_finite|]. eapply ex_detectable; eauto.
Qed.
Example ex_tols : tolerances_ok (ex_p 3 0 0) /\ tolerances_ok (ex_p 3 (1 # 1000000) (1 # 1000000)).
Proof. split; split; simpl; lra. Qed.
(** default tolerances: the errors stay below the contact tolerance while the lid travels less than 1 mm *)
Example ex_default_tols : forall S s, sy_errtol S = 1 # 1000000 -> sy_tol S = 1 # 1000000 -> sy_Z0 S = Fin 3 -> st_Z s = Fin 2 -> errors_below_tol S s.
Proof. intros S s E1 E2 E3 E4. right. unfold travel. rewrite E1, E2, E3, E4. split; [eauto|]. simpl. lra. Qed.

(** ** refutations *)
(** first and second state of the bending run *)
Example ex_two : exists s s', nth_error (snd ex_bent) 0 = Some s /\ nth_error (snd ex_bent) 1 = Some s' /\
  reliable gauss (ex_bend (Fin 1)) (ex_bendg (Fin 1)) (ex_p 3 0 0) (fst ex_bent) s /\
  reliable gauss (ex_bend (Fin 1)) (ex_bendg (Fin 1)) (ex_p 3 0 0) (fst ex_bent) s' /\ errors_below_tol (fst ex_bent) s.
Proof.
  pose proof ex_bent_values as V. destruct (snd ex_bent) as [|s [|s' l]] eqn:E; try (apply (f_equal (@length _)) in V; rewrite map_length in V; discriminate V).
  assert (R : forall a, In a (s :: s' :: l) -> reliable gauss (ex_bend (Fin 1)) (ex_bendg (Fin 1)) (ex_p 3 0 0) (fst ex_bent) a).
  { intros a Ha. rewrite <- E in Ha. exact (ex_reliable (Fin 1) (ex_p 3 0 0) (fst ex_bent) (snd ex_bent) a (or_intror eq_refl) eq_refl ex_bent_ok Ha). }
  exists s, s'. split; [reflexivity|]. split; [reflexivity|]. split; [apply R; left; reflexivity|]. split; [apply R; right; left; reflexivity|].
  left. destruct (solve_inv _ _ _ _ _ _ ex_bent_ok) as (K & cs & _ & _ & ES & _). rewrite ES. reflexivity.
Qed.
(** C66: "the recorded mask tells the closed gaps of the state it is recorded with" fails *)
Theorem C66_same_state_refuted :
  ~ (forall lsolve m g p S h cs s r q, right_length lsolve -> finite_or_nan lsolve -> solve lsolve m g p = Ok (S, h) -> ~ flag_set (g_attrs g) -> tolerances_ok p ->
     constraint m g = Ok cs -> In s h -> gap_is (csC cs) (st_H S s) (vals (st_u S s)) r q -> q == 0 -> nth (2 * length (g_rows g) + r) (st_mask s) false = true).
Proof.
  intros H. destruct ex_two as (s & s' & E & E' & R & R' & T).
  destruct (C66_late _ _ _ _ _ _ ex_bent_ok (ex_bend_noflag _ (or_intror eq_refl)) (proj1 ex_tols) _ 0%nat s s' (ex_bend_cs _ (or_intror eq_refl)) E E' R R' T) as (r & q & G & Q & M).
  rewrite (H gauss _ _ _ _ _ _ s' r q gauss_length gauss_finite ex_bent_ok (ex_bend_noflag _ (or_intror eq_refl)) (proj1 ex_tols) (ex_bend_cs _ (or_intror eq_refl))
    (nth_error_In _ _ E') G Q) in M. discriminate M.
Qed.
(** C44 without positive lengths: three fibers through one point make two nodes of a fiber coincide;
    the thick fiber beside them is already blocked between floor and lid, the reduced system is
    singular, yet the failed answer is recorded and the lid goes through the thick fiber *)
Definition ex_blocked : qmat :=
  mkQmat [mkQ 4 1 1 0 0 (1 # 2) 1 0 0 (Fin 1) (Fin 1); mkQ 4 1 1 0 0 (3 # 2) 0 1 0 (Fin 1) (Fin 1);
          mkQ 4 1 1 0 0 (5 # 2) (3 # 5) (4 # 5) 0 (Fin 1) (Fin 1); mkQ 4 1 4 10 0 2 0 1 0 (Fin 1) (Fin 1)] 50.
Definition ex_blockedt : net_df :=
  match net_new ex_blocked false None with Ok t => t | Exn _ => mkNetDf [] [] (mkAttrs None None None None) true end.
Theorem C44_zero_length_refuted :
  ~ (forall lsolve m t g p S h, right_length lsolve -> finite_or_nan lsolve -> tolerances_ok p -> valid m -> finite_moduli m ->
     sp_perm p = None -> net_new m false None = Ok t -> mesh_new t = Ok g -> solve lsolve m g p = Ok (S, h) ->
     forall s, In s h -> finite_vec (st_u S s)).
Proof.
  intros H. set (p := mkSolve (Fin 3) 1 None (1 # 1000000) (1 # 1000000) None None 1).
  assert (E1 : net_new ex_blocked false None = Ok ex_blockedt) by (vm_compute; reflexivity).
  assert (E2 : mesh_new ex_blockedt = Ok (ex_g ex_blockedt)) by (vm_compute; reflexivity).
  assert (V : valid ex_blocked).
  { destruct (proj1 (mat_check_ok (df_of ex_blocked)) eq_refl) as [F|F]; [discriminate F|exact F]. }
  assert (M : finite_moduli ex_blocked) by (intros f Hf; simpl in Hf; intuition subst; repeat eexists).
  assert (E3 : match solve gauss ex_blocked (ex_g ex_blockedt) p with
    | Ok r => match nth_error (snd r) 1 with Some s => existsb (fun v => match v with NaN => true | _ => false end) (st_u (fst r) s) | None => false end
    | Exn _ => false end = true) by (vm_compute; reflexivity).
  destruct (solve gauss ex_blocked (ex_g ex_blockedt) p) as [[S h]|e] eqn:E4; [|discriminate E3].
  cbn [fst snd] in E3. destruct (nth_error h 1) as [s|] eqn:Es; [|discriminate E3].
  apply existsb_exists in E3. destruct E3 as (v & Hv & Ev).
  assert (T : tolerances_ok p) by (split; simpl; lra).
  destruct (H gauss ex_blocked ex_blockedt (ex_g ex_blockedt) p S h gauss_length gauss_finite T V M eq_refl E1 E2 E4 s (nth_error_In _ _ Es) v Hv) as (q & ->).
  discriminate Ev.
Qed.

(** C44 for answers that are NaN in part: the error is NaN, which is not greater than errtol *)
Definition ex_partly (A : ncoo) (b : list num) : list num := match rev (gauss A b) with x :: t => rev (NaN :: t) | [] => [] end.
Theorem C44_partly_nan_refuted :
  ~ (forall lsolve m g p S h, right_length lsolve -> tolerances_ok p -> sp_perm p = None -> lengths_ok g (sp_lmin p) (sp_lmax p) -> finite_shear m ->
     sp_errtol p == 0 -> ~ flag_set (g_attrs g) -> solve lsolve m g p = Ok (S, h) -> forall s, In s h -> finite_vec (st_f S s)).
Proof.
  intros H. set (p := mkSolve (Fin 3) 1 None 0 0 None None 1).
  assert (E3 : match solve ex_partly (ex_bend PInf) (ex_bendg PInf) p with
    | Ok r => match nth_error (snd r) 1 with Some s => existsb (fun v => match v with NaN => true | _ => false end) (st_f (fst r) s) | None => false end
    | Exn _ => false end = true) by (vm_compute; reflexivity).
  destruct (solve ex_partly (ex_bend PInf) (ex_bendg PInf) p) as [[S h]|e] eqn:E4; [|discriminate E3].
  cbn [fst snd] in E3. destruct (nth_error h 1) as [s|] eqn:Es; [|discriminate E3].
  apply existsb_exists in E3. destruct E3 as (v & Hv & Ev).
  assert (T : tolerances_ok p) by (split; simpl; lra).
  assert (RL : right_length ex_partly).
  { intros A b. unfold ex_partly. pose proof (gauss_length A b) as L. rewrite <- rev_length in L. destruct (rev (gauss A b)) as [|x t]; [exact L|].
    rewrite rev_length. exact L. }
  destruct (H ex_partly (ex_bend PInf) (ex_bendg PInf) p S h RL T eq_refl (ex_bend_lengths PInf (or_introl eq_refl)) (proj1 ex_bend_moduli) (Qeq_refl _)
    (ex_bend_noflag PInf (or_introl eq_refl)) E4 s (nth_error_In _ _ Es) v Hv) as (q & ->).
  discriminate Ev.
Qed.

(** ** C58: the documented conditions u <= 0 and f >= 0 are not enforced *)
(** the free end of the bent fiber rises above its initial height *)
Theorem C58_downward_refuted :
  ~ (forall lsolve m g p S h s, right_length lsolve -> finite_or_nan lsolve -> tolerances_ok p -> admissible_start m g ->
     lengths_ok g (sp_lmin p) (sp_lmax p) -> finite_moduli m -> sp_errtol p == 0 -> solve lsolve m g p = Ok (S, h) -> In s h ->
     forall i, (i < length (g_rows g))%nat -> disp (vals (st_u S s)) i <= 0).
Proof.
  intros H.
  assert (N : match nth_error (snd ex_bent) 1 with Some s => Qltb 0 (disp (vals (st_u (fst ex_bent) s)) 6) | None => false end = true) by (vm_compute; reflexivity).
  destruct (nth_error (snd ex_bent) 1) as [s|] eqn:Es; [|discriminate N].
  assert (F : Fin 1 = PInf \/ Fin 1 = Fin 1) by (right; reflexivity).
  assert (L6 : (6 < length (g_rows (ex_bendg (Fin 1))))%nat) by (vm_compute; lia).
  pose proof (H gauss _ _ _ _ _ s gauss_length gauss_finite (proj1 ex_tols) (ex_bend_start (Fin 1) F) (ex_bend_lengths (Fin 1) F) (proj2 ex_bend_moduli) (Qeq_refl _)
    ex_bent_ok (nth_error_In _ _ Es) 6%nat L6) as L.
  apply Qltb_lt in N. apply (Qlt_not_le _ _ N L).
Qed.
(** a fiber on three supports pressed between two of them: the third contact pulls on it *)
Definition ex_lift : qmat :=
  mkQmat [mkQ 1 1 1 (-1) 0 (1 # 2) 0 1 0 (Fin 1) (Fin 1); mkQ 1 1 1 1 0 (1 # 2) 0 1 0 (Fin 1) (Fin 1); mkQ 1 1 1 3 0 (1 # 2) 0 1 0 (Fin 1) (Fin 1);
          mkQ 6 1 1 1 0 (3 # 2) 1 0 0 (Fin 1) (Fin 1); mkQ 1 1 1 0 0 (5 # 2) 0 1 0 (Fin 1) (Fin 1)] 50.
Definition ex_liftt : net_df :=
  match net_new ex_lift false None with Ok t => t | Exn _ => mkNetDf [] [] (mkAttrs None None None None) true end.
Lemma nonneg_start m g cs : constraint m g = Ok cs -> ~ flag_set (g_attrs g) -> forallb (fun b => nleb (Fin 0) b) (csH cs) = true -> admissible_start m g.
Proof.
  intros Hcs NF H. assert (Z : forall r, nth r (@nil Q) 0 == 0) by (intros [|r]; reflexivity).
  assert (S0 : satisfies (csC cs) (csH cs) []).
  { intros r b Hb. rewrite forallb_forall in H. specialize (H b (nth_error_In _ _ Hb)).
    assert (P0 : product (csC cs) [] r == 0) by (apply product_null; exact Z).
    destruct b as [q| | |]; auto; try discriminate. apply nleb_fin in H. apply nleb_fin. rewrite P0. exact H. }
  apply (cons_admissible m g cs Hcs NF) in S0. destruct S0 as [H1 H2]. split; auto.
  intros i d h Hd Hh. destruct (H1 i d h Hd Hh) as [L _]. unfold disp in L. rewrite Z in L. lra.
Qed.
(** its second state: lid height, displacements, and the force pulling at the third support *)
Definition ex_liftp : solve_params := mkSolve (Fin 3) 1 None 0 0 None None 1.
Definition ex_liftu : list Q :=
  repeat 0 18 ++ map (fun z => z # 7421) [2133; -2133; 0; -2133; -5288; -240; 0; 1365; 0; 195; 195; 195; -5288; 0; -5288; 0; -5288; 0]%Z.
Definition ex_same (a b : list Q) : bool := Nat.eqb (length a) (length b) && forallb (fun xy => Qeqb (fst xy) (snd xy)) (combine a b).
Example ex_lift_run : match solve gauss ex_lift (ex_g ex_liftt) ex_liftp with
    | Ok r => match nth_error (snd r) 1 with
              | Some s => Qltb (nth 22 (vals (st_f (fst r) s)) 0) 0 && (Qeqb (qof (st_Z s)) (16975 # 7421) && ex_same (vals (st_u (fst r) s)) ex_liftu)
              | None => false end
    | Exn _ => false end = true.
Proof. vm_compute. reflexivity. Qed.
Example ex_lift_ok : let g := ex_g ex_liftt in ~ flag_set (g_attrs g) /\ constraint ex_lift g = Ok (ex_cs ex_lift g) /\
  stiffness ex_lift g None None 1 = Ok (ex_K ex_lift g None None 1) /\ admissible_start ex_lift g /\ lengths_ok g None None /\ finite_moduli ex_lift.
Proof.
  set (g := ex_g ex_liftt).
  assert (NF : ~ flag_set (g_attrs g)) by (vm_compute; discriminate).
  assert (Hcs : constraint ex_lift g = Ok (ex_cs ex_lift g)) by (vm_compute; reflexivity).
  assert (HK : stiffness ex_lift g None None 1 = Ok (ex_K ex_lift g None None 1)) by (vm_compute; reflexivity).
  assert (A : admissible_start ex_lift g) by (apply (nonneg_start _ _ _ Hcs NF); vm_compute; reflexivity).
  assert (L : lengths_ok g None None).
  { split; [apply (ex_long _ _ _ _ _ _ HK NF); vm_compute; reflexivity|]. exists 0%nat, 1%nat. eexists. eexists.
    split; [split; [eexists; vm_compute; reflexivity|split; [eexists; vm_compute; reflexivity|]]|]; vm_compute; auto. }
  assert (M : finite_moduli ex_lift) by (intros f Hf; simpl in Hf; intuition subst; repeat eexists).
  exact (conj NF (conj Hcs (conj HK (conj A (conj L M))))).
Qed.
Theorem C58_pushing_refuted :
  ~ (forall lsolve m g p S h s, right_length lsolve -> finite_or_nan lsolve -> tolerances_ok p -> admissible_start m g ->
     lengths_ok g (sp_lmin p) (sp_lmax p) -> finite_moduli m -> sp_errtol p == 0 -> solve lsolve m g p = Ok (S, h) -> In s h ->
     forall r, 0 <= nth r (vals (st_f S s)) 0).
Proof.
  intros H. destruct ex_lift_ok as (NF & Hcs & HK & A & L & M). pose proof ex_lift_run as E3.
  assert (T : tolerances_ok ex_liftp) by (split; simpl; lra).
  destruct (solve gauss ex_lift (ex_g ex_liftt) ex_liftp) as [[S h]|e] eqn:E4; [|discriminate E3].
  cbn [fst snd] in E3. destruct (nth_error h 1) as [s|] eqn:Es; [|discriminate E3]. apply andb_true_iff in E3. destruct E3 as [E3 _].
  pose proof (H gauss ex_lift (ex_g ex_liftt) ex_liftp S h s gauss_length gauss_finite T A L M (Qeq_refl _) E4 (nth_error_In _ _ Es) 22%nat). qb. lra.
Qed.

Print Assumptions C36_total.
Print Assumptions C36_history.
Print Assumptions C36_lengths.
Print Assumptions C36_itermax.
Print Assumptions C36_default_packing.
Print Assumptions C37_residual.
Print Assumptions C37_exact.
Print Assumptions C37_stacked.
Print Assumptions C38_displacements.
Print Assumptions C38_all.
Print Assumptions C38_load.
Print Assumptions C39_contacts.
Print Assumptions C39_persist.
Print Assumptions C40_steps.
Print Assumptions C40_bound.
Print Assumptions C41_lid.
Print Assumptions C41_packing.
Print Assumptions C42_fiber.
Print Assumptions C42_total.
Print Assumptions C44_prefix.
Print Assumptions C44_finite.
Print Assumptions C45_rotation.
Print Assumptions C44_zero_length_refuted.
Print Assumptions C44_partly_nan_refuted.
Print Assumptions C58_downward_refuted.
Print Assumptions C58_pushing_refuted.
Print Assumptions C66_first_mask.
Print Assumptions C66_next_mask.
Print Assumptions C66_new_contact.
Print Assumptions C66_late.
Print Assumptions C67_rows.
Print Assumptions C67_region.
Print Assumptions C66_same_state_refuted.
