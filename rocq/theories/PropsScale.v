(** Property theorems: the choice of the units (C75, model.py 127-174, 257-300, solver.py 107-189). *)
From Coq Require Import Permutation.
From Verif Require Import Num NumP ListX ListP Frames MatM NetM StackM MeshM ModelM SolverM Spec SpecNet SpecMesh SpecModel SpecSolver SpecPerm SpecScale
  CheckP MeshCheckP SolverP SolverRunP SolverFinP GaussX GaussP PermP ScaleP PropsMesh PropsSolver PropsPerm.
Open Scope Q_scope.

(** ** C75: the results do not depend on the units *)
Theorem C75_units : forall U lsolve lsolve' m m' g g' p p' S h S' h', units_ok U -> mat_in U m m' -> mesh_in U g g' -> params_in U p p' ->
  exact_solver lsolve -> exact_solver lsolve' -> right_length lsolve -> tolerances_ok p -> tolerances_ok p' -> ~ flag_set (g_attrs g) ->
  solve lsolve m g p = Ok (S, h) -> solve lsolve' m' g' p' = Ok (S', h') ->
  numbering (length (sy_dq S)) (sp_perm p) -> numbering (length (sy_dq S)) (sp_perm p') ->
  (forall k s, nth_error h k = Some s -> (k < sp_itermax p)%nat -> nltb (st_rl s) (sp_packing p) = true -> regular S s) ->
  Forall2 (record_in U S S') h h'.
Proof. exact units_solve. Qed.
Print Assumptions C75_units.

(** ** examples: three point bending in other units *)
Definition ex_fiber_in (U : units) (f : qfiber) : qfiber :=
  let l := un_len U in let c := nmul (Fin (un_mod U)) in
  mkQ (l * ql f) (l * qb f) (l * qh f) (l * qx f) (l * qy f) (l * qz f) (qu f) (qv f) (qw f) (c (qG f)) (c (qE f)).
Definition ex_mat_in (U : units) (m : qmat) : qmat := mkQmat (map (ex_fiber_in U) (q_rows m)) (un_len U * q_size m).
Definition ex_node_in (U : units) (r : Z * node) : Z * node :=
  let l := un_len U in let d := snd r in (fst r, mkNode (nf d) (l * ns d) (l * nx d) (l * ny d) (l * nz d) (nbeam d) (ncons d)).
Definition ex_mesh_in (U : units) (g : mesh_df) : mesh_df :=
  mkMeshDf (g_cols g) (map (ex_node_in U) (g_rows g)) (g_attrs g) (g_intf g) (g_intl g) None.
Example ex_units_m U m : (forall f, In f (q_rows m) -> (exists a, qG f = Fin a) /\ exists b, qE f = Fin b) -> mat_in U m (ex_mat_in U m).
Proof.
  intros H. split; [|reflexivity]. cbn [ex_mat_in q_rows]. revert H. induction (q_rows m) as [|f l IH]; intros H; constructor; [|apply IH; intros; apply H; right; auto].
  destruct (H f (or_introl eq_refl)) as [(a & A) (b & B)]. unfold fiber_in, ex_fiber_in. cbv zeta. cbn [ql qb qh qx qy qz qu qv qw qG qE]. rewrite A, B. cbn. repeat split; reflexivity.
Qed.
Example ex_units_g U g : mesh_in U g (ex_mesh_in U g).
Proof.
  unfold mesh_in. cbn [ex_mesh_in g_rows]. induction (g_rows g) as [|r l IH]; constructor; auto.
  unfold node_in, ex_node_in. cbv zeta. cbn [fst snd nf ns nx ny nz nbeam ncons]. repeat split; reflexivity.
Qed.
(** lengths in millimetres instead of metres, moduli in GPa instead of Pa: the tolerance is scaled as well,
    another error tolerance, the unknowns numbered backwards *)
Definition ex_mm : units := mkUnits 1000 (1 # 1000000000).
Definition ex_in (U : units) (p : solve_params) : sysdata * list state := ex_run gauss (ex_mat_in U (ex_bend (Fin 1))) (ex_mesh_in U (ex_bendg (Fin 1))) p.
Definition ex_upar (tol errtol : Q) (perm : option (list nat)) : solve_params := mkSolve (Fin 3) 1 perm tol errtol None None 1.
Example ex_in_total U : U = ex_mm -> forall p, solve gauss (ex_mat_in U (ex_bend (Fin 1))) (ex_mesh_in U (ex_bendg (Fin 1))) p = Ok (fst (ex_in U p), snd (ex_in U p)).
Proof.
  intros H p. unfold ex_in, ex_run.
  assert (V : valid (ex_mat_in U (ex_bend (Fin 1)))).
  { assert (C : mat_check (df_of (ex_mat_in U (ex_bend (Fin 1)))) = Ok true) by (subst U; vm_compute; reflexivity).
    destruct (proj1 (mat_check_ok (df_of (ex_mat_in U (ex_bend (Fin 1))))) C) as [F|F]; [discriminate F|exact F]. }
  assert (M : mesh_ok (ex_mesh_in U (ex_bendg (Fin 1)))).
  { assert (C : mesh_check (ex_mesh_in U (ex_bendg (Fin 1))) = Ok true) by (subst U; vm_compute; reflexivity).
    assert (F : at_skip (g_attrs (ex_mesh_in U (ex_bendg (Fin 1)))) = None) by (subst U; vm_compute; reflexivity).
    destruct (proj1 (mesh_check_ok _) C) as [G|G]; [unfold flag_set in G; congruence|exact G]. }
  assert (N : at_n (g_attrs (ex_mesh_in U (ex_bendg (Fin 1)))) = Some (Z.of_nat (length (q_rows (ex_mat_in U (ex_bend (Fin 1))))))) by (subst U; vm_compute; reflexivity).
  assert (B : exists i j d e, beam_element (ex_mesh_in U (ex_bendg (Fin 1))) i j d e).
  { exists 0%nat, 1%nat. subst U; eexists; eexists; (split; [eexists; vm_compute; reflexivity|split; [eexists; vm_compute; reflexivity|]]); vm_compute; auto. }
  destruct (C36_total gauss _ _ p V M N B) as (S & h & E). rewrite E. reflexivity.
Qed.
Example ex_units_ok : units_ok ex_mm /\ units_ok (mkUnits (1 # 10000000) 1).
Proof. repeat split; reflexivity. Qed.
Example ex_moduli : forall f, In f (q_rows (ex_bend (Fin 1))) -> (exists a, qG f = Fin a) /\ exists b, qE f = Fin b.
Proof. intros f Hf. vm_compute in Hf. intuition subst; repeat eexists. Qed.
Example ex_upar_tols a b perm : 0 <= a -> 0 <= b -> tolerances_ok (ex_upar a b perm).
Proof. intros A B. split; assumption. Qed.
Example ex_units_run : Forall2 (record_in ex_mm (fst (ex_num None)) (fst (ex_in ex_mm (ex_upar (1 # 1000) 0 ex_back)))) (snd (ex_num None)) (snd (ex_in ex_mm (ex_upar (1 # 1000) 0 ex_back))).
Proof.
  apply (C75_units ex_mm gauss gauss (ex_bend (Fin 1)) (ex_mat_in ex_mm (ex_bend (Fin 1))) (ex_bendg (Fin 1)) (ex_mesh_in ex_mm (ex_bendg (Fin 1)))
    (ex_upar ex_tol ex_tol None) (ex_upar (1 # 1000) 0 ex_back)).
  - apply ex_units_ok.
  - apply ex_units_m. exact ex_moduli.
  - apply ex_units_g.
  - repeat split.
  - exact gauss_exact.
  - exact gauss_exact.
  - exact gauss_length.
  - apply ex_upar_tols; unfold ex_tol; lra.
  - apply ex_upar_tols; lra.
  - apply ex_bend_noflag. auto.
  - exact (ex_num_ok None).
  - apply ex_in_total. reflexivity.
  - exact I.
  - rewrite (proj1 ex_num_size). apply Permutation_sym, Permutation_rev.
  - exact ex_num_regular.
Qed.
(** ** the default tolerance is not scaled: in small units no gap is seen and nothing is compressed *)
(** one fiber off the floor, pushed down by the lid *)
Definition ex_one : qmat := mkQmat [mkQ 1 1 1 0 0 2 1 0 0 (Fin 1) (Fin 1)] 10.
Definition ex_oneg : mesh_df := ex_g (match net_new ex_one false None with Ok t => t | Exn _ => ex_bendt (Fin 1) end).
Definition ex_small : units := mkUnits (1 # 10000000) 1.
Definition ex_one_run : sysdata * list state := ex_run gauss ex_one ex_oneg (ex_upar ex_tol ex_tol None).
Definition ex_small_run : sysdata * list state := ex_run gauss (ex_mat_in ex_small ex_one) (ex_mesh_in ex_small ex_oneg) (ex_upar ex_tol ex_tol None).
Example ex_one_values : map (fun s => ex_show (st_Z s)) (snd ex_one_run) = [Fin (5 # 2); Fin 1] /\ map (fun s => ex_show (st_Z s)) (snd ex_small_run) = [Fin (1 # 4000000)].
Proof. split; vm_compute; reflexivity. Qed.
Example ex_one_ok : solve gauss ex_one ex_oneg (ex_upar ex_tol ex_tol None) = Ok (fst ex_one_run, snd ex_one_run).
Proof. vm_compute. reflexivity. Qed.
Example ex_small_ok : solve gauss (ex_mat_in ex_small ex_one) (ex_mesh_in ex_small ex_oneg) (ex_upar ex_tol ex_tol None) = Ok (fst ex_small_run, snd ex_small_run).
Proof. vm_compute. reflexivity. Qed.
Example ex_one_checked : (match snd ex_one_run with
  s :: _ => Nat.eqb (length (st_q s)) (length (sy_dq (fst ex_one_run))) && solvable (length (ps (fst ex_one_run) s)) (submatrix (sy_P (fst ex_one_run)) (ps (fst ex_one_run) s))
  | [] => false end) = true.
Proof. vm_compute. reflexivity. Qed.
Example ex_one_regular : forall k s, nth_error (snd ex_one_run) k = Some s -> (k < 1)%nat -> nltb (st_rl s) (Fin 3) = true -> regular (fst ex_one_run) s.
Proof.
  intros k s Hk L _. assert (k = 0%nat) by lia. subst k. pose proof ex_one_checked as C. pose proof (call_facts _ _ _ _ _ _ ex_one_ok I) as CF.
  destruct (snd ex_one_run) as [|s0 h]; [discriminate Hk|]. injection Hk as ->.
  apply andb_true_iff in C. destruct C as [C1 C2]. apply Nat.eqb_eq in C1.
  apply regular_from; [apply CF|exact C1|apply solvable_nonsingular; exact C2].
Qed.
Theorem C75_tol_refuted : ~ (forall U lsolve lsolve' m m' g g' p p' S h S' h', units_ok U -> mat_in U m m' -> mesh_in U g g' -> params_same_tol U p p' ->
  exact_solver lsolve -> exact_solver lsolve' -> right_length lsolve -> tolerances_ok p -> tolerances_ok p' -> ~ flag_set (g_attrs g) ->
  solve lsolve m g p = Ok (S, h) -> solve lsolve' m' g' p' = Ok (S', h') ->
  numbering (length (sy_dq S)) (sp_perm p) -> numbering (length (sy_dq S)) (sp_perm p') ->
  (forall k s, nth_error h k = Some s -> (k < sp_itermax p)%nat -> nltb (st_rl s) (sp_packing p) = true -> regular S s) ->
  Forall2 (record_in U S S') h h').
Proof.
  intros H.
  assert (L : Forall2 (record_in ex_small (fst ex_one_run) (fst ex_small_run)) (snd ex_one_run) (snd ex_small_run)).
  { apply (H ex_small gauss gauss ex_one (ex_mat_in ex_small ex_one) ex_oneg (ex_mesh_in ex_small ex_oneg) (ex_upar ex_tol ex_tol None) (ex_upar ex_tol ex_tol None)).
    - apply ex_units_ok.
    - apply ex_units_m. intros f [<- | []]; split; eexists; reflexivity.
    - apply ex_units_g.
    - repeat split.
    - exact gauss_exact.
    - exact gauss_exact.
    - exact gauss_length.
    - apply ex_upar_tols; unfold ex_tol; lra.
    - apply ex_upar_tols; unfold ex_tol; lra.
    - vm_compute. discriminate.
    - exact ex_one_ok.
    - exact ex_small_ok.
    - exact I.
    - exact I.
    - exact ex_one_regular. }
  apply NetZP.Forall2_len in L. destruct ex_one_values as [A B].
  apply (f_equal (@length _)) in A. apply (f_equal (@length _)) in B. rewrite map_length in A, B. rewrite A, B in L. discriminate L.
Qed.
Print Assumptions C75_tol_refuted.
