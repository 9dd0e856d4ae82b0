(** Property theorems: a mat turned, moved and scaled in its plane is compressed in the same way (C100). *)
From Coq Require Import String.
From Verif Require Import Num NumP ListX ListP Frames MatM NetM StackM MeshM ModelM SolverM InterpM ResultM RenderM VtkM MainM PictureM ScriptsM
  Spec SpecNet SpecStack SpecMesh SpecModel SpecSolver SpecInterp SpecRender SpecVtk SpecPerm SpecScale SpecMain SpecScripts SpecProgress SpecPack SpecMeta SpecTorus SpecMove
  ScriptsP MoveP UnitsP MovePackP PropsStack PropsSolver PropsMeta PropsVtk PropsPlot PropsMain PropsScripts PropsProgress PropsPack GaussX.
Open Scope Q_scope.

(** ** C75: what [solve] returns, in other units; only sections, moduli, abscissae and heights matter *)
Theorem C75_seen : forall U lsolve lsolve' m m' g g' p p' S h S' h', units_ok U -> mat_seen U m m' -> mesh_seen U g g' -> params_in U p p' ->
  exact_solver lsolve -> exact_solver lsolve' -> right_length lsolve -> tolerances_ok p -> tolerances_ok p' -> ~ flag_set (g_attrs g) ->
  solve lsolve m g p = Ok (S, h) -> solve lsolve' m' g' p' = Ok (S', h') ->
  numbering (length (sy_dq S)) (sp_perm p) -> numbering (length (sy_dq S)) (sp_perm p') ->
  (forall k s, nth_error h k = Some s -> (k < sp_itermax p)%nat -> nltb (st_rl s) (sp_packing p) = true -> regular S s) ->
  Forall2 (record_in U S S') h h'.
Proof. exact ScaleP.seen_solve. Qed.
(** the returned functions follow the recorded states, at every parameter and for every number of samples *)
Theorem C75_results : forall U lsolve lsolve' m m' g g' p p' S h S' h' size, units_ok U -> mesh_seen U g g' ->
  solve lsolve m g p = Ok (S, h) -> solve lsolve' m' g' p' = Ok (S', h') -> Forall2 (record_in U S S') h h' ->
  results_in U (results_of S h size) (results_of S' h' size).
Proof. exact seen_results. Qed.
(** ** C89: the same with direct solvers *)
Theorem C89_seen : forall U lsolve lsolve' m m' g g' p p' S h S' h', units_ok U -> mat_seen U m m' -> mesh_seen U g g' -> params_in U p p' ->
  direct_solver lsolve -> direct_solver lsolve' -> sound_data m g p -> ~ flag_set (g_attrs g') -> tolerances_ok p' -> 3 * sp_errtol p' < 1 ->
  starts_held m g (sp_tol p) -> solve lsolve m g p = Ok (S, h) -> solve lsolve' m' g' p' = Ok (S', h') ->
  numbering (length (sy_dq S)) (sp_perm p) -> numbering (length (sy_dq S)) (sp_perm p') ->
  Forall2 (record_in U S S') h h'.
Proof. exact ProgressFinP.seen_calls. Qed.

(** ** C100 *)
(** the stacks have the same rows, at proportional abscissae and heights, whatever the heights of the fibers before; so have the meshes *)
Theorem C100_stack : forall linprog linprog' M U per m m' t t', carried M U per m m' -> all_in_plane m ->
  net_new m per None = Ok t -> net_new m' per None = Ok t' -> solved linprog m t -> solved linprog' m' t' ->
  forall thr thr' st st' n n', option_in U thr thr' -> stack_new linprog m t thr = Ok (st, n) -> stack_new linprog' m' t' thr' = Ok (st', n') ->
  Forall2 (row_seen U) (map snd (n_rows st)) (map snd (n_rows st')) /\ carried M U per n n' /\
  (forall i f f', has_fiber n i f -> has_fiber n' i f' -> qz f' == un_len U * qz f) /\
  forall g g', mesh_new st = Ok g -> mesh_new st' = Ok g' -> mesh_seen U g g'.
Proof. exact move_stack. Qed.
(** the moved mat can be packed if the first one can *)
Theorem C100_ready : forall M U per m m' thr thr' p p' size, carried M U per m m' -> 0 < un_mod U -> valid m' -> option_in U thr thr' -> params_in U p p' ->
  tolerances_ok p' -> 3 * sp_errtol p' < 1 -> sp_perm p' = None -> ready m thr p size -> ready m' thr' p' size.
Proof. exact move_ready. Qed.
(** [solve] records the same states and returns the same functions *)
Theorem C100_solve : forall linprog linprog' lsolve lsolve' M U per m m' t t', right_linprog linprog -> right_linprog linprog' ->
  direct_solver lsolve -> direct_solver lsolve' -> carried M U per m m' -> 0 < un_mod U -> net_new m per None = Ok t -> net_new m' per None = Ok t' ->
  forall thr thr' p p' size, ready m thr p size -> option_in U thr thr' -> params_in U p p' -> tolerances_ok p' -> 3 * sp_errtol p' < 1 -> sp_perm p' = None ->
  forall st st' n n' g g' S h S' h', stack_new linprog m t thr = Ok (st, n) -> stack_new linprog' m' t' thr' = Ok (st', n') ->
  mesh_new st = Ok g -> mesh_new st' = Ok g' -> solve lsolve n g p = Ok (S, h) -> solve lsolve' n' g' p' = Ok (S', h') ->
  Forall2 (record_in U S S') h h' /\ results_in U (results_of S h size) (results_of S' h' size).
Proof. exact move_solve. Qed.
(** ... from the mat to the results, as the scripts chain the calls *)
Theorem C100_pack : forall linprog linprog' lsolve lsolve' cyl cyl' place place' near near' M U per m m', right_linprog linprog -> right_linprog linprog' ->
  direct_solver lsolve -> direct_solver lsolve' -> carried M U per m m' -> 0 < un_mod U ->
  forall thr thr' p p' size, ready m thr p size -> option_in U thr thr' -> params_in U p p' -> tolerances_ok p' -> 3 * sp_errtol p' < 1 -> sp_perm p' = None ->
  forall k k', pack linprog lsolve cyl place near "solve" m per thr p size = Ok k -> pack linprog' lsolve' cyl' place' near' "solve" m' per thr' p' size = Ok k' ->
  mesh_seen U (pk_mesh k) (pk_mesh k') /\ results_in U (pk_results k) (pk_results k').
Proof. exact move_pack. Qed.

(** ** example: the three fibers laid by hand, seen in a mirror, a quarter turned, moved across the border of the box, twice as large and three times as stiff *)
Definition ex_carry : motion := mkMotion 2 0 1 16 5 0 true.
Definition ex_carry_units : units := mkUnits 2 3.
Definition ex_hand' : qmat := mkQmat [mkQ 8 2 2 (-4) 5 7 0 1 0 (Fin 3) (Fin 30); mkQ 8 2 2 (-4) 5 0 1 0 0 (Fin 3) PInf; mkQ 8 2 4 (-4) 7 1 (4 # 5) (3 # 5) 0 (Fin 6) (Fin 30)] 20.
Definition ex_args' : solve_params := mkSolve (Fin 2) 20 None (2 # 1000000) (1 # 10) (Some (1 # 50)) None (1 # 2).
Lemma ex_carried_fiber f f' : ql f' == 2 * ql f -> qx f' == 2 * qy f + 16 - 20 -> qy f' == 2 * qx f + 5 -> qu f' == qv f -> qv f' == qu f -> qw f' == qw f -> fiber_seen ex_carry_units f f' ->
  carried_fiber ex_carry ex_carry_units true 20 f f'.
Proof.
  intros E1 E2 E3 E4 E5 E6 H. split; [|exact H]. exists (ex_move ex_carry f).
  unfold follows, rises, strand, ex_move, mirrored, ex_carry. cbn [mv_k mv_c mv_s mv_x mv_y mv_z mv_m ql qx qy qz qu qv qw].
  split; [repeat split; ring|]. split; [reflexivity|]. split; [left; reflexivity|]. split; [rewrite E1; ring|]. split.
  - exists (-1)%Z, 0%Z. split; [intros C; discriminate C|]. rewrite E2, E3. change (inject_Z (-1)) with (-(1)). change (inject_Z 0) with 0. split; ring.
  - rewrite E4, E5, E6. repeat split; ring.
Qed.
Example ex_hand_carried : carried ex_carry ex_carry_units true ex_hand ex_hand'.
Proof.
  split; [split; reflexivity|]. split; [reflexivity|]. split.
  - cbn [ex_hand ex_hand' q_rows q_size]. repeat constructor; apply ex_carried_fiber; try reflexivity; repeat split; reflexivity.
  - intros _. split; [exists 0%Z, 1%Z; repeat split; reflexivity|]. split; [reflexivity|]. split; intros f Hf; repeat (destruct Hf as [<-|Hf]; [vm_compute; discriminate|]); destruct Hf.
Qed.
Example ex_hand_ready' : ready ex_hand' (Some 4) ex_args' None.
Proof.
  apply (C100_ready ex_carry ex_carry_units true ex_hand ex_hand' (Some 2) (Some 4) (ex_args (1 # 1000000)) ex_args' None ex_hand_carried).
  - reflexivity.
  - apply valid_intro. intros f Hf. repeat (destruct Hf as [<-|Hf]; [repeat split; vm_compute; first [reflexivity|exact I|discriminate]|]). destruct Hf.
  - reflexivity.
  - repeat split; reflexivity.
  - split; cbn; lra.
  - reflexivity.
  - reflexivity.
  - exact ex_hand_ready.
Qed.
Example ex_hand_moved : exists k k', pack ex_greedy gauss ex_cyl ex_place ex_near "solve" ex_hand true (Some 2) (ex_args (1 # 1000000)) None = Ok k /\
  pack ex_greedy gauss ex_cyl ex_place ex_near "solve" ex_hand' true (Some 4) ex_args' None = Ok k' /\
  forall t, times 2 (interp_call (r_Z (pk_results k)) t) (interp_call (r_Z (pk_results k')) t).
Proof.
  destruct (C95_total ex_greedy gauss ex_cyl ex_place ex_near ex_greedy_right ex_gauss_direct _ true _ _ _ ex_hand_ready ex_cyl_unit ex_near_right) as (k & RUN).
  destruct (C95_total ex_greedy gauss ex_cyl ex_place ex_near ex_greedy_right ex_gauss_direct _ true _ _ _ ex_hand_ready' ex_cyl_unit ex_near_right) as (k' & RUN').
  exists k, k'. split; [exact RUN|]. split; [exact RUN'|]. intros t.
  assert (P : params_in ex_carry_units (ex_args (1 # 1000000)) ex_args') by (repeat split; reflexivity).
  assert (T : tolerances_ok ex_args') by (split; cbn; lra). assert (E : 3 * sp_errtol ex_args' < 1) by reflexivity.
  assert (O : option_in ex_carry_units (Some 2) (Some 4)) by reflexivity.
  pose proof (C100_pack ex_greedy ex_greedy gauss gauss ex_cyl ex_cyl ex_place ex_place ex_near ex_near ex_carry ex_carry_units true ex_hand ex_hand' ex_greedy_right ex_greedy_right
    ex_gauss_direct ex_gauss_direct ex_hand_carried eq_refl (Some 2) (Some 4) (ex_args (1 # 1000000)) ex_args' None ex_hand_ready O P T E eq_refl k k' RUN RUN') as (_ & R).
  destruct (R t) as (_ & _ & _ & _ & Z & _). exact Z.
Qed.

Print Assumptions C75_seen.
Print Assumptions C75_results.
Print Assumptions C89_seen.
Print Assumptions C100_stack.
Print Assumptions C100_ready.
Print Assumptions C100_solve.
Print Assumptions C100_pack.
