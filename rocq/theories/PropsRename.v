(** Property theorems: the names of the nodes and of the fibers, and the ends from which the fibers are described, do not matter (C104). *)
From Coq Require Import Lia Lqa.
From Verif Require Import Num NumP ListX Frames MatM NetM StackM MeshM ModelM SolverM Spec SpecNet SpecStack SpecMesh SpecModel SpecSolver SpecPerm SpecScale SpecMain SpecProgress SpecRename
  RenameP RenameX ProgressMainP MainP PropsStack PropsMesh PropsSolver PropsMain PropsProgress GaussX.
Open Scope Q_scope.

(** ** C104 *)
(** two meshes that are the same but for the names give the same states under these names, as long as the systems have one solution *)
Theorem C104_records : forall R lsolve lsolve' m m' g g' p p' S h S' h', mesh_renamed R m m' g g' -> params_renamed p p' ->
  exact_solver lsolve -> exact_solver lsolve' -> right_length lsolve -> right_length lsolve' -> tolerances_ok p -> tolerances_ok p' ->
  ~ flag_set (g_attrs g) -> ~ flag_set (g_attrs g') ->
  solve lsolve m g p = Ok (S, h) -> solve lsolve' m' g' p' = Ok (S', h') ->
  numbering (length (sy_dq S)) (sp_perm p) -> numbering (length (sy_dq S')) (sp_perm p') ->
  (forall k s, nth_error h k = Some s -> (k < sp_itermax p)%nat -> nltb (st_rl s) (sp_packing p) = true -> regular S s) ->
  Forall2 (record_renamed R g g' S S') h h'.
Proof. exact renamed_solve. Qed.
(** ... always, with direct solvers, from a mesh whose fibers are held *)
Theorem C104_calls : forall R lsolve lsolve' m m' g g' p p' S h S' h', mesh_renamed R m m' g g' -> params_renamed p p' ->
  direct_solver lsolve -> direct_solver lsolve' -> sound_data m g p -> sound_data m' g' p' -> starts_held m g (sp_tol p) ->
  solve lsolve m g p = Ok (S, h) -> solve lsolve' m' g' p' = Ok (S', h') ->
  numbering (length (sy_dq S)) (sp_perm p) -> numbering (length (sy_dq S')) (sp_perm p') ->
  Forall2 (record_renamed R g g' S S') h h'.
Proof. exact renamed_calls. Qed.
Print Assumptions C104_records.
Print Assumptions C104_calls.

(** ** example: the four stacked fibers of [ex_pivot0] in another order, the lowest one described from its other end *)
Definition ex_other0 : qmat :=
  mkQmat [mkQ 4 1 1 0 0 1 (-1) 0 0 (Fin 1) (Fin 1); mkQ 2 1 1 1 0 4 0 1 0 (Fin 1) (Fin 1);
          mkQ 4 1 1 (-1) 1 2 0 1 0 (Fin 1) (Fin 1); mkQ 1 1 1 (-1) 2 3 1 0 0 (Fin 1) (Fin 1)] 50.
Definition ex_othert : net_df := match net_new ex_other0 false None with Ok t => t | Exn _ => mkNetDf [] [] (mkAttrs None None None None) true end.
Definition ex_others : net_df * qmat := match stack_new ex_greedy ex_other0 ex_othert None with Ok r => r | Exn _ => (ex_othert, ex_other0) end.
Definition ex_other : qmat := snd ex_others.
Definition ex_otherg : mesh_df := ex_g (fst ex_others).
Definition ex_names : renaming :=
  mkRen (fun i => if Nat.leb i 3 then 3 - i else if Nat.leb i 10 then i + 3 else i - 7)%nat
        (fun f => if (f =? 1)%Z then 2%Z else if (f =? 2)%Z then 3%Z else if (f =? 3)%Z then 1%Z else f) (fun f => (f =? 0)%Z).
Example ex_other_net : net_new ex_other0 false None = Ok ex_othert.
Proof. vm_compute. reflexivity. Qed.
Example ex_other_stack : stack_new ex_greedy ex_other0 ex_othert None = Ok (fst ex_others, ex_other) /\ mesh_new (fst ex_others) = Ok ex_otherg.
Proof. split; vm_compute; reflexivity. Qed.
Example ex_renamed : mesh_renamed ex_names (ex_pivot None) ex_other (ex_pivotg None) ex_otherg.
Proof.
  apply renamed_tested.
  - intros f f'. cbn [rn_fiber ex_names]. repeat match goal with |- context [(?a =? ?b)%Z] => destruct (Z.eqb_spec a b) end; lia.
  - vm_compute. reflexivity.
Qed.
Example ex_other_sound c : c * c < 1 -> sound_data ex_other ex_otherg (ex_pp c).
Proof.
  intros Hc. split; [vm_compute; discriminate|]. split; [split; cbn; lra|]. split; [cbn; lra|]. split; [exact Hc|]. split.
  - split; [cbn; lra|]. destruct ex_other_stack as [T M]. destruct (made_facts ex_greedy ex_greedy_right _ _ _ _ _ _ _ ex_other_net T M) as (V & MO & SP & _).
    apply (span_elem _ MO _ V SP). vm_compute. discriminate.
  - intros f Hf. vm_compute in Hf. intuition subst; repeat eexists.
Qed.
Example ex_other_total lsolve p : exists S h, solve lsolve ex_other ex_otherg p = Ok (S, h).
Proof.
  destruct ex_other_stack as [T M]. destruct (made_facts ex_greedy ex_greedy_right _ _ _ _ _ _ _ ex_other_net T M) as (V & MO & SP & _ & AN & _).
  destruct (span_elem _ MO _ V SP) as (i & j & d & e & B & _); [vm_compute; discriminate|].
  apply C36_total; auto. exists i, j, d, e. exact B.
Qed.
(** the lowest fiber turns the other way; the nodes 1 and 6 are the nodes 2 and 9 of the other mesh *)
Example ex_other_same lsolve c : direct_solver lsolve -> c * c < 1 -> exists S h S' h', solve lsolve (ex_pivot None) (ex_pivotg None) (ex_pp c) = Ok (S, h) /\
  solve lsolve ex_other ex_otherg (ex_pp c) = Ok (S', h') /\ Forall2 (fun s s' => neqv (st_Z s) (st_Z s') /\
    neqv (nopp (nth 3 (st_u S s) NaN)) (nth 5 (st_u S' s') NaN) /\ neqv (nth 13 (st_u S s) NaN) (nth 19 (st_u S' s') NaN)) h h'.
Proof.
  intros D Hc. destruct (ex_pivot_total lsolve None (ex_pp c) (or_introl eq_refl)) as (S & h & E). destruct (ex_other_total lsolve (ex_pp c)) as (S' & h' & E').
  exists S, h, S', h'. split; [exact E|]. split; [exact E'|].
  assert (P : params_renamed (ex_pp c) (ex_pp c)).
  { unfold params_renamed, params_in, ex_pp. cbn [sp_lmin sp_lmax sp_coupling sp_perm sp_tol sp_errtol sp_packing sp_itermax]. repeat (split; [reflexivity|]). reflexivity. }
  pose proof (C104_calls ex_names lsolve lsolve _ _ _ _ (ex_pp c) (ex_pp c) S h S' h' ex_renamed P D D (ex_pivot_sound c Hc) (ex_other_sound c Hc) ex_pivot_held E E' I I) as F.
  clear - F. induction F as [|s s' l l' (U & _ & Z & _) F IH]; constructor; [|exact IH]. split; [exact Z|].
  assert (N : forall i, (i < 14)%nat -> is_node (g_rows (ex_pivotg None)) i (node_of (ex_pivotg None) i)).
  { intros i L. apply node_of_at. vm_compute in L |- *. exact L. }
  destruct (U 1%nat _ (N 1%nat ltac:(lia))) as [_ A]. destruct (U 6%nat _ (N 6%nat ltac:(lia))) as [_ B]. split; [exact A|exact B].
Qed.
