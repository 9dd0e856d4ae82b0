(** Property theorems: fibers that touch none of the others are stacked and compressed as if they were alone (C108). *)
From Coq Require Import Lia Lqa.
From Verif Require Import Num NumP ListX Frames MatM NetM StackM MeshM ModelM SolverM Spec SpecNet SpecStack SpecMesh SpecModel SpecSolver SpecTorus SpecPiles SpecPack SpecScale SpecMain
  SpecProgress SpecRename SpecOrder SpecPart SpecApart CheckP ScriptsP RenameX PartX ApartP MainP PropsStack PropsMesh PropsSolver PropsMain PropsProgress PropsRename PropsOrder PropsPart.
Open Scope Q_scope.

(** ** C108 *)
(** the stacks have the same heights *)
Theorem C108_heights : forall linprog linprog' e per m m' t t', set_apart e per t t' m m' -> all_in_plane m' ->
  net_new m per None = Ok t -> net_new m' per None = Ok t' -> solved linprog m t -> solved linprog' m' t' ->
  forall thr st st' n n', stack_new linprog m t thr = Ok (st, n) -> stack_new linprog' m' t' thr = Ok (st', n') ->
  forall i f f', has_fiber n i f -> has_fiber n' (e i) f' -> qz f' == qz f.
Proof. exact ap_heights. Qed.
(** the nodes of these fibers are a part of the mesh that nothing joins to the rest *)
Theorem C108_mesh : forall linprog linprog' e per m m' t t', set_apart e per t t' m m' -> all_in_plane m' ->
  net_new m per None = Ok t -> net_new m' per None = Ok t' -> solved linprog m t -> solved linprog' m' t' ->
  forall thr st st' n n', stack_new linprog m t thr = Ok (st, n) -> stack_new linprog' m' t' thr = Ok (st', n') ->
  forall g g', mesh_new st = Ok g -> mesh_new st' = Ok g' -> no_ties g' ->
  exists rho, mesh_within rho n n' g g' /\ part_nodes rho e m g g'.
Proof. exact apart_mesh. Qed.
(** what is recorded for them is what is recorded when they are compressed alone, at the same height of the lid; to the end,
    when they are compressed alone until a column has no void left *)
Theorem C108_solve : forall linprog linprog' lsolve lsolve' e per m m' t t', right_linprog linprog -> right_linprog linprog' -> direct_solver lsolve -> direct_solver lsolve' ->
  net_new m per None = Ok t -> net_new m' per None = Ok t' -> set_apart e per t t' m m' ->
  forall thr p p' size size', ready m thr p size -> ready m' thr p' size' ->
  forall st st' n n' g g' S S' h h', stack_new linprog m t thr = Ok (st, n) -> stack_new linprog' m' t' thr = Ok (st', n') ->
  mesh_new st = Ok g -> mesh_new st' = Ok g' -> no_ties g' -> same_model g g' p p' -> solve lsolve n g p = Ok (S, h) -> solve lsolve' n' g' p' = Ok (S', h') ->
  exists rho, mesh_within rho n n' g g' /\ part_nodes rho e m g g' /\
    (forall s, In s h' -> not_below h s -> part_follows rho g g' S S' h s) /\
    ((forall j u, nth_error h j = Some u -> length h = Datatypes.S j -> compressed_at n g S u) -> forall s, In s h' -> part_follows rho g g' S S' h s).
Proof. exact apart_solve. Qed.
Print Assumptions C108_heights.
Print Assumptions C108_mesh.
Print Assumptions C108_solve.

(** ** example: [ex_pivot0], and two thicker fibers crossed elsewhere, listed before *)
Definition ex_later (i : Z) : Z := (i + 2)%Z.
Example ex_both_set_apart : set_apart ex_later false ex_pivott ex_botht ex_pivot0 ex_both0.
Proof.
  split; [reflexivity|]. split; [|split; [|split; [|split]]].
  - apply ex_fibers. intros k f H. do 4 (destruct k as [|k]; [injection H as <-; eexists; split; [split; [vm_compute; discriminate|vm_compute; reflexivity]|];
      split; [split; [vm_compute; auto|]; split; [reflexivity|]; split; [exists 0%Z, 0%Z; repeat split|]; repeat split|repeat split; vm_compute; first [reflexivity|exact I]]|]).
    destruct k; discriminate H.
  - unfold ex_later. intros; lia.
  - intros i j (L & _). unfold ex_later. lia.
  - assert (K : forall i, member ex_later ex_pivot0 i <-> (2 <= i < 6)%Z).
    { intros i. unfold member, ex_later. split.
      - intros (a & f & [L E] & ->). assert (Z.to_nat a < 4)%nat by (change 4%nat with (length (q_rows ex_pivot0)); apply nth_error_Some; congruence). lia.
      - intros B. exists (i - 2)%Z. destruct (nth_error (q_rows ex_pivot0) (Z.to_nat (i - 2))) as [f|] eqn:E; [exists f; split; [split; [lia|exact E]|lia]|].
        apply nth_error_None in E. cbn in E. lia. }
    intros i j (L & k & c & Hr & <- & <-). rewrite !K. clear K. unfold is_row in Hr. apply nth_error_In in Hr. vm_compute in Hr.
    repeat (destruct Hr as [Hr|Hr]; [injection Hr as _ <-; cbn [cA cB] in *; clear; lia|]). destruct Hr.
  - discriminate.
Qed.
Example ex_both_apart : no_ties ex_bothg.
Proof.
  intros i j d e Hi Hj EF ES. destruct (node_at _ _ _ Hi) as [Li ->]. destruct (node_at _ _ _ Hj) as [Lj ->].
  rewrite <- view_length in Li, Lj.
  assert (EF' : vf (view ex_bothg) i = vf (view ex_bothg) j) by (unfold vf; rewrite !view_at; exact EF).
  assert (ES' : vs (view ex_bothg) i == vs (view ex_bothg) j) by (unfold vs; rewrite !view_at; exact ES). clear EF ES Hi Hj.
  let V := eval vm_compute in (view ex_bothg) in assert (EV : view ex_bothg = V) by (vm_compute; reflexivity).
  rewrite EV in Li, Lj, EF', ES'. clear EV. revert Li Lj EF' ES'. match goal with |- (_ < length ?V)%nat -> _ => set (v := V) end. intros Li Lj EF ES.
  assert (T : each 20 (fun i => each 20 (fun j => implb (Z.eqb (vf v i) (vf v j) && Qeqb (vs v i) (vs v j)) (Nat.eqb i j))) = true) by (vm_compute; reflexivity).
  change (length v) with 20%nat in Li, Lj.
  pose proof (each_at _ _ (each_at _ _ T i Li) j Lj) as X. cbv beta in X. apply Z.eqb_eq in EF. apply Qeqb_eq in ES. rewrite EF, ES in X. apply Nat.eqb_eq, X.
Qed.
Example ex_apart_ready r c : c * c < 1 -> ready ex_pivot0 None (ex_pt r c) None /\ ready ex_both0 None (ex_pt r c) None.
Proof.
  intros Hc. split; (split; [|split; [discriminate|split; [first [exact ex_pivot_flat|exact ex_both_flat]|]]]).
  1, 3: apply valid_intro; intros f Hf; repeat (destruct Hf as [<-|Hf]; [repeat split; vm_compute; first [reflexivity|exact I|discriminate]|]); destruct Hf.
  all: split; [intros f Hf; simpl in Hf; intuition subst; eexists; reflexivity|]; split; [exact I|]; split; [split; cbn; lra|]; split; [cbn; lra|]; split; [exact Hc|];
    split; [exists (1 # 100); split; [reflexivity|lra]|]; split; [discriminate|]; split; [reflexivity|exact I].
Qed.
Example ex_apart_runs lsolve r r' c : direct_solver lsolve -> c * c < 1 -> exists S h S' h' rho, solve lsolve (ex_pivot None) (ex_pivotg None) (ex_pt r c) = Ok (S, h) /\
  solve lsolve ex_both ex_bothg (ex_pt r' c) = Ok (S', h') /\ forall s, In s h' -> not_below h s -> part_follows rho (ex_pivotg None) ex_bothg S S' h s.
Proof.
  intros D Hc. destruct (ex_pivot_total lsolve None (ex_pt r c) (or_introl eq_refl)) as (S & h & E). destruct (ex_both_total lsolve (ex_pt r' c)) as (S' & h' & E').
  assert (SM : same_model (ex_pivotg None) ex_bothg (ex_pt r c) (ex_pt r' c)).
  { unfold same_model, ex_pt. cbn [sp_lmin sp_lmax sp_coupling sp_tol]. split; [reflexivity|]. split; [exact I|]. repeat (split; [reflexivity|]). right. exact ex_both_span. }
  destruct (ex_pivot_stack None (or_introl eq_refl)) as [T M]. destruct ex_both_stack as [T' M'].
  destruct (C108_solve ex_greedy ex_greedy lsolve lsolve _ _ _ _ _ _ ex_greedy_right ex_greedy_right D D ex_pivot_net ex_both_net ex_both_set_apart
    None _ _ None None (proj1 (ex_apart_ready r c Hc)) (proj2 (ex_apart_ready r' c Hc)) _ _ _ _ _ _ S S' h h' T T' M M' ex_both_apart SM E E') as (rho & _ & _ & A & _).
  exists S, h, S', h', rho. auto.
Qed.

(** a fiber crossed above them does not change the heights (C97), but it does the mesh *)
Definition ex_alone0 : qmat := mkQmat [mkQ 4 1 1 0 0 0 1 0 0 (Fin 1) (Fin 1)] 50.
Definition ex_over0 : qmat := mkQmat [mkQ 4 1 1 0 0 0 1 0 0 (Fin 1) (Fin 1); mkQ 4 1 1 0 0 1 0 1 0 (Fin 1) (Fin 1)] 50.
Theorem C108_above_refuted : exists m m' t t' st st' n n' g g', net_new m false None = Ok t /\ net_new m' false None = Ok t' /\
  stack_new ex_greedy m t None = Ok (st, n) /\ stack_new ex_greedy m' t' None = Ok (st', n') /\ mesh_new st = Ok g /\ mesh_new st' = Ok g' /\
  all_in_plane m' /\ no_ties g' /\
  (forall i f, has_fiber m i f -> has_fiber m' i f) /\ (forall i j, connected t' i j -> member (fun k => k) m j -> member (fun k => k) m i) /\
  ~ exists rho, mesh_within rho n n' g g' /\ part_nodes rho (fun k => k) m g g'.
Proof.
  exists ex_alone0, ex_over0, (ex_netof ex_alone0), (ex_netof ex_over0), (fst (ex_stackof ex_alone0)), (fst (ex_stackof ex_over0)),
    (snd (ex_stackof ex_alone0)), (snd (ex_stackof ex_over0)), (ex_g (fst (ex_stackof ex_alone0))), (ex_g (fst (ex_stackof ex_over0))).
  do 6 (split; [vm_compute; reflexivity|]). split; [|split; [|split; [|split]]].
  - intros f Hf. simpl in Hf. intuition subst; reflexivity.
  - set (g := ex_g (fst (ex_stackof ex_over0))). intros i j d e Hi Hj EF ES. destruct (node_at _ _ _ Hi) as [Li ->]. destruct (node_at _ _ _ Hj) as [Lj ->].
    rewrite <- view_length in Li, Lj. assert (EF' : vf (view g) i = vf (view g) j) by (unfold vf; rewrite !view_at; exact EF).
    assert (ES' : vs (view g) i == vs (view g) j) by (unfold vs; rewrite !view_at; exact ES). clear EF ES Hi Hj.
    let V := eval vm_compute in (view g) in assert (EV : view g = V) by (vm_compute; reflexivity).
    rewrite EV in Li, Lj, EF', ES'. clear EV. revert Li Lj EF' ES'. match goal with |- (_ < length ?V)%nat -> _ => set (v := V) end. intros Li Lj EF ES.
    assert (T : each 6 (fun i => each 6 (fun j => implb (Z.eqb (vf v i) (vf v j) && Qeqb (vs v i) (vs v j)) (Nat.eqb i j))) = true) by (vm_compute; reflexivity).
    change (length v) with 6%nat in Li, Lj.
    pose proof (each_at _ _ (each_at _ _ T i Li) j Lj) as X. cbv beta in X. apply Z.eqb_eq in EF. apply Qeqb_eq in ES. rewrite EF, ES in X. apply Nat.eqb_eq, X.
  - apply ex_fibers. intros [|k] f H; [injection H as <-; split; [lia|reflexivity]|destruct k; discriminate H].
  - intros i j (L & k & c & Hr & <- & <-) (a & f & [La E] & Ea). assert (Z.to_nat a < 1)%nat by (change 1%nat with (length (q_rows ex_alone0)); apply nth_error_Some; congruence).
    unfold is_row in Hr. apply nth_error_In in Hr. vm_compute in Hr. exfalso.
    repeat (destruct Hr as [Hr|Hr]; [injection Hr as _ <-; cbn [cA cB] in *; lia|]). destruct Hr.
  - intros (rho & _ & _ & ON).
    assert (K : forall i', (i' < 3)%nat -> exists i, (i < 2)%nat /\ i' = rho i).
    { intros i' L. change 2%nat with (length (g_rows (ex_g (fst (ex_stackof ex_alone0))))).
      assert (Hd : exists d, nth_error (g_rows (ex_g (fst (ex_stackof ex_over0)))) i' = Some d /\ nf (snd d) = 0%Z).
      { do 3 (destruct i' as [|i']; [eexists; split; vm_compute; reflexivity|]). lia. }
      destruct Hd as ([l d] & Hd & Ef). apply (ON i' d (ex_intro _ l Hd)). cbn [snd] in Ef. exists 0%Z. eexists. split; [split; [lia|reflexivity]|exact Ef]. }
    destruct (K 0%nat) as (a & La & Ea); [lia|]. destruct (K 1%nat) as (b & Lb & Eb); [lia|]. destruct (K 2%nat) as (c & Lc & Ec); [lia|].
    assert (a <> b) by (intros ->; lia). assert (b <> c) by (intros ->; lia). assert (a <> c) by (intros ->; lia). lia.
Qed.
Print Assumptions C108_above_refuted.
