(** Property theorems: the order in which a mat lists its fibers, and the ends from which they are described, do not matter (C105). *)
From Coq Require Import Lia Lqa.
From Verif Require Import Num NumP ListX Frames MatM NetM StackM MeshM ModelM SolverM InterpM ResultM Spec SpecNet SpecStack SpecMesh SpecModel SpecSolver SpecTorus SpecPiles SpecPack SpecScale SpecMain
  SpecProgress SpecRename SpecOrder CheckP ScriptsP RenameX OrderP OrderRunP MainP PropsStack PropsMesh PropsSolver PropsMain PropsProgress PropsRename.
Open Scope Q_scope.

(** ** C105 *)
(** the mesh of the stacked fibers is the same under other names, each node at its place on its fiber *)
Theorem C105_mesh : forall linprog linprog' e back per m m' t t', shuffled e back per t m m' -> all_in_plane m ->
  net_new m per None = Ok t -> net_new m' per None = Ok t' -> solved linprog m t -> solved linprog' m' t' ->
  forall thr st st' n n', stack_new linprog m t thr = Ok (st, n) -> stack_new linprog' m' t' thr = Ok (st', n') ->
  forall g g', mesh_new st = Ok g -> mesh_new st' = Ok g' -> no_ties g ->
  exists node, mesh_renamed (mkRen node e back) n n' g g' /\ same_places node back g g'.
Proof. exact shuffled_mesh. Qed.
(** ... and so is its compression *)
Theorem C105_solve : forall linprog linprog' lsolve lsolve' e back per m m' t t', right_linprog linprog -> right_linprog linprog' -> direct_solver lsolve -> direct_solver lsolve' ->
  net_new m per None = Ok t -> net_new m' per None = Ok t' -> shuffled e back per t m m' ->
  forall thr p size, ready m thr p size ->
  forall st st' n n' g g' S h S' h', stack_new linprog m t thr = Ok (st, n) -> stack_new linprog' m' t' thr = Ok (st', n') ->
  mesh_new st = Ok g -> mesh_new st' = Ok g' -> no_ties g -> solve lsolve n g p = Ok (S, h) -> solve lsolve' n' g' p = Ok (S', h') ->
  exists node, mesh_renamed (mkRen node e back) n n' g g' /\ same_places node back g g' /\ Forall2 (record_renamed (mkRen node e back) g g' S S') h h' /\
    same_curves (results_of S h size) (results_of S' h' size).
Proof. exact shuffled_solve. Qed.
Print Assumptions C105_mesh.
Print Assumptions C105_solve.

(** ** example: the mats [ex_pivot0] and [ex_other0] *)
Lemma ex_fibers (P : Z -> qfiber -> Prop) m : (forall k f, nth_error (q_rows m) k = Some f -> P (Z.of_nat k) f) -> forall i f, has_fiber m i f -> P i f.
Proof. intros H i f [L E]. specialize (H _ _ E). rewrite Z2Nat.id in H by exact L. exact H. Qed.
Example ex_other_shuffled : shuffled (rn_fiber ex_names) (rn_back ex_names) false ex_pivott ex_pivot0 ex_other0.
Proof.
  split; [reflexivity|]. split; [|split; [|split; [|split]]].
  - apply ex_fibers. intros k f H. do 4 (destruct k as [|k]; [injection H as <-; eexists; split; [split; [vm_compute; discriminate|vm_compute; reflexivity]|];
      split; [split; [vm_compute; auto|]; split; [reflexivity|]; split; [exists 0%Z, 0%Z; repeat split|]; repeat split|repeat split; vm_compute; first [reflexivity|exact I]]|]).
    destruct k; discriminate H.
  - intros j f. revert j f. apply ex_fibers. intros k f H.
    destruct k as [|k]; [exists 0%Z; eexists; split; [split; [lia|reflexivity]|reflexivity]|].
    destruct k as [|k]; [exists 3%Z; eexists; split; [split; [lia|reflexivity]|reflexivity]|].
    destruct k as [|k]; [exists 1%Z; eexists; split; [split; [lia|reflexivity]|reflexivity]|].
    destruct k as [|k]; [exists 2%Z; eexists; split; [split; [lia|reflexivity]|reflexivity]|].
    destruct k; discriminate H.
  - intros f f'. cbn [rn_fiber ex_names]. repeat match goal with |- context [(?a =? ?b)%Z] => destruct (Z.eqb_spec a b) end; lia.
  - intros i j (L & k & c & Hr & <- & <-). unfold is_row in Hr. apply nth_error_In in Hr. vm_compute in Hr.
    repeat (destruct Hr as [Hr|Hr]; [injection Hr as _ <-; cbn [cA cB] in *; first [exfalso; clear - L; lia|reflexivity]|]). destruct Hr.
  - discriminate.
Qed.
Definition facts (d : node) : Z * Q * Z * Z := (nf d, ns d, nbeam d, ncons d).
Definition view (g : mesh_df) : list (Z * Q * Z * Z) := map (fun r => facts (snd r)) (g_rows g).
Definition vf (v : list (Z * Q * Z * Z)) (i : nat) : Z := fst (fst (fst (nth i v (facts node0)))).
Definition vs (v : list (Z * Q * Z * Z)) (i : nat) : Q := snd (fst (fst (nth i v (facts node0)))).
Definition vb (v : list (Z * Q * Z * Z)) (i : nat) : Z := snd (fst (nth i v (facts node0))).
Definition vc (v : list (Z * Q * Z * Z)) (i : nat) : Z := snd (nth i v (facts node0)).
Lemma view_at g i : nth i (view g) (facts node0) = facts (node_of g i).
Proof. unfold view, node_of. rewrite <- (map_map snd facts). apply map_nth. Qed.
Lemma view_length g : length (view g) = length (g_rows g).
Proof. apply map_length. Qed.
Example ex_pivot_apart : no_ties (ex_pivotg None).
Proof.
  intros i j d e Hi Hj EF ES. destruct (node_at _ _ _ Hi) as [Li ->]. destruct (node_at _ _ _ Hj) as [Lj ->].
  rewrite <- view_length in Li, Lj.
  assert (EF' : vf (view (ex_pivotg None)) i = vf (view (ex_pivotg None)) j) by (unfold vf; rewrite !view_at; exact EF).
  assert (ES' : vs (view (ex_pivotg None)) i == vs (view (ex_pivotg None)) j) by (unfold vs; rewrite !view_at; exact ES). clear EF ES Hi Hj.
  let V := eval vm_compute in (view (ex_pivotg None)) in assert (EV : view (ex_pivotg None) = V) by (vm_compute; reflexivity).
  rewrite EV in Li, Lj, EF', ES'. clear EV. revert Li Lj EF' ES'. match goal with |- (_ < length ?V)%nat -> _ => set (v := V) end. intros Li Lj EF ES.
  assert (T : each 14 (fun i => each 14 (fun j => implb (Z.eqb (vf v i) (vf v j) && Qeqb (vs v i) (vs v j)) (Nat.eqb i j))) = true) by (vm_compute; reflexivity).
  change (length v) with 14%nat in Li, Lj.
  pose proof (each_at _ _ (each_at _ _ T i Li) j Lj) as X. cbv beta in X. apply Z.eqb_eq in EF. apply Qeqb_eq in ES. rewrite EF, ES in X. apply Nat.eqb_eq, X.
Qed.
Example ex_pivot_ready c : c * c < 1 -> ready ex_pivot0 None (ex_pp c) None.
Proof.
  intros Hc. split; [|split; [discriminate|split; [exact ex_pivot_flat|]]].
  - apply valid_intro. intros f Hf. repeat (destruct Hf as [<-|Hf]; [repeat split; vm_compute; first [reflexivity|exact I|discriminate]|]). destruct Hf.
  - split; [intros f Hf; simpl in Hf; intuition subst; eexists; reflexivity|]. split; [exact I|]. split; [split; cbn; lra|]. split; [cbn; lra|]. split; [exact Hc|].
    split; [exists (1 # 100); split; [reflexivity|lra]|]. split; [discriminate|]. split; [reflexivity|exact I].
Qed.
Example ex_pivot_other lsolve c : direct_solver lsolve -> c * c < 1 -> exists S h S' h', solve lsolve (ex_pivot None) (ex_pivotg None) (ex_pp c) = Ok (S, h) /\
  solve lsolve ex_other ex_otherg (ex_pp c) = Ok (S', h') /\ length h' = length h /\ same_curves (results_of S h None) (results_of S' h' None).
Proof.
  intros D Hc. destruct (ex_pivot_total lsolve None (ex_pp c) (or_introl eq_refl)) as (S & h & E). destruct (ex_other_total lsolve (ex_pp c)) as (S' & h' & E').
  destruct (ex_pivot_stack None (or_introl eq_refl)) as [T M]. destruct ex_other_stack as [T' M'].
  destruct (C105_solve ex_greedy ex_greedy lsolve lsolve _ _ _ _ _ _ _ ex_greedy_right ex_greedy_right D D ex_pivot_net ex_other_net ex_other_shuffled
    None (ex_pp c) None (ex_pivot_ready c Hc) _ _ _ _ _ _ S h S' h' T T' M M' ex_pivot_apart E E') as (node & _ & _ & F & C).
  exists S, h, S', h'. split; [exact E|]. split; [exact E'|]. split; [|exact C]. clear - F. induction F; cbn [length]; congruence.
Qed.

(** ** what is asked for is needed *)
(** two connected fibers that are exchanged are stacked in the other order *)
Definition ex_below : qfiber := mkQ 4 1 1 0 0 0 1 0 0 (Fin 1) (Fin 1).
Definition ex_above : qfiber := mkQ 4 1 1 0 0 0 0 1 0 (Fin 1) (Fin 1).
Definition ex_netof (m : qmat) : net_df := match net_new m false None with Ok t => t | Exn _ => mkNetDf [] [] (mkAttrs None None None None) true end.
Definition ex_stackof (m : qmat) : net_df * qmat := match stack_new ex_greedy m (ex_netof m) None with Ok r => r | Exn _ => (ex_netof m, m) end.
Theorem C105_order_refuted : exists m m' t t' st st' n n' e, net_new m false None = Ok t /\ net_new m' false None = Ok t' /\
  solved ex_greedy m t /\ solved ex_greedy m' t' /\ stack_new ex_greedy m t None = Ok (st, n) /\ stack_new ex_greedy m' t' None = Ok (st', n') /\
  all_in_plane m /\ (forall i f, has_fiber m i f -> has_fiber m' (e i) f) /\ all_found e m m' /\ (forall i j, e i = e j -> i = j) /\
  exists i f f', has_fiber n i f /\ has_fiber n' (e i) f' /\ qz f == 1 # 2 /\ qz f' == 3 # 2.
Proof.
  set (m := mkQmat [ex_below; ex_above] 10). set (m' := mkQmat [ex_above; ex_below] 10).
  assert (N : net_new m false None = Ok (ex_netof m)) by (vm_compute; reflexivity). assert (N' : net_new m' false None = Ok (ex_netof m')) by (vm_compute; reflexivity).
  exists m, m', (ex_netof m), (ex_netof m'), (fst (ex_stackof m)), (fst (ex_stackof m')), (snd (ex_stackof m)), (snd (ex_stackof m')), (fun i => 1 - i)%Z.
  split; [exact N|]. split; [exact N'|]. split; [exact (ex_greedy_right _ _ _ N)|]. split; [exact (ex_greedy_right _ _ _ N')|].
  split; [vm_compute; reflexivity|]. split; [vm_compute; reflexivity|]. split; [intros f Hf; simpl in Hf; intuition subst; reflexivity|]. split; [|split; [|split; [intros; lia|]]].
  - apply ex_fibers. intros k f H. do 2 (destruct k as [|k]; [injection H as <-; split; [vm_compute; discriminate|reflexivity]|]). destruct k; discriminate H.
  - intros j f. revert j f. apply ex_fibers. intros k f H.
    destruct k as [|k]; [exists 1%Z; eexists; split; [split; [lia|reflexivity]|reflexivity]|].
    destruct k as [|k]; [exists 0%Z; eexists; split; [split; [lia|reflexivity]|reflexivity]|]. destruct k; discriminate H.
  - exists 0%Z. eexists. eexists. split; [split; [lia|vm_compute; reflexivity]|]. split; [split; [vm_compute; discriminate|vm_compute; reflexivity]|]. split; reflexivity.
Qed.
(** where three fibers cross at one point, the lowest one meets the two others in the order of their labels, whatever its direction:
    described from its other end, it is not the same chain of beams *)
Definition ex_third : qfiber := mkQ 4 1 1 0 0 0 (3 # 5) (4 # 5) 0 (Fin 1) (Fin 1).
Definition ex_cross : qmat := mkQmat [ex_below; ex_above; ex_third] 10.
Definition ex_cross' : qmat := mkQmat [mkQ 4 1 1 0 0 0 (-1) 0 0 (Fin 1) (Fin 1); ex_above; ex_third] 10.
Definition vcontact (v : list (Z * Q * Z * Z)) (i j : nat) : bool := Nat.leb i j && Z.eqb (vc v i) (Z.of_nat j).
Definition vbeam (v : list (Z * Q * Z * Z)) (i j : nat) : bool := Nat.ltb i j && Z.eqb (vb v i) (Z.of_nat j).
Lemma renamed_tests node e back n n' g g' : mesh_renamed (mkRen node e back) n n' g g' ->
  (forall i, (i < length (view g))%nat -> (node i < length (view g'))%nat) /\
  (forall i, (i < length (view g))%nat -> vf (view g') (node i) = e (vf (view g) i)) /\
  (forall i j, (i < length (view g))%nat -> (j < length (view g))%nat -> vcontact (view g) i j = true -> vcontact (view g') (node i) (node j) = true) /\
  (forall i j, (i < length (view g))%nat -> (j < length (view g))%nat -> back (vf (view g) i) = true -> vbeam (view g) i j = true -> vbeam (view g') (node j) (node i) = true).
Proof.
  intros (EL & (B0 & _) & _ & NR & BR & CR). cbn [rn_node] in B0.
  assert (B : forall i, (i < length (g_rows g))%nat -> (node i < length (g_rows g'))%nat) by (intros i L; rewrite EL; exact (B0 i L)).
  unfold vcontact, vbeam, vf, vb, vc. rewrite !view_length. split; [exact B|]. split; [|split].
  - intros i L. rewrite !view_at. exact (proj1 (NR i _ _ (node_of_at g i L) (node_of_at g' (node i) (B i L)))).
  - intros i j Li Lj. rewrite !view_at. intros T. apply (contact_of g' _ _ (B i Li)). apply (CR i j Li Lj). apply contact_of; [exact Li|exact T].
  - intros i j Li Lj. rewrite !view_at. intros T BT. apply (beam_of g' _ _ (B j Lj) (B i Li)).
    pose proof (BR i j _ _ _ _ (node_of_at g i Li) (node_of_at g j Lj) (node_of_at g' (node i) (B i Li)) (node_of_at g' (node j) (B j Lj))) as X. cbn [rn_back rn_node] in X.
    cbn [fst snd facts] in T. rewrite T in X. apply X. apply (beam_of g _ _ Li Lj), BT.
Qed.
Theorem C105_ties_refuted : exists e back m m' t t' st st' n n' g g', net_new m false None = Ok t /\ net_new m' false None = Ok t' /\ shuffled e back false t m m' /\
  all_in_plane m /\ solved ex_greedy m t /\ solved ex_greedy m' t' /\ stack_new ex_greedy m t None = Ok (st, n) /\ stack_new ex_greedy m' t' None = Ok (st', n') /\
  mesh_new st = Ok g /\ mesh_new st' = Ok g' /\ forall node, ~ mesh_renamed (mkRen node e back) n n' g g'.
Proof.
  set (m := ex_cross). set (m' := ex_cross').
  assert (N : net_new m false None = Ok (ex_netof m)) by (vm_compute; reflexivity). assert (N' : net_new m' false None = Ok (ex_netof m')) by (vm_compute; reflexivity).
  exists (fun i => i), (fun i => (i =? 0)%Z), m, m', (ex_netof m), (ex_netof m'), (fst (ex_stackof m)), (fst (ex_stackof m')), (snd (ex_stackof m)), (snd (ex_stackof m')),
    (ex_g (fst (ex_stackof m))), (ex_g (fst (ex_stackof m'))).
  split; [exact N|]. split; [exact N'|]. split.
  { split; [reflexivity|]. split; [|split; [|split; [auto|split; [intros i j (L & _); exact L|discriminate]]]].
    - apply ex_fibers. intros k f H. do 3 (destruct k as [|k]; [injection H as <-; eexists; split; [split; [vm_compute; discriminate|vm_compute; reflexivity]|];
        split; [split; [vm_compute; auto|]; split; [reflexivity|]; split; [exists 0%Z, 0%Z; repeat split|]; repeat split|repeat split; vm_compute; first [reflexivity|exact I]]|]).
      destruct k; discriminate H.
    - intros j f. revert j f. apply ex_fibers. intros k f H. do 3 (destruct k as [|k]; [eexists; eexists; split; [|reflexivity]; split; [vm_compute; discriminate|reflexivity]|]). destruct k; discriminate H. }
  split; [intros f Hf; simpl in Hf; intuition subst; reflexivity|]. split; [exact (ex_greedy_right _ _ _ N)|]. split; [exact (ex_greedy_right _ _ _ N')|].
  do 4 (split; [vm_compute; reflexivity|]). intros node MR. apply renamed_tests in MR. destruct MR as (B & NF & C & BM).
  let V := eval vm_compute in (view (ex_g (fst (ex_stackof m)))) in assert (EV : view (ex_g (fst (ex_stackof m))) = V) by (vm_compute; reflexivity).
  let V := eval vm_compute in (view (ex_g (fst (ex_stackof m')))) in assert (EV' : view (ex_g (fst (ex_stackof m'))) = V) by (vm_compute; reflexivity).
  rewrite EV in B, NF, C, BM. rewrite EV' in B, NF, C, BM. clear EV EV'. revert B NF C BM.
  match goal with |- (forall i, (i < length ?V)%nat -> _) -> _ => set (v := V) end. intros B NF C BM.
  change (length v) with 12%nat in *.
  assert (T : each 12 (fun a => each 12 (fun b => each 12 (fun c => negb (vcontact v b b && vcontact v a c && Z.eqb (vf v c) 1 && Z.eqb (vf v a) 0 && vbeam v a b)))) = true)
    by (vm_compute; reflexivity).
  assert (L0 : (0 < 12)%nat) by lia. assert (L1 : (1 < 12)%nat) by lia. assert (L5 : (5 < 12)%nat) by lia.
  pose proof (each_at _ _ (each_at _ _ (each_at _ _ T _ (B _ L1)) _ (B _ L0)) _ (B _ L5)) as X. cbv beta in X.
  rewrite (C _ _ L0 L0 eq_refl), (C _ _ L1 L5 eq_refl), (BM _ _ L0 L1 eq_refl eq_refl), (NF _ L5), (NF _ L1) in X. discriminate X.
Qed.
Print Assumptions C105_order_refuted.
Print Assumptions C105_ties_refuted.
