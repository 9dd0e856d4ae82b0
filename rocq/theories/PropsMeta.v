(** Property theorems that compare two computations: networks (C72, C73) and stacks (C74). *)
From Coq Require Import String.
From Verif Require Import Num NumP ListX Frames MatM NetM StackM Spec SpecNet SpecStack SpecMeta
  CheckP NetP NetGeoP NetZP StackP StackNewP MetaP PropsNet PropsStack.
Open Scope Q_scope.

(** ** C72: networks follow the motions and the scaling of the fibers *)
Theorem C72_joined : forall M m m' t t' i j i' j' f g f' g' s s',
  net_new m false None = Ok t -> net_new m' false None = Ok t' -> proper M -> moved_pair M f g f' g' ->
  i <> j -> i' <> j' -> has_fiber m i f -> has_fiber m j g -> has_fiber m' i' f' -> has_fiber m' j' g' ->
  (joined t i j s s' <-> joined t' i' j' (mv_k M * s) (mv_k M * s')).
Proof. exact moved_joined. Qed.
Theorem C72_linked : forall M m m' per t t' i j i' j' f g f' g',
  net_new m per None = Ok t -> net_new m' per None = Ok t' -> proper M -> moved_pair M f g f' g' ->
  (per = true -> boxes M m m') ->
  i <> j -> i' <> j' -> has_fiber m i f -> has_fiber m j g -> has_fiber m' i' f' -> has_fiber m' j' g' ->
  (linked t i j <-> linked t' i' j').
Proof. exact moved_linked. Qed.
Theorem C72_short : forall M m m' t t' i j i' j' f g f' g' s s',
  net_new m true None = Ok t -> net_new m' true None = Ok t' -> proper M -> moved_pair M f g f' g' ->
  quarter M -> q_size m' == mv_k M * q_size m ->
  all_in_plane m -> all_at_most_unit m -> (forall f, In f (q_rows m) -> 2 * ql f <= q_size m) ->
  all_in_plane m' -> all_at_most_unit m' -> (forall f, In f (q_rows m') -> 2 * ql f <= q_size m') ->
  i <> j -> i' <> j' -> has_fiber m i f -> has_fiber m j g -> has_fiber m' i' f' -> has_fiber m' j' g' ->
  (joined t i j s s' <-> joined t' i' j' (mv_k M * s) (mv_k M * s')).
Proof. exact moved_short. Qed.

(** cases: the three fibers of [ex_mats] seen in a mirror, turned by a quarter, doubled, moved and renumbered *)
Definition ex_turn : motion := mkMotion 2 0 1 1 0.5 3 true.
Definition ex_move (M : motion) (f : qfiber) : qfiber :=
  mkQ (mv_k M * ql f) (qb f) (qh f)
    (mv_k M * (mv_c M * qx f - mv_s M * mirrored M (qy f)) + mv_x M) (mv_k M * (mv_s M * qx f + mv_c M * mirrored M (qy f)) + mv_y M) (mv_k M * qz f + mv_z M)
    (mv_c M * qu f - mv_s M * mirrored M (qv f)) (mv_s M * qu f + mv_c M * mirrored M (qv f)) (qw f) (qG f) (qE f).
Definition ex_turned : qmat :=
  let r := map (ex_move ex_turn) (q_rows (ex_mats 2)) in
  mkQmat [nth 2 r fiber0; nth 0 r fiber0; nth 1 r fiber0] 20.
Definition ex_net (m : qmat) (per : bool) : net_df :=
  match net_new m per None with Ok t => t | Exn _ => mkNetDf [] [] (mkAttrs None None None None) true end.
Example ex_turned_new : net_new ex_turned true None = Ok (ex_net ex_turned true) /\ net_new ex_turned false None = Ok (ex_net ex_turned false).
Proof. split; vm_compute; reflexivity. Qed.
Example ex_turn_proper : proper ex_turn /\ quarter ex_turn.
Proof. split; [split; reflexivity|]. exists 0%Z, 1%Z. repeat split. Qed.
Example ex_turn_pair : moved_pair ex_turn (ex_q 5 (-4.5) (-4) 0 0.6 0.8) (ex_q 3 4.5 4 2 0 1)
  (ex_move ex_turn (ex_q 5 (-4.5) (-4) 0 0.6 0.8)) (ex_move ex_turn (ex_q 3 4.5 4 2 0 1)).
Proof.
  split; [unfold follows; cbn; repeat split; reflexivity|]. split; [unfold follows; cbn; repeat split; reflexivity|].
  left. split; reflexivity.
Qed.
Example ex_turn_fibers : has_fiber ex_turned 2 (ex_move ex_turn (ex_q 5 (-4.5) (-4) 0 0.6 0.8)) /\
  has_fiber ex_turned 0 (ex_move ex_turn (ex_q 3 4.5 4 2 0 1)).
Proof. repeat split; discriminate. Qed.
Example ex_turn_boxes : boxes ex_turn (ex_mats 2) ex_turned.
Proof.
  split; [apply ex_turn_proper|]. split; [reflexivity|]. split; intros f H; simpl in H; intuition subst; vm_compute; discriminate.
Qed.
Example ex_turn_short : all_in_plane ex_turned /\ all_at_most_unit ex_turned /\
  (forall f, In f (q_rows ex_turned) -> 2 * ql f <= q_size ex_turned).
Proof.
  split; [|split]; intros f H; simpl in H; intuition subst; try reflexivity; unfold at_most_unit; vm_compute; discriminate.
Qed.
(** the connection of the fibers 1 and 2 through the border, and its counterpart *)
Example ex_turn_joined : joined (ex_t None) 1 2 (-5 # 3) (2 # 3) /\ joined (ex_net ex_turned true) 2 0 (2 * (-5 # 3)) (2 * (2 # 3)).
Proof.
  assert (J : joined (ex_t None) 1 2 (-5 # 3) (2 # 3)).
  { exists 3%nat. eexists. split; [vm_compute; reflexivity|]. left. cbn. repeat split; reflexivity. }
  split; [exact J|].
  apply (C72_short ex_turn (ex_mats 2) ex_turned (ex_t None) (ex_net ex_turned true) 1 2 2 0 _ _ _ _ _ _
    ex_t_all (proj1 ex_turned_new) (proj1 ex_turn_proper) ex_turn_pair (proj2 ex_turn_proper)) in J; try exact J; try discriminate; try reflexivity;
    try apply ex_turn_short; try apply ex_has_fiber; try apply ex_turn_fibers; [exact ex_in_plane|exact ex_unit|exact ex_short].
Qed.

(** ** C73: the periodic network contains the connections of the plain one *)
Theorem C73_contains : forall m t t' k c, net_new m false None = Ok t -> net_new m true None = Ok t' ->
  is_row t k c -> exists k', is_row t' k' c.
Proof. exact periodic_contains. Qed.
Example ex_contains : exists k', is_row (ex_t None) k' (snd (nth 1 (n_rows (ex_net (ex_mats 2) false)) (0%Z, ex_conn 0 0 0 0))).
Proof.
  apply (C73_contains (ex_mats 2) (ex_net (ex_mats 2) false) (ex_t None) 1); [vm_compute; reflexivity|exact ex_t_all|vm_compute; reflexivity].
Qed.

(** ** C74: comparison of stacks *)
Theorem C74_above : forall linprog linprog' M m m' per t t' e,
  net_new m per None = Ok t -> net_new m' per None = Ok t' -> proper M -> all_in_plane m ->
  (per = true -> boxes M m m') ->
  forall thr thr' st st' n n', solved linprog m t -> solved linprog' m' t' ->
  stack_new linprog m t thr = Ok (st, n) -> stack_new linprog' m' t' thr' = Ok (st', n') ->
  placed M Qle e m m' -> forall i f, has_fiber m i f ->
  mv_k M * height (heights n) i <= height (heights n') (e i).
Proof. exact stacks_le. Qed.
Theorem C74_same : forall linprog linprog' M m m' per t t' e,
  net_new m per None = Ok t -> net_new m' per None = Ok t' -> proper M -> all_in_plane m ->
  (per = true -> boxes M m m') ->
  forall thr thr' st st' n n', solved linprog m t -> solved linprog' m' t' ->
  stack_new linprog m t thr = Ok (st, n) -> stack_new linprog' m' t' thr' = Ok (st', n') ->
  placed M Qeq e m m' -> lowest e m m' -> forall i f, has_fiber m i f ->
  height (heights n') (e i) == mv_k M * height (heights n) i.
Proof. exact stacks_eq. Qed.

(** cases: a fourth fiber put at the end, the same in first position, and twice thicker fibers *)
Definition ex_still : motion := mkMotion 1 1 0 0 0 0 false.
Definition ex_more : qmat := mkQmat (q_rows (ex_mats 2) ++ [ex_q 4 4.5 4 0 0.6 0.8]) 10.
Definition ex_under : qmat := mkQmat (ex_q 4 4.5 4 0 0.6 0.8 :: q_rows (ex_mats 2)) 10.
Definition ex_thick : qmat := mkQmat (map (fun f => mkQ (ql f) (qb f) (2 * qh f) (qx f) (qy f) (qz f) (qu f) (qv f) (qw f) (qG f) (qE f)) (q_rows (ex_mats 2))) 10.
Definition ex_stacked (m : qmat) : net_df * qmat :=
  match stack_new ex_greedy m (ex_net m true) None with Ok r => r | Exn _ => (ex_net m true, m) end.
Lemma ex_fiber_cases i f : has_fiber (ex_mats 2) i f ->
  (i = 0%Z /\ f = ex_q 4 4.5 4 (-3) 1 0) \/ (i = 1%Z /\ f = ex_q 5 (-4.5) (-4) 0 0.6 0.8) \/ (i = 2%Z /\ f = ex_q 3 4.5 4 2 0 1).
Proof.
  intros [H E]. assert (L : (Z.to_nat i < length (q_rows (ex_mats 2)))%nat) by (apply nth_error_Some; congruence). cbn in L.
  destruct (Z.to_nat i) as [|[|[|n]]] eqn:N; [| | |lia]; injection E as <-; [left|right; left|right; right]; split; auto; lia.
Qed.
Lemma ex_follows f g : ql g = ql f -> qx g = qx f -> qy g = qy f -> qu g = qu f -> qv g = qv f -> qw g = qw f -> follows ex_still f g.
Proof. intros E1 E2 E3 E4 E5 E6. unfold follows. rewrite E1, E2, E3, E4, E5, E6. unfold mirrored. cbn [mv_k mv_c mv_s mv_x mv_y mv_m ex_still]. repeat split; ring. Qed.
Example ex_more_ok : net_new ex_more true None = Ok (ex_net ex_more true) /\ solved ex_greedy ex_more (ex_net ex_more true) /\
  stack_new ex_greedy ex_more (ex_net ex_more true) None = Ok (ex_stacked ex_more).
Proof.
  assert (H : net_new ex_more true None = Ok (ex_net ex_more true)) by (vm_compute; reflexivity).
  split; [exact H|]. split; [|vm_compute; reflexivity].
  destruct (C17_networks_by_A _ _ _ _ H) as (_ & Hok & _ & Hf & Hb). apply greedy_solved; auto. vm_compute. reflexivity.
Qed.
Example ex_under_ok : net_new ex_under true None = Ok (ex_net ex_under true) /\ solved ex_greedy ex_under (ex_net ex_under true) /\
  stack_new ex_greedy ex_under (ex_net ex_under true) None = Ok (ex_stacked ex_under).
Proof.
  assert (H : net_new ex_under true None = Ok (ex_net ex_under true)) by (vm_compute; reflexivity).
  split; [exact H|]. split; [|vm_compute; reflexivity].
  destruct (C17_networks_by_A _ _ _ _ H) as (_ & Hok & _ & Hf & Hb). apply greedy_solved; auto. vm_compute. reflexivity.
Qed.
Example ex_still_boxes : proper ex_still /\ boxes ex_still (ex_mats 2) ex_more /\ boxes ex_still (ex_mats 2) ex_under.
Proof.
  split; [split; reflexivity|]. assert (Q1 : quarter ex_still) by (exists 1%Z, 0%Z; repeat split).
  split; (split; [exact Q1|]); (split; [reflexivity|]); split; intros f H; simpl in H; intuition subst; vm_compute; discriminate.
Qed.
Example ex_more_placed : placed ex_still Qeq (fun i => i) (ex_mats 2) ex_more /\ lowest (fun i => i) (ex_mats 2) ex_more.
Proof.
  split; [split|].
  - intros i f H. exists f. split; [|split; [apply ex_follows; reflexivity|cbn; ring]].
    destruct (ex_fiber_cases i f H) as [(-> & ->)|[(-> & ->)|(-> & ->)]]; split; try discriminate; reflexivity.
  - intros; assumption.
  - intros i j f g Hf [Hj _] L. assert (J : (j = 0 \/ j = 1)%Z) by (destruct (ex_fiber_cases i f Hf) as [(-> & _)|[(-> & _)|(-> & _)]]; lia).
    destruct J as [->| ->]; eexists; eexists; (split; [|reflexivity]); split; try reflexivity; discriminate.
Qed.
Example ex_under_placed : placed ex_still Qle (fun i => i + 1)%Z (ex_mats 2) ex_under.
Proof.
  split.
  - intros i f H. exists f. split; [|split; [apply ex_follows; reflexivity|cbn; lra]].
    destruct (ex_fiber_cases i f H) as [(-> & ->)|[(-> & ->)|(-> & ->)]]; split; try discriminate; reflexivity.
  - intros. lia.
Qed.
Example ex_thick_placed : placed ex_still Qle (fun i => i) (ex_mats 2) ex_thick.
Proof.
  split; [|intros; assumption].
  intros i f H. destruct (ex_fiber_cases i f H) as [(-> & ->)|[(-> & ->)|(-> & ->)]]; (eexists; split; [split; [discriminate|reflexivity]|]);
    (split; [apply ex_follows; reflexivity|cbn; discriminate]).
Qed.
Example ex_heights_more : map Qred (heights (snd (ex_stacked ex_more))) = [1 # 2; 1 # 2; 3 # 2; 5 # 2]
  /\ map Qred (heights (snd (ex_stacked ex_under))) = [1 # 2; 3 # 2; 1 # 2; 5 # 2]
  /\ map Qred (heights (snd (ex_stacked ex_thick))) = [1; 1; 3].
Proof. split; [|split]; vm_compute; reflexivity. Qed.

(** The order of the fibers matters: the same fibers in another order may give another total height. *)
Definition ex_reordered : qmat :=
  mkQmat [nth 0 (q_rows (ex_mats 2)) fiber0; nth 2 (q_rows (ex_mats 2)) fiber0; nth 1 (q_rows (ex_mats 2)) fiber0] 10.
Lemma ex_reordered_fibers : forall i f, has_fiber (ex_mats 2) i f ->
  has_fiber ex_reordered (if (i =? 0)%Z then 0%Z else if (i =? 1)%Z then 2%Z else 1%Z) f.
Proof.
  intros i f Hf. destruct (ex_fiber_cases i f Hf) as [(-> & ->)|[(-> & ->)|(-> & ->)]]; split; try discriminate; reflexivity.
Qed.
Theorem C74_order_refuted :
  ~ (forall linprog m m' t t' st st' n n' e, net_new m true None = Ok t -> net_new m' true None = Ok t' ->
     all_in_plane m -> solved linprog m t -> solved linprog m' t' ->
     stack_new linprog m t None = Ok (st, n) -> stack_new linprog m' t' None = Ok (st', n') ->
     length (q_rows m) = length (q_rows m') -> q_size m = q_size m' ->
     (forall i f, has_fiber m i f -> has_fiber m' (e i) f) ->
     forall i f, has_fiber m i f -> height (heights n') (e i) == height (heights n) i).
Proof.
  intros H. pose (e := fun i => if (i =? 0)%Z then 0%Z else if (i =? 1)%Z then 2%Z else 1%Z).
  assert (N1 : net_new ex_reordered true None = Ok (ex_net ex_reordered true)) by (vm_compute; reflexivity).
  assert (S1 : solved ex_greedy ex_reordered (ex_net ex_reordered true)).
  { destruct (C17_networks_by_A _ _ _ _ N1) as (_ & Hok & _ & Hf & Hb). apply greedy_solved; auto. vm_compute. reflexivity. }
  assert (K1 : stack_new ex_greedy (ex_mats 2) (ex_t None) None = Ok (fst (ex_st None None), snd (ex_st None None))) by (vm_compute; reflexivity).
  assert (K2 : stack_new ex_greedy ex_reordered (ex_net ex_reordered true) None = Ok (fst (ex_stacked ex_reordered), snd (ex_stacked ex_reordered)))
    by (vm_compute; reflexivity).
  pose proof ex_reordered_fibers as P. 
  pose proof (H ex_greedy (ex_mats 2) ex_reordered (ex_t None) (ex_net ex_reordered true) _ _ _ _ e ex_t_all N1 ex_in_plane ex_solved S1 K1 K2
    eq_refl eq_refl P 1%Z _ (proj1 ex_has_fiber)) as X.
  assert (E : Qeq_bool (height (heights (snd (ex_stacked ex_reordered))) (e 1%Z)) (height (heights (snd (ex_st None None))) 1) = false) by (vm_compute; reflexivity).
  apply Qeq_bool_neq in E. contradiction.
Qed.

Print Assumptions C72_joined.
Print Assumptions C72_linked.
Print Assumptions C72_short.
Print Assumptions C73_contains.
Print Assumptions C74_above.
Print Assumptions C74_same.
Print Assumptions C74_order_refuted.
