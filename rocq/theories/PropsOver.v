(** Property theorems: a mat turned over (C106). *)
From Verif Require Import Num NumP ListX Frames MatM NetM StackM MeshM ModelM Spec SpecNet SpecStack SpecMesh SpecModel SpecMeta SpecTorus SpecPiles SpecOver OverP
  PropsNet PropsStack PropsMeta PropsPiles.
Open Scope Q_scope.

(** ** C106 *)
(** the lid of the compression starts at the same height *)
Theorem C106_lid : forall linprog linprog' M m m' per t t' e,
  net_new m per None = Ok t -> net_new m' per None = Ok t' -> proper M -> all_in_plane m -> (per = true -> boxes M m m') -> overturned M per t e m m' ->
  forall thr thr' st st' n n', solved linprog m t -> solved linprog' m' t' ->
  stack_new linprog m t thr = Ok (st, n) -> stack_new linprog' m' t' thr' = Ok (st', n') -> all_in_plane m' ->
  forall g g' cs cs', mesh_new st = Ok g -> mesh_new st' = Ok g' -> constraint n g = Ok cs -> constraint n' g' = Ok cs' ->
  all_found e m m' -> csZ cs' == mv_k M * csZ cs.
Proof. exact over_lid. Qed.
(** no fiber is higher than the one it was, seen from the lid; it is at the same place exactly when a thickest pile goes through it *)
Theorem C106_heights : forall linprog linprog' M m m' per t t' e,
  net_new m per None = Ok t -> net_new m' per None = Ok t' -> proper M -> all_in_plane m -> (per = true -> boxes M m m') -> overturned M per t e m m' ->
  forall thr thr' st st' n n', solved linprog m t -> solved linprog' m' t' ->
  stack_new linprog m t thr = Ok (st, n) -> stack_new linprog' m' t' thr' = Ok (st', n') ->
  forall g cs, mesh_new st = Ok g -> constraint n g = Ok cs -> all_found e m m' ->
  forall i f, has_fiber m i f -> height (heights n') (e i) + mv_k M * height (heights n) i <= mv_k M * csZ cs /\
    (height (heights n') (e i) + mv_k M * height (heights n) i == mv_k M * csZ cs <-> exists j q, through m t i j q /\ q == csZ cs).
Proof. exact over_bound. Qed.
(** the fibers on the floor are those that had nothing above them *)
Theorem C106_floor : forall linprog' M m m' per t t' e,
  net_new m per None = Ok t -> net_new m' per None = Ok t' -> proper M -> all_in_plane m -> (per = true -> boxes M m m') -> overturned M per t e m m' ->
  forall thr' st' n', solved linprog' m' t' -> stack_new linprog' m' t' thr' = Ok (st', n') -> all_found e m m' ->
  forall i f, has_fiber m i f -> (height (heights n') (e i) == mv_k M * (qh f / 2) <-> forall j g, has_fiber m j g -> ~ connected t i j).
Proof. exact over_floor. Qed.

(** ** example: four fibers, one of which touches no other, turned over about the x axis *)
Definition ex_flip : motion := mkMotion 1 1 0 0 0 0 true.
Definition ex_over : qmat := mkQmat (rev (map (ex_move ex_flip) (q_rows ex_apart))) 10.
Definition ex_o (i : Z) : Z := (3 - i)%Z.
Example ex_over_ok : net_new ex_over true None = Ok (ex_net ex_over true) /\ solved ex_greedy ex_over (ex_net ex_over true) /\
  stack_new ex_greedy ex_over (ex_net ex_over true) None = Ok (ex_stacked ex_over).
Proof.
  assert (H : net_new ex_over true None = Ok (ex_net ex_over true)) by (vm_compute; reflexivity).
  split; [exact H|]. split; [|vm_compute; reflexivity]. apply ex_all_stacked; [exact H|vm_compute; reflexivity].
Qed.
Lemma ex_apart_cases i f : has_fiber ex_apart i f -> (i = 0 \/ i = 1 \/ i = 2 \/ i = 3)%Z.
Proof.
  intros [L E]. assert (B : (Z.to_nat i < 4)%nat) by (apply (nth_error_Some (q_rows ex_apart)); congruence). lia.
Qed.
Lemma ex_flip_alike f : alike ex_flip true 10 1 f (ex_move ex_flip f).
Proof.
  exists (ex_move ex_flip f). split; [unfold follows, ex_move; cbn [ql qx qy qu qv qw]; repeat split; reflexivity|]. split; [reflexivity|]. split; [left; reflexivity|]. split; [reflexivity|].
  split; [exists 0%Z, 0%Z; split; [discriminate|split; ring]|]. repeat split; ring.
Qed.
Example ex_overturned : overturned ex_flip true (ex_net ex_apart true) ex_o ex_apart ex_over /\ all_found ex_o ex_apart ex_over.
Proof.
  split; [split; [|split]|].
  - intros i f H. exists (ex_move ex_flip f). split; [|split; [exists 1; apply ex_flip_alike|cbn; ring]].
    destruct (ex_apart_cases i f H) as [->|[->|[->| ->]]]; destruct H as [_ H]; injection H as <-; split; try discriminate; reflexivity.
  - intros i j f g _ _ L _. unfold ex_o. lia.
  - intros i j f g _ _. unfold ex_o. lia.
  - intros j g [L E]. assert (B : (Z.to_nat j < 4)%nat) by (apply (nth_error_Some (q_rows ex_over)); congruence).
    assert (J : (j = 0 \/ j = 1 \/ j = 2 \/ j = 3)%Z) by lia.
    destruct J as [->|[->|[->| ->]]]; [exists 3%Z|exists 2%Z|exists 1%Z|exists 0%Z]; eexists; (split; [split; [discriminate|reflexivity]|reflexivity]).
Qed.
Example ex_over_boxes : proper ex_flip /\ boxes ex_flip ex_apart ex_over /\ all_in_plane ex_apart /\ all_in_plane ex_over.
Proof.
  split; [split; reflexivity|]. split; [|split; intros f H; simpl in H; intuition subst; reflexivity].
  split; [exists 1%Z, 0%Z; repeat split|]. split; [reflexivity|]. split; intros f H; simpl in H; intuition subst; vm_compute; discriminate.
Qed.
Example ex_over_heights : map Qred (heights (snd (ex_stacked ex_apart))) = [1 # 2; 1 # 2; 1 # 2; 3 # 2] /\ map Qred (heights (snd (ex_stacked ex_over))) = [1 # 2; 3 # 2; 1 # 2; 3 # 2].
Proof. split; vm_compute; reflexivity. Qed.
Example ex_over_lids : exists g g' cs cs', mesh_new (fst (ex_stacked ex_apart)) = Ok g /\ mesh_new (fst (ex_stacked ex_over)) = Ok g' /\
  constraint (snd (ex_stacked ex_apart)) g = Ok cs /\ constraint (snd (ex_stacked ex_over)) g' = Ok cs' /\ csZ cs == 2 /\ csZ cs' == 2.
Proof. do 4 eexists. repeat (split; [vm_compute; reflexivity|]). split; vm_compute; reflexivity. Qed.
(** a thickest pile goes through the first one *)
Example ex_over_through : through ex_apart (ex_net ex_apart true) 0 3 2.
Proof.
  change 2 with (1 + qh (ex_fib 2)). apply (through_more _ _ 0%Z 0%Z 3%Z); [constructor; change 1 with (qh (ex_fib 1)); constructor; split; [discriminate|reflexivity]| |split; [discriminate|reflexivity]].
  split; [reflexivity|]. exists 1%nat. eexists. split; [vm_compute; reflexivity|]. split; reflexivity.
Qed.
(** they are not all at the same places, seen from the lid *)
Theorem C106_places_refuted : ~ (forall linprog M m m' per t t' e st st' n n',
  net_new m per None = Ok t -> net_new m' per None = Ok t' -> proper M -> all_in_plane m -> all_in_plane m' -> (per = true -> boxes M m m') -> overturned M per t e m m' -> all_found e m m' ->
  solved linprog m t -> solved linprog m' t' -> stack_new linprog m t None = Ok (st, n) -> stack_new linprog m' t' None = Ok (st', n') ->
  forall i j f g, has_fiber m i f -> has_fiber m j g ->
  height (heights n') (e i) + mv_k M * height (heights n) i == height (heights n') (e j) + mv_k M * height (heights n) j).
Proof.
  intros H. destruct ex_apart_ok as (A1 & A2 & A3), ex_over_ok as (B1 & B2 & B3), ex_over_boxes as (PM & BX & F1 & F2), ex_overturned as (OV & AF).
  rewrite (surjective_pairing (ex_stacked ex_apart)) in A3. rewrite (surjective_pairing (ex_stacked ex_over)) in B3.
  pose proof (H ex_greedy ex_flip ex_apart ex_over true _ _ ex_o _ _ _ _ A1 B1 PM F1 F2 (fun _ => BX) OV AF A2 B2 A3 B3 0%Z 1%Z _ _
    (conj (Z.le_refl 0) eq_refl) (conj (Z.le_0_1) eq_refl)) as E.
  vm_compute in E. discriminate E.
Qed.

Print Assumptions C106_lid.
Print Assumptions C106_heights.
Print Assumptions C106_floor.
Print Assumptions C106_places_refuted.
