(** Property theorems about the piles of fibers (C97). *)
From Coq Require Import String.
From Verif Require Import Num NumP ListX Frames MatM NetM StackM MeshM ModelM Spec SpecNet SpecStack SpecMesh SpecModel SpecMeta SpecTorus SpecPiles
  CheckP NetP NetGeoP NetZP StackP StackNewP MetaP TorusP PilesP PropsNet PropsStack PropsMeta.
Open Scope Q_scope.

(** ** C97: the heights of a stack are the thicknesses of the thickest piles *)
(** the top of a fiber is the thickest pile that ends with it *)
Theorem C97_piles : forall linprog m per t thr st m', net_new m per None = Ok t -> solved linprog m t ->
  stack_new linprog m t thr = Ok (st, m') ->
  forall i f, has_fiber m i f -> thickest m t (fun j => j = i) (height (heights m') i + qh f / 2).
Proof. exact stack_piles. Qed.
(** the fibers on the floor are those without connection to a lower label *)
Theorem C97_floor : forall linprog m per t thr st m', net_new m per None = Ok t -> solved linprog m t ->
  stack_new linprog m t thr = Ok (st, m') ->
  forall i f, has_fiber m i f -> (height (heights m') i == qh f / 2 <-> forall j g, has_fiber m j g -> ~ connected t j i).
Proof. exact stack_floor. Qed.
(** the lid of the compression starts on the thickest pile of all *)
Theorem C97_lid : forall linprog m per t thr st m', net_new m per None = Ok t -> solved linprog m t ->
  stack_new linprog m t thr = Ok (st, m') -> all_in_plane m -> forall g, mesh_new st = Ok g ->
  forall cs, constraint m' g = Ok cs -> thickest m t (fun _ => True) (csZ cs).
Proof. exact lid_piles. Qed.
(** fibers whose connections keep their order do not get lower among others *)
Theorem C97_above : forall linprog linprog' M m m' per t t' e,
  net_new m per None = Ok t -> net_new m' per None = Ok t' -> proper M -> all_in_plane m ->
  (per = true -> boxes M m m') ->
  forall thr thr' st st' n n', solved linprog m t -> solved linprog' m' t' ->
  stack_new linprog m t thr = Ok (st, n) -> stack_new linprog' m' t' thr' = Ok (st', n') ->
  arranged M per Qle t e m m' -> forall i f, has_fiber m i f ->
  mv_k M * height (heights n) i <= height (heights n') (e i).
Proof. exact arranged_le. Qed.
(** ... and keep their heights when the others are not connected below them *)
Theorem C97_same : forall linprog linprog' M m m' per t t' e,
  net_new m per None = Ok t -> net_new m' per None = Ok t' -> proper M -> all_in_plane m ->
  (per = true -> boxes M m m') ->
  forall thr thr' st st' n n', solved linprog m t -> solved linprog' m' t' ->
  stack_new linprog m t thr = Ok (st, n) -> stack_new linprog' m' t' thr' = Ok (st', n') ->
  arranged M per Qeq t e m m' -> grounded t' e m m' -> forall i f, has_fiber m i f ->
  height (heights n') (e i) == mv_k M * height (heights n) i.
Proof. exact arranged_eq. Qed.
(** the lid starts at the same height when the fibers are renumbered without changing the order of connected ones *)
Theorem C97_reorder : forall linprog linprog' M m m' per t t' e,
  net_new m per None = Ok t -> net_new m' per None = Ok t' -> proper M -> all_in_plane m ->
  (per = true -> boxes M m m') ->
  forall thr thr' st st' n n', solved linprog m t -> solved linprog' m' t' ->
  stack_new linprog m t thr = Ok (st, n) -> stack_new linprog' m' t' thr' = Ok (st', n') -> all_in_plane m' ->
  forall g g' cs cs', mesh_new st = Ok g -> mesh_new st' = Ok g' -> constraint n g = Ok cs -> constraint n' g' = Ok cs' ->
  arranged M per Qeq t e m m' -> all_found e m m' -> csZ cs' == mv_k M * csZ cs.
Proof. exact arranged_lid_eq. Qed.

Print Assumptions C97_piles.
Print Assumptions C97_floor.
Print Assumptions C97_lid.
Print Assumptions C97_above.
Print Assumptions C97_same.
Print Assumptions C97_reorder.

(** cases: the fibers 0 and 1 of [ex_mats], which are not connected, exchanged; a fiber apart put in between *)
Definition ex_fib (i : nat) : qfiber := nth i (q_rows (ex_mats 2)) fiber0.
Definition ex_swapped : qmat := mkQmat [ex_fib 1; ex_fib 0; ex_fib 2] 10.
Definition ex_apart : qmat := mkQmat [ex_fib 1; ex_q 1 0 0 0 1 0; ex_fib 0; ex_fib 2] 10.
Definition ex_e (i : Z) : Z := if (i =? 0)%Z then 1%Z else if (i =? 1)%Z then 0%Z else 2%Z.
Definition ex_e' (i : Z) : Z := if (i =? 0)%Z then 2%Z else if (i =? 1)%Z then 0%Z else 3%Z.
Lemma ex_all_stacked m : net_new m true None = Ok (ex_net m true) ->
  match stack_constraint m (ex_net m true) with Ok p => ex_greedy p = sweep m (ex_net m true) | Exn _ => True end ->
  solved ex_greedy m (ex_net m true).
Proof. intros H E. destruct (C17_networks_by_A _ _ _ _ H) as (_ & Hok & _ & Hf & Hb). apply greedy_solved; auto. Qed.
Example ex_swapped_ok : net_new ex_swapped true None = Ok (ex_net ex_swapped true) /\ solved ex_greedy ex_swapped (ex_net ex_swapped true) /\
  stack_new ex_greedy ex_swapped (ex_net ex_swapped true) None = Ok (ex_stacked ex_swapped).
Proof.
  assert (H : net_new ex_swapped true None = Ok (ex_net ex_swapped true)) by (vm_compute; reflexivity).
  split; [exact H|]. split; [|vm_compute; reflexivity]. apply ex_all_stacked; [exact H|vm_compute; reflexivity].
Qed.
Example ex_apart_ok : net_new ex_apart true None = Ok (ex_net ex_apart true) /\ solved ex_greedy ex_apart (ex_net ex_apart true) /\
  stack_new ex_greedy ex_apart (ex_net ex_apart true) None = Ok (ex_stacked ex_apart).
Proof.
  assert (H : net_new ex_apart true None = Ok (ex_net ex_apart true)) by (vm_compute; reflexivity).
  split; [exact H|]. split; [|vm_compute; reflexivity]. apply ex_all_stacked; [exact H|vm_compute; reflexivity].
Qed.
Definition ex_joins (t : net_df) (i j : Z) : bool := existsb (fun r => Z.eqb (cA (snd r)) i && Z.eqb (cB (snd r)) j || Z.eqb (cA (snd r)) j && Z.eqb (cB (snd r)) i) (n_rows t).
Lemma ex_unlinked t i j : ex_joins t i j = false -> ~ linked t i j.
Proof.
  intros E (s & s' & k & c & Hr & H). unfold is_row in Hr. apply nth_error_In in Hr.
  assert (X : ex_joins t i j = true); [|congruence]. apply existsb_exists. eexists. split; [exact Hr|]. cbn [snd].
  destruct H as [(-> & -> & _)|(-> & -> & _)]; rewrite !Z.eqb_refl; [reflexivity|]. apply orb_true_r.
Qed.
Lemma ex_unconnected t i j : ex_joins t i j = false -> ~ connected t i j.
Proof.
  intros E (L & k & c & Hr & E1 & E2). apply (ex_unlinked t i j E). exists (csA c), (csB c), k, c. split; [exact Hr|]. left. repeat split; auto; reflexivity.
Qed.
Lemma ex_nolink : ex_joins (ex_t None) 0 1 = false /\ ex_joins (ex_net ex_apart true) 1 2 = false /\ ex_joins (ex_net ex_apart true) 1 3 = false.
Proof. split; [|split]; vm_compute; reflexivity. Qed.
Lemma ex_alike f : alike ex_still true 10 1 f f.
Proof.
  exists f. split; [apply ex_follows; reflexivity|]. split; [unfold rises; cbn; ring|]. split; [left; reflexivity|]. split; [reflexivity|].
  split; [exists 0%Z, 0%Z; split; [discriminate|split; ring]|]. repeat split; ring.
Qed.
Example ex_swapped_arranged : arranged ex_still true Qeq (ex_t None) ex_e (ex_mats 2) ex_swapped /\ all_found ex_e (ex_mats 2) ex_swapped.
Proof.
  split; [split; [|split]|].
  - intros i f H. exists f. split; [|split; [exists 1; apply ex_alike|cbn; ring]].
    destruct (ex_fiber_cases i f H) as [(-> & ->)|[(-> & ->)|(-> & ->)]]; split; try discriminate; reflexivity.
  - intros i j f g Hf Hg L K.
    destruct (ex_fiber_cases i f Hf) as [(-> & _)|[(-> & _)|(-> & _)]], (ex_fiber_cases j g Hg) as [(-> & _)|[(-> & _)|(-> & _)]]; try lia; try reflexivity.
    destruct (ex_unlinked _ _ _ (proj1 ex_nolink) K).
  - intros i j f g Hf Hg. destruct (ex_fiber_cases i f Hf) as [(-> & _)|[(-> & _)|(-> & _)]], (ex_fiber_cases j g Hg) as [(-> & _)|[(-> & _)|(-> & _)]]; cbn; lia.
  - intros j g [L E]. assert (B : (Z.to_nat j < 3)%nat) by (apply (nth_error_Some (q_rows ex_swapped)); congruence).
    assert (J : (j = 0 \/ j = 1 \/ j = 2)%Z) by lia.
    destruct J as [->|[->| ->]]; [exists 1%Z|exists 0%Z|exists 2%Z]; eexists; (split; [split; [discriminate|reflexivity]|reflexivity]).
Qed.
Example ex_apart_arranged : arranged ex_still true Qeq (ex_t None) ex_e' (ex_mats 2) ex_apart /\ grounded (ex_net ex_apart true) ex_e' (ex_mats 2) ex_apart.
Proof.
  split; [split; [|split]|].
  - intros i f H. exists f. split; [|split; [exists 1; apply ex_alike|cbn; ring]].
    destruct (ex_fiber_cases i f H) as [(-> & ->)|[(-> & ->)|(-> & ->)]]; split; try discriminate; reflexivity.
  - intros i j f g Hf Hg L K.
    destruct (ex_fiber_cases i f Hf) as [(-> & _)|[(-> & _)|(-> & _)]], (ex_fiber_cases j g Hg) as [(-> & _)|[(-> & _)|(-> & _)]]; try lia; try reflexivity.
    destruct (ex_unlinked _ _ _ (proj1 ex_nolink) K).
  - intros i j f g Hf Hg. destruct (ex_fiber_cases i f Hf) as [(-> & _)|[(-> & _)|(-> & _)]], (ex_fiber_cases j g Hg) as [(-> & _)|[(-> & _)|(-> & _)]]; cbn; lia.
  - intros i j f g Hf [L E] C. assert (B : (Z.to_nat j < 4)%nat) by (apply (nth_error_Some (q_rows ex_apart)); congruence).
    assert (J : (j = 0 \/ j = 1 \/ j = 2 \/ j = 3)%Z) by lia.
    destruct J as [->|[->|[->| ->]]].
    + exists 1%Z. eexists. split; [split; [discriminate|reflexivity]|reflexivity].
    + exfalso. destruct (ex_fiber_cases i f Hf) as [(-> & _)|[(-> & _)|(-> & _)]]; cbn [ex_e' Z.eqb] in C.
      * destruct (ex_unconnected _ _ _ (proj1 (proj2 ex_nolink)) C).
      * destruct C as [C _]. vm_compute in C. discriminate C.
      * destruct (ex_unconnected _ _ _ (proj2 (proj2 ex_nolink)) C).
    + exists 0%Z. eexists. split; [split; [discriminate|reflexivity]|reflexivity].
    + exists 2%Z. eexists. split; [split; [discriminate|reflexivity]|reflexivity].
Qed.
Example ex_swapped_boxes : boxes ex_still (ex_mats 2) ex_swapped /\ boxes ex_still (ex_mats 2) ex_apart /\ all_in_plane ex_swapped.
Proof.
  assert (Q1 : quarter ex_still) by (exists 1%Z, 0%Z; repeat split).
  split; [|split]; [| |intros f H; simpl in H; intuition subst; reflexivity];
    (split; [exact Q1|]); (split; [reflexivity|]); split; intros f H; simpl in H; intuition subst; vm_compute; discriminate.
Qed.
Example ex_heights_swapped : map Qred (heights (snd (ex_stacked ex_swapped))) = [1 # 2; 1 # 2; 3 # 2]
  /\ map Qred (heights (snd (ex_stacked ex_apart))) = [1 # 2; 1 # 2; 1 # 2; 3 # 2].
Proof. split; vm_compute; reflexivity. Qed.
(** the fiber 2 lies on a pile of two fibers *)
Example ex_pile : pile (ex_mats 2) (ex_t None) 2 2.
Proof.
  change 2 with (1 + qh (ex_fib 2)). apply (pile_more _ _ 0%Z); [change 1 with (qh (ex_fib 0)); constructor; split; [discriminate|reflexivity]| |split; [discriminate|reflexivity]].
  split; [reflexivity|]. exists 1%nat. eexists. split; [vm_compute; reflexivity|]. split; reflexivity.
Qed.
Example ex_lids : exists g g' cs cs', mesh_new (fst (ex_st None None)) = Ok g /\ mesh_new (fst (ex_stacked ex_swapped)) = Ok g' /\
  constraint (snd (ex_st None None)) g = Ok cs /\ constraint (snd (ex_stacked ex_swapped)) g' = Ok cs' /\ csZ cs == 2 /\ csZ cs' == 2.
Proof. do 4 eexists. repeat (split; [vm_compute; reflexivity|]). split; vm_compute; reflexivity. Qed.
