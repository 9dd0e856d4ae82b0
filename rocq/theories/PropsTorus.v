(** Property theorems about images and orientation of fibers (C98). *)
From Coq Require Import String.
From Verif Require Import Num NumP ListX Frames MatM NetM StackM MeshM ModelM Spec SpecNet SpecStack SpecMesh SpecModel SpecMeta SpecTorus SpecPiles
  CheckP NetP NetGeoP NetZP StackP StackNewP MetaP TorusP PilesP PropsNet PropsStack PropsMeta PropsPiles.
Open Scope Q_scope.

(** ** C98: images and orientation of the fibers do not matter *)
Theorem C98_linked : forall M m m' per r r' f g f' g', proper M -> alike_pair M per (q_size m') r r' f g f' g' ->
  (per = true -> quarter M /\ q_size m' == mv_k M * q_size m) ->
  forall t t' i j i' j', net_new m per None = Ok t -> net_new m' per None = Ok t' ->
  i <> j -> i' <> j' -> has_fiber m i f -> has_fiber m j g -> has_fiber m' i' f' -> has_fiber m' j' g' ->
  (per = true -> lengths_le m (q_size m) /\ lengths_le m' (q_size m')) ->
  (linked t i j <-> linked t' i' j').
Proof. exact alike_linked. Qed.
Theorem C98_joined : forall M m m' per r r' f g f' g', proper M -> alike_pair M per (q_size m') r r' f g f' g' ->
  (per = true -> quarter M /\ q_size m' == mv_k M * q_size m) ->
  forall t t' i j i' j', net_new m per None = Ok t -> net_new m' per None = Ok t' ->
  i <> j -> i' <> j' -> has_fiber m i f -> has_fiber m j g -> has_fiber m' i' f' -> has_fiber m' j' g' ->
  forall s s', (per = true -> all_in_plane m /\ all_at_most_unit m /\ (forall f, In f (q_rows m) -> 2 * ql f <= q_size m) /\
    all_in_plane m' /\ all_at_most_unit m' /\ (forall f, In f (q_rows m') -> 2 * ql f <= q_size m')) ->
  (joined t i j s s' <-> joined t' i' j' (r * (mv_k M * s)) (r' * (mv_k M * s'))).
Proof. exact alike_joined. Qed.

(** cases: the fibers of [ex_mats] moved by (1, 1.5), those that leave the box come back on the other side, the
    fiber 0 described from its other end *)
Definition ex_slide : motion := mkMotion 1 1 0 1 1.5 0 false.
Definition ex_wrapped : qmat := mkQmat [ex_q 4 (-4.5) (-4.5) (-3) (-1) 0; ex_q 5 (-3.5) (-2.5) 0 0.6 0.8; ex_q 3 (-4.5) (-4.5) 2 0 1] 10.
Definition ex_sign (i : Z) : Q := if (i =? 0)%Z then - (1) else 1.
Example ex_wrapped_ok : net_new ex_wrapped true None = Ok (ex_net ex_wrapped true) /\ solved ex_greedy ex_wrapped (ex_net ex_wrapped true) /\
  stack_new ex_greedy ex_wrapped (ex_net ex_wrapped true) None = Ok (ex_stacked ex_wrapped).
Proof.
  assert (H : net_new ex_wrapped true None = Ok (ex_net ex_wrapped true)) by (vm_compute; reflexivity).
  split; [exact H|]. split; [|vm_compute; reflexivity]. apply ex_all_stacked; [exact H|vm_compute; reflexivity].
Qed.
Lemma ex_slide_alike a b r f f' : (r == 1 \/ r == - (1)) -> ql f' == ql f -> qx f' == qx f + 1 + inject_Z a * 10 -> qy f' == qy f + 1.5 + inject_Z b * 10 ->
  qu f' == r * qu f -> qv f' == r * qv f -> qw f' == r * qw f -> alike ex_slide true 10 r f f'.
Proof.
  intros HR L X Y U V W. exists (ex_move ex_slide f). unfold follows, rises, strand, ex_move, mirrored. cbn [ex_slide mv_k mv_c mv_s mv_x mv_y mv_z mv_m ql qx qy qz qu qv qw].
  split; [repeat split; ring|]. split; [ring|]. split; [exact HR|]. split; [rewrite L; ring|]. split.
  - exists a, b. split; [discriminate|]. rewrite X, Y. split; ring.
  - rewrite U, V, W. repeat split; ring.
Qed.
Lemma ex_wrapped_alike i f : has_fiber (ex_mats 2) i f -> exists f', has_fiber ex_wrapped i f' /\ alike ex_slide true 10 (ex_sign i) f f' /\ qh f' = qh f.
Proof.
  intros H. destruct (ex_fiber_cases i f H) as [(-> & ->)|[(-> & ->)|(-> & ->)]]; eexists; (split; [split; [discriminate|reflexivity]|]); (split; [|reflexivity]).
  - apply (ex_slide_alike (-1) (-1)); [right; reflexivity| | | | | |]; reflexivity.
  - apply (ex_slide_alike 0 0); [left; reflexivity| | | | | |]; reflexivity.
  - apply (ex_slide_alike (-1) (-1)); [left; reflexivity| | | | | |]; reflexivity.
Qed.
Example ex_slide_ok : proper ex_slide /\ boxes ex_slide (ex_mats 2) ex_wrapped /\ all_in_plane ex_wrapped /\ all_at_most_unit ex_wrapped /\
  (forall f, In f (q_rows ex_wrapped) -> 2 * ql f <= q_size ex_wrapped).
Proof.
  split; [split; reflexivity|]. split.
  - split; [exists 1%Z, 0%Z; repeat split|]. split; [reflexivity|]. split; intros f H; simpl in H; intuition subst; vm_compute; discriminate.
  - split; [|split]; intros f H; simpl in H; intuition subst; try reflexivity; unfold at_most_unit; vm_compute; discriminate.
Qed.
(** the connections of the fiber 2 with the fiber 1, through the border, and with the fiber 0 *)
Example ex_wrapped_joined : joined (ex_net ex_wrapped true) 1 2 (-5 # 3) (2 # 3) /\
  forall s s', joined (ex_t None) 0 2 s s' -> joined (ex_net ex_wrapped true) 0 2 (- s) s'.
Proof.
  assert (HB : true = true -> quarter ex_slide /\ q_size ex_wrapped == mv_k ex_slide * q_size (ex_mats 2)) by (intros _; split; apply ex_slide_ok).
  assert (HS : true = true -> all_in_plane (ex_mats 2) /\ all_at_most_unit (ex_mats 2) /\ (forall f, In f (q_rows (ex_mats 2)) -> 2 * ql f <= q_size (ex_mats 2)) /\
    all_in_plane ex_wrapped /\ all_at_most_unit ex_wrapped /\ (forall f, In f (q_rows ex_wrapped) -> 2 * ql f <= q_size ex_wrapped)).
  { intros _. split; [exact ex_in_plane|]. split; [exact ex_unit|]. split; [exact ex_short|]. apply ex_slide_ok. }
  assert (G : forall i j f g s s', i <> j -> has_fiber (ex_mats 2) i f -> has_fiber (ex_mats 2) j g -> joined (ex_t None) i j s s' ->
    joined (ex_net ex_wrapped true) i j (ex_sign i * (1 * s)) (ex_sign j * (1 * s'))).
  { intros i j f g s s' N Hf Hg J. destruct (ex_wrapped_alike i f Hf) as (f' & Hf' & Af & _). destruct (ex_wrapped_alike j g Hg) as (g' & Hg' & Ag & _).
    assert (AP : alike_pair ex_slide true (q_size ex_wrapped) (ex_sign i) (ex_sign j) f g f' g').
    { split; [exact Af|]. split; [exact Ag|]. left. split; apply ex_in_plane; eapply nth_error_In; [apply Hf|apply Hg]. }
    exact (proj1 (C98_joined ex_slide (ex_mats 2) ex_wrapped true (ex_sign i) (ex_sign j) f g f' g' (proj1 ex_slide_ok) AP HB
      (ex_t None) (ex_net ex_wrapped true) i j i j ex_t_all (proj1 ex_wrapped_ok) N N Hf Hg Hf' Hg' s s' HS) J). }
  assert (E : forall t i j a b c d, a == c -> b == d -> joined t i j a b -> joined t i j c d).
  { intros t i j a b c d E1 E2 (k & x & Hr & H). exists k, x. split; [exact Hr|]. rewrite E1, E2 in H. exact H. }
  split.
  - refine (E _ _ _ _ _ _ _ _ _ (G 1%Z 2%Z _ _ (-5 # 3) (2 # 3) ltac:(discriminate) (proj1 ex_has_fiber) (proj2 ex_has_fiber) (proj1 ex_turn_joined))); reflexivity.
  - intros s s' J. refine (E _ _ _ _ _ _ _ _ _ (G 0%Z 2%Z (ex_q 4 4.5 4 (-3) 1 0) _ s s' ltac:(discriminate) _ (proj2 ex_has_fiber) J)); cbn; try ring.
    split; [discriminate|reflexivity].
Qed.
(** ... and its stack has the same heights, by C97 *)
Example ex_wrapped_heights : forall i f, has_fiber (ex_mats 2) i f -> height (heights (snd (ex_stacked ex_wrapped))) i == 1 * height (heights (snd (ex_st None None))) i.
Proof.
  assert (K1 : stack_new ex_greedy (ex_mats 2) (ex_t None) None = Ok (fst (ex_st None None), snd (ex_st None None))) by (vm_compute; reflexivity).
  assert (K2 : stack_new ex_greedy ex_wrapped (ex_net ex_wrapped true) None = Ok (fst (ex_stacked ex_wrapped), snd (ex_stacked ex_wrapped)))
    by (rewrite <- surjective_pairing; apply ex_wrapped_ok).
  apply (C97_same ex_greedy ex_greedy ex_slide (ex_mats 2) ex_wrapped true (ex_t None) (ex_net ex_wrapped true) (fun i => i) ex_t_all (proj1 ex_wrapped_ok)
    (proj1 ex_slide_ok) ex_in_plane (fun _ => proj1 (proj2 ex_slide_ok)) None None _ _ _ _ ex_solved (proj1 (proj2 ex_wrapped_ok)) K1 K2).
  - split; [|split; auto]. intros i f H. destruct (ex_wrapped_alike i f H) as (f' & Hf' & A & E). exists f'. split; [exact Hf'|]. split; [eauto|]. rewrite E. cbn. ring.
  - intros i j f g Hf [Hj E] _. assert (B : (Z.to_nat j < 3)%nat) by (apply (nth_error_Some (q_rows ex_wrapped)); congruence).
    assert (J : (j = 0 \/ j = 1 \/ j = 2)%Z) by lia. destruct J as [->|[->| ->]]; [exists 0%Z|exists 1%Z|exists 2%Z]; eexists; (split; [split; [discriminate|reflexivity]|reflexivity]).
Qed.

(** For fibers longer than the box the place of the box matters. *)
Definition ex_far (x x' : Q) : qmat := mkQmat [ex_q 54 x (-4) 0 (12 # 13) (5 # 13); ex_q 0.5 x' (-4) 0 (5 # 13) (-12 # 13)] 10.
Definition ex_west : motion := mkMotion 1 1 0 (-6) 0 0 false.
Theorem C98_long_refuted :
  ~ (forall M m m' r r' f g f' g' t t' i j i' j', proper M -> alike_pair M true (q_size m') r r' f g f' g' -> quarter M -> q_size m' == mv_k M * q_size m ->
     all_in_plane m -> all_in_plane m' -> net_new m true None = Ok t -> net_new m' true None = Ok t' ->
     i <> j -> i' <> j' -> has_fiber m i f -> has_fiber m j g -> has_fiber m' i' f' -> has_fiber m' j' g' ->
     (linked t i j <-> linked t' i' j')).
Proof.
  intros H.
  assert (N1 : net_new (ex_far 4 (-2)) true None = Ok (ex_net (ex_far 4 (-2)) true)) by (vm_compute; reflexivity).
  assert (N2 : net_new (ex_far (-2) 2) true None = Ok (ex_net (ex_far (-2) 2) true)) by (vm_compute; reflexivity).
  assert (P : forall x x', all_in_plane (ex_far x x')) by (intros x x' f Hf; simpl in Hf; intuition subst; reflexivity).
  assert (A : forall a l x x' y u v, x' == x + -6 + inject_Z a * 10 -> alike ex_west true 10 1 (ex_q l x y 0 u v) (ex_q l x' y 0 u v)).
  { intros a l x x' y u v E. exists (ex_move ex_west (ex_q l x y 0 u v)). unfold follows, rises, strand, ex_move, mirrored.
    cbn [ex_west ex_q mv_k mv_c mv_s mv_x mv_y mv_z mv_m ql qx qy qz qu qv qw].
    split; [repeat split; ring|]. split; [ring|]. split; [left; reflexivity|]. split; [ring|]. split; [|repeat split; ring].
    exists a, 0%Z. split; [discriminate|]. rewrite E. split; ring. }
  assert (AP : alike_pair ex_west true 10 1 1 (ex_q 54 4 (-4) 0 (12 # 13) (5 # 13)) (ex_q 0.5 (-2) (-4) 0 (5 # 13) (-12 # 13)) (ex_q 54 (-2) (-4) 0 (12 # 13) (5 # 13)) (ex_q 0.5 2 (-4) 0 (5 # 13) (-12 # 13))).
  { split; [apply (A 0%Z); reflexivity|]. split; [apply (A 1%Z); reflexivity|]. left. split; reflexivity. }
  assert (PR : proper ex_west) by (split; reflexivity). assert (QU : quarter ex_west) by (exists 1%Z, 0%Z; repeat split).
  assert (F : forall x x', has_fiber (ex_far x x') 0 (ex_q 54 x (-4) 0 (12 # 13) (5 # 13)) /\ has_fiber (ex_far x x') 1 (ex_q 0.5 x' (-4) 0 (5 # 13) (-12 # 13)))
    by (intros x x'; split; (split; [discriminate|reflexivity])).
  pose proof (H ex_west (ex_far 4 (-2)) (ex_far (-2) 2) 1 1 _ _ _ _ _ _ 0%Z 1%Z 0%Z 1%Z PR AP QU (Qeq_refl _) (P _ _) (P _ _) N1 N2
    ltac:(discriminate) ltac:(discriminate) (proj1 (F _ _)) (proj2 (F _ _)) (proj1 (F _ _)) (proj2 (F _ _))) as [_ X].
  assert (L : linked (ex_net (ex_far (-2) 2) true) 0 1).
  { do 2 eexists. exists 1%nat. eexists. split; [vm_compute; reflexivity|]. left. repeat split; reflexivity. }
  apply X in L. revert L. apply ex_unlinked. vm_compute. reflexivity.
Qed.

Print Assumptions C98_linked.
Print Assumptions C98_joined.
Print Assumptions C98_long_refuted.
