(** Property theorems: comparison of thresholds (C111). *)
From Coq Require Import Lia Lqa.
From Verif Require Import Num NumP ListX Frames MatM NetM StackM MeshM ModelM Spec SpecNet SpecStack SpecThreshold ThresholdP PropsNet PropsStack PropsModel.
Open Scope Q_scope.

(** ** C111 *)
(** a larger threshold keeps all that a smaller one keeps, in the same order; what it adds is farther apart; the heights are the same *)
Theorem C111_nested : forall linprog m t d d' st st' m1 m2, d <= d' -> stack_new linprog m t (Some d) = Ok (st, m1) -> stack_new linprog m t (Some d') = Ok (st', m2) ->
  m1 = m2 /\ kept_of d st st'.
Proof. exact nested. Qed.
(** a threshold that is not less than the height of any fiber in the stack removes nothing *)
Theorem C111_large : forall linprog m per t, net_new m per None = Ok t -> solved linprog m t -> all_in_plane m ->
  forall d full st m1 m2, stack_new linprog m t None = Ok (full, m1) -> stack_new linprog m t (Some d) = Ok (st, m2) ->
  (forall f, In f (q_rows m1) -> qz f <= d) -> m1 = m2 /\ same_rows st full.
Proof. exact large. Qed.
(** a threshold that is less than the thickness of every fiber keeps the ends only *)
Theorem C111_small : forall linprog m per t, net_new m per None = Ok t -> solved linprog m t -> all_in_plane m ->
  forall d st m', stack_new linprog m t (Some d) = Ok (st, m') -> (forall f, In f (q_rows m) -> d < qh f) -> forall k c, is_row st k c -> cA c = cB c.
Proof. exact small. Qed.
(** a threshold that is not less than the thickness of any fiber keeps, for every fiber that is not on the floor, a fiber that carries it *)
Theorem C111_supports : forall linprog m per t, net_new m per None = Ok t -> solved linprog m t -> all_in_plane m ->
  forall d st m', stack_new linprog m t (Some d) = Ok (st, m') -> (forall f, In f (q_rows m) -> qh f <= d) -> supported m st (heights m').
Proof. exact supports. Qed.
(** the mesh made with the smaller threshold is in the one made with the larger *)
Theorem C111_mesh : forall linprog m per pairs t d d' st st' m1 m2 g g', net_new m per pairs = Ok t -> d <= d' ->
  stack_new linprog m t (Some d) = Ok (st, m1) -> stack_new linprog m t (Some d') = Ok (st', m2) ->
  mesh_new st = Ok g -> mesh_new st' = Ok g' -> nodes_of g g'.
Proof. exact mesh_nested. Qed.
(** the lid starts at the same height, with a threshold or without *)
Theorem C111_lid : forall linprog m per t thr thr' st st' m1 m2 g g' cs cs', net_new m per None = Ok t -> solved linprog m t -> all_in_plane m ->
  stack_new linprog m t thr = Ok (st, m1) -> stack_new linprog m t thr' = Ok (st', m2) -> mesh_new st = Ok g -> mesh_new st' = Ok g' ->
  constraint m1 g = Ok cs -> constraint m2 g' = Ok cs' -> csZ cs == csZ cs'.
Proof. exact same_lid. Qed.
Print Assumptions C111_mesh.
Print Assumptions C111_lid.
Print Assumptions C111_nested.
Print Assumptions C111_large.
Print Assumptions C111_small.
Print Assumptions C111_supports.

(** ** cases: the three fibers of [ex_mats], of thickness 1, with their centres at 1/2, 1/2 and 3/2 *)
Definition ex_within (d : Q) : net_df * qmat := ex_st None (Some d).
Example ex_within_ok : forall d, d = (1 # 2) \/ d = 1 \/ d = (3 # 2) -> stack_new ex_greedy (ex_mats 2) (ex_t None) (Some d) = Ok (fst (ex_within d), snd (ex_within d)).
Proof. intros d [-> | [-> | ->]]; vm_compute; reflexivity. Qed.
Example ex_thick : forall f, In f (q_rows (ex_mats 2)) -> qh f == 1.
Proof. intros f Hf. simpl in Hf. intuition subst; reflexivity. Qed.
Example ex_thin_kept : forall k c, is_row (fst (ex_within (1 # 2))) k c -> cA c = cB c.
Proof.
  apply (C111_small ex_greedy (ex_mats 2) true (ex_t None) ex_t_all ex_solved ex_in_plane (1 # 2) _ _ (ex_within_ok _ (or_introl eq_refl))).
  intros f Hf. rewrite (ex_thick f Hf). reflexivity.
Qed.
Example ex_one_supports : supported (ex_mats 2) (fst (ex_within 1)) (heights (snd (ex_within 1))).
Proof.
  apply (C111_supports ex_greedy (ex_mats 2) true (ex_t None) ex_t_all ex_solved ex_in_plane 1 _ _ (ex_within_ok _ (or_intror (or_introl eq_refl)))).
  intros f Hf. rewrite (ex_thick f Hf). lra.
Qed.
Example ex_more_kept : kept_of (1 # 2) (fst (ex_within (1 # 2))) (fst (ex_within 1)) /\ n_rows (fst (ex_within (1 # 2))) <> n_rows (fst (ex_within 1)).
Proof.
  split; [|vm_compute; discriminate].
  apply (C111_nested ex_greedy (ex_mats 2) (ex_t None) (1 # 2) 1 _ _ _ _ ltac:(lra) (ex_within_ok _ (or_introl eq_refl)) (ex_within_ok _ (or_intror (or_introl eq_refl)))).
Qed.
Example ex_all_kept : same_rows (fst (ex_within (3 # 2))) (fst (ex_st None None)).
Proof.
  apply (C111_large ex_greedy (ex_mats 2) true (ex_t None) ex_t_all ex_solved ex_in_plane (3 # 2) _ _ (snd (ex_st None None)) (snd (ex_within (3 # 2)))).
  - vm_compute. reflexivity.
  - apply ex_within_ok. right. right. reflexivity.
  - intros f Hf. vm_compute in Hf. repeat (destruct Hf as [<-|Hf]; [vm_compute; discriminate|]). destruct Hf.
Qed.

Definition ex_meshed (d : Q) : mesh_df := match mesh_new (fst (ex_within d)) with Ok g => g | Exn _ => mkMeshDf [] [] (mkAttrs None None None None) true true None end.
Example ex_meshed_in : nodes_of (ex_meshed (1 # 2)) (ex_meshed 1) /\ length (g_rows (ex_meshed (1 # 2))) = 6%nat /\ length (g_rows (ex_meshed 1)) = 10%nat.
Proof.
  split; [|split; vm_compute; reflexivity].
  assert (G : mesh_new (fst (ex_within (1 # 2))) = Ok (ex_meshed (1 # 2))) by (vm_compute; reflexivity).
  assert (G' : mesh_new (fst (ex_within 1)) = Ok (ex_meshed 1)) by (vm_compute; reflexivity).
  exact (C111_mesh ex_greedy (ex_mats 2) true None (ex_t None) (1 # 2) 1 _ _ _ _ _ _ ex_t_all ltac:(lra) (ex_within_ok _ (or_introl eq_refl)) (ex_within_ok _ (or_intror (or_introl eq_refl))) G G').
Qed.
Example ex_same_lid : csZ (ex_cs (snd (ex_within (1 # 2))) (ex_meshed (1 # 2))) == csZ (ex_cs ex_stm ex_stg).
Proof.
  assert (G : mesh_new (fst (ex_within (1 # 2))) = Ok (ex_meshed (1 # 2))) by (vm_compute; reflexivity).
  assert (F : stack_new ex_greedy (ex_mats 2) (ex_t None) None = Ok (fst (ex_st None None), ex_stm)) by (vm_compute; reflexivity).
  assert (K : constraint (snd (ex_within (1 # 2))) (ex_meshed (1 # 2)) = Ok (ex_cs (snd (ex_within (1 # 2))) (ex_meshed (1 # 2)))) by (vm_compute; reflexivity).
  exact (C111_lid ex_greedy (ex_mats 2) true (ex_t None) _ _ _ _ _ _ _ _ _ _ ex_t_all ex_solved ex_in_plane (ex_within_ok _ (or_introl eq_refl)) F G (proj1 ex_cs_stacked) K ex_cs_ok).
Qed.

(** with a smaller threshold, the fibers of the stack may seem to be carried by none *)
Theorem C111_supports_refuted : ~ (forall linprog m per t, net_new m per None = Ok t -> solved linprog m t -> all_in_plane m ->
  forall d st m', 0 <= d -> stack_new linprog m t (Some d) = Ok (st, m') -> supported m st (heights m')).
Proof.
  intros H. pose proof (H ex_greedy (ex_mats 2) true (ex_t None) ex_t_all ex_solved ex_in_plane (1 # 2) _ _ ltac:(lra) (ex_within_ok _ (or_introl eq_refl))) as S.
  destruct (S 2%Z (ex_q 3 4.5 4 2 0 1)) as [E|(A & g & (L & k & c & Hr & EA & EB) & _)].
  - split; [lia|reflexivity].
  - vm_compute in E. discriminate E.
  - pose proof (ex_thin_kept k c Hr). lia.
Qed.
Print Assumptions C111_supports_refuted.
