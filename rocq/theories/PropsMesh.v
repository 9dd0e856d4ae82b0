(** Property theorems for Mesh (C23 - C28). *)
From Coq Require Import String Permutation.
From Verif Require Import Num NumP ListX Frames MatM NetM StackM MeshM Spec SpecNet SpecStack SpecMesh
  CheckP MeshCheckP NetP StackNewP MeshP PropsNet PropsStack.
Open Scope Q_scope.

(** ** C26: Mesh.check accepts exactly the well-formed meshes *)
Theorem C26_check_accepts : forall g,
  mesh_check g = Ok true <-> flag_set (g_attrs g) \/ mesh_ok g.
Proof. exact mesh_check_ok. Qed.
Theorem C26_check_raises : forall g e,
  mesh_check g = Exn e <-> ~ flag_set (g_attrs g) /\ mesh_fails g e.
Proof. exact mesh_check_raises. Qed.
Theorem C26_check_never_false : forall g b, mesh_check g = Ok b -> b = true.
Proof. exact mesh_check_true. Qed.

(** cases: two crossing fibers, three nodes each *)
Definition ex_node (f : Z) (s : Q) (b c : Z) : node := mkNode f s 0 0 0 b c.
Definition ex_mesh (b2 c1 c4 : Z) (s1 : Q) : mesh_df :=
  mkMeshDf mesh_cols
    (enum [ex_node 0 (-2) 1 0; ex_node 0 s1 2 c1; ex_node 0 2 b2 2;
           ex_node 1 (-2) 4 3; ex_node 1 1 5 c4; ex_node 1 2 3 5])
    (mkAttrs (Some 2%Z) (Some (Fin 50)) (Some true) None) true true None.
Example ex_mesh_accepted : mesh_check (ex_mesh 0 4 1 0) = Ok true.
Proof. vm_compute. reflexivity. Qed.
Example ex_mesh_accepted_ok : mesh_ok (ex_mesh 0 4 1 0).
Proof.
  destruct (proj1 (C26_check_accepts _) ex_mesh_accepted) as [H|H]; [discriminate H | exact H].
Qed.
Example ex_mesh_bad_beam : mesh_check (ex_mesh 3 4 1 0) = Exn ValueErr.
Proof. vm_compute. reflexivity. Qed.
Example ex_mesh_not_reciprocal : mesh_check (ex_mesh 0 4 4 0) = Exn ValueErr.
Proof. vm_compute. reflexivity. Qed.
Example ex_mesh_unordered : mesh_check (ex_mesh 0 4 1 3) = Exn ValueErr.
Proof. vm_compute. reflexivity. Qed.
Example ex_mesh_end_connected : mesh_fails
  (mkMeshDf mesh_cols (enum [ex_node 0 0 0 1; ex_node 1 0 1 0])
    (mkAttrs (Some 2%Z) (Some (Fin 50)) (Some true) None) true true None) ValueErr.
Proof. apply C26_check_raises. vm_compute. reflexivity. Qed.

Print Assumptions C26_check_accepts.
Print Assumptions C26_check_raises.
Print Assumptions C26_check_never_false.

(** ** C23: nodes are the two sides of each connection *)
Theorem C23_nodes : forall t g, mesh_init t = Ok g ->
  length (g_rows g) = (2 * length (n_rows t))%nat /\ exists place, numbers t g place.
Proof.
  exact (fun t g H => conj (init_length t g H) (ex_intro _ _ (proj1 (init_numbers t g H)))).
Qed.

(** ** C24: nodes are ordered and beams follow the fibers *)
Theorem C24_order : forall t g, mesh_init t = Ok g ->
  labelled_in_order (g_rows g) /\ nodes_ordered (g_rows g) /\ beams_ok (g_rows g).
Proof.
  exact (fun t g H => match init_order t g H with
    conj a (conj b (conj c _)) => conj a (conj b c) end).
Qed.
Theorem C24_beams_permute : forall rows, labelled_in_order rows -> beams_ok rows ->
  Permutation (map (fun r => nbeam (snd r)) rows) (map fst rows).
Proof. exact beam_permutes. Qed.

(** ** C25: constraints link the two sides of a connection *)
Theorem C25_constraints : forall t g, mesh_init t = Ok g ->
  (exists place, numbers t g place /\ links t g place) /\ cons_involution (g_rows g).
Proof.
  exact (fun t g H => conj (ex_intro _ _ (init_numbers t g H))
    (proj2 (proj2 (proj2 (init_order t g H))))).
Qed.

(** ** C27: the pipeline never fails *)
Theorem C27_net : forall m per t, net_new m per None = Ok t ->
  exists g, mesh_new t = Ok g /\ mesh_ok g.
Proof. exact net_mesh_total. Qed.
Theorem C27_stack : forall linprog m per t thr st m', net_new m per None = Ok t -> solved linprog m t ->
  stack_new linprog m t thr = Ok (st, m') -> exists g, mesh_new st = Ok g /\ mesh_ok g.
Proof. exact stack_mesh_total. Qed.
(** any network whose inner nodes lie between end nodes gives a mesh *)
Theorem C27_framed : forall t, net_ok t -> framed t -> exists g, mesh_new t = Ok g /\ mesh_ok g.
Proof. exact mesh_total. Qed.
(** [mesh_new] returns the table of [mesh_init]: C23 - C25 and C28 speak about it *)
Theorem C27_new_is_init : forall t g, mesh_new t = Ok g -> mesh_init t = Ok g.
Proof. exact mesh_new_inv. Qed.

(** ** C28: beams tile each fiber *)
Theorem C28_net : forall m per t g f h, net_new m per None = Ok t -> mesh_init t = Ok g ->
  has_fiber m f h ->
  exists i d j e, first_node g f i d /\ last_node g f j e /\ (i < j)%nat /\
    ns d == - (ql h / 2) /\ ns e == ql h / 2 /\ beam_length g f == ql h.
Proof. exact net_tiles. Qed.
Theorem C28_stack : forall linprog m per t thr st m' g f h, net_new m per None = Ok t ->
  solved linprog m t -> stack_new linprog m t thr = Ok (st, m') -> mesh_init st = Ok g ->
  has_fiber m f h ->
  exists i d j e, first_node g f i d /\ last_node g f j e /\ (i < j)%nat /\
    ns d == - (ql h / 2) /\ ns e == ql h / 2 /\ beam_length g f == ql h.
Proof. exact stack_tiles. Qed.
Theorem C28_lengths_nonneg : forall g i d, labelled_in_order (g_rows g) -> nodes_ordered (g_rows g) ->
  beams_ok (g_rows g) -> is_node (g_rows g) i d -> (Z.of_nat i < nbeam d)%Z ->
  ns d <= abscissa g (nbeam d).
Proof. exact beam_nonneg. Qed.

(** cases: the mesh of the periodic network of [ex_mats] *)
Definition ex_brief (r : res mesh_df) : list (Z * Z * Z) :=
  match r with
  | Ok g => map (fun r => (nf (snd r), nbeam (snd r), ncons (snd r))) (g_rows g)
  | Exn _ => [] end.
Definition ex_g (t : net_df) : mesh_df :=
  match mesh_new t with Ok g => g | Exn _ => ex_mesh 0 0 0 0 end.
Example ex_mesh_new : mesh_new (ex_t None) = Ok (ex_g (ex_t None)).
Proof. vm_compute. reflexivity. Qed.
Example ex_mesh_brief : ex_brief (mesh_new (ex_t None)) =
  [(0, 1, 0); (0, 2, 7); (0, 0, 2); (1, 4, 3); (1, 5, 8); (1, 3, 5); (2, 7, 6); (2, 8, 1); (2, 9, 4); (2, 6, 9)]%Z.
Proof. vm_compute. reflexivity. Qed.
Example ex_mesh_abscissae : match mesh_new (ex_t None) with
  | Ok g => map (fun r => Qred (ns (snd r))) (g_rows g) | Exn _ => [] end
  = [-2; 0; 2; -5 # 2; -5 # 3; 5 # 2; -3 # 2; 0; 2 # 3; 3 # 2].
Proof. vm_compute. reflexivity. Qed.
Example ex_beam_length : Qred (beam_length (ex_g (ex_t None)) 1) = 5.
Proof. vm_compute. reflexivity. Qed.
Example ex_mesh_stack : ex_brief (mesh_new (fst (ex_st None (Some (1 # 2)))))
  = [(0, 1, 0); (0, 0, 1); (1, 3, 2); (1, 2, 3); (2, 5, 4); (2, 4, 5)]%Z.
Proof. vm_compute. reflexivity. Qed.

(** A network built with a [pairs] argument that leaves out self pairs is rejected. *)
Theorem C27_pairs_refuted :
  ~ (forall m per pairs t, net_new m per pairs = Ok t -> exists g, mesh_new t = Ok g).
Proof.
  intros H.
  assert (E : net_new (ex_mats 2) true (Some [(0, 2)]%Z) = Ok (ex_t (Some [(0, 2)]%Z))) by (vm_compute; reflexivity).
  destruct (H _ _ _ _ E) as (g & Hg).
  assert (E' : mesh_new (ex_t (Some [(0, 2)]%Z)) = Exn ValueErr) by (vm_compute; reflexivity).
  rewrite E' in Hg. discriminate Hg.
Qed.

Print Assumptions C23_nodes.
Print Assumptions C24_order.
Print Assumptions C24_beams_permute.
Print Assumptions C25_constraints.
Print Assumptions C27_net.
Print Assumptions C27_stack.
Print Assumptions C27_framed.
Print Assumptions C27_new_is_init.
Print Assumptions C27_pairs_refuted.
Print Assumptions C28_net.
Print Assumptions C28_stack.
Print Assumptions C28_lengths_nonneg.
