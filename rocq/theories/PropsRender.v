(** Property theorems for rendering (C51 - C53, C61, C69). *)
From Verif Require Import Num NumP ListX Frames MatM NetM StackM MeshM RenderM Spec SpecNet SpecStack SpecMesh SpecRender
  CheckP NetP StackNewP MeshP RenderP PropsNet PropsStack PropsMesh PropsModel.
Open Scope Q_scope.

(** ** C51: points are located between the right nodes *)
Theorem C51_located : forall g fb x k0, mesh_ok g -> distinct_nodes g fb -> inside g fb x k0 ->
  exists i d e t q, lies_between g fb (shrunk x) i d e t /\
    point_coord g fb x k0 = Ok (Fin q) /\ q == inject_Z (Z.of_nat i) + t.
Proof. exact api_located. Qed.
(** points of the meshes made from a mat are inside: no hypothesis on the position of the nodes *)
Theorem C51_net : forall m per t g fb h x k0, net_new m per None = Ok t -> mesh_init t = Ok g ->
  has_fiber m fb h -> - (ql h / 2) <= x -> x <= ql h / 2 -> nearest (abscissae g fb) (shrunk x) k0 ->
  inside g fb x k0.
Proof. exact net_inside. Qed.
Theorem C51_stack : forall linprog m per t thr st m' g fb h x k0, net_new m per None = Ok t ->
  solved linprog m t -> stack_new linprog m t thr = Ok (st, m') -> mesh_init st = Ok g ->
  has_fiber m fb h -> - (ql h / 2) <= x -> x <= ql h / 2 -> nearest (abscissae g fb) (shrunk x) k0 ->
  inside g fb x k0.
Proof. exact stack_inside. Qed.
(** the tree always has an answer *)
Theorem C51_nearest_exists : forall g fb x, abscissae g fb <> [] -> exists k0, nearest (abscissae g fb) x k0.
Proof. exact (fun g fb x => nearest_exists (abscissae g fb) x). Qed.

(** ** C52: rendered fields interpolate the nodal values *)
Theorem C52_value : forall g fb x k0 y dy, mesh_ok g -> distinct_nodes g fb -> inside g fb x k0 -> nodal g y ->
  exists i d e t v, lies_between g fb (shrunk x) i d e t /\ render_value g y dy fb x k0 = Ok (Fin v) /\
    v == hermite_basis (nth i y 0) (nth (S i) y 0) (nth i dy 0) (nth (S i) dy 0) t.
Proof. exact api_value. Qed.
Theorem C52_node : forall g fb x k0 y dy j f, mesh_ok g -> distinct_nodes g fb -> inside g fb x k0 ->
  nodal g y -> nodal g dy -> is_node (g_rows g) j f -> nf f = fb -> shrunk x == ns f ->
  exists v w, render_value g y dy fb x k0 = Ok (Fin v) /\ render_slope g y dy fb x k0 = Ok (Fin w) /\
    v == nth j y 0 /\ w == nth j dy 0.
Proof. exact api_node. Qed.
(** the rendered rotation is the rate of the displacement per node number *)
Theorem C52_slope : forall g fb x k0 y dy, mesh_ok g -> distinct_nodes g fb -> inside g fb x k0 -> nodal g y ->
  exists i d e t v, lies_between g fb (shrunk x) i d e t /\ render_slope g y dy fb x k0 = Ok (Fin v) /\
    v == hermite_rate (nth i y 0) (nth (S i) y 0) (nth i dy 0) (nth (S i) dy 0) t.
Proof. exact api_slope. Qed.
Theorem C52_between : forall g fb x k0 y lo hi, mesh_ok g -> distinct_nodes g fb -> inside g fb x k0 -> nodal g y ->
  (forall i d, is_node (g_rows g) i d -> nf d = fb -> lo <= nth i y 0 /\ nth i y 0 <= hi) ->
  exists v, render_value g y (no_slope y) fb x k0 = Ok (Fin v) /\ lo <= v /\ v <= hi.
Proof. exact api_between. Qed.

(** ** C53: rigid rotations *)
(** the error of the rendered displacement, [l = ns e - ns d] being the length of the element *)
Theorem C53_error : forall g fb x k0 y dy phi c, mesh_ok g -> distinct_nodes g fb -> inside g fb x k0 -> nodal g y ->
  (forall i d, is_node (g_rows g) i d -> nf d = fb -> nth i y 0 == c + phi * ns d /\ nth i dy 0 == phi) ->
  exists i d e t v, lies_between g fb (shrunk x) i d e t /\ render_value g y dy fb x k0 = Ok (Fin v) /\
    v == c + phi * shrunk x + phi * ((1 - (ns e - ns d)) * (t * (1 - t) * (1 - 2 * t))).
Proof. exact api_rotation. Qed.
Theorem C53_unit : forall g fb x k0 y dy phi c, mesh_ok g -> distinct_nodes g fb -> inside g fb x k0 -> nodal g y ->
  (forall i d, is_node (g_rows g) i d -> nf d = fb -> nth i y 0 == c + phi * ns d /\ nth i dy 0 == phi) ->
  (forall i d e, is_node (g_rows g) i d -> is_node (g_rows g) (S i) e -> nf d = fb -> nf e = fb -> ns e - ns d == 1) ->
  exists v, render_value g y dy fb x k0 = Ok (Fin v) /\ v == c + phi * shrunk x.
Proof. exact api_rotation_unit. Qed.

(** ** C61: constant curvature *)
Theorem C61_value : forall g fb x k0 y dy kappa, mesh_ok g -> distinct_nodes g fb -> inside g fb x k0 -> nodal g y ->
  (forall i d, is_node (g_rows g) i d -> nf d = fb -> nth i y 0 == kappa * (ns d * ns d) / 2 /\ nth i dy 0 == kappa * ns d) ->
  (forall j f, is_node (g_rows g) j f -> nf f = fb -> ~ shrunk x == ns f) ->
  exists i d e t v, lies_between g fb (shrunk x) i d e t /\ render_curvature g y dy fb x k0 = Ok (Fin v) /\
    let l := ns e - ns d in v == kappa * (l * (6 * t - 2) + 3 * (l * l) * (1 - 2 * t) + 6 * ns d * (l - 1) * (1 - 2 * t)).
Proof. exact api_curvature. Qed.
Theorem C61_unit : forall g fb x k0 y dy kappa, mesh_ok g -> distinct_nodes g fb -> inside g fb x k0 -> nodal g y ->
  (forall i d, is_node (g_rows g) i d -> nf d = fb -> nth i y 0 == kappa * (ns d * ns d) / 2 /\ nth i dy 0 == kappa * ns d) ->
  (forall j f, is_node (g_rows g) j f -> nf f = fb -> ~ shrunk x == ns f) ->
  (forall i d e, is_node (g_rows g) i d -> is_node (g_rows g) (S i) e -> nf d = fb -> nf e = fb -> ns e - ns d == 1) ->
  exists v, render_curvature g y dy fb x k0 = Ok (Fin v) /\ v == kappa.
Proof. exact api_curvature_unit. Qed.

(** ** C69: nodes at the same place, fibers without nodes *)
(** [d] is the node the tree found: either the point is located as in C51, or [d] lies before the
    point and coincides with the next node, or it lies behind and coincides with the previous one *)
Theorem C69_cases : forall g fb x k0 i0 d0, mesh_ok g -> inside g fb x k0 -> first_node g fb i0 d0 ->
  exists d, is_node (g_rows g) (i0 + k0) d /\ nf d = fb /\
    ((exists i d e t q, lies_between g fb (shrunk x) i d e t /\ (i = i0 + k0 \/ S i = i0 + k0)%nat /\ point_coord g fb x k0 = Ok (Fin q) /\ q == inject_Z (Z.of_nat i) + t) \/
     (ns d < shrunk x /\ (exists e, is_node (g_rows g) (S (i0 + k0)) e /\ nf e = fb /\ ns e == ns d) /\
       exists q, point_coord g fb x k0 = Ok (Fin q) /\ q == inject_Z (Z.of_nat (i0 + k0))) \/
     (shrunk x <= ns d /\ (exists j e, is_node (g_rows g) j e /\ S j = (i0 + k0)%nat /\ nf e = fb /\ ns e == ns d) /\
       (shrunk x < ns d -> point_coord g fb x k0 = Ok NInf) /\ (shrunk x == ns d -> point_coord g fb x k0 = Ok NaN))).
Proof. exact api_cases. Qed.
(** in the second case the field takes the value of the node *)
Theorem C69_value : forall g fb x k0 i0 d0 d y dy e, mesh_ok g -> inside g fb x k0 -> first_node g fb i0 d0 -> nodal g y ->
  is_node (g_rows g) (i0 + k0) d -> nf d = fb -> ns d < shrunk x -> is_node (g_rows g) (S (i0 + k0)) e -> nf e = fb -> ns e == ns d ->
  exists v, render_value g y dy fb x k0 = Ok (Fin v) /\ v == nth (i0 + k0) y 0.
Proof. exact api_merged_value. Qed.
Theorem C69_unknown : forall g fb x k0, point_coord g fb x k0 = Exn KeyErr <-> forall i d, is_node (g_rows g) i d -> nf d <> fb.
Proof. exact point_unknown. Qed.
Theorem C69_beyond : forall g fb x k0 j e, mesh_ok g -> last_node g fb j e -> ns e < shrunk x -> nearest (abscissae g fb) (shrunk x) k0 ->
  k0 = (length (abscissae g fb) - 1)%nat -> point_coord g fb x k0 = Exn IndexErr.
Proof. exact api_after. Qed.

(** cases: two crossing fibers, three nodes each, elements of length 2 *)
Definition ex_r : mesh_df := ex_mesh 0 4 1 0.
(** a point at a quarter of the second element of fiber 0 *)
Definition ex_x : Q := (1 # 2) / (9999 # 10000).
Lemma ex_r_is i d : is_node (g_rows ex_r) i d ->
  In (i, d) [(0, ex_node 0 (-2) 1 0); (1, ex_node 0 0 2 4); (2, ex_node 0 2 0 2);
             (3, ex_node 1 (-2) 4 3); (4, ex_node 1 1 5 1); (5, ex_node 1 2 3 5)]%nat.
Proof. apply nodes_in. Qed.
Example ex_r_distinct fb : distinct_nodes ex_r fb.
Proof.
  intros i j d e Hi Hj Fi Fj L. apply ex_r_is in Hi. apply ex_r_is in Hj. simpl in Hi, Hj.
  destruct Hi as [[= <- <-]|[[= <- <-]|[[= <- <-]|[[= <- <-]|[[= <- <-]|[[= <- <-]|[]]]]]]];
  destruct Hj as [[= <- <-]|[[= <- <-]|[[= <- <-]|[[= <- <-]|[[= <- <-]|[[= <- <-]|[]]]]]]]; simpl in *;
  try lia; try (subst fb; discriminate Fj); reflexivity.
Qed.
Example ex_r_nearest : nearest (abscissae ex_r 0) (shrunk ex_x) 1.
Proof.
  split; [simpl; lia|]. intros k L. change (abscissae ex_r 0) with [-2; 0; 2] in *. simpl length in L.
  destruct k as [|[|[|k]]]; try lia; discriminate.
Qed.
Example ex_r_inside : inside ex_r 0 ex_x 1.
Proof.
  split; [|exact ex_r_nearest]. exists 0%nat, (ex_node 0 (-2) 1 0), 2%nat, (ex_node 0 2 0 2).
  split; [|split; [|split; [reflexivity|discriminate]]].
  - split; [exists 0%Z; reflexivity|]. split; [reflexivity|]. intros j e L. lia.
  - split; [exists 2%Z; reflexivity|]. split; [reflexivity|]. intros j e L Hj. apply ex_r_is in Hj. simpl in Hj.
    destruct Hj as [[= <- <-]|[[= <- <-]|[[= <- <-]|[[= <- <-]|[[= <- <-]|[[= <- <-]|[]]]]]]]; try lia; discriminate.
Qed.
(** the neighbour on the other side does as well: the coordinate is corrected *)
Example ex_r_coord : exists q, point_coord ex_r 0 ex_x 1 = Ok (Fin q) /\ q == 5 # 4.
Proof. eexists. split; [vm_compute; reflexivity|reflexivity]. Qed.
Example ex_r_coord' : exists q, point_coord ex_r 0 ((3 # 2) / (9999 # 10000)) 2 = Ok (Fin q) /\ q == 7 # 4.
Proof. eexists. split; [vm_compute; reflexivity|reflexivity]. Qed.
Example ex_r_field : exists v, render_value ex_r [0; 1; 5; 0; 0; 0] (no_slope [0; 1; 5; 0; 0; 0]) 0 ex_x 1 = Ok (Fin v) /\ v == 26 # 16.
Proof. eexists. split; [vm_compute; reflexivity|reflexivity]. Qed.

(** elements of length 1 *)
Definition ex_unit : mesh_df :=
  mkMeshDf mesh_cols
    (enum [ex_node 0 (-1) 1 0; ex_node 0 0 2 4; ex_node 0 1 0 2;
           ex_node 1 (-1) 4 3; ex_node 1 0 5 1; ex_node 1 1 3 5])
    (mkAttrs (Some 2%Z) (Some (Fin 50)) (Some true) None) true true None.
Example ex_unit_ok : mesh_ok ex_unit.
Proof.
  assert (E : mesh_check ex_unit = Ok true) by (vm_compute; reflexivity).
  destruct (proj1 (C26_check_accepts _) E) as [H|H]; [discriminate H|exact H].
Qed.
Lemma ex_unit_is i d : is_node (g_rows ex_unit) i d ->
  In (i, d) [(0, ex_node 0 (-1) 1 0); (1, ex_node 0 0 2 4); (2, ex_node 0 1 0 2);
             (3, ex_node 1 (-1) 4 3); (4, ex_node 1 0 5 1); (5, ex_node 1 1 3 5)]%nat.
Proof. apply nodes_in. Qed.
Example ex_unit_lengths : forall i d e, is_node (g_rows ex_unit) i d -> is_node (g_rows ex_unit) (S i) e ->
  nf d = 0%Z -> nf e = 0%Z -> ns e - ns d == 1.
Proof.
  intros i d e Hi Hj Fi Fj. apply ex_unit_is in Hi. apply ex_unit_is in Hj. simpl in Hi, Hj.
  destruct Hi as [[= <- <-]|[[= <- <-]|[[= <- <-]|[[= <- <-]|[[= <- <-]|[[= <- <-]|[]]]]]]];
  destruct Hj as [[= <-]|[[= <-]|[[= <-]|[[= <-]|[[= <-]|[[= <-]|[]]]]]]]; simpl in *; try discriminate; reflexivity.
Qed.
Example ex_unit_curvature : exists v,
  render_curvature ex_unit [3 # 2; 0; 3 # 2; 0; 0; 0] [-3; 0; 3; 0; 0; 0] 0 ex_x 1 = Ok (Fin v) /\ v == 3.
Proof. eexists. split; [vm_compute; reflexivity|reflexivity]. Qed.

(** three fibers through one point, the nodes of fiber 0 are at -2, 0, 0, 2 *)
Example ex_conc_net : net_new ex_conc false None = Ok ex_conct /\ mesh_init ex_conct = Ok (ex_g ex_conct) /\ mesh_new ex_conct = Ok (ex_g ex_conct) /\
  map Qred (abscissae (ex_g ex_conct) 0) = [-2; 0; 0; 2].
Proof. repeat split; vm_compute; reflexivity. Qed.
Example ex_conc_ok : mesh_ok (ex_g ex_conct).
Proof.
  assert (E : mesh_check (ex_g ex_conct) = Ok true) by (vm_compute; reflexivity).
  destruct (proj1 (C26_check_accepts _) E) as [H|H]; [vm_compute in H; discriminate H|exact H].
Qed.
Example ex_conc_inside x k0 : -2 <= x -> x <= 2 -> nearest [-2; 0; 0; 2] (shrunk x) k0 -> inside (ex_g ex_conct) 0 x k0.
Proof.
  intros L H N. destruct ex_conc_net as (E1 & E2 & _ & E3).
  apply (C51_net ex_conc false ex_conct (ex_g ex_conct) 0%Z (mkQ 4 1 1 0 0 (1 # 2) 1 0 0 (Fin 1) (Fin 1)) x k0 E1 E2);
    [split; [lia|reflexivity]|simpl; qlra|simpl; qlra|]. apply nearest_red. rewrite E3. exact N.
Qed.
Lemma ex_conc_nearest x k0 : (k0 < 4)%nat -> forallb (fun k => Qleb (Qabs (nth k0 [-2; 0; 0; 2] 0 - shrunk x)) (Qabs (nth k [-2; 0; 0; 2] 0 - shrunk x))) (seq 0 4) = true ->
  nearest [-2; 0; 0; 2] (shrunk x) k0.
Proof.
  intros L H. split; [exact L|]. intros k Lk. rewrite forallb_forall in H. specialize (H k ltac:(apply in_seq; simpl in Lk; lia)). apply Qleb_le in H. exact H.
Qed.
Example ex_conc_cases : inside (ex_g ex_conct) 0 (1 # 2) 1 /\ inside (ex_g ex_conct) 0 (1 # 2) 2 /\ inside (ex_g ex_conct) 0 (-1 # 2) 2 /\
  match point_coord (ex_g ex_conct) 0 (1 # 2) 1 with Ok (Fin q) => Qeqb q 1 | _ => false end = true /\
  match point_coord (ex_g ex_conct) 0 (1 # 2) 2 with Ok (Fin q) => Qeqb q (2 + (9999 # 40000)) | _ => false end = true /\
  point_coord (ex_g ex_conct) 0 (-1 # 2) 2 = Ok NInf /\ point_coord (ex_g ex_conct) 0 0 2 = Ok NaN /\
  point_coord (ex_g ex_conct) 7 0 0 = Exn KeyErr /\ point_coord (ex_g ex_conct) 0 3 3 = Exn IndexErr.
Proof.
  do 3 (split; [apply ex_conc_inside; [lra|lra|apply ex_conc_nearest; [lia|vm_compute; reflexivity]]|]). repeat (split; [vm_compute; reflexivity|]). vm_compute. reflexivity.
Qed.

(** ** refutations *)
(** three fibers through one point: with two nodes at the same place a point may get no coordinate *)
Theorem C51_coincident_refuted :
  ~ (forall m t g fb h x k0, net_new m false None = Ok t -> mesh_new t = Ok g -> has_fiber m fb h ->
     - (ql h / 2) <= x -> x <= ql h / 2 -> nearest (abscissae g fb) (shrunk x) k0 ->
     exists q, point_coord g fb x k0 = Ok (Fin q)).
Proof.
  intros H.
  assert (E1 : net_new ex_conc false None = Ok ex_conct) by (vm_compute; reflexivity).
  assert (E2 : mesh_new ex_conct = Ok (ex_g ex_conct)) by (vm_compute; reflexivity).
  assert (E3 : map Qred (abscissae (ex_g ex_conct) 0) = [-2; 0; 0; 2]) by (vm_compute; reflexivity).
  assert (N : nearest (abscissae (ex_g ex_conct) 0) (shrunk (-1 # 2)) 2).
  { apply nearest_red. rewrite E3. split; [simpl; lia|]. intros k L. simpl length in L.
    destruct k as [|[|[|[|k]]]]; try lia; discriminate. }
  destruct (H ex_conc ex_conct (ex_g ex_conct) 0%Z (mkQ 4 1 1 0 0 (1 # 2) 1 0 0 (Fin 1) (Fin 1)) (-1 # 2) 2%nat E1 E2) as (q & Eq0);
    [split; [lia|reflexivity]|discriminate|discriminate|exact N|].
  assert (E4 : point_coord (ex_g ex_conct) 0 (-1 # 2) 2 = Ok NInf) by (vm_compute; reflexivity).
  rewrite E4 in Eq0. discriminate Eq0.
Qed.
(** a rigid rotation of elements of length 2 *)
Theorem C53_refuted :
  ~ (forall g fb x k0 y dy phi c, mesh_ok g -> distinct_nodes g fb -> inside g fb x k0 -> nodal g y ->
     (forall i d, is_node (g_rows g) i d -> nf d = fb -> nth i y 0 == c + phi * ns d /\ nth i dy 0 == phi) ->
     exists v, render_value g y dy fb x k0 = Ok (Fin v) /\ v == c + phi * shrunk x).
Proof.
  intros H. destruct (H ex_r 0%Z ex_x 1%nat [-2; 0; 2; 0; 0; 0] [1; 1; 1; 0; 0; 0] 1 0 ex_mesh_accepted_ok (ex_r_distinct 0) ex_r_inside eq_refl) as (v & E & Q).
  - intros i d Hi Fi. apply ex_r_is in Hi. simpl in Hi.
    destruct Hi as [[= <- <-]|[[= <- <-]|[[= <- <-]|[[= <- <-]|[[= <- <-]|[[= <- <-]|[]]]]]]]; try discriminate Fi; split; reflexivity.
  - vm_compute in E. injection E as <-. discriminate Q.
Qed.
(** "curvature" is documented in 1/mm: elements of length 2 bent to the curvature 1 *)
Theorem C61_refuted :
  ~ (forall g fb x k0 y dy kappa, mesh_ok g -> distinct_nodes g fb -> inside g fb x k0 -> nodal g y ->
     (forall i d, is_node (g_rows g) i d -> nf d = fb -> nth i y 0 == kappa * (ns d * ns d) / 2 /\ nth i dy 0 == kappa * ns d) ->
     (forall j f, is_node (g_rows g) j f -> nf f = fb -> ~ shrunk x == ns f) ->
     exists v, render_curvature g y dy fb x k0 = Ok (Fin v) /\ v == kappa).
Proof.
  intros H. destruct (H ex_r 0%Z ex_x 1%nat [2; 0; 2; 0; 0; 0] [-2; 0; 2; 0; 0; 0] 1 ex_mesh_accepted_ok (ex_r_distinct 0) ex_r_inside eq_refl) as (v & E & Q).
  - intros i d Hi Fi. apply ex_r_is in Hi. simpl in Hi.
    destruct Hi as [[= <- <-]|[[= <- <-]|[[= <- <-]|[[= <- <-]|[[= <- <-]|[[= <- <-]|[]]]]]]]; try discriminate Fi; split; reflexivity.
  - intros i d Hi Fi. apply ex_r_is in Hi. simpl in Hi.
    destruct Hi as [[= <- <-]|[[= <- <-]|[[= <- <-]|[[= <- <-]|[[= <- <-]|[[= <- <-]|[]]]]]]]; try discriminate Fi; discriminate.
  - vm_compute in E. injection E as <-. discriminate Q.
Qed.

Print Assumptions C51_located.
Print Assumptions C51_net.
Print Assumptions C51_stack.
Print Assumptions C51_nearest_exists.
Print Assumptions C51_coincident_refuted.
Print Assumptions C52_value.
Print Assumptions C52_node.
Print Assumptions C52_between.
Print Assumptions C53_error.
Print Assumptions C53_unit.
Print Assumptions C53_refuted.
Print Assumptions C61_value.
Print Assumptions C61_unit.
Print Assumptions C61_refuted.
Print Assumptions C52_slope.
Print Assumptions C69_cases.
Print Assumptions C69_value.
Print Assumptions C69_unknown.
Print Assumptions C69_beyond.
