(** Notions used in the statements about the VTK mesh (C76, C77). *)
From Coq Require Import Permutation.
From Verif Require Import Num ListX Frames MatM NetM MeshM VtkM Spec SpecNet SpecMesh SpecRender.
Open Scope Q_scope.

(** ** Third parties *)
(** the cylinder has unit length, its axis is the first coordinate *)
Definition unit_cylinder (cyl : list vec) : Prop := forall c, In c cyl -> - (1 # 2) <= vx c /\ vx c <= 1 # 2.
(** the tree returns a nearest node *)
Definition right_tree (near : list Q -> Q -> nat) : Prop := forall s x, s <> [] -> nearest s x (near s x).

(** ** Arguments *)
(** the nodes of every fiber of the mat reach from one of its ends to the other *)
Definition spans (m : qmat) (g : mesh_df) : Prop :=
  forall fb f, has_fiber m fb f -> exists i d j e, first_node g fb i d /\ last_node g fb j e /\ (i < j)%nat /\ ns d == - (ql f / 2) /\ ns e == ql f / 2.
(** one value per node *)
Definition nodal_arg (g : mesh_df) (y : option (list Q)) : Prop := forall v, y = Some v -> nodal g v.
(** the slopes default to zero *)
Definition slopes_used (y d : option (list Q)) : list Q :=
  match d, y with Some d, _ => d | None, Some y => map (fun _ => 0) y | None, None => [] end.

(** the arguments of [vtk_mesh] fit together *)
Definition render_ready (cyl : list vec) (near : list Q -> Q -> nat) (m : qmat) (g : mesh_df) (disp rot force moment : option (list Q)) : Prop :=
  unit_cylinder cyl /\ right_tree near /\ valid m /\ mesh_ok g /\ spans m g /\
  nodal_arg g disp /\ (disp <> None -> nodal_arg g rot) /\ nodal_arg g force /\ (force <> None -> nodal_arg g moment).

(** ** Points *)
(** the fields that describe the fiber, [c] the point of the unit cylinder *)
Definition describes (f : qfiber) (i : Z) (c : vec) (p : vpoint) : Prop :=
  v_fiber p = i /\ v_lbh p = mkVec (ql f) (qb f) (qh f) /\ v_uvw p = mkVec (qu f) (qv f) (qw f) /\
  v_G p = qG f /\ v_E p = qE f /\ v_xyz p = mkVec (vx c * ql f) (vy c * qb f) (vz c * qh f).
(** second derivative of the Hermite cubic *)
Definition hermite_bend (y0 y1 d0 d1 t : Q) : Q := 6 * (y1 - y0) * (1 - 2 * t) + d0 * (6 * t - 4) + d1 * (6 * t - 2).
(** [shape] applied to the values and slopes of the nodes k and k+1 *)
Definition from_nodes (shape : Q -> Q -> Q -> Q -> Q -> Q) (y d : list Q) (k : nat) (t : Q) : Q :=
  shape (nth k y 0) (nth (S k) y 0) (nth k d 0) (nth (S k) d 0) t.
(** the field holds the given number *)
Definition holds (o : option num) (v : Q) : Prop := exists w, o = Some (Fin w) /\ w == v.
(** displacement, rotation and curvature at the fraction [t] between the nodes k and k+1, and the
    height that results from the height [z0] at rest *)
Definition displaced (disp rot : option (list Q)) (k : nat) (t z0 : Q) (p : vpoint) : Prop :=
  match disp with
  | None => v_disp p = None /\ v_rot p = None /\ v_curv p = None /\ v_z p = Fin z0
  | Some y =>
    let d := slopes_used disp rot in
    holds (v_disp p) (from_nodes hermite_basis y d k t) /\ holds (v_rot p) (from_nodes hermite_rate y d k t) /\
    (t < 1 -> holds (v_curv p) (from_nodes hermite_bend y d k t)) /\
    exists z, v_z p = Fin z /\ z == z0 + from_nodes hermite_basis y d k t
  end.
Definition loaded (force moment : option (list Q)) (k : nat) (t : Q) (p : vpoint) : Prop :=
  match force with
  | None => v_force p = None
  | Some y => holds (v_force p) (from_nodes hermite_basis y (slopes_used force moment) k t)
  end.

(** ** Periodic pictures *)
(** the same mesh with the other boundary condition *)
Definition set_periodic (b : bool) (g : mesh_df) : mesh_df :=
  mkMeshDf (g_cols g) (g_rows g) (mkAttrs (at_n (g_attrs g)) (at_size (g_attrs g)) (Some b) (at_skip (g_attrs g)))
    (g_intf g) (g_intl g) (g_h g).
(** the point moved by [a] and [b] periods *)
Definition period_image (size : Q) (a b : Z) (p : vpoint) : vpoint :=
  mkVp (v_x p + inject_Z a * size) (v_y p + inject_Z b * size) (v_z p) (v_fiber p) (v_lbh p) (v_xyz p) (v_uvw p) (v_G p) (v_E p)
       (v_node p) (v_disp p) (v_rot p) (v_curv p) (v_force p).
(** -K, ..., K *)
Definition around (K : nat) : list Z := map (fun k => (Z.of_nat k - Z.of_nat K)%Z) (seq 0 (2 * K + 1)).
(** all the images of the points up to K periods away in both directions *)
Definition tiling (size : Q) (K : nat) (base : list vpoint) : list vpoint :=
  flat_map (fun p => flat_map (fun a => map (fun b => period_image size a b p) (around K)) (around K)) base.
(** inside the square of two periods that is shown *)
Definition in_window (size : Q) (p : vpoint) : bool :=
  Qleb (- size) (v_x p) && Qleb (v_x p) size && Qleb (- size) (v_y p) && Qleb (v_y p) size.
(** equal points, with equal fields *)
Definition same_point (p q : vpoint) : Prop :=
  v_x p == v_x q /\ v_y p == v_y q /\ v_z p = v_z q /\ v_fiber p = v_fiber q /\ v_lbh p = v_lbh q /\ v_xyz p = v_xyz q /\
  v_uvw p = v_uvw q /\ v_G p = v_G q /\ v_E p = v_E q /\ v_node p = v_node q /\ v_disp p = v_disp q /\ v_rot p = v_rot q /\
  v_curv p = v_curv q /\ v_force p = v_force q.
(** [pts] are the images in the window, each once *)
Definition shows_tiling (size : Q) (K : nat) (base pts : list vpoint) : Prop :=
  exists l, Permutation l (filter (in_window size) (tiling size K base)) /\ Forall2 same_point pts l.
(** less than a period from the centre of the box, at a finite height *)
Definition within_period (size : Q) (p : vpoint) : Prop :=
  - size < v_x p /\ v_x p < size /\ - size < v_y p /\ v_y p < size /\ exists z, v_z p = Fin z.
(** not on the axes *)
Definition off_axes (p : vpoint) : Prop := ~ v_x p == 0 /\ ~ v_y p == 0.
(** the fibers reach less than half a period from their centres *)
Definition short_reach (m : qmat) (cyl : list vec) (place : qfiber -> vec -> vec) : Prop :=
  forall f c, In f (q_rows m) -> In c cyl ->
    Qabs (vx (place f c) - qx f) < q_size m / 2 /\ Qabs (vy (place f c) - qy f) < q_size m / 2.
