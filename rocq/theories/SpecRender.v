(** Notions used in the statements about rendering (C51 - C53, C61). *)
From Verif Require Import Num ListX Frames NetM MeshM Spec SpecNet SpecMesh.
Open Scope Q_scope.

(** [k0] is a nearest neighbour of [x] among [s] *)
Definition nearest (s : list Q) (x : Q) (k0 : nat) : Prop :=
  (k0 < length s)%nat /\ forall k, (k < length s)%nat -> Qabs (nth k0 s 0 - x) <= Qabs (nth k s 0 - x).
(** abscissae of the nodes of a fiber *)
Definition abscissae (g : mesh_df) (fb : Z) : list Q :=
  map (fun r => ns (snd r)) (filter (fun r => Z.eqb (nf (snd r)) fb) (g_rows g)).
(** no two nodes of the fiber coincide *)
Definition distinct_nodes (g : mesh_df) (fb : Z) : Prop :=
  forall i j d e, is_node (g_rows g) i d -> is_node (g_rows g) j e -> nf d = fb -> nf e = fb -> (i < j)%nat -> ns d < ns e.
(** [x] lies between the nodes i and i+1 of the fiber [fb], at the fraction [t] of the interval *)
Definition lies_between (g : mesh_df) (fb : Z) (x : Q) (i : nat) (d e : node) (t : Q) : Prop :=
  is_node (g_rows g) i d /\ is_node (g_rows g) (S i) e /\ nf d = fb /\ nf e = fb /\ ns d < x /\ x <= ns e /\
  x == ns d + t * (ns e - ns d) /\ 0 < t /\ t <= 1.
(** Hermite basis: the cubic with values y0, y1 and slopes d0, d1 at 0 and 1 *)
Definition hermite_basis (y0 y1 d0 d1 t : Q) : Q :=
  y0 * ((1 + 2 * t) * ((1 - t) * (1 - t))) + d0 * (t * ((1 - t) * (1 - t))) +
  y1 * (t * t * (3 - 2 * t)) + d1 * (t * t * (t - 1)).
(** its derivative *)
Definition hermite_rate (y0 y1 d0 d1 t : Q) : Q :=
  (y1 - y0) * (6 * (t * (1 - t))) + d0 * ((1 - t) * (1 - 3 * t)) + d1 * (t * (3 * t - 2)).
(** the part of the point's abscissa that is used: vtk_mesh shrinks it to stay inside the fiber *)
Definition shrunk (x : Q) : Q := x * (9999 # 10000).
(** the used abscissa is inside the fiber, [k0] is the nearest node found by the tree *)
Definition inside (g : mesh_df) (fb : Z) (x : Q) (k0 : nat) : Prop :=
  (exists i d j e, first_node g fb i d /\ last_node g fb j e /\ ns d < shrunk x /\ shrunk x <= ns e) /\
  nearest (abscissae g fb) (shrunk x) k0.
(** a field given by nodal values *)
Definition nodal (g : mesh_df) (y : list Q) : Prop := length y = length (g_rows g).
