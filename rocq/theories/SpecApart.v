(** Notions used in the statements about fibers that touch none of the others (C108). *)
From Verif Require Import Num ListX Frames MatM NetM StackM MeshM ModelM Spec SpecNet SpecStack SpecModel SpecMeta SpecTorus SpecPiles SpecScale SpecProgress SpecOrder.
Open Scope Q_scope.

(** the label [j] of the larger mat is the one of a fiber of [m] *)
Definition member (e : Z -> Z) (m : qmat) (j : Z) : Prop := exists i f, has_fiber m i f /\ j = e i.
(** the mat [m'] contains the fibers of [m], the fiber [i] as the fiber [e i], each one possibly replaced by its image in a periodic box;
    two fibers that are connected keep their order, and no other fiber of [m'] is connected to one of them.
    In a periodic box directions are at most unit vectors and the fibers are at most half as long as the box *)
Definition set_apart (e : Z -> Z) (per : bool) (t t' : net_df) (m m' : qmat) : Prop :=
  q_size m' == q_size m /\
  (forall i f, has_fiber m i f -> exists f', has_fiber m' (e i) f' /\ strand per (q_size m') 1 f f' /\ fiber_seen no_units f f') /\
  (forall i j, e i = e j -> i = j) /\ (forall i j, connected t i j -> (e i < e j)%Z) /\
  (forall i j, connected t' i j -> member e m i <-> member e m j) /\
  (per = true -> all_at_most_unit m' /\ forall f, In f (q_rows m') -> 2 * ql f <= q_size m').
(** the nodes of the part are those of its fibers, at the same places *)
Definition part_nodes (rho : nat -> nat) (e : Z -> Z) (m : qmat) (g g' : mesh_df) : Prop :=
  (forall i d d', is_node (g_rows g) i d -> is_node (g_rows g') (rho i) d' -> nf d' = e (nf d) /\ ns d' == ns d) /\
  (forall i' d', is_node (g_rows g') i' d' -> member e m (nf d') <-> exists i, (i < length (g_rows g))%nat /\ i' = rho i).
