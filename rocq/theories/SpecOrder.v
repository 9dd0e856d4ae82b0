(** Notions used in the statements about the order of the fibers of a mat (C105). *)
From Verif Require Import Num ListX Frames MatM NetM StackM MeshM ModelM SolverM InterpM ResultM Spec SpecNet SpecStack SpecMeta SpecTorus SpecPiles SpecScale SpecProgress.
Open Scope Q_scope.

(** along a fiber, or against it *)
Definition way (b : bool) : Q := if b then - (1) else 1.
(** the mat [m'] lists the fibers of [m] in the order [e], those that [back] selects described from their other end, each one
    possibly replaced by its image in a periodic box; two fibers that are connected keep their order.
    In a periodic box directions are at most unit vectors and the fibers are at most half as long as the box *)
Definition shuffled (e : Z -> Z) (back : Z -> bool) (per : bool) (t : net_df) (m m' : qmat) : Prop :=
  q_size m' == q_size m /\
  (forall i f, has_fiber m i f -> exists f', has_fiber m' (e i) f' /\ strand per (q_size m') (way (back i)) f f' /\ fiber_seen no_units f f') /\
  all_found e m m' /\ (forall i j, e i = e j -> i = j) /\ (forall i j, connected t i j -> (e i < e j)%Z) /\
  (per = true -> all_at_most_unit m /\ forall f, In f (q_rows m) -> 2 * ql f <= q_size m).
(** two nodes of a fiber are at different places *)
Definition no_ties (g : mesh_df) : Prop :=
  forall i j d e, is_node (g_rows g) i d -> is_node (g_rows g) j e -> nf d = nf e -> ns d == ns e -> i = j.
(** the nodes keep their places on the fibers *)
Definition same_places (node : nat -> nat) (back : Z -> bool) (g g' : mesh_df) : Prop :=
  forall i d d', is_node (g_rows g) i d -> is_node (g_rows g') (node i) d' -> ns d' == way (back (nf d)) * ns d.
(** the heights of the lid and the compression ratios given back by [solve] are the same at every parameter *)
Definition same_curves (R R' : results) : Prop :=
  forall t, neqv (interp_call (r_Z R) t) (interp_call (r_Z R') t) /\ neqv (interp_call (r_rl R) t) (interp_call (r_rl R') t).
