(** Notions used in the statements about the force on the lid during compression (C94). *)
From Verif Require Import Num ListX Frames MatM NetM MeshM ModelM SolverM InterpM ResultM Spec SpecNet SpecMesh SpecModel SpecSolver.
Open Scope Q_scope.

(** force that the [n] contacts put on the lid in a recorded state *)
Definition load (S : sysdata) (n : nat) (s : state) : Q := lid_force (vals (st_f S s)) n.
(** height of the lid *)
Definition height (s : state) : Q := qof (st_Z s).
(** between [b] and [c] the lid meets at least the resistance per travel met between [a] and [b] *)
Definition no_softer (S : sysdata) (n : nat) (a b c : state) : Prop :=
  (load S n b - load S n a) * (height b - height c) <= (load S n c - load S n b) * (height a - height b).
(** the same at a pseudo-time, from the functions that [solve] returns *)
Definition load_at (R : results) (n : nat) (t : Q) : Q := lid_force (vals (call_vec (r_f R) t)) n.
Definition height_at (R : results) (t : Q) : Q := qof (interp_call (r_Z R) t).
