(** Notions used in the statements about the compression of a mat moved in its plane (C100). *)
From Verif Require Import Num Frames MatM NetM StackM SolverM InterpM ResultM Spec SpecNet SpecStack SpecMeta SpecTorus SpecModel SpecSolver SpecScale.
Open Scope Q_scope.

(** the fiber [f'] is [f] moved, up to whole periods, with its section and its moduli in the same proportions *)
Definition carried_fiber (M : motion) (U : units) (per : bool) (size : Q) (f f' : qfiber) : Prop :=
  alike M per size 1 f f' /\ fiber_seen U f f'.
(** the mat [m'] is [m] turned, moved and put to the scale [un_len U], fiber by fiber; in a periodic box the turn
    is by quarters, directions are at most unit vectors and the fibers are at most half as long as the box *)
Definition carried (M : motion) (U : units) (per : bool) (m m' : qmat) : Prop :=
  proper M /\ mv_k M == un_len U /\ Forall2 (carried_fiber M U per (q_size m')) (q_rows m) (q_rows m') /\
  (per = true -> quarter M /\ q_size m' == mv_k M * q_size m /\ all_at_most_unit m /\
    forall f, In f (q_rows m) -> 2 * ql f <= q_size m).
(** two rows of networks with the same fibers, at proportional abscissae and heights *)
Definition row_seen (U : units) (c c' : conn) : Prop :=
  cA c' = cA c /\ cB c' = cB c /\ csA c' == un_len U * csA c /\ csB c' == un_len U * csB c /\
  czA c' == un_len U * czA c /\ czB c' == un_len U * czB c.
(** the functions returned by [solve], in both units, at every parameter *)
Definition results_in (U : units) (R R' : results) : Prop :=
  forall t,
  (forall i, times (un_len U) (nth (2 * i) (call_vec (r_u R) t) NaN) (nth (2 * i) (call_vec (r_u R') t) NaN)) /\
  (forall i, times 1 (nth (2 * i + 1) (call_vec (r_u R) t) NaN) (nth (2 * i + 1) (call_vec (r_u R') t) NaN)) /\
  Forall2 (times (un_mod U * un_len U * un_len U)) (call_vec (r_f R) t) (call_vec (r_f R') t) /\
  Forall2 (times (un_len U)) (call_vec (r_H R) t) (call_vec (r_H R') t) /\
  times (un_len U) (interp_call (r_Z R) t) (interp_call (r_Z R') t) /\
  times 1 (interp_call (r_rl R) t) (interp_call (r_rl R') t) /\ call_vec (r_mask R') t = call_vec (r_mask R) t.
