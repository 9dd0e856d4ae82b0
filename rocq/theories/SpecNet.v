(** Geometric notions used in the statements about networks (C05 - C14). *)
From Verif Require Import Num Frames MatM NetM Spec.
Open Scope Q_scope.

(** a mat with finite geometry that Mat.check accepts *)
Definition valid (m : qmat) : Prop := mat_ok (df_of m).

(** fiber of label [i] *)
Definition has_fiber (m : qmat) (i : Z) (f : qfiber) : Prop :=
  (0 <= i)%Z /\ nth_error (q_rows m) (Z.to_nat i) = Some f.

(** [c] is row number [k] of the network *)
Definition is_row (t : net_df) (k : nat) (c : conn) : Prop :=
  nth_error (n_rows t) k = Some (Z.of_nat k, c).

(** coordinates of the point of abscissa [s] on the axis of a fiber *)
Definition ax (f : qfiber) (s : Q) : Q := qx f + s * qu f.
Definition ay (f : qfiber) (s : Q) : Q := qy f + s * qv f.
Definition az (f : qfiber) (s : Q) : Q := qz f + s * qw f.

(** translations allowed between images: whole periods, none if not periodic *)
Definition allowed (periodic : bool) (a b : Z) : Prop :=
  periodic = false -> a = 0%Z /\ b = 0%Z.

(** squared distance from the point [s] of [f] to the point [t] of [g] moved by
    [a], [b] periods of length [size] *)
Definition dist2 (size : Q) (f g : qfiber) (a b : Z) (s t : Q) : Q :=
  let dx := ax g t + inject_Z a * size - ax f s in
  let dy := ay g t + inject_Z b * size - ay f s in
  let dz := az g t - az f s in
  dx * dx + dy * dy + dz * dz.

(** the fiber lies in a horizontal plane *)
Definition in_plane (f : qfiber) : Prop := qw f == 0.
Definition all_in_plane (m : qmat) : Prop := forall f, In f (q_rows m) -> in_plane f.
(** orientation not longer than 1 (exactly unit vectors qualify) *)
Definition at_most_unit (f : qfiber) : Prop := qu f * qu f + qv f * qv f <= 1.
Definition all_at_most_unit (m : qmat) : Prop := forall f, In f (q_rows m) -> at_most_unit f.

Definition inside (f : qfiber) (s : Q) : Prop := - (ql f / 2) < s < ql f / 2.

(** the open segments of [f] and of [g] moved by [a], [b] periods cross
    transversally at abscissae [s], [t], seen from above *)
Definition crosses_at (size : Q) (f g : qfiber) (a b : Z) (s t : Q) : Prop :=
  inside f s /\ inside g t /\
  ax f s == ax g t + inject_Z a * size /\
  ay f s == ay g t + inject_Z b * size /\
  ~ qu f * qv g - qv f * qu g == 0.

(** the centres of [f] and of [g] moved by [a], [b] periods are closer, seen from above, than the
    mean of the two lengths *)
Definition close (size : Q) (f g : qfiber) (a b : Z) : Prop :=
  let dx := qx g + inject_Z a * size - qx f in
  let dy := qy g + inject_Z b * size - qy f in
  dx * dx + dy * dy < ((ql f + ql g) / 2) * ((ql f + ql g) / 2).
(** the axes are not parallel and the segment from the point [s] of [f] to the point [t] of [g] moved by
    [a], [b] periods is orthogonal to both *)
Definition facing (size : Q) (f g : qfiber) (a b : Z) (s t : Q) : Prop :=
  let dx := ax g t + inject_Z a * size - ax f s in
  let dy := ay g t + inject_Z b * size - ay f s in
  let dz := az g t - az f s in
  dx * qu f + dy * qv f + dz * qw f == 0 /\ dx * qu g + dy * qv g + dz * qw g == 0 /\
  ~ (qv f * qw g == qw f * qv g /\ qw f * qu g == qu f * qw g /\ qu f * qv g == qv f * qu g).

(** largest fiber length at most [l] *)
Definition lengths_le (m : qmat) (l : Q) : Prop := forall f, In f (q_rows m) -> ql f <= l.

(** [pairs] argument whose entries are positions of fibers, possibly counted from the end *)
Definition pairs_in_range (n : nat) (pairs : option (list (Z * Z))) : Prop :=
  forall l p q, pairs = Some l -> In (p, q) l ->
    (- Z.of_nat n <= p < Z.of_nat n)%Z /\ (- Z.of_nat n <= q < Z.of_nat n)%Z.

(** two fibers that differ at most by their heights *)
Definition same_but_z (f g : qfiber) : Prop :=
  ql f = ql g /\ qb f = qb g /\ qh f = qh g /\ qx f = qx g /\ qy f = qy g /\
  qu f = qu g /\ qv f = qv g /\ qw f = qw g /\ qG f = qG g /\ qE f = qE g.
(** two mats that differ at most by their z column *)
Definition same_but_heights (m m' : qmat) : Prop :=
  q_size m = q_size m' /\ Forall2 same_but_z (q_rows m) (q_rows m').
(** two network rows with the same connection, seen from above *)
Definition same_from_above (c d : conn) : Prop :=
  cA c = cA d /\ cB c = cB d /\ csA c == csA d /\ csB c == csB d /\
  cxA c == cxA d /\ cyA c == cyA d /\ cxB c == cxB d /\ cyB c == cyB d.
