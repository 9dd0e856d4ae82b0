(** Notions used in the statements about the fibers drawn by the scripts of mat.py and net.py (C91). *)
From Verif Require Import Num Frames MatM NetM StackM VtkM PictureM Spec SpecNet SpecStack.
Open Scope Q_scope.

(** the point lies on the segment *)
Definition on_line (p : vec) (s : line) : Prop :=
  exists a, 0 <= a <= 1 /\
    vx p == (1 - a) * vx (fst s) + a * vx (snd s) /\
    vy p == (1 - a) * vy (fst s) + a * vy (snd s) /\
    vz p == (1 - a) * vz (fst s) + a * vz (snd s).
(** the point lies on the axis of the fiber, between its ends *)
Definition on_fiber_axis (p : vec) (f : qfiber) : Prop :=
  exists s, - (ql f / 2) <= s <= ql f / 2 /\ vx p == ax f s /\ vy p == ay f s /\ vz p == az f s.
(** [M] is the largest force received from above by a fiber of the mat *)
Definition heaviest (m : qmat) (t : net_df) (push : list Q) (M : Q) : Prop :=
  (forall i f, has_fiber m i f -> from_above t push i <= M) /\
  exists i f, has_fiber m i f /\ from_above t push i == M.
(** total weight of a mat *)
Definition total_weight (m : qmat) : Q := qsum (map weight (q_rows m)).
(** a picture of the fibers of the moved mat [m'] with the colours [1 - F / M] of the forces [F] that they receive from above,
    1 if nothing is carried, and a scale from [- M] to 0 relative to the mean weight *)
Definition loads_shown (m m' : qmat) (t : net_df) (push : list Q) (l : list (line * num)) (lo hi : Q) : Prop :=
  exists M, heaviest m t push M /\ map fst l = mat_picture m' /\
    hi == 0 /\ lo * total_weight m == - (M * inject_Z (Z.of_nat (length (q_rows m)))) /\
    - inject_Z (Z.of_nat (length (q_rows m))) < lo /\
    forall i f, has_fiber m i f -> exists s c, nth_error l (Z.to_nat i) = Some (s, Fin c) /\
      (0 < M -> c == 1 - from_above t push i / M) /\ (M == 0 -> c == 1).
