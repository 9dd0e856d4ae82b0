(** Notions used in the statements that compare two computations (C72 - C75). *)
From Verif Require Import Num Frames MatM NetM StackM Spec SpecNet SpecStack.
Open Scope Q_scope.

(** a turn by the angle of cosine [mv_c] and sine [mv_s] about the vertical, a scaling, a translation; before the
    turn, the image in a vertical mirror if [mv_m] (the y axis is reversed) *)
Record motion : Type := mkMotion { mv_k : Q; mv_c : Q; mv_s : Q; mv_x : Q; mv_y : Q; mv_z : Q; mv_m : bool }.
Definition mirrored (M : motion) (y : Q) : Q := if mv_m M then - y else y.
Definition proper (M : motion) : Prop := 0 < mv_k M /\ mv_c M * mv_c M + mv_s M * mv_s M == 1.
(** [g] is [f] moved, seen from above *)
Definition follows (M : motion) (f g : qfiber) : Prop :=
  ql g == mv_k M * ql f /\
  qx g == mv_k M * (mv_c M * qx f - mv_s M * mirrored M (qy f)) + mv_x M /\
  qy g == mv_k M * (mv_s M * qx f + mv_c M * mirrored M (qy f)) + mv_y M /\
  qu g == mv_c M * qu f - mv_s M * mirrored M (qv f) /\ qv g == mv_s M * qu f + mv_c M * mirrored M (qv f) /\ qw g == qw f.
(** ... and also in height *)
Definition rises (M : motion) (f g : qfiber) : Prop := qz g == mv_k M * qz f + mv_z M.
(** the pair [f'], [g'] is the pair [f], [g] moved; heights only matter for inclined fibers *)
Definition moved_pair (M : motion) (f g f' g' : qfiber) : Prop :=
  follows M f f' /\ follows M g g' /\ ((in_plane f /\ in_plane g) \/ (rises M f f' /\ rises M g g')).
(** turns by multiples of a quarter, which keep the box, mirrored or not *)
Definition quarter (M : motion) : Prop :=
  exists p q, mv_c M = inject_Z p /\ mv_s M = inject_Z q /\ (p * p + q * q = 1)%Z.

(** the fibers [i] and [j] are connected, at the abscissa [s] of [i] and [s'] of [j] *)
Definition joined (t : net_df) (i j : Z) (s s' : Q) : Prop :=
  exists k c, is_row t k c /\
    ((cA c = i /\ cB c = j /\ csA c == s /\ csB c == s') \/ (cA c = j /\ cB c = i /\ csA c == s' /\ csB c == s)).
Definition linked (t : net_df) (i j : Z) : Prop := exists s s', joined t i j s s'.

(** [e] places the fibers of [m] among those of [m'], in the same order, moved, with thicknesses
    related by [R] *)
Definition placed (M : motion) (R : Q -> Q -> Prop) (e : Z -> Z) (m m' : qmat) : Prop :=
  (forall i f, has_fiber m i f -> exists f', has_fiber m' (e i) f' /\ follows M f f' /\ R (mv_k M * qh f) (qh f')) /\
  (forall i j f g, has_fiber m i f -> has_fiber m j g -> (i < j)%Z -> (e i < e j)%Z).
(** ... as the lowest fibers of [m'] *)
Definition lowest (e : Z -> Z) (m m' : qmat) : Prop :=
  forall i j f g, has_fiber m i f -> has_fiber m' j g -> (j < e i)%Z -> exists i' f', has_fiber m i' f' /\ j = e i'.
(** the boxes of two periodic mats *)
Definition boxes (M : motion) (m m' : qmat) : Prop :=
  quarter M /\ q_size m' == mv_k M * q_size m /\ lengths_le m (q_size m) /\ lengths_le m' (q_size m').
