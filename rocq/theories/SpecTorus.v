(** Notions used in the statements about the images of periodic fibers and about their orientation (C97, C98). *)
From Verif Require Import Num Frames MatM NetM StackM Spec SpecNet SpecStack SpecMeta.
Open Scope Q_scope.

(** [f'] is [f] moved by whole periods (not moved if not periodic) and, when [r] is -1, described from its other end *)
Definition strand (per : bool) (size : Q) (r : Q) (f f' : qfiber) : Prop :=
  (r == 1 \/ r == - (1)) /\ ql f' == ql f /\
  (exists a b, allowed per a b /\ qx f' == qx f + inject_Z a * size /\ qy f' == qy f + inject_Z b * size) /\
  qu f' == r * qu f /\ qv f' == r * qv f /\ qw f' == r * qw f.
(** [f'] is [f] after the motion [M], up to whole periods and the orientation *)
Definition alike (M : motion) (per : bool) (size : Q) (r : Q) (f f' : qfiber) : Prop :=
  exists f1, follows M f f1 /\ rises M f f1 /\ strand per size r f1 f'.
(** the pair [f'], [g'] is the pair [f], [g], in this sense; heights only matter for inclined fibers *)
Definition alike_pair (M : motion) (per : bool) (size : Q) (r r' : Q) (f g f' g' : qfiber) : Prop :=
  alike M per size r f f' /\ alike M per size r' g g' /\ ((in_plane f /\ in_plane g) \/ (rises M f f' /\ rises M g g')).
