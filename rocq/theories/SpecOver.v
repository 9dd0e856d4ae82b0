(** Notions used in the statements about a mat turned over (C106). *)
From Verif Require Import Num Frames MatM NetM StackM Spec SpecNet SpecStack SpecMeta SpecTorus SpecPiles.
Open Scope Q_scope.

(** [e] finds the fibers of [m] in [m'], moved, up to whole periods and the orientation, with their thicknesses; of two
    fibers that are connected the one below is now above.  Turning a mat over about an axis of its plane gives such
    fibers, with a motion that is mirrored *)
Definition overturned (M : motion) (per : bool) (t : net_df) (e : Z -> Z) (m m' : qmat) : Prop :=
  (forall i f, has_fiber m i f -> exists f', has_fiber m' (e i) f' /\ (exists r, alike M per (q_size m') r f f') /\ qh f' == mv_k M * qh f) /\
  (forall i j f g, has_fiber m i f -> has_fiber m j g -> (i < j)%Z -> linked t i j -> (e j < e i)%Z) /\
  (forall i j f g, has_fiber m i f -> has_fiber m j g -> e i = e j -> i = j).
(** a pile that goes through the fiber [i] and ends with the fiber [j], of thickness [q] *)
Inductive through (m : qmat) (t : net_df) (i : Z) : Z -> Q -> Prop :=
| through_here : forall q, pile m t i q -> through m t i i q
| through_more : forall j k f q, through m t i j q -> connected t j k -> has_fiber m k f -> through m t i k (q + qh f).
