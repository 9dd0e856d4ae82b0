(** Notions used in the statements about the piles of fibers (C97). *)
From Verif Require Import Num Frames MatM NetM StackM Spec SpecNet SpecStack SpecMeta SpecTorus.
Open Scope Q_scope.

(** a pile of fibers, each connected to the next one, that ends with the fiber [i]; [q] is the sum of
    their thicknesses *)
Inductive pile (m : qmat) (t : net_df) : Z -> Q -> Prop :=
| pile_one : forall i f, has_fiber m i f -> pile m t i (qh f)
| pile_more : forall i j f q, pile m t i q -> connected t i j -> has_fiber m j f -> pile m t j (q + qh f).
(** [q] is the thickness of the thickest of the piles that [P] selects *)
Definition thickest (m : qmat) (t : net_df) (P : Z -> Prop) (q : Q) : Prop :=
  (forall i r, P i -> pile m t i r -> r <= q) /\ exists i r, P i /\ pile m t i r /\ r == q.

(** [e] finds the fibers of [m] in [m'], moved, up to whole periods and the orientation, with thicknesses
    related by [R]; two fibers that are connected keep their order *)
Definition arranged (M : motion) (per : bool) (R : Q -> Q -> Prop) (t : net_df) (e : Z -> Z) (m m' : qmat) : Prop :=
  (forall i f, has_fiber m i f -> exists f', has_fiber m' (e i) f' /\ (exists r, alike M per (q_size m') r f f') /\ R (mv_k M * qh f) (qh f')) /\
  (forall i j f g, has_fiber m i f -> has_fiber m j g -> (i < j)%Z -> linked t i j -> (e i < e j)%Z) /\
  (forall i j f g, has_fiber m i f -> has_fiber m j g -> e i = e j -> i = j).
(** no other fiber of [m'] is connected below one of them *)
Definition grounded (t' : net_df) (e : Z -> Z) (m m' : qmat) : Prop :=
  forall i j f g, has_fiber m i f -> has_fiber m' j g -> connected t' j (e i) -> exists i' f', has_fiber m i' f' /\ j = e i'.
(** ... there is no other fiber *)
Definition all_found (e : Z -> Z) (m m' : qmat) : Prop :=
  forall j g, has_fiber m' j g -> exists i f, has_fiber m i f /\ j = e i.
