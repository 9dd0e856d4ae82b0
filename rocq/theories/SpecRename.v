(** Notions used in the statements about the numbering of the nodes and of the fibers (C104). *)
From Verif Require Import Num ListX Frames MatM NetM MeshM ModelM SolverM Spec SpecNet SpecModel SpecSolver SpecScale SpecProgress.
Open Scope Q_scope.

(** other names: of the nodes, of the fibers; the fibers described from their other end *)
Record renaming : Type := mkRen { rn_node : nat -> nat; rn_fiber : Z -> Z; rn_back : Z -> bool }.

(** each of the first [n] numbers is the new name of one of them *)
Definition one_to_one (n : nat) (f : nat -> nat) : Prop :=
  (forall i, (i < n)%nat -> (f i < n)%nat) /\ (forall i j, (i < n)%nat -> (j < n)%nat -> f i = f j -> i = j).
(** [i] and [j] touch each other, [j] above *)
Definition contact (g : mesh_df) (i j : nat) : Prop :=
  exists d, is_node (g_rows g) i d /\ ncons d = Z.of_nat j /\ (i <= j)%nat.
(** the same nodes under other names: on the same fibers, at the same heights *)
Definition nodes_renamed (R : renaming) (m m' : qmat) (g g' : mesh_df) : Prop :=
  forall i d d', is_node (g_rows g) i d -> is_node (g_rows g') (rn_node R i) d' ->
    nf d' = rn_fiber R (nf d) /\ nz d' == nz d /\
    forall f f', has_fiber m (nf d) f -> has_fiber m' (nf d') f' -> fiber_seen no_units f f'.
(** the same beams: those of a fiber described from its other end run the other way *)
Definition beams_renamed (R : renaming) (g g' : mesh_df) : Prop :=
  forall i j d e d' e', is_node (g_rows g) i d -> is_node (g_rows g) j e ->
    is_node (g_rows g') (rn_node R i) d' -> is_node (g_rows g') (rn_node R j) e' ->
    if rn_back R (nf d)
    then (beam_element g i j d e <-> beam_element g' (rn_node R j) (rn_node R i) e' d') /\
         (beam_element g i j d e -> ns d' - ns e' == ns e - ns d)
    else (beam_element g i j d e <-> beam_element g' (rn_node R i) (rn_node R j) d' e') /\
         (beam_element g i j d e -> ns e' - ns d' == ns e - ns d).
(** the same contacts, the same side above *)
Definition contacts_renamed (R : renaming) (g g' : mesh_df) : Prop :=
  forall i j, (i < length (g_rows g))%nat -> (j < length (g_rows g))%nat ->
    contact g i j <-> contact g' (rn_node R i) (rn_node R j).
Definition mesh_renamed (R : renaming) (m m' : qmat) (g g' : mesh_df) : Prop :=
  length (g_rows g') = length (g_rows g) /\ one_to_one (length (g_rows g)) (rn_node R) /\
  (forall f f', rn_fiber R f = rn_fiber R f' -> f = f') /\
  nodes_renamed R m m' g g' /\ beams_renamed R g g' /\ contacts_renamed R g g'.

(** the contact of [i] and [j] comes after [k] others: [k] of the nodes before [i] are below a node, or alone *)
Definition contact_rank (g : mesh_df) (k i j : nat) : Prop :=
  contact g i j /\ exists l, NoDup l /\ length l = k /\ forall a, In a l <-> (a < i)%nat /\ exists b, contact g a b.
(** the same number, or its opposite *)
Definition signed (b : bool) (x y : num) : Prop := neqv (if b then nopp x else x) y.
(** the same recorded state under other names: displacements follow the nodes, rotations change sign
    with the direction of the fiber, forces, bounds and marks follow the contacts *)
Definition record_renamed (R : renaming) (g g' : mesh_df) (S S' : sysdata) (s s' : state) : Prop :=
  (forall i d, is_node (g_rows g) i d ->
     neqv (nth (2 * i) (st_u S s) NaN) (nth (2 * rn_node R i) (st_u S' s') NaN) /\
     signed (rn_back R (nf d)) (nth (2 * i + 1) (st_u S s) NaN) (nth (2 * rn_node R i + 1) (st_u S' s') NaN)) /\
  (forall k k' i j a, contact_rank g k i j -> contact_rank g' k' (rn_node R i) (rn_node R j) -> (a < 3)%nat ->
     neqv (nth (3 * k + a) (st_f S s) NaN) (nth (3 * k' + a) (st_f S' s') NaN) /\
     neqv (nth (3 * k + a) (st_H S s) NaN) (nth (3 * k' + a) (st_H S' s') NaN) /\
     nth (sy_nu S + (3 * k + a)) (st_mask s) false = nth (sy_nu S' + (3 * k' + a)) (st_mask s') false) /\
  neqv (st_Z s) (st_Z s') /\ neqv (st_rl s) (st_rl s').
(** the same arguments of [solve] but for the order of the unknowns, which is that of each numbering *)
Definition params_renamed (p p' : solve_params) : Prop := params_in no_units p p'.
