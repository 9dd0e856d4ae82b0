(** Notions used in the statements about a part of a mesh that touches nothing else (C107). *)
From Verif Require Import Num ListX Frames MatM NetM MeshM ModelM SolverM Spec SpecNet SpecModel SpecSolver SpecScale SpecProgress SpecRename.
Open Scope Q_scope.

(** the node [i'] of the whole is one of the part *)
Definition found (rho : nat -> nat) (g : mesh_df) (i' : nat) : Prop := exists i, (i < length (g_rows g))%nat /\ i' = rho i.
(** the nodes of [g] are among those of [g'], at the same heights, on fibers of the same section and moduli, with the same
    beams and contacts; no beam and no contact joins them to the other nodes *)
Definition mesh_within (rho : nat -> nat) (m m' : qmat) (g g' : mesh_df) : Prop :=
  (forall i, (i < length (g_rows g))%nat -> (rho i < length (g_rows g'))%nat) /\
  (forall i j, (i < length (g_rows g))%nat -> (j < length (g_rows g))%nat -> rho i = rho j -> i = j) /\
  (forall i d d', is_node (g_rows g) i d -> is_node (g_rows g') (rho i) d' ->
     nz d' == nz d /\ forall f f', has_fiber m (nf d) f -> has_fiber m' (nf d') f' -> fiber_seen no_units f f') /\
  (forall i j d e d' e', is_node (g_rows g) i d -> is_node (g_rows g) j e -> is_node (g_rows g') (rho i) d' -> is_node (g_rows g') (rho j) e' ->
     (beam_element g i j d e <-> beam_element g' (rho i) (rho j) d' e') /\ (beam_element g i j d e -> ns e' - ns d' == ns e - ns d)) /\
  (forall i j, (i < length (g_rows g))%nat -> (j < length (g_rows g))%nat -> contact g i j <-> contact g' (rho i) (rho j)) /\
  (forall i' j' d e, beam_element g' i' j' d e -> found rho g i' <-> found rho g j') /\
  (forall i' j', contact g' i' j' -> found rho g i' <-> found rho g j').
(** the beams of the whole are not shorter nor longer than those of the part *)
Definition same_span (g g' : mesh_df) : Prop :=
  forall i' j' d' e', beam_element g' i' j' d' e' ->
    (exists i j d e, beam_element g i j d e /\ ns e - ns d <= ns e' - ns d') /\
    (exists i j d e, beam_element g i j d e /\ ns e' - ns d' <= ns e - ns d).
(** calls with the same model, whose contacts are found without tolerance: packing, itermax, the order of the unknowns and
    the error tolerance may differ *)
Definition same_model (g g' : mesh_df) (p p' : solve_params) : Prop :=
  option_in no_units (sp_lmin p) (sp_lmin p') /\ option_in no_units (sp_lmax p) (sp_lmax p') /\ sp_coupling p' == sp_coupling p /\
  sp_tol p == 0 /\ sp_tol p' == 0 /\
  ((sp_lmin p = None /\ sp_lmax p = None) \/ same_span g g').

(** the highest top is the one of a node that faces the lid *)
Definition faces_lid (m : qmat) (g : mesh_df) : Prop :=
  exists i j d e h, paired g i j d e /\ thick m e h /\ highest_top m g (nz e + h / 2).

(** the lid of [s] is not lower than at the end of [h] *)
Definition not_below (h : list state) (s : state) : Prop :=
  forall j t, nth_error h j = Some t -> length h = S j -> qof (st_Z t) <= qof (st_Z s).
(** what the state [s] of the whole is on the part: [a] at the displacements of the part, [b] at its forces *)
Definition part_is (rho : nat -> nat) (g g' : mesh_df) (S' : sysdata) (s : state) (a b : nat -> Q -> Prop) : Prop :=
  (forall i, (i < length (g_rows g))%nat -> forall c, (c < 2)%nat -> a (2 * i + c)%nat (nth (2 * rho i + c) (vals (st_u S' s)) 0)) /\
  (forall k k' i j c, contact_rank g k i j -> contact_rank g' k' (rho i) (rho j) -> (c < 3)%nat ->
     b (3 * k + c)%nat (nth (3 * k' + c) (vals (st_f S' s)) 0)).
(** [x] is between [xt] and [xt'] what [z] is between [zt] and [zt'] *)
Definition on_line (zt zt' z x xt xt' : Q) : Prop := (zt - zt') * x == (z - zt') * xt + (zt - z) * xt'.
(** the part of [s] is undeformed, or is found on the run of the part alone, between two of its recorded states, at the same height of the lid *)
Definition part_follows (rho : nat -> nat) (g g' : mesh_df) (S S' : sysdata) (h : list state) (s : state) : Prop :=
  ((exists t, nth_error h 0 = Some t /\ qof (st_Z t) <= qof (st_Z s)) /\ part_is rho g g' S' s (fun _ x => x == 0) (fun _ x => x == 0)) \/
  exists j t t', nth_error h j = Some t /\ nth_error h (Datatypes.S j) = Some t' /\
    qof (st_Z t') <= qof (st_Z s) /\ qof (st_Z s) <= qof (st_Z t) /\ qof (st_Z t') < qof (st_Z t) /\
    part_is rho g g' S' s
      (fun r x => on_line (qof (st_Z t)) (qof (st_Z t')) (qof (st_Z s)) x (nth r (vals (st_u S t)) 0) (nth r (vals (st_u S t')) 0))
      (fun r x => on_line (qof (st_Z t)) (qof (st_Z t')) (qof (st_Z s)) x (nth r (vals (st_f S t)) 0) (nth r (vals (st_f S t')) 0)).
