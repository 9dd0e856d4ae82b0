(** Notions used in the statements about units (C75). *)
From Verif Require Import Num ListX Frames MatM NetM MeshM ModelM SolverM Spec SpecModel SpecSolver.
Open Scope Q_scope.

(** [y] is [a] times [x], for a positive factor *)
Definition times (a : Q) (x y : num) : Prop :=
  match x, y with
  | Fin p, Fin q => q == a * p
  | PInf, PInf | NInf, NInf | NaN, NaN => True
  | _, _ => False
  end.
(** new units: lengths are multiplied by [un_len], moduli by [un_mod] *)
Record units : Type := mkUnits { un_len : Q; un_mod : Q }.
Definition units_ok (U : units) : Prop := 0 < un_len U /\ 0 < un_mod U.
(** the same fiber in the new units *)
Definition fiber_in (U : units) (f f' : qfiber) : Prop :=
  ql f' == un_len U * ql f /\ qb f' == un_len U * qb f /\ qh f' == un_len U * qh f /\
  qx f' == un_len U * qx f /\ qy f' == un_len U * qy f /\ qz f' == un_len U * qz f /\
  qu f' == qu f /\ qv f' == qv f /\ qw f' == qw f /\
  times (un_mod U) (qG f) (qG f') /\ times (un_mod U) (qE f) (qE f').
Definition mat_in (U : units) (m m' : qmat) : Prop :=
  Forall2 (fiber_in U) (q_rows m) (q_rows m') /\ q_size m' == un_len U * q_size m.
(** the same node in the new units *)
Definition node_in (U : units) (r r' : Z * node) : Prop :=
  fst r' = fst r /\ nf (snd r') = nf (snd r) /\ nbeam (snd r') = nbeam (snd r) /\ ncons (snd r') = ncons (snd r) /\
  ns (snd r') == un_len U * ns (snd r) /\ nx (snd r') == un_len U * nx (snd r) /\
  ny (snd r') == un_len U * ny (snd r) /\ nz (snd r') == un_len U * nz (snd r).
Definition mesh_in (U : units) (g g' : mesh_df) : Prop := Forall2 (node_in U) (g_rows g) (g_rows g').
(** the same fiber and the same node as [solve] sees them: positions and directions in the plane, lengths of the fibers and size of the box are left out *)
Definition fiber_seen (U : units) (f f' : qfiber) : Prop :=
  qb f' == un_len U * qb f /\ qh f' == un_len U * qh f /\ times (un_mod U) (qG f) (qG f') /\ times (un_mod U) (qE f) (qE f').
Definition mat_seen (U : units) (m m' : qmat) : Prop := Forall2 (fiber_seen U) (q_rows m) (q_rows m').
Definition node_seen (U : units) (r r' : Z * node) : Prop :=
  fst r' = fst r /\ nf (snd r') = nf (snd r) /\ nbeam (snd r') = nbeam (snd r) /\ ncons (snd r') = ncons (snd r) /\
  ns (snd r') == un_len U * ns (snd r) /\ nz (snd r') == un_len U * nz (snd r).
Definition mesh_seen (U : units) (g g' : mesh_df) : Prop := Forall2 (node_seen U) (g_rows g) (g_rows g').
(** the same optional length *)
Definition option_in (U : units) (o o' : option Q) : Prop :=
  match o, o' with None, None => True | Some l, Some l' => l' == un_len U * l | _, _ => False end.
(** the same arguments of [solve]; the numbering and the error tolerance may differ *)
Definition params_in (U : units) (p p' : solve_params) : Prop :=
  sp_packing p' = sp_packing p /\ sp_itermax p' = sp_itermax p /\ sp_tol p' == un_len U * sp_tol p /\
  option_in U (sp_lmin p) (sp_lmin p') /\ option_in U (sp_lmax p) (sp_lmax p') /\ sp_coupling p' == sp_coupling p.
(** the same recorded state: displacements and bounds are lengths, rotations have no unit, forces are
    moduli times squared lengths *)
Definition record_in (U : units) (S S' : sysdata) (s s' : state) : Prop :=
  (forall i, times (un_len U) (nth (2 * i) (st_u S s) NaN) (nth (2 * i) (st_u S' s') NaN)) /\
  (forall i, times 1 (nth (2 * i + 1) (st_u S s) NaN) (nth (2 * i + 1) (st_u S' s') NaN)) /\
  Forall2 (times (un_mod U * un_len U * un_len U)) (st_f S s) (st_f S' s') /\
  Forall2 (times (un_len U)) (st_H S s) (st_H S' s') /\
  times (un_len U) (st_Z s) (st_Z s') /\ times 1 (st_rl s) (st_rl s') /\ st_mask s' = st_mask s.
(** as [params_in], the tolerance being the same number in both units (as with the default value) *)
Definition params_same_tol (U : units) (p p' : solve_params) : Prop :=
  sp_packing p' = sp_packing p /\ sp_itermax p' = sp_itermax p /\ sp_tol p' = sp_tol p /\
  option_in U (sp_lmin p) (sp_lmin p') /\ option_in U (sp_lmax p) (sp_lmax p') /\ sp_coupling p' == sp_coupling p.
