(** Notions used in the statements about the progress of the solver (C88-C90). *)
From Verif Require Import Num ListX Frames MatM NetM StackM MeshM ModelM SolverM InterpM ResultM RenderM VtkM PlotM MainM Spec SpecNet SpecMesh SpecModel SpecSolver SpecPerm SpecScale SpecMain.
Open Scope Q_scope.

(** nodes [i] and [j] are connected, the lower one first; the ends of the fibers are alone ([i = j]) *)
Definition paired (g : mesh_df) (i j : nat) (d e : node) : Prop :=
  is_node (g_rows g) i d /\ is_node (g_rows g) j e /\ ncons d = Z.of_nat j /\ (i <= j)%nat.

(** *** what is touched, up to [tol], when the nodes are displaced by [u] and the lid is at [z] *)
Definition on_floor (m : qmat) (tol : Q) (u : list Q) (i : nat) (d : node) : Prop :=
  exists h, thick m d h /\ (nz d + disp u i) - h / 2 <= tol.
Definition on_lid (m : qmat) (tol : Q) (u : list Q) (z : Q) (j : nat) (e : node) : Prop :=
  exists h, thick m e h /\ z - (nz e + disp u j) - h / 2 <= tol.
Definition touching (m : qmat) (tol : Q) (u : list Q) (i j : nat) (d e : node) : Prop :=
  exists h h', thick m d h /\ thick m e h' /\ (nz e + disp u j) - (nz d + disp u i) - (h + h') / 2 <= tol.

(** a column without void: the lower node is on the floor, the upper one on the lid, and they touch *)
Definition compressed (m : qmat) (g : mesh_df) (tol : Q) (u : list Q) (z : Q) : Prop :=
  exists i j d e, paired g i j d e /\ on_floor m tol u i d /\ on_lid m tol u z j e /\
    (i = j \/ touching m tol u i j d e).

(** fibers held by the floor, by the lid, or by a fiber that is *)
Inductive held (m : qmat) (g : mesh_df) (tol : Q) (u : list Q) (z : Q) : Z -> Prop :=
| held_floor i j d e : paired g i j d e -> on_floor m tol u i d -> held m g tol u z (nf d)
| held_lid i j d e : paired g i j d e -> on_lid m tol u z j e -> held m g tol u z (nf e)
| held_below i j d e : paired g i j d e -> i <> j -> touching m tol u i j d e -> held m g tol u z (nf d) -> held m g tol u z (nf e)
| held_above i j d e : paired g i j d e -> i <> j -> touching m tol u i j d e -> held m g tol u z (nf e) -> held m g tol u z (nf d).
Definition all_held (m : qmat) (g : mesh_df) (tol : Q) (u : list Q) (z : Q) : Prop :=
  forall i d, is_node (g_rows g) i d -> held m g tol u z (nf d).
(** ... in the mesh as it is given, under a lid laid on the highest top *)
Definition starts_held (m : qmat) (g : mesh_df) (tol : Q) : Prop :=
  forall z, highest_top m g z -> all_held m g tol [] z.

(** *** a recorded state *)
Definition compressed_at (m : qmat) (g : mesh_df) (S : sysdata) (s : state) : Prop :=
  compressed m g (sy_tol S) (vals (st_u S s)) (qof (st_Z s)).
Definition held_at (m : qmat) (g : mesh_df) (S : sysdata) (s : state) : Prop :=
  all_held m g (sy_tol S) (vals (st_u S s)) (qof (st_Z s)).

(** a direct solver: right answers to the systems that have one; else numbers or NaN *)
Definition direct_solver (lsolve : ncoo -> list num -> list num) : Prop :=
  right_length lsolve /\ exact_solver lsolve /\ (finite_answers lsolve \/ finite_or_nan lsolve).

(** data for which each fiber resists bending *)
Definition sound_data (m : qmat) (g : mesh_df) (p : solve_params) : Prop :=
  ~ flag_set (g_attrs g) /\ tolerances_ok p /\ 3 * sp_errtol p < 1 /\
  sp_coupling p * sp_coupling p < 1 /\ lengths_ok g (sp_lmin p) (sp_lmax p) /\ finite_shear m.

(** the same call with no error accepted *)
Definition strict (p : solve_params) : solve_params :=
  mkSolve (sp_packing p) (sp_itermax p) (sp_perm p) (sp_tol p) 0 (sp_lmin p) (sp_lmax p) (sp_coupling p).

(** the units are kept *)
Definition no_units : units := mkUnits 1 1.

(** *** stacks *)
(** the threshold keeps the connections between fibers that touch *)
Definition wide (m : qmat) (thr : option Q) : Prop :=
  match thr with
  | None => True
  | Some d => forall f g, In f (q_rows m) -> In g (q_rows m) -> (qh f + qh g) / 2 <= d
  end.

(** *** the main script *)
(** flat fibers that resist bending and a threshold that does not cut contacts *)
Definition bending (sin : Q -> Q) (o : options) : Prop :=
  limits_ok o /\ op_coupling o * op_coupling o < 1 /\ 3 * op_errtol o < 1 /\
  p_psi (op_mat o) == 0 /\ (forall x, x == 0 -> sin x == 0) /\ (exists G, p_shear (op_mat o) = Fin G) /\
  (forall d, op_threshold o = Some d -> p_thickness (op_mat o) <= d).
(** the same options with no error accepted *)
Definition exacting (o : options) : options :=
  mkOptions (op_mat o) (op_periodic o) (op_threshold o) (op_packing o) (op_itermax o) (op_tol o) 0 (op_lmin o) (op_lmax o) (op_coupling o) (op_size o).
