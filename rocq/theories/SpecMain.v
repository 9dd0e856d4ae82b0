(** Notions used in the statements about the main script (C79). *)
From Coq Require Import Permutation.
From Verif Require Import Num ListX Frames MatM NetM StackM MeshM ModelM SolverM InterpM ResultM RenderM VtkM PlotM MainM
  Spec SpecNet SpecStack SpecMesh SpecModel SpecSolver SpecInterp SpecRender SpecVtk.
Open Scope Q_scope.

(** *** hypotheses on the libraries *)
(** linprog solves every stacking problem *)
Definition right_linprog (linprog : lp -> list Q) : Prop := forall m per t, net_new m per None = Ok t -> solved linprog m t.
(** the numbering has each unknown once *)
Definition right_numbering (rcm : nat -> ncoo -> list nat) : Prop := forall n P, Permutation (rcm n P) (seq 0 n).
(** the linear solver returns numbers, or fails with NaN where failures are seen *)
Definition solver_copes (lsolve : ncoo -> list num -> list num) (o : options) : Prop :=
  right_length lsolve /\
  (finite_answers lsolve \/
   (finite_or_nan lsolve /\ op_errtol o == 0 /\ (exists l, op_lmin o = Some l /\ 0 < l) /\ (forall l, op_lmax o = Some l -> 0 < l) /\
    exists G, p_shear (op_mat o) = Fin G)).
(** *** options *)
(** resampled results have at least three samples *)
Definition samples_ok (size : option nat) : Prop := match size with None => True | Some n => (3 <= n)%nat end.
Definition options_ok (o : options) : Prop :=
  params_ok (op_mat o) /\ (1 <= p_n (op_mat o))%Z /\ 0 <= op_tol o /\ 0 <= op_errtol o /\ samples_ok (op_size o).
(** *** outcomes *)
Definition last_state (h : list state) (s : state) : Prop := exists k, nth_error h k = Some s /\ length h = S k.
(** the dimensions and moduli of the fibers are those asked for *)
Definition as_asked (p : mat_params) (f : qfiber) : Prop :=
  ql f = p_length p /\ qb f = p_width p /\ qh f = p_thickness p /\ qG f = p_shear p /\ qE f = p_tensile p.
(** the four nodal fields shown for a state: displacement, rotation, contact force, no moment *)
Definition fields_of (g : mesh_df) (C : ncoo) (S : sysdata) (s : state) (d r f t : list Q) : Prop :=
  nodal g d /\ nodal g r /\ nodal g f /\ nodal g t /\
  forall i, (i < length (g_rows g))%nat ->
    nth i d 0 == disp (vals (st_u S s)) i /\ nth i r 0 == rot (vals (st_u S s)) i /\
    nth i f 0 == transpose_product C (vals (st_f S s)) (2 * i) /\ nth i t 0 == 0.

(** the run of the solver made by the script: assembled matrices, last recorded state *)
Definition solver_run (lsolve : ncoo -> list num -> list num) (o : options) (out : outcome) (K : ncoo) (cs : csys) (S : sysdata) (s : state) : Prop :=
  let m := out_mat out in let g := out_mesh out in
  stiffness m g (op_lmin o) (op_lmax o) (op_coupling o) = Ok K /\ constraint m g = Ok cs /\
  exists h, solve lsolve m g (solver_args o (out_perm out)) = Ok (S, h) /\ out_results out = results_of S h (op_size o) /\ last_state h s.
(** the points of the exported mesh are made from these nodal fields *)
Definition exported (cyl : list vec) (place : qfiber -> vec -> vec) (near : list Q -> Q -> nat) (out : outcome) (d r f t : list Q) : Prop :=
  vtk_mesh cyl place near (out_mat out) (out_mesh out) (Some d) (Some r) (Some f) (Some t) = Ok (out_points out).
(** positive limits on the lengths of the elements *)
Definition limits_ok (o : options) : Prop := (exists l, op_lmin o = Some l /\ 0 < l) /\ (forall l, op_lmax o = Some l -> 0 < l).
