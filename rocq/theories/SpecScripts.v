(** Notions used in the statements about the names of the package and the scripts (C85, C86, C87). *)
From Coq Require Import String.
From Verif Require Import Num ListX Frames MatM NetM StackM MeshM ModelM SolverM InterpM ResultM RenderM VtkM PlotM MainM PictureM ScriptsM
  Spec SpecNet SpecStack SpecMesh SpecModel SpecSolver SpecInterp SpecRender SpecVtk SpecMain SpecDraw.
Open Scope Q_scope.

(** *** names *)
(** the classes and functions of the package, with the file where they are defined *)
Definition public : list (string * string) := ([
  ("mat", "Mat"); ("net", "Net"); ("net", "Stack"); ("mesh", "Mesh"); ("interpolation", "Interpolate");
  ("model", "stiffness"); ("model", "constraint"); ("model", "plot_system"); ("solver", "solve");
  ("render", "vtk_fiber"); ("render", "vtk_mat"); ("render", "vtk_mesh"); ("widgets", "Settings")])%string.
(** the files of the package *)
Definition files : list string := (["mat"; "net"; "mesh"; "interpolation"; "model"; "solver"; "render"; "widgets"])%string.

(** *** packing a mat *)
(** the linear solver returns numbers, or fails with NaN where failures are seen *)
Definition copes (lsolve : ncoo -> list num -> list num) (m : qmat) (p : solve_params) : Prop :=
  right_length lsolve /\
  (finite_answers lsolve \/
   (finite_or_nan lsolve /\ sp_errtol p == 0 /\ sp_perm p = None /\ (exists l, sp_lmin p = Some l /\ 0 < l) /\ (forall l, sp_lmax p = Some l -> 0 < l) /\
    finite_shear m)).
(** the run of the solver behind a result: assembled matrices, last recorded state *)
Definition packed_run (lsolve : ncoo -> list num -> list num) (p : solve_params) (size : option nat) (k : packed) (K : ncoo) (cs : csys) (S : sysdata) (s : state) : Prop :=
  stiffness (pk_mat k) (pk_mesh k) (sp_lmin p) (sp_lmax p) (sp_coupling p) = Ok K /\ constraint (pk_mat k) (pk_mesh k) = Ok cs /\
  exists h, solve lsolve (pk_mat k) (pk_mesh k) p = Ok (S, h) /\ pk_results k = results_of S h size /\ last_state h s.
(** a valid mat of at least one fiber, and arguments for the solver *)
Definition packable (lsolve : ncoo -> list num -> list num) (m : qmat) (p : solve_params) (size : option nat) : Prop :=
  valid m /\ q_rows m <> [] /\ tolerances_ok p /\ samples_ok size /\ copes lsolve m p.

(** dimensions and moduli *)
Definition made_of (l b h : Q) (G E : num) (f : qfiber) : Prop := ql f = l /\ qb f = b /\ qh f = h /\ qG f = G /\ qE f = E.
(** packing = 4, at most 10^4 steps, natural numbering, tol = errtol = 10^-6, lmin = 1/100, no lmax, coupling = 0.99 *)
Definition usual_args (p : solve_params) : Prop :=
  sp_packing p = Fin 4 /\ sp_itermax p = Nat.pow 10 4 /\ sp_perm p = None /\ sp_tol p == / 1000000 /\ sp_errtol p == / 1000000 /\
  (exists l, sp_lmin p = Some l /\ l == / 100) /\ sp_lmax p = None /\ sp_coupling p == 1 - / 100.

(** *** the logo *)
(** the letters, as strokes: left, right, top and bottom of a rectangle, from the corner of the mask *)
Definition letters : list (string * list (Z * Z * Z * Z)) := ([
  ("F", [(0, 2, 2, 12); (0, 5, 6, 8); (0, 8, 2, 4)]);
  ("i", [(9, 11, 2, 4); (9, 11, 6, 12)]);
  ("b", [(12, 14, 2, 12); (12, 17, 10, 12); (12, 18, 6, 8); (16, 18, 6, 10)]);
  ("e", [(19, 21, 4, 10); (19, 25, 4, 6); (20, 25, 10, 12); (23, 25, 4, 8)]);
  ("r", [(26, 27, 4, 6); (26, 28, 6, 12); (28, 32, 4, 6); (31, 32, 4, 8)]);
  ("M", [(34, 36, 2, 12); (34, 38, 2, 4); (37, 39, 4, 6); (38, 41, 6, 8); (40, 42, 4, 6); (41, 45, 2, 4); (43, 45, 2, 12)]);
  ("a", [(46, 48, 6, 12); (46, 49, 10, 12); (46, 52, 6, 8); (50, 52, 6, 12)]);
  ("t", [(53, 55, 2, 12); (53, 58, 6, 8); (53, 58, 10, 12)])])%Z%string.
(** the point lies on a stroke of a letter; the corner is at (-29, -6) *)
Definition on_letter (p : Q * Q) : Prop :=
  exists a strokes x0 x1 y0 y1, In (a, strokes) letters /\ In (x0, x1, y0, y1) strokes /\
    inject_Z x0 <= fst p + 29 < inject_Z x1 /\ inject_Z y0 <= snd p + 6 < inject_Z y1.
(** the rectangle where the points are drawn *)
Definition in_frame (p : Q * Q) : Prop := -(29) <= fst p <= 29 /\ -(6) <= snd p <= 6.
(** [l'] has the elements of [l] with the property, in the same order *)
Inductive those {A} (P : A -> Prop) : list A -> list A -> Prop :=
| those_nil : those P [] []
| those_keep a l l' : P a -> those P l l' -> those P (a :: l) (a :: l')
| those_skip a l l' : ~ P a -> those P l l' -> those P (a :: l) l'.
(** the fiber lies at the point, mirrored *)
Definition lies_at (p : Q * Q) (f : qfiber) : Prop := qx f = fst p /\ qy f = - snd p.
(** the points drawn by the generator seeded with 0: [n] abscissae, then [n] ordinates *)
Definition drawn (R : rng) (n : nat) : list (Q * Q) :=
  map (fun i => (58 * draw R i (rng_seed R 0), 12 * draw R (n + i) (rng_seed R 0))) (seq 0 n).
