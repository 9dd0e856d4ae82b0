(** Model of the error returned by [solve] (/repo/src/fibermat/solver.py 202, 205).  The loop records the
    square of the error, and so does this function of the pseudo-time. *)
From Verif Require Import Num ListX Frames MatM NetM MeshM ModelM SolverM InterpM ResultM.
Open Scope Q_scope.

(** the square of the interpolated error (solver.py 202) *)
Definition errors_of (h : list state) : interp := interp_new Previous (map st_err2 h) None.
(** the error as given back to the user (solver.py 202, 205) *)
Definition solve_error (lsolve : ncoo -> list num -> list num) (m : qmat) (g : mesh_df) (p : solve_params) : res interp :=
  do r <- solve lsolve m g p; Ok (errors_of (snd r)).
