(** Model of the results returned by [solve] (/repo/src/fibermat/solver.py 191-205): one
    [Interpolate] object per recorded quantity.  An object built on vectors is modelled as the
    list of its components, since scipy interpolates each of them with the same weights. *)
From Verif Require Import Num ListX Frames MatM NetM MeshM ModelM SolverM InterpM.
Open Scope Q_scope.

(** component [j] of the recorded vectors (interpolation.py 60-67, axis=0) *)
Definition component (vs : list (list num)) (j : nat) : list num := map (fun v => nth j v NaN) vs.
(** [Interpolate(vs, size=size, kind=kd)] on vectors (solver.py 195-198, 201) *)
Definition interp_vec (kd : kind) (vs : list (list num)) (size : option nat) : list interp :=
  map (fun j => interp_new kd (component vs j) size) (seq 0 (length (hd [] vs))).
(** [f(t)] for vectors (interpolation.py 72-89) *)
Definition call_vec (fs : list interp) (t : Q) : list num := map (fun f => interp_call f t) fs.
(** [np.array(mask_)] as floats (interpolation.py 61, kind='previous') *)
Definition mask_num (l : list bool) : list num := map (fun b : bool => if b then Fin 1 else Fin 0) l.
(** [.astype(bool)] (interpolation.py 89) *)
Definition as_bool (v : num) : bool := negb (neqb v (Fin 0)).

(** the interpolated results (solver.py 195-202), [err] excepted: the model records its square *)
Record results : Type := mkResults {
  r_u : list interp; r_f : list interp; r_F : list interp; r_H : list interp;
  r_Z : interp; r_rl : interp; r_mask : list interp
}.
(** solver.py 191-205 *)
Definition results_of (S : sysdata) (h : list state) (size : option nat) : results :=
  mkResults (interp_vec LinearVec (map (st_u S) h) size) (interp_vec LinearVec (map (st_f S) h) size)
            (interp_vec LinearVec (map (st_F S) h) size) (interp_vec LinearVec (map (st_H S) h) size)
            (interp_new LinearScalar (map st_Z h) size) (interp_new LinearScalar (map st_rl h) None)
            (interp_vec Previous (map (fun s => mask_num (st_mask s)) h) None).
(** [solve] as called by the user (solver.py 13-205) *)
Definition solve_full (lsolve : ncoo -> list num -> list num) (m : qmat) (g : mesh_df) (p : solve_params) (size : option nat)
  : res results :=
  do r <- solve lsolve m g p; Ok (results_of (fst r) (snd r) size).
