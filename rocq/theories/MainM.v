(** Model of the main script (/repo/main.py 64-109): from the parameters of the mat to the points of the
    VTK mesh.  The display and the file written at the end (main.py 88, 108-109) are not modelled. *)
From Verif Require Import Num ListX Frames MatM NetM StackM MeshM ModelM SolverM InterpM ResultM RenderM VtkM PlotM.
Open Scope Q_scope.

(** the rows of a table seen with finite geometry (mat.py 222-229) *)
Definition read_fiber (f : fiber) : qfiber :=
  mkQ (qof (fl f)) (qof (fb f)) (qof (fh f)) (qof (fx f)) (qof (fy f)) (qof (fz f)) (qof (fu f)) (qof (fv f)) (qof (fw f)) (fG f) (fE f).
(** the mat as it is read by the other modules (mat.py 222-229); see C79_read *)
Definition read_mat (m : mat_df) : qmat :=
  mkQmat (map (fun r => read_fiber (snd r)) (m_rows m)) (match at_size (m_attrs m) with Some s => qof s | None => 0 end).

(** [x.reshape(-1, 2).T[k]] (main.py 106-107) *)
Fixpoint every_other {A} (l : list A) : list A * list A :=
  match l with
  | a :: b :: t => let '(x, y) := every_other t in (a :: x, b :: y)
  | _ => ([], [])
  end.
(** [f @ C] (main.py 107), [nu] the number of columns of C *)
Definition pull (nu : nat) (C : ncoo) (f : list num) : list num :=
  map (matvec (map (fun e => (snd (fst e), fst (fst e), snd e)) C) f) (seq 0 nu).
(** scipy's CubicHermiteSpline refuses values that are not finite with ValueError (render.py 247, 256);
    in [vtk_mesh] this comes after the checks of the mat and of the mesh, which pass when [solve] returned *)
Definition finite_arg (l : list num) : res (list Q) := if forallb is_fin l then Ok (map qof l) else Exn ValueErr.

(** the keyword arguments of the script (main.py 69-98) *)
Record options : Type := mkOptions {
  op_mat : mat_params; op_periodic : bool; op_threshold : option Q;
  op_packing : num; op_itermax : nat; op_tol : Q; op_errtol : Q; op_lmin : option Q; op_lmax : option Q; op_coupling : Q;
  op_size : option nat
}.
(** what the script has computed when it ends (main.py 69-107) *)
Record outcome : Type := mkOutcome {
  out_mat : qmat; out_net : net_df; out_stack : net_df; out_mesh : mesh_df;
  out_perm : list nat; out_picture : colour -> list (nat * nat); out_error : num;
  out_results : results; out_points : list vpoint
}.

Section Script.
  Variable R : rng.
  Variables cos sin : Q -> Q.
  (** scipy's linprog (net.py 701) *)
  Variable linprog : lp -> list Q.
  (** [reverse_cuthill_mckee] of a square matrix of the given size (main.py 83) *)
  Variable rcm : nat -> ncoo -> list nat.
  (** [spsolve] (main.py 85) *)
  Variable lsolve : ncoo -> list num -> list num.
  (** pyvista and KDTree (render.py 74-93, 224) *)
  Variable cyl : list vec.
  Variable place : qfiber -> vec -> vec.
  Variable near : list Q -> Q -> nat.

  (** the arguments of [solve] (main.py 92-97) *)
  Definition solver_args (o : options) (perm : list nat) : solve_params :=
    mkSolve (op_packing o) (op_itermax o) (Some perm) (op_tol o) (op_errtol o) (op_lmin o) (op_lmax o) (op_coupling o).
  (** main.py 69-107; [plot_system] has the default tolerance 1e-6 (main.py 87, model.py 304) *)
  Definition script (o : options) (ent prior : rng_state R) : res outcome :=
    do ms <- mat_new R cos sin (op_mat o) ent prior;
    let m0 := read_mat (fst ms) in
    do t <- net_new m0 (op_periodic o) None;
    do sm <- stack_new linprog m0 t (op_threshold o);
    let st := fst sm in
    let m := snd sm in
    do g <- mesh_new st;
    do K <- stiffness m g None None 1;
    do cs <- constraint m g;
    let nu := (2 * length (g_rows g))%nat in
    let nc := length (csH cs) in
    let zu := repeat (Fin 0) nu in
    let zf := repeat (Fin 0) nc in
    let perm := rcm (nu + nc)%nat (bmat nu K (csC cs)) in
    do pe <- plot_system lsolve nu nc K (csC cs) zu zu zu zu zf (csH cs) zf (csdH cs) (Some perm) (1 # 1000000);
    do r <- solve_full lsolve m g (solver_args o perm) (op_size o);
    do y <- finite_arg (call_vec (r_u r) 1);
    do z <- finite_arg (pull nu (csC cs) (call_vec (r_f r) 1));
    let '(disp, rot) := every_other y in
    let '(force, moment) := every_other z in
    do pts <- vtk_mesh cyl place near m g (Some disp) (Some rot) (Some force) (Some moment);
    Ok (mkOutcome m t st g perm (fst pe) (snd pe) r pts).
End Script.
