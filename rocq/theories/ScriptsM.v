(** Model of the names of the package (src/fibermat/__init__.py 62-69) and of the scripts scripts/square.py and
    scripts/logo.py.  The display and the files written at the end are not modelled. *)
From Coq Require Import String Ascii.
From Verif Require Import Num ListX Frames MatM NetM StackM MeshM ModelM SolverM InterpM ResultM RenderM VtkM PlotM MainM PictureM.
Open Scope Q_scope.

(** *** names *)
(** what a name stands for: a class or function of a file of the package, a name of another library, a file
    of the package (no counterpart in the code) *)
Inductive thing : Type := Defn (file name : string) | Lib (name : string) | Submodule (file : string).
(** the names of a module, the latest binding first (__init__.py 62-69) *)
Definition namespace : Type := list (string * thing).
(** a name is looked up (__init__.py 62-69) *)
Fixpoint lookup (ns : namespace) (x : string) : option thing :=
  match ns with
  | [] => None
  | (y, v) :: t => if String.eqb x y then Some v else lookup t x
  end.
(** a file of the package: the names it imports from other libraries and from the package, and those it defines;
    all are public (mat.py 4-11, net.py 4-15, 382, mesh.py 4-13, interpolation.py 4-9, model.py 4-12, 186,
    303, solver.py 4-13, render.py 4-14, 99, 157, widgets.py 4-9) *)
Record source : Type := mkSource { src_file : string; src_libs : list string; src_uses : list string; src_defs : list string }.
(** the files in the order of __init__.py 62-69 *)
Definition package : list source := ([
  mkSource "mat" ["np"; "pd"; "warnings"; "plt"; "tqdm"] [] ["Mat"];
  mkSource "net" ["np"; "pd"; "sp"; "warnings"; "plt"; "interp1d"; "tqdm"] ["Mat"] ["Net"; "Stack"];
  mkSource "mesh" ["np"; "pd"; "warnings"; "plt"; "tqdm"] ["Mat"; "Net"] ["Mesh"];
  mkSource "interpolation" ["np"; "plt"; "interp1d"] [] ["Interpolate"];
  mkSource "model" ["np"; "sp"; "plt"; "interp1d"] ["Mat"; "Net"; "Stack"; "Mesh"] ["stiffness"; "constraint"; "plot_system"];
  mkSource "solver" ["np"; "sp"; "warnings"; "plt"; "tqdm"]
    ["Mat"; "Net"; "Stack"; "Mesh"; "stiffness"; "constraint"; "Interpolate"] ["solve"];
  mkSource "render" ["np"; "pv"; "plt"; "CubicHermiteSpline"; "KDTree"; "tqdm"]
    ["Mat"; "Net"; "Stack"; "Mesh"; "solve"] ["vtk_fiber"; "vtk_mat"; "vtk_mesh"];
  mkSource "widgets" ["ipywidgets"; "np"; "display"; "HTML"] [] ["Settings"]])%string.
(** [from fibermat import Mat, ...] in a file, while the package is being imported: ImportError for a name
    that is not there yet (net.py 12, mesh.py 10, model.py 9, solver.py 10, render.py 11) *)
Fixpoint resolve (ns : namespace) (l : list string) : res namespace :=
  match l with
  | [] => Ok []
  | x :: t =>
    match lookup ns x with
    | None => Exn ImportErr
    | Some v => do r <- resolve ns t; Ok ((x, v) :: r)
    end
  end.
(** [from fibermat.FILE import *] (__init__.py 62-69): the file becomes an attribute of the package, then its
    names are copied, the definitions over the imported names *)
Definition star (ns : namespace) (s : source) : res namespace :=
  do u <- resolve ns (src_uses s);
  let defs := map (fun d => (d, Defn (src_file s) d)) (src_defs s) in
  let libs := map (fun d => (d, Lib d)) (src_libs s) in
  Ok (defs ++ u ++ libs ++ (src_file s, Submodule (src_file s)) :: ns).
(** the lines of __init__.py one after the other (__init__.py 62-69) *)
Fixpoint import_all (ns : namespace) (l : list source) : res namespace :=
  match l with
  | [] => Ok ns
  | s :: t => do ns' <- star ns s; import_all ns' t
  end.
(** [from fibermat import *]: all these names are public (scripts/square.py 66, scripts/logo.py 1) *)
Definition fibermat : res namespace := import_all [] package.

(** *** what both scripts do with a mat *)
(** what is left by a script (scripts/square.py 78-103, scripts/logo.py 35-53) *)
Record packed : Type := mkPacked {
  pk_mat : qmat; pk_net : net_df; pk_stack : net_df; pk_mesh : mesh_df; pk_results : results; pk_points : list vpoint
}.

Section Scripts.
  Variable R : rng.
  Variables cos sin : Q -> Q.
  (** scipy's linprog (net.py 701) *)
  Variable linprog : lp -> list Q.
  (** [spsolve] (solver.py 14) *)
  Variable lsolve : ncoo -> list num -> list num.
  (** pyvista and KDTree (render.py 74-93, 224) *)
  Variable cyl : list vec.
  Variable place : qfiber -> vec -> vec.
  Variable near : list Q -> Q -> nat.

  (** the call of the function named [name] with the arguments of the solver (scripts/square.py 85-88,
      scripts/logo.py 43-46, where the name is "solver"): a module cannot be called; nor do the other
      functions of the package take these arguments *)
  Definition call_solver (name : string) (m : qmat) (g : mesh_df) (p : solve_params) (size : option nat) : res results :=
    do ns <- fibermat;
    match lookup ns name with
    | None => Exn NameErr
    | Some (Defn _ d) => if String.eqb d "solve" then solve_full lsolve m g p size else Exn TypeErr
    | Some _ => Exn TypeErr
    end.
  (** from the mat to the points of the exported mesh (scripts/square.py 78-103, scripts/logo.py 35-53; the
      matrix C given back by [solve] is the one of [constraint]) *)
  Definition pack (name : string) (m0 : qmat) (per : bool) (thr : option Q) (p : solve_params) (size : option nat) : res packed :=
    do t <- net_new m0 per None;
    do sm <- stack_new linprog m0 t thr;
    let m := snd sm in
    do g <- mesh_new (fst sm);
    do r <- call_solver name m g p size;
    do cs <- constraint m g;
    do y <- finite_arg (call_vec (r_u r) 1);
    do z <- finite_arg (pull (2 * length (g_rows g)) (csC cs) (call_vec (r_f r) 1));
    let '(disp, rot) := every_other y in
    let '(force, moment) := every_other z in
    do pts <- vtk_mesh cyl place near m g (Some disp) (Some rot) (Some force) (Some moment);
    Ok (mkPacked m t (fst sm) g r pts).
  (** packing=4, itermax=10000, lmin=0.01, coupling=0.99 and the defaults (scripts/square.py 87, scripts/logo.py 45,
      solver.py 13-15) *)
  Definition script_args : solve_params :=
    mkSolve (Fin 4) (100 * 100) None (1 # 1000000) (1 # 1000000) (Some (1 # 100)) None (99 # 100).

  (** *** scripts/square.py *)
  (** the mat of square.py, for [n] fibers (scripts/square.py 76; mat.py 158-159 for the defaults) *)
  Definition square_params (n : Z) : mat_params := mkParams n 4 (1 # 5) (1 # 20) 40 np_pi 0 (Fin 1) (Fin 1600) (Some 0%Z).
  (** the script, where the solver is called [name] and there are [n] fibers: "solver" and 3000 in scripts/square.py 76-103 *)
  Definition square (name : string) (n : Z) (ent prior : rng_state R) : res packed :=
    do ms <- mat_new R cos sin (square_params n) ent prior;
    pack name (read_mat (fst ms)) true (Some 1) script_args (Some 100%nat).

  (** *** scripts/logo.py *)
  (** a row of the mask (scripts/logo.py 3-21) *)
  Fixpoint bits (s : string) : list bool :=
    match s with
    | EmptyString => []
    | String a t => Ascii.eqb a "1" :: bits t
    end.
  (** the mask (scripts/logo.py 3-21) *)
  Definition logo_mask : list (list bool) := map bits ([
    "00000000000000000000000000000000000000000000000000000000000";
    "00000000000000000000000000000000000000000000000000000000000";
    "11111111011011000000000000000000001111000111100000000110000";
    "11111111011011000000000000000000001111000111100000000110000";
    "11000000000011000001111110101111001101101101100000000110000";
    "11000000000011000001111110101111001101101101100000000110000";
    "11111000011011111101100110110001001100111001101111110111110";
    "11111000011011111101100110110001001100111001101111110111110";
    "11000000011011001101100000110000001100000001101100110110000";
    "11000000011011001101100000110000001100000001101100110110000";
    "11000000011011111000111110110000001100000001101110110111110";
    "11000000011011111000111110110000001100000001101110110111110";
    "00000000000000000000000000000000000000000000000000000000000";
    "00000000000000000000000000000000000000000000000000000000000"
  ])%string.
  (** an index of an array of length [n], negative ones counted from the end (scripts/logo.py 29) *)
  Definition at_pos (n : nat) (i : Z) : res nat :=
    let j := if (i <? 0)%Z then (i + Z.of_nat n)%Z else i in
    if (j <? 0)%Z || (Z.of_nat n <=? j)%Z then Exn IndexErr else Ok (Z.to_nat j).
  (** [mask[i, j]] with [j = (x + 29) // 1] and [i = (y + 6) // 1] (scripts/logo.py 27-29); the array has as many
      columns as its first row *)
  Definition logo_cell (p : Q * Q) : res bool :=
    let j := Qfloor (fst p + 29) in
    let i := Qfloor (snd p + 6) in
    do a <- at_pos (length logo_mask) i;
    do b <- at_pos (length (hd [] logo_mask)) j;
    Ok (nth b (nth a logo_mask []) false).
  (** [mask[i, j]] for all the points (scripts/logo.py 29) *)
  Fixpoint logo_cells (l : list (Q * Q)) : res (list bool) :=
    match l with
    | [] => Ok []
    | p :: t => do a <- logo_cell p; do b <- logo_cells t; Ok (a :: b)
    end.
  (** the [n] points drawn in the rectangle (scripts/logo.py 25-26): [uniform(-29, 29)] and [uniform(-6, 6)] from
      numbers between -1/2 and 1/2; with the state of the generator afterwards *)
  Definition logo_points (n : nat) (s : rng_state R) : list (Q * Q) * rng_state R :=
    let '(dx, s1) := draws R n s in
    let '(dy, s2) := draws R n s1 in
    (combine (map (fun d => 58 * d) dx) (map (fun d => 12 * d) dy), s2).
  (** the mat, for [n] fibers (scripts/logo.py 32; mat.py 158-159 for the defaults) *)
  Definition logo_params (n : Z) : mat_params := mkParams n 1 (1 # 10) (1 # 20) 60 np_pi 0 (Fin 1) (Fin 400) (Some 0%Z).
  (** [mat.x = x; mat.y = -y] (scripts/logo.py 33-34) *)
  Definition set_place (p : (Q * Q) * qfiber) : qfiber :=
    let f := snd p in
    mkQ (ql f) (qb f) (qh f) (fst (fst p)) (- snd (fst p)) (qz f) (qu f) (qv f) (qw f) (qG f) (qE f).
  (** [mat.x = x; mat.y = -y] for all rows (scripts/logo.py 33-34) *)
  Definition set_places (l : list (Q * Q)) (m : qmat) : qmat := mkQmat (map set_place (combine l (q_rows m))) (q_size m).
  (** the mat of the logo (scripts/logo.py 23-34); [ent], [prior]: entropy and state before the script *)
  Definition logo_mat (n : nat) (ent prior : rng_state R) : res qmat :=
    do s <- reseed R (Some 0%Z) ent;
    let '(pts, s2) := logo_points n s in
    do keep <- logo_cells pts;
    let xy := select keep pts in
    do ms <- mat_new R cos sin (logo_params (Z.of_nat (length xy))) ent s2;
    Ok (set_places xy (read_mat (fst ms))).
  (** the script, where the solver is called [name] and [n] points are drawn: "solver" and 10000 in scripts/logo.py 23-53 *)
  Definition logo (name : string) (n : nat) (ent prior : rng_state R) : res packed :=
    do m0 <- logo_mat n ent prior;
    pack name m0 false None script_args (Some 100%nat).
End Scripts.
