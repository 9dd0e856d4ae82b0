(** Missing arguments: each function of the interface takes [None] for a mat, a network or a mesh
    and then builds an empty one itself, which seeds the global generator of numpy (mat.py 199,
    287-288; net.py 170-171, 330-331, 560-563, 649-650, 686-689, 742-745; mesh.py 156-157, 254-255;
    model.py 118-121, 249-252; render.py 133-134, 208-211).  The functions on the arguments are
    those of MatM, NetM, StackM, MeshM, ModelM, SolverM and VtkM.  Only the state of the generator
    is followed here; for the sharing of attributes see AliasM. *)
From Verif Require Import Num ListX Frames MatM NetM StackM MeshM ModelM SolverM VtkM MainM.
Open Scope Q_scope.

(** default parameters of [Mat.init] (mat.py 159-160) *)
Definition default_params : mat_params := mkParams 0 25 1 1 50 np_pi 0 (Fin 1) PInf (Some 0%Z).

(** a call of the interface; [None] is an argument left out (lines at each constructor) *)
Inductive call : Type :=
| KMat                                                         (** Mat() (mat.py 158-160) *)
| KMatCheck (m : option mat_df)                                (** Mat.check (mat.py 287-290) *)
| KNet (m : option qmat) (per : bool) (pairs : option (list (Z * Z)))   (** Net (net.py 144, 170-171) *)
| KNetCheck (t : option net_df)                                (** Net.check (net.py 330-333) *)
| KStack (m : option qmat) (t : option net_df) (thr : option Q)         (** Stack (net.py 532, 560-563) *)
| KStackCheck (t : option net_df)                              (** Stack.check (net.py 649-655) *)
| KHeights (m : option qmat) (t : option net_df)               (** Stack.solve (net.py 686-689) *)
| KProgram (m : option qmat) (t : option net_df)               (** Stack.constraint (net.py 742-745) *)
| KMesh (t : option net_df)                                    (** Mesh (mesh.py 156-157) *)
| KMeshCheck (g : option mesh_df)                              (** Mesh.check (mesh.py 254-257) *)
| KStiffness (m : option qmat) (g : option mesh_df) (lmin lmax : option Q) (coupling : Q)   (** stiffness (model.py 118-121) *)
| KConstraint (m : option qmat) (g : option mesh_df)           (** constraint (model.py 249-252) *)
| KSolve (m : option qmat) (g : option mesh_df) (p : solve_params)      (** solve (solver.py 109-110), up to the interpolation *)
| KVtkMat (m : option qmat)                                    (** vtk_mat (render.py 133-134), without [func] *)
| KVtkMesh (m : option qmat) (g : option mesh_df) (disp rot force moment : option (list Q)). (** vtk_mesh (render.py 208-211) *)

(** what a call returns (the return statements of the functions above, e.g. mat.py 232) *)
Inductive answer : Type :=
| AMat (m : qmat) | ABool (b : bool) | ANet (t : net_df) | AStack (t : net_df) (m : qmat)
| AHeights (z : option (list Q)) | AProgram (p : lp) | AMesh (g : mesh_df) | AMatrix (K : ncoo)
| ABounds (c : csys) | AHistory (d : sysdata) (l : list state) | APoints (l : list vpoint).

(** an exception is passed on (all files) *)
Definition wrap {A} (F : A -> answer) (r : res A) : res answer := do a <- r; Ok (F a).

Section Defaults.
  Variable R : rng.
  Variables cos sin : Q -> Q.
  (** the oracles of StackM, SolverM and VtkM (net.py 701, solver.py 150, render.py 74-93, 224) *)
  Variable linprog : lp -> list Q.
  Variable lsolve : ncoo -> list num -> list num.
  Variable cyl : list vec.
  Variable place : qfiber -> vec -> vec.
  Variable near : list Q -> Q -> nat.

  (** a computation that may change the global generator, also when it raises (mat.py 199) *)
  Definition eff (A : Type) : Type := rng_state R -> res A * rng_state R.
  (** without effect on the generator (all files) *)
  Definition pure {A} (r : res A) : eff A := fun s => (r, s).
  (** one statement after the other; an exception stops (all files) *)
  Definition next {A B} (x : eff A) (k : A -> eff B) : eff B := fun s =>
    match x s with
    | (Ok a, s') => k a s'
    | (Exn e, s') => (Exn e, s')
    end.

  (** [Mat()] (mat.py 151, 158-232); the entropy is not used with a seed *)
  Definition new_mat : eff qmat := fun s =>
    match mat_new R cos sin default_params s s with
    | Ok ms => (Ok (read_mat (fst ms)), snd ms)
    | Exn e => (Exn e, s)
    end.
  (** [if mat is None: mat = Mat()] (net.py 170-171) *)
  Definition mat_or (m : option qmat) : eff qmat :=
    match m with Some m => pure (Ok m) | None => new_mat end.
  (** [Net(mat, periodic, pairs)] (net.py 144-273) *)
  Definition new_net (m : option qmat) (per : bool) (pairs : option (list (Z * Z))) : eff net_df :=
    next (mat_or m) (fun m => pure (net_new m per pairs)).
  (** [if net is None: net = Net()] (net.py 562-563) *)
  Definition net_or (t : option net_df) : eff net_df :=
    match t with Some t => pure (Ok t) | None => new_net None true None end.
  (** [Stack(mat, net, threshold)] (net.py 532-593) *)
  Definition new_stack (m : option qmat) (t : option net_df) (thr : option Q) : eff (net_df * qmat) :=
    next (mat_or m) (fun m => next (net_or t) (fun t => pure (stack_new linprog m t thr))).
  (** [Mesh(net)] (mesh.py 134-199) *)
  Definition new_mesh (t : option net_df) : eff mesh_df :=
    next (net_or t) (fun t => pure (mesh_new t)).
  (** [if mesh is None: mesh = Mesh()] (model.py 120-121) *)
  Definition mesh_or (g : option mesh_df) : eff mesh_df :=
    match g with Some g => pure (Ok g) | None => new_mesh None end.
  (** [stiffness(mat, mesh, lmin, lmax, coupling)] (model.py 118-183) *)
  Definition new_stiffness (m : option qmat) (g : option mesh_df) (lmin lmax : option Q) (coupling : Q) : eff ncoo :=
    next (mat_or m) (fun m => next (mesh_or g) (fun g => pure (stiffness m g lmin lmax coupling))).
  (** [constraint(mat, mesh)] (model.py 249-300) *)
  Definition new_constraint (m : option qmat) (g : option mesh_df) : eff csys :=
    next (mat_or m) (fun m => next (mesh_or g) (fun g => pure (constraint m g))).

  (** one call (the lines of each constructor of [call]).  [solve] passes a missing mat or mesh on
      to [stiffness] and to [constraint] (solver.py 109-110); then it reads [mesh.z], which raises
      AttributeError without a mesh (solver.py 129) and is reached only with a mat and a mesh, see
      C101_solve. *)
  Definition run_call (c : call) : eff answer :=
    match c with
    | KMat => next new_mat (fun m => pure (Ok (AMat m)))
    | KMatCheck None => next new_mat (fun m => pure (wrap ABool (mat_check (df_of m))))
    | KMatCheck (Some d) => pure (wrap ABool (mat_check d))
    | KNet m per pairs => next (new_net m per pairs) (fun t => pure (Ok (ANet t)))
    | KNetCheck t => next (net_or t) (fun t => pure (wrap ABool (net_check t)))
    | KStack m t thr => next (new_stack m t thr) (fun r => pure (Ok (AStack (fst r) (snd r))))
    | KStackCheck None => next (new_stack None None None) (fun r => pure (wrap ABool (net_check (fst r))))
    | KStackCheck (Some t) => pure (wrap ABool (net_check t))
    | KHeights m t => next (mat_or m) (fun m => next (net_or t) (fun t => pure (wrap AHeights (stack_solve linprog m t))))
    | KProgram m t => next (mat_or m) (fun m => next (net_or t) (fun t => pure (wrap AProgram (stack_constraint m t))))
    | KMesh t => next (new_mesh t) (fun g => pure (Ok (AMesh g)))
    | KMeshCheck g => next (mesh_or g) (fun g => pure (wrap ABool (mesh_check g)))
    | KStiffness m g lmin lmax coupling => next (new_stiffness m g lmin lmax coupling) (fun K => pure (Ok (AMatrix K)))
    | KConstraint m g => next (new_constraint m g) (fun c => pure (Ok (ABounds c)))
    | KSolve m g p =>
      next (new_stiffness m g (sp_lmin p) (sp_lmax p) (sp_coupling p)) (fun _ =>
      next (new_constraint m g) (fun _ =>
      match m, g with
      | Some m, Some g => pure (wrap (fun r => AHistory (fst r) (snd r)) (solve lsolve m g p))
      | _, _ => pure (Exn AttrErr)
      end))
    | KVtkMat m => next (mat_or m) (fun m => pure (wrap APoints (vtk_mat cyl place m (fun l _ => Ok l))))
    | KVtkMesh m g disp rot force moment =>
      next (mat_or m) (fun m => next (mesh_or g) (fun g => pure (wrap APoints (vtk_mesh cyl place near m g disp rot force moment))))
    end.

  (** a session: calls one after the other, each caught if it raises; the answers and the state of
      the generator after them (an interactive session of docs and README, README.md) *)
  Fixpoint run_calls (l : list call) (s : rng_state R) : list (res answer) * rng_state R :=
    match l with
    | [] => ([], s)
    | c :: t =>
      let '(a, s1) := run_call c s in
      let '(r, s2) := run_calls t s1 in
      (a :: r, s2)
    end.
End Defaults.
