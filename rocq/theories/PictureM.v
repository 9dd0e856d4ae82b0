(** Model of the pictures drawn by the scripts at the end of mat.py, net.py, mesh.py and solver.py
    (also cells 17, 21, 24 and 28 of jupyter-notebook.ipynb): what is drawn and where; colour maps, axes
    and the 3D view are not modelled. *)
From Verif Require Import Num ListX Frames MatM NetM StackM MeshM VtkM.
Open Scope Q_scope.

(** a line between two points ([plt.plot], mat.py 373) *)
Definition line : Type := (vec * vec)%type.
(** the two ends of a fiber (mat.py 371-372, net.py 825-826) *)
Definition fiber_line (f : qfiber) : line :=
  (mkVec (qx f - half * ql f * qu f) (qy f - half * ql f * qv f) (qz f - half * ql f * qw f),
   mkVec (qx f + half * ql f * qu f) (qy f + half * ql f * qv f) (qz f + half * ql f * qw f)).
(** the fibers (mat.py 366-373) *)
Definition mat_picture (m : qmat) : list line := map fiber_line (q_rows m).
(** the two points of a connection (net.py 809-810) *)
Definition conn_line (c : conn) : line := (mkVec (cxA c) (cyA c) (czA c), mkVec (cxB c) (cyB c) (czB c)).

(** [~np.isclose(force, 0)] (net.py 830): beyond the absolute tolerance 1e-8 *)
Definition loaded (x : Q) : bool := negb (Qleb (Qabs x) (1 # 100000000)).
(** [points[mask]] (net.py 830) *)
Fixpoint select {A} (mask : list bool) (l : list A) : list A :=
  match mask, l with
  | b :: mask', a :: l' => if b then a :: select mask' l' else select mask' l'
  | _, _ => []
  end.
(** rows of the stack with A < B (net.py 809) *)
Definition stack_points (st : net_df) : list line :=
  map conn_line (filter (fun c => (cA c <? cB c)%Z) (map snd (n_rows st))).
(** the contacts drawn at the end of net.py (net.py 795-798, 809-810, 828-831): [m] is the mat moved by
    [Stack], [t] the network it was built from, [marg] the marginals returned by linprog.  For an
    empty mat [linsol] is None and has no attribute (net.py 798); a mask of the wrong length raises IndexError
    (net.py 830). *)
Definition stack_picture (marg : lp -> list Q) (m : qmat) (t st : net_df) : res (list line) :=
  do p <- stack_constraint m t;
  match q_rows m with
  | [] => Exn AttrErr
  | _ =>
    let force := marg p in
    let points := stack_points st in
    if Nat.eqb (length points) 0 then Ok []
    else if negb (Nat.eqb (length force) (length points)) then Exn IndexErr
    else Ok (select (map loaded force) points)
  end.

(** what a line of the picture of a mesh stands for (mesh.py 359-369): a part of a fiber with its colour, a
    connection, the mark of an end *)
Inductive style : Type := Along (colour : Z) | Between | Mark.
(** a line from node [sk_from] to node [sk_to] (mesh.py 361, 365, 369) *)
Record stroke : Type := mkStroke { sk_style : style; sk_from : Z; sk_to : Z; sk_line : line }.
(** [mesh.iloc[i]]: by position, counted from the end if negative (mesh.py 357-367) *)
Definition iloc (rows : list (Z * node)) (i : Z) : res node :=
  let j := if (i <? 0)%Z then (i + Z.of_nat (length rows))%Z else i in
  if (j <? 0)%Z then Exn IndexErr else
  match nth_error rows (Z.to_nat j) with Some r => Ok (snd r) | None => Exn IndexErr end.
(** coordinates of a node (mesh.py 357) *)
Definition node_point (d : node) : vec := mkVec (nx d) (ny d) (nz d).
(** what is drawn for one row (mesh.py 354-369, solver.py 240-254) *)
Definition node_strokes (rows : list (Z * node)) (r : Z * node) : res (list stroke) :=
  let i := fst r in
  let j := nbeam (snd r) in
  let k := ncons (snd r) in
  do a <- iloc rows i;
  do b <- iloc rows j;
  do c <- iloc rows k;
  Ok ((if Qltb (ns a) (ns b) then [mkStroke (Along (nf a mod 10)) i j (node_point a, node_point b)] else [])
      ++ (if Qltb (nz a) (nz c) then [mkStroke Between i k (node_point a, node_point c)] else [])
      ++ (if Z.eqb (nf a) (nf c) then [mkStroke Mark i k (node_point a, node_point c)] else [])).
(** the loop (mesh.py 354, solver.py 240) *)
Fixpoint each_node (rows l : list (Z * node)) : res (list stroke) :=
  match l with
  | [] => Ok []
  | r :: t => do a <- node_strokes rows r; do b <- each_node rows t; Ok (a ++ b)
  end.
(** the picture of a mesh (mesh.py 352-369, solver.py 238-254) *)
Definition mesh_picture (g : mesh_df) : res (list stroke) := each_node (g_rows g) (g_rows g).

(** a node raised by [dz] (solver.py 232) *)
Definition raise_node (d : node) (dz : Q) : node := mkNode (nf d) (ns d) (nx d) (ny d) (nz d + dz) (nbeam d) (ncons d).
(** [mesh.z += u(1)[::2]] (solver.py 232); pandas raises ValueError when the lengths differ *)
Definition deform (g : mesh_df) (u : list Q) : res mesh_df :=
  if negb (Nat.eqb ((length u + 1) / 2) (length (g_rows g))) then Exn ValueErr else
  Ok (mkMeshDf (g_cols g)
        (map (fun p => (fst (snd p), raise_node (snd (snd p)) (nth (2 * fst p) u 0))) (combine (seq 0 (length (g_rows g))) (g_rows g)))
        (g_attrs g) (g_intf g) (g_intl g) (g_h g)).
