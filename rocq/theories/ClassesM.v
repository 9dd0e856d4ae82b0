(** Classes of tables and the dispatch of the constructors on the class of their first argument
    (mat.py 143-154, net.py 128-140, 515-527, mesh.py 118-130): a constructor either wraps the
    table it is given, after a check, or builds a new one from it.  pandas gives a plain
    DataFrame for a copy or a selection of rows of an object of the package, which defines no
    [_constructor] (mat.py 11, net.py 15, mesh.py 13).  The computations are those of MatM, NetM, StackM and
    MeshM. *)
From Verif Require Import Num ListX Frames MatM NetM StackM MeshM MainM.
Open Scope Q_scope.

(** the class of a table: pd.DataFrame, Mat, Net, Stack, Mesh (mat.py 11, net.py 15, 382, mesh.py 13) *)
Inductive class : Type := Plain | CMat | CNet | CStack | CMesh.

(** a table: its class, its attributes, and what is read of it as a mat (mat.py 300), as a network
    (net.py 343) and as a mesh (mesh.py 267); [None]: a column is missing, so the selection of the
    columns raises KeyError *)
Record table : Type := mkTable {
  t_class : class; t_attrs : attrs;
  t_mat : option mat_df; t_net : option net_df; t_mesh : option mesh_df
}.
(** the same data as an object of another class: [super().__init__(df)] and
    [self.attrs = args[0].attrs] (mat.py 145-147, net.py 131-133, mesh.py 121-123) *)
Definition as_class (c : class) (t : table) : table := mkTable c (t_attrs t) (t_mat t) (t_net t) (t_mesh t).
(** [df.copy()] (used in net.py 186, 190, 194): a DataFrame with the same data and attributes *)
Definition copy (t : table) : table := as_class Plain t.

(** a check on a table (mat.py 292-303, net.py 335-346, mesh.py 259-270) *)
Definition checked {A} (f : A -> res bool) (v : option A) (a : attrs) : res bool :=
  match v with
  | Some d => f d
  | None => if skipped a then Ok true else Exn KeyErr
  end.
(** [Mat.check], [Net.check] and [Stack.check], [Mesh.check] on any table (mat.py 254, net.py 296, 615, mesh.py 223) *)
Definition check_mat (t : table) : res bool := checked mat_check (t_mat t) (t_attrs t).
(** see above (net.py 296, 655) *)
Definition check_net (t : table) : res bool := checked net_check (t_net t) (t_attrs t).
(** see above (mesh.py 223) *)
Definition check_mesh (t : table) : res bool := checked mesh_check (t_mesh t) (t_attrs t).

(** wrap and check (mat.py 143-147, 154) *)
Definition wrapped (c : class) (check : table -> res bool) (t : table) : res table :=
  do _ <- check t; Ok (as_class c t).

(** a new table with the columns of a mat, of a network, of a mesh (mat.py 222-232, net.py 258-273, mesh.py 167-199) *)
Definition mat_table (d : mat_df) : table := mkTable CMat (m_attrs d) (Some d) None None.
(** see above (net.py 258-273) *)
Definition net_table (c : class) (d : net_df) : table := mkTable c (n_attrs d) None (Some d) None.
(** see above (mesh.py 167-199) *)
Definition mesh_table (d : mesh_df) : table := mkTable CMesh (g_attrs d) None None (Some d).

(** [isinstance(args[0], Mat)], [isinstance(args[0], Net)] (net.py 128-129, mesh.py 118-119); a Stack is a Net (net.py 382) *)
Definition is_mat (t : table) : bool := match t_class t with CMat => true | _ => false end.
(** see above (mesh.py 119) *)
Definition is_net (t : table) : bool := match t_class t with CNet | CStack => true | _ => false end.
(** a keyword argument is given (net.py 131, 518) *)
Definition passed {A} (o : option A) : bool := match o with Some _ => true | None => false end.

(** the columns of a mat with finite entries (mat.py 222-225), after [Mat.check] (net.py 173); KeyError without
    them.  A mat without the columns that is not checked at all (skip_check) raises later, not modelled: KeyError *)
Definition read_fibers (t : table) : res qmat :=
  match t_mat t with
  | None => Exn KeyErr
  | Some d => do _ <- mat_check d; Ok (read_mat d)
  end.
(** the columns of a network (mesh.py 162-164); KeyError without them *)
Definition read_rows (t : table) : res net_df :=
  match t_net t with
  | None => Exn KeyErr
  | Some d => Ok d
  end.

(** [Mat(df)] (mat.py 143-154) *)
Definition make_mat (t : table) : res table := wrapped CMat check_mat t.
(** [Net(t, periodic=..., pairs=...)] (net.py 128-140); a DataFrame has no such keywords: TypeError (131) *)
Definition make_net (t : table) (per : option bool) (pairs : option (list (Z * Z))) : res table :=
  if is_mat t then
    do m <- read_fibers t;
    do n <- net_new m (match per with Some b => b | None => true end) pairs;
    Ok (net_table CNet n)
  else if passed per || passed pairs then Exn TypeErr
  else wrapped CNet check_net t.
(** [Mesh(t)] (mesh.py 118-130) *)
Definition make_mesh (t : table) : res table :=
  if is_net t then
    do n <- read_rows t;
    do g <- mesh_new n;
    Ok (mesh_table g)
  else wrapped CMesh check_mesh t.

(** the network [Net()] used when none is given (net.py 562-563) *)
Definition no_net : net_df := mkNetDf net_columns [] (mkAttrs (Some 0%Z) (Some (Fin 50)) (Some true) None) true.

Section Stacks.
  (** as in StackM (net.py 701) *)
  Variable linprog : lp -> list Q.

  (** [Stack(t, net, threshold=...)] (net.py 515-527): the stack and the first argument afterwards, whose
      heights are changed in place (573).  A second positional argument after a table that is not a
      Mat goes to pandas (518), which takes it for row labels and raises ValueError. *)
  Definition make_stack (t : table) (net : option table) (thr : option Q) : res (table * table) :=
    if is_mat t then
      do m <- read_fibers t;
      do n <- match net with Some n => do _ <- check_net n; read_rows n | None => Ok no_net end;
      do r <- stack_new linprog m n thr;
      Ok (net_table CStack (fst r), mkTable CMat (t_attrs t) (Some (df_of (snd r))) (t_net t) (t_mesh t))
    else if passed thr then Exn TypeErr
    else if passed net then Exn ValueErr
    else do s <- wrapped CStack check_net t; Ok (s, t).
End Stacks.
