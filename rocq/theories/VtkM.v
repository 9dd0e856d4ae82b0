(** Model of [vtk_fiber], [vtk_mat] and [vtk_mesh] in src/fibermat/render.py: the points of the
    returned mesh with their fields.  Cells are not modelled.  Third-party geometry is an argument:
    [cyl], the points of [pv.CylinderStructured] (render.py 74-76), and [place], the effect of
    [msh.scale] and [pv.translate] on one point of a fiber (render.py 90-93). *)
From Verif Require Import Num ListX Frames MatM NetM MeshM RenderM.
Open Scope Q_scope.

(** a point of space, and the three columns of "lbh", "xyz" and "uvw" (render.py 83-85) *)
Record vec : Type := mkVec { vx : Q; vy : Q; vz : Q }.

(** a point of the VTK mesh: its position (the height may fail to be finite) and its fields
    (render.py 82-87, 235, 249-251, 257); [None]: the field is absent *)
Record vpoint : Type := mkVp {
  v_x : Q; v_y : Q; v_z : num;
  v_fiber : Z; v_lbh : vec; v_xyz : vec; v_uvw : vec; v_G : num; v_E : num;
  v_node : num;
  v_disp : option num; v_rot : option num; v_curv : option num; v_force : option num
}.

Section Render.
  Variable cyl : list vec.
  Variable place : qfiber -> vec -> vec.
  (** [KDTree(s).query(x)] for one abscissa (render.py 224), an oracle *)
  Variable near : list Q -> Q -> nat.

  (** [vtk_fiber(l, ..., E, index=i)] (render.py 73-96) *)
  Definition vtk_fiber (f : qfiber) (i : Z) : list vpoint :=
    map (fun c =>
           let p := place f c in
           mkVp (vx p) (vy p) (Fin (vz p)) i
                (mkVec (ql f) (qb f) (qh f))
                (mkVec (vx c * ql f) (vy c * qb f) (vz c * qh f))
                (mkVec (qu f) (qv f) (qw f)) (qG f) (qE f) NaN None None None None) cyl.

  (** the loop over the fibers (render.py 140-151) *)
  Fixpoint each_fiber (func : list vpoint -> Z -> res (list vpoint)) (rows : list (Z * qfiber)) : res (list vpoint) :=
    match rows with
    | [] => Ok []
    | (i, f) :: t =>
      do msh <- func (vtk_fiber f i) i;
      do rest <- each_fiber func t;
      Ok (msh ++ rest)
    end.
  (** [vtk_mat(mat, func)] (render.py 99-154): the points fiber by fiber, in the order of the mat *)
  Definition vtk_mat (m : qmat) (func : list vpoint -> Z -> res (list vpoint)) : res (list vpoint) :=
    do _ <- mat_check (df_of m);
    each_fiber func (enum (q_rows m)).

  (** one result per point, the first exception wins (vectorised in render.py 222-235) *)
  Fixpoint all_points (F : vpoint -> res vpoint) (l : list vpoint) : res (list vpoint) :=
    match l with
    | [] => Ok []
    | p :: t => do q <- F p; do r <- all_points F t; Ok (q :: r)
    end.
  (** [inteprolation_field(msh, i)] (render.py 219-235): sets "node" *)
  Definition interpolation_field (g : mesh_df) (msh : list vpoint) (i : Z) : res (list vpoint) :=
    do gr <- get_group g i;
    let s := map (fun r => ns (snd r)) gr in
    all_points (fun p =>
      do c <- node_coord s (map fst gr) (vx (v_xyz p)) (near s (vx (v_xyz p) * (9999 # 10000)));
      Ok (mkVp (v_x p) (v_y p) (v_z p) (v_fiber p) (v_lbh p) (v_xyz p) (v_uvw p) (v_G p) (v_E p)
               c (v_disp p) (v_rot p) (v_curv p) (v_force p))) msh.

  (** [CubicHermiteSpline(arange(n), y, d)] raises ValueError unless n >= 2 and the lengths agree
      (scipy; render.py 242, 247, 256) *)
  Definition spline_args (n : nat) (y d : list Q) : bool :=
    Nat.leb 2 n && Nat.eqb (length y) n && Nat.eqb (length d) n.
  (** the default slopes (render.py 245-246, 254-255) *)
  Definition slopes (y : list Q) (d : option (list Q)) : list Q :=
    match d with Some d => d | None => no_slope y end.
  (** the displacement fields, and the motion of the points (render.py 244-252) *)
  Definition displace (n : nat) (y : option (list Q)) (d : option (list Q)) (msh : list vpoint) : res (list vpoint) :=
    match y with
    | None => Ok msh
    | Some y =>
      let d := slopes y d in
      if spline_args n y d then
        Ok (map (fun p =>
              let w := at_coord (hermite y d) (v_node p) in
              mkVp (v_x p) (v_y p) (nadd (v_z p) w) (v_fiber p) (v_lbh p) (v_xyz p) (v_uvw p) (v_G p) (v_E p) (v_node p)
                   (Some w) (Some (at_coord (hermite' y d) (v_node p))) (Some (at_coord (hermite'' y d) (v_node p)))
                   (v_force p)) msh)
      else Exn ValueErr
    end.
  (** the force field (render.py 253-257) *)
  Definition load (n : nat) (y : option (list Q)) (d : option (list Q)) (msh : list vpoint) : res (list vpoint) :=
    match y with
    | None => Ok msh
    | Some y =>
      let d := slopes y d in
      if spline_args n y d then
        Ok (map (fun p =>
              mkVp (v_x p) (v_y p) (v_z p) (v_fiber p) (v_lbh p) (v_xyz p) (v_uvw p) (v_G p) (v_E p) (v_node p)
                   (v_disp p) (v_rot p) (v_curv p) (Some (at_coord (hermite y d) (v_node p)))) msh)
      else Exn ValueErr
    end.

  (** [np.min], [np.max] (render.py 262): NaN if there is one *)
  Definition pick (better : num -> num -> bool) (l : list num) : num :=
    match l with
    | [] => NaN
    | x :: t => fold_left (fun m y => match m, y with NaN, _ => NaN | _, NaN => NaN | _, _ => if better y m then y else m end) t x
    end.
  (** all the entries of [msh.points] (render.py 262): the three coordinates of every point *)
  Definition coords (msh : list vpoint) : list num := flat_map (fun p => [Fin (v_x p); Fin (v_y p); v_z p]) msh.
  (** [msh.copy().translate([dx, dy, 0])] (render.py 265-273) *)
  Definition translate (dx dy : Q) (p : vpoint) : vpoint :=
    mkVp (v_x p + dx) (v_y p + dy) (v_z p) (v_fiber p) (v_lbh p) (v_xyz p) (v_uvw p) (v_G p) (v_E p) (v_node p)
         (v_disp p) (v_rot p) (v_curv p) (v_force p).
  (** [clip_box([-X, X, -Y, Y, Z1, Z2], invert=False)] (render.py 274), on points: the points of
      the copies inside the box stay; the points that VTK adds where it cuts cells are not modelled *)
  Definition in_clip (X Y : Q) (Z1 Z2 : num) (p : vpoint) : bool :=
    Qleb (- X) (v_x p) && Qleb (v_x p) X && Qleb (- Y) (v_y p) && Qleb (v_y p) Y && nleb Z1 (v_z p) && nleb (v_z p) Z2.
  (** the nine copies (render.py 260-274) *)
  Definition periodic_copies (size : Q) (msh : list vpoint) : list vpoint :=
    let X := size in let Y := size in
    let Z1 := pick nltb (coords msh) in
    let Z2 := pick (fun a b => nltb b a) (coords msh) in
    filter (in_clip X Y Z1 Z2)
      (msh ++ map (translate (- X) 0) msh ++ map (translate X 0) msh
       ++ map (translate 0 (- Y)) msh ++ map (translate 0 Y) msh
       ++ map (translate (- X) (- Y)) msh ++ map (translate (- X) Y) msh
       ++ map (translate X (- Y)) msh ++ map (translate X Y) msh).

  (** [vtk_mesh(mat, mesh, displacement, rotation, force, moment)] (render.py 157-277); the
      defaults for a missing mat or mesh (render.py 208-211) are in DefaultsM *)
  Definition vtk_mesh (m : qmat) (g : mesh_df) (disp rot force moment : option (list Q)) : res (list vpoint) :=
    do _ <- mat_check (df_of m);
    do _ <- mesh_check g;
    do msh <- vtk_mat m (interpolation_field g);
    if Nat.eqb (length (q_rows m)) 0 then Ok msh else
    do msh <- displace (length (g_rows g)) disp rot msh;
    do msh <- load (length (g_rows g)) force moment msh;
    match at_periodic (g_attrs g) with
    | None => Exn KeyErr
    | Some true => Ok (periodic_copies (q_size m) msh)
    | Some false => Ok msh
    end.
End Render.
