(** Model of the field transfer of [vtk_mesh] in src/fibermat/render.py.
    The points of the VTK mesh and their copies are in VtkM.v. *)
From Verif Require Import Num ListX Frames MatM NetM MeshM.
Open Scope Q_scope.

(** numpy indexing [a[k]], k may be negative (render.py 226-234) *)
Definition np_get {A} (l : list A) (k : Z) : res A :=
  let len := Z.of_nat (length l) in
  let pos := if (k <? 0)%Z then (k + len)%Z else k in
  if (0 <=? pos)%Z && (pos <? len)%Z
  then match nth_error l (Z.to_nat pos) with Some a => Ok a | None => Exn IndexErr end
  else Exn IndexErr.

(** coordinate of one point (render.py 221-235): [s] abscissae of the nodes of
    the fiber, [idx] their labels, [x] the local abscissa of the point, [k0] the
    nearest node returned by the KDTree (an oracle). *)
Definition node_coord (s : list Q) (idx : list Z) (x : Q) (k0 : nat) : res num :=
  let x := x * (9999 # 10000) in
  do sk0 <- np_get s (Z.of_nat k0);
  let k := if Qltb sk0 x then Z.of_nat k0 else (Z.of_nat k0 - 1)%Z in
  do sk <- np_get s k;
  do sk1 <- np_get s (k + 1);
  let j := ndiv (Fin (x - sk)) (Fin (sk1 - sk)) in
  let j := if neqb j PInf then Fin 0 else j in
  do i <- np_get idx k;
  Ok (nadd j (Fin (inject_Z i))).

(** integer part, the spline interval (scipy PPoly, clipped to the knots; render.py 249-251, 257) *)
Definition interval (n : nat) (x : Q) : nat :=
  Nat.min (Z.to_nat (Qfloor x)) (n - 2).

(** [CubicHermiteSpline(arange(n), y, d)(x)] (render.py 242-257) *)
Definition hermite (y d : list Q) (x : Q) : Q :=
  let k := interval (length y) x in
  let t := x - inject_Z (Z.of_nat k) in
  let y0 := nth k y 0 in let y1 := nth (k + 1) y 0 in
  let d0 := nth k d 0 in let d1 := nth (k + 1) d 0 in
  y0 + d0 * t + (3 * (y1 - y0) - 2 * d0 - d1) * (t * t) + (d0 + d1 - 2 * (y1 - y0)) * (t * t * t).

(** [.derivative()(x)] (render.py 250) *)
Definition hermite' (y d : list Q) (x : Q) : Q :=
  let k := interval (length y) x in
  let t := x - inject_Z (Z.of_nat k) in
  let y0 := nth k y 0 in let y1 := nth (k + 1) y 0 in
  let d0 := nth k d 0 in let d1 := nth (k + 1) d 0 in
  d0 + 2 * (3 * (y1 - y0) - 2 * d0 - d1) * t + 3 * (d0 + d1 - 2 * (y1 - y0)) * (t * t).

(** [rotation = 0 * displacement] when no rotation is given (render.py 245-246, 254-255) *)
Definition no_slope (y : list Q) : list Q := map (fun v => 0 * v) y.

(** [.derivative(2)(x)] (render.py 251) *)
Definition hermite'' (y d : list Q) (x : Q) : Q :=
  let k := interval (length y) x in
  let t := x - inject_Z (Z.of_nat k) in
  let y0 := nth k y 0 in let y1 := nth (k + 1) y 0 in
  let d0 := nth k d 0 in let d1 := nth (k + 1) d 0 in
  2 * (3 * (y1 - y0) - 2 * d0 - d1) + 6 * (d0 + d1 - 2 * (y1 - y0)) * t.

(** [by_fiber.get_group(i)] (render.py 217, 221) *)
Definition get_group (g : mesh_df) (fb : Z) : res (list (Z * node)) :=
  match filter (fun r => Z.eqb (nf (snd r)) fb) (g_rows g) with
  | [] => Exn KeyErr
  | l => Ok l
  end.
(** "node" of one point of the fiber [fb] (render.py 219-235) *)
Definition point_coord (g : mesh_df) (fb : Z) (x : Q) (k0 : nat) : res num :=
  do gr <- get_group g fb;
  node_coord (map (fun r => ns (snd r)) gr) (map fst gr) x k0.
(** value of a field at one point (render.py 242-257); a coordinate that is not
    finite gives no finite value, NaN stands for whatever scipy returns then *)
Definition at_coord (f : Q -> Q) (c : num) : num := match c with Fin q => Fin (f q) | _ => NaN end.
(** "displacement" of one point (render.py 244-249); "force" is computed
    like "displacement" (render.py 253-257) *)
Definition render_value (g : mesh_df) (y d : list Q) (fb : Z) (x : Q) (k0 : nat) : res num :=
  do c <- point_coord g fb x k0; Ok (at_coord (hermite y d) c).
(** "rotation" of one point (render.py 250) *)
Definition render_slope (g : mesh_df) (y d : list Q) (fb : Z) (x : Q) (k0 : nat) : res num :=
  do c <- point_coord g fb x k0; Ok (at_coord (hermite' y d) c).
(** "curvature" of one point (render.py 251) *)
Definition render_curvature (g : mesh_df) (y d : list Q) (fb : Z) (x : Q) (k0 : nat) : res num :=
  do c <- point_coord g fb x k0; Ok (at_coord (hermite'' y d) c).
