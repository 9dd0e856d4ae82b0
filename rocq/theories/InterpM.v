(** Model of src/fibermat/interpolation.py, with the two scipy/numpy
    algorithms it reaches. *)
From Verif Require Import Num ListX.
Open Scope Q_scope.

(** [np.linspace(0, 1, n)] (interpolation.py 60, 64), without rounding *)
Definition linspace (n : nat) : list Q :=
  map (fun k => if Nat.eqb n 1 then 0 else inject_Z (Z.of_nat k) / inject_Z (Z.of_nat (n - 1))) (seq 0 n).

(** last sample, [y[-1]] (interpolation.py 62, 67) *)
Definition ylast (y : list num) : num := last y NaN.

(** [np.searchsorted(x, t)] (side='left'): number of knots below t
    (scipy's interp1d, reached from interpolation.py 66, 89) *)
Definition search_left (x : list Q) (t : Q) : nat := length (filter (fun k => Qltb k t) x).

(** scipy [interp1d._call_linear], used for arrays of dimension > 1:
    searchsorted, clip(1, N-1), slope form.  With one knot, clip gives 0 and
    the lower knot is x[-1] (interpolation.py 61, 66; solver.py 195-198). *)
Definition call_linear (x : list Q) (y : list num) (t : Q) : num :=
  let n := length x in
  let hi := Nat.min (Nat.max (search_left x t) 1) (n - 1) in
  let lo := if Nat.eqb hi 0 then (n - 1)%nat else (hi - 1)%nat in
  let xl := nth lo x 0 in let xh := nth hi x 0 in
  let yl := nth lo y NaN in let yh := nth hi y NaN in
  let slope := ndiv (nsub yh yl) (Fin (xh - xl)) in
  nadd (nmul slope (Fin (t - xl))) yl.

(** [np.interp], used by interp1d for one-dimensional data: exact at a knot,
    slope form between knots (interpolation.py 61, 66; solver.py 199-200).
    [np.searchsorted(x, t, side='right')]: number of knots not above t; [search_right - 1] is the interval *)
Definition search_right (x : list Q) (t : Q) : nat := length (filter (fun k => Qleb k t) x).
(** [np.interp] at one parameter (interpolation.py 61, 66) *)
Definition call_np (x : list Q) (y : list num) (t : Q) : num :=
  let n := length x in
  let j := (search_right x t - 1)%nat in
  let xj := nth j x 0 in
  let yj := nth j y NaN in
  if Nat.leb (n - 1) j then yj
  else if Qeqb xj t then yj
  else
    let xk := nth (j + 1) x 0 in
    let yk := nth (j + 1) y NaN in
    nadd (nmul (ndiv (nsub yk yj) (Fin (xk - xj))) (Fin (t - xj))) yj.

(** scipy [interp1d._call_previousnext], kind='previous': number of knots not
    above t, clip(1, N) (interpolation.py 61, 66; solver.py 201-202) *)
Definition call_previous (x : list Q) (y : list num) (t : Q) : num :=
  nth (Nat.min (Nat.max (search_right x t) 1) (length x) - 1) y NaN.

(** which algorithm interp1d selects (interpolation.py 61, 66, solver.py 195-202) *)
Inductive kind : Type := LinearVec | LinearScalar | Previous.
(** dispatch of interp1d (interpolation.py 61, 66) *)
Definition call (k : kind) : list Q -> list num -> Q -> num :=
  match k with LinearVec => call_linear | LinearScalar => call_np | Previous => call_previous end.

(** [interp1d.__call__] with bounds_error=False and a fill value: outside the
    knots the fill value is returned on both sides (interpolation.py 61-67) *)
Definition eval1d (k : kind) (x : list Q) (y : list num) (fill : num) (t : Q) : num :=
  match x with
  | [] => NaN
  | x0 :: _ => if Qltb t x0 || Qltb (last x 0) t then fill else call k x y t
  end.

(** an [Interpolate] object, one component of the data: knots, ordinates, fill
    (interpolation.py 66-69) *)
Record interp : Type := mkInterp { in_kind : kind; in_t : list Q; in_y : list num; in_fill : num }.

(** [Interpolate.__init__] (interpolation.py 43-70); [size] >= 1 *)
Definition interp_new (k : kind) (y : list num) (size : option nat) : interp :=
  let t := linspace (length y) in
  let t' := match size with None => t | Some n => linspace n end in
  mkInterp k t' (map (eval1d k t y (ylast y)) t') (ylast y).

(** [Interpolate.__call__] at one parameter (interpolation.py 72-89); the
    final [astype] keeps floats; other types: see DtypeM *)
Definition interp_call (f : interp) (t : Q) : num :=
  eval1d (in_kind f) (in_t f) (in_y f) (in_fill f) t.

(** the default parameters: [f()] evaluates at the knots (interpolation.py 87-88) *)
Definition interp_all (f : interp) : list num := map (interp_call f) (in_t f).
