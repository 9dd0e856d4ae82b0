(** Numbers of the model.

    Finite floats are rationals and are computed with exactly (no rounding).
    [num] adds the IEEE special values for the places where the code produces
    or compares infinities and NaN.  Signed zeros are not modelled: a division
    by zero behaves as a division by [+0.0]. *)
From Coq Require Export QArith Qabs Qminmax Qround ZArith List Bool Lia Lqa.
Export ListNotations.
Open Scope Q_scope.

(** float [x < y] on finite values (e.g. mat.py 323-334, net.py 214, 239) *)
Definition Qltb (x y : Q) : bool := negb (Qle_bool y x).
(** float [x <= y] on finite values (e.g. net.py 582, render.py 226) *)
Definition Qleb (x y : Q) : bool := Qle_bool x y.
(** float [x == y] on finite values (e.g. mesh.py 307-320, net.py 372) *)
Definition Qeqb (x y : Q) : bool := Qeq_bool x y.

(** 0.5 (e.g. net.py 699, 774, model.py 271, 291-295) *)
Definition half : Q := 1 # 2.
(** square (norms are compared squared: mat.py 332, net.py 210-214, solver.py 153) *)
Definition sq (x : Q) : Q := x * x.

(** [np.pi] as the exact value of the double 3.141592653589793 (net.py 771, model.py 142, widgets.py 161) *)
Definition np_pi : Q := 884279719003555 # 281474976710656.

(** IEEE values without rounding and without signed zero (the values of all columns and vectors;
    infinities appear in mat.py 160, net.py 699, model.py 298, render.py 232) *)
Inductive num : Type :=
| Fin (q : Q)
| PInf
| NInf
| NaN.

(** negation (e.g. solver.py 160) *)
Definition nopp (x : num) : num :=
  match x with Fin a => Fin (- a) | PInf => NInf | NInf => PInf | NaN => NaN end.

(** addition: inf - inf is NaN (e.g. solver.py 174-175) *)
Definition nadd (x y : num) : num :=
  match x, y with
  | NaN, _ | _, NaN => NaN
  | Fin a, Fin b => Fin (a + b)
  | PInf, NInf | NInf, PInf => NaN
  | PInf, _ | _, PInf => PInf
  | NInf, _ | _, NInf => NInf
  end.

(** subtraction (e.g. solver.py 142, 155-156) *)
Definition nsub (x y : num) : num := nadd x (nopp y).

(** sign of a rational, as used to direct infinities (no counterpart in the code) *)
Definition qsgn (a : Q) : comparison := Qcompare a 0.

(** infinity of a sign, NaN for 0 (0 * inf, 0 / 0; no counterpart in the code) *)
Definition inf_of (c : comparison) : num :=
  match c with Gt => PInf | Lt => NInf | Eq => NaN end.

(** product (e.g. model.py 142-149, solver.py 174) *)
Definition nmul (x y : num) : num :=
  match x, y with
  | NaN, _ | _, NaN => NaN
  | Fin a, Fin b => Fin (a * b)
  | Fin a, PInf | PInf, Fin a => inf_of (qsgn a)
  | Fin a, NInf | NInf, Fin a => inf_of (qsgn (- a))
  | PInf, PInf | NInf, NInf => PInf
  | PInf, NInf | NInf, PInf => NInf
  end.

(** quotient; a zero denominator is +0 (e.g. model.py 142-149, solver.py 160, render.py 229) *)
Definition ndiv (x y : num) : num :=
  match x, y with
  | NaN, _ | _, NaN => NaN
  | Fin a, Fin b => if Qeqb b 0 then inf_of (qsgn a) else Fin (a / b)
  | Fin a, PInf | Fin a, NInf => Fin 0
  | PInf, Fin b => if Qltb b 0 then NInf else PInf
  | NInf, Fin b => if Qltb b 0 then PInf else NInf
  | _, _ => NaN
  end.

(** float [<]: false on NaN (e.g. solver.py 138, 160) *)
Definition nltb (x y : num) : bool :=
  match x, y with
  | NaN, _ | _, NaN => false
  | Fin a, Fin b => Qltb a b
  | PInf, _ => false
  | _, NInf => false
  | _, PInf => true
  | NInf, Fin _ => true
  end.

(** float [==]: false on NaN (e.g. render.py 232, widgets.py 46) *)
Definition neqb (x y : num) : bool :=
  match x, y with
  | Fin a, Fin b => Qeqb a b
  | PInf, PInf | NInf, NInf => true
  | _, _ => false
  end.

(** float [<=] (e.g. solver.py 131, 142) *)
Definition nleb (x y : num) : bool := nltb x y || neqb x y.

(** absolute value ([np.abs], net.py 239, 582, solver.py 143) *)
Definition nabs (x : num) : num :=
  match x with Fin a => Fin (Qabs a) | PInf | NInf => PInf | NaN => NaN end.

(** [np.isfinite] (no counterpart in the code; used in statements and in [at_coord]) *)
Definition is_fin (x : num) : bool := match x with Fin _ => true | _ => false end.

(** the rational inside a finite value (0 otherwise; no counterpart in the code, only used under [is_fin]) *)
Definition qof (x : num) : Q := match x with Fin q => q | _ => 0 end.

(** sum of a list (row sums of sparse products and [np.sum], solver.py 142-143, 155-156) *)
Fixpoint nsum (l : list num) : num :=
  match l with [] => Fin 0 | x :: t => nadd x (nsum t) end.
(** the same on finite values (net.py 767, products with the stacking matrix) *)
Fixpoint qsum (l : list Q) : Q :=
  match l with [] => 0 | x :: t => x + qsum t end.

(** equality of values up to the representation of rationals (NaN is
    identified with NaN here: this is equality of outcomes, not float [==];
    no counterpart in the code, used in statements) *)
Definition neqv (x y : num) : Prop :=
  match x, y with
  | Fin a, Fin b => a == b
  | PInf, PInf | NInf, NInf | NaN, NaN => True
  | _, _ => False
  end.
