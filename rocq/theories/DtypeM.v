(** The type of the values returned by [Interpolate]: [self.dtype = np.array(y).dtype]
    (interpolation.py 70) and [.astype(self.dtype)] (interpolation.py 89). *)
From Verif Require Import Num ListX InterpM.
Open Scope Q_scope.

(** types of the samples (interpolation.py 70): floats, integers, booleans (solver.py 201-202) *)
Inductive dtype : Type := TFloat | TInt | TBool.

(** conversion of a float to an integer: towards zero (interpolation.py 89) *)
Definition qtrunc (q : Q) : Z := if Qltb q 0 then (- Qfloor (- q))%Z else Qfloor q.

(** [.astype(dtype)] at one value (interpolation.py 89).  Booleans are 0 and 1; NaN and infinities
    are true; converted to integers they give a value that depends on the machine: [None]. *)
Definition astype (d : dtype) (v : num) : option num :=
  match d, v with
  | TFloat, _ => Some v
  | TInt, Fin q => Some (Fin (inject_Z (qtrunc q)))
  | TInt, _ => None
  | TBool, Fin q => Some (Fin (if Qeqb q 0 then 0 else 1))
  | TBool, _ => Some (Fin 1)
  end.

(** [Interpolate.__call__] at one parameter, with the conversion (interpolation.py 72-89) *)
Definition typed_call (d : dtype) (f : interp) (t : Q) : option num := astype d (interp_call f t).
(** the samples as floats, on which [interp1d] works (interpolation.py 61, 66) *)
Definition int_samples (y : list Z) : list num := map (fun z => Fin (inject_Z z)) y.
(** see above, for booleans (interpolation.py 61, 66) *)
Definition bool_samples (y : list bool) : list num := map (fun b : bool => Fin (if b then 1 else 0)) y.
