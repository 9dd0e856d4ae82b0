(** Model of src/fibermat/widgets.py.  Display and the events that enable or
    disable a widget (widgets.py 71-99) are not modelled. *)
From Verif Require Import Num.
Open Scope Q_scope.

(** parameters (widgets.py 102-126) *)
Inductive key : Type :=
| Kn | Klength | Kwidth | Kthickness | Ksize | Ktheta | Kshear | Ktensile | Kseed
| Kperiodic | Kthreshold | Kpacking | Kitermax | Ktol | Klmin | Klmax | Kcoupling
| Kinterp_size | Kverbose.
Scheme Equality for key.

(** Python values handled (widgets.py 27-30): [VInf] is the object np.inf itself, [VNum PInf] any
    other infinite float (a widget that stores np.inf is written to store [VNum PInf]); integers are rationals with denominator 1; [VOther] is
    an object that is no number, no boolean and not None. *)
Inductive sval : Type := VNone | VInf | VNum (x : num) | VBool (b : bool) | VOther.

(** exceptions: traitlets.TraitError, ZeroDivisionError (widgets.py 48) *)
Inductive fault : Type := TraitErr | ZeroDivErr.
(** outcome of a call (no counterpart in the code) *)
Inductive out (A : Type) : Type := Ret (a : A) | Fail (e : fault).
Arguments Ret {A}. Arguments Fail {A}.

(** a widget: its value and its switch (widgets.py 40-69) *)
Record cell : Type := mkCell { c_val : sval; c_switch : bool }.
(** the widgets of a Settings object (widgets.py 102-126) *)
Definition settings : Type := key -> cell.

(** Python's [int(x)]: truncation (widgets.py 171, conversion in IntText, widgets.py 40) *)
Definition py_int (x : Q) : Q :=
  if Qltb x 0 then - inject_Z (Qfloor (- x)) else inject_Z (Qfloor x).
(** Python's [float(v)], None for values that are no number (conversion in FloatText, widgets.py 41) *)
Definition py_float (v : sval) : option num :=
  match v with
  | VNum x => Some x
  | VInf => Some PInf
  | VBool b => Some (Fin (if b then 1 else 0))
  | VNone | VOther => None
  end.

(** what a widget accepts and how it stores it (ipywidgets traits, widgets.py 40-69): CInt in
    IntText, CFloat in FloatText, CFloat and clamping in the sliders, Bool in
    Checkbox.  Anything else raises TraitError. *)
Definition clamp (lo hi x : Q) : Q := Qmin (Qmax x lo) hi.
(** kinds of widgets (widgets.py 40-69) *)
Inductive widget : Type := WInt | WFloat | WSlider (lo hi : Q) | WBool.
(** widgets.py 40-69; the bounds of a FloatLogSlider are powers of 10 *)
Definition widget_of (k : key) : widget :=
  match k with
  | Kn | Kseed | Kinterp_size => WInt
  | Ktheta => WSlider 0 1
  | Kitermax => WSlider 1 1000000
  | Ktol => WSlider (1 # 10000000000) (1 # 10)
  | Kperiodic | Kverbose => WBool
  | _ => WFloat
  end.
(** assignment to [widget.value] (widgets.py 196, 201, 204) *)
Definition accept (w : widget) (v : sval) : out sval :=
  match w with
  | WBool => match v with VBool b => Ret (VBool b) | _ => Fail TraitErr end
  | WInt => match py_float v with Some (Fin x) => Ret (VNum (Fin (py_int x))) | _ => Fail TraitErr end
  | WFloat => match py_float v with Some x => Ret (VNum x) | None => Fail TraitErr end
  | WSlider lo hi =>
    match py_float v with
    | Some (Fin x) => Ret (VNum (Fin (clamp lo hi x)))
    | Some PInf => Ret (VNum (Fin hi))
    | Some NInf => Ret (VNum (Fin lo))
    | Some NaN => Ret (VNum NaN)
    | None => Fail TraitErr
    end
  end.

(** [name in ["shear", "tensile"]] (widgets.py 162, 192) *)
Definition is_modulus (k : key) : bool := match k with Kshear | Ktensile => true | _ => false end.
(** [name in ["seed", "threshold", "lmin", "lmax", "interp_size"]] (widgets.py 166, 197) *)
Definition is_optional (k : key) : bool :=
  match k with Kseed | Kthreshold | Klmin | Klmax | Kinterp_size => true | _ => false end.

(** update one widget (widgets.py 193-204) *)
Definition put (s : settings) (k : key) (c : cell) : settings :=
  fun k' => if key_beq k k' then c else s k'.

(** [value is np.inf] (widgets.py 193) *)
Definition is_np_inf (v : sval) : bool := match v with VInf => true | _ => false end.
(** [value is None] (widgets.py 198) *)
Definition is_none (v : sval) : bool := match v with VNone => true | _ => false end.

(** [Settings.__setitem__] (widgets.py 176-204): the new state and the exception
    raised, if any.  The switch is set before the value. *)
Definition set_item (s : settings) (k : key) (v : sval) : settings * option fault :=
  let assign sw := match accept (widget_of k) v with
    | Ret a => (put s k (mkCell a sw), None)
    | Fail e => (put s k (mkCell (c_val (s k)) sw), Some e)
    end in
  if is_modulus k then
    if is_np_inf v then (put s k (mkCell (c_val (s k)) false), None) else assign true
  else if is_optional k then
    if is_none v then (put s k (mkCell (c_val (s k)) false), None) else assign true
  else assign (c_switch (s k)).

(** a click on the switch of a widget (widgets.py 47, 49, 51, 55, 62, 64, 68) *)
Definition tick (s : settings) (k : key) (b : bool) : settings := put s k (mkCell (c_val (s k)) b).

(** [Settings.__getitem__] (widgets.py 146-174); [int(nan)] raises ValueError, written [VOther] *)
Definition get_item (s : settings) (k : key) : sval :=
  match k with
  | Ktheta => match c_val (s k) with VNum x => VNum (nmul x (Fin np_pi)) | v => v end
  | Kitermax => match c_val (s k) with VNum (Fin x) => VNum (Fin (py_int x)) | _ => VOther end
  | _ =>
    if is_modulus k then if c_switch (s k) then c_val (s k) else VInf
    else if is_optional k then if c_switch (s k) then c_val (s k) else VNone
    else c_val (s k)
  end.

(** a sequence of assignments, as made by [Settings.__call__] (widgets.py 206-217);
    stops at the first exception *)
Fixpoint set_all (s : settings) (l : list (key * sval)) : settings * option fault :=
  match l with
  | [] => (s, None)
  | (k, v) :: t =>
    match set_item s k v with
    | (s', None) => set_all s' t
    | (s', Some e) => (s', Some e)
    end
  end.

(** [x != np.inf] (widgets.py 46, 48) *)
Definition ne_inf (v : sval) : bool :=
  match v with VInf => false | VNum PInf => false | _ => true end.

(** the value of a number (no counterpart in the code) *)
Definition num_of (v : sval) : num := match py_float v with Some x => x | None => NaN end.
(** [shear * (length / thickness) ** 2] (widgets.py 48) on Python floats *)
Definition tensile_default (a : key -> sval) : out sval :=
  if neqb (num_of (a Kthickness)) (Fin 0) then Fail ZeroDivErr
  else let r := ndiv (num_of (a Klength)) (num_of (a Kthickness)) in
       Ret (VNum (nmul (num_of (a Kshear)) (nmul r r))).
(** value of the expression given to the widget [k] by the constructor (widgets.py 40-69);
    [a] are the arguments of the constructor *)
Definition init_value (a : key -> sval) (k : key) : out sval :=
  match k with
  | Kshear => if ne_inf (a k) then Ret (a k) else Ret (VNum (Fin 1))
  | Ktensile => if ne_inf (a k) then Ret (a k) else tensile_default a
  | Kseed => if is_none (a k) then Ret (VNum (Fin 0)) else Ret (a k)
  | Kthreshold => if is_none (a k) then Ret (VNum (nmul (Fin 20) (num_of (a Kthickness)))) else Ret (a k)
  | Klmin => if is_none (a k) then Ret (VNum (Fin (1 # 100))) else Ret (a k)
  | Klmax => if is_none (a k) then Ret (a Klength) else Ret (a k)
  | Kinterp_size => if is_none (a k) then Ret (VNum (Fin 100)) else Ret (a k)
  | _ => Ret (a k)
  end.
(** the switch of the widget [k] (widgets.py 47, 49, 51, 55, 62, 64, 68); other
    widgets have none and [true] stands for it *)
Definition init_switch (a : key -> sval) (k : key) : bool :=
  if is_modulus k then negb (is_np_inf (a k))
  else if is_optional k then negb (is_none (a k)) else true.
(** parameters in the order of the constructor (widgets.py 40-69) *)
Definition keys : list key :=
  [Kn; Klength; Kwidth; Kthickness; Ksize; Ktheta; Kshear; Ktensile; Kseed; Kperiodic; Kthreshold;
   Kpacking; Kitermax; Ktol; Klmin; Klmax; Kcoupling; Kinterp_size; Kverbose].
(** one widget (widgets.py 40-69) *)
Definition init_cell (a : key -> sval) (k : key) : out cell :=
  match init_value a k with
  | Ret v => match accept (widget_of k) v with Ret v' => Ret (mkCell v' (init_switch a k)) | Fail e => Fail e end
  | Fail e => Fail e
  end.
(** all widgets, stops at the first exception (widgets.py 40-69) *)
Fixpoint init_all (a : key -> sval) (l : list key) (s : settings) : out settings :=
  match l with
  | [] => Ret s
  | k :: t => match init_cell a k with Ret c => init_all a t (put s k c) | Fail e => Fail e end
  end.
(** [Settings.__init__] (widgets.py 27-126) *)
Definition settings_new (a : key -> sval) : out settings :=
  init_all a keys (fun _ => mkCell VNone true).

(** default arguments of the constructor (widgets.py 27-30) *)
Definition defaults (k : key) : sval :=
  match k with
  | Kn => VNum (Fin 0) | Klength => VNum (Fin 25) | Kwidth => VNum (Fin 1) | Kthickness => VNum (Fin 1)
  | Ksize => VNum (Fin 50) | Ktheta => VNum (Fin 1) | Kshear => VNum (Fin 1) | Ktensile => VInf
  | Kseed => VNum (Fin 0) | Kperiodic => VBool true | Kthreshold => VNone | Kpacking => VNum (Fin 1)
  | Kitermax => VNum (Fin 1000) | Ktol => VNum (Fin (1 # 1000000)) | Klmin => VNone | Klmax => VNone
  | Kcoupling => VNum (Fin 1) | Kinterp_size => VNone | Kverbose => VBool true
  end.
(** the arguments [**kw] of a call replace the defaults (widgets.py 27-30) *)
Fixpoint with_args (kw : list (key * sval)) (a : key -> sval) : key -> sval :=
  match kw with
  | [] => a
  | (k, v) :: t => fun k' => if key_beq k k' then v else with_args t a k'
  end.
