(** Notions used in the statements about settings (C54, C62). *)
From Verif Require Import Num SettingsM.
Open Scope Q_scope.

(** parameters by kind *)
Definition integral (k : key) : Prop := k = Kn \/ k = Kseed \/ k = Kinterp_size.
Definition flag (k : key) : Prop := k = Kperiodic \/ k = Kverbose.
Definition modulus (k : key) : Prop := k = Kshear \/ k = Ktensile.
Definition optional (k : key) : Prop := k = Kseed \/ k = Kthreshold \/ k = Klmin \/ k = Klmax \/ k = Kinterp_size.
(** parameters shown as sliders *)
Definition ranged (k : key) : Prop := k = Ktheta \/ k = Kitermax \/ k = Ktol.
(** plain parameters: floats without bounds *)
Definition plain (k : key) : Prop := ~ integral k /\ ~ flag k /\ ~ ranged k.

(** the number a value stands for *)
Inductive stands : sval -> num -> Prop :=
| stands_num : forall x, stands (VNum x) x
| stands_inf : stands VInf PInf
| stands_true : stands (VBool true) (Fin 1)
| stands_false : stands (VBool false) (Fin 0).
(** [y] is [x] without its fractional part *)
Definition truncates (x y : Q) : Prop :=
  exists z, y = inject_Z z /\ (0 <= x -> y <= x /\ x < y + 1) /\ (x < 0 -> x <= y /\ y < x + 1).
(** [y] is the point of [lo, hi] nearest to [x] *)
Definition clamps (lo hi : Q) (x : num) (y : Q) : Prop :=
  match x with
  | Fin q => (q <= lo /\ y == lo) \/ (hi <= q /\ y == hi) \/ (lo <= q /\ q <= hi /\ y == q)
  | PInf => y == hi | NInf => y == lo | NaN => False end.

(** what reading the parameter [k] is to give once [v] was assigned to it *)
Definition reads (k : key) (v r : sval) : Prop :=
  (modulus k -> v = VInf -> r = VInf) /\
  (optional k -> v = VNone -> r = VNone) /\
  (flag k -> r = v) /\
  (forall x, stands v x -> ~ (modulus k /\ v = VInf) ->
     (plain k -> r = VNum x) /\
     (integral k -> forall q, x = Fin q -> exists y, truncates q y /\ r = VNum (Fin y)) /\
     (k = Ktol -> x <> NaN -> exists y, clamps (1 # 10000000000) (1 # 10) x y /\ r = VNum (Fin y)) /\
     (k = Ktheta -> x <> NaN -> exists y, clamps 0 1 x y /\ exists z, z == y * np_pi /\ r = VNum (Fin z)) /\
     (k = Kitermax -> x <> NaN -> exists y z, clamps 1 1000000 x y /\ truncates y z /\ r = VNum (Fin z))).

(** values that can be assigned to the parameter [k] *)
Definition assignable (k : key) (v : sval) : Prop :=
  (modulus k /\ v = VInf) \/ (optional k /\ v = VNone) \/ (flag k /\ exists b, v = VBool b) \/
  (integral k /\ exists q, stands v (Fin q)) \/ ((plain k \/ ranged k) /\ exists x, stands v x).
(** no assignment to [k] in the list *)
Definition untouched (k : key) (l : list (key * sval)) : Prop := forall v, ~ In (k, v) l.
(** states that can be reached *)
Inductive reachable : settings -> Prop :=
| reach_new : forall a s, settings_new a = Ret s -> reachable s
| reach_set : forall s k v s' e, reachable s -> set_item s k v = (s', e) -> reachable s'
| reach_tick : forall s k b, reachable s -> reachable (tick s k b).
(** equal values, numbers up to the representation of rationals *)
Definition veqv (a b : sval) : Prop :=
  match a, b with VNum x, VNum y => neqv x y | _, _ => a = b end.
(** the argument leaves the parameter without a value *)
Definition unset (k : key) (v : sval) : Prop := (modulus k /\ (v = VInf \/ v = VNum PInf)) \/ (optional k /\ v = VNone).
(** what the widget of an unset parameter shows; G, l, h: shear modulus, length and thickness *)
Definition proposed (k : key) (G l h : Q) : Q :=
  match k with
  | Kshear => 1
  | Ktensile => G * ((l / h) * (l / h))
  | Kseed => 0
  | Kthreshold => 20 * h
  | Klmin => 1 # 100
  | Klmax => l
  | Kinterp_size => 100
  | _ => 0
  end.
(** documented defaults of the arguments *)
Definition documented : list (key * sval) :=
  [(Klength, VNum (Fin 25)); (Kthickness, VNum (Fin 1)); (Kwidth, VNum (Fin 1)); (Ksize, VNum (Fin 50)); (Ktheta, VNum (Fin 1));
   (Kshear, VNum (Fin 1)); (Ktensile, VInf); (Kn, VNum (Fin 0)); (Kseed, VNum (Fin 0)); (Kperiodic, VBool true); (Kverbose, VBool true);
   (Kpacking, VNum (Fin 1)); (Kcoupling, VNum (Fin 1)); (Kitermax, VNum (Fin 1000)); (Ktol, VNum (Fin (1 # 1000000)));
   (Kthreshold, VNone); (Klmin, VNone); (Klmax, VNone); (Kinterp_size, VNone)].
