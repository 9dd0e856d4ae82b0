(** Notions used in the statements about interpolation (C46 - C50, C59, C60). *)
From Verif Require Import Num ListX InterpM.
Open Scope Q_scope.

(** the parameter at the fraction [a] of the interval between samples k and k+1, for n samples *)
Definition param (n k : nat) (a : Q) : Q := (inject_Z (Z.of_nat k) + a) / inject_Z (Z.of_nat (n - 1)).
(** weighted mean *)
Definition blend (a x y : Q) : Q := (1 - a) * x + a * y.
(** the number is finite and equal to [q] *)
Definition is_num (v : num) (q : Q) : Prop := exists w, v = Fin w /\ w == q.
Definition linear (k : kind) : Prop := k = LinearVec \/ k = LinearScalar.
Definition nondecreasing (y : list Q) : Prop := forall k, (S k < length y)%nat -> nth k y 0 <= nth (S k) y 0.
Definition nonincreasing (y : list Q) : Prop := forall k, (S k < length y)%nat -> nth (S k) y 0 <= nth k y 0.
(** resampling keeps at least two samples *)
Definition size_ok (size : option nat) : Prop := match size with None => True | Some k => (2 <= k)%nat end.
