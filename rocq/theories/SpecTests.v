(** Notions used in the statements about the tests of the stacking (C99). *)
From Verif Require Import Num Frames MatM NetM StackM Spec SpecNet SpecStack.
Open Scope Q_scope.

(** [n] positive numbers *)
Definition positive_draws (n : nat) (l : list Q) : Prop := length l = n /\ forall x, In x l -> 0 < x.
(** the answer has one entry per variable *)
Definition answers (linprog : lp -> list Q) : Prop := forall p, length (linprog p) = length (lph p).
