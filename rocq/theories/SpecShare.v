(** Notions used in the statements about the energies of two parts that touch nothing else (C110). *)
From Verif Require Import Num ListX Frames MatM NetM MeshM ModelM SolverM Spec SpecNet SpecModel SpecSolver SpecScale SpecRename SpecPart.
Open Scope Q_scope.

(** [v] are the displacements of the record [h] when the lid is at [z]: 0 before it moves, then on the line between two states *)
Definition moved_at (S : sysdata) (h : list state) (z : Q) (v : list Q) : Prop :=
  ((exists t, nth_error h 0 = Some t /\ qof (st_Z t) <= z) /\ forall r, (r < length v)%nat -> nth r v 0 == 0) \/
  exists j t t', nth_error h j = Some t /\ nth_error h (Datatypes.S j) = Some t' /\ qof (st_Z t') <= z /\ z <= qof (st_Z t) /\ qof (st_Z t') < qof (st_Z t) /\
    forall r, (r < length v)%nat -> on_line (qof (st_Z t)) (qof (st_Z t')) z (nth r v 0) (nth r (vals (st_u S t)) 0) (nth r (vals (st_u S t')) 0).
