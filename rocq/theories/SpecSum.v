(** Notions used in the statements about the forces on two parts that touch nothing else (C109). *)
From Verif Require Import Num ListX Frames MatM NetM MeshM ModelM SolverM Spec SpecNet SpecModel SpecSolver SpecScale SpecRename SpecPart SpecApart.
Open Scope Q_scope.

(** sum of the forces of one kind on the [n] contacts of a recorded state: on the floor (0), between fibers (1), on the lid (2) *)
Definition force_sum (a : nat) (S : sysdata) (n : nat) (s : state) : Q := qsum (map (fun k => nth (3 * k + a) (vals (st_f S s)) 0) (seq 0 n)).
(** the nodes of [g'] are those of the two parts, each of one of them *)
Definition two_parts (rho1 rho2 : nat -> nat) (g1 g2 g' : mesh_df) : Prop :=
  (forall i', (i' < length (g_rows g'))%nat -> found rho1 g1 i' \/ found rho2 g2 i') /\ (forall i', found rho1 g1 i' -> found rho2 g2 i' -> False).
(** the fibers of [m'] are those of the two mats, each of one of them *)
Definition two_mats (e1 e2 : Z -> Z) (m1 m2 m' : qmat) : Prop :=
  (forall j f, has_fiber m' j f -> member e1 m1 j \/ member e2 m2 j) /\ (forall j, member e1 m1 j -> member e2 m2 j -> False).
(** [v] is the value of [F] on the record [h] when the lid is at [z]: 0 before it moves, then on the line between two states *)
Definition value_at (h : list state) (z : Q) (F : state -> Q) (v : Q) : Prop :=
  ((exists t, nth_error h 0 = Some t /\ qof (st_Z t) <= z) /\ v == 0) \/
  exists j t t', nth_error h j = Some t /\ nth_error h (Datatypes.S j) = Some t' /\ qof (st_Z t') <= z /\ z <= qof (st_Z t) /\ qof (st_Z t') < qof (st_Z t) /\
    on_line (qof (st_Z t)) (qof (st_Z t')) z v (F t) (F t').
