(** Notions used in the statement about the numbering of the unknowns (C43). *)
From Coq Require Import Permutation.
From Verif Require Import Num ListX Frames MatM NetM MeshM ModelM SolverM Spec SpecModel SpecSolver.
Open Scope Q_scope.

(** a square matrix of finite numbers for which A y = 0 has no other solution than 0 *)
Definition nonsingular (n : nat) (A : ncoo) : Prop :=
  (forall r c v, In (r, c, v) A -> (r < n)%nat /\ (c < n)%nat /\ exists q, v = Fin q) /\
  forall y, (forall r, (r < n)%nat -> product A y r == 0) -> forall r, (r < n)%nat -> nth r y 0 == 0.
(** [y] solves [A y = b] *)
Definition solution (A : ncoo) (b y : list num) : Prop :=
  length y = length b /\ finite_vec y /\
  forall r, (r < length b)%nat -> product A (vals y) r == qof (nth r b NaN).
(** a solver that answers exactly when the system has one solution; nothing is assumed of the others *)
Definition exact_solver (lsolve : ncoo -> list num -> list num) : Prop :=
  forall A b, finite_vec b -> nonsingular (length b) A -> solution A b (lsolve A b).

(** row [r] takes part in the next linear system: its bound is met up to the tolerance and its
    column is not void *)
Definition closed (S : sysdata) (s : state) (r : nat) : Prop :=
  exists b, nth_error (st_q s) r = Some b /\
    nleb (nsub b (matvec (sy_P S) (st_x s) r)) (Fin (sy_tol S)) = true /\
    nltb (Fin 0) (colsum (sy_P S) r) = true.
(** the linear system of a state has one solution *)
Definition regular (S : sysdata) (s : state) : Prop :=
  (forall r c v, closed S s r -> closed S s c -> In (r, c, v) (sy_P S) -> exists q, v = Fin q) /\
  forall y, (forall r, ~ closed S s r -> nth r y 0 == 0) ->
    (forall r, closed S s r -> product (sy_P S) y r == 0) -> forall r, nth r y 0 == 0.

(** [perm] lists all the unknowns once; [None] is the default *)
Definition numbering (n : nat) (perm : option (list nat)) : Prop :=
  match perm with None => True | Some l => Permutation l (seq 0 n) end.
(** two calls that differ by [perm] only *)
Definition same_but_perm (p p' : solve_params) : Prop :=
  p' = mkSolve (sp_packing p) (sp_itermax p) (sp_perm p') (sp_tol p) (sp_errtol p) (sp_lmin p) (sp_lmax p) (sp_coupling p).

(** equal values *)
Definition same_vec : list num -> list num -> Prop := Forall2 neqv.
(** the same recorded quantities *)
Definition same_record (S S' : sysdata) (s s' : state) : Prop :=
  same_vec (st_u S s) (st_u S' s') /\ same_vec (st_f S s) (st_f S' s') /\
  same_vec (st_F S s) (st_F S' s') /\ same_vec (st_H S s) (st_H S' s') /\
  neqv (st_Z s) (st_Z s') /\ neqv (st_rl s) (st_rl s') /\ st_mask s = st_mask s' /\ neqv (st_err2 s) (st_err2 s').
