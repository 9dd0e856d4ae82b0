(** Notions used in the statements about the targets of the solver (C96). *)
From Verif Require Import Num ListX Frames MatM NetM MeshM ModelM SolverM InterpM ResultM ErrorM Spec SpecNet SpecMesh SpecModel SpecSolver SpecInterp.
Open Scope Q_scope.

(** the same arguments but for the targets *)
Definition same_problem (p p' : solve_params) : Prop :=
  sp_perm p' = sp_perm p /\ sp_tol p' = sp_tol p /\ sp_lmin p' = sp_lmin p /\ sp_lmax p' = sp_lmax p /\ sp_coupling p' = sp_coupling p.
(** [p'] asks for at least as much packing, allows at least as many steps and at least as large errors *)
Definition further (p p' : solve_params) : Prop :=
  same_problem p p' /\ nleb (sp_packing p) (sp_packing p') = true /\ (sp_itermax p <= sp_itermax p')%nat /\ sp_errtol p <= sp_errtol p'.
(** the pseudo-time at which a run of [n'] states shows what a run of [n] states shows at [t] *)
Definition retimed (n n' : nat) (t t' : Q) : Prop := t' * inject_Z (Z.of_nat (n' - 1)) == t * inject_Z (Z.of_nat (n - 1)).
(** the same finite numbers *)
Definition same_vals (v w : list num) : Prop := finite_vec v /\ finite_vec w /\ length v = length w /\ forall j, nth j (vals v) 0 == nth j (vals w) 0.
Definition same_num (v w : num) : Prop := exists x y, v = Fin x /\ w = Fin y /\ x == y.
