(** Notions used in the statements about the solver (C36 - C45). *)
From Verif Require Import Num ListX Frames MatM NetM MeshM ModelM SolverM Spec SpecNet SpecMesh SpecModel.
Open Scope Q_scope.

Definition finite_vec (l : list num) : Prop := forall v, In v l -> exists q, v = Fin q.
(** numbers of a vector without NaN or infinity *)
Definition vals (l : list num) : list Q := map qof l.

(** *** linear solvers *)
Definition right_length (lsolve : ncoo -> list num -> list num) : Prop := forall A b, length (lsolve A b) = length b.
(** every answer is made of finite numbers *)
Definition finite_answers (lsolve : ncoo -> list num -> list num) : Prop := forall A b, finite_vec (lsolve A b).
(** ... or NaN everywhere (what spsolve returns for a singular matrix) *)
Definition finite_or_nan (lsolve : ncoo -> list num -> list num) : Prop :=
  forall A b, finite_vec (lsolve A b) \/ forall v, In v (lsolve A b) -> v = NaN.

(** *** runs *)
(** how far the lid went down since the start *)
Definition travel (S : sysdata) (s : state) : Q := qof (sy_Z0 S) - qof (st_Z s).
(** the errors accepted so far do not add up to more than the contact tolerance *)
Definition errors_below_tol (S : sysdata) (s : state) : Prop :=
  sy_errtol S == 0 \/ ((exists z, st_Z s = Fin z) /\ sy_errtol S * travel S s <= sy_tol S).
(** tolerances are not negative *)
Definition tolerances_ok (p : solve_params) : Prop := 0 <= sp_tol p /\ 0 <= sp_errtol p.
(** all unknowns are numbered *)
Definition perm_complete (S : sysdata) : Prop := forall r, (r < length (sy_dq S))%nat -> In r (sy_perm S).
(** solvers that can fail are allowed when beam elements have positive lengths and finite shear moduli *)
Definition failures_detectable (m : qmat) (g : mesh_df) (p : solve_params) (S : sysdata) (s : state) : Prop :=
  perm_complete S /\ lengths_ok g (sp_lmin p) (sp_lmax p) /\ finite_shear m /\ errors_below_tol S s.
Definition reliable (lsolve : ncoo -> list num -> list num) (m : qmat) (g : mesh_df) (p : solve_params)
    (S : sysdata) (s : state) : Prop :=
  right_length lsolve /\ (finite_answers lsolve \/ (finite_or_nan lsolve /\ failures_detectable m g p S s)).

(** *** mechanics *)
(** row [r] of C^T f *)
Definition transpose_product (C : ncoo) (f : list Q) (r : nat) : Q :=
  qsum (map (fun e => let '(i, c, v) := e in if Nat.eqb c r then qof v * nth i f 0 else 0) C).
(** |x| <= e *)
Definition near0 (e x : Q) : Prop := - e <= x /\ x <= e.
(** C u <= H up to [e], row by row *)
Definition satisfies_upto (e : Q) (C : ncoo) (H : list num) (u : list Q) : Prop :=
  forall r b, nth_error H r = Some b -> b = PInf \/ exists q, b = Fin q /\ product C u r <= q + e.
(** gap of constraint [r] *)
Definition gap_is (C : ncoo) (H : list num) (u : list Q) (r : nat) (q : Q) : Prop :=
  exists b, nth_error H r = Some (Fin b) /\ q == b - product C u r.
(** nodes of a fiber *)
Definition nodes_of (g : mesh_df) (fb : Z) : list nat :=
  filter (fun i => match nth_error (g_rows g) i with Some (_, d) => Z.eqb (nf d) fb | None => false end)
         (seq 0 (length (g_rows g))).
(** vertical force of the contacts on the nodes of a fiber *)
Definition fiber_force (C : ncoo) (g : mesh_df) (f : list Q) (fb : Z) : Q :=
  qsum (map (fun i => transpose_product C f (2 * i)) (nodes_of g fb)).
(** total forces on the floor and on the lid: rows 3k and 3k + 2 *)
Definition floor_force (f : list Q) (n : nat) : Q := qsum (map (fun k => nth (3 * k) f 0) (seq 0 n)).
Definition lid_force (f : list Q) (n : nat) : Q := qsum (map (fun k => nth (3 * k + 2) f 0) (seq 0 n)).
(** the mesh starts above the floor and without penetration *)
Definition admissible_start (m : qmat) (g : mesh_df) : Prop :=
  (forall i d h, is_node (g_rows g) i d -> thick m d h -> h / 2 <= nz d) /\ no_overlap m g [].
