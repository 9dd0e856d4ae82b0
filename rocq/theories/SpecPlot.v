(** Notions used in the statements about the picture of the system (C78). *)
From Verif Require Import Num ListX Frames MatM NetM MeshM ModelM SolverM PlotM Spec SpecModel SpecSolver.
Open Scope Q_scope.

(** the place (r, c) of the matrix of the system: stiffness first, then the contacts, bordering it *)
Definition system_at (nu : nat) (K C : ncoo) (r c : nat) : num :=
  if Nat.ltb r nu then if Nat.ltb c nu then entry K r c else entry C (c - nu) r
  else if Nat.ltb c nu then entry C (r - nu) c else Fin 0.
(** a value that is neither zero nor NaN *)
Definition shows_up (v : num) : Prop := v <> NaN /\ ~ neqv v (Fin 0).
(** the bound of the contact [k] is met, up to the default tolerances of numpy *)
Definition touches (C : ncoo) (u H : list num) (k : nat) : Prop :=
  exists y, nth_error H k = Some (Fin y) /\ Qabs (product C (vals u) k - y) <= (1 # 100000000) + (1 # 100000) * Qabs y.
(** the place (r, c) belongs to the contact [k] *)
Definition of_contact (nu r c k : nat) : Prop := (r = (nu + k)%nat /\ (c < nu)%nat) \/ (c = (nu + k)%nat /\ (r < nu)%nat).
(** the colour of the place (r, c): contacts come by three, with the floor, between nodes, with the lid *)
Definition coloured (nu : nat) (C : ncoo) (u H : list num) (r c : nat) (col : colour) : Prop :=
  match col with
  | Stiffness => (r < nu /\ c < nu)%nat
  | Lower => exists k j, of_contact nu r c k /\ touches C u H k /\ k = (3 * j)%nat
  | Inner => exists k j, of_contact nu r c k /\ touches C u H k /\ k = (3 * j + 1)%nat
  | Upper => exists k j, of_contact nu r c k /\ touches C u H k /\ k = (3 * j + 2)%nat
  | Inactive => exists k, of_contact nu r c k /\ ~ touches C u H k
  end.
(** vectors of the sizes of the system *)
Definition sized_vecs (n : nat) (l : list (list num)) : Prop := forall v, In v l -> length v = n.
(** the order in which rows and columns are drawn *)
Definition drawn_order (n : nat) (perm : option (list nat)) : list nat := match perm with Some l => l | None => seq 0 n end.
(** no gap is between the two tolerances *)
Definition clear_cut (tol : Q) (C : ncoo) (u H : list num) : Prop :=
  forall k y q, nth_error H k = Some (Fin y) -> gap_is C H (vals u) k q ->
    q == 0 \/ (tol < q /\ (1 # 100000000) + (1 # 100000) * Qabs y < q).
