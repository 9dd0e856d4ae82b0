(** List primitives standing for the numpy / pandas calls used by the code. *)
From Coq Require Export List Arith ZArith Bool Lia.
Export ListNotations.

Section Sort.
  Context {A : Type} (leb : A -> A -> bool).

  (** one insertion of the stable sort below (no counterpart in the code) *)
  Fixpoint insert (x : A) (l : list A) : list A :=
    match l with
    | [] => [x]
    | y :: t => if leb x y then x :: l else y :: insert x t
    end.

  (** Stable sort.  [DataFrame.sort_values(by=[k1, k2])] sorts stably
      (lexsort), and so do [np.sort]/[np.argsort] observed through distinct keys
      (mat.py 209, net.py 246-250, mesh.py 183, 190, 307). *)
  Fixpoint isort (l : list A) : list A :=
    match l with
    | [] => []
    | x :: t => insert x (isort t)
    end.
End Sort.

Section Dedup.
  Context {A : Type} (eqk : A -> A -> bool).
  (** [DataFrame.drop_duplicates] (keep='first'; net.py 251, 372). *)
  Fixpoint dedup (l : list A) : list A :=
    match l with
    | [] => []
    | x :: t => x :: filter (fun y => negb (eqk x y)) (dedup t)
    end.
End Dedup.

(** [np.triu_indices(n)]: pairs (i, j), i <= j < n, row by row (net.py 205). *)
Definition triu (n : nat) : list (nat * nat) :=
  flat_map (fun i => map (pair i) (seq i (n - i))) (seq 0 n).

(** [np.roll(l, -1)] (mesh.py 187, 311). *)
Definition roll {A} (l : list A) : list A :=
  match l with [] => [] | x :: t => t ++ [x] end.

(** rows numbered from 0 (a fresh pandas RangeIndex; mat.py 222-225, net.py 258-263, 585, mesh.py 177) *)
Definition enum {A} (l : list A) : list (Z * A) :=
  combine (map Z.of_nat (seq 0 (length l))) l.

(** [np.unique] of integer labels: sorted, without repetition (mat.py 315-316, net.py 356, mesh.py 280). *)
Definition uniqueZ (l : list Z) : list Z := dedup Z.eqb (isort Z.leb l).

(** [np.argsort] of a list of distinct integers (mesh.py 190). *)
Definition argsortZ (l : list Z) : list nat :=
  map snd (isort (fun a b => Z.leb (fst a) (fst b)) (combine l (seq 0 (length l)))).

(** [np.arange(n)] as labels (mat.py 316, 319, net.py 356, 359, mesh.py 280, 283) *)
Definition arange (n : nat) : list Z := map Z.of_nat (seq 0 n).

(** elementwise equality of two label arrays of the same length ([np.all(a == b)], mat.py 319, net.py 359, mesh.py 283) *)
Fixpoint eqlZ (a b : list Z) : bool :=
  match a, b with
  | [], [] => true
  | x :: a', y :: b' => Z.eqb x y && eqlZ a' b'
  | _, _ => false
  end.

(** [np.hstack(df.groupby(key).apply(f))]: groups in increasing key order,
    rows of a group in table order (mesh.py 186-188, 311). *)
Definition groupcat {A B} (key : A -> Z) (f : list A -> list B) (l : list A) : list B :=
  flat_map (fun k => f (filter (fun a => Z.eqb (key a) k) l)) (uniqueZ (map key l)).
