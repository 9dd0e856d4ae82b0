(** Exceptions, attribute dictionaries and tables. *)
From Coq Require Import String.
From Verif Require Import Num ListX.
Open Scope Q_scope.

(** Exception classes raised by the modelled code.  [BroadcastErr] is the
    outcome of comparing two label arrays of incompatible lengths:
    ValueError on numpy >= 1.25, and IndexError (through the failed test) before. *)
Inductive exn : Type :=
| KeyErr | AttrErr | IndexErr | ValueErr | TypeErr | BroadcastErr | ImportErr | NameErr.

(** outcome of a call: a value or a raised exception (no counterpart in the code) *)
Inductive res (A : Type) : Type :=
| Ok (a : A)
| Exn (e : exn).
Arguments Ok {A}. Arguments Exn {A}.

(** exceptions propagate (no counterpart in the code) *)
Definition bind {A B} (r : res A) (f : A -> res B) : res B :=
  match r with Ok a => f a | Exn e => Exn e end.
Notation "'do' x <- r ; k" := (bind r (fun x => k)) (at level 200, x pattern, r at level 100, k at level 200).

(** raise [e] if the condition holds, as in [if ...: raise ...] (mat.py 305-335) *)
Definition raise_if (c : bool) (e : exn) (k : res bool) : res bool :=
  if c then Exn e else k.

(** The keys of [DataFrame.attrs] that the code reads (mat.py 235-250,
    net.py 274-292, mesh.py 203-219): other keys are carried along unused. *)
Record attrs : Type := mkAttrs {
  at_n : option Z;
  at_size : option num;
  at_periodic : option bool;
  at_skip : option bool
}.
(** [key in attrs.keys()] (mat.py 305-308, net.py 348-353, mesh.py 272-277) *)
Definition is_some {A} (o : option A) : bool := match o with Some _ => true | None => false end.
(** ["skip_check" in attrs.keys() and attrs["skip_check"]] (mat.py 292, net.py 335, mesh.py 259) *)
Definition skipped (a : attrs) : bool :=
  match at_skip a with Some b => b | None => false end.

(** [df[[c1, ..., cn]]] does not raise KeyError (mat.py 300, net.py 343, mesh.py 267) *)
Definition has_cols (req cols : list string) : bool :=
  forallb (fun c => existsb (String.eqb c) cols) req.

(** [np.all(np.unique(index) == np.arange(m))] in Net.check (net.py 356) and
    Mesh.check (mesh.py 280): arrays of equal length are compared elementwise,
    an array of length 1 is broadcast, other lengths cannot be compared. *)
Definition unique_test (index : list Z) : res bool :=
  let u := uniqueZ index in
  let m := length index in
  if Nat.eqb (length u) m then Ok (eqlZ u (arange m))
  else match u with
       | [x] => Ok (forallb (Z.eqb x) (arange m))
       | _ => Exn BroadcastErr
       end.
