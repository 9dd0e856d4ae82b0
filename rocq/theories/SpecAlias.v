(** Notions used in the statements about shared attributes (C55, C63): tables without
    a heap.  Each table has its own attributes and belongs to a family, the tables
    obtained by wrapping; an assignment reaches the whole family. *)
From Verif Require Import Num ListX Frames AliasM.
Open Scope Q_scope.

(** family (number of its first table) and attributes of the tables *)
Definition tables : Type := list (nat * attrs).
Definition table (T : tables) (o : nat) : option (nat * attrs) := nth_error T o.
(** a table of its own family *)
Definition founds (T : tables) (a : attrs) : tables := T ++ [(length T, a)].
(** a table of an existing family *)
Definition joins (T : tables) (f : nat) (a : attrs) : tables := T ++ [(f, a)].
(** the attributes after an assignment: the named one is new, the others are kept *)
Definition assigned (c : change) (a : attrs) : attrs :=
  mkAttrs (match c with CN v => v | _ => at_n a end) (match c with CSize v => v | _ => at_size a end)
          (match c with CPeriodic v => v | _ => at_periodic a end) (match c with CSkip v => v | _ => at_skip a end).
Definition assigns (T : tables) (f : nat) (c : change) : tables :=
  map (fun x => if Nat.eqb (fst x) f then (f, assigned c (snd x)) else x) T.

(** one operation *)
Definition spec_exec (T : tables) (c : op) : tables :=
  match c with
  | ONew a => founds T a
  | OWrap o => match table T o with Some (f, a) => joins T f a | None => T end
  | ONet o p => match table T o with
    | Some (_, a) => founds T (mkAttrs (at_n a) (at_size a) (Some p) (at_skip a)) | None => T end
  | OStack m n => match table T m, table T n with
    | Some (_, a), Some (_, b) =>
      founds T (mkAttrs (at_n a) (at_size a) (match at_periodic b with Some p => Some p | None => Some true end) (at_skip a))
    | _, _ => T end
  | OStackEmpty m n => match table T m, table T n with Some _, Some (f, a) => joins T f a | _, _ => T end
  | OMesh o => match table T o with Some (_, a) => founds T a | None => T end
  | OSet o ch => match table T o with Some (f, _) => assigns T f ch | None => T end
  end.
Definition spec_all (l : list op) : tables := fold_left spec_exec l [].

(** the attributes seen through the tables of a program *)
Definition views (w : world) : list attrs := map (seen w) (seq 0 (length (w_obj w))).
(** [o] exists after the program [l] *)
Definition exists_table (l : list op) (o : nat) : Prop := (o < length (views (exec_all l)))%nat.
(** [o] and [p] are tables of one family *)
Definition same_family (l : list op) (o p : nat) : Prop :=
  exists f a b, table (spec_all l) o = Some (f, a) /\ table (spec_all l) p = Some (f, b).
(** number of the table made by the next operation *)
Definition next (l : list op) : nat := length (views (exec_all l)).
(** operations that build a table instead of wrapping one *)
Definition builds (c : op) : bool := match c with ONew _ | ONet _ _ | OStack _ _ | OMesh _ => true | _ => false end.
