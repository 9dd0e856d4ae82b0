(** Attribute dictionaries as shared mutable objects (mat.py 143-151, 235-250;
    net.py 128-137, 268-269, 515-524, 590; mesh.py 118-127, 177).  The tables
    themselves are not part of this model, see MatM, NetM, StackM and MeshM.
    Constructors that raise create no table and are left out. *)
From Verif Require Import Num ListX Frames.
Open Scope Q_scope.

(** heap of dictionaries; a table holds the location of its [attrs] (mat.py 246, 250) *)
Record world : Type := mkWorld { w_heap : list attrs; w_obj : list nat }.

(** [table.attrs["..."] = v], or [del table.attrs["..."]] for [None] (mat.py 228-229, net.py 269) *)
Inductive change : Type :=
| CN (v : option Z) | CSize (v : option num) | CPeriodic (v : option bool) | CSkip (v : option bool).
(** its effect on a dictionary (mat.py 228-229, net.py 269) *)
Definition change_attrs (c : change) (a : attrs) : attrs :=
  match c with
  | CN v => mkAttrs v (at_size a) (at_periodic a) (at_skip a)
  | CSize v => mkAttrs (at_n a) v (at_periodic a) (at_skip a)
  | CPeriodic v => mkAttrs (at_n a) (at_size a) v (at_skip a)
  | CSkip v => mkAttrs (at_n a) (at_size a) (at_periodic a) v
  end.

(** operations of a program, on tables numbered in order of creation (lines at each constructor) *)
Inductive op : Type :=
| ONew (a : attrs)           (** Mat(n, ...), DataFrame(...): a fresh dictionary (mat.py 228-229) *)
| OWrap (o : nat)            (** Mat(df), Net(df), Stack(df), Mesh(df): [self.attrs = args[0].attrs]
                                 through the setter of the class: the same dictionary
                                 (mat.py 147, 249-250; net.py 133, 520; mesh.py 123) *)
| ONet (o : nat) (p : bool)  (** Net(mat, periodic=p): [net.attrs = mat.attrs] on a plain DataFrame
                                 copies the dictionary, then sets "periodic" (net.py 268-269) *)
| OStack (m n : nat)         (** Stack(mat, net) with fibers: wraps [Net(mat, **net.attrs)]
                                 or a selection of its rows, which copies (net.py 574, 586, 590) *)
| OStackEmpty (m n : nat)    (** Stack(mat, net) without fibers: wraps [net] itself (net.py 590, 703) *)
| OMesh (o : nat)            (** Mesh(net): copy (mesh.py 177) *)
| OSet (o : nat) (c : change).  (** assignment through a table *)

(** no attributes (mat.py 235-246) *)
Definition attrs0 : attrs := mkAttrs None None None None.
(** attributes seen through a table (mat.py 246) *)
Definition loc_of (w : world) (o : nat) : nat := nth o (w_obj w) 0%nat.
(** attributes seen through a table (mat.py 246) *)
Definition seen (w : world) (o : nat) : attrs := nth (loc_of w o) (w_heap w) attrs0.

(** replace one element (no counterpart in the code) *)
Fixpoint upd {A} (l : list A) (i : nat) (a : A) : list A :=
  match l, i with
  | [], _ => []
  | _ :: t, O => a :: t
  | x :: t, S i' => x :: upd t i' a
  end.

(** add a table with a fresh dictionary (mat.py 228, net.py 268, mesh.py 177) *)
Definition alloc (w : world) (a : attrs) : world :=
  mkWorld (w_heap w ++ [a]) (w_obj w ++ [length (w_heap w)]).
(** add a table that shares the dictionary of another (mat.py 147, 250) *)
Definition share (w : world) (o : nat) : world := mkWorld (w_heap w) (w_obj w ++ [loc_of w o]).

(** [periodic] of the rebuilt network: [Net(mat, **net.attrs)], True by default (net.py 145, 574) *)
Definition rebuilt (m n : attrs) : attrs :=
  mkAttrs (at_n m) (at_size m) (Some (match at_periodic n with Some p => p | None => true end)) (at_skip m).

(** one operation (lines cited at [op]); operations on tables that do not exist do nothing *)
Definition exec (w : world) (c : op) : world :=
  let ok o := Nat.ltb o (length (w_obj w)) in
  match c with
  | ONew a => alloc w a
  | OWrap o => if ok o then share w o else w
  | ONet o p => if ok o then alloc w (change_attrs (CPeriodic (Some p)) (seen w o)) else w
  | OStack m n => if ok m && ok n then alloc w (rebuilt (seen w m) (seen w n)) else w
  | OStackEmpty m n => if ok m && ok n then share w n else w
  | OMesh o => if ok o then alloc w (seen w o) else w
  | OSet o ch => if ok o then mkWorld (upd (w_heap w) (loc_of w o) (change_attrs ch (seen w o))) (w_obj w) else w
  end.

(** a whole program from scratch (no counterpart in the code) *)
Definition exec_from (w : world) (l : list op) : world := fold_left exec l w.
(** a whole program from scratch (no counterpart in the code) *)
Definition exec_all (l : list op) : world := exec_from (mkWorld [] []) l.
