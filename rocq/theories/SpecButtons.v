(** Notions used in the statements about the buttons of the notebook (C92, C93). *)
From Coq Require Import String Ascii.
From Verif Require Import Num Frames ButtonsM.
Open Scope string_scope.

(** the mode after [k] clicks on a button that starts with [first] and changes to [second] *)
Definition alternate (first second : string) (k : nat) : string := if Nat.even k then first else second.
(** style of a mode *)
Definition style_of (mode : string) : string := if String.eqb mode "%matplotlib qt" then "success" else "primary".

(** the words of a command: its parts between blanks *)
Definition blank (a : ascii) : bool := Ascii.eqb a " "%char.
Fixpoint words (s : string) : list string :=
  match s with
  | EmptyString => []
  | String a t =>
    if blank a then words t else
    match t with
    | EmptyString => [String a ""]
    | String b _ => if blank b then String a "" :: words t else
        match words t with w :: l => String a w :: l | [] => [String a ""] end
    end
  end.
(** characters of a string *)
Fixpoint has_char (c : ascii) (s : string) : Prop :=
  match s with EmptyString => False | String a t => a = c \/ has_char c t end.
(** a name of package: not empty, without blanks *)
Definition plain (s : string) : Prop := s <> "" /\ ~ has_char " "%char s.
(** the end of a line: the character 10, written bit by bit *)
Definition line_feed : ascii := Ascii false true false true false false false false.
Definition one_line (s : string) : Prop := ~ has_char line_feed s.
(** one line per word *)
Fixpoint lines (l : list string) : string :=
  match l with [] => "" | w :: t => w ++ String line_feed (lines t) end.
(** the statement that prints the version of a module *)
Definition asks_version (p : string) : string := "from " ++ p ++ " import __version__; print(__version__);".
Fixpoint one_after_another (l : list string) : string := match l with [] => "" | s :: t => s ++ one_after_another t end.
(** a shell with a Python whose modules have the versions [v]: a program of such statements prints them, one per line *)
Definition python_prints (check : string -> option string) (v : string -> string) : Prop :=
  forall names, Forall plain names -> check ("python -Wignore -c """ ++ one_after_another (map asks_version names) ++ """") = Some (lines (map v names)).
