(** Model of the top-level widgets.py (not the one of the package): the buttons of the notebook.  The widgets are
    their description, style and value; the display itself is not modelled. *)
From Coq Require Import String Ascii.
From Verif Require Import Num ListX Frames.
Open Scope string_scope.

(** an [ipywidgets.Button] (widgets.py 23, 122); [value] is set by [is_clicked] (widgets.py 167) *)
Record button : Type := mkButton { b_text : string; b_style : string; b_value : option string }.

(** *** MatplotlibButton *)
(** [is_clicked] (widgets.py 158-167) and the command given to [run_cell] *)
Definition toggled (b : button) : button * string :=
  let s := if String.eqb (b_text b) "%matplotlib inline" then ("%matplotlib qt", "success") else ("%matplotlib inline", "primary") in
  (mkButton (fst s) (snd s) (Some (fst s)), fst s).
(** a click: [is_clicked] again (widgets.py 173); with the commands run so far *)
Definition click (s : button * list string) : button * list string :=
  let r := toggled (fst s) in (fst r, snd s ++ [snd r])%list.
(** construction of a MatplotlibButton with keywords (widgets.py 148-173): the constructor of [Button] sets the description and style
    given, empty by default; outside IPython [get_ipython()] is None, which has no [run_cell] (widgets.py 162, 166) *)
Definition matplotlib_button (ipython : bool) (description style : option string) : res (button * list string) :=
  let or o := match o with Some s => s | None => "" end in
  let b := mkButton (or description) (or style) None in
  if ipython then Ok (click (b, [])) else Exn AttrErr.
(** [k] clicks *)
Fixpoint clicks (k : nat) (s : button * list string) : button * list string :=
  match k with O => s | S k' => click (clicks k' s) end.

(** *** PipButton *)
(** [sep.join(l)] (widgets.py 78, 85) *)
Fixpoint join (sep : string) (l : list string) : string :=
  match l with
  | [] => ""
  | [a] => a
  | a :: t => a ++ sep ++ join sep t
  end.
(** [s.split(c)] (widgets.py 92) *)
Fixpoint split (c : ascii) (s : string) : list string :=
  match s with
  | EmptyString => [""]
  | String a t => if Ascii.eqb a c then "" :: split c t else
      match split c t with w :: l => String a w :: l | [] => [String a ""] end
  end.
(** the end of line (widgets.py 92) *)
Definition newline : ascii := ascii_of_nat 10.
(** double quotes around (widgets.py 84) *)
Definition quoted (s : string) : string := String (ascii_of_nat 34) (s ++ String (ascii_of_nat 34) "").
(** names given to pip and to import (widgets.py 66-67) *)
Definition pip_names (packages : list string) (kwargs : list (string * string)) : list string := (packages ++ map fst kwargs)%list.
(** names given to import (widgets.py 67) *)
Definition py_names (packages : list string) (kwargs : list (string * string)) : list string := (packages ++ map snd kwargs)%list.
(** the installation command (widgets.py 69-70, 77-78) *)
Definition pip_command (option : option string) (names : list string) : string :=
  "pip install -q " ++ (match option with Some s => s | None => "" end) ++ " " ++ join " " names.
(** the command that prints the versions (widgets.py 84-89) *)
Definition version_command (names : list string) : string :=
  "python -Wignore -c " ++ quoted (join "" (map (fun p => "from " ++ p ++ " import __version__; print(__version__);") names)).
(** what the output shows after a click: a table of names and versions (widgets.py 94-105, without the tags), a
    traceback, nothing *)
Inductive shown : Type := Table (rows : list (string * string)) | Traceback | Blank.
(** [is_clicked] (widgets.py 72-110).  [system] is [os.system]; [check] is [subprocess.check_output(..., shell=True)],
    [None] when the command fails, which raises CalledProcessError; the capturing output shows the exception and,
    in IPython, stops it (widgets.py 72) *)
Definition pip_click (system : string -> Z) (check : string -> option string) (packages : list string) (option : option string)
  (kwargs : list (string * string)) : button * shown :=
  if Z.eqb (system (pip_command option (pip_names packages kwargs))) 0 then
    (mkButton "Installed" "success" None,
     match check (version_command (py_names packages kwargs)) with
     | Some out => Table (combine (pip_names packages kwargs) (split newline out))
     | None => Traceback
     end)
  else (mkButton "Not Installed" "danger" None, Blank).
(** [PipButton(...)] before any click (widgets.py 112-117) *)
Definition pip_button : button * shown := (mkButton "Install packages" "" None, Blank).
(** clicks one after another, each with the shell it meets; each one clears what the one before showed (widgets.py 72-74, 115) *)
Definition pip_session (packages : list string) (option : option string) (kwargs : list (string * string))
  (shells : list ((string -> Z) * (string -> Datatypes.option string))) : button * shown :=
  fold_left (fun _ sh => pip_click (fst sh) (snd sh) packages option kwargs) shells pip_button.
(** the arguments at the end of widgets.py (widgets.py 188-197): [option] is a parameter of its own, the other keywords are packages *)
Definition main_packages : list string := ["fibermat"; "matplotlib"; "numpy"; "pandas"; "pyvista"; "scipy"].
(** the keywords (widgets.py 195-196) *)
Definition main_kwargs : list (string * string) := [("scikit-learn", "sklearn"); ("tqdm", "tqdm")].
