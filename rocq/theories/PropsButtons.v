(** Property theorems: the buttons of the notebook (C92, C93). *)
From Coq Require Import String Ascii.
From Verif Require Import Num ListX Frames ButtonsM SpecButtons ButtonsP.
Open Scope string_scope.

(** ** C92: the display mode *)
(** a button made without a description starts with inline and changes at each click; its text, its value, its style and
    the last command run are the same mode *)
Theorem C92_modes : forall description style, description <> Some "%matplotlib inline" -> exists s0, matplotlib_button true description style = Ok s0 /\
  forall k, let mode := alternate "%matplotlib inline" "%matplotlib qt" in
    clicks k s0 = (mkButton (mode k) (style_of (mode k)) (Some (mode k)), map mode (seq 0 (S k))).
Proof.
  intros description style N. eexists. split; [reflexivity|]. intros k. cbv zeta.
  assert (E : forall s : button * list string, clicks k (click s) = clicks (S k) s) by (intros s; clear; induction k as [|k IH]; [reflexivity|cbn [clicks] in *; rewrite IH; reflexivity]).
  rewrite E. apply (clicks_mode k "%matplotlib inline" "%matplotlib qt" _ []); [left; split; reflexivity|]. right. split; [|reflexivity].
  cbn [b_text]. destruct description; [congruence|discriminate].
Qed.
(** made with the description of the inline mode, it starts with the other one *)
Theorem C92_described : forall style, exists s0, matplotlib_button true (Some "%matplotlib inline") style = Ok s0 /\
  forall k, let mode := alternate "%matplotlib qt" "%matplotlib inline" in
    clicks k s0 = (mkButton (mode k) (style_of (mode k)) (Some (mode k)), map mode (seq 0 (S k))).
Proof.
  intros style. eexists. split; [reflexivity|]. intros k. cbv zeta.
  assert (E : forall s : button * list string, clicks k (click s) = clicks (S k) s) by (intros s; clear; induction k as [|k IH]; [reflexivity|cbn [clicks] in *; rewrite IH; reflexivity]).
  rewrite E. apply (clicks_mode k "%matplotlib qt" "%matplotlib inline" _ []); [right; split; reflexivity|]. left. reflexivity.
Qed.
(** outside IPython it cannot be made *)
Theorem C92_outside : forall description style, matplotlib_button false description style = Exn AttrErr.
Proof. reflexivity. Qed.

(** ** C93: the installation of packages *)
(** the command asks for the options, then for the packages and the keywords, in their order *)
Theorem C93_command : forall opt packages kwargs, Forall plain (pip_names packages kwargs) ->
  words (pip_command opt (pip_names packages kwargs)) =
    (["pip"; "install"; "-q"] ++ (match opt with Some s => words s | None => [] end) ++ packages ++ map fst kwargs)%list.
Proof. intros opt packages kwargs F. exact (command_words opt _ F). Qed.
(** the button tells whether pip returned 0 *)
Theorem C93_label : forall system check packages opt kwargs, let r := pip_click system check packages opt kwargs in
  let code := system (pip_command opt (pip_names packages kwargs)) in
  (b_text (fst r) = "Installed" <-> code = 0%Z) /\ (b_text (fst r) = "Not Installed" <-> code <> 0%Z) /\
  (b_style (fst r) = "success" <-> b_text (fst r) = "Installed") /\ (b_text (fst r) = "Not Installed" -> snd r = Blank).
Proof. exact pip_label. Qed.
(** when each package prints its version on one line, the table gives each name asked for with its version *)
Theorem C93_table : forall system check packages opt kwargs versions, system (pip_command opt (pip_names packages kwargs)) = 0%Z ->
  check (version_command (py_names packages kwargs)) = Some (lines versions) -> Forall one_line versions ->
  length versions = (length packages + length kwargs)%nat ->
  snd (pip_click system check packages opt kwargs) = Table (combine (packages ++ map fst kwargs) versions).
Proof.
  intros system check packages opt kwargs versions E C F L. apply pip_table; [exact E|exact C|exact F|]. unfold pip_names. rewrite app_length, map_length. exact L.
Qed.
(** these are the versions of the modules named by the packages and by the values of the keywords *)
Theorem C93_versions : forall system check packages opt kwargs v, system (pip_command opt (pip_names packages kwargs)) = 0%Z ->
  Forall plain (packages ++ map snd kwargs) -> python_prints check v -> (forall p, one_line (v p)) ->
  snd (pip_click system check packages opt kwargs) = Table (map (fun p => (p, v p)) packages ++ map (fun e => (fst e, v (snd e))) kwargs).
Proof. exact pip_versions. Qed.
(** whatever is printed, the names of the table are the first ones asked for *)
Theorem C93_names : forall system check packages opt kwargs rows, snd (pip_click system check packages opt kwargs) = Table rows ->
  system (pip_command opt (pip_names packages kwargs)) = 0%Z /\ exists k, map fst rows = firstn k (packages ++ map fst kwargs).
Proof. exact pip_rows. Qed.

(** the button of the script asks pip for the packages that fibermat imports, under their names on PyPI, and Python for the
    names of their modules *)
Theorem C93_script : forall system check, let r := pip_click system check main_packages (Some "--upgrade") main_kwargs in
  (b_text (fst r) = "Installed" <-> system "pip install -q --upgrade fibermat matplotlib numpy pandas pyvista scipy scikit-learn tqdm" = 0%Z) /\
  (forall v, python_prints check v -> (forall p, one_line (v p)) -> b_text (fst r) = "Installed" ->
     snd r = Table [("fibermat", v "fibermat"); ("matplotlib", v "matplotlib"); ("numpy", v "numpy"); ("pandas", v "pandas");
       ("pyvista", v "pyvista"); ("scipy", v "scipy"); ("scikit-learn", v "sklearn"); ("tqdm", v "tqdm")]).
Proof.
  intros system check r. destruct (C93_label system check main_packages (Some "--upgrade") main_kwargs) as (L & _).
  change (system (pip_command (Some "--upgrade") (pip_names main_packages main_kwargs))) with
    (system "pip install -q --upgrade fibermat matplotlib numpy pandas pyvista scipy scikit-learn tqdm") in L.
  split; [exact L|]. intros v P O I.
  apply (C93_versions system check main_packages (Some "--upgrade") main_kwargs v); [exact (proj1 L I)| |exact P|exact O].
  cbn [main_packages main_kwargs map snd app]. repeat (apply Forall_cons; [split; [discriminate|cbn; intuition discriminate]|]). apply Forall_nil.
Qed.

(** before any click it claims nothing; afterwards it tells of the last click only, and so does what it shows *)
Theorem C93_session : forall packages opt kwargs shells, let r := pip_session packages opt kwargs shells in
  let codes := map (fun sh => fst sh (pip_command opt (pip_names packages kwargs))) shells in
  (b_text (fst r) = "Installed" <-> exists before, codes = (before ++ [0%Z])%list) /\
  (b_text (fst r) = "Not Installed" <-> exists before code, codes = (before ++ [code])%list /\ code <> 0%Z) /\
  (b_style (fst r) = "success" <-> b_text (fst r) = "Installed") /\ (shells = [] -> snd r = Blank) /\
  (forall before system check, shells = (before ++ [(system, check)])%list -> r = pip_click system check packages opt kwargs).
Proof. exact session_label. Qed.

(** ** cases *)
Definition ex_versions : list string := ["1.0.10"; "3.8"; "1.26"; "2.1"; "0.43"; "1.12"; "1.4"; "4.66"].
Example ex_plain : Forall plain (pip_names main_packages main_kwargs) /\ Forall one_line ex_versions.
Proof.
  split.
  - cbn [pip_names main_packages main_kwargs map fst app]. repeat (apply Forall_cons; [split; [discriminate|cbn; intuition discriminate]|]). apply Forall_nil.
  - unfold ex_versions, one_line, line_feed. repeat (apply Forall_cons; [cbn; intuition discriminate|]). apply Forall_nil.
Qed.
Example ex_command : pip_command (Some "--upgrade") (pip_names main_packages main_kwargs) =
  "pip install -q --upgrade fibermat matplotlib numpy pandas pyvista scipy scikit-learn tqdm".
Proof. reflexivity. Qed.
Example ex_installed : snd (pip_click (fun _ => 0%Z) (fun _ => Some (lines ex_versions)) main_packages (Some "--upgrade") main_kwargs) =
  Table [("fibermat", "1.0.10"); ("matplotlib", "3.8"); ("numpy", "1.26"); ("pandas", "2.1"); ("pyvista", "0.43"); ("scipy", "1.12"); ("scikit-learn", "1.4"); ("tqdm", "4.66")].
Proof. apply (C93_table (fun _ => 0%Z) (fun _ => Some (lines ex_versions)) main_packages (Some "--upgrade") main_kwargs ex_versions); [reflexivity|reflexivity|apply ex_plain|reflexivity]. Qed.
Definition ex_version (p : string) : string := if String.eqb p "sklearn" then "1.4" else "1.0".
Example ex_shell : python_prints (reading_shell ex_version) ex_version /\ (forall p, one_line (ex_version p)) /\ Forall plain (main_packages ++ map snd main_kwargs) /\
  snd (pip_click (fun _ => 0%Z) (reading_shell ex_version) ["numpy"] None [("scikit-learn", "sklearn")]) = Table [("numpy", "1.0"); ("scikit-learn", "1.4")].
Proof.
  split; [apply reading_prints|]. split; [|split].
  - intros p. unfold ex_version, one_line, line_feed. destruct (String.eqb p "sklearn"); cbn; intuition discriminate.
  - cbn [main_packages main_kwargs map snd app]. repeat (apply Forall_cons; [split; [discriminate|cbn; intuition discriminate]|]). apply Forall_nil.
  - vm_compute. reflexivity.
Qed.
Example ex_modes : exists s0, matplotlib_button true None None = Ok s0 /\ clicks 3 s0 =
  (mkButton "%matplotlib qt" "success" (Some "%matplotlib qt"), ["%matplotlib inline"; "%matplotlib qt"; "%matplotlib inline"; "%matplotlib qt"]).
Proof. destruct (C92_modes None None ltac:(discriminate)) as (s0 & E & H). exists s0. split; [exact E|]. rewrite H. reflexivity. Qed.

Example ex_session : b_text (fst (pip_session main_packages None main_kwargs [(fun _ => 1%Z, fun _ => None); (fun _ => 0%Z, fun _ => None)])) = "Installed".
Proof.
  refine (proj2 (proj1 (C93_session main_packages None main_kwargs [(fun _ => 1%Z, fun _ => None); (fun _ => 0%Z, fun _ => None)])) _).
  exists [1%Z]. reflexivity.
Qed.

(** the button may say that all is installed and show a traceback *)
Theorem C93_shown_refuted : ~ (forall system check packages opt kwargs, b_text (fst (pip_click system check packages opt kwargs)) = "Installed" ->
  exists rows, snd (pip_click system check packages opt kwargs) = Table rows).
Proof. intros H. destruct (H (fun _ => 0%Z) (fun _ => None) main_packages None main_kwargs eq_refl) as (rows & E). discriminate E. Qed.
(** a package that prints two lines shifts the versions of the next ones *)
Theorem C93_lines_refuted : ~ (forall system check packages opt kwargs versions rows, check (version_command (py_names packages kwargs)) = Some (lines versions) ->
  length versions = (length packages + length kwargs)%nat -> snd (pip_click system check packages opt kwargs) = Table rows ->
  rows = combine (packages ++ map fst kwargs) versions).
Proof.
  intros H. pose (v := ["1" ++ String line_feed "2"; "3"]).
  specialize (H (fun _ => 0%Z) (fun _ => Some (lines v)) ["a"; "b"] None [] v _ eq_refl eq_refl eq_refl). discriminate H.
Qed.
(** names with blanks are taken apart *)
Theorem C93_blanks_refuted : ~ (forall opt packages kwargs,
  words (pip_command opt (pip_names packages kwargs)) =
    (["pip"; "install"; "-q"] ++ (match opt with Some s => words s | None => [] end) ++ packages ++ map fst kwargs)%list).
Proof. intros H. specialize (H None ["a b"] []). discriminate H. Qed.

Print Assumptions C92_modes.
Print Assumptions C92_described.
Print Assumptions C92_outside.
Print Assumptions C93_command.
Print Assumptions C93_label.
Print Assumptions C93_table. Print Assumptions C93_script.
Print Assumptions C93_versions.
Print Assumptions C93_names.
Print Assumptions C93_session.
Print Assumptions C93_shown_refuted.
Print Assumptions C93_lines_refuted.
Print Assumptions C93_blanks_refuted.
