(** Proofs about the buttons of the notebook (C92, C93). *)
From Coq Require Import String Ascii.
From Verif Require Import Num ListX Frames ButtonsM SpecButtons.
Open Scope string_scope.

(** ** MatplotlibButton *)
Lemma clicks_mode k first second b cmds : (first = "%matplotlib inline" /\ second = "%matplotlib qt") \/ (first = "%matplotlib qt" /\ second = "%matplotlib inline") ->
  b_text b = second \/ (b_text b <> "%matplotlib inline" /\ first = "%matplotlib inline") ->
  clicks (S k) (b, cmds) =
    (mkButton (alternate first second k) (style_of (alternate first second k)) (Some (alternate first second k)),
     (cmds ++ map (alternate first second) (seq 0 (S k)))%list).
Proof.
  intros M B. induction k as [|k IH].
  - change (clicks 1 (b, cmds)) with (click (b, cmds)). unfold click, toggled. cbn [fst snd].
    destruct M as [[-> ->]|[-> ->]]; destruct B as [B|[B E]]; try discriminate E.
    + rewrite B. reflexivity.
    + apply String.eqb_neq in B. rewrite B. reflexivity.
    + rewrite B. reflexivity.
  - change (clicks (S (S k)) (b, cmds)) with (click (clicks (S k) (b, cmds))). rewrite IH. unfold click, toggled. cbn [fst snd b_text].
    rewrite (seq_S (S k)), map_app, app_assoc. cbn [map plus].
    assert (E : alternate first second (S k) = if Nat.even k then second else first).
    { unfold alternate. rewrite Nat.even_succ, <- Nat.negb_even. destruct (Nat.even k); reflexivity. }
    rewrite E. unfold alternate. destruct M as [[-> ->]|[-> ->]]; destruct (Nat.even k); reflexivity.
Qed.

(** ** PipButton *)
Lemma words_head d a : blank d = false -> exists w l, words (String d a) = w :: l.
Proof.
  intros B. cbn [words]. rewrite B. destruct a as [|e a]; [eauto|]. destruct (blank e); [eauto|].
  destruct (words (String e a)); eauto.
Qed.
Lemma words_app a b : words (a ++ String " " b) = (words a ++ words b)%list.
Proof.
  induction a as [|c a IH]; [reflexivity|].
  change (String c a ++ String " " b) with (String c (a ++ String " " b)).
  destruct (blank c) eqn:Bc; [cbn [words]; rewrite Bc; exact IH|].
  destruct a as [|d a].
  - cbn [append]. cbn [words]. rewrite Bc. change (blank " ") with true. cbv iota. reflexivity.
  - change (String d a ++ String " " b) with (String d (a ++ String " " b)) in *.
    assert (E : forall t, words (String c (String d t)) = if blank d then String c "" :: words (String d t) else match words (String d t) with w :: l => String c w :: l | [] => [String c ""] end).
    { intros t. set (u := String d t). cbn [words]. rewrite Bc. reflexivity. }
    rewrite !E, IH. destruct (blank d) eqn:Bd; [reflexivity|]. destruct (words_head d a Bd) as (w & l & W). rewrite W. reflexivity.
Qed.
Lemma words_plain w : plain w -> words w = [w].
Proof.
  intros [N H]. induction w as [|c w IH]; [contradiction|]. assert (Bc : blank c = false).
  { unfold blank. destruct (Ascii.eqb_spec c " "); [|reflexivity]. exfalso. apply H. left. assumption. }
  cbn [words]. rewrite Bc. destruct w as [|d w]; [reflexivity|]. assert (Bd : blank d = false).
  { unfold blank. destruct (Ascii.eqb_spec d " "); [|reflexivity]. exfalso. apply H. right. left. assumption. }
  rewrite Bd, IH; [reflexivity|discriminate|]. intros X. apply H. right. exact X.
Qed.
Lemma words_join l : Forall plain l -> words (join " " l) = l.
Proof.
  induction l as [|a l IH]; intros F; [reflexivity|]. inversion F; subst. destruct l as [|b l]; [apply words_plain; assumption|].
  change (join " " (a :: b :: l)) with (a ++ String " " (join " " (b :: l))). rewrite words_app, words_plain by assumption. rewrite IH by assumption. reflexivity.
Qed.
Lemma app_assoc_s a b c : a ++ (b ++ c) = (a ++ b) ++ c.
Proof. induction a as [|x a IH]; [reflexivity|]. cbn. rewrite IH. reflexivity. Qed.
Lemma command_words option names : Forall plain names ->
  words (pip_command option names) = (["pip"; "install"; "-q"] ++ (match option with Some s => words s | None => [] end) ++ names)%list.
Proof.
  intros F. unfold pip_command. set (o := match option with Some s => s | None => "" end).
  change ("pip install -q " ++ o ++ " " ++ join " " names) with ("pip install -q" ++ String " " (o ++ String " " (join " " names))).
  rewrite !words_app, words_join by exact F. unfold o. destruct option; reflexivity.
Qed.
Lemma line_ends : line_feed = newline.
Proof. reflexivity. Qed.
Lemma split_line w s : one_line w -> split newline (w ++ String newline s) = w :: split newline s.
Proof.
  unfold one_line. rewrite line_ends. induction w as [|a w IH]; intros H.
  - cbn [append split]. rewrite Ascii.eqb_refl. reflexivity.
  - change (String a w ++ String newline s) with (String a (w ++ String newline s)). cbn [split].
    destruct (Ascii.eqb_spec a newline) as [E|E]; [exfalso; apply H; left; exact E|]. rewrite IH; [reflexivity|]. intros X. apply H. right. exact X.
Qed.
Lemma split_lines vs : Forall one_line vs -> split newline (lines vs) = (vs ++ [""])%list.
Proof. induction vs as [|v vs IH]; intros F; [reflexivity|]. inversion F; subst. cbn [lines]. rewrite split_line, IH by assumption. reflexivity. Qed.
Lemma combine_extra {A B} (a : list A) : forall (b c : list B), length b = length a -> combine a (b ++ c) = combine a b.
Proof. induction a as [|x a IH]; intros [|y b] c L; try discriminate L; [reflexivity|]. cbn. rewrite IH; [reflexivity|]. injection L; auto. Qed.
Lemma combine_fst {A B} (a : list A) : forall b : list B, exists k, map fst (combine a b) = firstn k a.
Proof.
  induction a as [|x a IH]; intros [|y b]; try (exists 0%nat; reflexivity). destruct (IH b) as (k & E). exists (S k). cbn. rewrite E. reflexivity.
Qed.
Lemma split_some c s : split c s <> [].
Proof. destruct s as [|a s]; cbn; [discriminate|]. destruct (Ascii.eqb a c); [discriminate|]. destruct (split c s); discriminate. Qed.

Section Pip.
  Variables (system : string -> Z) (check : string -> option string) (packages : list string) (opt : option string) (kwargs : list (string * string)).
  Let names := pip_names packages kwargs.
  Lemma pip_label : let r := pip_click system check packages opt kwargs in
    (b_text (fst r) = "Installed" <-> system (pip_command opt names) = 0%Z) /\
    (b_text (fst r) = "Not Installed" <-> system (pip_command opt names) <> 0%Z) /\
    (b_style (fst r) = "success" <-> b_text (fst r) = "Installed") /\
    (b_text (fst r) = "Not Installed" -> snd r = Blank).
  Proof.
    cbv zeta. unfold pip_click. fold names. destruct (Z.eqb_spec (system (pip_command opt names)) 0) as [E|E]; cbn [fst snd b_text b_style];
      repeat split; try (intros; reflexivity || assumption || discriminate || contradiction).
  Qed.
  Lemma pip_table versions : system (pip_command opt names) = 0%Z -> check (version_command (py_names packages kwargs)) = Some (lines versions) ->
    Forall one_line versions -> length versions = length names ->
    snd (pip_click system check packages opt kwargs) = Table (combine names versions).
  Proof.
    intros E C F L. unfold pip_click. fold names. rewrite E. cbn [Z.eqb snd]. rewrite C, split_lines by exact F. rewrite combine_extra by exact L. reflexivity.
  Qed.
  Lemma pip_rows rows : snd (pip_click system check packages opt kwargs) = Table rows ->
    system (pip_command opt names) = 0%Z /\ exists k, map fst rows = firstn k names.
  Proof.
    unfold pip_click. fold names. destruct (Z.eqb_spec (system (pip_command opt names)) 0) as [E|E]; cbn [snd]; [|discriminate].
    destruct (check _) as [out|]; [|discriminate]. intros H. injection H as <-. split; [exact E|apply combine_fst].
  Qed.
End Pip.
Lemma join_nothing l : join "" l = one_after_another l.
Proof.
  induction l as [|a l IH]; [reflexivity|]. destruct l as [|b l].
  - cbn [join one_after_another]. clear. induction a as [|x a IH]; [reflexivity|]. cbn. rewrite <- IH. reflexivity.
  - change (join "" (a :: b :: l)) with (a ++ join "" (b :: l)). rewrite IH. reflexivity.
Qed.
Lemma combine_map {A B C} (f : A -> B) (g : A -> C) l : combine (map f l) (map g l) = map (fun x => (f x, g x)) l.
Proof. induction l as [|a l IH]; [reflexivity|]. cbn. rewrite IH. reflexivity. Qed.
Lemma combine_app2 {A B} (a : list A) : forall (b : list B) c d, length a = length b -> combine (a ++ c) (b ++ d) = (combine a b ++ combine c d)%list.
Proof. induction a as [|x a IH]; intros [|y b] c d L; try discriminate L; [reflexivity|]. cbn. rewrite IH; [reflexivity|]. injection L; auto. Qed.
Lemma pip_versions system check packages opt kwargs v : system (pip_command opt (pip_names packages kwargs)) = 0%Z -> Forall plain (py_names packages kwargs) -> python_prints check v -> (forall p, one_line (v p)) ->
  snd (pip_click system check packages opt kwargs) = Table (map (fun p => (p, v p)) packages ++ map (fun e => (fst e, v (snd e))) kwargs).
Proof.
  intros E N C F. rewrite (pip_table system check packages opt kwargs (map v (py_names packages kwargs)) E).
  - unfold pip_names, py_names. rewrite map_app, combine_app2 by (rewrite map_length; reflexivity). rewrite map_map, (combine_map fst (fun x => v (snd x))).
    f_equal. f_equal. rewrite <- (map_id packages) at 1. apply (combine_map (fun p => p) v).
  - rewrite <- (C _ N). f_equal. unfold version_command, quoted. rewrite join_nothing. reflexivity.
  - apply Forall_forall. intros x Hx. apply in_map_iff in Hx. destruct Hx as (p & <- & _). apply F.
  - unfold pip_names, py_names. rewrite map_length, !app_length, !map_length. reflexivity.
Qed.
(** a shell that reads the modules from the words of the program *)
Fixpoint every_fourth (l : list string) : list string :=
  match l with _ :: p :: _ :: _ :: t => p :: every_fourth t | _ => [] end.
Definition reading_shell (v : string -> string) (cmd : string) : option string := Some (lines (map v (every_fourth (skipn 3 (words cmd))))).
Lemma no_blank_app a b : ~ has_char " " a -> ~ has_char " " b -> ~ has_char " " (a ++ b).
Proof. intros A B. induction a as [|x a IH]; [exact B|]. cbn in *. intros [E|E]; [apply A; left; exact E|]. apply IH; [|exact E]. intros X. apply A. right. exact X. Qed.
Lemma program_words q names : plain q -> Forall plain names ->
  every_fourth (words (q ++ one_after_another (map asks_version names) ++ """")) = names.
Proof.
  revert q. induction names as [|p names IH]; intros q Q F.
  - cbn [map one_after_another]. change ("" ++ """") with """". rewrite words_plain; [reflexivity|]. split.
    + destruct q; discriminate.
    + apply no_blank_app; [apply Q|]. cbn. intuition discriminate.
  - inversion F as [|x y P N]; subst. cbn [map one_after_another]. unfold asks_version at 1.
    replace (q ++ (("from " ++ p ++ " import __version__; print(__version__);") ++ one_after_another (map asks_version names)) ++ """")
      with ((q ++ "from") ++ String " " (p ++ String " " ("import" ++ String " " ("__version__;" ++ String " " ("print(__version__);" ++ one_after_another (map asks_version names) ++ """"))))).
    + assert (QF : plain (q ++ "from")) by (split; [destruct q; discriminate|apply no_blank_app; [apply Q|cbn; intuition discriminate]]).
      rewrite !words_app, (words_plain _ QF), (words_plain p P).
      change (words "import") with ["import"]. change (words "__version__;") with ["__version__;"]. cbn [app every_fourth]. rewrite IH; [reflexivity|split; [discriminate|cbn; intuition discriminate]|exact N].
    + rewrite <- !app_assoc_s. reflexivity.
Qed.
Lemma reading_prints v : python_prints (reading_shell v) v.
Proof.
  intros names F. unfold reading_shell. f_equal. f_equal. f_equal.
  change ("python -Wignore -c """ ++ one_after_another (map asks_version names) ++ """") with
    ("python" ++ String " " ("-Wignore" ++ String " " ("-c" ++ String " " ("""" ++ one_after_another (map asks_version names) ++ """")))).
  rewrite !words_app. change (words "python") with ["python"]. change (words "-Wignore") with ["-Wignore"]. change (words "-c") with ["-c"]. cbn [app skipn].
  apply program_words; [split; [discriminate|cbn; intuition discriminate]|exact F].
Qed.

Lemma session_label : forall packages opt kwargs shells, let r := pip_session packages opt kwargs shells in
  let codes := map (fun sh => fst sh (pip_command opt (pip_names packages kwargs))) shells in
  (b_text (fst r) = "Installed" <-> exists before, codes = (before ++ [0%Z])%list) /\
  (b_text (fst r) = "Not Installed" <-> exists before code, codes = (before ++ [code])%list /\ code <> 0%Z) /\
  (b_style (fst r) = "success" <-> b_text (fst r) = "Installed") /\ (shells = [] -> snd r = Blank) /\
  (forall before system check, shells = (before ++ [(system, check)])%list -> r = pip_click system check packages opt kwargs).
Proof.
  intros packages opt kwargs shells. cbv zeta. destruct shells as [|[sy ch] l] using rev_ind.
  - cbn [pip_session fold_left pip_button fst snd b_text b_style map]. split; [split; [discriminate|intros ([|? ?] & H); discriminate H]|].
    split; [split; [discriminate|intros ([|? ?] & c & H & _); discriminate H]|]. split; [split; discriminate|]. split; [reflexivity|].
    intros [|? ?] ? ? H; discriminate H.
  - clear IHl. unfold pip_session. rewrite fold_left_app, map_app. cbn [fold_left map fst snd].
    destruct (pip_label sy ch packages opt kwargs) as (A & B & C & D).
    set (code := sy (pip_command opt (pip_names packages kwargs))) in *. set (r := pip_click sy ch packages opt kwargs) in *.
    split; [|split; [|split; [exact C|split]]].
    + rewrite A. split; [intros ->; eexists; reflexivity|]. intros (b & H). apply app_inj_tail in H. apply H.
    + rewrite B. split; [intros N; eexists; exists code; split; [reflexivity|exact N]|]. intros (b & c & H & N). apply app_inj_tail in H. destruct H as [_ ->]. exact N.
    + intros H. destruct l; discriminate H.
    + intros b s c H. apply app_inj_tail in H. destruct H as [_ H]. injection H as -> ->. reflexivity.
Qed.
