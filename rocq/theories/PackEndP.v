(** The scripts and the notebook with a direct solver (C95). *)
From Coq Require Import String Permutation.
From Verif Require Import Num NumP ListX ListP Frames MatM NetM StackM MeshM ModelM SolverM InterpM ResultM RenderM VtkM PlotM MainM PictureM ScriptsM SettingsM NotebookM
  Spec SpecNet SpecStack SpecMesh SpecModel SpecSolver SpecInterp SpecRender SpecVtk SpecPerm SpecScale SpecMain SpecDraw SpecScripts SpecSettings SpecPicture SpecNotebook
  SpecProgress SpecStiffen SpecPack
  CheckP MeshCheckP MatP NetP StackP MeshP ConstraintP SolverP SolverApiP SolverSysP SolverFinP MainP ScriptsP NotebookP ProgressMainP PackP.
Open Scope Q_scope.

Section Scripts.
  Variable R : rng.
  Variables cos sin : Q -> Q.
  Variable linprog : lp -> list Q.
  Variable lsolve : ncoo -> list num -> list num.
  Variable cyl : list vec.
  Variable place : qfiber -> vec -> vec.
  Variable near : list Q -> Q -> nat.
  Hypothesis LP : right_linprog linprog.
  Hypothesis DS : direct_solver lsolve.
  Hypothesis HR : draws_in_range R.
  Hypothesis HT : trig_accurate cos sin.
  Hypothesis FS : flat_sin sin.
  Hypothesis HC : unit_cylinder cyl.
  Hypothesis HN : right_tree near.
  Lemma args_usual : usual_args script_args.
  Proof. split; [reflexivity|]. split; [reflexivity|]. split; [reflexivity|]. split; [reflexivity|]. split; [reflexivity|]. split; [eexists; split; [reflexivity|reflexivity]|]. split; reflexivity. Qed.
  Lemma args_ready m thr : valid m -> q_rows m <> [] -> all_in_plane m -> finite_shear m -> wide m thr -> ready m thr script_args (Some 100%nat).
  Proof.
    intros V NE FL FH W. split; [exact V|]. split; [exact NE|]. split; [exact FL|]. split; [exact FH|]. split; [exact W|]. split; [split; cbn; lra|]. split; [cbn; lra|]. split; [cbn; lra|].
    split; [eexists; split; [reflexivity|lra]|]. split; [intros l E; discriminate E|]. split; [reflexivity|cbn; lia].
  Qed.
  Lemma ready_result m0 per thr : ready m0 thr script_args (Some 100%nat) ->
    exists k K cs S s, pack linprog lsolve cyl place near "solve" m0 per thr script_args (Some 100%nat) = Ok k /\ same_but_heights m0 (pk_mat k) /\
      packed_run lsolve script_args (Some 100%nat) k K cs S s /\ packs (pk_mat k) (pk_mesh k) script_args cs S s (pk_results k).
  Proof.
    intros RD. destruct (pack_ends linprog lsolve cyl place near LP DS m0 per thr _ _ RD HC HN) as (k & RUN).
    destruct (pack_inv linprog lsolve cyl place near m0 per thr _ _ k RUN) as (cs & S & h & dd & rr & ff & tt & _ & _ & _ & HS & ER & Hcs & _).
    destruct (solve_inv _ _ _ _ _ _ HS) as (K & cs' & HK & _ & _ & Eh). destruct (last_ex h) as (s & Hs); [rewrite Eh; discriminate|].
    assert (PR : packed_run lsolve script_args (Some 100%nat) k K cs S s). { split; [exact HK|]. split; [exact Hcs|]. exists h. auto. }
    exists k, K, cs, S, s. split; [exact RUN|]. split; [exact (proj1 (pack_fibers linprog lsolve cyl place near LP m0 per thr _ _ k RUN))|]. split; [exact PR|].
    exact (pack_packs linprog lsolve cyl place near LP DS m0 per thr _ _ RD k RUN K cs S s PR).
  Qed.
  Lemma square_packs n ent prior : (1 <= n)%Z -> exists k p K cs S s, square R cos sin linprog lsolve cyl place near "solve" n ent prior = Ok k /\
    Z.of_nat (length (q_rows (pk_mat k))) = n /\ usual_args p /\ packed_run lsolve p (Some 100%nat) k K cs S s /\ packs (pk_mat k) (pk_mesh k) p cs S s (pk_results k).
  Proof.
    intros Hn. destruct (square_mat R cos sin HR HT n ent prior ltac:(lia)) as (md & s1 & Hmd & V & L). unfold square. rewrite Hmd. cbn [bind fst].
    assert (AS : forall f, In f (q_rows (read_mat md)) -> as_asked (square_params n) f /\ exists x, qw f = sin (x * 0)) by (intros f Hf; exact (read_asked R cos sin _ _ _ _ _ f Hmd Hf)).
    destruct (ready_result (read_mat md) true (Some 1)) as (k & K & cs & S & s & RUN & SB & PR & PP).
    - apply args_ready; auto.
      + intros E. rewrite E in L. simpl in L. lia.
      + intros f Hf. destruct (AS f Hf) as (_ & x & W). unfold in_plane. rewrite W. apply FS. ring.
      + intros f Hf. destruct (AS f Hf) as ((_ & _ & _ & G & _) & _). exists 1. exact G.
      + intros f f' Hf Hf'. destruct (AS f Hf) as ((_ & _ & A & _) & _). destruct (AS f' Hf') as ((_ & _ & B & _) & _). rewrite A, B. cbn [square_params p_thickness]. qlra.
    - exists k, script_args, K, cs, S, s. split; [exact RUN|]. split; [rewrite (same_len _ _ SB); exact L|]. split; [exact args_usual|]. auto.
  Qed.
  Lemma logo_packs n ent prior : (exists p, In p (drawn R n) /\ on_letter p) -> exists k p K cs S s xy, logo R cos sin linprog lsolve cyl place near "solve" n ent prior = Ok k /\
    those on_letter (drawn R n) xy /\ Forall2 lies_at xy (q_rows (pk_mat k)) /\ usual_args p /\ packed_run lsolve p (Some 100%nat) k K cs S s /\
    packs (pk_mat k) (pk_mesh k) p cs S s (pk_results k).
  Proof.
    intros (p & Hp & HL). destruct (logo_fibers R cos sin n ent prior HR HT) as (xy & m0 & E & T & F & V & ES & AS). unfold logo. rewrite E. cbn [bind].
    destruct (ready_result m0 false None) as (k & K & cs & S & s & RUN & SB & PR & PP).
    - apply args_ready; auto.
      + intros E0. rewrite E0 in F. inversion F. subst xy. clear - Hp HL T. revert Hp T. induction (drawn R n) as [|a l IH]; intros Hp T; [destruct Hp|].
        inversion T; subst. destruct Hp as [<-|Hp]; [contradiction|auto].
      + intros f Hf. destruct (AS f Hf) as (_ & x & W). unfold in_plane. rewrite W. apply FS. ring.
      + intros f Hf. destruct (AS f Hf) as ((_ & _ & _ & G & _) & _). exists 1. exact G.
      + exact I.
    - exists k, script_args, K, cs, S, s, xy. split; [exact RUN|]. split; [exact T|]. split; [exact (lies_same _ _ _ SB F)|]. split; [exact args_usual|]. auto.
  Qed.

  (** the notebook *)
  Variable marg : lp -> list Q.
  Hypothesis HM : right_marginals linprog marg.
  Lemma natural_ok : right_numbering natural.
  Proof. intros n P. apply Permutation_refl. Qed.
  Section Book.
    Variable o : options.
    Hypothesis OK : options_ok o.
    Hypothesis BO : bending sin o.
    Lemma book_ends ent prior : exists l k b, notebook R cos sin linprog marg lsolve cyl place near o ent prior = Ok (l, k, b).
    Proof.
      unfold notebook. destruct (cell_net_total R cos sin o (ent 21%nat) prior HR HT OK) as (m0 & t0 & -> & _). cbn [bind].
      destruct BO as (_ & _ & _ & EP & _).
      destruct (cell24_shows R cos sin linprog marg LP o (ent 24%nat) prior HR HT OK EP FS HM) as (_ & _ & m1 & st1 & l & _ & _ & _ & _ & -> & _). cbn [bind].
      destruct (cell28_total R cos sin linprog LP o (ent 28%nat) prior HR HT OK) as (g & k & ->). cbn [bind].
      destruct (cell36_total R cos sin linprog lsolve LP o (ent 36%nat) prior HR HT OK) as (pe & ->). cbn [bind].
      destruct (script_ends R cos sin linprog natural lsolve cyl place near LP DS natural_ok o OK BO (ent 40%nat) prior HR HT HC HN) as (out & E).
      destruct (cell40_script R cos sin linprog lsolve cyl place near o (ent 40%nat) prior out OK E) as (b & -> & _). cbn [bind fst snd]. eauto.
    Qed.
    Lemma book_packs ent prior l k b : notebook R cos sin linprog marg lsolve cyl place near o ent prior = Ok (l, k, b) ->
      exists K cs S h s, stiffness (bk_mat b) (bk_mesh b) (op_lmin o) (op_lmax o) (op_coupling o) = Ok K /\ constraint (bk_mat b) (bk_mesh b) = Ok cs /\
        solve lsolve (bk_mat b) (bk_mesh b) (book_args o) = Ok (S, h) /\ bk_results b = results_of S h (op_size o) /\ last_state h s /\
        packs (bk_mat b) (bk_mesh b) (book_args o) cs S s (bk_results b).
    Proof.
      intros H. destruct (notebook_inv R cos sin linprog marg lsolve cyl place near o ent prior l k b H) as (_ & _ & H40).
      destruct (script_ends R cos sin linprog natural lsolve cyl place near LP DS natural_ok o OK BO (ent 40%nat) prior HR HT HC HN) as (out & E).
      destruct (cell40_script R cos sin linprog lsolve cyl place near o (ent 40%nat) prior out OK E) as (b' & E' & E1 & _ & _ & E4 & E5 & _).
      assert (b' = b) by congruence. subst b'.
      destruct (script_inv R cos sin linprog natural lsolve cyl place near o (ent 40%nat) prior out E) as (md & s1 & K0 & cs & S & h & dd & rr & ff & tt & _ & _ & _ & _ & W). cbv zeta in W.
      destruct W as (_ & Hcs & EP & _ & HS & ER & _). destruct (solve_inv _ _ _ _ _ _ HS) as (K & cs' & HK & _ & _ & Eh). destruct (last_ex h) as (s & Hs); [rewrite Eh; discriminate|].
      pose proof (main_packs R cos sin linprog natural lsolve cyl place near LP DS natural_ok o OK BO (ent 40%nat) prior out E K cs S s) as PP.
      specialize (PP (conj HK (conj Hcs (ex_intro _ h (conj HS (conj ER Hs)))))).
      exists K, cs, S, h, s. cbn [sp_lmin sp_lmax sp_coupling solver_args] in HK. rewrite E1, E4, E5. split; [exact HK|]. split; [exact Hcs|].
      split; [rewrite (shear_natural _ _ o K cs HK Hcs lsolve); unfold natural in EP; rewrite <- EP; exact HS|]. split; [exact ER|]. split; [exact Hs|]. exact PP.
    Qed.
  End Book.
End Scripts.

(** after cell 7 of the notebook *)
Lemma cell7_bending s : reachable s -> (forall k, untouched k cell7 -> ~ modulus k -> finite_setting s k) -> get_item s Kitermax <> VOther ->
  (forall k q, k = Klength \/ k = Kwidth \/ k = Kthickness -> get_item s k = VNum (Fin q) -> 0 < q) ->
  (forall x, stands (get_item s Kshear) x -> exists G, x = Fin G /\ 0 < G) ->
  (forall q, get_item s Kthickness = VNum (Fin q) -> q <= 10) -> (forall q, get_item s Klmax = VNum (Fin q) -> 0 < q) ->
  exists s' o, set_all s cell7 = (s', None) /\ options_of s' = Some o /\ asks s' o /\ options_ok o /\ forall sin, flat_sin sin -> bending sin o.
Proof.
  intros HR FIN IT POS SH TH LM. destruct (cell7_options s HR FIN IT POS) as (s' & o & E & EO & AS & (PS & ER) & _ & OK & _).
  { intros x Hx. destruct (SH x Hx) as (G & -> & HG). exact HG. }
  exists s', o. split; [exact E|]. split; [exact EO|]. split; [exact AS|]. split; [exact OK|]. intros sin FS.
  destruct (cell7_set s) as (s2 & E2 & GIV & UNT & _). assert (s2 = s') by congruence. subst s2.
  assert (U : forall k, In k [Kthickness; Kshear; Klmax] -> get_item s' k = get_item s k).
  { intros k I. apply UNT. intros v C. unfold cell7 in C. cbn [In] in I, C. decompose [or] I; try contradiction; subst k; decompose [or] C; try contradiction; discriminate. }
  pose proof AS as A. unfold asks in A. cbv zeta in A. destruct A as (A1 & A2 & A3 & A4 & A5 & A6 & A7 & A8 & A9 & A10 & A11 & A12 & A13 & A14 & A15 & A16 & A17 & A18).
  rewrite (GIV Kcoupling (VNum (Fin (99 # 100)))) in A17 by (unfold cell7; cbn [In]; auto 14). injection A17 as A17.
  rewrite (GIV Klmin (VNum (Fin (1 # 100)))) in A15 by (unfold cell7; cbn [In]; auto 14).
  rewrite (GIV Kthreshold (VNum (Fin 10))) in A11 by (unfold cell7; cbn [In]; auto 14).
  split; [split|split; [|split; [|split; [|split; [|split]]]]].
  - destruct (op_lmin o) as [l|]; [|discriminate A15]. cbn in A15. injection A15 as <-. eexists. split; [reflexivity|reflexivity].
  - intros l El. rewrite El in A16. cbn in A16. apply LM. rewrite <- U by (cbn; auto). exact A16.
  - rewrite <- A17. reflexivity.
  - rewrite ER. reflexivity.
  - rewrite PS. reflexivity.
  - exact FS.
  - rewrite U in A7 by (cbn; auto). destruct (SH _ A7) as (G & EG & _). exists G. exact EG.
  - intros d Ed. rewrite Ed in A11. cbn in A11. injection A11 as <-. apply TH. rewrite <- U by (cbn; auto). exact A4.
Qed.
