(** Packing with a direct solver (C95). *)
From Coq Require Import String Permutation.
From Verif Require Import Num NumP ListX ListP Frames MatM NetM StackM MeshM ModelM SolverM InterpM ResultM RenderM VtkM PlotM MainM PictureM ScriptsM
  Spec SpecNet SpecStack SpecMesh SpecModel SpecSolver SpecInterp SpecRender SpecVtk SpecPerm SpecScale SpecMain SpecDraw SpecScripts SpecProgress SpecEnergy SpecStiffen SpecPack
  CheckP MeshCheckP MatP DrawP NetP NetZP StackP StackNewP MeshP StiffP StiffLenP ConstraintP SolverP SolverRunP SolverApiP SolverSysP SolverFinP InterpP ResultP VtkP PlotP MainP
  ScriptsP ProgressP HeldP ProgressFinP ProgressMainP StiffenP StiffenResP StiffenDirP.
Open Scope Q_scope.

Section Pack.
  Variable linprog : lp -> list Q.
  Variable lsolve : ncoo -> list num -> list num.
  Variable cyl : list vec.
  Variable place : qfiber -> vec -> vec.
  Variable near : list Q -> Q -> nat.
  Hypothesis LP : right_linprog linprog.
  Hypothesis DS : direct_solver lsolve.
  Variables (m0 : qmat) (per : bool) (thr : option Q) (p : solve_params) (size : option nat).
  Hypothesis RD : ready m0 thr p size.

  Lemma ready_packable : packable lsolve m0 (strict p) size.
  Proof.
    destruct RD as (V & NE & _ & FS & _ & (T & _) & _ & _ & L1 & L2 & P & SZ). destruct DS as (L & _ & F).
    split; [exact V|]. split; [exact NE|]. split; [split; [exact T|apply Qle_refl]|]. split; [exact SZ|]. split; [exact L|].
    destruct F as [F|F]; [left; exact F|right]. split; [exact F|]. split; [reflexivity|]. split; [exact P|]. split; [exact L1|]. split; [exact L2|exact FS].
  Qed.
  Section Back.
    Variables (t st : net_df) (m : qmat) (g : mesh_df).
    Hypothesis Hn : net_new m0 per None = Ok t.
    Hypothesis Hst : stack_new linprog m0 t thr = Ok (st, m).
    Hypothesis Hg : mesh_new st = Ok g.
    Lemma pk_held : starts_held m g (sp_tol p).
    Proof.
      destruct RD as (V & NE & FL & FS & W & (T & _) & _). exact (stack_held linprog m0 per t thr st m g (sp_tol p) Hn (LP _ _ _ Hn) FL Hst Hg T W).
    Qed.
    Lemma pk_sound : sound_data m g p.
    Proof.
      destruct RD as (V & NE & FL & FS & W & T & E3 & C & (l & L1 & L2) & L3 & P & SZ).
      destruct (made_facts linprog LP m0 per thr t st m g Hn Hst Hg) as (_ & _ & _ & NF & _ & SB & _).
      split; [exact NF|]. split; [exact T|]. split; [exact E3|]. split; [exact C|]. split.
      - split; [rewrite L1; exact L2|]. destruct (sp_lmax p) as [l'|] eqn:EL; [exact (L3 _ eq_refl)|].
        exact (any_elem linprog lsolve LP m0 per thr (strict p) size ready_packable t st m g Hn Hst Hg).
      - intros f Hf. destruct (same_in _ _ f SB Hf) as (f0 & I0 & (_ & _ & _ & _ & _ & _ & _ & _ & EG & _)). destruct (FS f0 I0) as (G & E). exists G. congruence.
    Qed.
    Lemma pk_numbering S : numbering (length (sy_dq S)) (sp_perm p).
    Proof. destruct RD as (_ & _ & _ & _ & _ & _ & _ & _ & _ & _ & -> & _). exact I. Qed.
    Lemma pk_same : solve_full lsolve m g p size = solve_full lsolve m g (strict p) size.
    Proof.
      unfold solve_full. destruct (solve lsolve m g p) as [[S h]|e] eqn:HS.
      - destruct (go_strict lsolve m g _ S h DS pk_sound (pk_numbering S) pk_held HS) as (S0 & HS0 & E0 & _). rewrite HS0, E0. reflexivity.
      - unfold solve, assemble, strict in *. cbn [sp_lmin sp_lmax sp_coupling sp_perm sp_tol sp_errtol sp_packing sp_itermax] in *.
        destruct (stiffness m g _ _ _); cbn [bind] in *; [|injection HS as <-; reflexivity].
        destruct (constraint m g); cbn [bind] in *; [discriminate HS|injection HS as <-; reflexivity].
    Qed.
  End Back.
  Lemma pack_strict : pack linprog lsolve cyl place near "solve" m0 per thr p size = pack linprog lsolve cyl place near "solve" m0 per thr (strict p) size.
  Proof.
    unfold pack. destruct (net_new m0 per None) as [t|] eqn:Hn; [|reflexivity]. cbn [bind].
    destruct (stack_new linprog m0 t thr) as [[st m]|] eqn:Hst; [|reflexivity]. cbn [bind fst snd].
    destruct (mesh_new st) as [g|] eqn:Hg; [|reflexivity]. cbn [bind]. rewrite !call_solve. rewrite (pk_same t st m g Hn Hst Hg). reflexivity.
  Qed.
  Lemma pack_ends : unit_cylinder cyl -> right_tree near -> exists k, pack linprog lsolve cyl place near "solve" m0 per thr p size = Ok k.
  Proof. intros A B. rewrite pack_strict. apply pack_total; auto. exact ready_packable. Qed.

  Section Shown.
    Variable k : packed.
    Hypothesis RUN : pack linprog lsolve cyl place near "solve" m0 per thr p size = Ok k.
    Lemma pk_data : sound_data (pk_mat k) (pk_mesh k) p /\ starts_held (pk_mat k) (pk_mesh k) (sp_tol p) /\ admissible_start (pk_mat k) (pk_mesh k) /\
      same_but_heights m0 (pk_mat k).
    Proof.
      destruct (pack_inv linprog lsolve cyl place near _ _ _ _ _ _ RUN) as (cs & S & h & dd & rr & ff & tt & Hn & Hst & Hg & HS & ER & Hcs & _).
      split; [exact (pk_sound _ _ _ _ Hn Hst Hg)|]. split; [exact (pk_held _ _ _ _ Hn Hst Hg)|].
      split; [|exact (proj1 (pack_fibers linprog lsolve cyl place near LP _ _ _ _ _ _ RUN))].
      destruct RD as (_ & _ & FL & _). exact (stack_admissible linprog m0 per _ thr _ _ _ cs Hn (LP _ _ _ Hn) FL Hst Hg Hcs).
    Qed.
  End Shown.
End Pack.

(** the end of a run with a direct solver *)
Lemma run_packs lsolve m g p size S h K cs s R : direct_solver lsolve -> sound_data m g p -> numbering (length (sy_dq S)) (sp_perm p) -> starts_held m g (sp_tol p) ->
  admissible_start m g -> samples_ok size -> solve lsolve m g p = Ok (S, h) ->
  stiffness m g (sp_lmin p) (sp_lmax p) (sp_coupling p) = Ok K -> constraint m g = Ok cs -> R = results_of S h size -> SpecMain.last_state h s -> packs m g p cs S s R.
Proof.
  intros DS SD NU SH AS SZ HS HK Hcs ER (i & Hi & Li). pose proof (nth_error_In _ _ Hi) as Hs.
  split; [exact (go_admissible lsolve m g p S h DS SD NU SH HS s AS Hs)|]. split; [|split].
  - intros LI. destruct (go_end lsolve m g p S h DS SD NU SH HS) as (s' & Hs' & E). replace (length h - 1)%nat with i in Hs' by lia.
    assert (s' = s) by congruence. subst s'. destruct E as [E|E]; [|exact E]. pose proof (go_steps lsolve m g p S h DS SD NU SH HS cs Hcs). lia.
  - intros c b LI EP Hc HB HZ. destruct (go_reaches lsolve m g p S h DS SD NU SH HS cs c Hcs AS EP Hc LI) as (s' & r & Hs' & Er & L).
    + intros a j d e hi hj _ (f & (_ & F1) & F2) (f' & (_ & F1') & F2'). apply nth_error_In in F1, F1'.
      pose proof (HB f F1) as B1. pose proof (HB f' F1') as B2. rewrite F2 in B1. rewrite F2' in B2.
      assert (c * (hi + hj + 3 * sp_tol p) <= c * (2 * b + 3 * sp_tol p)); [|lra]. rewrite !(Qmult_comm c). apply Qmult_le_compat_r; [lra|exact Hc].
    + replace (length h - 1)%nat with i in Hs' by lia. assert (s' = s) by congruence. subst s'. eauto.
  - intros FM LO. exists (length (cons_pairs (g_rows g))). split; [exact (csH_len m g cs Hcs)|].
    assert (H2 : (2 <= length h)%nat).
    { destruct (solve_inv _ _ _ _ _ _ HS) as (K' & cs' & _ & Hcs' & _ & Eh). assert (cs' = cs) by congruence. subst cs'.
      destruct i as [|i]; [|lia]. rewrite Eh in Hi. cbn [history nth_error] in Hi. injection Hi as <-. unfold height, init_state in LO. cbn [st_Z qof] in LO. lra. }
    assert (SZ' : size_ok size). { destruct size as [b|]; [|exact I]. cbn in *. lia. }
    intros t1 t2 t3 T0 L1 L2 T1.
    refine (dir_results lsolve m g p S h DS SD NU SH HS K cs HK Hcs FM _ (csH_len m g cs Hcs) size R SZ' _ H2 t1 t2 t3 T0 L1 L2 T1).
    unfold solve_full. rewrite HS. cbn [bind fst snd]. rewrite ER. reflexivity.
Qed.
Lemma pack_packs linprog lsolve cyl place near : right_linprog linprog -> direct_solver lsolve -> forall m0 per thr p size, ready m0 thr p size ->
  forall k, pack linprog lsolve cyl place near "solve" m0 per thr p size = Ok k -> forall K cs S s, packed_run lsolve p size k K cs S s ->
  packs (pk_mat k) (pk_mesh k) p cs S s (pk_results k).
Proof.
  intros LP DS m0 per thr p size RD k RUN K cs S s (HK & Hcs & h & HS & ER & LS).
  destruct (pk_data linprog lsolve cyl place near LP DS m0 per thr p size RD k RUN) as (SD & SH & AS & _).
  refine (run_packs lsolve _ _ p size S h K cs s _ DS SD _ SH AS _ HS HK Hcs ER LS); [exact (pk_numbering m0 thr p size RD S)|apply RD].
Qed.
Lemma main_packs R cos sin linprog rcm lsolve cyl place near : right_linprog linprog -> direct_solver lsolve -> right_numbering rcm ->
  forall o, options_ok o -> bending sin o -> forall ent prior out, script R cos sin linprog rcm lsolve cyl place near o ent prior = Ok out ->
  forall K cs S s, solver_run lsolve o out K cs S s -> packs (out_mat out) (out_mesh out) (solver_args o (out_perm out)) cs S s (out_results out).
Proof.
  intros LP DS NUM o OK BO ent prior out RUN K cs S s SR.
  destruct (run_data R cos sin linprog rcm lsolve cyl place near LP NUM o OK BO ent prior out RUN K cs S s SR) as (h0 & HS0 & _ & _ & SD & NU & SH & AS & _).
  destruct SR as (HK & Hcs & h & HS & ER & LS). rewrite HS in HS0. injection HS0 as <-.
  refine (run_packs lsolve _ _ _ (op_size o) S h K cs s _ DS SD NU SH AS _ HS HK Hcs ER LS). apply OK.
Qed.
