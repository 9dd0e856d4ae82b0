(** The main script with a direct solver (C90). *)
From Coq Require Import String Permutation.
From Verif Require Import Num NumP ListX ListP Frames MatM NetM StackM MeshM ModelM SolverM InterpM ResultM RenderM VtkM PlotM MainM Spec SpecNet SpecStack SpecMesh SpecModel SpecSolver SpecInterp SpecRender SpecVtk
  SpecPerm SpecScale SpecMain SpecProgress MeshCheckP NetP StackP MeshP StiffP ConstraintP SolverP SolverRunP SolverApiP SolverFinP SolverSysP PlotP MainP ProgressP HeldP ProgressFinP.
Open Scope Q_scope.

Section Script.
  Variable R : rng.
  Variables cos sin : Q -> Q.
  Variable linprog : lp -> list Q.
  Variable rcm : nat -> ncoo -> list nat.
  Variable lsolve : ncoo -> list num -> list num.
  Variable cyl : list vec.
  Variable place : qfiber -> vec -> vec.
  Variable near : list Q -> Q -> nat.
  Hypothesis LP : right_linprog linprog.
  Hypothesis DS : direct_solver lsolve.
  Hypothesis NUM : right_numbering rcm.
  Variable o : options.
  Hypothesis OK : options_ok o.
  Hypothesis BO : bending sin o.

  Section Back.
    Variables (md : mat_df) (s1 ent prior : rng_state R) (t st : net_df) (m : qmat) (g : mesh_df).
    Hypothesis Hmd : mat_new R cos sin (op_mat o) ent prior = Ok (md, s1).
    Hypothesis Hn : net_new (read_mat md) (op_periodic o) None = Ok t.
    Hypothesis Hst : stack_new linprog (read_mat md) t (op_threshold o) = Ok (st, m).
    Hypothesis Hg : mesh_new st = Ok g.
    Lemma go_flat : all_in_plane (read_mat md).
    Proof.
      destruct BO as (_ & _ & _ & P0 & HS & _). intros f0 Hf0. destruct (read_asked R cos sin _ ent prior md s1 f0 Hmd Hf0) as (_ & x & W). unfold in_plane. rewrite W. apply HS. rewrite P0. ring.
    Qed.
    Lemma go_held : starts_held m g (op_tol o).
    Proof.
      apply (stack_held linprog (read_mat md) (op_periodic o) t (op_threshold o) st m g (op_tol o) Hn (LP _ _ _ Hn) go_flat Hst Hg); [apply OK|].
      destruct BO as (_ & _ & _ & _ & _ & _ & TH). unfold wide. destruct (op_threshold o) as [d|]; [|exact I]. intros f f' Hf Hf'.
      destruct (read_asked R cos sin _ ent prior md s1 f Hmd Hf) as ((_ & _ & A & _) & _). destruct (read_asked R cos sin _ ent prior md s1 f' Hmd Hf') as ((_ & _ & B & _) & _).
      rewrite A, B. specialize (TH d eq_refl). qlra.
    Qed.
    Lemma go_sound perm : sound_data m g (solver_args o perm).
    Proof.
      destruct BO as (((l & L1 & L2) & L3) & CP & E3 & _ & _ & (G & EG) & _).
      split; [exact (stack_noflag linprog _ _ t _ st m g Hn (LP _ _ _ Hn) Hst Hg)|]. split; [exact (back_tols o OK perm)|]. split; [exact E3|]. split; [exact CP|].
      split; [exact (back_lengths R cos sin linprog LP o OK md s1 ent prior t st m g Hmd Hn Hst Hg perm l L1 L2 L3)|exact (back_shear R cos sin linprog LP o md s1 ent prior t st m g Hmd Hn Hst Hg G EG)].
    Qed.
    Lemma go_numbering cs S h P : constraint m g = Ok cs ->
      let perm := rcm (2 * length (g_rows g) + length (csH cs)) P in solve lsolve m g (solver_args o perm) = Ok (S, h) ->
      numbering (length (sy_dq S)) (sp_perm (solver_args o perm)).
    Proof.
      intros Hcs perm HS. destruct (solve_inv _ _ _ _ _ _ HS) as (K & cs' & _ & Hcs' & ES & _). rewrite Hcs in Hcs'. injection Hcs' as <-. rewrite ES.
      cbn [sy_dq solver_args sp_perm numbering]. rewrite app_length, repeat_length, (csdH_len m g cs Hcs), <- (csH_len m g cs Hcs). apply NUM.
    Qed.
    Lemma go_same cs P : constraint m g = Ok cs ->
      let perm := rcm (2 * length (g_rows g) + length (csH cs)) P in
      solve_full lsolve m g (solver_args o perm) (op_size o) = solve_full lsolve m g (solver_args (exacting o) perm) (op_size o).
    Proof.
      intros Hcs perm. unfold solve_full. change (solver_args (exacting o) perm) with (strict (solver_args o perm)).
      destruct (solve lsolve m g (solver_args o perm)) as [[S h]|e] eqn:HS.
      - destruct (go_strict lsolve m g _ S h DS (go_sound perm) (go_numbering cs S h P Hcs HS) go_held HS) as (S0 & HS0 & E0 & _). rewrite HS0, E0. reflexivity.
      - unfold solve, assemble, strict in *. cbn [sp_lmin sp_lmax sp_coupling sp_perm sp_tol sp_errtol sp_packing sp_itermax solver_args] in *. rewrite Hcs in *.
        destruct (stiffness m g (op_lmin o) (op_lmax o) (op_coupling o)); cbn [bind] in *; [discriminate HS|injection HS as <-; reflexivity].
    Qed.
  End Back.
  Theorem script_exact ent prior : script R cos sin linprog rcm lsolve cyl place near o ent prior = script R cos sin linprog rcm lsolve cyl place near (exacting o) ent prior.
  Proof.
    unfold script. change (op_mat (exacting o)) with (op_mat o). destruct (mat_new R cos sin (op_mat o) ent prior) as [[md s1]|] eqn:Hmd; [|reflexivity]. cbn [bind fst].
    change (op_periodic (exacting o)) with (op_periodic o). destruct (net_new (read_mat md) (op_periodic o) None) as [t|] eqn:Hn; [|reflexivity]. cbn [bind].
    change (op_threshold (exacting o)) with (op_threshold o). destruct (stack_new linprog (read_mat md) t (op_threshold o)) as [[st m]|] eqn:Hst; [|reflexivity]. cbn [bind fst snd].
    destruct (mesh_new st) as [g|] eqn:Hg; [|reflexivity]. cbn [bind]. destruct (stiffness m g None None 1) as [K|] eqn:HK; [|reflexivity]. cbn [bind].
    destruct (constraint m g) as [cs|] eqn:Hcs; [|reflexivity]. cbn [bind]. change (op_size (exacting o)) with (op_size o).
    rewrite <- (go_same md s1 ent prior t st m g Hmd Hn Hst Hg cs (bmat (2 * length (g_rows g)) K (csC cs)) Hcs). reflexivity.
  Qed.
  Lemma exacting_ok : options_ok (exacting o) /\ solver_copes lsolve (exacting o).
  Proof.
    destruct OK as (A & B & C & _ & D). split; [split; [exact A|split; [exact B|split; [exact C|split; [apply Qle_refl|exact D]]]]|].
    destruct DS as (L & _ & [F|F]); (split; [exact L|]); [left; exact F|right]. destruct BO as ((L1 & L2) & _ & _ & _ & _ & G & _).
    split; [exact F|]. split; [reflexivity|]. split; [exact L1|]. split; [exact L2|exact G].
  Qed.
  Theorem script_ends ent prior : draws_in_range R -> trig_accurate cos sin -> unit_cylinder cyl -> right_tree near ->
    exists out, script R cos sin linprog rcm lsolve cyl place near o ent prior = Ok out.
  Proof. intros A B C D. rewrite script_exact. destruct exacting_ok as [E F]. apply script_total; auto. Qed.
  Section Shown.
    Variables ent prior : rng_state R.
    Variable out : outcome.
    Hypothesis RUN : script R cos sin linprog rcm lsolve cyl place near o ent prior = Ok out.
    Variables (K : ncoo) (cs : csys) (S : sysdata) (s : state).
    Hypothesis SR : solver_run lsolve o out K cs S s.
    Lemma run_data : exists h, solve lsolve (out_mat out) (out_mesh out) (solver_args o (out_perm out)) = Ok (S, h) /\ nth_error h (length h - 1) = Some s /\ In s h /\
      sound_data (out_mat out) (out_mesh out) (solver_args o (out_perm out)) /\ numbering (length (sy_dq S)) (sp_perm (solver_args o (out_perm out))) /\
      starts_held (out_mat out) (out_mesh out) (op_tol o) /\ admissible_start (out_mat out) (out_mesh out) /\
      (forall f, In f (q_rows (out_mat out)) -> qh f = p_thickness (op_mat o)).
    Proof.
      destruct (script_inv R cos sin linprog rcm lsolve cyl place near o ent prior out RUN) as (md & s1 & K0 & cs' & S' & h' & dd & rr & ff & tt & Hmd & Hn & Hst & Hg & W). cbv zeta in W.
      destruct W as (HK0 & Hcs & EP & _). destruct SR as (_ & Hcs' & h & HS & _ & (k & Hk & Lk)). exists h. split; [exact HS|].
      split; [rewrite Lk; replace (Datatypes.S k - 1)%nat with k by lia; exact Hk|]. split; [exact (nth_error_In _ _ Hk)|].
      split; [exact (go_sound md s1 ent prior _ _ _ _ Hmd Hn Hst Hg (out_perm out))|].
      split; [rewrite EP in HS |- *; exact (go_numbering (out_mat out) (out_mesh out) cs' S h _ Hcs HS)|].
      split; [exact (go_held md s1 ent prior _ _ _ _ Hmd Hn Hst Hg)|].
      split; [exact (stack_admissible linprog (read_mat md) (op_periodic o) (out_net out) (op_threshold o) (out_stack out) _ _ cs' Hn (LP _ _ _ Hn) (go_flat md s1 ent prior Hmd) Hst Hg Hcs)|].
      intros f Hf. destruct (back_asked R cos sin linprog LP o md s1 ent prior _ _ _ _ Hmd Hn Hst Hg f Hf) as ((_ & _ & A & _) & _). exact A.
    Qed.
    Lemma run_admissible : exists z, st_Z s = Fin z /\ in_slab (out_mat out) (out_mesh out) z (vals (st_u S s)) /\ no_overlap (out_mat out) (out_mesh out) (vals (st_u S s)).
    Proof. destruct run_data as (h & HS & Hk & Hs & SD & NU & SH & AS & _). exact (go_admissible lsolve _ _ _ S h DS SD NU SH HS s AS Hs). Qed.
    Lemma run_end : (length (csH cs) < op_itermax o)%nat -> nltb (st_rl s) (op_packing o) = false \/ compressed_at (out_mat out) (out_mesh out) S s.
    Proof.
      intros LI. destruct run_data as (h & HS & Hk & Hs & SD & NU & SH & AS & _). destruct (go_end lsolve _ _ _ S h DS SD NU SH HS) as (s' & Hs' & E).
      assert (s' = s) by congruence. subst s'. destruct E as [E|E]; [|exact E]. 
      pose proof (go_steps lsolve _ _ _ S h DS SD NU SH HS cs (proj1 (proj2 SR))) as L. cbn [solver_args sp_itermax] in E. lia.
    Qed.
    Lemma run_reaches c : (length (csH cs) < op_itermax o)%nat -> op_packing o = Fin c -> 0 <= c -> c * (2 * p_thickness (op_mat o) + 3 * op_tol o) <= csZ cs ->
      exists r, st_rl s = Fin r /\ c <= r.
    Proof.
      intros LI EP Hc HB. destruct run_data as (h & HS & Hk & Hs & SD & NU & SH & AS & TH).
      destruct (go_reaches lsolve _ _ _ S h DS SD NU SH HS cs c (proj1 (proj2 SR)) AS EP Hc LI) as (s' & r & Hs' & Er & L).
      - intros i j d e hi hj _ (f & (_ & F1) & F2) (f' & (_ & F1') & F2'). apply nth_error_In in F1, F1'. rewrite (TH f F1) in F2. rewrite (TH f' F1') in F2'. subst hi hj.
        cbn [solver_args sp_tol]. assert (Q : p_thickness (op_mat o) + p_thickness (op_mat o) + 3 * op_tol o == 2 * p_thickness (op_mat o) + 3 * op_tol o) by ring. rewrite Q. exact HB.
      - assert (s' = s) by congruence. subst s'. eauto.
    Qed.
  End Shown.
End Script.

(** the numbering and the solver are not seen in the result *)
Theorem script_numbering R cos sin linprog rcm rcm' lsolve lsolve' cyl place near o ent prior out out' : right_linprog linprog ->
  direct_solver lsolve -> direct_solver lsolve' -> right_numbering rcm -> right_numbering rcm' -> options_ok o -> bending sin o ->
  script R cos sin linprog rcm lsolve cyl place near o ent prior = Ok out -> script R cos sin linprog rcm' lsolve' cyl place near o ent prior = Ok out' ->
  out_mat out' = out_mat out /\ out_mesh out' = out_mesh out /\
  forall K cs S s K' cs' S' s', solver_run lsolve o out K cs S s -> solver_run lsolve' o out' K' cs' S' s' -> record_in no_units S S' s s'.
Proof.
  intros LP D D' NU NU' OK BO RUN RUN'.
  destruct (script_inv R cos sin linprog rcm lsolve cyl place near o ent prior out RUN) as (md & s1 & K0 & cs0 & S0 & h0 & dd & rr & ff & tt & Hmd & Hn & Hst & Hg & _).
  destruct (script_inv R cos sin linprog rcm' lsolve' cyl place near o ent prior out' RUN') as (md' & s1' & K0' & cs0' & S0' & h0' & dd' & rr' & ff' & tt' & Hmd' & Hn' & Hst' & Hg' & _).
  assert (md' = md) by congruence. subst md'. rewrite Hn in Hn'. injection Hn' as E1. rewrite <- E1, Hst in Hst'. injection Hst' as E2 E3. rewrite <- E2, Hg in Hg'. injection Hg' as E4.
  split; [symmetry; exact E3|]. split; [symmetry; exact E4|].
  intros K cs S s K' cs' S' s' SR SR'.
  destruct (run_data R cos sin linprog rcm lsolve cyl place near LP NU o OK BO ent prior out RUN K cs S s SR) as (h & HS & Hk & Hs & SD & N & SH & _).
  destruct (run_data R cos sin linprog rcm' lsolve' cyl place near LP NU' o OK BO ent prior out' RUN' K' cs' S' s' SR') as (h' & HS' & Hk' & Hs' & SD' & N' & SH' & _).
  rewrite <- E3, <- E4 in HS'.
  assert (EQ : sy_dq S' = sy_dq S) by exact (sc_dq no_units _ _ _ _ _ _ _ _ _ _ _ _ no_units_ok (ScaleP.in_seen _ _ _ (no_mat _)) (ScaleP.in_seen_mesh _ _ _ (no_mesh _ _ eq_refl)) HS HS').
  rewrite EQ in N'.
  pose proof (numbering_calls lsolve lsolve' _ _ _ _ S h S' h' D D' SD SH eq_refl HS HS' N N') as F.
  pose proof (NetZP.Forall2_len _ _ _ F) as L. destruct (nth2 _ _ _ _ _ F Hk) as (s2 & Hs2 & RI). rewrite L in Hs2. congruence.
Qed.
