(** The notebook (C84). *)
From Coq Require Import Permutation.
From Verif Require Import Num NumP ListX ListP Frames MatM NetM StackM MeshM ModelM SolverM InterpM ResultM RenderM VtkM PlotM MainM PictureM SettingsM NotebookM
  Spec SpecNet SpecStack SpecMesh SpecModel SpecSolver SpecInterp SpecRender SpecVtk SpecPerm SpecPlot SpecMain SpecSettings SpecPicture SpecNotebook
  CheckP MeshCheckP MatP DrawP NetP NetZP StackP StackNewP MeshP StiffP StiffLenP ConstraintP SolverP SolverSysP SolverFinP ResultP VtkP PlotP SettingsP MainP PictureP.
Open Scope Q_scope.

(** ** Settings as arguments *)
Lemma arg_z_int z : arg_z (VNum (Fin (inject_Z z))) = Some z.
Proof. unfold arg_z. rewrite Qfloor_Z. assert (E : Qeqb (inject_Z z) (inject_Z z) = true) by (apply Qeqb_eq; reflexivity). rewrite E. reflexivity. Qed.
Lemma arg_nat_int z : (0 <= z)%Z -> arg_nat (VNum (Fin (inject_Z z))) = Some (Z.to_nat z).
Proof. intros L. unfold arg_nat. rewrite arg_z_int. destruct (Z.ltb_spec z 0); [lia|reflexivity]. Qed.
Section Read.
  Variable s : settings.
  Hypothesis HR : reachable s.
  Lemma read_float k : widget_of k = WFloat -> is_modulus k = false -> is_optional k = false -> exists x, get_item s k = VNum x.
  Proof. intros W M O. pose proof (reach_held s k HR) as H. rewrite W in H. unfold get_item. destruct k; try discriminate W; try discriminate M; try discriminate O; exact H. Qed.
  Lemma read_modulus k : is_modulus k = true -> exists x, arg_num (get_item s k) = Some x /\ stands (get_item s k) x.
  Proof.
    intros M. pose proof (reach_held s k HR) as H. unfold get_item. destruct k; try discriminate M; cbn in H |- *; destruct H as (x & ->);
      (destruct (c_switch _); [exists x|exists PInf]; split; try reflexivity; constructor).
  Qed.
  Lemma read_optional k : is_optional k = true -> get_item s k = VNone \/ held (widget_of k) (get_item s k).
  Proof.
    intros O. pose proof (reach_held s k HR) as H. unfold get_item. destruct k; try discriminate O; cbn [is_modulus is_optional] in *; destruct (c_switch _); auto.
  Qed.
  Lemma read_flag k : widget_of k = WBool -> exists b, get_item s k = VBool b.
  Proof. intros W. pose proof (reach_held s k HR) as H. rewrite W in H. unfold get_item. destruct k; try discriminate W; exact H. Qed.
  Lemma read_n : exists z, get_item s Kn = VNum (Fin (inject_Z z)).
  Proof. exact (reach_held s Kn HR). Qed.
  Lemma read_theta : (forall x, get_item s Ktheta = VNum x -> exists q, x = Fin q) -> exists q, get_item s Ktheta = VNum (Fin q) /\ 0 <= q /\ q <= np_pi.
  Proof.
    intros F. pose proof (reach_held s Ktheta HR) as H. cbn [widget_of held] in H. unfold get_item in *. destruct H as [E|(q & E & L & U)].
    - rewrite E in F. destruct (F _ eq_refl) as (q & C). discriminate C.
    - rewrite E. exists (q * np_pi). split; [reflexivity|]. assert (P : 0 < np_pi) by reflexivity. split; nra.
  Qed.
  Lemma read_tol : (forall x, get_item s Ktol = VNum x -> exists q, x = Fin q) -> exists q, get_item s Ktol = VNum (Fin q) /\ 1 # 10000000000 <= q /\ q <= 1 # 10.
  Proof.
    intros F. pose proof (reach_held s Ktol HR) as H. cbn [widget_of held] in H. unfold get_item in *. cbn [is_modulus is_optional] in *. destruct H as [E|(q & E & L & U)].
    - rewrite E in F. destruct (F _ eq_refl) as (q & C). discriminate C.
    - rewrite E. exists q. auto.
  Qed.
  Lemma read_itermax : get_item s Kitermax <> VOther -> exists z, get_item s Kitermax = VNum (Fin (inject_Z z)) /\ (1 <= z <= 1000000)%Z.
  Proof.
    intros F. pose proof (reach_held s Kitermax HR) as H. cbn [widget_of held] in H. unfold get_item in *. destruct H as [E|(q & E & L & U)].
    - rewrite E in F. congruence.
    - rewrite E. destruct (int_truncates q) as (z & Ez & T & _). specialize (T ltac:(lra)). rewrite Ez. exists z. split; [reflexivity|]. rewrite Ez in T.
      assert (A : inject_Z 0 < inject_Z z) by (change (inject_Z 0) with 0; lra). rewrite <- Zlt_Qlt in A.
      assert (B : inject_Z z <= inject_Z 1000000) by (change (inject_Z 1000000) with 1000000; lra). rewrite <- Zle_Qle in B. lia.
  Qed.
  Theorem settings_read : usable s -> exists o, options_of s = Some o /\ asks s o /\ other_defaults o /\ in_ranges o.
  Proof.
    intros (FIN & IT & SZ).
    assert (FL : forall k, widget_of k = WFloat -> is_modulus k = false -> is_optional k = false -> k <> Kpacking -> exists q, get_item s k = VNum (Fin q)).
    { intros k W M O N. destruct (read_float k W M O) as (x & E). destruct (FIN k) with (x := x) as (q & ->); auto; [|eauto]. intros C. apply modulus_iff in C. congruence. }
    assert (FO : forall k, is_optional k = true -> widget_of k = WFloat -> exists q, arg_opt arg_q (get_item s k) = Some q /\ given (get_item s k) q).
    { intros k O W. destruct (read_optional k O) as [E|E]; [exists None; rewrite E; split; reflexivity|]. rewrite W in E. destruct E as (x & E).
      destruct (FIN k) with (x := x) as (q & ->); auto; [intros C; apply modulus_iff in C; destruct k; discriminate|intros C; subst k; discriminate|].
      exists (Some q). rewrite E. split; reflexivity. }
    destruct read_n as (n & En). destruct (FL Klength) as (l & El); try reflexivity; [discriminate|]. destruct (FL Kwidth) as (b & Eb); try reflexivity; [discriminate|].
    destruct (FL Kthickness) as (h & Eh); try reflexivity; [discriminate|]. destruct (FL Ksize) as (sz & Es); try reflexivity; [discriminate|].
    destruct (FL Kcoupling) as (c & Ec); try reflexivity; [discriminate|].
    destruct (read_theta) as (th & Eth & T0 & T1). { apply FIN; [|discriminate]. intros C. apply modulus_iff in C. discriminate C. }
    destruct (read_tol) as (tol & Etol & O0 & O1). { apply FIN; [|discriminate]. intros C. apply modulus_iff in C. discriminate C. }
    destruct (read_itermax IT) as (im & Eim & IM). destruct (read_modulus Kshear eq_refl) as (G & EG & SG). destruct (read_modulus Ktensile eq_refl) as (E & EE & SE).
    destruct (read_flag Kperiodic eq_refl) as (per & Eper). destruct (read_float Kpacking) as (pk & Epk); try reflexivity.
    destruct (FO Kthreshold) as (thr & Ethr & Gthr); try reflexivity. destruct (FO Klmin) as (lmin & Elmin & Glmin); try reflexivity. destruct (FO Klmax) as (lmax & Elmax & Glmax); try reflexivity.
    assert (SD : exists k, arg_opt arg_z (get_item s Kseed) = Some k /\ given (get_item s Kseed) (option_map inject_Z k)).
    { destruct (read_optional Kseed eq_refl) as [X|(z & X)]; rewrite X; [exists None; split; reflexivity|]. exists (Some z). split; [|reflexivity].
      cbn [arg_opt]. rewrite arg_z_int. reflexivity. }
    destruct SD as (sd & Esd & Gsd).
    assert (SI : exists k, arg_opt arg_nat (get_item s Kinterp_size) = Some k /\ given (get_item s Kinterp_size) (option_map (fun n => inject_Z (Z.of_nat n)) k)).
    { destruct (read_optional Kinterp_size eq_refl) as [X|(z & X)]; [rewrite X; exists None; split; reflexivity|]. pose proof (SZ _ X) as P. rewrite X.
      change 0 with (inject_Z 0) in P. rewrite <- Zle_Qle in P. exists (Some (Z.to_nat z)). cbn [arg_opt option_map given]. rewrite arg_nat_int by exact P. split; [reflexivity|].
      rewrite Z2Nat.id by exact P. reflexivity. }
    destruct SI as (si & Esi & Gsi).
    unfold options_of. cbv zeta. rewrite En, El, Eb, Eh, Es, Eth, EG, EE, Esd, Eper, Ethr, Epk, Eim, Etol, Elmin, Elmax, Ec, Esi.
    rewrite arg_z_int, arg_nat_int by lia. cbn [with_arg arg_q arg_num arg_bool].
    eexists. split; [reflexivity|]. split; [|split; [split; reflexivity|]].
    - unfold asks. cbv zeta. cbn [op_mat p_n p_length p_width p_thickness p_size p_theta p_shear p_tensile p_seed op_periodic op_threshold op_packing op_itermax op_tol op_lmin op_lmax op_coupling op_size].
      rewrite Z2Nat.id by lia. rewrite En, El, Eb, Eh, Es, Eth, Eper, Epk, Eim, Etol, Ec. do 6 (split; [reflexivity|]). split; [exact SG|]. split; [exact SE|]. split; [exact Gsd|].
      split; [reflexivity|]. split; [exact Gthr|]. do 3 (split; [reflexivity|]). split; [exact Glmin|]. split; [exact Glmax|]. split; [reflexivity|exact Gsi].
    - unfold in_ranges. cbn [op_mat p_theta op_tol op_itermax]. rewrite Z2Nat.id by lia. auto.
  Qed.
End Read.
Lemma cell7_set s : exists s', set_all s cell7 = (s', None) /\ (forall k v, In (k, v) cell7 -> get_item s' k = v) /\
  (forall k, untouched k cell7 -> get_item s' k = get_item s k) /\ (reachable s -> reachable s').
Proof.
  destruct (set_all s cell7) as [s' e] eqn:E. pose proof E as E0. unfold cell7 in E0. cbn [set_all] in E0.
  repeat (match type of E0 with (match set_item ?a ?k ?v with _ => _ end) = _ =>
    let E1 := fresh "A" in destruct (set_item a k v) as [? [?|]] eqn:E1; [exfalso; apply (f_equal snd) in E1; cbn in E1; discriminate E1|] end).
  injection E0 as <- <-. exists s9. split; [reflexivity|]. split; [|split].
  - intros k v I. injection A as <-. injection A0 as <-. injection A1 as <-. injection A2 as <-. injection A3 as <-. injection A4 as <-. injection A5 as <-. injection A6 as <-. injection A7 as <-. injection A8 as <-.
    unfold cell7 in I. cbn [In] in I. decompose [or] I; try contradiction;
    match goal with H : (_, _) = (k, v) |- _ => injection H as <- <-; vm_compute; reflexivity end.
  - intros k U. exact (set_all_untouched s cell7 s9 None k E U).
  - intros R0. eapply reach_set; [|exact A8]. eapply reach_set; [|exact A7]. eapply reach_set; [|exact A6]. eapply reach_set; [|exact A5]. eapply reach_set; [|exact A4].
    eapply reach_set; [|exact A3]. eapply reach_set; [|exact A2]. eapply reach_set; [|exact A1]. eapply reach_set; [|exact A0]. eapply reach_set; [exact R0|exact A].
Qed.

(** ** Cells *)
Lemma shear_natural m g o K cs : stiffness m g (op_lmin o) (op_lmax o) (op_coupling o) = Ok K -> constraint m g = Ok cs ->
  forall lsolve, solve lsolve m g (book_args o) = solve lsolve m g (solver_args o (seq 0 (2 * length (g_rows g) + length (csH cs)))).
Proof.
  intros HK Hcs lsolve. unfold solve, assemble. cbn [sp_lmin sp_lmax sp_coupling sp_perm sp_tol sp_errtol sp_packing sp_itermax book_args solver_args].
  rewrite HK. cbn [bind]. rewrite Hcs. cbn [bind]. rewrite app_length, repeat_length. reflexivity.
Qed.
Lemma call_length kd vs size t n : vs <> [] -> (forall v, In v vs -> length v = n) -> length (call_vec (interp_vec kd vs size) t) = n.
Proof. intros NE H. unfold call_vec, interp_vec. rewrite !map_length, seq_length. destruct vs as [|v l]; [congruence|]. apply H. left. reflexivity. Qed.

Section Notebook.
  Variable R : rng.
  Variables cos sin : Q -> Q.
  Variables linprog marg : lp -> list Q.
  Variable lsolve : ncoo -> list num -> list num.
  Variable cyl : list vec.
  Variable place : qfiber -> vec -> vec.
  Variable near : list Q -> Q -> nat.
  Hypothesis LP : right_linprog linprog.
  Let num_ok : right_numbering natural.
  Proof. intros n P. apply Permutation_refl. Qed.

  (** *** cells 21, 24, 28, 36 *)
  Lemma cell_net_inv o ent prior m t : cell_net R cos sin o ent prior = Ok (m, t) ->
    exists md s1, mat_new R cos sin (op_mat o) ent prior = Ok (md, s1) /\ m = read_mat md /\ net_new m (op_periodic o) None = Ok t.
  Proof.
    unfold cell_net. destruct (mat_new _ _ _ _ _ _) as [[md s1]|]; [|discriminate]. cbn [bind fst]. destruct (net_new _ _ _) as [t'|] eqn:E; [|discriminate].
    cbn [bind]. intros H. injection H as <- <-. exists md, s1. auto.
  Qed.
  Lemma cell_mesh_inv o ent prior m t st g : cell_mesh R cos sin linprog o ent prior = Ok (m, t, st, g) ->
    exists md s1, mat_new R cos sin (op_mat o) ent prior = Ok (md, s1) /\ net_new (read_mat md) (op_periodic o) None = Ok t /\
      stack_new linprog (read_mat md) t (op_threshold o) = Ok (st, m) /\ mesh_new st = Ok g.
  Proof.
    unfold cell_mesh. destruct (cell_net _ _ _ _ _ _) as [[m0 t0]|] eqn:E; [|discriminate]. cbn [bind fst snd]. destruct (cell_net_inv o ent prior m0 t0 E) as (md & s1 & E1 & -> & E2).
    destruct (stack_new _ _ _ _) as [[st0 m1]|] eqn:E3; [|discriminate]. cbn [bind fst snd]. destruct (mesh_new st0) as [g0|] eqn:E4; [|discriminate]. cbn [bind].
    intros H. injection H as <- <- <- <-. exists md, s1. auto.
  Qed.
  Lemma cell_net_total o ent prior : draws_in_range R -> trig_accurate cos sin -> options_ok o -> exists m t, cell_net R cos sin o ent prior = Ok (m, t) /\ valid m.
  Proof.
    intros HR HT OK. destruct (mat_generated R cos sin (op_mat o) ent prior HR HT (proj1 OK)) as (md & s1 & Hmd & _).
    assert (V0 : valid (read_mat md)).
    { destruct (read_back R cos sin _ ent prior md s1 Hmd) as (E & EC). unfold valid. rewrite E. apply mat_check_ok in EC. destruct EC as [F|M]; [|exact M].
      rewrite <- E in F. discriminate F. }
    destruct (net_total (read_mat md) (op_periodic o) None V0) as (t & Hn). { intros l p q H. discriminate H. }
    exists (read_mat md), t. unfold cell_net. rewrite Hmd. cbn [bind fst]. rewrite Hn. split; [reflexivity|exact V0].
  Qed.
  Lemma cell_mesh_total o ent prior : draws_in_range R -> trig_accurate cos sin -> options_ok o -> exists m t st g, cell_mesh R cos sin linprog o ent prior = Ok (m, t, st, g).
  Proof.
    intros HR HT OK. destruct (cell_net_total o ent prior HR HT OK) as (m0 & t & E & V0). destruct (cell_net_inv o ent prior m0 t E) as (md & s1 & Hmd & -> & Hn).
    pose proof (LP _ _ _ Hn) as SL. destruct (new_facts _ _ _ _ Hn) as (_ & NO & LF & NFt & _).
    destruct (stack_total linprog (read_mat md) t (op_threshold o) V0 NO LF NFt SL) as (st & m & Hst).
    destruct (stack_mesh_total linprog _ _ t _ st m Hn SL Hst) as (g & Hg & _).
    exists m, t, st, g. unfold cell_mesh. rewrite E. cbn [bind fst snd]. rewrite Hst. cbn [bind fst snd]. rewrite Hg. reflexivity.
  Qed.
  (** the mean weight is the weight of any fiber *)
  Lemma weight_mean o m : q_rows m <> [] -> (forall f, In f (q_rows m) -> as_asked (op_mat o) f) -> mean_weight m == fiber_weight (op_mat o).
  Proof.
    intros NE H. unfold mean_weight, fiber_weight. set (w := p_length (op_mat o) * p_width (op_mat o) * p_thickness (op_mat o)).
    assert (E : forall l, (forall f, In f l -> as_asked (op_mat o) f) -> qsum (map (fun f => ql f * qb f * qh f) l) == inject_Z (Z.of_nat (length l)) * w).
    { induction l as [|f l IH]; intros HH; [cbn; ring|]. cbn [map qsum length]. rewrite IH by (intros f' I; apply HH; right; exact I).
      destruct (HH f (or_introl eq_refl)) as (-> & -> & -> & _). fold w. rewrite Nat2Z.inj_succ. unfold Z.succ. rewrite inject_Z_plus. change (inject_Z 1) with 1. ring. }
    rewrite (E _ H). assert (P : 0 < inject_Z (Z.of_nat (length (q_rows m)))). { change 0 with (inject_Z 0). rewrite <- Zlt_Qlt. destruct (q_rows m); [congruence|cbn [length]; lia]. }
    field. lra.
  Qed.
  Lemma weight_pos o : options_ok o -> 0 < fiber_weight (op_mat o).
  Proof.
    intros ((_ & A & B & C & _) & _). unfold fiber_weight. assert (P : 0 < np_pi / 4) by reflexivity. apply Qmult_lt_0_compat; [exact P|]. apply Qmult_lt_0_compat; [apply Qmult_lt_0_compat; assumption|assumption].
  Qed.
  Lemma flat_mat o ent prior md s1 : flat_sin sin -> p_psi (op_mat o) == 0 -> mat_new R cos sin (op_mat o) ent prior = Ok (md, s1) -> all_in_plane (read_mat md).
  Proof. intros FS EP Hmd f Hf. destruct (read_asked R cos sin _ ent prior md s1 f Hmd Hf) as (_ & d & W). unfold in_plane. rewrite W. apply FS. rewrite EP. ring. Qed.
  Lemma scale_nth (y : list Q) w k : nth k (map (fun x => x / w) y) 0 == nth k y 0 / w.
  Proof.
    revert k. induction y as [|a y IH]; intros [|k]; cbn [map nth]; try (unfold Qdiv; ring). apply IH.
  Qed.
  Lemma shows_ext {A B} (l : list A) (c : list B) (p q : nat -> Prop) is : (forall r, p r <-> q r) -> shows l c p is -> shows l c q is.
  Proof.
    intros H (phi & H1 & H2 & H3). exists phi. split; [exact H1|]. split.
    - intros k a E. destruct (H2 k a E) as (b & E1 & E2 & E3). exists b. split; [exact E1|]. split; [apply H; exact E2|exact E3].
    - intros r b E Q. apply (H3 r b E). apply H. exact Q.
  Qed.
  Theorem cell24_shows o ent prior : draws_in_range R -> trig_accurate cos sin -> options_ok o -> p_psi (op_mat o) == 0 -> flat_sin sin -> right_marginals linprog marg ->
    exists m0 t m st l p, cell_net R cos sin o ent prior = Ok (m0, t) /\ stack_new linprog m0 t None = Ok (st, m) /\ stack_constraint m t = Ok p /\
      cell24 R cos sin linprog marg o ent prior = Ok (m, st, l) /\
      shows l (contacts st) (counts_of_weight (op_mat o) (marg p)) (contact_line m (op_periodic o)).
  Proof.
    intros HR HT OK EP FS HM. destruct (cell_net_total o ent prior HR HT OK) as (m0 & t & E & V0). destruct (cell_net_inv o ent prior m0 t E) as (md & s1 & Hmd & -> & Hn).
    pose proof (LP _ _ _ Hn) as SL. destruct (new_facts _ _ _ _ Hn) as (_ & NO & LF & NFt & _).
    destruct (stack_total linprog (read_mat md) t None V0 NO LF NFt SL) as (st & m & Hst).
    pose proof (flat_mat o ent prior md s1 FS EP Hmd) as FL.
    assert (NE : q_rows (read_mat md) <> []).
    { pose proof (read_length R cos sin _ ent prior md s1 Hmd) as L. destruct OK as (_ & N1 & _). intros C. rewrite C in L. cbn in L. lia. }
    destruct (stack_again linprog marg _ _ _ _ _ Hn SL FL (HM _ _ _ Hn) NE Hst) as (p & Ep & Ep' & NE' & LY).
    set (y := map (fun x => x / mean_weight m) (marg p)).
    pose proof (stack_lines linprog marg _ _ _ _ _ Hn SL FL (HM _ _ _ Hn) Hst p y Ep) as SH.
    assert (AS : forall f, In f (q_rows m) -> as_asked (op_mat o) f).
    { intros f Hf. destruct (built_inv linprog _ _ t Hn SL None st m Hst) as (p' & _ & _ & SB & _). destruct (same_in _ _ f SB Hf) as (f0 & I0 & (E1 & E2 & E3 & _ & _ & _ & _ & _ & E9 & E10)).
      destruct (read_asked R cos sin _ ent prior md s1 f0 Hmd I0) as ((A1 & A2 & A3 & A4 & A5) & _). repeat split; congruence. }
    pose proof (weight_mean o m NE' AS) as WM. pose proof (weight_pos o OK) as WP.
    exists (read_mat md), t, m, st, (select (map PictureM.loaded y) (stack_points st)), p. split; [exact E|]. split; [exact Hst|]. split; [exact Ep'|]. split.
    - unfold cell24. rewrite E. cbn [bind fst snd]. rewrite Hst. cbn [bind fst snd]. rewrite Ep'. cbn [bind]. destruct (q_rows m); [congruence|].
      fold y. unfold y at 1. rewrite map_length, LY, Nat.eqb_refl. reflexivity.
    - apply (shows_ext _ _ (force_counts y)).
      + intros r. unfold force_counts, counts_of_weight, y. rewrite scale_nth, WM. unfold Qdiv. rewrite Qabs_Qmult, (Qabs_pos (/ _)) by (apply Qlt_le_weak, Qinv_lt_0_compat; exact WP).
        split; intros L.
        * apply (Qmult_lt_r _ _ (/ fiber_weight (op_mat o))); [apply Qinv_lt_0_compat; exact WP|]. rewrite <- Qmult_assoc, Qmult_inv_r by lra. lra.
        * apply (Qmult_lt_r _ _ (fiber_weight (op_mat o))); [exact WP|]. rewrite <- (Qmult_assoc (Qabs _)), (Qmult_comm (/ _)), Qmult_inv_r by lra. lra.
      + apply SH.
        * unfold y. rewrite map_length. exact LY.
        * intros k Z C. apply Z. unfold y. rewrite scale_nth, C. unfold Qdiv. ring.
  Qed.
  Lemma cell36_total o ent prior : draws_in_range R -> trig_accurate cos sin -> options_ok o -> exists pe, cell36 R cos sin linprog lsolve o ent prior = Ok pe.
  Proof.
    intros HR HT OK. destruct (cell_mesh_total o ent prior HR HT OK) as (m & t & st & g & E). destruct (cell_mesh_inv o ent prior m t st g E) as (md & s1 & Hmd & Hn & Hst & Hg).
    destruct (back_facts linprog LP o md t st m g Hn Hst Hg) as (V & M & SP & NF & AN & SB & _).
    destruct (back_elem R cos sin linprog LP o OK md s1 ent prior t st m g Hmd Hn Hst Hg) as (i & j & d & e & HB & _).
    assert (NE : g_rows g <> []). { destruct HB as ((l & H) & _). intros C. rewrite C in H. destruct i; discriminate H. }
    destruct (stiffness_total m g (op_lmin o) (op_lmax o) (op_coupling o) V M AN (ex_intro _ i (ex_intro _ j (ex_intro _ d (ex_intro _ e HB))))) as (K & HK).
    destruct (mesh_constraint_total m g V M NE AN) as (cs & Hcs).
    unfold cell36. rewrite E. cbn [bind]. rewrite HK. cbn [bind]. rewrite Hcs. cbn [bind].
    destruct (plot_total lsolve m g _ _ _ K cs HK Hcs (repeat (Fin 0) (2 * length (g_rows g))) (repeat (Fin 0) (2 * length (g_rows g)))
      (repeat (Fin 0) (2 * length (g_rows g))) (repeat (Fin 0) (2 * length (g_rows g))) (repeat (Fin 0) (length (csH cs))) (csH cs)
      (repeat (Fin 0) (length (csH cs))) (csdH cs) None (1 # 1000000)) as (pic & er & HP).
    { intros v [<- | [<- | [<- | [<- | []]]]]; apply repeat_length. }
    { intros v [<- | [<- | [<- | [<- | []]]]]; try apply repeat_length; [reflexivity|]. rewrite (csdH_len m g cs Hcs), (csH_len m g cs Hcs). reflexivity. }
    exists (pic, er). exact HP.
  Qed.
  Lemma cell28_total o ent prior : draws_in_range R -> trig_accurate cos sin -> options_ok o -> exists g l, cell28 R cos sin linprog o ent prior = Ok (g, l).
  Proof.
    intros HR HT OK. destruct (cell_mesh_total o ent prior HR HT OK) as (m & t & st & g & E). destruct (cell_mesh_inv o ent prior m t st g E) as (md & s1 & Hmd & Hn & Hst & Hg).
    destruct (back_facts linprog LP o md t st m g Hn Hst Hg) as (_ & M & _). destruct (picture_total g M) as (l & P).
    exists g, l. unfold cell28. rewrite E. cbn [bind snd]. rewrite P. reflexivity.
  Qed.

  (** *** cells 40 and 43 do what the main script does with the natural numbering *)
  Lemma cell40_script o ent prior out : options_ok o -> script R cos sin linprog natural lsolve cyl place near o ent prior = Ok out ->
    exists b, cell40 R cos sin linprog lsolve cyl place near o ent prior = Ok b /\
      bk_mat b = out_mat out /\ bk_net b = out_net out /\ bk_stack b = out_stack out /\ bk_mesh b = out_mesh out /\ bk_results b = out_results out /\ bk_points b = out_points out.
  Proof.
    intros OK H. destruct (script_inv _ _ _ _ _ _ _ _ _ o ent prior out H) as (md & s1 & K0 & cs & S & h & dd & rr & ff & tt & Hmd & Hn & Hst & Hg & W). cbv zeta in W.
    destruct W as (HK0 & Hcs & EP & _ & HS & ER & E1 & E2 & HV).
    destruct (solve_inv _ _ _ _ _ _ HS) as (K & cs' & HK & _ & _ & Eh). cbn [sp_lmin sp_lmax sp_coupling solver_args] in HK.
    unfold cell40, cell_mesh, cell_net. rewrite Hmd. cbn [bind fst snd]. rewrite Hn. cbn [bind fst snd]. rewrite Hst. cbn [bind fst snd]. rewrite Hg. cbn [bind].
    rewrite HK. cbn [bind]. rewrite Hcs. cbn [bind]. unfold solve_full. rewrite (shear_natural _ _ o K cs HK Hcs lsolve).
    assert (EQ : seq 0 (2 * length (g_rows (out_mesh out)) + length (csH cs)) = out_perm out) by (rewrite EP; reflexivity). rewrite EQ, HS. cbn [bind fst snd].
    set (r := results_of S h (op_size o)) in *. assert (ER' : out_results out = r) by exact ER. rewrite ER' in *.
    assert (NE : h <> []) by (rewrite Eh; discriminate).
    assert (LEN : forall t, length (call_vec (r_u r) t) = (2 * length (g_rows (out_mesh out)))%nat /\ length (call_vec (r_F r) t) = (2 * length (g_rows (out_mesh out)))%nat /\
      length (call_vec (r_f r) t) = length (csH cs) /\ length (call_vec (r_H r) t) = length (csH cs)).
    { intros t0. pose proof (fin_lengths _ _ _ _ _ _ HS cs Hcs) as L.
      assert (NM : forall f : state -> list num, map f h <> []) by (intros f C; apply map_eq_nil in C; congruence).
      repeat split; (apply call_length; [apply NM|intros v Hv; apply in_map_iff in Hv; destruct Hv as (s & <- & Hs); apply L; exact Hs]). }
    assert (PL : forall t, exists pe, plot_system lsolve (2 * length (g_rows (out_mesh out))) (length (csH cs)) K (csC cs) (call_vec (r_u r) t) (call_vec (r_F r) t)
      (repeat (Fin 0) (2 * length (g_rows (out_mesh out)))) (repeat (Fin 0) (2 * length (g_rows (out_mesh out)))) (call_vec (r_f r) t) (call_vec (r_H r) t)
      (repeat (Fin 0) (length (csH cs))) (csdH cs) None (1 # 1000000) = Ok pe).
    { intros t0. destruct (LEN t0) as (L1 & L2 & L3 & L4).
      destruct (plot_total lsolve _ _ _ _ _ K cs HK Hcs (call_vec (r_u r) t0) (call_vec (r_F r) t0) (repeat (Fin 0) (2 * length (g_rows (out_mesh out)))) (repeat (Fin 0) (2 * length (g_rows (out_mesh out))))
        (call_vec (r_f r) t0) (call_vec (r_H r) t0) (repeat (Fin 0) (length (csH cs))) (csdH cs) None (1 # 1000000)) as (pic & er & HP); [| |exists (pic, er); exact HP].
      - intros v [<- | [<- | [<- | [<- | []]]]]; try apply repeat_length; assumption.
      - intros v [<- | [<- | [<- | [<- | []]]]]; try apply repeat_length; try assumption. rewrite (csdH_len _ _ cs Hcs), (csH_len _ _ cs Hcs). reflexivity. }
    destruct (PL 0) as (p0 & P0). destruct (PL 1) as (p1 & P1). rewrite P0. cbn [bind]. rewrite P1. cbn [bind].
    assert (FA : exists y z, finite_arg (call_vec (r_u r) 1) = Ok y /\ finite_arg (pull (2 * length (g_rows (out_mesh out))) (csC cs) (call_vec (r_f r) 1)) = Ok z /\
      every_other y = (dd, rr) /\ every_other z = (ff, tt)).
    { clear - H Hmd Hn Hst Hg Hcs HS EP HK0 E1 E2 ER'. unfold script in H. rewrite Hmd in H. cbn [bind fst] in H. rewrite Hn in H. cbn [bind] in H. rewrite Hst in H. cbn [bind fst snd] in H.
      rewrite Hg in H. cbn [bind] in H. rewrite HK0 in H. cbn [bind] in H. rewrite Hcs in H. cbn [bind] in H. destruct (plot_system _ _ _ _ _ _ _ _ _ _ _ _ _ _ _) as [pe|]; [|discriminate H].
      cbn [bind] in H. rewrite <- EP in H. unfold solve_full in H. rewrite HS in H. cbn [bind fst snd] in H. fold r in H.
      destruct (finite_arg (call_vec _ 1)) as [y|] eqn:F1; [|discriminate H]. cbn [bind] in H. destruct (finite_arg (pull _ _ _)) as [z|] eqn:F2; [|discriminate H].
      exists y, z. split; [reflexivity|]. split; [reflexivity|]. apply finite_arg_inv in F1. destruct F1 as [-> _]. apply finite_arg_inv in F2. destruct F2 as [-> _]. auto. }
    destruct FA as (y & z & F1 & F2 & Y & Z). rewrite F1. cbn [bind]. rewrite F2. cbn [bind]. rewrite Y, Z, HV. cbn [bind].
    eexists. split; [reflexivity|]. cbn [bk_mat bk_net bk_stack bk_mesh bk_results bk_points]. repeat split.
  Qed.
  Section Total.
    Variable o : options.
    Hypothesis HR : draws_in_range R.
    Hypothesis HT : trig_accurate cos sin.
    Hypothesis OK : options_ok o.
    Hypothesis COPE : solver_copes lsolve o.
    Hypothesis HC : unit_cylinder cyl.
    Hypothesis HN : right_tree near.
    Lemma cell40_same ent prior : exists out b, script R cos sin linprog natural lsolve cyl place near o ent prior = Ok out /\
      cell40 R cos sin linprog lsolve cyl place near o ent prior = Ok b /\
      bk_mat b = out_mat out /\ bk_net b = out_net out /\ bk_stack b = out_stack out /\ bk_mesh b = out_mesh out /\ bk_results b = out_results out /\ bk_points b = out_points out.
    Proof.
      destruct (script_total R cos sin linprog natural lsolve cyl place near LP o ent prior HR HT OK num_ok COPE HC HN) as (out & E).
      destruct (cell40_script o ent prior out OK E) as (b & W). exists out, b. split; [exact E|exact W].
    Qed.
    Theorem notebook_total ent prior : p_psi (op_mat o) == 0 -> flat_sin sin -> right_marginals linprog marg ->
      exists l k b, notebook R cos sin linprog marg lsolve cyl place near o ent prior = Ok (l, k, b).
    Proof.
      intros EP FS HM. unfold notebook. destruct (cell_net_total o (ent 21%nat) prior HR HT OK) as (m0 & t0 & -> & _). cbn [bind].
      destruct (cell24_shows o (ent 24%nat) prior HR HT OK EP FS HM) as (_ & _ & m1 & st1 & l & _ & _ & _ & _ & -> & _). cbn [bind].
      destruct (cell28_total o (ent 28%nat) prior HR HT OK) as (g & k & ->). cbn [bind]. destruct (cell36_total o (ent 36%nat) prior HR HT OK) as (pe & ->). cbn [bind].
      destruct (cell40_same (ent 40%nat) prior) as (out & b & _ & -> & _). cbn [bind fst snd]. eauto.
    Qed.
  End Total.
  Lemma notebook_inv o ent prior l k b : notebook R cos sin linprog marg lsolve cyl place near o ent prior = Ok (l, k, b) ->
    (exists m st, cell24 R cos sin linprog marg o (ent 24%nat) prior = Ok (m, st, l)) /\ (exists g, cell28 R cos sin linprog o (ent 28%nat) prior = Ok (g, k)) /\
    cell40 R cos sin linprog lsolve cyl place near o (ent 40%nat) prior = Ok b.
  Proof.
    unfold notebook. destruct (cell_net _ _ _ _ _ _); [|discriminate]. cbn [bind]. destruct (cell24 _ _ _ _ _ _ _ _) as [[[m st] l']|]; [|discriminate]. cbn [bind].
    destruct (cell28 _ _ _ _ _ _ _) as [[g k']|]; [|discriminate]. cbn [bind]. destruct (cell36 _ _ _ _ _ _ _ _); [|discriminate]. cbn [bind].
    destruct (cell40 _ _ _ _ _ _ _ _ _ _ _) as [b'|]; [|discriminate]. cbn [bind fst snd]. intros H. injection H as <- <- <-. eauto 7.
  Qed.
  (** *** seeds *)
  Lemma net_seeded o k ent1 ent2 prior1 prior2 : p_seed (op_mat o) = Some k -> cell_net R cos sin o ent1 prior1 = cell_net R cos sin o ent2 prior2.
  Proof. intros H. unfold cell_net. rewrite (mat_reproducible R cos sin (op_mat o) k ent1 ent2 prior1 prior2 H). reflexivity. Qed.
  Theorem notebook_seeded o k ent1 ent2 prior1 prior2 : p_seed (op_mat o) = Some k ->
    notebook R cos sin linprog marg lsolve cyl place near o ent1 prior1 = notebook R cos sin linprog marg lsolve cyl place near o ent2 prior2.
  Proof.
    intros H. unfold notebook, cell24, cell28, cell36, cell40, cell_mesh. pose proof (net_seeded o k) as E.
    rewrite (E (ent1 21%nat) (ent2 21%nat) prior1 prior2 H), (E (ent1 24%nat) (ent2 24%nat) prior1 prior2 H), (E (ent1 28%nat) (ent2 28%nat) prior1 prior2 H),
      (E (ent1 36%nat) (ent2 36%nat) prior1 prior2 H), (E (ent1 40%nat) (ent2 40%nat) prior1 prior2 H). reflexivity.
  Qed.
  (** the mesh drawn is the one that is packed; the contacts drawn are between its fibers *)
  Theorem notebook_consistent o sd ent prior l k b : p_seed (op_mat o) = Some sd -> notebook R cos sin linprog marg lsolve cyl place near o ent prior = Ok (l, k, b) ->
    mesh_picture (bk_mesh b) = Ok k /\ exists m st, cell24 R cos sin linprog marg o (ent 24%nat) prior = Ok (m, st, l) /\ m = bk_mat b.
  Proof.
    intros SD H. destruct (notebook_inv o ent prior l k b H) as ((m & st & H24) & (g & H28) & H40).
    assert (B : exists st', cell_mesh R cos sin linprog o (ent 40%nat) prior = Ok (bk_mat b, bk_net b, st', bk_mesh b)).
    { unfold cell40 in H40. destruct (cell_mesh _ _ _ _ _ _ _) as [[[[m1 t1] st1] g1]|] eqn:E; [|discriminate H40]. cbn [bind] in H40.
      destruct (stiffness _ _ _ _ _); [|discriminate H40]. cbn [bind] in H40. destruct (constraint _ _); [|discriminate H40]. cbn [bind] in H40.
      destruct (solve_full _ _ _ _ _); [|discriminate H40]. cbn [bind] in H40. destruct (plot_system _ _ _ _ _ _ _ _ _ _ _ _ _ _ _); [|discriminate H40]. cbn [bind] in H40.
      destruct (plot_system _ _ _ _ _ _ _ _ _ _ _ _ _ _ _); [|discriminate H40]. cbn [bind] in H40.
      destruct (finite_arg _); [|discriminate H40]. cbn [bind] in H40. destruct (finite_arg _); [|discriminate H40]. cbn [bind] in H40.
      destruct (every_other _) as [? ?] in H40. destruct (every_other _) as [? ?] in H40. destruct (vtk_mesh _ _ _ _ _ _ _ _ _); [|discriminate H40]. cbn [bind] in H40.
      injection H40 as <-. exists st1. reflexivity. }
    destruct B as (st' & B). split.
    - unfold cell28 in H28. destruct (cell_mesh _ _ _ _ _ _ _) as [q|] eqn:E in H28; [|discriminate H28]. cbn [bind] in H28. destruct (mesh_picture (snd q)) as [k'|] eqn:P; [|discriminate H28].
      cbn [bind] in H28. injection H28 as <- <-. unfold cell_mesh in E, B. rewrite (net_seeded o sd (ent 28%nat) (ent 40%nat) prior prior SD) in E. rewrite B in E. injection E as <-. exact P.
    - exists m, st. split; [exact H24|]. destruct (cell_mesh_inv o _ _ _ _ _ _ B) as (md & s1 & Hmd & Hn & Hst & _).
      unfold cell24 in H24. destruct (cell_net _ _ _ _ _ _) as [[m1 t1]|] eqn:E in H24; [|discriminate H24]. cbn [bind fst snd] in H24.
      destruct (cell_net_inv o _ _ _ _ E) as (md' & s1' & Hmd' & -> & Hn'). rewrite (mat_reproducible R cos sin (op_mat o) sd _ (ent 40%nat) prior prior SD), Hmd in Hmd'. injection Hmd' as <- <-.
      rewrite Hn in Hn'. injection Hn' as <-. destruct (stack_new linprog (read_mat md) (bk_net b) None) as [[st2 m2]|] eqn:E2; [|discriminate H24]. cbn [bind fst snd] in H24.
      destruct (stack_constraint m2 _) as [p|]; [|discriminate H24]. cbn [bind] in H24.
      assert (m2 = m). { destruct (q_rows m2); [discriminate H24|]. destruct (negb _) in H24; [discriminate H24|]. injection H24 as <- _ _. reflexivity. } subst m2.
      destruct (stack_inv _ _ _ _ _ _ E2) as (_ & _ & p1 & Ep1 & D1). destruct (stack_inv _ _ _ _ _ _ Hst) as (_ & _ & p2 & Ep2 & D2).
      assert (p1 = p2) by congruence. subst p2. destruct D1 as [(C1 & _ & D1)|(C1 & D1 & _)], D2 as [(C2 & _ & D2)|(C2 & D2 & _)]; congruence.
  Qed.
  Theorem notebook_empty o ent prior r : p_n (op_mat o) = 0%Z -> notebook R cos sin linprog marg lsolve cyl place near o ent prior <> Ok r.
  Proof.
    intros N H. destruct r as [[l k] b]. destruct (notebook_inv o ent prior l k b H) as (_ & _ & H40). unfold cell40 in H40.
    destruct (cell_mesh _ _ _ _ _ _ _) as [[[[m t] st] g]|] eqn:E; [|discriminate H40]. cbn [bind] in H40.
    destruct (cell_mesh_inv o _ _ _ _ _ _ E) as (md & s1 & Hmd & Hn & Hst & Hg). pose proof (back_count R cos sin linprog LP o md s1 _ prior _ _ _ _ Hmd Hn Hst Hg) as B. rewrite N in B.
    destruct (stiffness m g _ _ _) as [K|] eqn:HK; [|discriminate H40]. apply stiffness_empty in HK; [exact HK|]. destruct (q_rows m); [reflexivity|cbn in B; lia].
  Qed.
End Notebook.

(** ** The notebook after cell 7 *)
Lemma cell7_options s : reachable s -> (forall k, untouched k cell7 -> ~ modulus k -> finite_setting s k) -> get_item s Kitermax <> VOther ->
  (forall k q, k = Klength \/ k = Kwidth \/ k = Kthickness -> get_item s k = VNum (Fin q) -> 0 < q) ->
  (forall x, stands (get_item s Kshear) x -> positive x) ->
  exists s' o, set_all s cell7 = (s', None) /\ options_of s' = Some o /\ asks s' o /\ other_defaults o /\ in_ranges o /\ options_ok o /\
    p_n (op_mat o) = 100%Z /\ p_seed (op_mat o) = Some 0%Z.
Proof.
  intros HR FIN IT POS SH. destruct (cell7_set s) as (s' & E & GIV & UNT & RE). specialize (RE HR).
  assert (U : forall k, In k [Klength; Kwidth; Kthickness; Ktheta; Kshear; Kitermax; Ktol; Klmax; Kverbose] -> untouched k cell7).
  { intros k I v C. unfold cell7 in C. cbn [In] in I, C. decompose [or] I; try contradiction; subst k; decompose [or] C; try contradiction; discriminate. }
  assert (US : usable s').
  { split; [|split].
    - intros k NM NP x Ex.
      assert (D : In k [Klength; Kwidth; Kthickness; Ktheta; Kshear; Kitermax; Ktol; Klmax; Kverbose] \/ exists v, In (k, v) cell7).
      { unfold cell7. cbn [In]. destruct k; auto 12; right; eexists; eauto 14. }
      destruct D as [D|(v & D)].
      + rewrite (UNT k (U k D)) in Ex. exact (FIN k (U k D) NM x Ex).
      + rewrite (GIV k v D) in Ex. subst v. unfold cell7 in D. cbn [In] in D. decompose [or] D; try contradiction;
          match goal with H : (_, _) = (k, VNum x) |- _ => injection H as <- <-; eauto | H : (_, VBool _) = _ |- _ => discriminate H end.
    - rewrite (UNT Kitermax); [exact IT|]. apply U. cbn. auto 12.
    - intros q Eq0. rewrite (GIV Kinterp_size (VNum (Fin 100))) in Eq0 by (unfold cell7; cbn [In]; auto 14). injection Eq0 as <-. discriminate. }
  destruct (settings_read s' RE US) as (o & EO & AS & OD & RA). exists s', o. split; [exact E|]. split; [exact EO|]. split; [exact AS|]. split; [exact OD|]. split; [exact RA|].
  pose proof AS as A. unfold asks in A. cbv zeta in A. destruct A as (A1 & A2 & A3 & A4 & A5 & A6 & A7 & A8 & A9 & A10 & A11 & A12 & A13 & A14 & A15 & A16 & A17 & A18).
  assert (PP : forall k q, k = Klength \/ k = Kwidth \/ k = Kthickness -> get_item s' k = VNum (Fin q) -> 0 < q).
  { intros k q D H. apply (POS k q D). rewrite <- (UNT k); [exact H|]. apply U. cbn. decompose [or] D; subst; auto 12. }
  assert (N : p_n (op_mat o) = 100%Z).
  { rewrite (GIV Kn (VNum (Fin 100))) in A1 by (unfold cell7; cbn [In]; auto 14). injection A1 as A1. symmetry. exact A1. }
  assert (SD : p_seed (op_mat o) = Some 0%Z).
  { rewrite (GIV Kseed (VNum (Fin 0))) in A9 by (unfold cell7; cbn [In]; auto 14). destruct (p_seed (op_mat o)) as [k|]; [|discriminate A9]. cbn in A9. injection A9 as A9. congruence. }
  split; [|split; [exact N|exact SD]].
  split; [|split; [|split; [|split]]].
  - unfold params_ok. rewrite N, SD. split; [lia|]. split; [apply (PP Klength); auto|]. split; [apply (PP Kwidth); auto|]. split; [apply (PP Kthickness); auto|].
    split; [|split; [|split]].
    + rewrite (GIV Ksize (VNum (Fin 50))) in A5 by (unfold cell7; cbn [In]; auto 14). injection A5 as <-. discriminate.
    + apply SH. rewrite <- (UNT Kshear); [exact A7|]. apply U. cbn. auto 12.
    + rewrite (GIV Ktensile (VNum (Fin 625))) in A8 by (unfold cell7; cbn [In]; auto 14). inversion A8. reflexivity.
    + intros k H. injection H as <-. lia.
  - rewrite N. lia.
  - destruct RA as (_ & _ & T & _). apply Qle_trans with (1 # 10000000000); [discriminate|exact T].
  - destruct OD as (_ & ->). discriminate.
  - rewrite (GIV Kinterp_size (VNum (Fin 100))) in A18 by (unfold cell7; cbn [In]; auto 14). unfold samples_ok. destruct (op_size o) as [n|]; [|exact I].
    cbn [option_map given] in A18. injection A18 as A18. assert (Z.of_nat n = 100%Z) by congruence. lia.
Qed.

(** ** settings that can be read *)
Lemma with_arg_some {A B} (a : option A) (f : A -> option B) r : with_arg a f = Some r -> exists x, a = Some x /\ f x = Some r.
Proof. destruct a as [x|]; [|discriminate]. intros H. exists x. auto. Qed.
Lemma q_finite v q : arg_q v = Some q -> forall x, v = VNum x -> exists q, x = Fin q.
Proof. intros H x ->. destruct x; try discriminate H. eauto. Qed.
Lemma z_finite v z : arg_z v = Some z -> forall x, v = VNum x -> exists q, x = Fin q.
Proof. intros H x ->. destruct x; try discriminate H. eauto. Qed.
Lemma nat_z v n : arg_nat v = Some n -> exists z, arg_z v = Some z /\ (0 <= z)%Z.
Proof. unfold arg_nat. destruct (arg_z v) as [z|]; [|discriminate]. destruct (z <? 0)%Z eqn:E; [discriminate|]. intros _. exists z. split; [reflexivity|]. apply Z.ltb_ge. exact E. Qed.
Lemma opt_finite {A} (get : sval -> option A) : (forall v a, get v = Some a -> forall x, v = VNum x -> exists q, x = Fin q) ->
  forall v o, arg_opt get v = Some o -> forall x, v = VNum x -> exists q, x = Fin q.
Proof. intros G v o H x ->. cbn [arg_opt] in H. destruct (get (VNum x)) as [a|] eqn:E; [|discriminate]. exact (G _ _ E x eq_refl). Qed.
Lemma nat_finite v n : arg_nat v = Some n -> forall x, v = VNum x -> exists q, x = Fin q.
Proof. intros H. destruct (nat_z v n H) as (z & E & _). exact (z_finite v z E). Qed.
Lemma options_usable s o : reachable s -> options_of s = Some o -> usable s.
Proof.
  intros HR H. unfold options_of in H. cbv zeta in H.
  repeat match goal with H : with_arg _ _ = Some _ |- _ => apply with_arg_some in H; let x := fresh "x" in let E := fresh "E" in destruct H as (x & E & H) end.
  split; [|split].
  - intros k M P. unfold finite_setting.
    destruct k; try (contradict M; solve [left; reflexivity|right; reflexivity]); try congruence;
    try solve [eauto using q_finite, z_finite, nat_finite, (opt_finite arg_q q_finite), (opt_finite arg_z z_finite), (opt_finite arg_nat nat_finite)].
    + destruct (read_flag s HR Kperiodic eq_refl) as (b & Eb). intros y C. rewrite Eb in C. discriminate C.
    + destruct (read_flag s HR Kverbose eq_refl) as (b & Eb). intros y C. rewrite Eb in C. discriminate C.
  - intros C. rewrite C in *. discriminate.
  - intros q Eq'. match goal with E : arg_opt arg_nat _ = Some _ |- _ => rewrite Eq' in E; cbn [arg_opt] in E; destruct (arg_nat (VNum (Fin q))) as [n|] eqn:En; [|discriminate E] end.
    destruct (nat_z _ _ En) as (z & Ez & P). cbn [arg_z] in Ez. destruct (Qeqb q _) eqn:Q; [|discriminate Ez]. injection Ez as <-. qb. rewrite Q. change 0 with (inject_Z 0). rewrite <- Zle_Qle. exact P.
Qed.
