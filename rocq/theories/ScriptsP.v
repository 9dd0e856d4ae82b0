(** The names of the package and the scripts (C85, C86, C87). *)
From Coq Require Import String.
From Verif Require Import Num NumP ListX ListP Frames MatM NetM StackM MeshM ModelM SolverM InterpM ResultM RenderM VtkM PlotM MainM PictureM ScriptsM
  Spec SpecNet SpecStack SpecMesh SpecModel SpecSolver SpecInterp SpecRender SpecVtk SpecMain SpecDraw SpecScripts
  CheckP MeshCheckP MatP DrawP NetP NetZP StackP StackNewP MeshP StiffP StiffLenP ConstraintP SolverP SolverSysP SolverFinP InterpP ResultP VtkP PlotP MainP.
Open Scope Q_scope.

(** ** Names *)
Lemma imported : exists ns, fibermat = Ok ns /\ (forall f d, In (f, d) public -> lookup ns d = Some (Defn f d)) /\ (forall f, In f files -> lookup ns f = Some (Submodule f)).
Proof.
  eexists. split; [vm_compute; reflexivity|]. split; intros f.
  - intros d H. repeat (destruct H as [H|H]; [injection H as <- <-; vm_compute; reflexivity|]). destruct H.
  - intros H. repeat (destruct H as [<-|H]; [vm_compute; reflexivity|]). destruct H.
Qed.
Section Call.
  Variable lsolve : ncoo -> list num -> list num.
  Lemma call_solve m g p size : call_solver lsolve "solve" m g p size = solve_full lsolve m g p size.
  Proof.
    destruct imported as (ns & E & D & _). unfold call_solver. rewrite E. cbn [bind]. rewrite (D "solver"%string "solve"%string); [reflexivity|].
    unfold public. simpl. auto 20.
  Qed.
  Lemma call_file f m g p size : In f files -> call_solver lsolve f m g p size = Exn TypeErr.
  Proof. intros H. destruct imported as (ns & E & _ & D). unfold call_solver. rewrite E. cbn [bind]. rewrite (D f H). reflexivity. Qed.
End Call.

(** ** Packing any mat *)
Section Pack.
  Variable linprog : lp -> list Q.
  Variable lsolve : ncoo -> list num -> list num.
  Variable cyl : list vec.
  Variable place : qfiber -> vec -> vec.
  Variable near : list Q -> Q -> nat.
  Hypothesis LP : right_linprog linprog.

  Section Any.
    Variables (m0 : qmat) (per : bool) (thr : option Q) (p : solve_params) (size : option nat).
    Hypothesis PK : packable lsolve m0 p size.
    Variables (t st : net_df) (m : qmat) (g : mesh_df).
    Hypothesis Hn : net_new m0 per None = Ok t.
    Hypothesis Hst : stack_new linprog m0 t thr = Ok (st, m).
    Hypothesis Hg : mesh_new st = Ok g.
    Lemma any_rows : q_rows m <> [].
    Proof.
      destruct PK as (_ & NE & _). destruct (made_facts linprog LP m0 per thr t st m g Hn Hst Hg) as (_ & _ & _ & _ & _ & SB & _).
      intros E. pose proof (same_len _ _ SB) as L. rewrite E in L. destruct (q_rows m0); [congruence|discriminate L].
    Qed.
    Lemma any_elem : exists i j d e, beam_element g i j d e /\ ns d < ns e.
    Proof. destruct (made_facts linprog LP m0 per thr t st m g Hn Hst Hg) as (V & M & SP & _). exact (span_elem g M m V SP any_rows). Qed.
    Lemma any_reliable S h : solve lsolve m g p = Ok (S, h) -> forall s, In s h -> reliable lsolve m g p S s.
    Proof.
      intros HS s Hs. destruct PK as (_ & _ & _ & _ & (RL & C)). split; [exact RL|]. destruct C as [C|(FN & E0 & EP & (l & E1 & L1) & L2 & FS)]; [left; exact C|right].
      split; [exact FN|]. destruct (solve_inv _ _ _ _ _ _ HS) as (K & cs & _ & Hcs & ES & _). split; [|split; [|split]].
      - intros r Hr. rewrite ES in Hr |- *. cbn [sy_dq sy_perm] in *. rewrite EP. apply in_seq. rewrite app_length, repeat_length in Hr |- *. rewrite (csdH_len m g cs Hcs) in Hr. rewrite (csH_len m g cs Hcs). lia.
      - split; [rewrite E1; exact L1|]. destruct (sp_lmax p) as [l'|]; [exact (L2 _ eq_refl)|exact any_elem].
      - intros f Hf. destruct (made_facts linprog LP m0 per thr t st m g Hn Hst Hg) as (_ & _ & _ & _ & _ & SB & _).
        destruct (same_in _ _ f SB Hf) as (f0 & I0 & (_ & _ & _ & _ & _ & _ & _ & _ & EG & _)). destruct (FS f0 I0) as (G & E). exists G. congruence.
      - left. rewrite ES. exact E0.
    Qed.
  End Any.

  Lemma pack_built name m0 per thr p size : valid m0 -> exists t st m g, net_new m0 per None = Ok t /\ stack_new linprog m0 t thr = Ok (st, m) /\ mesh_new st = Ok g /\
    pack linprog lsolve cyl place near name m0 per thr p size =
      (do r <- call_solver lsolve name m g p size;
       do cs <- constraint m g;
       do y <- finite_arg (call_vec (r_u r) 1);
       do z <- finite_arg (pull (2 * length (g_rows g)) (csC cs) (call_vec (r_f r) 1));
       let '(disp, rot) := every_other y in
       let '(force, moment) := every_other z in
       do pts <- vtk_mesh cyl place near m g (Some disp) (Some rot) (Some force) (Some moment);
       Ok (mkPacked m t st g r pts)).
  Proof.
    intros V0. destruct (net_total m0 per None V0) as (t & Hn). { intros l a b H. discriminate H. }
    pose proof (LP _ _ _ Hn) as SL. destruct (new_facts _ _ _ _ Hn) as (_ & NO & LF & NFt & _).
    destruct (stack_total linprog m0 t thr V0 NO LF NFt SL) as (st & m & Hst). destruct (stack_mesh_total linprog _ _ t _ st m Hn SL Hst) as (g & Hg & _).
    exists t, st, m, g. split; [exact Hn|]. split; [exact Hst|]. split; [exact Hg|]. unfold pack. rewrite Hn. cbn [bind]. rewrite Hst. cbn [bind fst snd]. rewrite Hg. reflexivity.
  Qed.
  Lemma pack_total m0 per thr p size : packable lsolve m0 p size -> unit_cylinder cyl -> right_tree near ->
    exists k, pack linprog lsolve cyl place near "solve" m0 per thr p size = Ok k.
  Proof.
    intros PK HC HN. destruct (pack_built "solve" m0 per thr p size (proj1 PK)) as (t & st & m & g & Hn & Hst & Hg & ->). rewrite call_solve.
    destruct (made_facts linprog LP m0 per thr t st m g Hn Hst Hg) as (V & M & SP & NF & AN & _).
    destruct (any_elem m0 per thr p size PK t st m g Hn Hst Hg) as (i & j & d & e & HB & _).
    assert (NE : g_rows g <> []). { destruct HB as ((l & H) & _). intros E. rewrite E in H. destruct i; discriminate H. }
    destruct (solve_total lsolve m g p V M AN (ex_intro _ i (ex_intro _ j (ex_intro _ d (ex_intro _ e HB))))) as (S & h & HS).
    destruct (mesh_constraint_total m g V M NE AN) as (cs & Hcs). unfold solve_full. rewrite HS. cbn [bind fst snd]. rewrite Hcs. cbn [bind].
    pose proof PK as (_ & _ & TOL & SZ & _).
    destruct (run_fields lsolve m g cs S h p size Hcs NF HS TOL SZ (any_reliable m0 per thr p size PK t st m g Hn Hst Hg S h HS)) as (F1 & F2 & F3).
    rewrite (finite_arg_ok _ F1). cbn [bind]. rewrite (finite_arg_ok _ F2). cbn [bind].
    destruct (solve_inv _ _ _ _ _ _ HS) as (K' & cs' & _ & _ & _ & Eh). destruct (last_ex h) as (s & Hs); [rewrite Eh; discriminate|]. specialize (F3 s Hs). cbv zeta in F3.
    destruct (every_other (vals (call_vec _ 1))) as [dd rr]. destruct (every_other (vals (pull _ _ _))) as [ff tt]. cbn [fst snd] in F3.
    destruct F3 as (N1 & N2 & N3 & N4 & _). destruct (api_total cyl place near m g (Some dd) (Some rr) (Some ff) (Some tt)) as (pts & Hp).
    { split; [exact HC|]. split; [exact HN|]. split; [exact V|]. split; [exact M|]. split; [exact SP|].
      split; [intros v H; injection H as <-; exact N1|]. split; [intros _ v H; injection H as <-; exact N2|].
      split; [intros v H; injection H as <-; exact N3|]. intros _ v H; injection H as <-; exact N4. }
    rewrite Hp. cbn [bind]. eauto.
  Qed.
  Lemma pack_inv m0 per thr p size k : pack linprog lsolve cyl place near "solve" m0 per thr p size = Ok k ->
    exists cs S h dd rr ff tt, net_new m0 per None = Ok (pk_net k) /\ stack_new linprog m0 (pk_net k) thr = Ok (pk_stack k, pk_mat k) /\ mesh_new (pk_stack k) = Ok (pk_mesh k) /\
      solve lsolve (pk_mat k) (pk_mesh k) p = Ok (S, h) /\ pk_results k = results_of S h size /\ constraint (pk_mat k) (pk_mesh k) = Ok cs /\
      (dd, rr) = every_other (vals (call_vec (r_u (pk_results k)) 1)) /\
      (ff, tt) = every_other (vals (pull (2 * length (g_rows (pk_mesh k))) (csC cs) (call_vec (r_f (pk_results k)) 1))) /\
      vtk_mesh cyl place near (pk_mat k) (pk_mesh k) (Some dd) (Some rr) (Some ff) (Some tt) = Ok (pk_points k).
  Proof.
    unfold pack. destruct (net_new _ _ _) as [t|] eqn:Hn; [|discriminate]. cbn [bind]. destruct (stack_new _ _ _ _) as [[st m]|] eqn:Hst; [|discriminate]. cbn [bind fst snd].
    destruct (mesh_new st) as [g|] eqn:Hg; [|discriminate]. cbn [bind]. rewrite call_solve. unfold solve_full.
    destruct (solve _ _ _ _) as [[S h]|] eqn:HS; [|discriminate]. cbn [bind fst snd]. destruct (constraint m g) as [cs|] eqn:Hcs; [|discriminate]. cbn [bind].
    destruct (finite_arg (call_vec _ 1)) as [y|] eqn:E1; [|discriminate]. cbn [bind]. destruct (finite_arg (pull _ _ _)) as [z|] eqn:E2; [|discriminate]. cbn [bind].
    apply finite_arg_inv in E1. destruct E1 as [-> _]. apply finite_arg_inv in E2. destruct E2 as [-> _].
    destruct (every_other (vals (call_vec _ 1))) as [dd rr] eqn:E1. destruct (every_other (vals (pull _ _ _))) as [ff tt] eqn:E2.
    destruct (vtk_mesh _ _ _ _ _ _ _ _ _) as [pts|] eqn:HV; [|discriminate]. cbn [bind]. intros H. injection H as <-. cbn [pk_mat pk_net pk_stack pk_mesh pk_results pk_points].
    exists cs, S, h, dd, rr, ff, tt. split; [reflexivity|]. split; [exact Hst|]. split; [exact Hg|]. split; [exact HS|]. split; [reflexivity|]. split; [exact Hcs|].
    split; [symmetry; exact E1|]. split; [symmetry; exact E2|exact HV].
  Qed.
  Lemma pack_fibers m0 per thr p size k : pack linprog lsolve cyl place near "solve" m0 per thr p size = Ok k ->
    same_but_heights m0 (pk_mat k) /\ valid (pk_mat k) /\ mesh_ok (pk_mesh k) /\ spans (pk_mat k) (pk_mesh k) /\ at_periodic (g_attrs (pk_mesh k)) = Some per.
  Proof.
    intros H. destruct (pack_inv _ _ _ _ _ _ H) as (cs & S & h & dd & rr & ff & tt & Hn & Hst & Hg & _).
    destruct (made_facts linprog LP m0 per thr _ _ _ _ Hn Hst Hg) as (V & M & SP & NF & AN & SB & P). auto.
  Qed.
  Lemma pack_parts m0 per thr p size k : pack linprog lsolve cyl place near "solve" m0 per thr p size = Ok k ->
    net_new m0 per None = Ok (pk_net k) /\ stack_new linprog m0 (pk_net k) thr = Ok (pk_stack k, pk_mat k) /\ mesh_new (pk_stack k) = Ok (pk_mesh k).
  Proof. intros H. destruct (pack_inv _ _ _ _ _ _ H) as (cs & S & h & dd & rr & ff & tt & Hn & Hst & Hg & _). auto. Qed.
  Section Shown.
    Variables (m0 : qmat) (per : bool) (thr : option Q) (p : solve_params) (size : option nat) (k : packed).
    Hypothesis PK : packable lsolve m0 p size.
    Hypothesis RUN : pack linprog lsolve cyl place near "solve" m0 per thr p size = Ok k.
    Lemma pack_shown : exists K cs S s d r f t, packed_run lsolve p size k K cs S s /\ fields_of (pk_mesh k) (csC cs) S s d r f t /\
      vtk_mesh cyl place near (pk_mat k) (pk_mesh k) (Some d) (Some r) (Some f) (Some t) = Ok (pk_points k).
    Proof.
      destruct (pack_inv _ _ _ _ _ _ RUN) as (cs & S & h & dd & rr & ff & tt & Hn & Hst & Hg & HS & ER & Hcs & E1 & E2 & HV).
      destruct (solve_inv _ _ _ _ _ _ HS) as (K & cs' & HK & _ & _ & Eh). destruct (last_ex h) as (s & Hs); [rewrite Eh; discriminate|].
      destruct (made_facts linprog LP m0 per thr _ _ _ _ Hn Hst Hg) as (V & M & SP & NF & AN & _). pose proof PK as (_ & _ & TOL & SZ & _).
      destruct (run_fields lsolve _ _ cs S h p size Hcs NF HS TOL SZ (any_reliable m0 per thr p size PK _ _ _ _ Hn Hst Hg S h HS)) as (_ & _ & F3). specialize (F3 s Hs). cbv zeta in F3.
      rewrite <- ER, <- E1, <- E2 in F3. exists K, cs, S, s, dd, rr, ff, tt. split; [|split; [exact F3|exact HV]].
      split; [exact HK|]. split; [exact Hcs|]. exists h. auto.
    Qed.
    Lemma pack_admissible K cs S s : packed_run lsolve p size k K cs S s -> sp_errtol p == 0 -> (forall f, In f (q_rows m0) -> in_plane f) ->
      exists z, st_Z s = Fin z /\ in_slab (pk_mat k) (pk_mesh k) z (vals (st_u S s)) /\ no_overlap (pk_mat k) (pk_mesh k) (vals (st_u S s)).
    Proof.
      intros (_ & Hcs & h & HS & _ & (i & Hi & _)) E0 FL. apply nth_error_In in Hi.
      destruct (pack_inv _ _ _ _ _ _ RUN) as (cs' & S' & h' & dd & rr & ff & tt & Hn & Hst & Hg & _).
      destruct (made_facts linprog LP m0 per thr _ _ _ _ Hn Hst Hg) as (V & M & SP & NF & AN & _). pose proof PK as (_ & _ & TOL & _).
      apply (fin_admissible _ _ _ _ _ _ HS NF TOL s Hi (any_reliable m0 per thr p size PK _ _ _ _ Hn Hst Hg S h HS s Hi)); [|exact E0].
      exact (stack_admissible linprog m0 per (pk_net k) thr (pk_stack k) _ _ cs Hn (LP _ _ _ Hn) FL Hst Hg Hcs).
    Qed.
  End Shown.
  Lemma pack_file f m0 per thr p size : In f files -> valid m0 -> pack linprog lsolve cyl place near f m0 per thr p size = Exn TypeErr.
  Proof. intros H V. destruct (pack_built f m0 per thr p size V) as (t & st & m & g & _ & _ & _ & ->). rewrite call_file by exact H. reflexivity. Qed.
  Lemma pack_never f m0 per thr p size k : In f files -> pack linprog lsolve cyl place near f m0 per thr p size <> Ok k.
  Proof.
    intros H. unfold pack. destruct (net_new _ _ _) as [t|]; [|discriminate]. cbn [bind]. destruct (stack_new _ _ _ _) as [[st m]|]; [|discriminate]. cbn [bind fst snd].
    destruct (mesh_new st) as [g|]; [|discriminate]. cbn [bind]. rewrite call_file by exact H. discriminate.
  Qed.
End Pack.

(** ** The scripts *)
Lemma valid_intro m : (forall f, In f (q_rows m) -> 0 < ql f /\ 0 < qb f /\ 0 < qh f /\ - q_size m / 2 <= qx f <= q_size m / 2 /\ - q_size m / 2 <= qy f <= q_size m / 2 /\
    (1 - 0.00001001) * (1 - 0.00001001) <= qu f * qu f + qv f * qv f + qw f * qw f <= (1 + 0.00001001) * (1 + 0.00001001) /\ positive (qG f) /\ positive (qE f)) -> valid m.
Proof.
  intros H. assert (G : forall lab a, In (lab, a) (m_rows (df_of m)) -> exists f, In f (q_rows m) /\ a = fiber_of f).
  { intros lab a Ha. cbn [df_of m_rows] in Ha. apply (in_map snd) in Ha. rewrite enum_snd in Ha. cbn [snd] in Ha. apply in_map_iff in Ha. destruct Ha as (f & <- & Hf). eauto. }
  split; [intros c Hc; exact Hc|]. exists (Fin (q_size m)). unfold df_of. cbn [m_attrs m_rows at_n at_size]. split; [rewrite enum_length, map_length; reflexivity|]. split; [reflexivity|].
  split; [|split; [|split; [|split]]].
  - intros k lab a Hk. cbn [m_rows] in Hk. rewrite enum_nth_error in Hk. destruct (nth_error _ k); [|discriminate Hk]. injection Hk as <- _. reflexivity.
  - intros lab a Ha. destruct (G lab a Ha) as (f & Hf & ->). destruct (H f Hf) as (A & B & C & _). repeat split; assumption.
  - intros lab a Ha. destruct (G lab a Ha) as (f & Hf & ->). destruct (H f Hf) as (_ & _ & _ & A & B & _). exists (qx f), (qy f). auto.
  - intros lab a Ha. destruct (G lab a Ha) as (f & Hf & ->). destruct (H f Hf) as (_ & _ & _ & _ & _ & A & _). exists (qu f), (qv f), (qw f). auto.
  - intros lab a Ha. destruct (G lab a Ha) as (f & Hf & ->). destruct (H f Hf) as (_ & _ & _ & _ & _ & _ & A & B). split; assumption.
Qed.
Lemma nth_combine {A B} (l : list A) : forall (l' : list B) i a b, nth_error (combine l l') i = Some (a, b) -> nth_error l i = Some a /\ nth_error l' i = Some b.
Proof. induction l as [|x l IH]; intros [|y l'] [|i] a b H; try discriminate H; cbn in *; [injection H as <- <-; auto|apply IH; exact H]. Qed.
(** *** cells of the mask *)
Lemma at_pos_in n i : (0 <= i < Z.of_nat n)%Z -> at_pos n i = Ok (Z.to_nat i).
Proof.
  intros H. unfold at_pos. destruct (Z.ltb_spec i 0); [lia|]. destruct (Z.ltb_spec i 0); [lia|]. destruct (Z.leb_spec (Z.of_nat n) i); [lia|]. reflexivity.
Qed.
Lemma floor_bounds x a b : inject_Z a <= x -> x < inject_Z b -> (a <= Qfloor x < b)%Z.
Proof.
  intros H1 H2. split.
  - rewrite <- (Qfloor_Z a). apply Qfloor_resp_le. exact H1.
  - assert (L : inject_Z (Qfloor x) < inject_Z b) by (eapply Qle_lt_trans; [apply Qfloor_le|exact H2]). rewrite <- Zlt_Qlt in L. exact L.
Qed.
Lemma floor_unique x k : inject_Z k <= x -> x < inject_Z k + 1 -> Qfloor x = k.
Proof. intros H1 H2. pose proof (floor_bounds x k (k + 1) H1 ltac:(rewrite inject_Z_plus; exact H2)). lia. Qed.
Lemma mask_cols i row : nth_error logo_mask i = Some row -> length row = 59%nat.
Proof. intros H. assert (A : forallb (fun r => Nat.eqb (length r) 59) logo_mask = true) by (vm_compute; reflexivity). rewrite forallb_forall in A. apply nth_error_In in H. apply Nat.eqb_eq. auto. Qed.
(** the point lies on a square of the mask that is set *)
Definition on_mask (p : Q * Q) : Prop :=
  exists i j row, nth_error logo_mask i = Some row /\ nth_error row j = Some true /\
    inject_Z (Z.of_nat j) <= fst p + 29 < inject_Z (Z.of_nat j) + 1 /\ inject_Z (Z.of_nat i) <= snd p + 6 < inject_Z (Z.of_nat i) + 1.
Lemma logo_cell_mask p : in_frame p -> exists b, logo_cell p = Ok b /\ (b = true <-> on_mask p).
Proof.
  intros ((X1 & X2) & (Y1 & Y2)). unfold logo_cell. change (length logo_mask) with 14%nat. change (length (hd [] logo_mask)) with 59%nat.
  pose proof (floor_bounds (fst p + 29) 0 59 ltac:(change (inject_Z 0) with 0; lra) ltac:(change (inject_Z 59) with 59; lra)) as BJ.
  pose proof (floor_bounds (snd p + 6) 0 14 ltac:(change (inject_Z 0) with 0; lra) ltac:(change (inject_Z 14) with 14; lra)) as BI.
  rewrite (at_pos_in 14) by (change (Z.of_nat 14) with 14%Z; exact BI). rewrite (at_pos_in 59) by (change (Z.of_nat 59) with 59%Z; exact BJ). cbn [bind].
  eexists. split; [reflexivity|]. set (i := Z.to_nat (Qfloor (snd p + 6))). set (j := Z.to_nat (Qfloor (fst p + 29))). assert (EI : inject_Z (Z.of_nat i) = inject_Z (Qfloor (snd p + 6))) by (unfold i; rewrite Z2Nat.id by lia; reflexivity).
  assert (EJ : inject_Z (Z.of_nat j) = inject_Z (Qfloor (fst p + 29))) by (unfold j; rewrite Z2Nat.id by lia; reflexivity). split.
  - intros H. destruct (nth_error logo_mask i) as [row|] eqn:ER; [|rewrite (nth_overflow logo_mask) in H by (apply nth_error_None; exact ER); destruct j; discriminate H].
    rewrite (nth_error_nth _ _ _ ER) in H. exists i, j, row. split; [exact ER|]. split.
    + rewrite <- H. apply nth_error_nth'. rewrite (mask_cols i row ER). unfold j. lia.
    + rewrite EI, EJ. pose proof (Qlt_floor (fst p + 29)). pose proof (Qlt_floor (snd p + 6)). rewrite inject_Z_plus in *. change (inject_Z 1) with 1 in *.
      split; split; auto using Qfloor_le.
  - intros (i' & j' & row & H1 & H2 & (A1 & A2) & (B1 & B2)). unfold i, j. rewrite (floor_unique _ _ A1 A2), (floor_unique _ _ B1 B2), !Nat2Z.id.
    rewrite (nth_error_nth _ _ _ H1). apply nth_error_nth. exact H2.
Qed.
(** the mask shows the letters *)
Definition in_stroke (i j : nat) (r : Z * Z * Z * Z) : bool :=
  let '(x0, x1, y0, y1) := r in (x0 <=? Z.of_nat j)%Z && (Z.of_nat j <? x1)%Z && (y0 <=? Z.of_nat i)%Z && (Z.of_nat i <? y1)%Z.
Definition any_stroke (i j : nat) : bool := existsb (fun l => existsb (in_stroke i j) (snd l)) letters.
Lemma mask_letters i j : (i < 14)%nat -> (j < 59)%nat -> nth j (nth i logo_mask []) false = any_stroke i j.
Proof.
  intros Hi Hj. assert (A : forallb (fun i => forallb (fun j => Bool.eqb (nth j (nth i logo_mask []) false) (any_stroke i j)) (seq 0 59)) (seq 0 14) = true) by (vm_compute; reflexivity).
  rewrite forallb_forall in A. assert (B := A i ltac:(apply in_seq; lia)). rewrite forallb_forall in B. apply Bool.eqb_prop. apply B. apply in_seq. lia.
Qed.
Lemma stroke_small a l x0 x1 y0 y1 : In (a, l) letters -> In (x0, x1, y0, y1) l -> (0 <= x0 /\ x1 <= 58 /\ 0 <= y0 /\ y1 <= 12)%Z.
Proof.
  intros H1 H2. assert (A : forallb (fun l => forallb (fun r => let '(x0, x1, y0, y1) := r in (0 <=? x0)%Z && (x1 <=? 58)%Z && (0 <=? y0)%Z && (y1 <=? 12)%Z) (snd l)) letters = true) by (vm_compute; reflexivity).
  rewrite forallb_forall in A. specialize (A _ H1). cbn [snd] in A. rewrite forallb_forall in A. specialize (A _ H2). cbn beta iota in A. rewrite !andb_true_iff, !Z.leb_le in A. tauto.
Qed.
Lemma mask_shows p : on_mask p <-> on_letter p.
Proof.
  split.
  - intros (i & j & row & H1 & H2 & (A1 & A2) & (B1 & B2)). pose proof (mask_cols i row H1) as LR.
    assert (Li : (i < 14)%nat) by (change 14%nat with (length logo_mask); apply nth_error_Some; congruence).
    assert (Lj : (j < 59)%nat) by (rewrite <- LR; apply nth_error_Some; congruence).
    pose proof (mask_letters i j Li Lj) as M. rewrite (nth_error_nth _ _ _ H1), (nth_error_nth _ _ _ H2) in M. symmetry in M. unfold any_stroke in M.
    apply existsb_exists in M. destruct M as ((a & l) & HL & M). cbn [snd] in M. apply existsb_exists in M. destruct M as ((((x0 & x1) & y0) & y1) & HS & M).
    unfold in_stroke in M. rewrite !andb_true_iff, !Z.leb_le, !Z.ltb_lt in M. destruct M as (((M1 & M2) & M3) & M4).
    exists a, l, x0, x1, y0, y1. split; [exact HL|]. split; [exact HS|]. rewrite Zle_Qle in M1, M3.
    assert (M2' : (Z.of_nat j + 1 <= x1)%Z) by lia. assert (M4' : (Z.of_nat i + 1 <= y1)%Z) by lia. rewrite Zle_Qle, inject_Z_plus in M2', M4'. change (inject_Z 1) with 1 in *. lra.
  - intros (a & l & x0 & x1 & y0 & y1 & HL & HS & (A1 & A2) & (B1 & B2)). destruct (stroke_small _ _ _ _ _ _ HL HS) as (S1 & S2 & S3 & S4).
    pose proof (Qfloor_le (fst p + 29)) as F1. pose proof (Qlt_floor (fst p + 29)) as F2. pose proof (Qfloor_le (snd p + 6)) as G1. pose proof (Qlt_floor (snd p + 6)) as G2.
    set (J := Qfloor (fst p + 29)) in *. set (I := Qfloor (snd p + 6)) in *.
    assert (J1 : (x0 < J + 1)%Z) by (rewrite Zlt_Qlt; lra). assert (J2 : (J < x1)%Z) by (rewrite Zlt_Qlt; lra).
    assert (I1 : (y0 < I + 1)%Z) by (rewrite Zlt_Qlt; lra). assert (I2 : (I < y1)%Z) by (rewrite Zlt_Qlt; lra).
    rewrite inject_Z_plus in F2, G2. change (inject_Z 1) with 1 in *.
    pose proof (mask_letters (Z.to_nat I) (Z.to_nat J) ltac:(lia) ltac:(lia)) as M.
    assert (T : any_stroke (Z.to_nat I) (Z.to_nat J) = true).
    { apply existsb_exists. exists (a, l). split; [exact HL|]. apply existsb_exists. exists (x0, x1, y0, y1). split; [exact HS|]. unfold in_stroke.
      rewrite !Z2Nat.id by lia. rewrite !andb_true_iff, !Z.leb_le, !Z.ltb_lt. lia. }
    rewrite T in M. destruct (nth_error logo_mask (Z.to_nat I)) as [row|] eqn:ER; [|apply nth_error_None in ER; change (length logo_mask) with 14%nat in ER; lia].
    exists (Z.to_nat I), (Z.to_nat J), row. split; [exact ER|]. rewrite (nth_error_nth _ _ _ ER) in M. split; [rewrite <- M; apply nth_error_nth'; rewrite (mask_cols _ _ ER); lia|].
    rewrite !Z2Nat.id by lia. lra.
Qed.
Lemma logo_cell_total p : in_frame p -> exists b, logo_cell p = Ok b /\ (b = true <-> on_letter p).
Proof. intros H. destruct (logo_cell_mask p H) as (b & E & B). exists b. split; [exact E|]. rewrite <- mask_shows. exact B. Qed.
Lemma logo_cells_total l : (forall p, In p l -> in_frame p) -> exists keep, logo_cells l = Ok keep /\ those on_letter l (select keep l).
Proof.
  induction l as [|p l IH]; intros H; [exists []; split; [reflexivity|constructor]|].
  destruct (logo_cell_total p (H p (or_introl eq_refl))) as (b & E & HB). destruct IH as (keep & EK & T); [intros q Hq; apply H; right; exact Hq|].
  exists (b :: keep). cbn [logo_cells]. rewrite E. cbn [bind]. rewrite EK. split; [reflexivity|]. cbn [select]. destruct b.
  - apply those_keep; [apply HB; reflexivity|exact T].
  - apply those_skip; [intros C; apply HB in C; discriminate C|exact T].
Qed.
Lemma those_in {A} (P : A -> Prop) l l' a : those P l l' -> In a l' -> In a l /\ P a.
Proof.
  induction 1 as [|b l l' HP _ IH|b l l' HP _ IH]; intros H; [destruct H| |destruct (IH H); split; [right|]; auto].
  destruct H as [<-|H]; [split; [left|]; auto|]. destruct (IH H). split; [right|]; auto.
Qed.
Lemma those_length {A} (P : A -> Prop) l l' : those P l l' -> (length l' <= length l)%nat.
Proof. induction 1; simpl; lia. Qed.

Section Logo.
  Variable R : rng.
  Variables cos sin : Q -> Q.
  Lemma points_drawn n : logo_points R n (rng_seed R 0) = (drawn R n, after R (n + n) (rng_seed R 0)).
  Proof.
    unfold logo_points. rewrite draws_eq. rewrite draws_eq. rewrite after_add. f_equal. unfold drawn. rewrite !map_map.
    assert (C : forall l, combine (map (fun x => 58 * draw R x (rng_seed R 0)) l) (map (fun x => 12 * draw R x (after R n (rng_seed R 0))) l) =
      map (fun i => (58 * draw R i (rng_seed R 0), 12 * draw R (n + i) (rng_seed R 0))) l).
    { induction l as [|a l IH]; [reflexivity|]. cbn [map combine]. rewrite IH, draw_add. reflexivity. }
    apply C.
  Qed.
  Lemma drawn_frame n p : draws_in_range R -> In p (drawn R n) -> in_frame p.
  Proof.
    intros HR H. unfold drawn in H. apply in_map_iff in H. destruct H as (i & <- & _). pose proof (draw_range R i (rng_seed R 0) HR). pose proof (draw_range R (n + i) (rng_seed R 0) HR).
    unfold in_frame. cbn [fst snd]. lra.
  Qed.
  Lemma places_at l m : length l = length (q_rows m) -> Forall2 lies_at l (q_rows (set_places l m)).
  Proof.
    unfold set_places. cbn [q_rows]. revert l. induction (q_rows m) as [|f r IH]; intros [|p l] E; try discriminate E; [constructor|].
    cbn [combine map]. constructor; [split; reflexivity|]. apply IH. simpl in E. congruence.
  Qed.
  Lemma places_nth l m i g : nth_error (q_rows (set_places l m)) i = Some g -> exists p f, nth_error l i = Some p /\ nth_error (q_rows m) i = Some f /\ g = set_place (p, f).
  Proof.
    unfold set_places. cbn [q_rows]. rewrite nth_error_map. destruct (nth_error (combine l (q_rows m)) i) as [[p f]|] eqn:E; [|discriminate]. intros H. injection H as <-.
    destruct (nth_combine _ _ _ _ _ E). eauto.
  Qed.
  Lemma logo_built n ent prior : draws_in_range R -> trig_accurate cos sin -> exists xy md s1 m0,
    those on_letter (drawn R n) xy /\ mat_new R cos sin (logo_params (Z.of_nat (length xy))) ent (after R (n + n) (rng_seed R 0)) = Ok (md, s1) /\
    m0 = set_places xy (read_mat md) /\ length xy = length (q_rows (read_mat md)) /\ logo_mat R cos sin n ent prior = Ok m0.
  Proof.
    intros HR HT. destruct (logo_cells_total (drawn R n)) as (keep & EK & T); [intros p Hp; exact (drawn_frame n p HR Hp)|].
    set (xy := select keep (drawn R n)) in *. assert (PO : params_ok (logo_params (Z.of_nat (length xy)))).
    { split; [cbn; lia|]. cbn [logo_params p_length p_width p_thickness p_size p_shear p_tensile p_seed positive]. do 6 (split; [lra|]). intros k E. injection E as <-. lia. }
    destruct (mat_generated R cos sin _ ent (after R (n + n) (rng_seed R 0)) HR HT PO) as (md & s1 & Hmd & _).
    exists xy, md, s1, (set_places xy (read_mat md)). split; [exact T|]. split; [exact Hmd|]. split; [reflexivity|]. split.
    - pose proof (read_length R cos sin _ _ _ _ _ Hmd) as L. cbn [logo_params p_n] in L. lia.
    - unfold logo_mat. change (reseed R (Some 0%Z) ent) with (Ok (rng_seed R 0)). cbn [bind]. rewrite points_drawn. rewrite EK. cbn [bind]. fold xy. rewrite Hmd. reflexivity.
  Qed.
  (** the fibers lie on the letters *)
  Lemma logo_fibers n ent prior : draws_in_range R -> trig_accurate cos sin -> exists xy m0,
    logo_mat R cos sin n ent prior = Ok m0 /\ those on_letter (drawn R n) xy /\ Forall2 lies_at xy (q_rows m0) /\ valid m0 /\ q_size m0 = 60 /\
    forall f, In f (q_rows m0) -> made_of 1 (1 # 10) (1 # 20) (Fin 1) (Fin 400) f /\ exists d, qw f = sin (d * 0).
  Proof.
    intros HR HT. destruct (logo_built n ent prior HR HT) as (xy & md & s1 & m0 & T & Hmd & Em & EL & E). exists xy, m0. split; [exact E|]. split; [exact T|].
    subst m0. pose proof (places_at xy (read_mat md) EL) as F2. split; [exact F2|].
    assert (ES : q_size (read_mat md) = 60) by (destruct (new_rows R cos sin _ _ _ _ _ Hmd) as (rows & -> & _); reflexivity).
    assert (V0 : valid (read_mat md)).
    { destruct (read_back R cos sin _ _ _ md s1 Hmd) as (E0 & EC). unfold valid. rewrite E0. apply mat_check_ok in EC. destruct EC as [F|M]; [|exact M]. rewrite <- E0 in F. discriminate F. }
    assert (G : forall f, In f (q_rows (set_places xy (read_mat md))) -> exists p f0, In p xy /\ In f0 (q_rows (read_mat md)) /\ f = set_place (p, f0)).
    { intros f Hf. apply In_nth_error in Hf. destruct Hf as (i & Hi). destruct (places_nth _ _ _ _ Hi) as (p & f0 & H1 & H2 & ->). apply nth_error_In in H1, H2. eauto. }
    split; [|split; [exact ES|]].
    - apply valid_intro. intros f Hf. destruct (G f Hf) as (p & f0 & Hp & Hf0 & ->). destruct (valid_fiber _ V0 f0 Hf0) as (A1 & A2 & A3 & _ & _ & A6 & A7 & A8).
      change (q_size (set_places xy (read_mat md))) with (q_size (read_mat md)). rewrite ES. unfold set_place. cbn [fst snd ql qb qh qx qy qz qu qv qw qG qE].
      destruct (those_in _ _ _ p T Hp) as (Hin & _). pose proof (drawn_frame n p HR Hin) as ((X1 & X2) & (Y1 & Y2)).
      assert (E30 : 60 / 2 == 30) by reflexivity. assert (E31 : -(60) / 2 == -(30)) by reflexivity. rewrite E30, E31. repeat split; auto; try lra; tauto.
    - intros f Hf. destruct (G f Hf) as (p & f0 & Hp & Hf0 & ->). destruct (read_asked R cos sin _ _ _ _ _ f0 Hmd Hf0) as (A & d & W). split; [exact A|]. exists d. exact W.
  Qed.
  (** their directions come from the numbers already used for the points *)
  Lemma logo_reused n ent prior m0 k i f : draws_in_range R -> trig_accurate cos sin -> logo_mat R cos sin n ent prior = Ok m0 -> k = length (q_rows m0) -> (4 * k <= n)%nat ->
    nth_error (q_rows m0) i = Some f ->
    exists x y a w, nth_error (drawn R n) (3 * k + i) = Some (x, y) /\ 58 * a == x * np_pi /\ w == 0 /\ qu f = cos a * cos w /\ qv f = sin a * cos w.
  Proof.
    intros HR HT E Ek Ln Hi. destruct (logo_built n ent prior HR HT) as (xy & md & s1 & m0' & T & Hmd & Em & EL & E'). assert (E0 : m0' = m0) by congruence. rewrite E0 in Em. clear E' E0.
    rewrite Em in Ek, Hi. assert (LK : length xy = k). { rewrite Ek. unfold set_places. cbn [q_rows]. rewrite map_length, combine_length. lia. }
    destruct (places_nth _ _ _ _ Hi) as (p & f0 & H1 & H2 & ->). assert (Li : (i < k)%nat) by (rewrite <- LK; apply nth_error_Some; congruence).
    destruct (mat_draws R cos sin (logo_params (Z.of_nat (length xy))) _ _ md s1 Hmd) as (_ & _ & P & _). cbn [logo_params p_n p_seed] in P. rewrite Nat2Z.id, LK in P.
    unfold read_mat in H2. cbn [q_rows] in H2. rewrite nth_error_map in H2. destruct (nth_error (m_rows md) i) as [[lab f1]|] eqn:E1; [|discriminate H2]. injection H2 as <-.
    destruct (P i lab f1 E1) as (_ & _ & a & w & Ea & Ew & EU & EV & _). cbn [logo_params p_theta p_psi] in Ea, Ew.
    eexists _, _, a, w. split; [|split; [|split; [|split]]].
    - unfold drawn. rewrite nth_error_map, seq_error by lia. reflexivity.
    - rewrite Ea. cbn [Nat.add]. ring.
    - rewrite Ew. ring.
    - cbn [snd set_place qu read_fiber]. rewrite EU. reflexivity.
    - cbn [snd set_place qv read_fiber]. rewrite EV. reflexivity.
  Qed.
  Lemma logo_same n ent1 ent2 prior1 prior2 : logo_mat R cos sin n ent1 prior1 = logo_mat R cos sin n ent2 prior2.
  Proof.
    unfold logo_mat. cbn [reseed]. destruct (_ && _); [|reflexivity]. cbn [bind]. destruct (logo_points R n _) as [pts s2]. destruct (logo_cells pts) as [a|]; [|reflexivity]. cbn [bind].
    rewrite (mat_reproducible R cos sin (logo_params (Z.of_nat (length (select a pts)))) 0%Z ent1 ent2 s2 s2 eq_refl). reflexivity.
  Qed.
End Logo.

Section Ends.
  Variable R : rng.
  Variables cos sin : Q -> Q.
  Variable linprog : lp -> list Q.
  Variable lsolve : ncoo -> list num -> list num.
  Variable cyl : list vec.
  Variable place : qfiber -> vec -> vec.
  Variable near : list Q -> Q -> nat.
  Hypothesis LP : right_linprog linprog.
  Hypothesis HR : draws_in_range R.
  Hypothesis HT : trig_accurate cos sin.

  Lemma args_ok m : finite_answers lsolve -> right_length lsolve -> valid m -> q_rows m <> [] -> packable lsolve m script_args (Some 100%nat).
  Proof. intros FA RL V NE. split; [exact V|]. split; [exact NE|]. split; [split; cbn; lra|]. split; [cbn; lia|]. split; [exact RL|]. left. exact FA. Qed.
  Lemma square_mat n ent prior : (0 <= n)%Z -> exists md s1, mat_new R cos sin (square_params n) ent prior = Ok (md, s1) /\ valid (read_mat md) /\ Z.of_nat (length (q_rows (read_mat md))) = n.
  Proof.
    intros Hn. destruct (mat_generated R cos sin (square_params n) ent prior HR HT) as (md & s1 & Hmd & _).
    { split; [exact Hn|]. cbn [square_params p_length p_width p_thickness p_size p_shear p_tensile p_seed positive]. do 6 (split; [lra|]). intros k E. injection E as <-. lia. }
    exists md, s1. split; [exact Hmd|]. split; [|exact (read_length R cos sin _ _ _ _ _ Hmd)].
    destruct (read_back R cos sin _ _ _ md s1 Hmd) as (E0 & EC). unfold valid. rewrite E0. apply mat_check_ok in EC. destruct EC as [F|M]; [|exact M]. rewrite <- E0 in F. discriminate F.
  Qed.
  Lemma square_stops f n ent prior : In f files -> (0 <= n)%Z -> square R cos sin linprog lsolve cyl place near f n ent prior = Exn TypeErr.
  Proof.
    intros Hf Hn. destruct (square_mat n ent prior Hn) as (md & s1 & Hmd & V & _). unfold square. rewrite Hmd. cbn [bind fst]. exact (pack_file linprog lsolve cyl place near LP f _ _ _ _ _ Hf V).
  Qed.
  Lemma logo_stops f n ent prior : In f files -> logo R cos sin linprog lsolve cyl place near f n ent prior = Exn TypeErr.
  Proof.
    intros Hf. destruct (logo_fibers R cos sin n ent prior HR HT) as (xy & m0 & E & _ & _ & V & _). unfold logo. rewrite E. cbn [bind]. exact (pack_file linprog lsolve cyl place near LP f _ _ _ _ _ Hf V).
  Qed.
  Hypothesis FA : finite_answers lsolve.
  Hypothesis RL : right_length lsolve.
  Hypothesis HC : unit_cylinder cyl.
  Hypothesis HN : right_tree near.
  Lemma asked_args : usual_args script_args.
  Proof. split; [reflexivity|]. split; [vm_compute; reflexivity|]. split; [reflexivity|]. split; [reflexivity|]. split; [reflexivity|]. split; [exists (1 # 100); split; reflexivity|]. split; reflexivity. Qed.
  Lemma same_made l b h G E m m' : same_but_heights m m' -> (forall f, In f (q_rows m) -> made_of l b h G E f) -> forall f, In f (q_rows m') -> made_of l b h G E f.
  Proof.
    intros SB H f Hf. destruct (same_in _ _ f SB Hf) as (f0 & Hf0 & S). destruct (H f0 Hf0) as (A & B & C & D & E'). destruct S as (S1 & S2 & S3 & S4 & S5 & S6 & S7 & S8 & S9 & S10). 
    unfold made_of. intuition congruence.
  Qed.
  Lemma pack_result m0 per thr l b h G E : packable lsolve m0 script_args (Some 100%nat) -> (forall f, In f (q_rows m0) -> made_of l b h G E f) ->
    exists k p K cs S s, pack linprog lsolve cyl place near "solve" m0 per thr script_args (Some 100%nat) = Ok k /\ same_but_heights m0 (pk_mat k) /\
      (forall f, In f (q_rows (pk_mat k)) -> made_of l b h G E f) /\ at_periodic (g_attrs (pk_mesh k)) = Some per /\
      stack_new linprog m0 (pk_net k) thr = Ok (pk_stack k, pk_mat k) /\
      usual_args p /\ packed_run lsolve p (Some 100%nat) k K cs S s.
  Proof.
    intros PK MO. destruct (pack_total linprog lsolve cyl place near LP m0 per thr _ _ PK HC HN) as (k & RUN).
    destruct (pack_fibers linprog lsolve cyl place near LP _ _ _ _ _ _ RUN) as (SB & _ & _ & _ & P). destruct (pack_parts linprog lsolve cyl place near _ _ _ _ _ _ RUN) as (_ & ST & _).
    destruct (pack_shown linprog lsolve cyl place near LP _ _ _ _ _ _ PK RUN) as (K & cs & S & s & _ & _ & _ & _ & PR & _).
    exists k, script_args, K, cs, S, s. split; [exact RUN|]. split; [exact SB|]. split; [exact (same_made _ _ _ _ _ _ _ SB MO)|]. split; [exact P|]. split; [exact ST|]. split; [exact asked_args|exact PR].
  Qed.
  Lemma square_meant n ent prior : (1 <= n)%Z -> exists k p K cs S s, square R cos sin linprog lsolve cyl place near "solve" n ent prior = Ok k /\
    Z.of_nat (length (q_rows (pk_mat k))) = n /\ q_size (pk_mat k) = 40 /\ (forall f, In f (q_rows (pk_mat k)) -> made_of 4 (1 # 5) (1 # 20) (Fin 1) (Fin 1600) f) /\
    at_periodic (g_attrs (pk_mesh k)) = Some true /\ (exists m0, stack_new linprog m0 (pk_net k) (Some 1) = Ok (pk_stack k, pk_mat k)) /\
    usual_args p /\ packed_run lsolve p (Some 100%nat) k K cs S s.
  Proof.
    intros Hn. destruct (square_mat n ent prior ltac:(lia)) as (md & s1 & Hmd & V & L). unfold square. rewrite Hmd. cbn [bind fst].
    destruct (pack_result (read_mat md) true (Some 1) 4 (1 # 5) (1 # 20) (Fin 1) (Fin 1600)) as (k & p & K & cs & S & s & RUN & SB & MO & P & ST & UA & PR).
    - apply args_ok; auto. intros E. rewrite E in L. simpl in L. lia.
    - intros f Hf. exact (proj1 (read_asked R cos sin _ _ _ _ _ f Hmd Hf)).
    - exists k, p, K, cs, S, s. split; [exact RUN|]. split; [rewrite (same_len _ _ SB); exact L|].
      split; [destruct SB as (<- & _); destruct (new_rows R cos sin _ _ _ _ _ Hmd) as (rows & -> & _); reflexivity|]. split; [exact MO|]. split; [exact P|]. split; [eauto|]. auto.
  Qed.
  Lemma lies_same xy m m' : same_but_heights m m' -> Forall2 lies_at xy (q_rows m) -> Forall2 lies_at xy (q_rows m').
  Proof.
    intros (_ & F). revert xy. induction F as [|f f' r r' S F IH]; intros xy H; inversion H as [|p ? xy' ? HP HT']; subst; [constructor|]. constructor; [|auto].
    destruct S as (S1 & S2 & S3 & S4 & S5 & S6 & S7 & S8 & S9 & S10). destruct HP as (A & B). split; congruence.
  Qed.
  Lemma logo_meant n ent prior : (exists p, In p (drawn R n) /\ on_letter p) -> exists k p K cs S s xy, logo R cos sin linprog lsolve cyl place near "solve" n ent prior = Ok k /\
    those on_letter (drawn R n) xy /\ Forall2 lies_at xy (q_rows (pk_mat k)) /\ q_size (pk_mat k) = 60 /\
    (forall f, In f (q_rows (pk_mat k)) -> made_of 1 (1 # 10) (1 # 20) (Fin 1) (Fin 400) f) /\ at_periodic (g_attrs (pk_mesh k)) = Some false /\
    (exists m0, stack_new linprog m0 (pk_net k) None = Ok (pk_stack k, pk_mat k)) /\
    usual_args p /\ packed_run lsolve p (Some 100%nat) k K cs S s.
  Proof.
    intros (p & Hp & HL). destruct (logo_fibers R cos sin n ent prior HR HT) as (xy & m0 & E & T & F & V & ES & AS). unfold logo. rewrite E. cbn [bind].
    destruct (pack_result m0 false None 1 (1 # 10) (1 # 20) (Fin 1) (Fin 400)) as (k & p' & K & cs & S & s & RUN & SB & MO & P & ST & UA & PR).
    - apply args_ok; auto. intros E0. rewrite E0 in F. inversion F. subst xy. clear - Hp HL T. revert Hp T. induction (drawn R n) as [|a l IH]; intros Hp T; [destruct Hp|].
      inversion T; subst. destruct Hp as [<-|Hp]; [contradiction|auto].
    - intros f Hf. apply AS. exact Hf.
    - exists k, p', K, cs, S, s, xy. split; [exact RUN|]. split; [exact T|]. split; [exact (lies_same _ _ _ SB F)|]. split; [destruct SB as (<- & _); exact ES|].
      split; [exact MO|]. split; [exact P|]. split; [eauto|]. auto.
  Qed.
End Ends.
Section Never.
  Variable R : rng.
  Variables cos sin : Q -> Q.
  Variable linprog : lp -> list Q.
  Variable lsolve : ncoo -> list num -> list num.
  Variable cyl : list vec.
  Variable place : qfiber -> vec -> vec.
  Variable near : list Q -> Q -> nat.
  Lemma square_never f n ent prior k : In f files -> square R cos sin linprog lsolve cyl place near f n ent prior <> Ok k.
  Proof. intros Hf. unfold square. destruct (mat_new _ _ _ _ _ _) as [[md s1]|]; [|discriminate]. cbn [bind fst]. apply pack_never. exact Hf. Qed.
  Lemma logo_never f n ent prior k : In f files -> logo R cos sin linprog lsolve cyl place near f n ent prior <> Ok k.
  Proof. intros Hf. unfold logo. destruct (logo_mat _ _ _ _ _ _) as [m0|]; [|discriminate]. cbn [bind]. apply pack_never. exact Hf. Qed.
End Never.
