(** Proofs for C110: the energies of two parts that touch nothing else add up. *)
From Coq Require Import Permutation Lia Lqa.
From Verif Require Import Num NumP ListX ListP Frames MatM NetM StackM MeshM ModelM SolverM Spec SpecNet SpecMesh SpecModel SpecSolver SpecPerm SpecMain SpecPack SpecEnergy SpecStiffen
  SpecStack SpecScale SpecProgress SpecRename SpecOrder SpecPart SpecApart SpecSum SpecShare MeshCheckP StiffP StackP EnergyP ConstraintP SolverP SolverRunP SolverSysP SolverApiP SolverFinP ScaleP
  RenameMatP RenameDataP RenameP VtkP PartMatP PartDataP PartP StackNewP MetaP TorusP PilesP MoveP PackP ApartP SumP StiffenDirP.
Open Scope Q_scope.

(** the unknowns of the part, read from those of the whole *)
Definition restr (rho : nat -> nat) (g g' : mesh_df) (u : list Q) : list Q := map (fun r => nth (tau rho g g' r) u 0) (seq 0 (2 * length (g_rows g))).
Lemma restr_len rho g g' u : length (restr rho g g' u) = (2 * length (g_rows g))%nat.
Proof. unfold restr. rewrite map_length, seq_length. reflexivity. Qed.
Lemma restr_at rho g g' u r : (r < 2 * length (g_rows g))%nat -> nth r (restr rho g g' u) 0 = nth (tau rho g g' r) u 0.
Proof.
  intros L. unfold restr. rewrite (nth_indep _ 0 (nth (tau rho g g' 0) u 0)) by (rewrite map_length, seq_length; exact L).
  rewrite (map_nth (fun r => nth (tau rho g g' r) u 0)), seq_nth by exact L. reflexivity.
Qed.
Lemma stiff_range m g l1 l2 c K : stiffness m g l1 l2 c = Ok K -> ~ flag_set (g_attrs g) -> RenameMatP.inside (2 * length (g_rows g)) K.
Proof.
  intros HK NF r x v H. destruct (stiff_local m g _ _ _ K HK NF r x v H) as (d & e & Hd & He & _).
  apply SolverSysP.node_lt in Hd. apply SolverSysP.node_lt in He.
  pose proof (Nat.div_mod r 2 ltac:(lia)). pose proof (Nat.mod_upper_bound r 2 ltac:(lia)).
  pose proof (Nat.div_mod x 2 ltac:(lia)). pose proof (Nat.mod_upper_bound x 2 ltac:(lia)). lia.
Qed.

Section One.
  Variables (rho : nat -> nat) (m m' : qmat) (g g' : mesh_df).
  Hypothesis HR : mesh_within rho m m' g g'.
  Variables (l1 l1' l2 l2' : option Q) (cp cp' : Q) (K K' : ncoo) (cs cs' : csys).
  Hypothesis HK : stiffness m g l1 l2 cp = Ok K.
  Hypothesis HK' : stiffness m' g' l1' l2' cp' = Ok K'.
  Hypothesis HC : constraint m g = Ok cs.
  Hypothesis HC' : constraint m' g' = Ok cs'.
  Hypothesis NF : ~ flag_set (g_attrs g).
  Hypothesis NF' : ~ flag_set (g_attrs g').
  Hypothesis Hmin : option_in no_units l1 l1'.
  Hypothesis Hmax : option_in no_units l2 l2'.
  Hypothesis Hcp : cp' == cp.
  Hypothesis Hspan : (l1 = None /\ l2 = None) \/ same_span g g'.
  Notation nu := (2 * length (g_rows g))%nat.
  Notation ta := (tau rho g g').
  Lemma up_inj i j : (i < nu)%nat -> (j < nu)%nat -> ta i = ta j -> i = j.
  Proof. intros A B. apply (tau_inj rho m m' g g' HR _ _ _ _ _ _ K K' cs cs' HK HK' HC HC' NF NF'); lia. Qed.
  Lemma part_product u r : (r < nu)%nat -> product K' u (ta r) == product K (restr rho g g' u) r.
  Proof.
    intros L. apply (in_product nu ta up_inj K K').
    - destruct (stiff_in rho m m' g g' HR l1 l1' l2 l2' cp cp' K K' HK HK' NF NF' Hmin Hmax Hcp Hspan) as (A & B & A1 & A2 & A3).
      exists A, B. split; [exact A1|]. split; [exact A2|]. intros a c v HI i Li. apply (A3 a c v HI). lia.
    - apply (stiff_range _ _ _ _ _ _ HK NF).
    - intros c Lc. rewrite restr_at by exact Lc. reflexivity.
    - exact L.
  Qed.
  Lemma part_quad u : quadratic K (restr rho g g' u) == qsum (map (fun r' => nth r' u 0 * product K' u r') (map ta (seq 0 nu))).
  Proof.
    rewrite (quad_rows K _ nu) by (intros r x v H; apply (stiff_range _ _ _ _ _ _ HK NF r x v H)).
    rewrite map_map. apply qsum_ext. intros r Hr. apply in_seq in Hr. rewrite restr_at, part_product by lia. reflexivity.
  Qed.
  Lemma part_nodup : NoDup (map ta (seq 0 nu)).
  Proof.
    assert (X : forall q, NoDup q -> (forall x, In x q -> (x < nu)%nat) -> NoDup (map ta q)).
    { induction 1 as [|x q Hx N IH]; intros Hq; cbn [map]; constructor; [|apply IH; intros; apply Hq; right; assumption].
      intros Hin. apply in_map_iff in Hin. destruct Hin as (y & E & Hy). apply up_inj in E; [subst y; contradiction|apply Hq; right; exact Hy|apply Hq; left; reflexivity]. }
    apply X; [apply seq_NoDup|]. intros x Hx. apply in_seq in Hx. lia.
  Qed.
  Lemma part_range r' : In r' (map ta (seq 0 nu)) <-> SpecPart.found rho g (r' / 2).
  Proof.
    rewrite in_map_iff. split.
    - intros (r & <- & Hr). apply in_seq in Hr. destruct (split2 r) as (i & [-> | ->]); exists i; (split; [lia|]).
      + rewrite tau_disp by lia. apply div2_even.
      + rewrite tau_rot by lia. apply div2_odd.
    - intros (i & Li & E). destruct (split2 r') as (a & [-> | ->]).
      + rewrite div2_even in E. exists (2 * i)%nat. split; [rewrite tau_disp by lia; lia|apply in_seq; lia].
      + rewrite div2_odd in E. exists (2 * i + 1)%nat. split; [rewrite tau_rot by lia; lia|apply in_seq; lia].
  Qed.
  Lemma part_moved S S' h s : part_follows rho g g' S S' h s -> moved_at S h (qof (st_Z s)) (restr rho g g' (vals (st_u S' s))).
  Proof.
    assert (X : forall a b, part_is rho g g' S' s a b -> forall r, (r < nu)%nat -> a r (nth r (restr rho g g' (vals (st_u S' s))) 0)).
    { intros a b (A & _) r L. rewrite restr_at by exact L. destruct (split2 r) as (i & [-> | ->]).
      - rewrite tau_disp by lia. specialize (A i ltac:(lia) 0%nat ltac:(lia)). rewrite !Nat.add_0_r in A. exact A.
      - rewrite tau_rot by lia. exact (A i ltac:(lia) 1%nat ltac:(lia)). }
    unfold moved_at. rewrite restr_len. intros [(T & P)|(j & t & t' & H1 & H2 & Z1 & Z2 & Z3 & P)]; [left|right].
    - split; [exact T|]. exact (X _ _ P).
    - exists j, t, t'. repeat (split; [assumption|]). exact (X _ _ P).
  Qed.
End One.

Section Two.
  Variables (rho1 rho2 : nat -> nat) (m1 m2 m' : qmat) (g1 g2 g' : mesh_df).
  Hypothesis HR1 : mesh_within rho1 m1 m' g1 g'.
  Hypothesis HR2 : mesh_within rho2 m2 m' g2 g'.
  Hypothesis TP : two_parts rho1 rho2 g1 g2 g'.
  Variables (p1 p2 p' : solve_params) (K1 K2 K' : ncoo) (cs1 cs2 cs' : csys).
  Hypothesis HK1 : stiffness m1 g1 (sp_lmin p1) (sp_lmax p1) (sp_coupling p1) = Ok K1.
  Hypothesis HK2 : stiffness m2 g2 (sp_lmin p2) (sp_lmax p2) (sp_coupling p2) = Ok K2.
  Hypothesis HK' : stiffness m' g' (sp_lmin p') (sp_lmax p') (sp_coupling p') = Ok K'.
  Hypothesis HC1 : constraint m1 g1 = Ok cs1.
  Hypothesis HC2 : constraint m2 g2 = Ok cs2.
  Hypothesis HC' : constraint m' g' = Ok cs'.
  Hypothesis NF1 : ~ flag_set (g_attrs g1).
  Hypothesis NF2 : ~ flag_set (g_attrs g2).
  Hypothesis NF' : ~ flag_set (g_attrs g').
  Hypothesis SM1 : same_model g1 g' p1 p'.
  Hypothesis SM2 : same_model g2 g' p2 p'.
  Lemma energy_split u : stored K' u == stored K1 (restr rho1 g1 g' u) + stored K2 (restr rho2 g2 g' u).
  Proof.
    destruct SM1 as (A1 & A2 & A3 & _ & _ & A4). destruct SM2 as (B1 & B2 & B3 & _ & _ & B4). unfold stored.
    rewrite (part_quad rho1 m1 m' g1 g' HR1 _ _ _ _ _ _ K1 K' cs1 cs' HK1 HK' HC1 HC' NF1 NF' A1 A2 A3 A4 u).
    rewrite (part_quad rho2 m2 m' g2 g' HR2 _ _ _ _ _ _ K2 K' cs2 cs' HK2 HK' HC2 HC' NF2 NF' B1 B2 B3 B4 u).
    rewrite (quad_rows K' u (2 * length (g_rows g'))) by (intros r x v H; apply (stiff_range _ _ _ _ _ _ HK' NF' r x v H)).
    set (F := fun r' => nth r' u 0 * product K' u r').
    assert (E : qsum (map F (seq 0 (2 * length (g_rows g')))) ==
      qsum (map F (map (tau rho1 g1 g') (seq 0 (2 * length (g_rows g1))))) + qsum (map F (map (tau rho2 g2 g') (seq 0 (2 * length (g_rows g2)))))).
    { rewrite <- qsum_app, <- map_app. apply qsum_perm, Permutation_map, Permutation_sym, NoDup_Permutation; [|apply seq_NoDup|].
      - apply NoDup_both.
        + apply (part_nodup rho1 m1 m' g1 g' HR1 _ _ _ _ _ _ K1 K' cs1 cs' HK1 HK' HC1 HC' NF1 NF').
        + apply (part_nodup rho2 m2 m' g2 g' HR2 _ _ _ _ _ _ K2 K' cs2 cs' HK2 HK' HC2 HC' NF2 NF').
        + intros x X1 X2. apply part_range in X1. apply part_range in X2. exact (proj2 TP _ X1 X2).
      - intros r'. rewrite in_app_iff, !part_range, in_seq. split.
        + intros [(i & Li & E)|(i & Li & E)]; [pose proof (proj1 HR1 i Li)|pose proof (proj1 HR2 i Li)];
            pose proof (Nat.div_mod r' 2 ltac:(lia)); pose proof (Nat.mod_upper_bound r' 2 ltac:(lia)); lia.
        + intros [_ L]. apply (proj1 TP). apply Nat.div_lt_upper_bound; lia. }
    rewrite E. field.
  Qed.
  Theorem stored_add S1 S2 S' h1 h2 s : part_follows rho1 g1 g' S1 S' h1 s -> part_follows rho2 g2 g' S2 S' h2 s ->
    exists v1 v2, stored K' (vals (st_u S' s)) == stored K1 v1 + stored K2 v2 /\ length v1 = (2 * length (g_rows g1))%nat /\ length v2 = (2 * length (g_rows g2))%nat /\
      moved_at S1 h1 (qof (st_Z s)) v1 /\ moved_at S2 h2 (qof (st_Z s)) v2.
  Proof.
    intros P1 P2. eexists _, _. split; [apply energy_split|]. split; [apply restr_len|]. split; [apply restr_len|].
    split; [apply (part_moved _ _ _ _ _ _ _ P1)|apply (part_moved _ _ _ _ _ _ _ P2)].
  Qed.
End Two.

Theorem parts_energy : forall rho1 rho2 lsolve1 lsolve2 lsolve' m1 m2 m' g1 g2 g' p1 p2 p' S1 h1 S2 h2 S' h',
  mesh_within rho1 m1 m' g1 g' -> mesh_within rho2 m2 m' g2 g' -> two_parts rho1 rho2 g1 g2 g' ->
  same_model g1 g' p1 p' -> same_model g2 g' p2 p' -> faces_lid m1 g1 -> faces_lid m2 g2 ->
  direct_solver lsolve1 -> direct_solver lsolve2 -> direct_solver lsolve' -> sound_data m1 g1 p1 -> sound_data m2 g2 p2 -> sound_data m' g' p' ->
  starts_held m1 g1 (sp_tol p1) -> starts_held m2 g2 (sp_tol p2) -> starts_held m' g' (sp_tol p') ->
  solve lsolve1 m1 g1 p1 = Ok (S1, h1) -> solve lsolve2 m2 g2 p2 = Ok (S2, h2) -> solve lsolve' m' g' p' = Ok (S', h') ->
  numbering (length (sy_dq S1)) (sp_perm p1) -> numbering (length (sy_dq S2)) (sp_perm p2) -> numbering (length (sy_dq S')) (sp_perm p') ->
  forall K1 K2 K', stiffness m1 g1 (sp_lmin p1) (sp_lmax p1) (sp_coupling p1) = Ok K1 -> stiffness m2 g2 (sp_lmin p2) (sp_lmax p2) (sp_coupling p2) = Ok K2 ->
  stiffness m' g' (sp_lmin p') (sp_lmax p') (sp_coupling p') = Ok K' ->
  forall s, In s h' -> not_below h1 s -> not_below h2 s ->
  exists v1 v2, stored K' (vals (st_u S' s)) == stored K1 v1 + stored K2 v2 /\ length v1 = (2 * length (g_rows g1))%nat /\ length v2 = (2 * length (g_rows g2))%nat /\
    moved_at S1 h1 (qof (st_Z s)) v1 /\ moved_at S2 h2 (qof (st_Z s)) v2.
Proof.
  intros rho1 rho2 lsolve1 lsolve2 lsolve' m1 m2 m' g1 g2 g' p1 p2 p' S1 h1 S2 h2 S' h' HR1 HR2 TP SM1 SM2 F1 F2 D1 D2 D' SD1 SD2 SD' SH1 SH2 SH' E1 E2 E' N1 N2 N'
    K1 K2 K' HK1 HK2 HK' s Hs B1 B2.
  pose proof (proj1 SD1) as NF1. pose proof (proj1 SD2) as NF2. pose proof (proj1 SD') as NF'.
  destruct (start_good _ _ _ _ _ _ NF1 E1) as (_ & cs1 & _ & HC1 & _). destruct (start_good _ _ _ _ _ _ NF2 E2) as (_ & cs2 & _ & HC2 & _). destruct (start_good _ _ _ _ _ _ NF' E') as (_ & cs' & _ & HC' & _).
  apply (stored_add rho1 rho2 m1 m2 m' g1 g2 g' HR1 HR2 TP p1 p2 p' K1 K2 K' cs1 cs2 cs' HK1 HK2 HK' HC1 HC2 HC' NF1 NF2 NF' SM1 SM2 S1 S2 S' h1 h2 s).
  - apply (part_direct rho1 lsolve1 lsolve' m1 m' g1 g' p1 p' S1 h1 S' h'); auto.
  - apply (part_direct rho2 lsolve2 lsolve' m2 m' g2 g' p2 p' S2 h2 S' h'); auto.
Qed.

(** the fibers of two mats give the two parts of the mesh *)
Lemma mats_parts linprog' per e1 e2 m1 m2 m' t' : right_linprog linprog' -> net_new m' per None = Ok t' -> two_mats e1 e2 m1 m2 m' ->
  forall thr st' k' g' cs', stack_new linprog' m' t' thr = Ok (st', k') -> constraint k' g' = Ok cs' ->
  forall rho1 rho2 g1 g2 k1, mesh_within rho1 k1 k' g1 g' -> part_nodes rho1 e1 m1 g1 g' -> part_nodes rho2 e2 m2 g2 g' -> two_parts rho1 rho2 g1 g2 g'.
Proof.
  intros LP' Ht' TM thr st' k' g' cs' R' HC' rho1 rho2 g1 g2 k1 HR1 PN1 PN2. split.
  - intros i' L. destruct (OrderP.node_ex _ _ L) as (d' & Hd'). destruct (thick_ex k' g' cs' HC' _ _ Hd') as (h & (f & Hf & _) & _).
    destruct (built_inv linprog' m' per t' Ht' (LP' _ _ _ Ht') _ _ _ R') as (_ & _ & _ & SB & _).
    destruct (same_fiber k' m' (nf d') f (same_sym _ _ SB) Hf) as (f0 & Hf0 & _).
    destruct (proj1 TM _ _ Hf0) as [M|M]; [left; apply (proj2 PN1 i' d' Hd'), M|right; apply (proj2 PN2 i' d' Hd'), M].
  - intros i' F1 F2. assert (L : (i' < length (g_rows g'))%nat) by (destruct F1 as (i & L & ->); apply (proj1 HR1 i L)).
    destruct (OrderP.node_ex _ _ L) as (d' & Hd'). apply (proj2 TM (nf d')); [apply (proj2 PN1 i' d' Hd'), F1|apply (proj2 PN2 i' d' Hd'), F2].
Qed.
Theorem mats_energy : forall linprog1 linprog2 linprog' lsolve1 lsolve2 lsolve' e1 e2 per m1 m2 m' t1 t2 t',
  right_linprog linprog1 -> right_linprog linprog2 -> right_linprog linprog' -> direct_solver lsolve1 -> direct_solver lsolve2 -> direct_solver lsolve' ->
  net_new m1 per None = Ok t1 -> net_new m2 per None = Ok t2 -> net_new m' per None = Ok t' ->
  set_apart e1 per t1 t' m1 m' -> set_apart e2 per t2 t' m2 m' -> two_mats e1 e2 m1 m2 m' ->
  forall thr p1 p2 p' z1 z2 z', ready m1 thr p1 z1 -> ready m2 thr p2 z2 -> ready m' thr p' z' ->
  forall st1 st2 st' k1 k2 k' g1 g2 g' S1 S2 S' h1 h2 h',
  stack_new linprog1 m1 t1 thr = Ok (st1, k1) -> stack_new linprog2 m2 t2 thr = Ok (st2, k2) -> stack_new linprog' m' t' thr = Ok (st', k') ->
  mesh_new st1 = Ok g1 -> mesh_new st2 = Ok g2 -> mesh_new st' = Ok g' -> no_ties g' -> same_model g1 g' p1 p' -> same_model g2 g' p2 p' ->
  solve lsolve1 k1 g1 p1 = Ok (S1, h1) -> solve lsolve2 k2 g2 p2 = Ok (S2, h2) -> solve lsolve' k' g' p' = Ok (S', h') ->
  forall K1 K2 K', stiffness k1 g1 (sp_lmin p1) (sp_lmax p1) (sp_coupling p1) = Ok K1 -> stiffness k2 g2 (sp_lmin p2) (sp_lmax p2) (sp_coupling p2) = Ok K2 ->
  stiffness k' g' (sp_lmin p') (sp_lmax p') (sp_coupling p') = Ok K' ->
  forall s, In s h' -> not_below h1 s -> not_below h2 s ->
  exists v1 v2, stored K' (vals (st_u S' s)) == stored K1 v1 + stored K2 v2 /\ length v1 = (2 * length (g_rows g1))%nat /\ length v2 = (2 * length (g_rows g2))%nat /\
    moved_at S1 h1 (qof (st_Z s)) v1 /\ moved_at S2 h2 (qof (st_Z s)) v2.
Proof.
  intros linprog1 linprog2 linprog' lsolve1 lsolve2 lsolve' e1 e2 per m1 m2 m' t1 t2 t' LP1 LP2 LP' D1 D2 D' Ht1 Ht2 Ht' A1 A2 TM thr p1 p2 p' z1 z2 z' RD1 RD2 RD'
    st1 st2 st' k1 k2 k' g1 g2 g' S1 S2 S' h1 h2 h' R1 R2 R' G1 G2 G' NT SM1 SM2 E1 E2 E' K1 K2 K' HK1 HK2 HK' s Hs B1 B2.
  destruct (apart_solve linprog1 linprog' lsolve1 lsolve' e1 per m1 m' t1 t' LP1 LP' D1 D' Ht1 Ht' A1 thr p1 p' z1 z' RD1 RD' st1 st' k1 k' g1 g' S1 S' h1 h' R1 R' G1 G' NT SM1 E1 E')
    as (rho1 & HR1 & PN1 & W1 & _).
  destruct (apart_solve linprog2 linprog' lsolve2 lsolve' e2 per m2 m' t2 t' LP2 LP' D2 D' Ht2 Ht' A2 thr p2 p' z2 z' RD2 RD' st2 st' k2 k' g2 g' S2 S' h2 h' R2 R' G2 G' NT SM2 E2 E')
    as (rho2 & HR2 & PN2 & W2 & _).
  pose proof (proj1 (pk_sound linprog1 lsolve1 LP1 D1 m1 per thr p1 z1 RD1 t1 st1 k1 g1 Ht1 R1 G1)) as NF1.
  pose proof (proj1 (pk_sound linprog2 lsolve2 LP2 D2 m2 per thr p2 z2 RD2 t2 st2 k2 g2 Ht2 R2 G2)) as NF2.
  pose proof (proj1 (pk_sound linprog' lsolve' LP' D' m' per thr p' z' RD' t' st' k' g' Ht' R' G')) as NF'.
  destruct (start_good _ _ _ _ _ _ NF1 E1) as (_ & cs1 & _ & HC1 & _). destruct (start_good _ _ _ _ _ _ NF2 E2) as (_ & cs2 & _ & HC2 & _). destruct (start_good _ _ _ _ _ _ NF' E') as (_ & cs' & _ & HC' & _).
  pose proof (mats_parts linprog' per e1 e2 m1 m2 m' t' LP' Ht' TM thr st' k' g' cs' R' HC' rho1 rho2 g1 g2 k1 HR1 PN1 PN2) as TP.
  apply (stored_add rho1 rho2 k1 k2 k' g1 g2 g' HR1 HR2 TP p1 p2 p' K1 K2 K' cs1 cs2 cs' HK1 HK2 HK' HC1 HC2 HC' NF1 NF2 NF' SM1 SM2 S1 S2 S' h1 h2 s); auto.
Qed.

Theorem parts_work : forall rho1 rho2 lsolve1 lsolve2 lsolve' m1 m2 m' g1 g2 g' p1 p2 p' S1 h1 S2 h2 S' h',
  mesh_within rho1 m1 m' g1 g' -> mesh_within rho2 m2 m' g2 g' -> two_parts rho1 rho2 g1 g2 g' ->
  same_model g1 g' p1 p' -> same_model g2 g' p2 p' -> faces_lid m1 g1 -> faces_lid m2 g2 ->
  direct_solver lsolve1 -> direct_solver lsolve2 -> direct_solver lsolve' -> sound_data m1 g1 p1 -> sound_data m2 g2 p2 -> sound_data m' g' p' ->
  starts_held m1 g1 (sp_tol p1) -> starts_held m2 g2 (sp_tol p2) -> starts_held m' g' (sp_tol p') ->
  solve lsolve1 m1 g1 p1 = Ok (S1, h1) -> solve lsolve2 m2 g2 p2 = Ok (S2, h2) -> solve lsolve' m' g' p' = Ok (S', h') ->
  numbering (length (sy_dq S1)) (sp_perm p1) -> numbering (length (sy_dq S2)) (sp_perm p2) -> numbering (length (sy_dq S')) (sp_perm p') ->
  forall K1 K2, stiffness m1 g1 (sp_lmin p1) (sp_lmax p1) (sp_coupling p1) = Ok K1 -> stiffness m2 g2 (sp_lmin p2) (sp_lmax p2) (sp_coupling p2) = Ok K2 ->
  finite_moduli m' -> forall cs' n', constraint m' g' = Ok cs' -> length (csH cs') = (3 * n')%nat ->
  forall k s, nth_error h' k = Some s -> not_below h1 s -> not_below h2 s ->
  exists v1 v2, lid_work S' n' (firstn (Datatypes.S k) h') == stored K1 v1 + stored K2 v2 /\ length v1 = (2 * length (g_rows g1))%nat /\ length v2 = (2 * length (g_rows g2))%nat /\
    moved_at S1 h1 (qof (st_Z s)) v1 /\ moved_at S2 h2 (qof (st_Z s)) v2.
Proof.
  intros rho1 rho2 lsolve1 lsolve2 lsolve' m1 m2 m' g1 g2 g' p1 p2 p' S1 h1 S2 h2 S' h' HR1 HR2 TP SM1 SM2 F1 F2 D1 D2 D' SD1 SD2 SD' SH1 SH2 SH' E1 E2 E' N1 N2 N'
    K1 K2 HK1 HK2 FM cs' n' HC' L' k s Hk B1 B2.
  destruct (start_good _ _ _ _ _ _ (proj1 SD') E') as (K' & _ & HK' & _).
  destruct (parts_energy rho1 rho2 lsolve1 lsolve2 lsolve' m1 m2 m' g1 g2 g' p1 p2 p' S1 h1 S2 h2 S' h' HR1 HR2 TP SM1 SM2 F1 F2 D1 D2 D' SD1 SD2 SD' SH1 SH2 SH' E1 E2 E' N1 N2 N'
    K1 K2 K' HK1 HK2 HK' s (nth_error_In _ _ Hk) B1 B2) as (v1 & v2 & W & R).
  exists v1, v2. split; [|exact R]. rewrite <- W. symmetry. apply (dir_work lsolve' m' g' p' S' h' D' SD' N' SH' E' K' cs' HK' HC' FM n' L' k s Hk).
Qed.

Lemma value_nonneg h z F v : (forall t, In t h -> 0 <= F t) -> value_at h z F v -> 0 <= v.
Proof.
  intros H [(_ & E)|(j & t & t' & H1 & H2 & Z1 & Z2 & Z3 & L)]; [rewrite E; lra|].
  pose proof (H t (nth_error_In _ _ H1)). pose proof (H t' (nth_error_In _ _ H2)). unfold on_line in L.
  assert (0 <= (z - qof (st_Z t')) * F t) by (apply Qmult_le_0_compat; lra). assert (0 <= (qof (st_Z t) - z) * F t') by (apply Qmult_le_0_compat; lra).
  destruct (Qlt_le_dec v 0) as [N|N]; [|exact N]. exfalso.
  assert (0 < (qof (st_Z t) - qof (st_Z t')) * (- v)) by (apply Qmult_lt_0_compat; lra). lra.
Qed.
Theorem parts_more : forall rho1 rho2 lsolve1 lsolve2 lsolve' m1 m2 m' g1 g2 g' p1 p2 p' S1 h1 S2 h2 S' h',
  mesh_within rho1 m1 m' g1 g' -> mesh_within rho2 m2 m' g2 g' -> two_parts rho1 rho2 g1 g2 g' ->
  same_model g1 g' p1 p' -> same_model g2 g' p2 p' -> faces_lid m1 g1 -> faces_lid m2 g2 ->
  direct_solver lsolve1 -> direct_solver lsolve2 -> direct_solver lsolve' -> sound_data m1 g1 p1 -> sound_data m2 g2 p2 -> sound_data m' g' p' ->
  starts_held m1 g1 (sp_tol p1) -> starts_held m2 g2 (sp_tol p2) -> starts_held m' g' (sp_tol p') ->
  solve lsolve1 m1 g1 p1 = Ok (S1, h1) -> solve lsolve2 m2 g2 p2 = Ok (S2, h2) -> solve lsolve' m' g' p' = Ok (S', h') ->
  numbering (length (sy_dq S1)) (sp_perm p1) -> numbering (length (sy_dq S2)) (sp_perm p2) -> numbering (length (sy_dq S')) (sp_perm p') ->
  finite_moduli m2 -> forall cs1 cs2 cs', constraint m1 g1 = Ok cs1 -> constraint m2 g2 = Ok cs2 -> constraint m' g' = Ok cs' ->
  forall n1 n2 n', length (csH cs1) = (3 * n1)%nat -> length (csH cs2) = (3 * n2)%nat -> length (csH cs') = (3 * n')%nat ->
  forall K1 K', stiffness m1 g1 (sp_lmin p1) (sp_lmax p1) (sp_coupling p1) = Ok K1 -> stiffness m' g' (sp_lmin p') (sp_lmax p') (sp_coupling p') = Ok K' ->
  forall s, In s h' -> not_below h1 s -> not_below h2 s ->
  (exists f, value_at h1 (qof (st_Z s)) (load S1 n1) f /\ f <= load S' n' s) /\
  (exists v, length v = (2 * length (g_rows g1))%nat /\ moved_at S1 h1 (qof (st_Z s)) v /\ stored K1 v <= stored K' (vals (st_u S' s))).
Proof.
  intros rho1 rho2 lsolve1 lsolve2 lsolve' m1 m2 m' g1 g2 g' p1 p2 p' S1 h1 S2 h2 S' h' HR1 HR2 TP SM1 SM2 F1 F2 D1 D2 D' SD1 SD2 SD' SH1 SH2 SH' E1 E2 E' N1 N2 N'
    FM cs1 cs2 cs' HC1 HC2 HC' n1 n2 n' L1 L2 L' K1 K' HK1 HK' s Hs B1 B2.
  destruct (start_good _ _ _ _ _ _ (proj1 SD2) E2) as (K2 & _ & HK2 & _). split.
  - destruct (parts_add rho1 rho2 lsolve1 lsolve2 lsolve' m1 m2 m' g1 g2 g' p1 p2 p' S1 h1 S2 h2 S' h' HR1 HR2 TP SM1 SM2 F1 F2 D1 D2 D' SD1 SD2 SD' SH1 SH2 SH' E1 E2 E' N1 N2 N'
      cs1 cs2 cs' HC1 HC2 HC' n1 n2 n' L1 L2 L' s 2%nat Hs B1 B2 ltac:(lia)) as (f1 & f2 & W & V1 & V2).
    exists f1. split; [exact V1|]. change (load S' n' s) with (force_sum 2 S' n' s).
    assert (P : 0 <= f2); [|lra]. apply (value_nonneg h2 (qof (st_Z s)) (force_sum 2 S2 n2) f2); [|exact V2].
    intros t Ht. apply In_nth_error in Ht. destruct Ht as (k & Hk).
    apply (dir_grows lsolve2 m2 g2 p2 S2 h2 D2 SD2 N2 SH2 E2 K2 cs2 HK2 HC2 FM n2 L2 k k t t Hk Hk (le_n k)).
  - destruct (parts_energy rho1 rho2 lsolve1 lsolve2 lsolve' m1 m2 m' g1 g2 g' p1 p2 p' S1 h1 S2 h2 S' h' HR1 HR2 TP SM1 SM2 F1 F2 D1 D2 D' SD1 SD2 SD' SH1 SH2 SH' E1 E2 E' N1 N2 N'
      K1 K2 K' HK1 HK2 HK' s Hs B1 B2) as (v1 & v2 & W & LV & _ & MV & _).
    exists v1. split; [exact LV|]. split; [exact MV|]. destruct SD2 as (NF2 & _ & _ & C2 & LO2 & _).
    pose proof (stiff_psd m2 g2 _ _ _ K2 HK2 NF2 LO2 FM v2 ltac:(lra)) as P. assert (0 <= stored K2 v2); [|lra].
    unfold stored. apply Qle_shift_div_l; lra.
Qed.
