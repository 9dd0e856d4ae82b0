(** Proofs for C109: the forces on two parts that touch nothing else add up. *)
From Coq Require Import Permutation Lia Lqa.
From Verif Require Import Num NumP ListX ListP Frames MatM NetM StackM MeshM ModelM SolverM Spec SpecNet SpecMesh SpecModel SpecSolver SpecPerm SpecMain SpecPack
  SpecStack SpecScale SpecProgress SpecRename SpecOrder SpecPart SpecApart SpecSum MeshCheckP StiffP StackP EnergyP ConstraintP SolverP SolverRunP SolverSysP SolverApiP SolverFinP ScaleP
  RenameMatP RenameDataP RenameP VtkP PartDataP PartP StackNewP MetaP TorusP PilesP MoveP PackP ApartP.
Open Scope Q_scope.

Lemma NoDup_both {A} (a b : list A) : NoDup a -> NoDup b -> (forall x, In x a -> In x b -> False) -> NoDup (a ++ b).
Proof.
  intros Ha Hb H. induction Ha as [|x a Hx Ha IH]; [exact Hb|]. cbn. constructor.
  - rewrite in_app_iff. intros [C|C]; [contradiction|]. apply (H x); [left; reflexivity|exact C].
  - apply IH. intros y Hy. apply H. right. exact Hy.
Qed.
Lemma line_sum zt zt' z (l : list nat) x y y' : (forall k, In k l -> on_line zt zt' z (x k) (y k) (y' k)) ->
  on_line zt zt' z (qsum (map x l)) (qsum (map y l)) (qsum (map y' l)).
Proof.
  unfold on_line. induction l as [|k l IH]; intros H; cbn [map qsum]; [ring|].
  pose proof (H k (or_introl eq_refl)) as A. assert (B : forall i, In i l -> (zt - zt') * x i == (z - zt') * y i + (zt - z) * y' i) by (intros; apply H; right; assumption).
  specialize (IH B). rewrite !Qmult_plus_distr_r, A, IH. ring.
Qed.
Section One.
  Variables (rho : nat -> nat) (m m' : qmat) (g g' : mesh_df).
  Hypothesis HR : mesh_within rho m m' g g'.
  Variables (l1 l2 : option Q) (cp : Q) (K' : ncoo) (cs cs' : csys).
  Hypothesis HK' : stiffness m' g' l1 l2 cp = Ok K'.
  Hypothesis HC : constraint m g = Ok cs.
  Hypothesis HC' : constraint m' g' = Ok cs'.
  Hypothesis NF : ~ flag_set (g_attrs g).
  Hypothesis NF' : ~ flag_set (g_attrs g').
  Lemma part_value S S' h s a : (a < 3)%nat -> part_follows rho g g' S S' h s ->
    value_at h (qof (st_Z s)) (force_sum a S (length (cons_pairs (g_rows g))))
      (qsum (map (fun k => nth (3 * kap rho g g' k + a) (vals (st_f S' s)) 0) (seq 0 (length (cons_pairs (g_rows g)))))).
  Proof.
    intros La PF.
    assert (RK : forall k, (k < length (cons_pairs (g_rows g)))%nat -> exists i j, contact_rank g k i j /\ contact_rank g' (kap rho g g' k) (rho i) (rho j)).
    { intros k L. destruct (nth_error (cons_pairs (g_rows g)) k) as [[i j]|] eqn:E; [|apply nth_error_None in E; lia]. exists i, j.
      split; [apply (rank_pair m g cs HC NF), E|]. apply (rank_pair m' g' cs' HC' NF'). apply (kap_at rho m m' g g' HR _ _ _ K' cs cs' HK' HC HC' NF NF' k i j E). }
    destruct PF as [(T & _ & B)|(j & t & t' & H1 & H2 & Z1 & Z2 & Z3 & _ & B)]; [left|right].
    - split; [exact T|]. apply qsum_zeros. intros x Hx. apply in_map_iff in Hx. destruct Hx as (k & <- & Hk). apply in_seq in Hk.
      destruct (RK k ltac:(lia)) as (i & j & A1 & A2). exact (B _ _ _ _ _ A1 A2 La).
    - exists j, t, t'. repeat (split; [assumption|]). apply line_sum. intros k Hk. apply in_seq in Hk.
      destruct (RK k ltac:(lia)) as (i & i2 & A1 & A2). exact (B _ _ _ _ _ A1 A2 La).
  Qed.
  Lemma part_onto k' : (k' < length (cons_pairs (g_rows g')))%nat -> SpecPart.found rho g (fst (nth k' (cons_pairs (g_rows g')) (0, 0)%nat)) ->
    exists k, (k < length (cons_pairs (g_rows g)))%nat /\ kap rho g g' k = k'.
  Proof.
    intros L FI. destruct (nth_error (cons_pairs (g_rows g')) k') as [[i' j']|] eqn:E; [|apply nth_error_None in E; lia].
    rewrite (nth_of (cons_pairs (g_rows g'))), E in FI. cbn [fst] in FI.
    assert (CT : contact g' i' j') by (apply (contact_pair m' g' cs' HC' NF'); apply (nth_error_In _ _ E)).
    pose proof HR as (_ & _ & _ & _ & _ & _ & AP). pose proof (proj1 (AP i' j' CT) FI) as FJ. destruct FI as (i & Li & ->). destruct FJ as (j & Lj & ->).
    pose proof (nth_error_In _ _ E) as HI. apply (pairs_in rho m m' g g' HR cs cs' HC HC' NF NF' i j Li Lj) in HI. apply In_nth_error in HI. destruct HI as (k & Hk).
    exists k. split; [apply nth_error_Some; congruence|]. symmetry. apply (kap_any rho m m' g g' HR _ _ _ K' cs cs' HK' HC HC' NF NF' k k' i j Hk E).
  Qed.
  Lemma part_first k : (k < length (cons_pairs (g_rows g)))%nat -> (kap rho g g' k < length (cons_pairs (g_rows g')))%nat /\
    SpecPart.found rho g (fst (nth (kap rho g g' k) (cons_pairs (g_rows g')) (0, 0)%nat)).
  Proof.
    intros L. split; [apply (kap_lt rho m m' g g' HR _ _ _ K' cs cs' HK' HC HC' NF NF' k L)|].
    destruct (nth_error (cons_pairs (g_rows g)) k) as [[i j]|] eqn:E; [|apply nth_error_None in E; lia].
    rewrite (nth_of (cons_pairs (g_rows g'))), (kap_at rho m m' g g' HR _ _ _ K' cs cs' HK' HC HC' NF NF' k i j E). cbn [fst]. exists i. split; [|reflexivity].
    apply (pair_bounds m g cs HC NF i j (nth_error_In _ _ E)).
  Qed.
End One.

Section Two.
  Variables (rho1 rho2 : nat -> nat) (m1 m2 m' : qmat) (g1 g2 g' : mesh_df).
  Hypothesis HR1 : mesh_within rho1 m1 m' g1 g'.
  Hypothesis HR2 : mesh_within rho2 m2 m' g2 g'.
  Hypothesis TP : two_parts rho1 rho2 g1 g2 g'.
  Variables (l1 l1' l2 l2' l l' : option Q) (c1 c2 c : Q) (K1 K2 K' : ncoo) (cs1 cs2 cs' : csys).
  Hypothesis HK1 : stiffness m1 g1 l1 l1' c1 = Ok K1.
  Hypothesis HK2 : stiffness m2 g2 l2 l2' c2 = Ok K2.
  Hypothesis HK' : stiffness m' g' l l' c = Ok K'.
  Hypothesis HC1 : constraint m1 g1 = Ok cs1.
  Hypothesis HC2 : constraint m2 g2 = Ok cs2.
  Hypothesis HC' : constraint m' g' = Ok cs'.
  Hypothesis NF1 : ~ flag_set (g_attrs g1).
  Hypothesis NF2 : ~ flag_set (g_attrs g2).
  Hypothesis NF' : ~ flag_set (g_attrs g').
  Lemma ranks_split : Permutation (map (kap rho1 g1 g') (seq 0 (length (cons_pairs (g_rows g1)))) ++ map (kap rho2 g2 g') (seq 0 (length (cons_pairs (g_rows g2)))))
    (seq 0 (length (cons_pairs (g_rows g')))).
  Proof.
    assert (INJ : forall (f : nat -> nat) n, (forall k k2, (k < n)%nat -> (k2 < n)%nat -> f k = f k2 -> k = k2) -> NoDup (map f (seq 0 n))).
    { intros f n I. assert (X : forall q, NoDup q -> (forall x, In x q -> (x < n)%nat) -> NoDup (map f q)).
      { induction 1 as [|x q Hx N IH]; intros Hq; cbn [map]; constructor; [|apply IH; intros; apply Hq; right; assumption].
        intros Hin. apply in_map_iff in Hin. destruct Hin as (y & E & Hy). apply I in E; [subst y; contradiction|apply Hq; right; exact Hy|apply Hq; left; reflexivity]. }
      apply X; [apply seq_NoDup|]. intros x Hx. apply in_seq in Hx. lia. }
    apply NoDup_Permutation; [|apply seq_NoDup|].
    - apply NoDup_both.
      + apply INJ. apply (kap_inj rho1 m1 m' g1 g' HR1 _ _ _ _ _ _ K1 K' cs1 cs' HK1 HK' HC1 HC' NF1 NF').
      + apply INJ. apply (kap_inj rho2 m2 m' g2 g' HR2 _ _ _ _ _ _ K2 K' cs2 cs' HK2 HK' HC2 HC' NF2 NF').
      + intros x H1 H2. apply in_map_iff in H1. apply in_map_iff in H2. destruct H1 as (k1 & E1 & I1). destruct H2 as (k2 & E2 & I2). apply in_seq in I1. apply in_seq in I2.
        destruct (part_first rho1 m1 m' g1 g' HR1 _ _ _ K' cs1 cs' HK' HC1 HC' NF1 NF' k1 ltac:(lia)) as [_ F1].
        destruct (part_first rho2 m2 m' g2 g' HR2 _ _ _ K' cs2 cs' HK' HC2 HC' NF2 NF' k2 ltac:(lia)) as [_ F2].
        rewrite E1 in F1. rewrite E2 in F2. exact (proj2 TP _ F1 F2).
    - intros k'. rewrite in_app_iff, !in_map_iff. split.
      + intros [(k & <- & I)|(k & <- & I)]; apply in_seq in I; apply in_seq; (split; [lia|]).
        * apply (part_first rho1 m1 m' g1 g' HR1 _ _ _ K' cs1 cs' HK' HC1 HC' NF1 NF' k). lia.
        * apply (part_first rho2 m2 m' g2 g' HR2 _ _ _ K' cs2 cs' HK' HC2 HC' NF2 NF' k). lia.
      + intros I. apply in_seq in I. assert (L : (k' < length (cons_pairs (g_rows g')))%nat) by lia.
        destruct (nth_error (cons_pairs (g_rows g')) k') as [[i' j']|] eqn:E; [|apply nth_error_None in E; lia].
        destruct (pair_bounds m' g' cs' HC' NF' i' j' (nth_error_In _ _ E)) as [Li _].
        assert (EF : fst (nth k' (cons_pairs (g_rows g')) (0, 0)%nat) = i') by (rewrite (nth_of (cons_pairs (g_rows g'))), E; reflexivity).
        destruct (proj1 TP i' Li) as [FI|FI]; rewrite <- EF in FI; [left|right].
        * destruct (part_onto rho1 m1 m' g1 g' HR1 _ _ _ K' cs1 cs' HK' HC1 HC' NF1 NF' k' L FI) as (k & Lk & Ek). exists k. split; [exact Ek|apply in_seq; lia].
        * destruct (part_onto rho2 m2 m' g2 g' HR2 _ _ _ K' cs2 cs' HK' HC2 HC' NF2 NF' k' L FI) as (k & Lk & Ek). exists k. split; [exact Ek|apply in_seq; lia].
  Qed.
  Theorem sums_add S1 S2 S' h1 h2 s a : (a < 3)%nat -> part_follows rho1 g1 g' S1 S' h1 s -> part_follows rho2 g2 g' S2 S' h2 s ->
    forall n1 n2 n', length (csH cs1) = (3 * n1)%nat -> length (csH cs2) = (3 * n2)%nat -> length (csH cs') = (3 * n')%nat ->
    exists v1 v2, force_sum a S' n' s == v1 + v2 /\ value_at h1 (qof (st_Z s)) (force_sum a S1 n1) v1 /\ value_at h2 (qof (st_Z s)) (force_sum a S2 n2) v2.
  Proof.
    intros La P1 P2 n1 n2 n' E1 E2 E'. rewrite (csH_len m1 g1 cs1 HC1) in E1. rewrite (csH_len m2 g2 cs2 HC2) in E2. rewrite (csH_len m' g' cs' HC') in E'.
    assert (n1 = length (cons_pairs (g_rows g1))) by lia. assert (n2 = length (cons_pairs (g_rows g2))) by lia. assert (n' = length (cons_pairs (g_rows g'))) by lia. subst n1 n2 n'.
    eexists _, _. split; [|split; [apply (part_value rho1 m1 m' g1 g' HR1 _ _ _ K' cs1 cs' HK' HC1 HC' NF1 NF' S1 S' h1 s a La P1)|
      apply (part_value rho2 m2 m' g2 g' HR2 _ _ _ K' cs2 cs' HK' HC2 HC' NF2 NF' S2 S' h2 s a La P2)]].
    unfold force_sum. pose (f := fun k => nth (3 * k + a) (vals (st_f S' s)) 0).
    change (qsum (map f (seq 0 (length (cons_pairs (g_rows g'))))) ==
      qsum (map (fun k => f (kap rho1 g1 g' k)) (seq 0 (length (cons_pairs (g_rows g1))))) + qsum (map (fun k => f (kap rho2 g2 g' k)) (seq 0 (length (cons_pairs (g_rows g2)))))).
    rewrite <- (map_map (kap rho1 g1 g') f), <- (map_map (kap rho2 g2 g') f), <- qsum_app, <- map_app. apply qsum_perm, Permutation_map, Permutation_sym, ranks_split.
  Qed.
End Two.

Theorem parts_add : forall rho1 rho2 lsolve1 lsolve2 lsolve' m1 m2 m' g1 g2 g' p1 p2 p' S1 h1 S2 h2 S' h',
  mesh_within rho1 m1 m' g1 g' -> mesh_within rho2 m2 m' g2 g' -> two_parts rho1 rho2 g1 g2 g' ->
  same_model g1 g' p1 p' -> same_model g2 g' p2 p' -> faces_lid m1 g1 -> faces_lid m2 g2 ->
  direct_solver lsolve1 -> direct_solver lsolve2 -> direct_solver lsolve' -> sound_data m1 g1 p1 -> sound_data m2 g2 p2 -> sound_data m' g' p' ->
  starts_held m1 g1 (sp_tol p1) -> starts_held m2 g2 (sp_tol p2) -> starts_held m' g' (sp_tol p') ->
  solve lsolve1 m1 g1 p1 = Ok (S1, h1) -> solve lsolve2 m2 g2 p2 = Ok (S2, h2) -> solve lsolve' m' g' p' = Ok (S', h') ->
  numbering (length (sy_dq S1)) (sp_perm p1) -> numbering (length (sy_dq S2)) (sp_perm p2) -> numbering (length (sy_dq S')) (sp_perm p') ->
  forall cs1 cs2 cs', constraint m1 g1 = Ok cs1 -> constraint m2 g2 = Ok cs2 -> constraint m' g' = Ok cs' ->
  forall n1 n2 n', length (csH cs1) = (3 * n1)%nat -> length (csH cs2) = (3 * n2)%nat -> length (csH cs') = (3 * n')%nat ->
  forall s a, In s h' -> not_below h1 s -> not_below h2 s -> (a < 3)%nat ->
  exists v1 v2, force_sum a S' n' s == v1 + v2 /\ value_at h1 (qof (st_Z s)) (force_sum a S1 n1) v1 /\ value_at h2 (qof (st_Z s)) (force_sum a S2 n2) v2.
Proof.
  intros rho1 rho2 lsolve1 lsolve2 lsolve' m1 m2 m' g1 g2 g' p1 p2 p' S1 h1 S2 h2 S' h' HR1 HR2 TP SM1 SM2 F1 F2 D1 D2 D' SD1 SD2 SD' SH1 SH2 SH' E1 E2 E' N1 N2 N'
    cs1 cs2 cs' HC1 HC2 HC' n1 n2 n' L1 L2 L' s a Hs B1 B2 La.
  pose proof (proj1 SD1) as NF1. pose proof (proj1 SD2) as NF2. pose proof (proj1 SD') as NF'.
  destruct (start_good _ _ _ _ _ _ NF1 E1) as (K1 & _ & HK1 & _). destruct (start_good _ _ _ _ _ _ NF2 E2) as (K2 & _ & HK2 & _). destruct (start_good _ _ _ _ _ _ NF' E') as (K' & _ & HK' & _).
  apply (sums_add rho1 rho2 m1 m2 m' g1 g2 g' HR1 HR2 TP _ _ _ _ _ _ _ _ _ K1 K2 K' cs1 cs2 cs' HK1 HK2 HK' HC1 HC2 HC' NF1 NF2 NF' S1 S2 S' h1 h2 s a La); auto.
  - apply (part_direct rho1 lsolve1 lsolve' m1 m' g1 g' p1 p' S1 h1 S' h'); auto.
  - apply (part_direct rho2 lsolve2 lsolve' m2 m' g2 g' p2 p' S2 h2 S' h'); auto.
Qed.

Theorem mats_add : forall linprog1 linprog2 linprog' lsolve1 lsolve2 lsolve' e1 e2 per m1 m2 m' t1 t2 t',
  right_linprog linprog1 -> right_linprog linprog2 -> right_linprog linprog' -> direct_solver lsolve1 -> direct_solver lsolve2 -> direct_solver lsolve' ->
  net_new m1 per None = Ok t1 -> net_new m2 per None = Ok t2 -> net_new m' per None = Ok t' ->
  set_apart e1 per t1 t' m1 m' -> set_apart e2 per t2 t' m2 m' -> two_mats e1 e2 m1 m2 m' ->
  forall thr p1 p2 p' z1 z2 z', ready m1 thr p1 z1 -> ready m2 thr p2 z2 -> ready m' thr p' z' ->
  forall st1 st2 st' k1 k2 k' g1 g2 g' S1 S2 S' h1 h2 h',
  stack_new linprog1 m1 t1 thr = Ok (st1, k1) -> stack_new linprog2 m2 t2 thr = Ok (st2, k2) -> stack_new linprog' m' t' thr = Ok (st', k') ->
  mesh_new st1 = Ok g1 -> mesh_new st2 = Ok g2 -> mesh_new st' = Ok g' -> no_ties g' -> same_model g1 g' p1 p' -> same_model g2 g' p2 p' ->
  solve lsolve1 k1 g1 p1 = Ok (S1, h1) -> solve lsolve2 k2 g2 p2 = Ok (S2, h2) -> solve lsolve' k' g' p' = Ok (S', h') ->
  forall cs1 cs2 cs', constraint k1 g1 = Ok cs1 -> constraint k2 g2 = Ok cs2 -> constraint k' g' = Ok cs' ->
  forall n1 n2 n', length (csH cs1) = (3 * n1)%nat -> length (csH cs2) = (3 * n2)%nat -> length (csH cs') = (3 * n')%nat ->
  forall s a, In s h' -> not_below h1 s -> not_below h2 s -> (a < 3)%nat ->
  exists v1 v2, force_sum a S' n' s == v1 + v2 /\ value_at h1 (qof (st_Z s)) (force_sum a S1 n1) v1 /\ value_at h2 (qof (st_Z s)) (force_sum a S2 n2) v2.
Proof.
  intros linprog1 linprog2 linprog' lsolve1 lsolve2 lsolve' e1 e2 per m1 m2 m' t1 t2 t' LP1 LP2 LP' D1 D2 D' Ht1 Ht2 Ht' A1 A2 TM thr p1 p2 p' z1 z2 z' RD1 RD2 RD'
    st1 st2 st' k1 k2 k' g1 g2 g' S1 S2 S' h1 h2 h' R1 R2 R' G1 G2 G' NT SM1 SM2 E1 E2 E' cs1 cs2 cs' HC1 HC2 HC' n1 n2 n' L1 L2 L' s a Hs B1 B2 La.
  destruct (apart_solve linprog1 linprog' lsolve1 lsolve' e1 per m1 m' t1 t' LP1 LP' D1 D' Ht1 Ht' A1 thr p1 p' z1 z' RD1 RD' st1 st' k1 k' g1 g' S1 S' h1 h' R1 R' G1 G' NT SM1 E1 E')
    as (rho1 & HR1 & PN1 & W1 & _).
  destruct (apart_solve linprog2 linprog' lsolve2 lsolve' e2 per m2 m' t2 t' LP2 LP' D2 D' Ht2 Ht' A2 thr p2 p' z2 z' RD2 RD' st2 st' k2 k' g2 g' S2 S' h2 h' R2 R' G2 G' NT SM2 E2 E')
    as (rho2 & HR2 & PN2 & W2 & _).
  pose proof (proj1 (pk_sound linprog1 lsolve1 LP1 D1 m1 per thr p1 z1 RD1 t1 st1 k1 g1 Ht1 R1 G1)) as NF1.
  pose proof (proj1 (pk_sound linprog2 lsolve2 LP2 D2 m2 per thr p2 z2 RD2 t2 st2 k2 g2 Ht2 R2 G2)) as NF2.
  pose proof (proj1 (pk_sound linprog' lsolve' LP' D' m' per thr p' z' RD' t' st' k' g' Ht' R' G')) as NF'.
  destruct (start_good _ _ _ _ _ _ NF1 E1) as (K1 & _ & HK1 & _). destruct (start_good _ _ _ _ _ _ NF2 E2) as (K2 & _ & HK2 & _). destruct (start_good _ _ _ _ _ _ NF' E') as (K' & _ & HK' & _).
  assert (TP : two_parts rho1 rho2 g1 g2 g').
  { split.
    - intros i' L. destruct (OrderP.node_ex _ _ L) as (d' & Hd'). destruct (thick_ex k' g' cs' HC' _ _ Hd') as (h & (f & Hf & _) & _).
      destruct (built_inv linprog' m' per t' Ht' (LP' _ _ _ Ht') _ _ _ R') as (_ & _ & _ & SB & _).
      destruct (same_fiber k' m' (nf d') f (same_sym _ _ SB) Hf) as (f0 & Hf0 & _).
      destruct (proj1 TM _ _ Hf0) as [M|M]; [left; apply (proj2 PN1 i' d' Hd'), M|right; apply (proj2 PN2 i' d' Hd'), M].
    - intros i' F1 F2. assert (L : (i' < length (g_rows g'))%nat) by (destruct F1 as (i & L & ->); apply (proj1 HR1 i L)).
      destruct (OrderP.node_ex _ _ L) as (d' & Hd'). apply (proj2 TM (nf d')); [apply (proj2 PN1 i' d' Hd'), F1|apply (proj2 PN2 i' d' Hd'), F2]. }
  apply (sums_add rho1 rho2 k1 k2 k' g1 g2 g' HR1 HR2 TP _ _ _ _ _ _ _ _ _ K1 K2 K' cs1 cs2 cs' HK1 HK2 HK' HC1 HC2 HC' NF1 NF2 NF' S1 S2 S' h1 h2 s a La); auto.
Qed.
