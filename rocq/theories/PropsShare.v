(** Property theorems: the energies of two parts that touch nothing else add up (C110). *)
From Coq Require Import Lia Lqa.
From Verif Require Import Num NumP ListX Frames MatM NetM StackM MeshM ModelM SolverM Spec SpecNet SpecStack SpecMesh SpecModel SpecSolver SpecPerm SpecTorus SpecPiles SpecPack SpecScale SpecMain SpecEnergy SpecStiffen
  SpecProgress SpecRename SpecOrder SpecPart SpecApart SpecSum SpecShare CheckP ScriptsP ConstraintP RenameX PartX SolverFinP RenameP SumP ShareP PackP MainP VtkP PropsStack PropsMesh PropsModel PropsSolver PropsMain PropsProgress PropsRename PropsOrder PropsPart PropsApart PropsSum GaussX.
Open Scope Q_scope.

(** ** C110 *)
(** the energy stored in the whole is the sum of those that the two parts, compressed alone, store at the same height of the lid *)
Theorem C110_parts : forall rho1 rho2 lsolve1 lsolve2 lsolve' m1 m2 m' g1 g2 g' p1 p2 p' S1 h1 S2 h2 S' h',
  mesh_within rho1 m1 m' g1 g' -> mesh_within rho2 m2 m' g2 g' -> two_parts rho1 rho2 g1 g2 g' ->
  same_model g1 g' p1 p' -> same_model g2 g' p2 p' -> faces_lid m1 g1 -> faces_lid m2 g2 ->
  direct_solver lsolve1 -> direct_solver lsolve2 -> direct_solver lsolve' -> sound_data m1 g1 p1 -> sound_data m2 g2 p2 -> sound_data m' g' p' ->
  starts_held m1 g1 (sp_tol p1) -> starts_held m2 g2 (sp_tol p2) -> starts_held m' g' (sp_tol p') ->
  solve lsolve1 m1 g1 p1 = Ok (S1, h1) -> solve lsolve2 m2 g2 p2 = Ok (S2, h2) -> solve lsolve' m' g' p' = Ok (S', h') ->
  numbering (length (sy_dq S1)) (sp_perm p1) -> numbering (length (sy_dq S2)) (sp_perm p2) -> numbering (length (sy_dq S')) (sp_perm p') ->
  forall K1 K2 K', stiffness m1 g1 (sp_lmin p1) (sp_lmax p1) (sp_coupling p1) = Ok K1 -> stiffness m2 g2 (sp_lmin p2) (sp_lmax p2) (sp_coupling p2) = Ok K2 ->
  stiffness m' g' (sp_lmin p') (sp_lmax p') (sp_coupling p') = Ok K' ->
  forall s, In s h' -> not_below h1 s -> not_below h2 s ->
  exists v1 v2, stored K' (vals (st_u S' s)) == stored K1 v1 + stored K2 v2 /\ length v1 = (2 * length (g_rows g1))%nat /\ length v2 = (2 * length (g_rows g2))%nat /\
    moved_at S1 h1 (qof (st_Z s)) v1 /\ moved_at S2 h2 (qof (st_Z s)) v2.
Proof. exact parts_energy. Qed.
(** the same from the mats *)
Theorem C110_mats : forall linprog1 linprog2 linprog' lsolve1 lsolve2 lsolve' e1 e2 per m1 m2 m' t1 t2 t',
  right_linprog linprog1 -> right_linprog linprog2 -> right_linprog linprog' -> direct_solver lsolve1 -> direct_solver lsolve2 -> direct_solver lsolve' ->
  net_new m1 per None = Ok t1 -> net_new m2 per None = Ok t2 -> net_new m' per None = Ok t' ->
  set_apart e1 per t1 t' m1 m' -> set_apart e2 per t2 t' m2 m' -> two_mats e1 e2 m1 m2 m' ->
  forall thr p1 p2 p' z1 z2 z', ready m1 thr p1 z1 -> ready m2 thr p2 z2 -> ready m' thr p' z' ->
  forall st1 st2 st' k1 k2 k' g1 g2 g' S1 S2 S' h1 h2 h',
  stack_new linprog1 m1 t1 thr = Ok (st1, k1) -> stack_new linprog2 m2 t2 thr = Ok (st2, k2) -> stack_new linprog' m' t' thr = Ok (st', k') ->
  mesh_new st1 = Ok g1 -> mesh_new st2 = Ok g2 -> mesh_new st' = Ok g' -> no_ties g' -> same_model g1 g' p1 p' -> same_model g2 g' p2 p' ->
  solve lsolve1 k1 g1 p1 = Ok (S1, h1) -> solve lsolve2 k2 g2 p2 = Ok (S2, h2) -> solve lsolve' k' g' p' = Ok (S', h') ->
  forall K1 K2 K', stiffness k1 g1 (sp_lmin p1) (sp_lmax p1) (sp_coupling p1) = Ok K1 -> stiffness k2 g2 (sp_lmin p2) (sp_lmax p2) (sp_coupling p2) = Ok K2 ->
  stiffness k' g' (sp_lmin p') (sp_lmax p') (sp_coupling p') = Ok K' ->
  forall s, In s h' -> not_below h1 s -> not_below h2 s ->
  exists v1 v2, stored K' (vals (st_u S' s)) == stored K1 v1 + stored K2 v2 /\ length v1 = (2 * length (g_rows g1))%nat /\ length v2 = (2 * length (g_rows g2))%nat /\
    moved_at S1 h1 (qof (st_Z s)) v1 /\ moved_at S2 h2 (qof (st_Z s)) v2.
Proof. exact mats_energy. Qed.
(** with C80: the work of the lid on the whole is shared between the two parts *)
Theorem C110_work : forall rho1 rho2 lsolve1 lsolve2 lsolve' m1 m2 m' g1 g2 g' p1 p2 p' S1 h1 S2 h2 S' h',
  mesh_within rho1 m1 m' g1 g' -> mesh_within rho2 m2 m' g2 g' -> two_parts rho1 rho2 g1 g2 g' ->
  same_model g1 g' p1 p' -> same_model g2 g' p2 p' -> faces_lid m1 g1 -> faces_lid m2 g2 ->
  direct_solver lsolve1 -> direct_solver lsolve2 -> direct_solver lsolve' -> sound_data m1 g1 p1 -> sound_data m2 g2 p2 -> sound_data m' g' p' ->
  starts_held m1 g1 (sp_tol p1) -> starts_held m2 g2 (sp_tol p2) -> starts_held m' g' (sp_tol p') ->
  solve lsolve1 m1 g1 p1 = Ok (S1, h1) -> solve lsolve2 m2 g2 p2 = Ok (S2, h2) -> solve lsolve' m' g' p' = Ok (S', h') ->
  numbering (length (sy_dq S1)) (sp_perm p1) -> numbering (length (sy_dq S2)) (sp_perm p2) -> numbering (length (sy_dq S')) (sp_perm p') ->
  forall K1 K2, stiffness m1 g1 (sp_lmin p1) (sp_lmax p1) (sp_coupling p1) = Ok K1 -> stiffness m2 g2 (sp_lmin p2) (sp_lmax p2) (sp_coupling p2) = Ok K2 ->
  finite_moduli m' -> forall cs' n', constraint m' g' = Ok cs' -> length (csH cs') = (3 * n')%nat ->
  forall k s, nth_error h' k = Some s -> not_below h1 s -> not_below h2 s ->
  exists v1 v2, lid_work S' n' (firstn (Datatypes.S k) h') == stored K1 v1 + stored K2 v2 /\ length v1 = (2 * length (g_rows g1))%nat /\ length v2 = (2 * length (g_rows g2))%nat /\
    moved_at S1 h1 (qof (st_Z s)) v1 /\ moved_at S2 h2 (qof (st_Z s)) v2.
Proof. exact parts_work. Qed.
(** so a part alone never pushes the lid harder, nor stores more energy, than the whole *)
Theorem C110_more : forall rho1 rho2 lsolve1 lsolve2 lsolve' m1 m2 m' g1 g2 g' p1 p2 p' S1 h1 S2 h2 S' h',
  mesh_within rho1 m1 m' g1 g' -> mesh_within rho2 m2 m' g2 g' -> two_parts rho1 rho2 g1 g2 g' ->
  same_model g1 g' p1 p' -> same_model g2 g' p2 p' -> faces_lid m1 g1 -> faces_lid m2 g2 ->
  direct_solver lsolve1 -> direct_solver lsolve2 -> direct_solver lsolve' -> sound_data m1 g1 p1 -> sound_data m2 g2 p2 -> sound_data m' g' p' ->
  starts_held m1 g1 (sp_tol p1) -> starts_held m2 g2 (sp_tol p2) -> starts_held m' g' (sp_tol p') ->
  solve lsolve1 m1 g1 p1 = Ok (S1, h1) -> solve lsolve2 m2 g2 p2 = Ok (S2, h2) -> solve lsolve' m' g' p' = Ok (S', h') ->
  numbering (length (sy_dq S1)) (sp_perm p1) -> numbering (length (sy_dq S2)) (sp_perm p2) -> numbering (length (sy_dq S')) (sp_perm p') ->
  finite_moduli m2 -> forall cs1 cs2 cs', constraint m1 g1 = Ok cs1 -> constraint m2 g2 = Ok cs2 -> constraint m' g' = Ok cs' ->
  forall n1 n2 n', length (csH cs1) = (3 * n1)%nat -> length (csH cs2) = (3 * n2)%nat -> length (csH cs') = (3 * n')%nat ->
  forall K1 K', stiffness m1 g1 (sp_lmin p1) (sp_lmax p1) (sp_coupling p1) = Ok K1 -> stiffness m' g' (sp_lmin p') (sp_lmax p') (sp_coupling p') = Ok K' ->
  forall s, In s h' -> not_below h1 s -> not_below h2 s ->
  (exists f, value_at h1 (qof (st_Z s)) (load S1 n1) f /\ f <= load S' n' s) /\
  (exists v, length v = (2 * length (g_rows g1))%nat /\ moved_at S1 h1 (qof (st_Z s)) v /\ stored K1 v <= stored K' (vals (st_u S' s))).
Proof. exact parts_more. Qed.
Print Assumptions C110_more.
Print Assumptions C110_parts.
Print Assumptions C110_mats.
Print Assumptions C110_work.

(** ** example: the crossed fibers of C109 *)
Lemma ex_share_stiff lsolve p m S h : ex_crosses m -> solve lsolve (ex_kof m) (ex_gof m) p = Ok (S, h) ->
  exists K, stiffness (ex_kof m) (ex_gof m) (sp_lmin p) (sp_lmax p) (sp_coupling p) = Ok K.
Proof.
  intros HM E. assert (NF : ~ flag_set (g_attrs (ex_gof m))) by (destruct HM as [-> | [-> | ->]]; vm_compute; discriminate).
  destruct (start_good _ _ _ _ _ _ NF E) as (K & _ & HK & _). exists K. exact HK.
Qed.
Lemma ex_two_mats : two_mats (fun i => i + 2)%Z (fun i => i + 0)%Z ex_lo0 ex_hi0 ex_sum0.
Proof.
  destruct (ex_set_apart_of (fun i => i + 2)%Z ex_lo0 2%Z (or_introl (conj eq_refl eq_refl)) (fun i => eq_refl)) as [_ J1].
  destruct (ex_set_apart_of (fun i => i + 0)%Z ex_hi0 0%Z (or_intror (conj eq_refl eq_refl)) (fun i => eq_refl)) as [_ J2].
  split; [|intros j X1 X2; apply J1 in X1; apply J2 in X2; lia]. intros j f [L E].
  assert (Z.to_nat j < 4)%nat by (change 4%nat with (length (q_rows ex_sum0)); apply nth_error_Some; congruence).
  destruct (Z.lt_ge_cases j 2); [right; apply J2; lia|left; apply J1; lia].
Qed.
(** their meshes meet the hypotheses of C109_parts, C110_parts, C110_work and C110_more *)
Example ex_share_meets r c : c * c < 1 -> (exists rho1 rho2, mesh_within rho1 (ex_kof ex_lo0) (ex_kof ex_sum0) (ex_gof ex_lo0) (ex_gof ex_sum0) /\
    mesh_within rho2 (ex_kof ex_hi0) (ex_kof ex_sum0) (ex_gof ex_hi0) (ex_gof ex_sum0) /\ two_parts rho1 rho2 (ex_gof ex_lo0) (ex_gof ex_hi0) (ex_gof ex_sum0)) /\
  forall m, ex_crosses m -> faces_lid (ex_kof m) (ex_gof m) /\ sound_data (ex_kof m) (ex_gof m) (ex_pt r c) /\ starts_held (ex_kof m) (ex_gof m) (sp_tol (ex_pt r c)) /\ finite_moduli (ex_kof m).
Proof.
  intros Hc. assert (C1 : ex_crosses ex_lo0) by (left; reflexivity). assert (C2 : ex_crosses ex_hi0) by (right; left; reflexivity). assert (C3 : ex_crosses ex_sum0) by (right; right; reflexivity).
  assert (FL : forall m, ex_crosses m -> all_in_plane m) by (intros m HM; apply (ex_sum_ready r c m Hc HM)). split.
  - destruct (ex_cross_made _ C1) as (N1 & T1 & M1 & HC1). destruct (ex_cross_made _ C2) as (N2 & T2 & M2 & HC2). destruct (ex_cross_made _ C3) as (N3 & T3 & M3 & HC3).
    destruct (ex_set_apart_of (fun i => i + 2)%Z ex_lo0 2%Z (or_introl (conj eq_refl eq_refl)) (fun i => eq_refl)) as [A1 _].
    destruct (ex_set_apart_of (fun i => i + 0)%Z ex_hi0 0%Z (or_intror (conj eq_refl eq_refl)) (fun i => eq_refl)) as [A2 _].
    destruct (C108_mesh ex_greedy ex_greedy _ false _ _ _ _ A1 (FL _ C3) N1 N3 (ex_greedy_right _ _ _ N1) (ex_greedy_right _ _ _ N3) None _ _ _ _ T1 T3 _ _ M1 M3 ex_sum_ties) as (rho1 & R1 & P1).
    destruct (C108_mesh ex_greedy ex_greedy _ false _ _ _ _ A2 (FL _ C3) N2 N3 (ex_greedy_right _ _ _ N2) (ex_greedy_right _ _ _ N3) None _ _ _ _ T2 T3 _ _ M2 M3 ex_sum_ties) as (rho2 & R2 & P2).
    exists rho1, rho2. split; [exact R1|]. split; [exact R2|].
    exact (mats_parts ex_greedy false _ _ _ _ _ _ ex_greedy_right N3 ex_two_mats None _ _ _ _ T3 HC3 rho1 rho2 _ _ _ R1 P1 P2).
  - intros m HM. destruct (ex_cross_made m HM) as (N & T & M & HC). split; [|split; [|split]].
    + exact (C107_faces ex_greedy m false _ None _ _ _ _ N (ex_greedy_right _ _ _ N) (FL m HM) T M HC).
    + exact (pk_sound ex_greedy gauss ex_greedy_right ex_gauss_direct m false None (ex_pt r c) None (ex_sum_ready r c m Hc HM) _ _ _ _ N T M).
    + exact (pk_held ex_greedy ex_greedy_right m false None (ex_pt r c) None (ex_sum_ready r c m Hc HM) _ _ _ _ N T M).
    + destruct HM as [-> | [-> | ->]]; intros f Hf; vm_compute in Hf; repeat (destruct Hf as [<-|Hf]; [do 2 eexists; split; reflexivity|]); destruct Hf.
Qed.
(** the four fibers store the energy of the thick ones alone, then the sum of both *)
Example ex_share_runs lsolve r1 r2 r' c : direct_solver lsolve -> c * c < 1 -> exists S1 h1 S2 h2 S' h' K1 K2 K',
  solve lsolve (ex_kof ex_lo0) (ex_gof ex_lo0) (ex_pt r1 c) = Ok (S1, h1) /\ solve lsolve (ex_kof ex_hi0) (ex_gof ex_hi0) (ex_pt r2 c) = Ok (S2, h2) /\
  solve lsolve (ex_kof ex_sum0) (ex_gof ex_sum0) (ex_pt r' c) = Ok (S', h') /\
  stiffness (ex_kof ex_lo0) (ex_gof ex_lo0) (Some (1 # 100)) None c = Ok K1 /\ stiffness (ex_kof ex_hi0) (ex_gof ex_hi0) (Some (1 # 100)) None c = Ok K2 /\
  stiffness (ex_kof ex_sum0) (ex_gof ex_sum0) (Some (1 # 100)) None c = Ok K' /\
  forall s, In s h' -> not_below h1 s -> not_below h2 s -> exists v1 v2, stored K' (vals (st_u S' s)) == stored K1 v1 + stored K2 v2 /\
    length v1 = (2 * length (g_rows (ex_gof ex_lo0)))%nat /\ length v2 = (2 * length (g_rows (ex_gof ex_hi0)))%nat /\
    moved_at S1 h1 (qof (st_Z s)) v1 /\ moved_at S2 h2 (qof (st_Z s)) v2.
Proof.
  intros D Hc. assert (C1 : ex_crosses ex_lo0) by (left; reflexivity). assert (C2 : ex_crosses ex_hi0) by (right; left; reflexivity). assert (C3 : ex_crosses ex_sum0) by (right; right; reflexivity).
  destruct (ex_cross_total lsolve (ex_pt r1 c) _ C1) as (S1 & h1 & E1). destruct (ex_cross_total lsolve (ex_pt r2 c) _ C2) as (S2 & h2 & E2). destruct (ex_cross_total lsolve (ex_pt r' c) _ C3) as (S' & h' & E').
  destruct (ex_share_stiff lsolve _ _ S1 h1 C1 E1) as (K1 & HK1). destruct (ex_share_stiff lsolve _ _ S2 h2 C2 E2) as (K2 & HK2). destruct (ex_share_stiff lsolve _ _ S' h' C3 E') as (K' & HK').
  exists S1, h1, S2, h2, S', h', K1, K2, K'. split; [exact E1|]. split; [exact E2|]. split; [exact E'|]. split; [exact HK1|]. split; [exact HK2|]. split; [exact HK'|]. intros s Hs B1 B2.
  destruct (ex_cross_made _ C1) as (N1 & T1 & M1 & HC1). destruct (ex_cross_made _ C2) as (N2 & T2 & M2 & HC2). destruct (ex_cross_made _ C3) as (N3 & T3 & M3 & HC3).
  destruct (ex_set_apart_of (fun i => i + 2)%Z ex_lo0 2%Z (or_introl (conj eq_refl eq_refl)) (fun i => eq_refl)) as [A1 _].
  destruct (ex_set_apart_of (fun i => i + 0)%Z ex_hi0 0%Z (or_intror (conj eq_refl eq_refl)) (fun i => eq_refl)) as [A2 _].
  apply (C110_mats ex_greedy ex_greedy ex_greedy lsolve lsolve lsolve _ _ false _ _ _ _ _ _ ex_greedy_right ex_greedy_right ex_greedy_right D D D N1 N2 N3 A1 A2 ex_two_mats
    None (ex_pt r1 c) (ex_pt r2 c) (ex_pt r' c) None None None (ex_sum_ready r1 c _ Hc C1) (ex_sum_ready r2 c _ Hc C2) (ex_sum_ready r' c _ Hc C3) _ _ _ _ _ _ _ _ _ S1 S2 S' h1 h2 h'
    T1 T2 T3 M1 M2 M3 ex_sum_ties (ex_sum_model r1 r' c _ (or_introl eq_refl)) (ex_sum_model r2 r' c _ (or_intror eq_refl)) E1 E2 E' K1 K2 K' HK1 HK2 HK' s Hs B1 B2).
Qed.
