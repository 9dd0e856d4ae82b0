(** Property theorems: the forces on two parts that touch nothing else add up (C109). *)
From Coq Require Import Lia Lqa.
From Verif Require Import Num NumP ListX Frames MatM NetM StackM MeshM ModelM SolverM Spec SpecNet SpecStack SpecMesh SpecModel SpecSolver SpecPerm SpecTorus SpecPiles SpecPack SpecScale SpecMain
  SpecProgress SpecRename SpecOrder SpecPart SpecApart SpecSum CheckP ScriptsP ConstraintP RenameX PartX SumP MainP VtkP PropsStack PropsMesh PropsModel PropsSolver PropsMain PropsProgress PropsRename PropsOrder PropsPart PropsApart.
Open Scope Q_scope.

(** ** C109 *)
(** the total forces on the floor, between the fibers and on the lid are the sums of those of the two parts compressed alone, at the same height of the lid *)
Theorem C109_parts : forall rho1 rho2 lsolve1 lsolve2 lsolve' m1 m2 m' g1 g2 g' p1 p2 p' S1 h1 S2 h2 S' h',
  mesh_within rho1 m1 m' g1 g' -> mesh_within rho2 m2 m' g2 g' -> two_parts rho1 rho2 g1 g2 g' ->
  same_model g1 g' p1 p' -> same_model g2 g' p2 p' -> faces_lid m1 g1 -> faces_lid m2 g2 ->
  direct_solver lsolve1 -> direct_solver lsolve2 -> direct_solver lsolve' -> sound_data m1 g1 p1 -> sound_data m2 g2 p2 -> sound_data m' g' p' ->
  starts_held m1 g1 (sp_tol p1) -> starts_held m2 g2 (sp_tol p2) -> starts_held m' g' (sp_tol p') ->
  solve lsolve1 m1 g1 p1 = Ok (S1, h1) -> solve lsolve2 m2 g2 p2 = Ok (S2, h2) -> solve lsolve' m' g' p' = Ok (S', h') ->
  numbering (length (sy_dq S1)) (sp_perm p1) -> numbering (length (sy_dq S2)) (sp_perm p2) -> numbering (length (sy_dq S')) (sp_perm p') ->
  forall cs1 cs2 cs', constraint m1 g1 = Ok cs1 -> constraint m2 g2 = Ok cs2 -> constraint m' g' = Ok cs' ->
  forall n1 n2 n', length (csH cs1) = (3 * n1)%nat -> length (csH cs2) = (3 * n2)%nat -> length (csH cs') = (3 * n')%nat ->
  forall s a, In s h' -> not_below h1 s -> not_below h2 s -> (a < 3)%nat ->
  exists v1 v2, force_sum a S' n' s == v1 + v2 /\ value_at h1 (qof (st_Z s)) (force_sum a S1 n1) v1 /\ value_at h2 (qof (st_Z s)) (force_sum a S2 n2) v2.
Proof. exact parts_add. Qed.
(** the same from the mats: the fibers of two mats, listed in one, no fiber of one being connected to one of the other *)
Theorem C109_mats : forall linprog1 linprog2 linprog' lsolve1 lsolve2 lsolve' e1 e2 per m1 m2 m' t1 t2 t',
  right_linprog linprog1 -> right_linprog linprog2 -> right_linprog linprog' -> direct_solver lsolve1 -> direct_solver lsolve2 -> direct_solver lsolve' ->
  net_new m1 per None = Ok t1 -> net_new m2 per None = Ok t2 -> net_new m' per None = Ok t' ->
  set_apart e1 per t1 t' m1 m' -> set_apart e2 per t2 t' m2 m' -> two_mats e1 e2 m1 m2 m' ->
  forall thr p1 p2 p' z1 z2 z', ready m1 thr p1 z1 -> ready m2 thr p2 z2 -> ready m' thr p' z' ->
  forall st1 st2 st' k1 k2 k' g1 g2 g' S1 S2 S' h1 h2 h',
  stack_new linprog1 m1 t1 thr = Ok (st1, k1) -> stack_new linprog2 m2 t2 thr = Ok (st2, k2) -> stack_new linprog' m' t' thr = Ok (st', k') ->
  mesh_new st1 = Ok g1 -> mesh_new st2 = Ok g2 -> mesh_new st' = Ok g' -> no_ties g' -> same_model g1 g' p1 p' -> same_model g2 g' p2 p' ->
  solve lsolve1 k1 g1 p1 = Ok (S1, h1) -> solve lsolve2 k2 g2 p2 = Ok (S2, h2) -> solve lsolve' k' g' p' = Ok (S', h') ->
  forall cs1 cs2 cs', constraint k1 g1 = Ok cs1 -> constraint k2 g2 = Ok cs2 -> constraint k' g' = Ok cs' ->
  forall n1 n2 n', length (csH cs1) = (3 * n1)%nat -> length (csH cs2) = (3 * n2)%nat -> length (csH cs') = (3 * n')%nat ->
  forall s a, In s h' -> not_below h1 s -> not_below h2 s -> (a < 3)%nat ->
  exists v1 v2, force_sum a S' n' s == v1 + v2 /\ value_at h1 (qof (st_Z s)) (force_sum a S1 n1) v1 /\ value_at h2 (qof (st_Z s)) (force_sum a S2 n2) v2.
Proof. exact mats_add. Qed.
(** the force on the lid is the one of C94 *)
Example ex_sum_load : forall S n s, force_sum 2 S n s = SpecStiffen.load S n s.
Proof. reflexivity. Qed.
Print Assumptions C109_parts.
Print Assumptions C109_mats.

(** ** example: two fibers crossed at the origin, and two thicker ones crossed elsewhere, listed before *)
Definition ex_lo0 : qmat := mkQmat [mkQ 2 1 1 0 0 0 1 0 0 (Fin 1) (Fin 1); mkQ 2 1 1 0 0 1 0 1 0 (Fin 1) (Fin 1)] 50.
Definition ex_hi0 : qmat := mkQmat [mkQ 2 1 2 10 10 1 1 0 0 (Fin 1) (Fin 1); mkQ 2 1 2 10 10 5 0 1 0 (Fin 1) (Fin 1)] 50.
Definition ex_sum0 : qmat := mkQmat (q_rows ex_hi0 ++ q_rows ex_lo0) 50.
Definition ex_kof (m : qmat) : qmat := snd (ex_stackof m).
Definition ex_gof (m : qmat) : mesh_df := ex_g (fst (ex_stackof m)).
Definition ex_csof (m : qmat) : csys := ex_cs (ex_kof m) (ex_gof m).
Definition ex_crosses (m : qmat) : Prop := m = ex_lo0 \/ m = ex_hi0 \/ m = ex_sum0.
Example ex_cross_made m : ex_crosses m -> net_new m false None = Ok (ex_netof m) /\ stack_new ex_greedy m (ex_netof m) None = Ok (fst (ex_stackof m), ex_kof m) /\
  mesh_new (fst (ex_stackof m)) = Ok (ex_gof m) /\ constraint (ex_kof m) (ex_gof m) = Ok (ex_csof m).
Proof. intros [-> | [-> | ->]]; (split; [|split; [|split]]); vm_compute; reflexivity. Qed.
Lemma ex_set_apart_of e m k : m = ex_lo0 /\ k = 2%Z \/ m = ex_hi0 /\ k = 0%Z -> (forall i, e i = (i + k)%Z) ->
  set_apart e false (ex_netof m) (ex_netof ex_sum0) m ex_sum0 /\ forall j, member e m j <-> (k <= j < k + 2)%Z.
Proof.
  intros HM HE.
  assert (K : forall j, member e m j <-> (k <= j < k + 2)%Z).
  { intros j. unfold member. assert (L2 : length (q_rows m) = 2%nat) by (destruct HM as [[-> _]|[-> _]]; reflexivity). split.
    - intros (a & f & [L E] & ->). assert (Z.to_nat a < 2)%nat by (rewrite <- L2; apply nth_error_Some; congruence). rewrite HE. lia.
    - intros B. exists (j - k)%Z. destruct (nth_error (q_rows m) (Z.to_nat (j - k))) as [f|] eqn:E; [exists f; split; [split; [lia|exact E]|rewrite HE; lia]|].
      apply nth_error_None in E. lia. }
  split; [|exact K]. split; [destruct HM as [[-> _]|[-> _]]; reflexivity|]. split; [|split; [|split; [|split]]].
  - apply ex_fibers. intros a f H. rewrite HE.
    destruct HM as [[-> ->]|[-> ->]]; do 2 (destruct a as [|a]; [injection H as <-; eexists; split; [split; [vm_compute; discriminate|vm_compute; reflexivity]|];
      split; [split; [vm_compute; auto|]; split; [reflexivity|]; split; [exists 0%Z, 0%Z; repeat split|]; repeat split|repeat split; vm_compute; first [reflexivity|exact I]]|]);
      destruct a; discriminate H.
  - intros i j. rewrite !HE. lia.
  - intros i j (L & _). rewrite !HE. lia.
  - intros i j (L & a & c & Hr & <- & <-). rewrite !K. clear K. unfold is_row in Hr. apply nth_error_In in Hr. vm_compute in Hr.
    destruct HM as [[_ ->]|[_ ->]]; (repeat (destruct Hr as [Hr|Hr]; [injection Hr as _ <-; cbn [cA cB] in *; clear; lia|]); destruct Hr).
  - discriminate.
Qed.
Example ex_sum_ready r c m : c * c < 1 -> ex_crosses m -> ready m None (ex_pt r c) None.
Proof.
  intros Hc HM. split; [|split; [destruct HM as [-> | [-> | ->]]; discriminate|split; [destruct HM as [-> | [-> | ->]]; intros f Hf; simpl in Hf; intuition subst; reflexivity|]]].
  - apply valid_intro. destruct HM as [-> | [-> | ->]]; intros f Hf; repeat (destruct Hf as [<-|Hf]; [repeat split; vm_compute; first [reflexivity|exact I|discriminate]|]); destruct Hf.
  - split; [destruct HM as [-> | [-> | ->]]; intros f Hf; simpl in Hf; intuition subst; eexists; reflexivity|]. split; [exact I|]. split; [split; cbn; lra|]. split; [cbn; lra|]. split; [exact Hc|].
    split; [exists (1 # 100); split; [reflexivity|lra]|]. split; [discriminate|]. split; [reflexivity|exact I].
Qed.
Example ex_sum_ties : no_ties (ex_gof ex_sum0).
Proof.
  set (g := ex_gof ex_sum0). intros i j d e Hi Hj EF ES. destruct (node_at _ _ _ Hi) as [Li ->]. destruct (node_at _ _ _ Hj) as [Lj ->].
  rewrite <- view_length in Li, Lj. assert (EF' : vf (view g) i = vf (view g) j) by (unfold vf; rewrite !view_at; exact EF).
  assert (ES' : vs (view g) i == vs (view g) j) by (unfold vs; rewrite !view_at; exact ES). clear EF ES Hi Hj.
  let V := eval vm_compute in (view g) in assert (EV : view g = V) by (vm_compute; reflexivity).
  rewrite EV in Li, Lj, EF', ES'. clear EV. revert Li Lj EF' ES'. match goal with |- (_ < length ?V)%nat -> _ => set (v := V) end. intros Li Lj EF ES.
  assert (T : each 12 (fun i => each 12 (fun j => implb (Z.eqb (vf v i) (vf v j) && Qeqb (vs v i) (vs v j)) (Nat.eqb i j))) = true) by (vm_compute; reflexivity).
  change (length v) with 12%nat in Li, Lj.
  pose proof (each_at _ _ (each_at _ _ T i Li) j Lj) as X. cbv beta in X. apply Z.eqb_eq in EF. apply Qeqb_eq in ES. rewrite EF, ES in X. apply Nat.eqb_eq, X.
Qed.
Example ex_sum_model r r' c m : m = ex_lo0 \/ m = ex_hi0 -> same_model (ex_gof m) (ex_gof ex_sum0) (ex_pt r c) (ex_pt r' c).
Proof.
  intros HM. unfold same_model, ex_pt. cbn [sp_lmin sp_lmax sp_coupling sp_tol]. split; [reflexivity|]. split; [exact I|]. repeat (split; [reflexivity|]). right.
  apply span_tested. destruct HM as [->| ->]; vm_compute; reflexivity.
Qed.
Lemma ex_cross_total lsolve p m : ex_crosses m -> exists S h, solve lsolve (ex_kof m) (ex_gof m) p = Ok (S, h).
Proof.
  intros HM. destruct (ex_cross_made m HM) as (N & T & M & HC). destruct (made_facts ex_greedy ex_greedy_right _ _ _ _ _ _ _ N T M) as (V & MO & SP & _ & AN & _).
  destruct (span_elem _ MO _ V SP) as (i & j & d & e & B & _); [destruct HM as [-> | [-> | ->]]; vm_compute; discriminate|].
  apply C36_total; auto. exists i, j, d, e. exact B.
Qed.
(** the forces that the four fibers put on the lid are those of the thick ones alone, then the sum of both *)
Example ex_sum_runs lsolve r1 r2 r' c : direct_solver lsolve -> c * c < 1 -> exists S1 h1 S2 h2 S' h',
  solve lsolve (ex_kof ex_lo0) (ex_gof ex_lo0) (ex_pt r1 c) = Ok (S1, h1) /\ solve lsolve (ex_kof ex_hi0) (ex_gof ex_hi0) (ex_pt r2 c) = Ok (S2, h2) /\
  solve lsolve (ex_kof ex_sum0) (ex_gof ex_sum0) (ex_pt r' c) = Ok (S', h') /\
  forall s, In s h' -> not_below h1 s -> not_below h2 s -> exists v1 v2, SpecStiffen.load S' 10 s == v1 + v2 /\
    value_at h1 (qof (st_Z s)) (SpecStiffen.load S1 5) v1 /\ value_at h2 (qof (st_Z s)) (SpecStiffen.load S2 5) v2.
Proof.
  intros D Hc. assert (C1 : ex_crosses ex_lo0) by (left; reflexivity). assert (C2 : ex_crosses ex_hi0) by (right; left; reflexivity). assert (C3 : ex_crosses ex_sum0) by (right; right; reflexivity).
  destruct (ex_cross_total lsolve (ex_pt r1 c) _ C1) as (S1 & h1 & E1). destruct (ex_cross_total lsolve (ex_pt r2 c) _ C2) as (S2 & h2 & E2). destruct (ex_cross_total lsolve (ex_pt r' c) _ C3) as (S' & h' & E').
  exists S1, h1, S2, h2, S', h'. split; [exact E1|]. split; [exact E2|]. split; [exact E'|]. intros s Hs B1 B2.
  destruct (ex_cross_made _ C1) as (N1 & T1 & M1 & HC1). destruct (ex_cross_made _ C2) as (N2 & T2 & M2 & HC2). destruct (ex_cross_made _ C3) as (N3 & T3 & M3 & HC3).
  destruct (ex_set_apart_of (fun i => i + 2)%Z ex_lo0 2%Z (or_introl (conj eq_refl eq_refl)) (fun i => eq_refl)) as [A1 K1].
  destruct (ex_set_apart_of (fun i => i + 0)%Z ex_hi0 0%Z (or_intror (conj eq_refl eq_refl)) (fun i => eq_refl)) as [A2 K2].
  assert (TM : two_mats (fun i => i + 2)%Z (fun i => i + 0)%Z ex_lo0 ex_hi0 ex_sum0).
  { split; [|intros j J1 J2; apply K1 in J1; apply K2 in J2; lia]. intros j f [L E].
    assert (Z.to_nat j < 4)%nat by (change 4%nat with (length (q_rows ex_sum0)); apply nth_error_Some; congruence).
    destruct (Z.lt_ge_cases j 2); [right; apply K2; lia|left; apply K1; lia]. }
  apply (C109_mats ex_greedy ex_greedy ex_greedy lsolve lsolve lsolve _ _ false _ _ _ _ _ _ ex_greedy_right ex_greedy_right ex_greedy_right D D D N1 N2 N3 A1 A2 TM
    None (ex_pt r1 c) (ex_pt r2 c) (ex_pt r' c) None None None (ex_sum_ready r1 c _ Hc C1) (ex_sum_ready r2 c _ Hc C2) (ex_sum_ready r' c _ Hc C3) _ _ _ _ _ _ _ _ _ S1 S2 S' h1 h2 h'
    T1 T2 T3 M1 M2 M3 ex_sum_ties (ex_sum_model r1 r' c _ (or_introl eq_refl)) (ex_sum_model r2 r' c _ (or_intror eq_refl)) E1 E2 E' _ _ _ HC1 HC2 HC3
    5%nat 5%nat 10%nat); try (vm_compute; reflexivity); auto.
Qed.
