(** Proofs about a mat turned over (C106). *)
From Verif Require Import Num NumP ListX Frames MatM NetM StackM MeshM ModelM Spec SpecNet SpecStack SpecMesh SpecModel SpecMeta SpecTorus SpecPiles SpecOver
  CheckP NetP NetGeoP NetZP StackP StackNewP MetaP TorusP PilesP.
Open Scope Q_scope.

Lemma through_pile m t i j q : through m t i j q -> pile m t j q.
Proof. induction 1; [assumption|econstructor; eauto]. Qed.
Lemma pile_fiber m t i q : pile m t i q -> exists f, has_fiber m i f.
Proof. intros P. inversion P; subst; eauto. Qed.
Lemma fiber_one m i f g : has_fiber m i f -> has_fiber m i g -> f = g.
Proof. intros [_ A] [_ B]. congruence. Qed.
Lemma link_sym t0 i j : linked t0 i j -> linked t0 j i.
Proof. intros (s & s' & k & c & Hr & H). exists s', s, k, c. tauto. Qed.

Section Over.
  Variables (linprog linprog' : lp -> list Q) (M : motion) (m m' : qmat) (per : bool) (t t' : net_df) (e : Z -> Z).
  Hypothesis Ht : net_new m per None = Ok t.
  Hypothesis Ht' : net_new m' per None = Ok t'.
  Hypothesis HM : proper M.
  Hypothesis P1 : all_in_plane m.
  Hypothesis HB : per = true -> boxes M m m'.
  Hypothesis HO : overturned M per t e m m'.
  Lemma over_linked A B f g : has_fiber m A f -> has_fiber m B g -> A <> B -> (linked t A B <-> linked t' (e A) (e B)).
  Proof.
    destruct HO as (HP & _ & HI). intros Hf Hg N. destruct (HP _ _ Hf) as (f' & Hf' & (r & Ff) & _). destruct (HP _ _ Hg) as (g' & Hg' & (r' & Fg) & _).
    apply (alike_linked M m m' per r r' f g f' g'); auto.
    - split; [exact Ff|]. split; [exact Fg|]. left. split; apply P1; eapply nth_error_In; [apply Hf|apply Hg].
    - intros E. destruct (HB E) as (B1 & B2 & _). auto.
    - intros E. apply N, (HI _ _ _ _ Hf Hg E).
    - intros E. destruct (HB E) as (_ & _ & B3). exact B3.
  Qed.
  Lemma over_connected A B f g : has_fiber m A f -> has_fiber m B g -> (connected t A B <-> connected t' (e B) (e A)).
  Proof.
    intros Hf Hg. pose proof HO as (_ & HR & HI). rewrite (connected_linked m per t A B Ht), (connected_linked m' per t' _ _ Ht'). split.
    - intros (L & K). split; [eauto|]. apply link_sym. apply (over_linked A B f g Hf Hg); [lia|exact K].
    - intros (L & K). assert (N : A <> B) by (intros ->; lia). apply link_sym in K. apply (over_linked A B f g Hf Hg N) in K. split; [|exact K].
      destruct (Z.lt_trichotomy A B) as [X|[X|X]]; [exact X|contradiction|]. pose proof (HR _ _ _ _ Hg Hf X (link_sym _ _ _ K)). lia.
  Qed.
  Lemma over_fiber i f : has_fiber m i f -> exists f', has_fiber m' (e i) f' /\ qh f' == mv_k M * qh f.
  Proof. intros H. destruct (proj1 HO i f H) as (f' & A & _ & B). eauto. Qed.
  Lemma over_more i j f f' g r : has_fiber m i f -> has_fiber m' (e i) f' -> has_fiber m j g -> connected t i j -> pile m' t' (e j) r -> pile m' t' (e i) (r + qh f').
  Proof. intros Hf Hf' Hg C P. econstructor; [exact P| |exact Hf']. apply (over_connected i j f g Hf Hg). exact C. Qed.

  (** a pile under a fiber of [m], and one under the same fiber of [m'], make one pile *)
  Lemma over_joins (HF : all_found e m m') x r : pile m' t' x r -> forall i f i0 q, x = e i -> has_fiber m i f -> through m t i0 i q ->
    exists j q', through m t i0 j q' /\ mv_k M * q' == mv_k M * q + r - mv_k M * qh f.
  Proof.
    induction 1 as [x f' H|y x f' r P IH C H]; intros i f i0 q -> Hf T.
    - destruct (over_fiber i f Hf) as (f2 & H2 & E). rewrite (fiber_one _ _ _ _ H H2). exists i, q. split; [exact T|]. rewrite E. ring.
    - destruct (pile_fiber _ _ _ _ P) as (g' & Hg'). destruct (HF y g' Hg') as (j & g & Hg & ->).
      destruct (over_fiber i f Hf) as (f2 & H2 & E). rewrite (fiber_one _ _ _ _ H H2).
      assert (C' : connected t i j) by (apply (over_connected i j f g Hf Hg); exact C).
      destruct (IH j g i0 (q + qh g) eq_refl Hg) as (j2 & q' & T' & E'); [econstructor; eauto|].
      exists j2, q'. split; [exact T'|]. rewrite E', E. ring.
  Qed.
  Lemma over_back i q : pile m t i q -> forall f r, has_fiber m i f -> pile m' t' (e i) r -> exists j r', pile m' t' j r' /\ r' == r + mv_k M * q - mv_k M * qh f.
  Proof.
    induction 1 as [i f0 H|j i f0 q P IH C H]; intros f r Hf P'.
    - rewrite (fiber_one _ _ _ _ H Hf). exists (e i), r. split; [exact P'|ring].
    - rewrite (fiber_one _ _ _ _ H Hf). destruct (pile_fiber _ _ _ _ P) as (g & Hg). destruct (over_fiber j g Hg) as (g' & Hg' & E).
      destruct (IH g _ Hg (over_more j i g g' f r Hg Hg' Hf C P')) as (j2 & r' & P2 & E'). exists j2, r'. split; [exact P2|]. rewrite E', E. ring.
  Qed.
  Lemma over_splits i j q : through m t i j q -> forall f g r, has_fiber m i f -> has_fiber m j g -> pile m' t' (e j) r ->
    exists q1 r1, pile m t i q1 /\ pile m' t' (e i) r1 /\ mv_k M * q + r - mv_k M * qh g == mv_k M * q1 + r1 - mv_k M * qh f.
  Proof.
    induction 1 as [q P|j k g0 q T IH C H]; intros f g r Hf Hg P'.
    - rewrite (fiber_one _ _ _ _ Hg Hf). exists q, r. split; [exact P|]. split; [exact P'|reflexivity].
    - rewrite (fiber_one _ _ _ _ H Hg). destruct (pile_fiber _ _ _ _ (through_pile _ _ _ _ _ T)) as (g1 & Hg1). destruct (over_fiber j g1 Hg1) as (g' & Hg' & E).
      destruct (IH f g1 _ Hf Hg1 (over_more j k g1 g' g r Hg1 Hg' Hg C P')) as (q1 & r1 & A & B & E'). exists q1, r1. split; [exact A|]. split; [exact B|].
      rewrite <- E', E. ring.
  Qed.

  Variables (thr thr' : option Q) (st st' : net_df) (n n' : qmat).
  Hypothesis S1 : solved linprog m t.
  Hypothesis S2 : solved linprog' m' t'.
  Hypothesis R1 : stack_new linprog m t thr = Ok (st, n).
  Hypothesis R2 : stack_new linprog' m' t' thr' = Ok (st', n').
  Lemma over_floor : all_found e m m' -> forall i f, has_fiber m i f ->
    (height (heights n') (e i) == mv_k M * (qh f / 2) <-> forall j g, has_fiber m j g -> ~ connected t i j).
  Proof.
    intros HF i f Hf. destruct (over_fiber i f Hf) as (f' & Hf' & E).
    assert (X : height (heights n') (e i) == mv_k M * (qh f / 2) <-> height (heights n') (e i) == qh f' / 2).
    { setoid_replace (qh f' / 2) with (mv_k M * (qh f / 2)) by (rewrite E; field). reflexivity. }
    rewrite X, (stack_floor linprog' m' per t' thr' st' n' Ht' S2 R2 (e i) f' Hf'). split.
    - intros N j g Hg C. destruct (over_fiber j g Hg) as (g' & Hg' & _). apply (N (e j) g' Hg'). apply (over_connected i j f g Hf Hg). exact C.
    - intros N y g' Hg' C. destruct (HF y g' Hg') as (j & g & Hg & ->). apply (N j g Hg). apply (over_connected i j f g Hf Hg). exact C.
  Qed.
  Hypothesis P2 : all_in_plane m'.
  Variables (g g' : mesh_df) (cs cs' : csys).
  Hypothesis G1 : mesh_new st = Ok g.
  Hypothesis G2 : mesh_new st' = Ok g'.
  Hypothesis C1 : constraint n g = Ok cs.
  Hypothesis C2 : constraint n' g' = Ok cs'.
  Hypothesis HF : all_found e m m'.
  Lemma over_lid : csZ cs' == mv_k M * csZ cs.
  Proof.
    destruct (lid_piles linprog m per t thr st n Ht S1 R1 P1 g G1 cs C1) as (B & i & q & _ & P & E).
    destruct (lid_piles linprog' m' per t' thr' st' n' Ht' S2 R2 P2 g' G2 cs' C2) as (B' & x & r & _ & P' & E').
    apply Qle_antisym.
    - destruct (pile_fiber _ _ _ _ P') as (f' & Hf'). destruct (HF x f' Hf') as (j & f & Hf & ->).
      destruct (over_joins HF (e j) r P' j f j (qh f) eq_refl Hf) as (k & q' & T & Eq); [constructor; constructor; exact Hf|].
      pose proof (B _ _ I (through_pile _ _ _ _ _ T)) as L. apply (Qmult_le_l _ _ (mv_k M) (proj1 HM)) in L. rewrite <- E'. lra.
    - destruct (pile_fiber _ _ _ _ P) as (f & Hf). destruct (over_fiber i f Hf) as (f' & Hf' & Eh).
      destruct (over_back i q P f (qh f') Hf) as (j & r' & P2' & Er); [constructor; exact Hf'|].
      pose proof (B' _ _ I P2') as L. rewrite Er, Eh, E in L. lra.
  Qed.
  Lemma over_bound i f : has_fiber m i f -> height (heights n') (e i) + mv_k M * height (heights n) i <= mv_k M * csZ cs /\
    (height (heights n') (e i) + mv_k M * height (heights n) i == mv_k M * csZ cs <-> exists j q, through m t i j q /\ q == csZ cs).
  Proof.
    intros Hf. destruct (lid_piles linprog m per t thr st n Ht S1 R1 P1 g G1 cs C1) as (B & _).
    destruct (over_fiber i f Hf) as (f' & Hf' & Eh). pose proof (proj1 HM) as Hk.
    destruct (stack_piles linprog m per t thr st n Ht S1 R1 i f Hf) as (Bi & i0 & q & -> & P & E).
    destruct (stack_piles linprog' m' per t' thr' st' n' Ht' S2 R2 (e i) f' Hf') as (Bi' & i1 & r & -> & P' & E').
    destruct (over_joins HF (e i) r P' i f i q eq_refl Hf) as (j & q' & T & Eq); [constructor; exact P|].
    pose proof (B _ _ I (through_pile _ _ _ _ _ T)) as L. pose proof L as L0. apply (Qmult_le_l _ _ (mv_k M) Hk) in L.
    assert (K : mv_k M * q' == height (heights n') (e i) + mv_k M * height (heights n) i).
    { rewrite Eq, E, E', Eh. field. }
    split; [rewrite <- K; exact L|]. split.
    - intros X. exists j, q'. split; [exact T|]. rewrite <- K in X. apply (Qmult_inj_l q' (csZ cs) (mv_k M)); [lra|exact X].
    - intros (j2 & q2 & T2 & E2). apply Qle_antisym; [rewrite <- K; exact L|].
      destruct (pile_fiber _ _ _ _ (through_pile _ _ _ _ _ T2)) as (f2 & Hf2). destruct (over_fiber j2 f2 Hf2) as (f2' & Hf2' & Eh2).
      destruct (over_splits i j2 q2 T2 f f2 (qh f2') Hf Hf2) as (q1 & r1 & A1 & A2 & E3); [constructor; exact Hf2'|].
      pose proof (Bi _ _ eq_refl A1) as L1. pose proof (Bi' _ _ eq_refl A2) as L2. apply (Qmult_le_l _ _ (mv_k M) Hk) in L1.
      rewrite Eh2, E2 in E3. rewrite Eh in L2.
      assert (Y1 : mv_k M * (height (heights n) i + qh f / 2) == mv_k M * height (heights n) i + mv_k M * qh f / 2) by field.
      rewrite Y1 in L1. set (a := mv_k M * qh f) in *. set (b := mv_k M * qh f2) in *. qlra.
  Qed.
End Over.
