(** Proofs about the piles of fibers (C97). *)
From Coq Require Import String.
From Verif Require Import Num NumP ListX Frames MatM NetM StackM MeshM ModelM Spec SpecNet SpecStack SpecMesh SpecModel SpecMeta SpecTorus SpecPiles SpecVtk
  CheckP NetP NetGeoP NetZP StackP StackNewP MeshP MeshCheckP ConstraintP VtkP MetaP TorusP.
Open Scope Q_scope.

Section Heights.
  Variables (m : qmat) (t : net_df) (z : list Q).
  Hypothesis A : admissible m t z.
  Lemma pile_below i q : pile m t i q -> forall f, has_fiber m i f -> q <= height z i + qh f / 2.
  Proof.
    destruct A as (_ & AF & NP). induction 1 as [i f0 H0|i j f0 q P IH C H0]; intros f H.
    - assert (f0 = f) by (destruct H, H0; congruence). subst f0. pose proof (AF i f H). qlra.
    - assert (f0 = f) by (destruct H, H0; congruence). subst f0.
      assert (G : exists g, has_fiber m i g) by (inversion P; subst; eauto). destruct G as (g & Hg).
      pose proof (IH g Hg). pose proof (NP _ _ _ _ C Hg H). qlra.
  Qed.
  Hypothesis S : supported m t z.
  Lemma pile_attained i f : has_fiber m i f -> exists q, pile m t i q /\ q == height z i + qh f / 2.
  Proof.
    revert i f. apply (label_ind (fun i f => exists q, pile m t i q /\ q == height z i + qh f / 2) m). intros i f H IH.
    destruct (S i f H) as [E|(B & g & C & Hg & E)].
    - exists (qh f). split; [constructor; exact H|]. rewrite E. qlra.
    - destruct (IH B g (proj1 C) Hg) as (q & P & Eq). exists (q + qh f). split; [econstructor; eauto|]. rewrite Eq, E. qlra.
  Qed.
  Lemma pile_height i f : has_fiber m i f -> thickest m t (fun j => j = i) (height z i + qh f / 2).
  Proof.
    intros H. split.
    - intros j r -> P. exact (pile_below i r P f H).
    - destruct (pile_attained i f H) as (q & P & E). exists i, q. auto.
  Qed.
  Lemma floor_iff i f : valid m -> has_fiber m i f -> (height z i == qh f / 2 <-> forall B g, has_fiber m B g -> ~ connected t B i).
  Proof.
    intros V H. split.
    - intros E B g Hg C. destruct A as (_ & AF & NP). pose proof (NP _ _ _ _ C Hg H). pose proof (AF B g Hg).
      assert (0 < qh g). { apply (valid_fiber m V g). eapply nth_error_In. apply Hg. } qlra.
    - intros N. destruct (S i f H) as [E|(B & g & C & Hg & _)]; [exact E|]. destruct (N B g Hg C).
  Qed.
End Heights.

(** ** the lid *)
Section Lid.
  Variables (linprog : lp -> list Q) (m : qmat) (per : bool) (t : net_df) (thr : option Q) (st : net_df) (m' : qmat).
  Hypothesis Hn : net_new m per None = Ok t.
  Hypothesis Hsol : solved linprog m t.
  Hypothesis Hst : stack_new linprog m t thr = Ok (st, m').
  Lemma stack_piles i f : has_fiber m i f -> thickest m t (fun j => j = i) (height (heights m') i + qh f / 2).
  Proof. destruct (built_heights linprog m per t Hn Hsol thr st m' Hst) as (_ & Adm & Sup). apply pile_height; auto. Qed.
  Lemma stack_floor i f : has_fiber m i f -> (height (heights m') i == qh f / 2 <-> forall B g, has_fiber m B g -> ~ connected t B i).
  Proof.
    destruct (built_heights linprog m per t Hn Hsol thr st m' Hst) as (_ & Adm & Sup). apply floor_iff; auto.
    destruct (new_facts _ _ _ _ Hn) as (V & _). exact V.
  Qed.
  Hypothesis HP : all_in_plane m.
  Variable g : mesh_df.
  Hypothesis Hg : mesh_new st = Ok g.
  Lemma node_height i d f : is_node (g_rows g) i d -> has_fiber m' (nf d) f -> nz d == qz f.
  Proof.
    destruct (stack_mesh_total linprog m per t thr st m' Hn Hsol Hst) as (g' & Hg' & HM).
    assert (g' = g) by congruence. subst g'. clear Hg'.
    pose proof (mesh_new_inv _ _ Hg) as Hi. destruct (init_numbers st g Hi) as [(N1 & N2 & N3) NL].
    destruct (built_inv linprog m per t Hn Hsol thr st m' Hst) as (p & Ep & _ & HS & EH & full & Hfull & Est).
    assert (OK : net_ok st) by (rewrite Est; apply filter_ok; eapply new_ok; eauto).
    assert (RR : forall k c, nth_row st k c -> is_row st k c).
    { intros k c (lab & H). destruct OK as (_ & n & _ & _ & _ & HL & _). rewrite (HL _ _ _ H) in H. exact H. }
    assert (RF : forall k c, is_row st k c -> exists k', is_row full k' c).
    { intros k c Hr. rewrite Est in Hr. destruct thr as [d0|]; [|eauto]. apply filter_rows in Hr.
      apply nth_error_In in Hr. apply filter_In in Hr. destruct Hr as [Hr _]. apply In_nth_error in Hr.
      destruct Hr as (k' & Hr). apply (rows_snd full) in Hr; [eauto|eapply new_ok; eauto]. }
    pose proof (same_plane _ _ HS HP) as flat'.
    intros Hd Hf. destruct (N2 i d Hd) as (k & c & b & Hr & Epl). destruct (N1 k c b Hr) as (d' & Hd' & HC).
    rewrite Epl in Hd'. assert (d' = d). { destruct HM as (_ & n & _ & _ & _ & HL & _). eapply node_fun; eauto. } subst d'.
    destruct HC as (Cf & _ & _ & _ & Cz). destruct (RF k c (RR k c Hr)) as (k' & Hr').
    destruct (NetP.row_facts m' per None full Hfull k' c Hr') as (fa & fb & Hfa & Hfb & _ & _ & _ & EzA & _ & _ & EzB & _).
    rewrite Cz. destruct b; rewrite Cf in Hf.
    - assert (fb = f) by (destruct Hf as [_ Hf]; destruct Hfb as [_ Hfb]; congruence). subst fb. rewrite EzB.
      assert (Pw : qw f == 0) by (apply flat'; eapply nth_error_In; apply Hf). unfold az. rewrite Pw. ring.
    - assert (fa = f) by (destruct Hf as [_ Hf]; destruct Hfa as [_ Hfa]; congruence). subst fa. rewrite EzA.
      assert (Pw : qw f == 0) by (apply flat'; eapply nth_error_In; apply Hf). unfold az. rewrite Pw. ring.
  Qed.
  Lemma lid_piles cs : constraint m' g = Ok cs -> thickest m t (fun _ => True) (csZ cs).
  Proof.
    intros Hcs. destruct (built_heights linprog m per t Hn Hsol thr st m' Hst) as (HS & Adm & Sup).
    destruct (top_spec m' g cs Hcs) as (T1 & i & d & h & Hd & (f & Hf & <-) & T2). split.
    - intros j r _ P. assert (F : exists f0, has_fiber m j f0) by (inversion P; subst; eauto). destruct F as (f0 & Hf0).
      pose proof (pile_below m t _ Adm j r P f0 Hf0) as L.
      destruct (same_fiber m m' _ f0 HS Hf0) as (f1 & Hf1 & (_ & _ & Eh & _)).
      destruct (stack_spans linprog m per t thr st m' g Hn Hsol Hst (mesh_new_inv _ _ Hg) j f1 Hf1) as (i0 & d0 & _ & _ & (N0 & NF & _) & _).
      rewrite <- NF in Hf1. pose proof (T1 i0 d0 (qh f1) N0 (ex_intro _ f1 (conj Hf1 eq_refl))) as L0.
      rewrite (node_height i0 d0 f1 N0 Hf1) in L0. rewrite NF in Hf1. rewrite (heights_fiber m' _ f1 Hf1) in L.
      rewrite Eh in *. lra.
    - destruct (same_fiber m' m _ f (same_sym _ _ HS) Hf) as (f0 & Hf0 & (_ & _ & Eh & _)).
      destruct (pile_attained m t _ Sup (nf d) f0 Hf0) as (q & P & Eq). exists (nf d), q. split; [exact I|]. split; [exact P|].
      rewrite Eq, <- T2, (node_height i d f Hd Hf), (heights_fiber m' _ f Hf), Eh. reflexivity.
  Qed.
End Lid.

(** ** the same fibers in another order *)
Section Order.
  Variables (linprog linprog' : lp -> list Q) (M : motion) (m m' : qmat) (per : bool) (t t' : net_df) (e : Z -> Z).
  Hypothesis Ht : net_new m per None = Ok t.
  Hypothesis Ht' : net_new m' per None = Ok t'.
  Hypothesis HM : proper M.
  Hypothesis P1 : all_in_plane m.
  Hypothesis HB : per = true -> boxes M m m'.
  Lemma linked_sym t0 i j : linked t0 i j -> linked t0 j i.
  Proof. intros (s & s' & k & c & Hr & H). exists s', s, k, c. tauto. Qed.
  Lemma arranged_linked R A B f g : arranged M per R t e m m' -> has_fiber m A f -> has_fiber m B g -> A <> B -> (linked t A B <-> linked t' (e A) (e B)).
  Proof.
    intros (HP & _ & HI) Hf Hg N. destruct (HP _ _ Hf) as (f' & Hf' & (r & Ff) & _). destruct (HP _ _ Hg) as (g' & Hg' & (r' & Fg) & _).
    apply (alike_linked M m m' per r r' f g f' g'); auto.
    - split; [exact Ff|]. split; [exact Fg|]. left. split; apply P1; eapply nth_error_In; [apply Hf|apply Hg].
    - intros E. destruct (HB E) as (B1 & B2 & _). auto.
    - intros E. apply N, (HI _ _ _ _ Hf Hg E).
    - intros E. destruct (HB E) as (_ & _ & B3). exact B3.
  Qed.
  Lemma arranged_connected R A B f g : arranged M per R t e m m' -> has_fiber m A f -> has_fiber m B g -> (connected t A B <-> connected t' (e A) (e B)).
  Proof.
    intros HA Hf Hg. pose proof HA as (_ & HO & HI). rewrite (connected_linked m per t A B Ht), (connected_linked m' per t' _ _ Ht'). split.
    - intros (L & K). split; [eauto|]. apply (arranged_linked R A B f g HA Hf Hg); [lia|exact K].
    - intros (L & K). assert (N : A <> B) by (intros ->; lia). apply (arranged_linked R A B f g HA Hf Hg N) in K. split; [|exact K].
      destruct (Z.lt_trichotomy A B) as [X|[X|X]]; [exact X|contradiction|]. pose proof (HO _ _ _ _ Hg Hf X (linked_sym _ _ _ K)). lia.
  Qed.
  Variables (thr thr' : option Q) (st st' : net_df) (n n' : qmat).
  Hypothesis S1 : solved linprog m t.
  Hypothesis S2 : solved linprog' m' t'.
  Hypothesis R1 : stack_new linprog m t thr = Ok (st, n).
  Hypothesis R2 : stack_new linprog' m' t' thr' = Ok (st', n').
  Lemma arranged_le : arranged M per Qle t e m m' -> forall i f, has_fiber m i f -> mv_k M * height (heights n) i <= height (heights n') (e i).
  Proof.
    intros HA. destruct (built_heights linprog m per t Ht S1 thr st n R1) as (_ & _ & Sup).
    destruct (built_heights linprog' m' per t' Ht' S2 thr' st' n' R2) as (_ & Adm & _).
    apply (compare_le (mv_k M) m m' t t' (heights n) (heights n') e); auto; try apply HM.
    - intros i f Hf. destruct (proj1 HA i f Hf) as (f' & Hf' & _ & L). eauto.
    - intros A B f g Hf Hg C. apply (arranged_connected Qle A B f g HA Hf Hg). exact C.
  Qed.
  Lemma arranged_weak : arranged M per Qeq t e m m' -> arranged M per Qle t e m m'.
  Proof.
    intros (HP & HR). split; [|exact HR]. intros j g Hg. destruct (HP j g Hg) as (f' & A & B & C). exists f'. split; [exact A|]. split; [exact B|]. rewrite C. apply Qle_refl.
  Qed.
  Lemma arranged_eq : arranged M per Qeq t e m m' -> grounded t' e m m' -> forall i f, has_fiber m i f ->
    height (heights n') (e i) == mv_k M * height (heights n) i.
  Proof.
    intros HA HL i f Hf. apply Qle_antisym.
    - revert i f Hf. destruct (built_heights linprog m per t Ht S1 thr st n R1) as (_ & Adm & _).
      destruct (built_heights linprog' m' per t' Ht' S2 thr' st' n' R2) as (_ & _ & Sup).
      apply (compare_ge (mv_k M) m m' t t' (heights n) (heights n') e); auto; try apply HM.
      + intros i f f' Hf Hf'. destruct (proj1 HA i f Hf) as (f2 & Hf2 & _ & L).
        assert (f2 = f') by (destruct Hf2 as [_ A]; destruct Hf' as [_ B]; congruence). subst f2. rewrite L. apply Qle_refl.
      + intros i f Hf. destruct (proj1 HA i f Hf) as (f2 & Hf2 & _). eauto.
      + intros A B g f' Hg Hf' C. destruct (HL B A g f' Hg Hf' C) as (A' & f0 & Hf0 & ->).
        exists A', f0. split; [exact Hf0|]. split; [reflexivity|]. apply (arranged_connected Qeq A' B f0 g HA Hf0 Hg). exact C.
    - apply arranged_le with (f := f); auto. apply arranged_weak, HA.
  Qed.
  Lemma found_grounded : all_found e m m' -> grounded t' e m m'.
  Proof. intros H i j f g _ Hg _. destruct (H j g Hg) as (i' & f' & H'). eauto. Qed.
  Lemma pile_moves R : arranged M per R t e m m' -> (forall a b, R a b -> a == b) -> forall i q, pile m t i q -> exists r, pile m' t' (e i) r /\ r == mv_k M * q.
  Proof.
    intros HA HR i q P. induction P as [i f H|i j f q P IH C H].
    - destruct (proj1 HA i f H) as (f' & Hf' & _ & E). exists (qh f'). split; [constructor; exact Hf'|]. symmetry. exact (HR _ _ E).
    - destruct IH as (r & P' & E). destruct (proj1 HA j f H) as (f' & Hf' & _ & E'). exists (r + qh f').
      assert (F : exists g, has_fiber m i g) by (inversion P; subst; eauto). destruct F as (g & Hg).
      split; [econstructor; eauto; apply (arranged_connected R i j g f HA Hg H); exact C|]. rewrite E. apply HR in E'. rewrite <- E'. ring.
  Qed.
  Hypothesis P2 : all_in_plane m'.
  Variables (g g' : mesh_df) (cs cs' : csys).
  Hypothesis G1 : mesh_new st = Ok g.
  Hypothesis G2 : mesh_new st' = Ok g'.
  Hypothesis C1 : constraint n g = Ok cs.
  Hypothesis C2 : constraint n' g' = Ok cs'.
  Lemma arranged_lid : arranged M per Qeq t e m m' -> mv_k M * csZ cs <= csZ cs'.
  Proof.
    intros HA. destruct (lid_piles linprog m per t thr st n Ht S1 R1 P1 g G1 cs C1) as (_ & i & q & _ & P & E).
    destruct (lid_piles linprog' m' per t' thr' st' n' Ht' S2 R2 P2 g' G2 cs' C2) as (B & _).
    destruct (pile_moves Qeq HA (fun a b H => H) i q P) as (r & P' & E'). rewrite <- E, <- E'. exact (B _ _ I P').
  Qed.
  Lemma arranged_lid_eq : arranged M per Qeq t e m m' -> all_found e m m' -> csZ cs' == mv_k M * csZ cs.
  Proof.
    intros HA HF. apply Qle_antisym; [|exact (arranged_lid HA)].
    destruct (lid_piles linprog' m' per t' thr' st' n' Ht' S2 R2 P2 g' G2 cs' C2) as (_ & j & r & _ & P' & E').
    assert (J : exists g0, has_fiber m' j g0) by (inversion P'; subst; eauto). destruct J as (g0 & Hg0).
    destruct (lid_piles linprog m per t thr st n Ht S1 R1 P1 g G1 cs C1) as (B & _).
    destruct (HF j g0 Hg0) as (i & f & Hf & ->). destruct (stack_piles linprog m per t thr st n Ht S1 R1 i f Hf) as (_ & i0 & q & -> & P & Eq).
    pose proof (B _ _ I P) as L. destruct (stack_piles linprog' m' per t' thr' st' n' Ht' S2 R2 (e i) g0 Hg0) as (B' & _).
    pose proof (B' _ _ eq_refl P') as L'. rewrite (arranged_eq HA (found_grounded HF) i f Hf) in L'.
    destruct (proj1 HA i f Hf) as (f' & Hf' & _ & Eh). assert (f' = g0) by (destruct Hf', Hg0; congruence). subst f'.
    rewrite <- E'. assert (Y : mv_k M * q <= mv_k M * csZ cs) by (apply Qmult_le_l; [apply HM|exact L]). rewrite Eq in Y. qlra.
  Qed.
End Order.
