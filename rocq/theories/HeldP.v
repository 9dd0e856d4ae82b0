(** Stacked mats are held (C88). *)
From Coq Require Import Lia Lqa Qabs.
From Verif Require Import Num NumP ListX ListP Frames MatM NetM StackM MeshM ModelM SolverM Spec SpecNet SpecStack SpecMesh SpecModel SpecSolver SpecPerm SpecProgress.
From Verif Require Import CheckP MeshCheckP NetP NetZP StackP StackNewP MeshP ConstraintP.
Open Scope Q_scope.

Lemma stack_held linprog m per t thr st m' g tol : net_new m per None = Ok t -> solved linprog m t -> all_in_plane m ->
  stack_new linprog m t thr = Ok (st, m') -> mesh_new st = Ok g -> 0 <= tol -> wide m thr -> starts_held m' g tol.
Proof.
  intros Hn Hsol HP Hst Hg T0 HW z _. destruct (stack_mesh_total linprog m per t thr st m' Hn Hsol Hst) as (g' & Hg' & HM).
  assert (g' = g) by congruence. subst g'. clear Hg'.
  pose proof (mesh_new_inv _ _ Hg) as Hi. destruct (init_numbers st g Hi) as [(N1 & N2 & N3) NL].
  destruct (built_inv linprog m per t Hn Hsol thr st m' Hst) as (p & Ep & _ & HS & EH & full & Hfull & Est).
  destruct (built_heights linprog m per t Hn Hsol thr st m' Hst) as (_ & _ & HSU).
  pose proof (new_ok _ _ _ _ Hfull) as OKf.
  assert (OK : net_ok st) by (rewrite Est; apply filter_ok; exact OKf).
  pose proof (same_plane _ _ HS HP) as flat'.
  assert (KR : forall k c, is_row full k c -> (match thr with None => True | Some d => kept d c = true end) -> exists k', is_row st k' c).
  { intros k c Hr Hk. rewrite Est. destruct thr as [d|]; [|eauto].
    assert (HI : In c (filter (kept d) (map snd (n_rows full)))).
    { apply filter_In. split; auto. apply (rows_snd full k c OKf) in Hr. eapply nth_error_In; eauto. }
    apply In_nth_error in HI. destruct HI as (k' & Hk'). exists k'. apply filter_rows. exact Hk'. }
  assert (RR : forall k c, is_row st k c -> nth_row st k c) by (intros k c H; eexists; exact H).
  assert (ND1 : forall k c, is_row st k c -> cA c = cB c -> exists i d, is_node (g_rows g) i d /\ ncons d = Z.of_nat i /\ nf d = cA c /\ nz d = czA c).
  { intros k c Hr E. destruct (N1 k c false (RR k c Hr)) as (d & Hd & Cf & _ & _ & _ & Cz).
    exists (place (map snd (n_rows st)) k false), d. split; [exact Hd|]. split; [|auto].
    rewrite (NL k c false d (RR k c Hr) Hd), E, Z.eqb_refl. reflexivity. }
  assert (ND2 : forall k c, is_row st k c -> (cA c < cB c)%Z -> exists i j d e, is_node (g_rows g) i d /\ is_node (g_rows g) j e /\
    ncons d = Z.of_nat j /\ (i < j)%nat /\ nf d = cA c /\ nf e = cB c /\ nz d = czA c /\ nz e = czB c).
  { intros k c Hr L. destruct (N1 k c false (RR k c Hr)) as (d & Hd & Cf & _ & _ & _ & Cz).
    destruct (N1 k c true (RR k c Hr)) as (e & He & Cf' & _ & _ & _ & Cz').
    exists (place (map snd (n_rows st)) k false), (place (map snd (n_rows st)) k true), d, e. split; [exact Hd|]. split; [exact He|].
    split; [|split; [|auto]].
    - rewrite (NL k c false d (RR k c Hr) Hd). destruct (Z.eqb_spec (cA c) (cB c)); [lia|reflexivity].
    - destruct HM as (_ & n & _ & _ & _ & _ & _ & _ & _ & HO & _).
      destruct (Nat.lt_trichotomy (place (map snd (n_rows st)) k false) (place (map snd (n_rows st)) k true)) as [H|[H|H]]; auto.
      + destruct (N3 k c false k c true (RR k c Hr) (RR k c Hr) H) as [_ H']. discriminate H'.
      + exfalso. destruct (HO _ _ e d H He Hd) as [H'|[H' _]]; lia. }
  assert (AZ : forall i f s, has_fiber m' i f -> az f s == qz f).
  { intros i f s [_ Hf]. unfold az. pose proof (flat' f (nth_error_In _ _ Hf)) as Pw. unfold in_plane in Pw. rewrite Pw. ring. }
  assert (hp : forall f, In f (q_rows m) -> 0 < qh f).
  { destruct (new_facts _ _ _ _ Hn) as (Hv & _). intros f Hf. apply (valid_fiber m Hv f Hf). }
  assert (ALL : forall n i f, (i < Z.of_nat n)%Z -> has_fiber m i f -> held m' g tol [] z i).
  { induction n as [|n IH]; intros i f Ln Hf; [destruct Hf; lia|].
    destruct (same_fiber m m' i f HS Hf) as (f' & Hf' & (_ & _ & Eh & _)).
    assert (D0 : forall i, disp (@nil Q) i = 0) by (intros i'; unfold disp; destruct (2 * i')%nat; reflexivity).
    destruct (HSU i f Hf) as [FL|(A & fa & (LA & k & c & Hr & EA & EB) & Hfa & TO)].
    - destruct (end_nodes m' per full i f' Hfull Hf') as (k & c & Hr & EA & EB & _).
      destruct (KR k c Hr) as (k' & Hr'). { destruct thr; auto. unfold kept. rewrite EA, EB, Z.eqb_refl. apply orb_true_r. }
      destruct (ND1 k' c Hr' ltac:(congruence)) as (x & d & Hd & Cd & Fd & Zd). rewrite EA in Fd. rewrite <- Fd.
      apply (held_floor m' g tol [] z x x d d); [repeat split; auto|]. exists (qh f'). split; [exists f'; rewrite Fd; auto|].
      rewrite D0, Zd. destruct (NetP.row_facts m' per None full Hfull k c Hr) as (ga & _ & Hga & _ & _ & _ & _ & EzA & _). rewrite EzA, (AZ _ ga (csA c) Hga).
      rewrite EA in Hga. assert (ga = f') by (destruct Hga as [_ G1]; destruct Hf' as [_ G2]; congruence). subst ga.
      rewrite (heights_fiber m' _ f' Hf') in FL. rewrite FL, Eh. lra.
    - destruct (same_fiber m m' A fa HS Hfa) as (fa' & Hfa' & (_ & _ & Eha & _)).
      rewrite (heights_fiber m' _ f' Hf'), (heights_fiber m' _ fa' Hfa') in TO.
      destruct (net_same_row per None m' m full t k c flat' (same_sym _ _ HS) Hfull Hn Hr) as (c' & Hr' & (SA & SB & _)).
      rewrite EA in SA. rewrite EB in SB.
      destruct (NetP.row_facts m' per None full Hfull k c' Hr') as (ga & gb & Hga & Hgb & _ & _ & _ & EzA & _ & _ & EzB & _).
      rewrite SA in Hga. rewrite SB in Hgb.
      assert (ga = fa') by (destruct Hga as [_ G1]; destruct Hfa' as [_ G2]; congruence). assert (gb = f') by (destruct Hgb as [_ G1]; destruct Hf' as [_ G2]; congruence). subst ga gb.
      assert (ZA : czA c' == qz fa') by (rewrite EzA; apply (AZ _ _ _ Hfa')). assert (ZB : czB c' == qz f') by (rewrite EzB; apply (AZ _ _ _ Hf')).
      destruct (KR k c' Hr') as (k' & Hr2).
      { destruct thr as [dd|]; auto. unfold kept. apply orb_true_iff. left. qb. cbn [wide] in HW.
        pose proof (HW fa f (nth_error_In _ _ (proj2 Hfa)) (nth_error_In _ _ (proj2 Hf))) as HWf.
        rewrite ZA, ZB, TO. setoid_replace (qz fa' + (qh fa + qh f) / 2 - qz fa') with ((qh fa + qh f) / 2) by ring.
        rewrite Qabs_pos; [exact HWf|].
        pose proof (hp fa (nth_error_In _ _ (proj2 Hfa))). pose proof (hp f (nth_error_In _ _ (proj2 Hf))). qlra. }
      destruct (ND2 k' c' Hr2 ltac:(lia)) as (x & y & d & e & Hd & He & Cd & Lxy & Fd & Fe & Zd & Ze). rewrite SA in Fd. rewrite SB in Fe. rewrite <- Fe.
      apply (held_below m' g tol [] z x y d e); [repeat split; auto; lia|lia| |rewrite Fd; apply (IH A fa); [lia|exact Hfa]].
      exists (qh fa'), (qh f'). split; [exists fa'; rewrite Fd; auto|]. split; [exists f'; rewrite Fe; auto|].
      rewrite !D0, Zd, Ze, ZA, ZB, TO, Eh, Eha. lra. }
  intros x d Hd. destruct (N2 x d Hd) as (k & c & b & (lab & Hr) & Epl). subst x.
  assert (Hr' : is_row st k c). { destruct OK as (_ & n & _ & _ & _ & HL & _). rewrite (HL _ _ _ Hr) in Hr. exact Hr. }
  destruct (N1 k c b (RR k c Hr')) as (d' & Hd' & Cf & _).
  assert (d' = d). { destruct HM as (_ & n & _ & _ & _ & HL & _). eapply node_fun; eauto. } subst d'.
  assert (HF : exists f, has_fiber m' (nf d) f).
  { assert (RF : exists k', is_row full k' c).
    { rewrite Est in Hr'. destruct thr as [dd|]; [|eauto]. apply filter_rows in Hr'.
      apply nth_error_In in Hr'. apply filter_In in Hr'. destruct Hr' as [Hr' _]. apply In_nth_error in Hr'.
      destruct Hr' as (k' & Hr'). apply (rows_snd full) in Hr'; eauto. }
    destruct RF as (k' & RF). destruct (NetP.row_facts m' per None full Hfull k' c RF) as (fa & fb & Hfa & Hfb & _).
    rewrite Cf. destruct b; eauto. }
  destruct HF as (f & Hf). destruct (same_fiber m' m _ f (same_sym _ _ HS) Hf) as (f0 & Hf0 & _).
  apply (ALL (Datatypes.S (Z.to_nat (nf d))) (nf d) f0); [|exact Hf0]. destruct Hf0. lia.
Qed.
