(** Proofs for C111: comparison of thresholds. *)
From Coq Require Import Lia Lqa.
From Verif Require Import Num NumP ListX ListP Frames MatM NetM StackM MeshM ModelM Spec SpecNet SpecStack SpecMesh SpecModel SpecPiles SpecThreshold NetP NetZP StackP StackNewP MetaP MeshP PilesP.
Open Scope Q_scope.

Lemma filter_twice {A} (p q : A -> bool) l : (forall x, p x = true -> q x = true) -> filter p (filter q l) = filter p l.
Proof.
  intros H. induction l as [|x l IH]; [reflexivity|]. cbn [filter]. destruct (q x) eqn:E; cbn [filter]; [rewrite IH; reflexivity|].
  destruct (p x) eqn:E'; [apply H in E'; congruence|exact IH].
Qed.
Lemma filter_every {A} (p : A -> bool) l : (forall x, In x l -> p x = true) -> filter p l = l.
Proof. intros H. induction l as [|x l IH]; [reflexivity|]. cbn [filter]. rewrite (H x (or_introl eq_refl)), IH; [reflexivity|]. intros y Hy. apply H. right. exact Hy. Qed.
Lemma close_more d d' c : d <= d' -> close_enough d c -> close_enough d' c.
Proof. intros L [H|H]; [left; exact H|right; lra]. Qed.

Theorem nested linprog m t d d' st st' m1 m2 : d <= d' -> stack_new linprog m t (Some d) = Ok (st, m1) -> stack_new linprog m t (Some d') = Ok (st', m2) ->
  m1 = m2 /\ kept_of d st st'.
Proof.
  intros L H1 H2. apply stack_inv in H1. apply stack_inv in H2. destruct H1 as (_ & _ & p & Ep & H1). destruct H2 as (_ & _ & p' & Ep' & H2).
  assert (p = p') by congruence. subst p'. destruct H1 as [(E & -> & ->)|(N & -> & full & Hfull & ->)].
  - destruct H2 as [(_ & -> & ->)|(N & _)]; [|contradiction]. split; [reflexivity|]. exists (fun k => k).
    split; [auto|]. split; [auto|]. intros k c Hr. left. exists k. auto.
  - destruct H2 as [(C & _)|(_ & -> & full2 & Hfull2 & ->)]; [contradiction|]. assert (full = full2) by congruence. subst full2. split; [reflexivity|].
    assert (M : forall c, kept d c = true -> kept d' c = true) by (intros c Hc; apply kept_iff; apply kept_iff in Hc; apply (close_more d); assumption).
    destruct (filter_embed (kept d) (filter (kept d') (map snd (n_rows full)))) as (phi & P1 & P2 & P3). rewrite (filter_twice _ _ _ M) in P1, P2, P3.
    exists phi. split; [|split].
    + intros k k' A B. apply P1; [exact A|]. cbn [filter_net n_rows] in B. rewrite enum_length in B. exact B.
    + intros k c Hr. apply filter_rows in Hr. apply filter_rows. apply (P2 _ _ Hr).
    + intros k c Hr. apply filter_rows in Hr. destruct (kept d c) eqn:Ek.
      * left. destruct (P3 _ _ Hr Ek) as (k' & A & B). exists k'. split; [exact A|]. apply filter_rows. exact B.
      * right. destruct (Qlt_le_dec d (Qabs (czB c - czA c))) as [G|G]; [exact G|]. assert (kept d c = true) by (apply kept_iff; right; exact G). congruence.
Qed.

Section Built.
  Variable linprog : lp -> list Q.
  Variables (m : qmat) (per : bool) (t : net_df).
  Hypothesis Hnew : net_new m per None = Ok t.
  Hypothesis Hsol : solved linprog m t.
  Hypothesis flat : all_in_plane m.
  Lemma ok_t : net_ok t /\ ~ flag_set (n_attrs t).
  Proof. destruct (new_facts _ _ _ _ Hnew) as (_ & Hok & _ & Hf & _). auto. Qed.

  (** rows of the stack without threshold between two fibers *)
  Lemma full_gap full m' k c : stack_new linprog m t None = Ok (full, m') -> is_row full k c -> cA c = cB c \/
    exists f g, has_fiber m' (cA c) f /\ has_fiber m' (cB c) g /\ czA c == qz f /\ czB c == qz g /\ (qh f + qh g) / 2 <= czB c - czA c /\ 0 < qh f /\ 0 < qh g /\ qh f / 2 <= qz f.
  Proof.
    intros H Hr. destruct (Z.eq_dec (cA c) (cB c)) as [E|NE]; [left; exact E|right].
    destruct (built_inv linprog m per t Hnew Hsol _ _ _ H) as (p & Ep & _ & HS & EH & full' & Hfull & Est). cbn [filter_net] in Est. subst full'.
    destruct (on_axes m' per None full k c Hfull Hr) as (f & g & Hf & Hg & _).
    pose proof (new_ok _ _ _ _ Hfull) as Hok'. assert (L : (cA c < cB c)%Z).
    { destruct Hok' as (_ & nn & _ & _ & _ & _ & _ & _ & HO & _). unfold is_row in Hr. apply nth_error_In in Hr. specialize (HO _ _ Hr). unfold ordered in HO. lia. }
    destruct (built_rows linprog m per t Hnew Hsol flat None full m' H k c f g Hr L Hf Hg) as (A1 & A2 & A3 & A4).
    destruct (built_heights linprog m per t Hnew Hsol _ _ _ H) as (_ & (_ & AF & _) & _).
    pose proof (new_valid _ _ _ _ Hfull) as Hv.
    exists f, g. repeat (split; [assumption|]).
    assert (PH : forall i q, has_fiber m' i q -> 0 < qh q) by (intros i q [_ Hq]; apply (valid_fiber m' Hv q), (nth_error_In _ _ Hq)).
    split; [apply (PH _ _ Hf)|]. split; [apply (PH _ _ Hg)|].
    destruct (same_fiber m' m (cA c) f (same_sym _ _ HS) Hf) as (f0 & Hf0 & (_ & _ & EQ & _)). pose proof (AF _ _ Hf0) as B. rewrite (heights_fiber m' (cA c) f Hf) in B. rewrite EQ. exact B.
  Qed.
  Lemma both_full thr thr' st st' m1 m2 : stack_new linprog m t thr = Ok (st, m1) -> stack_new linprog m t thr' = Ok (st', m2) ->
    m1 = m2 /\ exists full, net_new m1 per None = Ok full /\ st = filter_net thr full /\ st' = filter_net thr' full.
  Proof.
    intros H1 H2. destruct (built_inv linprog m per t Hnew Hsol _ _ _ H1) as (p & Ep & L & HS & EH & full & Hfull & Est).
    destruct (built_inv linprog m per t Hnew Hsol _ _ _ H2) as (p' & Ep' & L' & HS' & EH' & full' & Hfull' & Est').
    assert (E : m1 = m2); [|split; [exact E|]; exists full; subst m2; assert (full = full') by congruence; subst full'; auto].
    apply stack_inv in H1. apply stack_inv in H2. destruct H1 as (_ & _ & q & Eq1 & [(E & _ & ->)|(N & -> & _)]), H2 as (_ & _ & q' & Eq2 & [(E' & _ & ->)|(N' & -> & _)]); try contradiction; congruence.
  Qed.
  Theorem large d full st m1 m2 : stack_new linprog m t None = Ok (full, m1) -> stack_new linprog m t (Some d) = Ok (st, m2) ->
    (forall f, In f (q_rows m1) -> qz f <= d) -> m1 = m2 /\ same_rows st full.
  Proof.
    intros H1 H2 Hd. destruct (both_full _ _ _ _ _ _ H1 H2) as (EM & f0 & Hfull & Ef & Est). cbn [filter_net] in Ef. subst f0. split; [exact EM|].
    intros k c. rewrite Est, filter_rows, filter_every; [apply rows_snd; apply (new_ok _ _ _ _ Hfull)|].
    intros x Hx. apply In_nth_error in Hx. destruct Hx as (j & Hj). apply (rows_snd full j x (new_ok _ _ _ _ Hfull)) in Hj. apply kept_iff.
    destruct (full_gap full m1 j x H1 Hj) as [E|(f & g & Hf & Hg & A1 & A2 & A3 & P1 & P2 & B)]; [left; exact E|right].
    pose proof (Hd g (nth_error_In _ _ (proj2 Hg))). rewrite Qabs_pos by qlra. qlra.
  Qed.
  Theorem small d st m' : stack_new linprog m t (Some d) = Ok (st, m') -> (forall f, In f (q_rows m) -> d < qh f) -> forall k c, is_row st k c -> cA c = cB c.
  Proof.
    intros H Hd k c Hr. destruct (stack_total linprog m t None) as (full & m1 & H1); try apply (new_facts _ _ _ _ Hnew); [exact Hsol|].
    destruct (threshold_rows linprog m t d full m1 st m' (proj1 ok_t) (proj2 ok_t) H1 H) as (-> & phi & _ & P2 & _). destruct (P2 k c Hr) as [Hf C].
    destruct C as [C|C]; [exact C|].
    destruct (full_gap full m' _ c H1 Hf) as [E|(f & g & Ff & Fg & A1 & A2 & A3 & P3 & P4 & B)]; [exact E|exfalso].
    destruct (built_inv linprog m per t Hnew Hsol _ _ _ H1) as (_ & _ & _ & HS & _).
    destruct (same_fiber m' m _ f (same_sym _ _ HS) Ff) as (f0 & Hf0 & (_ & _ & E1 & _)). destruct (same_fiber m' m _ g (same_sym _ _ HS) Fg) as (g0 & Hg0 & (_ & _ & E2 & _)).
    pose proof (Hd f0 (nth_error_In _ _ (proj2 Hf0))) as X. pose proof (Hd g0 (nth_error_In _ _ (proj2 Hg0))) as Y. rewrite <- E1 in X. rewrite <- E2 in Y.
    rewrite Qabs_pos in C by qlra. qlra.
  Qed.
  Theorem supports d st m' : stack_new linprog m t (Some d) = Ok (st, m') -> (forall f, In f (q_rows m) -> qh f <= d) -> supported m st (heights m').
  Proof.
    intros H Hd i f Hf. destruct (stack_total linprog m t None) as (full & m1 & H1); try apply (new_facts _ _ _ _ Hnew); [exact Hsol|].
    destruct (threshold_rows linprog m t d full m1 st m' (proj1 ok_t) (proj2 ok_t) H1 H) as (-> & phi & _ & _ & P3).
    destruct (built_heights linprog m per t Hnew Hsol _ _ _ H) as (HS & _ & SU). destruct (SU i f Hf) as [E|(A & g & (L & k & c & Hr & EA & EB) & Hg & E)]; [left; exact E|right].
    exists A, g. split; [|split; assumption]. split; [exact L|].
    destruct (built_same linprog m per t Hnew Hsol flat full m' H1) as (LN & SR).
    destruct (nth_error (n_rows full) k) as [r|] eqn:Ek; [|apply nth_error_None in Ek; assert (k < length (n_rows t))%nat by (apply nth_error_Some; unfold is_row in Hr; congruence); lia].
    destruct (built_inv linprog m per t Hnew Hsol _ _ _ H1) as (_ & _ & _ & _ & _ & full0 & Hfull & Ef). cbn [filter_net] in Ef. subst full0.
    destruct (numbered m' per None full k r Hfull Ek) as (x & _ & Hx). pose proof (SR k c x Hr Hx) as (EA' & EB' & _).
    assert (C : close_enough d x).
    { right. destruct (same_fiber m m' A g HS Hg) as (g1 & Hg1 & _). destruct (same_fiber m m' i f HS Hf) as (f1 & Hf1 & _).
      destruct (built_rows linprog m per t Hnew Hsol flat None full m' H1 k x g1 f1 Hx) as (Z1 & Z2 & _ & Z4); [lia|rewrite <- EA', EA; exact Hg1|rewrite <- EB', EB; exact Hf1|].
      rewrite (heights_fiber m' i f1 Hf1), (heights_fiber m' A g1 Hg1) in E.
      pose proof (Hd f (nth_error_In _ _ (proj2 Hf))). pose proof (Hd g (nth_error_In _ _ (proj2 Hg))).
      destruct (new_facts _ _ _ _ Hnew) as (Hv & _). assert (0 < qh f) by (apply (valid_fiber m Hv f), (nth_error_In _ _ (proj2 Hf))). assert (0 < qh g) by (apply (valid_fiber m Hv g), (nth_error_In _ _ (proj2 Hg))).
      rewrite Qabs_pos by qlra. qlra. }
    destruct (P3 k x Hx C) as (k' & _ & Hk'). exists k', x. split; [exact Hk'|]. split; congruence.
  Qed.
End Built.

(** ** meshes *)
Lemma kept_labelled linprog m per pairs t d st m' : net_new m per pairs = Ok t -> stack_new linprog m t (Some d) = Ok (st, m') -> labelled_in_order (n_rows st).
Proof.
  intros Hnew H. apply stack_inv in H. destruct H as (_ & _ & p & _ & [(_ & -> & _)|(_ & _ & full & _ & ->)]).
  - destruct (new_facts _ _ _ _ Hnew) as (_ & (_ & n & _ & _ & _ & L & _) & _). exact L.
  - intros k lab a E. cbn [filter_net n_rows] in E. rewrite enum_nth_error in E. destruct (nth_error _ k); [|discriminate]. cbn in E. congruence.
Qed.
Lemma kept_nodes d t t' g g' : labelled_in_order (n_rows t) -> kept_of d t t' -> mesh_init t = Ok g -> mesh_init t' = Ok g' -> nodes_of g g'.
Proof.
  intros L (phi & P1 & P2 & _) Hg Hg'.
  destruct (init_numbers t g Hg) as ((A1 & A2 & A3) & AL). destruct (init_numbers t' g' Hg') as ((B1 & B2 & B3) & BL).
  set (pl := place (map snd (n_rows t))) in *. set (pl' := place (map snd (n_rows t'))) in *. set (n := length (n_rows t)).
  set (psi := fun i => match find (fun kb => Nat.eqb (pl (fst kb) (snd kb)) i) (list_prod (seq 0 n) [false; true]) with Some kb => pl' (phi (fst kb)) (snd kb) | None => 0%nat end).
  assert (R : forall k c, nth_row t k c -> (k < n)%nat /\ nth_row t' (phi k) c).
  { intros k c (lab & E). split; [apply nth_error_Some; congruence|]. pose proof (L _ _ _ E). subst lab. eexists. apply (P2 _ _ E). }
  assert (V : forall k c b, nth_row t k c -> psi (pl k b) = pl' (phi k) b).
  { intros k c b Hk. unfold psi. destruct (find _ _) as [[k' b']|] eqn:F.
    - apply find_some in F. destruct F as [I F]. cbn [fst snd] in *. apply Nat.eqb_eq in F. apply in_prod_iff in I. destruct I as [I _]. apply in_seq in I.
      destruct (nth_error (n_rows t) k') as [[lab c']|] eqn:E; [|apply nth_error_None in E; unfold n in I; lia].
      destruct (A3 k' c' b' k c b (ex_intro _ _ E) Hk F) as [-> ->]. reflexivity.
    - pose proof (find_none _ _ F (k, b)) as N. cbn [fst snd] in N. rewrite Nat.eqb_refl in N. exfalso. assert (true = false); [|discriminate]. apply N. apply in_prod; [|destruct b; simpl; auto].
      apply in_seq. destruct (R _ _ Hk). lia. }
  exists psi. split.
  - intros i d0 Hi. destruct (A2 _ _ Hi) as (k & c & b & Hk & <-). destruct (A1 _ _ b Hk) as (d1 & Hd1 & C1). destruct Hi as (l & Hi). destruct Hd1 as (l1 & Hd1). assert (d1 = d0) by congruence. subst d1. destruct (R _ _ Hk) as [_ Hk'].
    destruct (B1 _ _ b Hk') as (d' & Hd' & C2). exists d'. rewrite (V _ _ b Hk). split; [exact Hd'|].
    destruct C1 as (E1 & E2 & E3 & E4 & E5), C2 as (F1 & F2 & F3 & F4 & F5). do 5 (split; [congruence|]).
    rewrite (BL _ _ b d' Hk' Hd'), (AL _ _ b d0 Hk (ex_intro _ _ Hi)). rewrite Nat2Z.id. destruct (Z.eqb (cA c) (cB c)); [rewrite (V _ _ b Hk)|rewrite (V _ _ (negb b) Hk)]; reflexivity.
  - intros i d0 j e Hi Hj E. destruct (A2 _ _ Hi) as (k & c & b & Hk & <-). destruct (A2 _ _ Hj) as (k' & c' & b' & Hk' & <-). rewrite (V _ _ b Hk), (V _ _ b' Hk') in E.
    destruct (R _ _ Hk) as [K1 K2]. destruct (R _ _ Hk') as [K1' K2']. destruct (B3 _ _ _ _ _ _ K2 K2' E) as [Ephi ->].
    destruct (Nat.lt_trichotomy k k') as [G|[->|G]]; [| reflexivity |].
    + pose proof (P1 _ _ G K1'). lia.
    + pose proof (P1 _ _ G K1). lia.
Qed.
Theorem mesh_nested linprog m per pairs t d d' st st' m1 m2 g g' : net_new m per pairs = Ok t -> d <= d' -> stack_new linprog m t (Some d) = Ok (st, m1) -> stack_new linprog m t (Some d') = Ok (st', m2) ->
  mesh_new st = Ok g -> mesh_new st' = Ok g' -> nodes_of g g'.
Proof.
  intros Hnew L H1 H2 Hg Hg'. destruct (nested _ _ _ _ _ _ _ _ _ L H1 H2) as (_ & K).
  apply (kept_nodes d st st'); [eapply kept_labelled; eassumption|exact K|apply mesh_new_inv; assumption|apply mesh_new_inv; assumption].
Qed.
Theorem same_lid linprog m per t thr thr' st st' m1 m2 g g' cs cs' : net_new m per None = Ok t -> solved linprog m t -> all_in_plane m ->
  stack_new linprog m t thr = Ok (st, m1) -> stack_new linprog m t thr' = Ok (st', m2) -> mesh_new st = Ok g -> mesh_new st' = Ok g' ->
  constraint m1 g = Ok cs -> constraint m2 g' = Ok cs' -> csZ cs == csZ cs'.
Proof.
  intros Hnew Hsol flat H1 H2 G1 G2 C1 C2.
  destruct (lid_piles linprog m per t thr st m1 Hnew Hsol H1 flat g G1 cs C1) as (A & i & r & _ & P & E).
  destruct (lid_piles linprog m per t thr' st' m2 Hnew Hsol H2 flat g' G2 cs' C2) as (A' & i' & r' & _ & P' & E').
  pose proof (A _ _ I P'). pose proof (A' _ _ I P). lra.
Qed.
