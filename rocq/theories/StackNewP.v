(** Proofs about Stack(mat, net) as a whole (C18 - C22). *)
From Coq Require Import String Permutation.
From Verif Require Import Num NumP ListX ListP Frames MatM NetM StackM Spec SpecNet SpecStack
  CheckP MatP NetP NetGeoP NetZP StackP.
Open Scope Q_scope.

(** ** Replacing heights *)
Lemma set_z_same m z : length z = length (q_rows m) -> same_but_heights m (set_z m z).
Proof.
  intros L. split; [reflexivity|]. simpl. revert z L. induction (q_rows m) as [|f l IH]; intros [|x z] L;
    simpl in *; try discriminate; constructor.
  - unfold same_but_z, with_z; simpl. repeat split.
  - apply IH. lia.
Qed.
Lemma set_z_heights m z : length z = length (q_rows m) -> heights (set_z m z) = z.
Proof.
  unfold heights, set_z. simpl. revert z. induction (q_rows m) as [|f l IH]; intros [|x z] L;
    simpl in *; try discriminate; auto. f_equal. apply IH. lia.
Qed.
Lemma set_z_twice m z : length z = length (q_rows m) -> set_z (set_z m z) z = set_z m z.
Proof.
  unfold set_z. simpl. intros L. f_equal. revert z L. induction (q_rows m) as [|f l IH]; intros [|x z] L;
    simpl in *; try discriminate; auto. f_equal. apply IH. lia.
Qed.
Lemma set_z_h m z : length z = length (q_rows m) -> map qh (q_rows (set_z m z)) = map qh (q_rows m)
  /\ map (fun f => np_pi / 4 * (ql f * qb f * qh f)) (q_rows (set_z m z))
     = map (fun f => np_pi / 4 * (ql f * qb f * qh f)) (q_rows m)
  /\ length (q_rows (set_z m z)) = length (q_rows m).
Proof.
  unfold set_z. simpl. revert z. induction (q_rows m) as [|f l IH]; intros [|x z] L;
    simpl in *; try discriminate; auto. destruct (IH z) as (E1 & E2 & E3); [lia|].
  rewrite E1, E2, E3. auto.
Qed.

Lemma same_checks p m m' : (forall f g, same_but_z f g -> p (fiber_of f) = p (fiber_of g)) ->
  Forall2 same_but_z m m' ->
  forallb p (map snd (enum (map fiber_of m))) = forallb p (map snd (enum (map fiber_of m'))).
Proof.
  intros H F. rewrite !enum_snd. induction F as [|f g l l' Hfg F IH]; simpl; auto.
  rewrite (H _ _ Hfg), IH. auto.
Qed.
Lemma check_same m m' : same_but_heights m m' -> mat_check (df_of m) = mat_check (df_of m').
Proof.
  intros [ES F]. pose proof (Forall2_len _ _ _ F) as EL.
  unfold mat_check, m_index, df_of. cbn [m_attrs m_cols m_rows at_n at_size skipped at_skip].
  rewrite !enum_fst, !enum_length, !map_length, ES, EL.
  rewrite (same_checks dims_pos _ _ ltac:(intros f g (E1 & E2 & E3 & _); unfold dims_pos, fiber_of; simpl;
    rewrite E1, E2, E3; auto) F).
  rewrite (same_checks (in_box (Fin (q_size m'))) _ _ ltac:(intros f g (_ & _ & _ & E1 & E2 & _);
    unfold in_box, fiber_of; simpl; rewrite E1, E2; auto) F).
  rewrite (same_checks unit_norm _ _ ltac:(intros f g (_ & _ & _ & _ & _ & E1 & E2 & E3 & _);
    unfold unit_norm, fiber_of; simpl; rewrite E1, E2, E3; auto) F).
  rewrite (same_checks moduli_pos _ _ ltac:(intros f g (_ & _ & _ & _ & _ & _ & _ & _ & E1 & E2);
    unfold moduli_pos, fiber_of; simpl; rewrite E1, E2; auto) F).
  reflexivity.
Qed.
Lemma check_valid m : mat_check (df_of m) = Ok true -> valid m.
Proof. intros H. apply mat_check_ok in H. destruct H as [H|H]; [discriminate H|exact H]. Qed.
Lemma same_valid m m' : same_but_heights m m' -> valid m -> valid m'.
Proof.
  intros HS Hv. apply check_valid. rewrite <- (check_same _ _ HS). apply valid_check; auto.
Qed.
Lemma same_sym m m' : same_but_heights m m' -> same_but_heights m' m.
Proof.
  intros [E F]. split; auto. clear E. induction F; constructor; auto.
  unfold same_but_z in *. intuition congruence.
Qed.
Lemma same_fiber m m' i f : same_but_heights m m' -> has_fiber m i f ->
  exists g, has_fiber m' i g /\ same_but_z f g.
Proof.
  intros [_ F] [Hi E]. destruct (Forall2_nth_error _ _ _ _ _ F E) as (g & Eg & Hg).
  exists g. split; [split|]; auto.
Qed.
Lemma same_plane m m' : same_but_heights m m' -> all_in_plane m -> all_in_plane m'.
Proof.
  intros [_ F] HP g Hg. unfold all_in_plane, in_plane in *. revert HP. induction F as [|f g' l l' H F IH]; [destruct Hg|].
  intros HP. destruct Hg as [<-|Hg].
  - destruct H as (_ & _ & _ & _ & _ & _ & _ & <- & _). apply HP. left; auto.
  - apply IH; auto. intros; apply HP; right; auto.
Qed.

(** ** The threshold filter *)
Lemma filter_embed {A} (p : A -> bool) l : exists phi,
  (forall k k', (k < k')%nat -> (k' < length (filter p l))%nat -> (phi k < phi k')%nat) /\
  (forall k x, nth_error (filter p l) k = Some x -> nth_error l (phi k) = Some x /\ p x = true) /\
  (forall k x, nth_error l k = Some x -> p x = true -> exists k', phi k' = k /\ nth_error (filter p l) k' = Some x).
Proof.
  induction l as [|a l (phi & H1 & H2 & H3)]; simpl.
  - exists (fun k => k). split; [intros; simpl in *; lia|]. split; intros [|k] x; discriminate.
  - destruct (p a) eqn:Ea.
    + exists (fun k => match k with O => O | S k' => S (phi k') end). split; [|split].
      * intros [|k] [|k'] L L'; simpl in *; try lia. pose proof (H1 k k'). lia.
      * intros [|k] x H; simpl in *; [inversion H; subst; auto|auto].
      * intros [|k] x H Hx; simpl in *.
        -- exists 0%nat. auto.
        -- destruct (H3 k x H Hx) as (k' & <- & E). exists (S k'). auto.
    + exists (fun k => S (phi k)). split; [|split].
      * intros k k' L L'. pose proof (H1 k k' L L'). lia.
      * intros k x H. simpl. auto.
      * intros [|k] x H Hx; simpl in *; [inversion H; congruence|].
        destruct (H3 k x H Hx) as (k' & <- & E). exists k'. auto.
Qed.
Lemma kept_iff d c : kept d c = true <-> close_enough d c.
Proof.
  unfold kept, close_enough. rewrite orb_true_iff, Z.eqb_eq. split; intros [H|H]; auto; qb; auto.
  left. qb. auto.
Qed.
Lemma rows_snd t k c : net_ok t -> nth_error (map snd (n_rows t)) k = Some c <-> is_row t k c.
Proof.
  intros (_ & nn & _ & _ & _ & HL & _). unfold is_row. rewrite nth_error_map. split.
  - destruct (nth_error (n_rows t) k) as [[i c']|] eqn:E; simpl; [|discriminate].
    intros H; inversion H; subst. f_equal. f_equal. eapply HL; eauto.
  - intros ->. auto.
Qed.
Lemma filter_rows d t k c : is_row (filter_net (Some d) t) k c <->
  nth_error (filter (kept d) (map snd (n_rows t))) k = Some c.
Proof.
  unfold is_row. simpl. rewrite enum_nth_error. split.
  - destruct (nth_error _ k); simpl; [|discriminate]. intros H; inversion H; auto.
  - intros ->. auto.
Qed.
Lemma filter_ok thr t : net_ok t -> net_ok (filter_net thr t).
Proof.
  intros Hok. destruct thr as [d|]; [|exact Hok]. pose proof Hok as (H1 & nn & H2 & H3 & H4 & H5 & H6 & H7 & H8 & H9).
  destruct (filter_embed (kept d) (map snd (n_rows t))) as (phi & P1 & P2 & P3).
  assert (HIn : forall k c, In (k, c) (n_rows (filter_net (Some d) t)) -> exists k', In (k', c) (n_rows t)).
  { intros k c Hc. simpl in Hc.
    assert (Hc' : In c (filter (kept d) (map snd (n_rows t)))).
    { rewrite <- (enum_snd (filter (kept d) (map snd (n_rows t)))). apply in_map_iff. exists (k, c). auto. }
    apply filter_In in Hc'. destruct Hc' as [Hc' _]. apply in_map_iff in Hc'.
    destruct Hc' as ([k' c'] & <- & Hc'). exists k'. auto. }
  split; [exact H1|]. exists nn. split; [exact H2|]. split; [exact H3|]. split; [exact H4|].
  split; [apply enum_labelled|]. split; [exact H6|]. split; [|split].
  - intros k c Hc. apply HIn in Hc. destruct Hc as (k' & Hc). eapply H7; eauto.
  - intros k c Hc. apply HIn in Hc. destruct Hc as (k' & Hc). eapply H8; eauto.
  - intros i j li lj c e L Hi Hj.
    assert (Ri : is_row (filter_net (Some d) t) i c).
    { unfold is_row. rewrite Hi. f_equal. f_equal. exact (enum_labelled _ _ _ _ Hi). }
    assert (Rj : is_row (filter_net (Some d) t) j e).
    { unfold is_row. rewrite Hj. f_equal. f_equal. exact (enum_labelled _ _ _ _ Hj). }
    apply filter_rows in Ri. apply filter_rows in Rj.
    assert (Lp : (phi i < phi j)%nat) by (apply P1; auto; apply nth_error_Some; congruence).
    apply P2 in Ri. apply P2 in Rj. destruct Ri as [Ri _]. destruct Rj as [Rj _].
    apply (rows_snd t _ _ Hok) in Ri. apply (rows_snd t _ _ Hok) in Rj.
    exact (H9 _ _ _ _ _ _ Lp Ri Rj).
Qed.

(** ** Stack(mat, net) *)
Section New.
  Variable linprog : lp -> list Q.

  Lemma periodic_of t : net_ok t ->
    exists per, at_periodic (n_attrs t) = Some per.
  Proof. intros (_ & nn & _ & _ & H & _). destruct (at_periodic (n_attrs t)); [eauto|congruence]. Qed.

  Lemma constraint_total m t : valid m -> net_ok t -> labels_fit m t ->
    exists p, stack_constraint m t = Ok p.
  Proof.
    intros Hv Hok Hl. unfold stack_constraint. rewrite (valid_check m Hv).
    rewrite (proj2 (net_check_ok t) (or_intror Hok)). simpl.
    assert (HF : forallb (fun p => (0 <=? fst p)%Z && (fst p <? Z.of_nat (length (q_rows m)))%Z
                             && (0 <=? snd p)%Z && (snd p <? Z.of_nat (length (q_rows m)))%Z) (strict_pairs t) = true).
    { apply forallb_forall. intros [A B] HAB. unfold strict_pairs in HAB. apply in_map_iff in HAB.
      destruct HAB as (c & E & Hc). inversion E; subst. apply filter_In in Hc. destruct Hc as [Hc _].
      apply in_map_iff in Hc. destruct Hc as ([k c'] & <- & Hc).
      destruct Hok as (_ & nn & En & _ & _ & _ & _ & HR & _). unfold labels_fit in Hl. rewrite Hl in En.
      inversion En; subst nn. destruct (HR _ _ Hc) as [H1 H2]. simpl.
      rewrite !andb_true_iff, !Z.leb_le, !Z.ltb_lt. lia. }
    rewrite HF. simpl. eauto.
  Qed.
  Lemma stack_inv m t thr st m' : stack_new linprog m t thr = Ok (st, m') ->
    mat_check (df_of m) = Ok true /\ net_check t = Ok true /\
    exists p, stack_constraint m t = Ok p /\
      ((q_rows m = [] /\ st = t /\ m' = m) \/
       (q_rows m <> [] /\ m' = set_z m (linprog p) /\ exists full,
          net_new m' (match at_periodic (n_attrs t) with Some b => b | None => true end) None = Ok full
          /\ st = filter_net thr full)).
  Proof.
    unfold stack_new, stack_solve.
    destruct (mat_check (df_of m)) as [b|] eqn:E1; [|discriminate]. apply mat_check_true in E1 as ->.
    destruct (net_check t) as [b|] eqn:E2; [|discriminate]. apply net_check_true in E2 as ->.
    destruct (stack_constraint m t) as [p|] eqn:E3; [|discriminate]. simpl.
    intros H. split; auto. split; auto. exists p. split; auto.
    destruct (q_rows m) as [|f l] eqn:E4.
    - left. simpl in H. inversion H; subst. auto.
    - right. split; [discriminate|]. simpl in H.
      destruct (net_new (set_z m (linprog p)) _ None) as [full|] eqn:E5; [|discriminate]. simpl in H.
      destruct (net_check (filter_net thr full)) eqn:E6; [|discriminate]. simpl in H. inversion H; subst.
      split; auto. exists full. auto.
  Qed.
  Lemma solved_length m t p : ~ flag_set (n_attrs t) -> solved linprog m t ->
    stack_constraint m t = Ok p -> length (linprog p) = length (q_rows m).
  Proof.
    intros Hf Hs Hp. destruct (Hs p Hp) as [F _]. apply (feasible_iff m t p Hp Hf) in F. apply F.
  Qed.
  Lemma ok_noflag t : net_ok t -> at_skip (n_attrs t) = None -> ~ flag_set (n_attrs t).
  Proof. intros _ H C. unfold flag_set in C. rewrite H in C. discriminate C. Qed.

  Lemma stack_total m t thr : valid m -> net_ok t -> labels_fit m t -> ~ flag_set (n_attrs t) ->
    solved linprog m t -> exists st m', stack_new linprog m t thr = Ok (st, m').
  Proof.
    intros Hv Hok Hl Hf Hs. destruct (constraint_total m t Hv Hok Hl) as (p & Hp).
    unfold stack_new, stack_solve. rewrite (valid_check m Hv), (proj2 (net_check_ok t) (or_intror Hok)), Hp. simpl.
    pose proof (solved_length m t p Hf Hs Hp) as L.
    destruct (q_rows m) eqn:E; [eexists; eexists; reflexivity|]. simpl.
    assert (Hv' : valid (set_z m (linprog p))).
    { eapply same_valid; [apply set_z_same|auto]. rewrite L, E. auto. }
    destruct (periodic_of t Hok) as (per & ->).
    destruct (net_total (set_z m (linprog p)) per None Hv') as (full & Hfull); [intros ? ? ? C; discriminate C|].
    rewrite Hfull. simpl.
    pose proof (filter_ok thr full (new_ok _ _ _ _ Hfull)) as HF.
    rewrite (proj2 (net_check_ok _) (or_intror HF)). simpl. eauto.
  Qed.
End New.

(** a network built by Net *)
Lemma new_facts m per pairs t : net_new m per pairs = Ok t ->
  valid m /\ net_ok t /\ labels_fit m t /\ ~ flag_set (n_attrs t) /\ at_periodic (n_attrs t) = Some per.
Proof.
  intros H. split; [eapply new_valid; eauto|]. split; [eapply new_ok; eauto|].
  apply net_new_inv in H. destruct H as (_ & ps & _ & _ & ->). simpl. split; [reflexivity|]. split; [|auto].
  intros C. discriminate C.
Qed.
Lemma new_by_A m per pairs t : net_new m per pairs = Ok t -> rows_by_A t.
Proof.
  intros H k l c d L Hc Hd. destruct (rows_increasing m per pairs t H _ _ _ _ L Hc Hd) as [X|[X _]]; lia.
Qed.
Lemma net_same_row per pairs m m' t t' k c : all_in_plane m -> same_but_heights m m' ->
  net_new m per pairs = Ok t -> net_new m' per pairs = Ok t' -> is_row t' k c ->
  exists d, is_row t k d /\ same_from_above d c.
Proof.
  intros HP HS H H' Hc. destruct (net_same per pairs m m' t t' HP HS H H') as [EL HR].
  assert (Lk : (k < length (n_rows t))%nat).
  { rewrite EL. apply nth_error_Some. unfold is_row in Hc. congruence. }
  destruct (nth_error (n_rows t) k) as [r|] eqn:E; [|apply nth_error_None in E; lia].
  destruct (numbered m per pairs t k r H E) as (d & _ & Hd). exists d. split; auto. eapply HR; eauto.
Qed.
Lemma connected_same per pairs m m' t t' A B : all_in_plane m -> same_but_heights m m' ->
  net_new m per pairs = Ok t -> net_new m' per pairs = Ok t' -> connected t' A B -> connected t A B.
Proof.
  intros HP HS H H' (L & k & c & Hc & EA & EB). split; auto.
  destruct (net_same_row per pairs m m' t t' k c HP HS H H' Hc) as (d & Hd & E1 & E2 & _).
  exists k, d. rewrite E1, E2. auto.
Qed.
Lemma strict_same per pairs m m' t t' : all_in_plane m -> same_but_heights m m' ->
  net_new m per pairs = Ok t -> net_new m' per pairs = Ok t' -> strict_pairs t = strict_pairs t'.
Proof.
  intros HP HS H H'. pose proof (net_same per pairs m m' t t' HP HS H H') as [EL HR].
  assert (F : Forall2 same_from_above (map snd (n_rows t)) (map snd (n_rows t'))).
  { pose proof (new_ok _ _ _ _ H) as O. pose proof (new_ok _ _ _ _ H') as O'.
    assert (N : forall k c d, nth_error (map snd (n_rows t)) k = Some c ->
       nth_error (map snd (n_rows t')) k = Some d -> same_from_above c d).
    { intros k c d Hc Hd. apply (rows_snd t) in Hc; auto. apply (rows_snd t') in Hd; auto. eapply HR; eauto. }
    assert (EL' : length (map snd (n_rows t)) = length (map snd (n_rows t'))) by (rewrite !map_length; auto).
    revert EL' N. generalize (map snd (n_rows t)) (map snd (n_rows t')). clear.
    induction l as [|c l IH]; intros [|d l'] EL N; simpl in *; try discriminate; constructor.
    - apply (N 0%nat); auto.
    - apply IH; [lia|]. intros k. apply (N (S k)). }
  unfold strict_pairs. induction F as [|c d l l' (E1 & E2 & _) F IH]; simpl; auto.
  rewrite E1, E2. destruct (_ <? _)%Z; simpl; rewrite ?E1, ?E2, IH; auto.
Qed.

Section Built.
  Variable linprog : lp -> list Q.
  Variable m : qmat.
  Variable per : bool.
  Variable t : net_df.
  Hypothesis Hnew : net_new m per None = Ok t.
  Hypothesis Hsol : solved linprog m t.

  Lemma built_total thr : exists st m', stack_new linprog m t thr = Ok (st, m').
  Proof.
    destruct (new_facts _ _ _ _ Hnew) as (Hv & Hok & Hl & Hf & Hp). apply stack_total; auto.
  Qed.
  Lemma built_inv thr st m' : stack_new linprog m t thr = Ok (st, m') ->
    exists p, stack_constraint m t = Ok p /\ length (linprog p) = length (q_rows m) /\
      same_but_heights m m' /\ heights m' = linprog p /\
      exists full, net_new m' per None = Ok full /\ st = filter_net thr full.
  Proof.
    intros H. destruct (new_facts _ _ _ _ Hnew) as (Hv & Hok & Hl & Hf & Hp).
    apply stack_inv in H. destruct H as (_ & _ & p & Ep & HH). exists p. split; auto.
    pose proof (solved_length linprog m t p Hf Hsol Ep) as L. split; auto.
    destruct HH as [(E & -> & ->)|(_ & -> & full & Hfull & ->)].
    - assert (linprog p = []) as El by (destruct (linprog p); auto; rewrite E in L; discriminate L).
      split; [split; auto; rewrite E; constructor|]. split; [unfold heights; rewrite E, El; auto|].
      exists t. split; auto. destruct thr as [d|]; auto.
      pose proof Hnew as Hn. apply net_new_inv in Hn. destruct Hn as (_ & ps & _ & Hps & Et).
      assert (Er : n_rows t = []).
      { destruct (n_rows t) as [|r l] eqn:Er; auto. exfalso.
        destruct (numbered m per None t 0 r Hnew) as (c & _ & Hr); [rewrite Er; auto|].
        destruct (on_axes m per None t 0 c Hnew Hr) as (f & _ & [_ Hf'] & _).
        rewrite E in Hf'. destruct (Z.to_nat (cA c)); discriminate Hf'. }
      unfold filter_net. rewrite Er. simpl. destruct t; simpl in *. subst. reflexivity.
    - rewrite Hp in Hfull. split; [apply set_z_same; auto|]. split; [apply set_z_heights; auto|].
      exists full. auto.
  Qed.

  Lemma built_heights thr st m' : stack_new linprog m t thr = Ok (st, m') ->
    same_but_heights m m' /\ admissible m t (heights m') /\ supported m t (heights m').
  Proof.
    intros H. destruct (built_inv _ _ _ H) as (p & Ep & L & HS & EH & _).
    destruct (new_facts _ _ _ _ Hnew) as (Hv & Hok & Hl & Hf & Hp).
    split; auto. rewrite EH. split.
    - apply (feasible_iff m t p Ep Hf). apply Hsol; auto.
    - apply (optimal_supported m t p Ep Hf). apply Hsol; auto.
  Qed.

  Hypothesis flat : all_in_plane m.

  Lemma heights_fiber m' i g : has_fiber m' i g -> height (heights m') i = qz g.
  Proof.
    intros [Hi E]. unfold height, heights. apply nth_error_nth. rewrite nth_error_map, E. auto.
  Qed.
  Lemma built_rows thr st m' : stack_new linprog m t thr = Ok (st, m') ->
    forall k c f g, is_row st k c -> (cA c < cB c)%Z -> has_fiber m' (cA c) f -> has_fiber m' (cB c) g ->
      czA c == qz f /\ czB c == qz g /\ connected t (cA c) (cB c) /\ (qh f + qh g) / 2 <= czB c - czA c.
  Proof.
    intros H k c f g Hr L Hf Hg. destruct (built_inv _ _ _ H) as (p & Ep & _ & HS & EH & full & Hfull & Est).
    destruct (built_heights _ _ _ H) as (_ & (_ & _ & HN) & _).
    assert (Hr' : exists k', is_row full k' c).
    { rewrite Est in Hr. destruct thr as [d|]; [|eauto]. apply filter_rows in Hr.
      apply nth_error_In in Hr. apply filter_In in Hr. destruct Hr as [Hr _]. apply In_nth_error in Hr.
      destruct Hr as (k' & Hr). apply (rows_snd full) in Hr; [eauto|eapply new_ok; eauto]. }
    destruct Hr' as (k' & Hr').
    pose proof (same_plane _ _ HS flat) as flat'.
    assert (Pf : in_plane f) by (apply flat'; eapply nth_error_In; apply Hf).
    assert (Pg : in_plane g) by (apply flat'; eapply nth_error_In; apply Hg).
    destruct (row_coincide m' per None full k' c f g Hfull Hr' L Hf Hg Pf Pg) as (_ & _ & _ & _ & _ & ZA & ZB).
    assert (Hc : connected t (cA c) (cB c)).
    { apply (connected_same per None m m' t full); auto. split; auto. exists k', c. auto. }
    split; auto. split; auto. split; auto.
    destruct (same_fiber m' m _ f (same_sym _ _ HS) Hf) as (f0 & Hf0 & (_ & _ & Ef & _)).
    destruct (same_fiber m' m _ g (same_sym _ _ HS) Hg) as (g0 & Hg0 & (_ & _ & Eg & _)).
    specialize (HN _ _ f0 g0 Hc Hf0 Hg0). rewrite (heights_fiber m' _ f Hf), (heights_fiber m' _ g Hg) in HN.
    rewrite Ef, Eg, ZA, ZB. auto.
  Qed.

  (** C22 *)
  Lemma built_same st m' : stack_new linprog m t None = Ok (st, m') ->
    length (n_rows st) = length (n_rows t) /\
    forall k c d, is_row t k c -> is_row st k d -> same_from_above c d.
  Proof.
    intros H. destruct (built_inv _ _ _ H) as (p & Ep & _ & HS & EH & full & Hfull & Est).
    simpl in Est. subst st. destruct (net_same per None m m' t full flat HS Hnew Hfull) as [E1 E2]. auto.
  Qed.

  (** C20 *)
  Lemma restack thr st m' t' : stack_new linprog m t thr = Ok (st, m') ->
    (t' = t \/ net_new m' per None = Ok t') -> stack_new linprog m' t' thr = Ok (st, m').
  Proof.
    intros H Ht'. pose proof H as H0. destruct (built_inv _ _ _ H) as (p & Ep & L & HS & EH & full & Hfull & Est).
    destruct (new_facts _ _ _ _ Hnew) as (Hv & Hok & Hl & Hf & Hp).
    assert (HT : strict_pairs t' = strict_pairs t /\ net_check t' = Ok true /\ at_periodic (n_attrs t') = Some per).
    { destruct Ht' as [->|Ht'].
      - split; auto. split; auto. apply net_check_ok; auto.
      - destruct (new_facts _ _ _ _ Ht') as (_ & Hok' & _ & _ & Hp').
        split; [symmetry; apply (strict_same per None m m'); auto|]. split; auto. apply net_check_ok; auto. }
    destruct HT as (HT1 & HT2 & HT3).
    assert (Em : m' = set_z m (linprog p)).
    { apply stack_inv in H0. destruct H0 as (_ & _ & p' & Ep' & [(E & _ & ->)|(_ & -> & _)]).
      - unfold set_z. rewrite E. simpl. destruct m as [r s]; simpl in *. subst r. auto.
      - congruence. }
    assert (Ep' : stack_constraint m' t' = Ok p).
    { revert Ep. unfold stack_constraint. rewrite (check_same _ _ HS).
      rewrite HT1, HT2, (proj2 (net_check_ok t) (or_intror Hok)). rewrite Em.
      destruct (set_z_h m (linprog p) L) as (E1 & E2 & E3). rewrite E1, E2, E3. auto. }
    unfold stack_new, stack_solve. rewrite HT2, Ep', <- (check_same _ _ HS), (valid_check m Hv). simpl.
    destruct (q_rows m') as [|f l] eqn:Er.
    - simpl. f_equal. f_equal.
      assert (E0 : q_rows m = []).
      { destruct (set_z_h m (linprog p) L) as (_ & _ & E3). rewrite <- Em, Er in E3. destruct (q_rows m); auto; discriminate E3. }
      destruct Ht' as [->|Ht'].
      + pose proof H0 as H1. apply stack_inv in H1. destruct H1 as (_ & _ & p' & _ & [(_ & -> & _)|(C & _)]); auto; contradiction.
      + assert (Efull : t' = full) by congruence. rewrite Efull, Est. destruct thr as [d|]; auto.
        assert (Er0 : n_rows full = []).
        { destruct (n_rows full) as [|r lr] eqn:Err; auto. exfalso.
          destruct (numbered m' per None full 0 r Hfull) as (c & _ & Hr); [rewrite Err; auto|].
          destruct (on_axes m' per None full 0 c Hfull Hr) as (ff & _ & [_ Hf'] & _).
          rewrite Er in Hf'. destruct (Z.to_nat (cA c)); discriminate Hf'. }
        unfold filter_net. rewrite Er0. simpl. destruct full; simpl in *. subst. reflexivity.
    - simpl. rewrite HT3. assert (E2 : set_z m' (linprog p) = m') by (rewrite Em; apply set_z_twice; auto).
      rewrite E2, Hfull. simpl. pose proof (filter_ok thr full (new_ok _ _ _ _ Hfull)) as HF.
      rewrite (proj2 (net_check_ok _) (or_intror HF)). simpl. rewrite Est. auto.
  Qed.
End Built.

(** ** C19 *)
Lemma threshold_rows linprog m t d full m1 st m2 : net_ok t -> ~ flag_set (n_attrs t) ->
  stack_new linprog m t None = Ok (full, m1) -> stack_new linprog m t (Some d) = Ok (st, m2) ->
  m1 = m2 /\ exists phi,
    (forall k k', (k < k')%nat -> (k' < length (n_rows st))%nat -> (phi k < phi k')%nat) /\
    (forall k c, is_row st k c -> is_row full (phi k) c /\ close_enough d c) /\
    (forall k c, is_row full k c -> close_enough d c -> exists k', phi k' = k /\ is_row st k' c).
Proof.
  intros Hok Hf H1 H2. apply stack_inv in H1. apply stack_inv in H2.
  destruct H1 as (_ & Hc & p & Ep & H1). destruct H2 as (_ & _ & p' & Ep' & H2).
  assert (p = p') by congruence. subst p'.
  destruct H1 as [(E & -> & ->)|(N & -> & full' & Hfull & ->)].
  - destruct H2 as [(_ & -> & ->)|(N & _)]; [|contradiction]. split; auto. exists (fun k => k).
    split; [auto|]. split.
    + intros k c Hr. split; auto. left. destruct (Z.lt_trichotomy (cA c) (cB c)) as [L|[L|L]]; auto; exfalso.
      * assert (HS : In (cA c, cB c) (strict_pairs t)).
        { apply (strict_connected m t p Ep Hf). split; auto. exists k, c. auto. }
        apply (proj1 (proj2 (proj2 (prog_inv m t p Ep)))) in HS. rewrite E in HS. simpl in HS. lia.
      * destruct Hok as (_ & nn & _ & _ & _ & _ & _ & _ & HO & _).
        unfold is_row in Hr. apply nth_error_In in Hr. specialize (HO _ _ Hr). unfold ordered in HO. lia.
    + intros k c Hr _. exists k. auto.
  - destruct H2 as [(C & _)|(_ & -> & full2 & Hfull2 & ->)]; [contradiction|].
    assert (full' = full2) by congruence. subst full2. simpl in Hfull. split; auto.
    pose proof (new_ok _ _ _ _ Hfull) as Hok'.
    destruct (filter_embed (kept d) (map snd (n_rows full'))) as (phi & P1 & P2 & P3).
    exists phi. split; [|split].
    + intros k k' L L'. apply P1; auto. simpl in L'. rewrite enum_length in L'. auto.
    + intros k c Hr. apply filter_rows in Hr. apply P2 in Hr. destruct Hr as [Hr Hk].
      split; [apply rows_snd; auto|apply kept_iff; auto].
    + intros k c Hr Hk. apply (rows_snd full') in Hr; auto. apply kept_iff in Hk.
      destruct (P3 _ _ Hr Hk) as (k' & <- & E). exists k'. split; auto. apply filter_rows. auto.
Qed.

(** ** C21 *)
Lemma qsum_firstn_S l : forall a d, nth_error l a = Some d -> qsum (firstn (S a) l) == qsum (firstn a l) + d.
Proof.
  induction l as [|x l IH]; intros [|a] d E; simpl in *; try discriminate.
  - inversion E; subst. ring.
  - rewrite <- (Qplus_assoc x). rewrite <- (IH a d E). destruct l; reflexivity.
Qed.
Lemma qsum_firstn_le l : (forall x, In x l -> 0 <= x) -> forall a b, (a <= b)%nat ->
  qsum (firstn a l) <= qsum (firstn b l).
Proof.
  intros Hl. induction l as [|x l IH]; intros [|a] [|b] L; simpl; try lra; try lia.
  - assert (0 <= x) by (apply Hl; left; auto).
    assert (0 <= qsum (firstn b l)).
    { clear -Hl. revert b. assert (Hl' : forall y, In y l -> 0 <= y) by (intros; apply Hl; right; auto). clear Hl.
      induction l as [|y l IH]; intros [|b]; simpl; try lra. specialize (IH (fun y H => Hl' y (or_intror H)) b).
      specialize (Hl' y (or_introl eq_refl)). lra. }
    lra.
  - assert (qsum (firstn a l) <= qsum (firstn b l)).
    { apply IH; [intros; apply Hl; right; auto|lia]. }
    lra.
Qed.
Lemma top_bound m t z i f : valid m -> supported m t z -> has_fiber m i f ->
  height z i + qh f / 2 <= thickness_below m i.
Proof.
  intros Hv Hs [Hi E]. assert (Hpos : forall x, In x (map qh (q_rows m)) -> 0 <= x).
  { intros x Hx. apply in_map_iff in Hx. destruct Hx as (g & <- & Hg).
    destruct (valid_fiber m Hv g Hg) as (_ & _ & H & _). lra. }
  unfold thickness_below.
  remember (Z.to_nat i) as k eqn:Ek. revert i f Hi Ek E. induction k as [k IH] using lt_wf_ind.
  intros i f Hi Ek E.
  assert (Eh : nth_error (map qh (q_rows m)) k = Some (qh f)) by (rewrite nth_error_map, E; auto).
  rewrite (qsum_firstn_S _ _ _ Eh).
  destruct (Hs i f) as [Z|(A & g & Hc & [HA EA] & Z)].
  - split; auto. rewrite <- Ek. auto.
  - rewrite Z. pose proof (qsum_firstn_le _ Hpos 0 k ltac:(lia)) as P. simpl in P. qlra.
  - assert (L : (Z.to_nat A < k)%nat) by (destruct Hc; lia).
    pose proof (IH (Z.to_nat A) L A g HA eq_refl EA) as B.
    pose proof (qsum_firstn_le _ Hpos (S (Z.to_nat A)) k ltac:(lia)) as P. rewrite Z. qlra.
Qed.
Lemma uniform_levels m t z h : supported m t z -> (forall f, In f (q_rows m) -> qh f == h) ->
  forall i f, has_fiber m i f -> exists k : nat, height z i == h / 2 + inject_Z (Z.of_nat k) * h.
Proof.
  intros Hs Hh i f Hf. remember (Z.to_nat i) as k eqn:Ek. revert i f Ek Hf. induction k as [k IH] using lt_wf_ind.
  intros i f Ek Hf.
  assert (Ef : qh f == h) by (apply Hh; eapply nth_error_In; apply Hf).
  destruct (Hs i f Hf) as [Z|(A & g & Hc & Hg & Z)].
  - exists 0%nat. rewrite Z, Ef. unfold inject_Z. simpl. ring.
  - assert (Eg : qh g == h) by (apply Hh; eapply nth_error_In; apply Hg).
    destruct (IH (Z.to_nat A)) with (i := A) (f := g) as (j & Ej); auto.
    { destruct Hc, Hf, Hg. lia. }
    exists (S j). rewrite Z, Ej, Ef, Eg. rewrite Nat2Z.inj_succ. unfold Z.succ. rewrite inject_Z_plus.
    unfold inject_Z at 3. field.
Qed.
Lemma restack_self linprog m per t : net_new m per None = Ok t -> solved linprog m t ->
  all_in_plane m -> forall st m', stack_new linprog m t None = Ok (st, m') ->
  stack_new linprog m' st None = Ok (st, m').
Proof.
  intros Hn Hs HP st m' H. apply (restack linprog m per t Hn Hs HP None st m' st H). right.
  destruct (built_inv linprog m per t Hn Hs None st m' H) as (_ & _ & _ & _ & _ & full & Hfull & ->). exact Hfull.
Qed.
