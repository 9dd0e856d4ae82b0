(** Proofs about Mesh(net) (C23 - C25, C27, C28). *)
From Coq Require Import String Permutation Sorted.
From Verif Require Import Num NumP ListX ListP Frames MatM NetM StackM MeshM Spec SpecNet SpecStack SpecMesh
  CheckP GroupP MeshCheckP NetP NetGeoP NetZP StackP StackNewP.
Open Scope Q_scope.

(** ** argsort of a permutation is its inverse *)
Lemma combine_seq_nth {A} (l : list A) : forall a i x k, nth_error (combine l (seq a (length l))) i = Some (x, k) <->
  nth_error l i = Some x /\ k = (a + i)%nat.
Proof.
  induction l as [|y l IH]; intros a [|i] x k; simpl; try (split; [discriminate|intros [C _]; discriminate]).
  - split; [intros H; inversion H; subst; split; auto; lia|intros [H ->]; inversion H; subst; f_equal; f_equal; lia].
  - rewrite IH. split; intros [H E]; split; auto; lia.
Qed.
Lemma seq_combine_nth {A} (l : list A) : forall a i x k, nth_error (combine (seq a (length l)) l) i = Some (k, x) <->
  nth_error l i = Some x /\ k = (a + i)%nat.
Proof.
  induction l as [|y l IH]; intros a [|i] x k; simpl; try (split; [discriminate|intros [C _]; discriminate]).
  - split; [intros H; inversion H; subst; split; auto; lia|intros [H ->]; inversion H; subst; f_equal; f_equal; lia].
  - rewrite IH. split; intros [H E]; split; auto; lia.
Qed.
Lemma combine_fst {A B} (l : list A) (l' : list B) : length l = length l' -> map fst (combine l l') = l.
Proof. revert l'. induction l; intros [|b l'] H; simpl in *; try discriminate; auto. f_equal; auto. Qed.
Lemma arange_nth n i x : nth_error (arange n) i = Some x <-> (i < n)%nat /\ x = Z.of_nat i.
Proof.
  unfold arange. rewrite nth_error_map. destruct (nth_error (seq 0 n) i) eqn:E.
  - assert (i < n)%nat by (rewrite <- (seq_length n 0); apply nth_error_Some; congruence).
    assert (nth i (seq 0 n) 0%nat = n0) by (apply nth_error_nth; auto). rewrite seq_nth in H0 by auto. subst n0.
    simpl. split; [intros X; inversion X; auto|intros [_ ->]; auto].
  - apply nth_error_None in E. rewrite seq_length in E. split; [discriminate|lia].
Qed.
Lemma argsort_nth L M i l : Permutation L (arange M) -> nth_error L i = Some (Z.of_nat l) ->
  nth_error (argsortZ L) l = Some i.
Proof.
  intros HP Hi. unfold argsortZ.
  set (le2 := fun a b : Z * nat => Z.leb (fst a) (fst b)).
  set (P := combine L (seq 0 (length L))).
  assert (Hs : StronglySorted (fun a b => le2 a b = true) (isort le2 P)).
  { apply isort_sorted; unfold le2; intros; [apply Zleb_total|eapply Zleb_trans; eauto]. }
  pose proof (isort_perm le2 P) as HQ.
  assert (EF : map fst (isort le2 P) = arange M).
  { assert (HM : Permutation (map fst (isort le2 P)) (arange M)).
    { transitivity L; auto. rewrite HQ. unfold P. rewrite combine_fst by (rewrite seq_length; auto). auto. }
    assert (SM : StronglySorted (fun a b => Z.leb a b = true) (map fst (isort le2 P))).
    { clear -Hs. induction Hs as [|a l H IH F]; simpl; constructor; auto.
      rewrite Forall_forall in *. intros x Hx. apply in_map_iff in Hx. destruct Hx as (y & <- & Hy). apply (F y Hy). }
    assert (ND : NoDup (map fst (isort le2 P))).
    { eapply Permutation_NoDup; [symmetry; exact HM|]. apply NoDup_arange. }
    apply strict_ext; [|apply arange_strict|].
    - clear -SM ND. induction SM as [|a l H IH F]; constructor.
      + apply IH. inversion ND; auto.
      + rewrite Forall_forall in *. intros x Hx. specialize (F x Hx). apply Z.leb_le in F.
        inversion ND; subst. assert (a <> x) by (intros ->; auto). lia.
    - intros x. split; apply Permutation_in; [|symmetry]; auto. }
  assert (Hin : In (Z.of_nat l) (arange M)) by (eapply Permutation_in; [exact HP|eapply nth_error_In; eauto]).
  assert (Hl : nth_error (arange M) l = Some (Z.of_nat l)).
  { apply arange_nth. split; auto. apply In_nth_error in Hin. destruct Hin as (j & Hj).
    apply arange_nth in Hj. destruct Hj as [Hj E]. lia. }
  rewrite <- EF, nth_error_map in Hl. rewrite nth_error_map.
  destruct (nth_error (isort le2 P) l) as [[x j]|] eqn:E; [|discriminate Hl]. simpl in *.
  inversion Hl; subst x. f_equal.
  assert (Hj : In (Z.of_nat l, j) P) by (eapply Permutation_in; [exact HQ|eapply nth_error_In; eauto]).
  unfold P in Hj. apply In_nth_error in Hj. destruct Hj as (j' & Hj). apply combine_seq_nth in Hj.
  destruct Hj as [Hj ->]. simpl.
  assert (ND : NoDup L) by (eapply Permutation_NoDup; [symmetry; exact HP|apply NoDup_arange]).
  rewrite NoDup_nth_error in ND. apply ND; [apply nth_error_Some; congruence|congruence].
Qed.

(** ** Nodes before sorting *)
Lemma raw_count rs : length (raw_nodes rs) = (2 * length rs)%nat.
Proof.
  unfold raw_nodes.
  assert (G : forall a, length (flat_map (fun kc => two_nodes (fst kc) (snd kc)) (combine (seq a (length rs)) rs))
                        = (2 * length rs)%nat); [|apply G].
  induction rs as [|x l IH]; intros a; simpl; auto. rewrite (IH (S a)). lia.
Qed.
Section Numbering.
  Variable rs : list conn.
  Let raw := raw_nodes rs.
  Let sn := sorted_nodes rs.
  Let M := (2 * length rs)%nat.

  Definition raw_node (k : nat) (c : conn) (b : bool) : pnode := nth (if b then 1 else 0) (two_nodes k c) (mkP 0 0 0 0 0 0 0).

  Lemma raw_from l : forall a k c (b : bool), nth_error l k = Some c ->
    nth_error (flat_map (fun kc => two_nodes (fst kc) (snd kc)) (combine (seq a (length l)) l))
      (2 * k + (if b then 1 else 0)) = Some (raw_node (a + k) c b).
  Proof.
    induction l as [|x l IH]; intros a [|k] c b E; simpl in E; try discriminate.
    - inversion E; subst x. rewrite Nat.add_0_r. destruct b; reflexivity.
    - replace (2 * S k + (if b then 1 else 0))%nat with (S (S (2 * k + (if b then 1 else 0)))) by lia.
      cbn [seq combine flat_map fst snd length two_nodes app nth_error].
      rewrite (IH (S a) k c b E). f_equal. f_equal. lia.
  Qed.
  Lemma raw_nth k c (b : bool) : nth_error rs k = Some c ->
    nth_error raw (2 * k + (if b then 1 else 0)) = Some (raw_node k c b).
  Proof. intros E. unfold raw, raw_nodes. rewrite (raw_from rs 0 k c b E). auto. Qed.
  Lemma raw_length : length raw = M.
  Proof.
    apply raw_count.
  Qed.
  Lemma raw_split i : (i < M)%nat -> exists k c (b : bool), nth_error rs k = Some c /\ i = (2 * k + (if b then 1 else 0))%nat.
  Proof.
    intros Hi. pose proof (Nat.div_mod i 2 ltac:(lia)) as E. pose proof (Nat.mod_upper_bound i 2 ltac:(lia)) as U.
    destruct (nth_error rs (i / 2)) as [c|] eqn:Ec.
    - exists (i / 2)%nat, c. destruct (i mod 2)%nat as [|[|]] eqn:Em; [exists false|exists true|lia]; split; auto; lia.
    - apply nth_error_None in Ec. unfold M in Hi. lia.
  Qed.
  Lemma raw_lab i p : nth_error raw i = Some p -> plab p = i.
  Proof.
    intros H. assert (Hi : (i < M)%nat) by (rewrite <- raw_length; apply nth_error_Some; congruence).
    destruct (raw_split i Hi) as (k & c & b & Ec & ->). rewrite (raw_nth k c b Ec) in H. inversion H; subst.
    destruct b; simpl; lia.
  Qed.
  Lemma raw_cons k c (b : bool) : pcons (raw_node k c b) = (2 * k + (if negb b then 1 else 0))%nat.
  Proof. destruct b; simpl; lia. Qed.

  Lemma sn_perm : Permutation sn raw.
  Proof. apply isort_perm. Qed.
  Lemma sn_length : length sn = M.
  Proof. rewrite (Permutation_length sn_perm). apply raw_length. Qed.
  Lemma labels_perm : Permutation (map (fun p => Z.of_nat (plab p)) sn) (arange M).
  Proof.
    transitivity (map (fun p => Z.of_nat (plab p)) raw); [apply Permutation_map, sn_perm|].
    assert (E : map (fun p => Z.of_nat (plab p)) raw = arange M); [|rewrite E; reflexivity].
    apply nth_error_ext. intros i. rewrite nth_error_map.
    destruct (nth_error raw i) as [p|] eqn:E; simpl.
    - symmetry. apply arange_nth. rewrite (raw_lab i p E). split; auto. rewrite <- raw_length. apply nth_error_Some. congruence.
    - symmetry. apply nth_error_None. apply nth_error_None in E. rewrite arange_length, <- raw_length. auto.
  Qed.

  Let indices := argsortZ (map (fun p => Z.of_nat (plab p)) sn).
  Let ind l := nth l indices 0%nat.

  Lemma ind_lab i p : nth_error sn i = Some p -> ind (plab p) = i.
  Proof.
    intros H. unfold ind. apply nth_error_nth. apply (argsort_nth _ M); [apply labels_perm|].
    rewrite nth_error_map, H. auto.
  Qed.
  Lemma sn_raw i p : nth_error sn i = Some p -> nth_error raw (plab p) = Some p.
  Proof.
    intros H. apply nth_error_In in H. apply (Permutation_in _ sn_perm) in H. apply In_nth_error in H.
    destruct H as (j & Hj). rewrite (raw_lab j p Hj). auto.
  Qed.
  Lemma ind_pos l p : nth_error raw l = Some p -> nth_error sn (ind l) = Some p.
  Proof.
    intros H. pose proof (raw_lab l p H) as El. pose proof (nth_error_In _ _ H) as Hi.
    apply (Permutation_in _ (Permutation_sym sn_perm)) in Hi. apply In_nth_error in Hi. destruct Hi as (i & Hi).
    rewrite <- El, (ind_lab i p Hi). auto.
  Qed.
  Lemma ind_lt l : (l < M)%nat -> (ind l < M)%nat.
  Proof.
    intros H. rewrite <- raw_length in H. apply nth_error_Some in H. destruct (nth_error raw l) as [p|] eqn:E; [|congruence].
    rewrite <- sn_length. apply nth_error_Some. rewrite (ind_pos l p E). discriminate.
  Qed.
  Lemma ind_inj l l' : (l < M)%nat -> (l' < M)%nat -> ind l = ind l' -> l = l'.
  Proof.
    intros H H' E. rewrite <- raw_length in H, H'. apply nth_error_Some in H. apply nth_error_Some in H'.
    destruct (nth_error raw l) as [p|] eqn:Ep; [|congruence]. destruct (nth_error raw l') as [p'|] eqn:Ep'; [|congruence].
    pose proof (ind_pos l p Ep) as Q1. pose proof (ind_pos l' p' Ep') as Q2. rewrite E in Q1.
    assert (p = p') by congruence. rewrite <- (raw_lab l p Ep), <- (raw_lab l' p' Ep'). congruence.
  Qed.

  Definition place (k : nat) (b : bool) : nat := ind (2 * k + (if b then 1 else 0)).

  (** ** Sorting *)
  Lemma sn_sorted : StronglySorted (fun p q => fs_leb (pf p) (pf q) (ps p) (ps q) = true) sn.
  Proof.
    apply isort_sorted; intros; [apply fs_leb_total|eapply fs_leb_trans; eauto].
  Qed.
  Lemma sn_keys : key_sorted pf sn.
  Proof.
    eapply StronglySorted_impl; [|exact sn_sorted]. simpl. intros p q _ _ H. apply fs_leb_iff in H. lia.
  Qed.

  (** ** The table *)
  Let beam := groupcat pf (fun g => roll (map plab g)) sn.
  Lemma beam_len : length beam = M.
  Proof.
    unfold beam. rewrite groupcat_length; [apply sn_length| |apply sn_keys].
    intros g. rewrite roll_length, map_length. auto.
  Qed.
  Definition next_at (i : nat) (f : Z) : nat :=
    if Nat.eqb (i + 1) (before pf f sn + count pf f sn) then before pf f sn else (i + 1)%nat.
  Lemma beam_nth i p : nth_error sn i = Some p ->
    exists q, nth_error sn (next_at i (pf p)) = Some q /\ nth_error beam i = Some (plab q).
  Proof.
    intros H. pose proof (sorted_pos pf sn i p sn_keys H) as Hp. set (f := pf p) in *.
    assert (Ho : (i - before pf f sn < count pf f sn)%nat) by lia.
    assert (HL : forall g : list pnode, length (roll (map plab g)) = length g)
      by (intros g; rewrite roll_length, map_length; auto).
    pose proof (groupcat_nth pf (fun g => roll (map plab g)) f sn _ HL sn_keys Ho) as GN.
    set (G := filter (fun a => Z.eqb (pf a) f) sn) in *.
    replace (before pf f sn + (i - before pf f sn))%nat with i in GN by lia. fold beam in GN.
    assert (LG : length G = count pf f sn) by reflexivity.
    assert (RN := roll_nth (map plab G) (i - before pf f sn)). rewrite map_length, LG in RN. specialize (RN Ho).
    unfold next_at. destruct (Nat.eqb_spec (i + 1) (before pf f sn + count pf f sn)) as [E|E].
    - assert (X : nth_error sn (before pf f sn + 0) = nth_error G 0) by (apply sorted_nth; [apply sn_keys|lia]).
      rewrite Nat.add_0_r in X. rewrite X. destruct (nth_error G 0) as [q|] eqn:Eq.
      + exists q. split; auto. etransitivity; [exact GN|]. etransitivity; [exact RN|].
        replace (i - before pf f sn + 1 =? count pf f sn)%nat with true by (symmetry; apply Nat.eqb_eq; lia).
        rewrite nth_error_map, Eq. auto.
      + apply nth_error_None in Eq. lia.
    - assert (X : nth_error sn (before pf f sn + (i - before pf f sn + 1)) = nth_error G (i - before pf f sn + 1))
        by (apply sorted_nth; [apply sn_keys|lia]).
      replace (before pf f sn + (i - before pf f sn + 1))%nat with (i + 1)%nat in X by lia. rewrite X.
      destruct (nth_error G (i - before pf f sn + 1)) as [q|] eqn:Eq.
      + exists q. split; auto. etransitivity; [exact GN|]. etransitivity; [exact RN|].
        replace (i - before pf f sn + 1 =? count pf f sn)%nat with false by (symmetry; apply Nat.eqb_neq; lia).
        rewrite nth_error_map, Eq. auto.
      + apply nth_error_None in Eq. lia.
  Qed.

  Let index' := map (fun p => ind (plab p)) sn.
  Lemma index_seq : index' = seq 0 M.
  Proof.
    unfold index'. apply nth_error_ext. intros i. rewrite nth_error_map.
    destruct (nth_error sn i) as [p|] eqn:E; simpl.
    - rewrite (ind_lab i p E). assert (Hi : (i < M)%nat) by (rewrite <- sn_length; apply nth_error_Some; congruence).
      symmetry. rewrite (nth_error_nth' _ 0%nat) by (rewrite seq_length; auto). rewrite seq_nth by auto. auto.
    - symmetry. apply nth_error_None. rewrite seq_length, <- sn_length. apply nth_error_None; auto.
  Qed.
  Lemma fiber_loc c p : nth_error sn c = Some p ->
    match find (fun ip => Nat.eqb (fst ip) c) (combine index' sn) with
    | Some ip => pf (snd ip) | None => (-1)%Z end = pf p.
  Proof.
    intros H. rewrite index_seq, <- sn_length.
    destruct (find _ _) as [[j q]|] eqn:E.
    - apply find_some in E. destruct E as [E1 E2]. simpl in *. apply Nat.eqb_eq in E2. subst j.
      apply In_nth_error in E1. destruct E1 as (i & Hi). apply seq_combine_nth in Hi. destruct Hi as [Hi E].
      simpl in E. subst i. congruence.
    - exfalso. assert (In (c, p) (combine (seq 0 (length sn)) sn)).
      { eapply nth_error_In. apply (seq_combine_nth sn 0 c p c). auto. }
      apply (find_none _ _ E) in H0. simpl in H0. rewrite Nat.eqb_refl in H0. discriminate.
  Qed.

  Lemma combine_nth_error {A B} (l : list A) (l' : list B) i a b :
    nth_error l i = Some a -> nth_error l' i = Some b -> nth_error (combine l l') i = Some (a, b).
  Proof.
    revert l' i. induction l as [|x l IH]; intros [|y l'] [|i] H H'; simpl in *; try discriminate.
    - congruence.
    - apply IH; auto.
  Qed.

  Definition the_node (i : nat) (p : pnode) (c : nat) : Z * node :=
    (Z.of_nat i, mkNode (pf p) (ps p) (px p) (py p) (pz p) (Z.of_nat (next_at i (pf p)))
                   (Z.of_nat c)).
  Lemma mesh_nth k c (b : bool) : nth_error rs k = Some c ->
    nth_error (mesh_nodes rs) (place k b) =
      Some (the_node (place k b) (raw_node k c b) (if Z.eqb (cA c) (cB c) then place k b else place k (negb b))).
  Proof.
    intros Hc. pose proof (ind_pos _ _ (raw_nth k c b Hc)) as Hp. fold (place k b) in Hp.
    pose proof (ind_pos _ _ (raw_nth k c (negb b) Hc)) as Hq. fold (place k (negb b)) in Hq.
    set (i := place k b) in *. set (p := raw_node k c b) in *.
    unfold mesh_nodes. fold sn indices. cbv zeta. fold beam. fold index'.
    destruct (beam_nth i p Hp) as (q & Hn & Hb).
    rewrite nth_error_map.
    rewrite (combine_nth_error sn _ i p (i, (next_at i (pf p), place k (negb b)))); auto.
    2:{ apply combine_nth_error.
        - change (fun p0 => nth (plab p0) indices 0%nat) with (fun p0 => ind (plab p0)).
          rewrite nth_error_map, Hp. simpl. f_equal. apply ind_lab; auto.
        - apply combine_nth_error.
          + rewrite nth_error_map, Hb. simpl. f_equal. apply (ind_lab _ q Hn).
          + rewrite nth_error_map, Hp. simpl. f_equal. unfold p. rewrite raw_cons. reflexivity. }
    cbn [option_map]. unfold the_node. f_equal. f_equal. f_equal. f_equal.
    change (map (fun p0 => nth (plab p0) indices 0%nat) sn) with index'.
    rewrite (fiber_loc _ _ Hq). unfold p.
    replace (Z.eqb (pf (raw_node k c b)) (pf (raw_node k c (negb b)))) with (Z.eqb (cA c) (cB c)); [auto|].
    destruct b; simpl; auto. apply Z.eqb_sym.
  Qed.
  Lemma mesh_len : length (mesh_nodes rs) = M.
  Proof.
    unfold mesh_nodes. fold sn indices. cbv zeta. rewrite map_length, !combine_length, !map_length, sn_length.
    change (length (groupcat pf (fun g => roll (map plab g)) sn)) with (length beam). rewrite beam_len.
    rewrite !Nat.min_id. auto.
  Qed.
  Lemma place_lt k c b : nth_error rs k = Some c -> (place k b < M)%nat.
  Proof.
    intros H. apply ind_lt. assert (k < length rs)%nat by (apply nth_error_Some; congruence). unfold M. destruct b; lia.
  Qed.
  Lemma place_inj k c b k' c' b' : nth_error rs k = Some c -> nth_error rs k' = Some c' ->
    place k b = place k' b' -> k = k' /\ b = b'.
  Proof.
    intros H H' E. assert (k < length rs)%nat by (apply nth_error_Some; congruence).
    assert (k' < length rs)%nat by (apply nth_error_Some; congruence).
    apply ind_inj in E; [|unfold M; destruct b; lia|unfold M; destruct b'; lia].
    destruct b, b'; split; auto; lia.
  Qed.
  Lemma place_onto i : (i < M)%nat -> exists k c b, nth_error rs k = Some c /\ place k b = i.
  Proof.
    intros Hi. rewrite <- sn_length in Hi. apply nth_error_Some in Hi.
    destruct (nth_error sn i) as [p|] eqn:E; [|congruence].
    pose proof (sn_raw i p E) as Hr. assert (Hl : (plab p < M)%nat) by (rewrite <- raw_length; apply nth_error_Some; congruence).
    destruct (raw_split _ Hl) as (k & c & b & Hc & El). exists k, c, b. split; auto.
    unfold place. rewrite <- El. apply ind_lab; auto.
  Qed.
  Lemma mesh_at i r : nth_error (mesh_nodes rs) i = Some r ->
    exists k c b, nth_error rs k = Some c /\ place k b = i /\ nth_error sn i = Some (raw_node k c b) /\
      r = the_node i (raw_node k c b) (if Z.eqb (cA c) (cB c) then i else place k (negb b)).
  Proof.
    intros H. assert (Hi : (i < M)%nat) by (rewrite <- mesh_len; apply nth_error_Some; congruence).
    destruct (place_onto i Hi) as (k & c & b & Hc & Ep). exists k, c, b. split; auto. split; auto.
    pose proof (mesh_nth k c b Hc) as E. rewrite Ep in E. split; [|congruence].
    rewrite <- Ep. unfold place. apply ind_pos. apply raw_nth; auto.
  Qed.
  Lemma mesh_labelled : labelled_in_order (mesh_nodes rs).
  Proof.
    intros i lab d H. destruct (mesh_at i _ H) as (k & c & b & _ & _ & _ & E). inversion E. auto.
  Qed.
  Lemma mesh_ordered : nodes_ordered (mesh_nodes rs).
  Proof.
    intros i j d e L (l1 & Hd) (l2 & He).
    destruct (mesh_at i _ Hd) as (k & c & b & _ & _ & S1 & E1). destruct (mesh_at j _ He) as (k' & c' & b' & _ & _ & S2 & E2).
    inversion E1; inversion E2; subst. cbn [nf ns].
    apply fs_leb_iff. eapply (proj1 (StronglySorted_nth _ sn) sn_sorted); eauto.
  Qed.
  Lemma counts_same f : before (fun r : Z * node => nf (snd r)) f (mesh_nodes rs) = before pf f sn
    /\ count (fun r : Z * node => nf (snd r)) f (mesh_nodes rs) = count pf f sn.
  Proof.
    assert (E : map (fun r : Z * node => nf (snd r)) (mesh_nodes rs) = map pf sn).
    { apply nth_error_ext. intros i. rewrite !nth_error_map.
      destruct (nth_error (mesh_nodes rs) i) as [r|] eqn:Er; simpl.
      - destruct (mesh_at i r Er) as (k & c & b & _ & _ & -> & ->). auto.
      - apply nth_error_None in Er. rewrite mesh_len, <- sn_length in Er. apply nth_error_None in Er. rewrite Er. auto. }
    unfold before, count.
    assert (G : forall (A : Type) (key : A -> Z) (q : Z -> bool) l, length (filter (fun a => q (key a)) l) = length (filter q (map key l))).
    { clear. intros A key q l. induction l; simpl; auto. destruct (q (key a)); simpl; auto. }
    rewrite (G _ (fun r : Z * node => nf (snd r)) (fun x => Z.ltb x f)), (G _ pf (fun x => Z.ltb x f)), E.
    rewrite (G _ (fun r : Z * node => nf (snd r)) (fun x => Z.eqb x f)), (G _ pf (fun x => Z.eqb x f)), E. auto.
  Qed.
  Lemma mesh_beams : beams_ok (mesh_nodes rs).
  Proof.
    intros i d Hd. pose proof (next_pos_spec _ mesh_labelled mesh_ordered i d Hd) as HN.
    destruct Hd as (l & Hd). destruct (mesh_at i _ Hd) as (k & c & b & _ & _ & _ & E). inversion E; subst l d.
    exists (next_at i (pf (raw_node k c b))). split; auto.
    unfold next_pos in HN. cbn [nf] in HN. destruct (counts_same (pf (raw_node k c b))) as [E1 E2].
    unfold next_at. rewrite <- E1, <- E2. exact HN.
  Qed.
  Lemma mesh_involution : cons_involution (mesh_nodes rs).
  Proof.
    intros i d (l & Hd). destruct (mesh_at i _ Hd) as (k & c & b & Hc & Ep & _ & E). inversion E; subst l d. cbn [ncons].
    destruct (Z.eqb (cA c) (cB c)) eqn:Ec.
    - exists i. eexists. split; [reflexivity|]. split; [exists (Z.of_nat i); exact Hd|]. reflexivity.
    - exists (place k (negb b)). pose proof (mesh_nth k c (negb b) Hc) as Hn. rewrite Ec, negb_involutive, Ep in Hn.
      eexists. split; [reflexivity|]. split; [eexists; exact Hn|]. reflexivity.
  Qed.
  (** end nodes *)
  Lemma mesh_pos_lt k c b k' c' b' : nth_error rs k = Some c -> nth_error rs k' = Some c' ->
    pf (raw_node k c b) = pf (raw_node k' c' b') -> ps (raw_node k c b) < ps (raw_node k' c' b') ->
    (place k b < place k' b')%nat.
  Proof.
    intros H H' Ef L. destruct (Nat.lt_ge_cases (place k b) (place k' b')) as [|G]; auto. exfalso.
    assert (place k' b' <> place k b).
    { intros E. apply (place_inj _ _ _ _ _ _ H' H) in E. destruct E as [-> ->]. rewrite H in H'. inversion H'; subst. lra. }
    assert (X : fs_leb (pf (raw_node k' c' b')) (pf (raw_node k c b)) (ps (raw_node k' c' b')) (ps (raw_node k c b)) = true).
    { eapply (proj1 (StronglySorted_nth _ sn) sn_sorted (place k' b') (place k b)); [lia| |];
        unfold place; apply ind_pos; apply raw_nth; auto. }
    apply fs_leb_iff in X. destruct X as [X|[_ X]]; [lia|lra].
  Qed.
End Numbering.

Lemma nth_row_snd t k c : nth_row t k c <-> nth_error (map snd (n_rows t)) k = Some c.
Proof.
  unfold nth_row. rewrite nth_error_map. split.
  - intros (l & ->). auto.
  - destruct (nth_error (n_rows t) k) as [[l c']|]; simpl; [|discriminate]. intros H; inversion H; subst. eauto.
Qed.

Section Mesh.
  Variable t : net_df.
  Variable g : mesh_df.
  Hypothesis Hg : mesh_init t = Ok g.
  Let rs := map snd (n_rows t).

  Lemma init_inv : net_check t = Ok true /\
    g = mkMeshDf mesh_columns (mesh_nodes rs) (n_attrs t) true true None.
  Proof.
    revert Hg. unfold mesh_init. destruct (net_check t) as [b|] eqn:E; [|discriminate].
    apply net_check_true in E as ->. simpl. intros H. inversion H. auto.
  Qed.
  Lemma init_rows : g_rows g = mesh_nodes rs.
  Proof. rewrite (proj2 init_inv). auto. Qed.
  Lemma init_length : length (g_rows g) = (2 * length (n_rows t))%nat.
  Proof. rewrite init_rows, mesh_len. unfold rs. rewrite map_length. auto. Qed.

  Lemma init_numbers : numbers t g (place rs) /\ links t g (place rs).
  Proof.
    unfold numbers, links. rewrite init_rows. split; [split; [|split]|].
    - intros k c b H. apply nth_row_snd in H. eexists. split; [eexists; apply (mesh_nth rs k c b H)|].
      destruct b; repeat split.
    - intros i d (l & H). destruct (mesh_at rs i _ H) as (k & c & b & Hc & Ep & _). exists k, c, b.
      split; auto. apply nth_row_snd. auto.
    - intros k c b k' c' b' H H'. apply nth_row_snd in H. apply nth_row_snd in H'. eapply place_inj; eauto.
    - intros k c b d H (l & Hd). apply nth_row_snd in H. fold rs in H. rewrite (mesh_nth rs k c b H) in Hd.
      inversion Hd. auto.
  Qed.
  Lemma init_ends : framed t -> ends_free (g_rows g).
  Proof.
    intros HF i d Hd HE. rewrite init_rows in Hd, HE. destruct Hd as (l & Hd).
    destruct (mesh_at rs i _ Hd) as (k & c & b & Hc & Ep & _ & E). inversion E; subst l d. cbn [ncons].
    destruct (Z.eqb_spec (cA c) (cB c)) as [|N]; auto. exfalso.
    destruct (HF k c b) as (k' & e & He & EA & EB & S1 & S2); auto; [apply nth_row_snd; auto|].
    apply nth_row_snd in He. fold rs in He. cbn [nf] in HE.
    destruct HE as [HE|HE].
    - refine (HE (place rs k' true) _ _ _ _); [|eexists; apply (mesh_nth rs k' e true He)|].
      + rewrite <- Ep. apply (mesh_pos_lt rs k' e true k c b); auto; destruct b; simpl in *; auto.
      + cbn [nf]. destruct b; simpl in *; auto.
    - refine (HE (place rs k' false) _ _ _ _); [|eexists; apply (mesh_nth rs k' e false He)|].
      + rewrite <- Ep. apply (mesh_pos_lt rs k c b k' e false); auto; destruct b; simpl in *; auto.
      + cbn [nf]. destruct b; simpl in *; auto.
  Qed.
  Lemma init_ok : net_ok t -> framed t -> mesh_ok g.
  Proof.
    intros Hok HF. pose proof (init_ends HF) as HE. pose proof init_rows as ER. pose proof (proj2 init_inv) as Eg.
    destruct Hok as (_ & n & En & Es & Ep & HL & _ & HR & _).
    split; [rewrite Eg; intros x Hx; exact Hx|]. exists n. rewrite ER in *. rewrite Eg. simpl.
    split; auto. split; auto. split; auto. split; [apply mesh_labelled|]. split; auto. split; auto.
    split; [|split; [apply mesh_ordered|split; [apply mesh_beams|split; [apply mesh_involution|auto]]]].
    intros i d (l & Hd). destruct (mesh_at rs i _ Hd) as (k & c & b & Hc & _ & _ & E). inversion E. cbn [nf].
    assert (Hc' : exists lab, In (lab, c) (n_rows t)).
    { unfold rs in Hc. apply nth_error_In in Hc. apply in_map_iff in Hc. destruct Hc as ([lab c'] & <- & Hc). eauto. }
    destruct Hc' as (lab & Hc'). destruct (HR _ _ Hc'). destruct b; simpl; lia.
  Qed.
End Mesh.

Lemma mesh_new_inv t g : mesh_new t = Ok g -> mesh_init t = Ok g.
Proof.
  unfold mesh_new. destruct (mesh_init t) as [g'|]; [|discriminate]. simpl.
  destruct (mesh_check g'); [|discriminate]. simpl. auto.
Qed.
Lemma mesh_total t : net_ok t -> framed t -> exists g, mesh_new t = Ok g /\ mesh_ok g.
Proof.
  intros Hok HF. assert (Hi : exists g, mesh_init t = Ok g).
  { unfold mesh_init. rewrite (proj2 (net_check_ok t) (or_intror Hok)). simpl. eauto. }
  destruct Hi as (g & Hg). exists g. pose proof (init_ok t g Hg Hok HF) as HM. split; auto.
  unfold mesh_new. rewrite Hg. simpl. rewrite (proj2 (mesh_check_ok g) (or_intror HM)). auto.
Qed.

(** ** Networks built by Net have the nodes of a fiber between its end nodes *)
Lemma nth_is_row m per pairs t k c : net_new m per pairs = Ok t -> nth_row t k c <-> is_row t k c.
Proof.
  intros H. split; [|intros R; exists (Z.of_nat k); auto]. intros (l & E).
  destruct (numbered m per pairs t k _ H E) as (c' & E' & R). inversion E'; subst. auto.
Qed.
Lemma net_framed m per t : net_new m per None = Ok t -> framed t.
Proof.
  intros H k c b Hr N. cbv zeta. apply (nth_is_row _ _ _ _ _ _ H) in Hr.
  destruct (on_axes m per None t k c H Hr) as (f & f' & Hf & Hf' & _).
  assert (L : (cA c < cB c)%Z).
  { destruct (new_ok _ _ _ _ H) as (_ & nn & _ & _ & _ & _ & _ & _ & HO & _).
    unfold is_row in Hr. apply nth_error_In in Hr. specialize (HO _ _ Hr). unfold ordered in HO. lia. }
  destruct (row_inside m per None t k c f f' H Hr L Hf Hf') as [[I1 I2] [I3 I4]].
  assert (X : exists h s, has_fiber m (if b then cB c else cA c) h /\ s = (if b then csB c else csA c) /\ - ql h / 2 < s /\ s < ql h / 2).
  { destruct b; [exists f', (csB c)|exists f, (csA c)]; (split; [auto|]; split; [auto|]; split; qlra). }
  destruct X as (h & s & Hh & <- & J1 & J2).
  destruct (end_nodes m per t _ h H Hh) as (k' & e & Re & EA & EB & SA & SB & _).
  exists k', e. split; [apply (nth_is_row _ _ _ _ _ _ H); auto|]. split; auto. split; auto.
  rewrite SA, SB. split; qlra.
Qed.
Lemma filter_framed thr t : net_ok t -> framed t -> framed (filter_net thr t).
Proof.
  destruct thr as [d|]; auto. intros Hok HF k c b Hr N. cbv zeta.
  destruct (filter_embed (kept d) (map snd (n_rows t))) as (phi & _ & P2 & P3).
  apply nth_row_snd in Hr. simpl in Hr. rewrite enum_snd in Hr. apply P2 in Hr. destruct Hr as [Hr _].
  apply nth_row_snd in Hr. destruct (HF _ _ b Hr N) as (k' & e & He & EA & EB & S1 & S2).
  apply nth_row_snd in He. destruct (P3 _ _ He) as (k2 & _ & H2).
  { unfold kept. rewrite EA, EB, Z.eqb_refl. apply orb_true_r. }
  exists k2, e. split; [|auto]. apply nth_row_snd. simpl. rewrite enum_snd. auto.
Qed.
Lemma net_mesh_total m per t : net_new m per None = Ok t -> exists g, mesh_new t = Ok g /\ mesh_ok g.
Proof. intros H. apply mesh_total; [eapply new_ok; eauto|eapply net_framed; eauto]. Qed.
Lemma stack_mesh_total linprog m per t thr st m' : net_new m per None = Ok t -> solved linprog m t ->
  stack_new linprog m t thr = Ok (st, m') -> exists g, mesh_new st = Ok g /\ mesh_ok g.
Proof.
  intros Hn Hs H. destruct (built_inv linprog m per t Hn Hs thr st m' H) as (_ & _ & _ & _ & _ & full & Hfull & ->).
  apply mesh_total; [apply filter_ok; eapply new_ok; eauto|].
  apply filter_framed; [eapply new_ok; eauto|eapply net_framed; eauto].
Qed.

(** ** C28: the beam elements of a fiber *)
Section Tile.
  Variable g : mesh_df.
  Let rows := g_rows g.
  Hypothesis Hlab : labelled_in_order rows.
  Hypothesis Hord : nodes_ordered rows.
  Hypothesis Hbeam : beams_ok rows.
  Variable f : Z.
  Let fk (r : Z * node) := nf (snd r).
  Let b := before fk f rows.
  Let c := count fk f rows.

  Lemma beam_is i d : is_node rows i d -> nf d = f ->
    nbeam d = Z.of_nat (if Nat.eqb (i + 1) (b + c) then b else i + 1)%nat.
  Proof.
    intros Hd Ef. destruct (Hbeam i d Hd) as (j & Ej & HN).
    pose proof (next_pos_spec rows Hlab Hord i d Hd) as HN'.
    rewrite (next_unique rows Hlab i _ _ HN HN') in Ej. rewrite Ej. unfold next_pos. rewrite Ef. reflexivity.
  Qed.
  Lemma abscissa_node i d : is_node rows i d -> abscissa g (Z.of_nat i) = ns d.
  Proof. intros (l & H). unfold abscissa. rewrite Nat2Z.id. fold rows. rewrite H. auto. Qed.

  Let term (r : Z * node) := if Z.eqb (nf (snd r)) f && Z.ltb (fst r) (nbeam (snd r))
                             then abscissa g (nbeam (snd r)) - ns (snd r) else 0.
  Let s i := abscissa g (Z.of_nat i).

  Lemma term_at i r : nth_error rows i = Some r ->
    term r = if (Nat.leb b i && Nat.ltb (i + 1) (b + c))%bool then s (i + 1) - s i else 0.
  Proof.
    intros H. destruct (row_at rows Hlab i r H) as [E Hd]. set (d := snd r) in *.
    unfold term. fold d. rewrite E. unfold s. rewrite (abscissa_node i d Hd).
    destruct (Z.eqb_spec (nf d) f) as [Ef|Ef].
    - pose proof (node_pos rows Hord i d Hd) as Hp. rewrite Ef in Hp. fold fk b c in Hp.
      rewrite (beam_is i d Hd Ef).
      assert (Lb : Nat.leb b i = true) by (apply Nat.leb_le; lia). rewrite Lb. simpl.
      destruct (Nat.eqb_spec (i + 1) (b + c)) as [Eq|Ne].
      + replace (Z.ltb (Z.of_nat i) (Z.of_nat b)) with false by (symmetry; apply Z.ltb_ge; lia).
        replace (Nat.ltb (i + 1) (b + c)) with false by (symmetry; apply Nat.ltb_ge; lia). auto.
      + replace (Z.ltb (Z.of_nat i) (Z.of_nat (i + 1))) with true by (symmetry; apply Z.ltb_lt; lia).
        replace (Nat.ltb (i + 1) (b + c)) with true by (symmetry; apply Nat.ltb_lt; lia). auto.
    - simpl. destruct (Nat.leb_spec b i); simpl; auto. destruct (Nat.ltb_spec (i + 1) (b + c)); auto.
      exfalso. apply Ef. apply (pos_node rows Hord i d f Hd). fold fk b c. lia.
  Qed.
  Lemma prefix_sum k : (0 < c)%nat -> (k <= length rows)%nat -> qsum (firstn k (map term rows)) ==
    if Nat.leb k b then 0 else s (Nat.min k (b + c - 1)) - s b.
  Proof.
    intros Hc. induction k as [|k IH]; intros Hk; [reflexivity|].
    destruct (nth_error rows k) as [r|] eqn:E; [|apply nth_error_None in E; lia].
    assert (E' : nth_error (map term rows) k = Some (term r)) by (rewrite nth_error_map, E; auto).
    rewrite (qsum_firstn_S _ _ _ E'). rewrite IH by lia. rewrite (term_at k r E).
    destruct (Nat.leb_spec (S k) b) as [L|L].
    - replace (Nat.leb k b) with true by (symmetry; apply Nat.leb_le; lia).
      replace (Nat.leb b k) with false by (symmetry; apply Nat.leb_gt; lia). simpl. ring.
    - replace (Nat.leb b k) with true by (symmetry; apply Nat.leb_le; lia).
      destruct (Nat.leb_spec k b) as [L'|L'].
      + assert (k = b) by lia. subst k. destruct (Nat.ltb_spec (b + 1) (b + c)) as [L2|L2]; simpl andb; cbv iota.
        * replace (Nat.min (S b) (b + c - 1)) with (b + 1)%nat by lia. ring.
        * replace (Nat.min (S b) (b + c - 1)) with b by lia. ring.
      + destruct (Nat.ltb_spec (k + 1) (b + c)) as [L2|L2]; simpl andb; cbv iota.
        * replace (Nat.min (S k) (b + c - 1)) with (k + 1)%nat by lia.
          replace (Nat.min k (b + c - 1)) with k by lia. ring.
        * replace (Nat.min (S k) (b + c - 1)) with (Nat.min k (b + c - 1)) by lia. ring.
  Qed.
  Lemma tile_length i d j e : first_node g f i d -> last_node g f j e ->
    beam_length g f == ns e - ns d.
  Proof.
    intros (Hd & Ed & H1) (He & Ee & H2).
    assert (Hi : i = b).
    { unfold b. rewrite <- Ed. apply (first_iff rows Hord i d Hd). rewrite Ed. auto. }
    assert (Hj : (j + 1 = b + c)%nat).
    { unfold b, c. rewrite <- Ee. apply (last_iff rows Hord j e He). rewrite Ee. auto. }
    pose proof (node_pos rows Hord i d Hd) as P. rewrite Ed in P. fold fk b c in P.
    pose proof (node_pos rows Hord j e He) as P'. rewrite Ee in P'. fold fk b c in P'.
    pose proof (node_lt rows j e He) as Lj.
    assert (Hc : (0 < c)%nat) by lia.
    unfold beam_length. fold rows. change (qsum (map term rows) == ns e - ns d).
    rewrite <- (firstn_all (map term rows)), map_length.
    rewrite (prefix_sum (length rows) Hc (le_n _)).
    replace (Nat.leb (length rows) b) with false by (symmetry; apply Nat.leb_gt; lia).
    replace (Nat.min (length rows) (b + c - 1)) with j by lia. unfold s.
    rewrite (abscissa_node j e He). subst i. rewrite (abscissa_node b d Hd). reflexivity.
  Qed.
End Tile.

(** the end row of fiber [f] in a network, of length [l] *)
Definition ended (t : net_df) (f : Z) (l : Q) : Prop :=
  exists k c, nth_row t k c /\ cA c = f /\ cB c = f /\ csA c == l / 2 /\ csB c == - (l / 2) /\
    forall k' e (b : bool), nth_row t k' e -> (if b then cB e else cA e) = f ->
      k' = k \/ - (l / 2) < (if b then csB e else csA e) < l / 2.

Lemma net_ended m per t f h : net_new m per None = Ok t -> has_fiber m f h -> ended t f (ql h).
Proof.
  intros H Hh. destruct (end_nodes m per t f h H Hh) as (k & c & Hr & EA & EB & SA & SB & U).
  exists k, c. split; [apply (nth_is_row _ _ _ _ _ _ H); auto|]. repeat (split; auto).
  intros k' e b He Ef. apply (nth_is_row _ _ _ _ _ _ H) in He.
  destruct (on_axes m per None t k' e H He) as (fa & fb & Hfa & Hfb & _).
  assert (O : (cA e <= cB e)%Z).
  { destruct (new_ok _ _ _ _ H) as (_ & nn & _ & _ & _ & _ & _ & _ & HO & _).
    pose proof He as He'. unfold is_row in He'. apply nth_error_In in He'. specialize (HO _ _ He'). unfold ordered in HO. lia. }
  destruct (Z.eq_dec (cA e) (cB e)) as [E|N].
  - left. apply (U k' e He); destruct b; lia.
  - right. assert (L : (cA e < cB e)%Z) by lia.
    destruct (row_inside m per None t k' e fa fb H He L Hfa Hfb) as [I1 I2]. unfold inside in *.
    destruct b.
    + assert (fb = h) by (eapply fiber_fun; [exact Hfb|rewrite Ef; exact Hh]). subst fb. exact I2.
    + assert (fa = h) by (eapply fiber_fun; [exact Hfa|rewrite Ef; exact Hh]). subst fa. exact I1.
Qed.
Lemma filter_ended thr t f l : ended t f l -> ended (filter_net thr t) f l.
Proof.
  destruct thr as [d|]; auto. intros (k & c & Hr & EA & EB & SA & SB & U).
  destruct (filter_embed (kept d) (map snd (n_rows t))) as (phi & P1 & P2 & P3).
  apply nth_row_snd in Hr. destruct (P3 _ _ Hr) as (k2 & E2 & H2).
  { unfold kept. rewrite EA, EB, Z.eqb_refl. apply orb_true_r. }
  assert (T : forall j x, nth_row (filter_net (Some d) t) j x <-> nth_error (filter (kept d) (map snd (n_rows t))) j = Some x).
  { intros j x. rewrite nth_row_snd. simpl. rewrite enum_snd. tauto. }
  exists k2, c. split; [apply T; auto|]. repeat (split; auto).
  intros k' e b He Ef. apply T in He.
  destruct (U (phi k') e b) as [E|I]; auto; [apply nth_row_snd, P2; auto|]. left.
  assert (L1 : (k' < length (filter (kept d) (map snd (n_rows t))))%nat) by (apply nth_error_Some; congruence).
  assert (L2 : (k2 < length (filter (kept d) (map snd (n_rows t))))%nat) by (apply nth_error_Some; congruence).
  destruct (Nat.lt_trichotomy k' k2) as [L|[L|L]]; auto; exfalso.
  - pose proof (P1 _ _ L L2). lia.
  - pose proof (P1 _ _ L L1). lia.
Qed.
Lemma mesh_tiles t g f l : mesh_init t = Ok g -> 0 < l -> ended t f l ->
  exists i d j e, first_node g f i d /\ last_node g f j e /\ (i < j)%nat /\
    ns d == - (l / 2) /\ ns e == l / 2 /\ beam_length g f == l.
Proof.
  intros Hg Hl (k & c & Hr & EA & EB & SA & SB & U).
  set (rs := map snd (n_rows t)). apply nth_row_snd in Hr. fold rs in Hr.
  pose proof (init_rows t g Hg) as ER. fold rs in ER.
  pose proof (mesh_nth rs k c true Hr) as N1. pose proof (mesh_nth rs k c false Hr) as N0.
  set (i := place rs k true) in *. set (j := place rs k false) in *.
  assert (Lij : (i < j)%nat).
  { apply (mesh_pos_lt rs k c true k c false); auto; simpl; [congruence|]. rewrite SA, SB. qlra. }
  assert (F : first_node g f i (snd (the_node rs i (raw_node k c true) (if Z.eqb (cA c) (cB c) then i else j)))).
  { split; [rewrite ER; eexists; exact N1|]. split; [simpl; auto|].
    intros x e Lx (lab & He) Ef. rewrite ER in He. destruct (mesh_at rs x _ He) as (k' & c' & b' & Hc' & Ep & _ & E).
    inversion E; subst lab e. cbn [nf] in Ef.
    destruct (U k' c' b') as [->|I].
    - apply nth_row_snd; auto.
    - destruct b'; simpl in Ef; auto.
    - rewrite Hr in Hc'. inversion Hc'; subst c'. destruct b'; [fold i in Ep|fold j in Ep]; lia.
    - assert (i < x)%nat; [|lia]. rewrite <- Ep. apply (mesh_pos_lt rs k c true k' c' b'); auto.
      + simpl. destruct b'; simpl in *; congruence.
      + destruct b'; simpl in *; rewrite SB; tauto. }
  assert (G : last_node g f j (snd (the_node rs j (raw_node k c false) (if Z.eqb (cA c) (cB c) then j else i)))).
  { split; [rewrite ER; eexists; exact N0|]. split; [simpl; auto|].
    intros x e Lx (lab & He) Ef. rewrite ER in He. destruct (mesh_at rs x _ He) as (k' & c' & b' & Hc' & Ep & _ & E).
    inversion E; subst lab e. cbn [nf] in Ef.
    destruct (U k' c' b') as [->|I].
    - apply nth_row_snd; auto.
    - destruct b'; simpl in Ef; auto.
    - rewrite Hr in Hc'. inversion Hc'; subst c'. destruct b'; [fold i in Ep|fold j in Ep]; lia.
    - assert (x < j)%nat; [|lia]. rewrite <- Ep. apply (mesh_pos_lt rs k' c' b' k c false); auto.
      + simpl. destruct b'; simpl in *; congruence.
      + destruct b'; simpl in *; rewrite SA; tauto. }
  eexists i, _, j, _. split; [exact F|]. split; [exact G|]. split; [exact Lij|].
  split; [simpl; exact SB|]. split; [simpl; exact SA|].
  rewrite (tile_length g ltac:(rewrite ER; apply mesh_labelled) ltac:(rewrite ER; apply mesh_ordered)
             ltac:(rewrite ER; apply mesh_beams) f i _ j _ F G).
  simpl. rewrite SA, SB. qlra.
Qed.
Lemma net_tiles m per t g f h : net_new m per None = Ok t -> mesh_init t = Ok g -> has_fiber m f h ->
  exists i d j e, first_node g f i d /\ last_node g f j e /\ (i < j)%nat /\
    ns d == - (ql h / 2) /\ ns e == ql h / 2 /\ beam_length g f == ql h.
Proof.
  intros H Hg Hh. apply (mesh_tiles t g f (ql h) Hg); [|eapply net_ended; eauto].
  pose proof (new_valid _ _ _ _ H) as Hv. destruct Hh as [_ Hh]. apply nth_error_In in Hh.
  apply (valid_fiber m Hv h Hh).
Qed.
Lemma stack_tiles linprog m per t thr st m' g f h : net_new m per None = Ok t -> solved linprog m t ->
  stack_new linprog m t thr = Ok (st, m') -> mesh_init st = Ok g -> has_fiber m f h ->
  exists i d j e, first_node g f i d /\ last_node g f j e /\ (i < j)%nat /\
    ns d == - (ql h / 2) /\ ns e == ql h / 2 /\ beam_length g f == ql h.
Proof.
  intros Hn Hs H Hg Hh. destruct (built_inv linprog m per t Hn Hs thr st m' H) as (_ & _ & _ & HS & _ & full & Hfull & ->).
  destruct (same_fiber m m' f h HS Hh) as (h' & Hh' & El & _). rewrite El.
  apply (mesh_tiles _ g f (ql h') Hg); [|apply filter_ended; eapply net_ended; eauto].
  pose proof (new_valid _ _ _ _ Hfull) as Hv. destruct Hh' as [_ Hh']. apply nth_error_In in Hh'.
  apply (valid_fiber m' Hv h' Hh').
Qed.
Lemma beam_nonneg g i d : labelled_in_order (g_rows g) -> nodes_ordered (g_rows g) -> beams_ok (g_rows g) ->
  is_node (g_rows g) i d -> (Z.of_nat i < nbeam d)%Z -> ns d <= abscissa g (nbeam d).
Proof.
  intros HL HO HB Hd L. destruct (HB i d Hd) as (j & Ej & d' & e & Hd' & He & Ef & _). rewrite Ej in *.
  assert (d' = d) by (eapply node_fun; eauto). subst d'.
  rewrite (abscissa_node g j e He). destruct (HO i j d e) as [C|[_ C]]; auto; lia.
Qed.
Lemma beam_inj rows i i' d d' : labelled_in_order rows -> beams_ok rows -> is_node rows i d -> is_node rows i' d' ->
  nbeam d = nbeam d' -> i = i'.
Proof.
  intros HL HB Hd Hd' E.
  destruct (HB i d Hd) as (b & Eb & x & e & Hx & He & Ef & HN).
  destruct (HB i' d' Hd') as (b' & Eb' & x' & e' & Hx' & He' & Ef' & HN').
  assert (b' = b) by lia. subst b'.
  assert (x = d) by (eapply node_fun; eauto). assert (x' = d') by (eapply node_fun; eauto).
  assert (e' = e) by (eapply node_fun; eauto). subst x x' e'.
  destruct (Nat.lt_trichotomy i i') as [L|[L|L]]; auto; exfalso.
  - destruct HN as [[A1 A2]|[A1 [A2 A3]]].
    + destruct HN' as [[B1 B2]|[B1 [B2 B3]]].
      * apply (A2 i' d'); auto; congruence.
      * apply (B3 i d); auto; congruence.
    + apply (A2 i' d'); auto; congruence.
  - destruct HN' as [[A1 A2]|[A1 [A2 A3]]].
    + destruct HN as [[B1 B2]|[B1 [B2 B3]]].
      * apply (A2 i d); auto; congruence.
      * apply (B3 i' d'); auto; congruence.
    + apply (A2 i d); auto; congruence.
Qed.
Lemma beam_permutes rows : labelled_in_order rows -> beams_ok rows ->
  Permutation (map (fun r => nbeam (snd r)) rows) (map fst rows).
Proof.
  intros HL HB. apply NoDup_Permutation_bis.
  - apply NoDup_nth_error. intros i j Hi E. rewrite map_length in Hi. rewrite !nth_error_map in E.
    apply nth_error_Some in Hi. destruct (nth_error rows i) as [[l d]|] eqn:Ei; [|congruence].
    destruct (nth_error rows j) as [[l' d']|] eqn:Ej; simpl in E; [|discriminate E]. inversion E.
    eapply (beam_inj rows i j d d'); eauto; eexists; eauto.
  - rewrite !map_length. auto.
  - intros b Hb. apply in_map_iff in Hb. destruct Hb as ([l d] & <- & Hr). apply In_nth_error in Hr. destruct Hr as (i & Hi).
    destruct (HB i d) as (j & Ej & _ & e & _ & (l' & He) & _); [eexists; eauto|]. simpl. rewrite Ej.
    rewrite <- (HL _ _ _ He). apply in_map_iff. exists (l', e). split; auto. eapply nth_error_In; eauto.
Qed.
Lemma init_order t g : mesh_init t = Ok g ->
  labelled_in_order (g_rows g) /\ nodes_ordered (g_rows g) /\ beams_ok (g_rows g) /\ cons_involution (g_rows g).
Proof.
  intros H. rewrite (init_rows t g H).
  split; [apply mesh_labelled|split; [apply mesh_ordered|split; [apply mesh_beams|apply mesh_involution]]].
Qed.
