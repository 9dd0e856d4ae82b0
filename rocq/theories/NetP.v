(** Net.init (C05 - C14). *)
From Coq Require Import String Permutation.
From Verif Require Import Num NumP ListX ListP Frames MatM NetM Spec SpecNet CheckP MatP.
Open Scope Q_scope.

(** ** Valid mats *)
Section Valid.
  Variable m : qmat.
  Hypothesis Hv : valid m.

  Lemma valid_check : mat_check (df_of m) = Ok true.
  Proof. apply mat_check_ok. right. exact Hv. Qed.

  Lemma in_enum {A} (l : list A) a : In a l -> exists k, In (k, a) (enum l).
  Proof.
    intros H. rewrite <- (enum_snd l) in H. apply in_map_iff in H.
    destruct H as ([k b] & <- & H). exists k; auto.
  Qed.

  Lemma valid_fiber f : In f (q_rows m) ->
    0 < ql f /\ 0 < qb f /\ 0 < qh f /\
    - q_size m / 2 <= qx f <= q_size m / 2 /\ - q_size m / 2 <= qy f <= q_size m / 2 /\
    (1 - 0.00001001) * (1 - 0.00001001) <= qu f * qu f + qv f * qv f + qw f * qw f
      <= (1 + 0.00001001) * (1 + 0.00001001) /\
    positive (qG f) /\ positive (qE f).
  Proof.
    intros Hf. destruct Hv as (_ & size & _ & Es & _ & Hd & Hb & Hu & HM).
    simpl in Es. inversion Es; subst size. clear Es.
    assert (H : exists k, In (k, fiber_of f) (m_rows (df_of m))).
    { simpl. apply in_enum. apply in_map. exact Hf. }
    destruct H as (k & H). specialize (Hd _ _ H). specialize (Hb _ _ H).
    specialize (Hu _ _ H). specialize (HM _ _ H). simpl in *.
    destruct Hd as (H1 & H2 & H3). destruct HM as (H4 & H5).
    destruct Hb as (a & b & E1 & E2 & H6 & H7). inversion E1; inversion E2; subst a b.
    destruct Hu as (a & b & c & E3 & E4 & E5 & H8). inversion E3; inversion E4; inversion E5; subst a b c.
    simpl in H1, H2, H3. auto 10.
  Qed.
  Lemma valid_size : q_rows m <> [] -> 0 <= q_size m.
  Proof.
    destruct (q_rows m) as [|f l] eqn:E; [congruence|]. intros _.
    destruct (valid_fiber f) as (_ & _ & _ & H & _); [rewrite E; left; auto|]. qlra.
  Qed.
End Valid.

(** ** Images *)
Lemma labelled_nth rows i : nth_error (labelled rows) i = option_map (pair i) (nth_error rows i).
Proof.
  unfold labelled. change (pair i) with (@pair nat qfiber (0 + i)%nat).
  generalize 0%nat. revert i. induction rows as [|f t IH]; intros i k; simpl.
  - destruct i; reflexivity.
  - destruct i as [|i]; simpl.
    + replace (k + 0)%nat with k by lia. reflexivity.
    + rewrite IH. replace (k + S i)%nat with (S k + i)%nat by lia. reflexivity.
Qed.
Lemma labelled_length rows : length (labelled rows) = length rows.
Proof. unfold labelled. rewrite combine_length, seq_length. lia. Qed.
Lemma labelled_in rows i f : In (i, f) (labelled rows) <-> nth_error rows i = Some f.
Proof.
  split.
  - intros H. apply In_nth_error in H. destruct H as (k & H). rewrite labelled_nth in H.
    destruct (nth_error rows k) eqn:E; inversion H; subst; auto.
  - intros H. apply (nth_error_In _ i). rewrite labelled_nth, H. reflexivity.
Qed.

Section Images.
  Variable m : qmat.
  Variable per : bool.
  Let n := length (q_rows m).
  Let im := images per m.

  (** the first rows of [mat_] are the mat itself *)
  Lemma images_base i : (i < n)%nat -> nth_error im i = option_map (pair i) (nth_error (q_rows m) i).
  Proof.
    intros H. unfold im, images. destruct per.
    - rewrite nth_error_app1 by (rewrite labelled_length; auto). apply labelled_nth.
    - apply labelled_nth.
  Qed.
  Lemma images_len : (n <= length im)%nat.
  Proof.
    unfold im, images. destruct per; [rewrite app_length|]; rewrite labelled_length; unfold n; lia.
  Qed.

  (** offset of an image, in periods *)
  Definition moved (a b : Z) (f g : qfiber) : Prop :=
    g = f /\ a = 0%Z /\ b = 0%Z
    \/ g = shift (q_size m) 0 f /\ a = 1%Z /\ b = 0%Z
    \/ g = shift 0 (q_size m) f /\ a = 0%Z /\ b = 1%Z
    \/ g = shift (- q_size m) (- q_size m) f /\ a = (-1)%Z /\ b = (-1)%Z.

  Lemma image_inv i g : In (i, g) im ->
    exists f a b, nth_error (q_rows m) i = Some f /\ moved a b f g /\ (per = false -> g = f /\ a = 0%Z /\ b = 0%Z).
  Proof.
    assert (Hb : In (i, g) (labelled (q_rows m)) ->
      exists f a b, nth_error (q_rows m) i = Some f /\ moved a b f g
        /\ (per = false -> g = f /\ a = 0%Z /\ b = 0%Z)).
    { intros H. apply labelled_in in H. exists g, 0%Z, 0%Z. unfold moved. auto 6. }
    unfold im, images. destruct per; [|exact Hb]. rewrite !in_app_iff.
    intros [H|[H|[H|H]]]; [auto| | |];
      apply in_map_iff in H; destruct H as ([j f] & E & H); simpl in E; inversion E; subst j g; clear E;
      apply filter_In in H; destruct H as [H _]; apply labelled_in in H.
    - exists f, 1%Z, 0%Z. unfold moved. split; [|split]; auto 6; discriminate.
    - exists f, 0%Z, 1%Z. unfold moved. split; [|split]; auto 6; discriminate.
    - exists f, (-1)%Z, (-1)%Z. unfold moved. split; [|split]; auto 6; discriminate.
  Qed.
  Lemma image_label i g : In (i, g) im -> (i < n)%nat.
  Proof.
    intros H. destruct (image_inv i g H) as (f & a & b & E & _). apply nth_error_Some. congruence.
  Qed.

  Lemma image_mk_base i f : nth_error (q_rows m) i = Some f -> In (i, f) im.
  Proof.
    intros H. unfold im, images. destruct per; [apply in_app_iff; left|]; apply labelled_in; auto.
  Qed.
  Lemma image_mk_x i f : per = true -> nth_error (q_rows m) i = Some f ->
    qx f < - half * q_size m + lmax_of (q_rows m) -> In (i, shift (q_size m) 0 f) im.
  Proof.
    intros Hp H Hx. unfold im, images. rewrite Hp. rewrite !in_app_iff. right; left.
    apply in_map_iff. exists (i, f). split; auto. apply filter_In. split; [apply labelled_in; auto|].
    simpl. qb. exact Hx.
  Qed.
  Lemma image_mk_y i f : per = true -> nth_error (q_rows m) i = Some f ->
    qy f < - half * q_size m + lmax_of (q_rows m) -> In (i, shift 0 (q_size m) f) im.
  Proof.
    intros Hp H Hx. unfold im, images. rewrite Hp. rewrite !in_app_iff. right; right; left.
    apply in_map_iff. exists (i, f). split; auto. apply filter_In. split; [apply labelled_in; auto|].
    simpl. qb. exact Hx.
  Qed.
  Lemma image_mk_xy i f : per = true -> nth_error (q_rows m) i = Some f ->
    half * q_size m - lmax_of (q_rows m) < qx f -> half * q_size m - lmax_of (q_rows m) < qy f ->
    In (i, shift (- q_size m) (- q_size m) f) im.
  Proof.
    intros Hp H Hx Hy. unfold im, images. rewrite Hp. rewrite !in_app_iff. right; right; right.
    apply in_map_iff. exists (i, f). split; auto. apply filter_In. split; [apply labelled_in; auto|].
    simpl. apply andb_true_iff. split; qb; auto.
  Qed.

  Lemma by_label_nth i f : nth_error (q_rows m) i = Some f -> by_label im i = f.
  Proof.
    intros H. unfold by_label. apply nth_error_nth. rewrite nth_error_map.
    rewrite images_base by (apply nth_error_Some; congruence). rewrite H. reflexivity.
  Qed.

  Lemma lmax_ge f : In f (q_rows m) -> ql f <= lmax_of (q_rows m).
  Proof.
    unfold lmax_of. induction (q_rows m) as [|g l IH]; simpl; [tauto|]. intros [->|H].
    - apply Q.le_max_l.
    - eapply Qle_trans; [apply IH; auto | apply Q.le_max_r].
  Qed.
  Lemma lmax_le l : 0 <= l -> lengths_le m l -> lmax_of (q_rows m) <= l.
  Proof.
    intros Hl H. unfold lengths_le in H. unfold lmax_of.
    induction (q_rows m) as [|g t IH]; simpl; auto.
    apply Q.max_lub; [apply H; simpl; auto | apply IH; intros; apply H; simpl; auto].
  Qed.
End Images.

(** ** Sorting and removing duplicates *)
Definition lex (c d : cand) : Prop := (kA c < kA d)%nat \/ (kA c = kA d /\ (kB c < kB d)%nat).

Lemma cand_leb_total c d : cand_leb c d = true \/ cand_leb d c = true.
Proof.
  unfold cand_leb. rewrite !orb_true_iff, !andb_true_iff, !Nat.ltb_lt, !Nat.eqb_eq, !Nat.leb_le. lia.
Qed.
Lemma cand_leb_trans c d e : cand_leb c d = true -> cand_leb d e = true -> cand_leb c e = true.
Proof.
  unfold cand_leb. rewrite !orb_true_iff, !andb_true_iff, !Nat.ltb_lt, !Nat.eqb_eq, !Nat.leb_le. lia.
Qed.
Lemma cand_dup_iff c d : cand_dup c d = true <-> kA c = kA d /\ kB c = kB d.
Proof. unfold cand_dup. rewrite andb_true_iff, !Nat.eqb_eq. tauto. Qed.

Definition final (l : list cand) : list cand := dedup cand_dup (isort cand_leb l).

Lemma final_incl l c : In c (final l) -> In c l.
Proof. intros H. apply dedup_incl in H. now apply isort_in in H. Qed.
Lemma final_complete l c : In c l -> exists d, In d (final l) /\ kA d = kA c /\ kB d = kB c.
Proof.
  intros H. apply (isort_in cand_leb) in H.
  apply (dedup_complete cand_dup) in H.
  - destruct H as (d & Hd & E). exists d. split; auto. now apply cand_dup_iff in E.
  - intros x. apply cand_dup_iff; auto.
  - intros x y z. rewrite !cand_dup_iff. intuition congruence.
Qed.
Lemma final_sorted l : StronglySorted lex (final l).
Proof.
  pose proof (dedup_nodup cand_dup (isort cand_leb l)) as H1.
  pose proof (dedup_sorted cand_dup _ _ (isort_sorted cand_leb cand_leb_total cand_leb_trans l)) as H2.
  fold (final l) in H1, H2. rewrite StronglySorted_nth in *.
  intros i j x y Hij Hi Hj. specialize (H1 _ _ _ _ Hij Hi Hj). specialize (H2 _ _ _ _ Hij Hi Hj).
  unfold cand_leb in H2. rewrite !orb_true_iff, !andb_true_iff, !Nat.ltb_lt, !Nat.eqb_eq, !Nat.leb_le in H2.
  unfold lex. destruct (Nat.eq_dec (kA x) (kA y)); [|lia].
  destruct (Nat.eq_dec (kB x) (kB y)); [|lia].
  assert (cand_dup x y = true) by (apply cand_dup_iff; auto). congruence.
Qed.
Lemma lex_unique l i j c d : StronglySorted lex l ->
  nth_error l i = Some c -> nth_error l j = Some d -> kA c = kA d -> kB c = kB d -> i = j.
Proof.
  rewrite StronglySorted_nth. intros H Hi Hj EA EB.
  destruct (Nat.lt_trichotomy i j) as [L|[L|L]]; auto; exfalso.
  - destruct (H _ _ _ _ L Hi Hj) as [|[]]; lia.
  - destruct (H _ _ _ _ L Hj Hi) as [|[]]; lia.
Qed.

Lemma orient_le c : (kA (orient c) <= kB (orient c))%nat.
Proof. unfold orient. destruct (Nat.leb_spec (kA c) (kB c)); simpl; lia. Qed.

(** ** The network *)
Section Net.
  Variable m : qmat.
  Variable per : bool.
  Hypothesis Hv : valid m.
  Let im := images per m.
  Let fibers i f := nth_error (q_rows m) i = Some f.

  (** a candidate is made from two near images of two fibers *)
  Definition made (c : cand) (i j : nat) (f g : qfiber) (a b : Z) (f' g' : qfiber) (a' b' : Z) : Prop :=
    fibers i f /\ fibers j g /\ moved m a b f f' /\ moved m a' b' g g' /\
    (per = false -> f' = f /\ g' = g /\ a = 0%Z /\ b = 0%Z /\ a' = 0%Z /\ b' = 0%Z) /\
    c = cand_of (i, f') (j, g') /\ keep im c = true /\ near f' g' = true.

  Definition pos_ok (ps : list (nat * nat)) : Prop :=
    forall i j, In (i, j) ps -> (i < length im)%nat /\ (j < length im)%nat.

  Lemma nth_image_in i : (i < length im)%nat -> In (nth_image im i) im.
  Proof. intros H. apply nth_In. exact H. Qed.

  Lemma cand_made ps c : pos_ok ps -> In c (candidates im ps) ->
    exists i j f g a b f' g' a' b', made c i j f g a b f' g' a' b'.
  Proof.
    intros Hp Hc. unfold candidates in Hc. apply filter_In in Hc. destruct Hc as [Hc Hk].
    apply in_map_iff in Hc. destruct Hc as ((p & q) & E & Hc). simpl in E.
    apply filter_In in Hc. destruct Hc as [Hc Hne]. apply in_map_iff in Hc.
    destruct Hc as ((i & j) & E' & Hij). simpl in E'. inversion E'; subst p q. cbn [fst snd] in Hne.
    destruct (Hp i j Hij) as [Hi Hj].
    apply nth_image_in in Hi. apply nth_image_in in Hj.
    destruct (nth_image im i) as [i' f']. destruct (nth_image im j) as [j' g'].
    destruct (image_inv m per i' f' Hi) as (f & a & b & Ef & Mf & Pf).
    destruct (image_inv m per j' g' Hj) as (g & a' & b' & Eg & Mg & Pg).
    exists i', j', f, g, a, b, f', g', a', b'. unfold made.
    split; [exact Ef|]. split; [exact Eg|]. split; [exact Mf|]. split; [exact Mg|].
    split; [|split; [auto|split; auto]]. intros Hper. specialize (Pf Hper). specialize (Pg Hper). tauto.
  Qed.

  Lemma in_candidates ps i j f' g' k l :
    nth_error im i = Some (k, f') -> nth_error im j = Some (l, g') ->
    In (i, j) ps -> near f' g' = true -> keep im (cand_of (k, f') (l, g')) = true ->
    In (cand_of (k, f') (l, g')) (candidates im ps).
  Proof.
    intros Hi Hj Hij Hn Hk. unfold candidates. apply filter_In. split; auto.
    apply in_map_iff. exists ((k, f'), (l, g')). split; auto.
    apply filter_In. split; [|exact Hn]. apply in_map_iff. exists (i, j). split; auto. simpl.
    unfold nth_image. f_equal; [apply nth_error_nth; exact Hi | apply nth_error_nth; exact Hj].
  Qed.
  Lemma triu_ok : pos_ok (triu (length im)).
  Proof. intros i j H. apply in_triu in H. lia. Qed.

  (** labels and abscissae of candidates *)
  Lemma cand_labels p q : kA (cand_of p q) = fst p /\ kB (cand_of p q) = fst q.
  Proof. unfold cand_of. destruct (abscissae _ _). auto. Qed.
  Lemma cand_abs p q : ksA (cand_of p q) = fst (abscissae (snd p) (snd q))
                    /\ ksB (cand_of p q) = snd (abscissae (snd p) (snd q)).
  Proof. unfold cand_of. destruct (abscissae _ _). auto. Qed.

  Definition same_data (f g : qfiber) : Prop :=
    ql f = ql g /\ qb f = qb g /\ qh f = qh g /\ qz f = qz g /\
    qu f = qu g /\ qv f = qv g /\ qw f = qw g.
  Lemma moved_data a b f g : moved m a b f g -> same_data f g.
  Proof.
    unfold same_data. intros [[-> _]|[[-> _]|[[-> _]|[-> _]]]]; simpl; auto 10.
  Qed.
  Lemma moved_coord a b f g : moved m a b f g ->
    qx g == qx f + inject_Z a * q_size m /\ qy g == qy f + inject_Z b * q_size m.
  Proof.
    intros [(-> & -> & ->)|[(-> & -> & ->)|[(-> & -> & ->)|(-> & -> & ->)]]]; simpl;
      unfold inject_Z; split; ring.
  Qed.

  (** two images of one fiber are connected at the ends *)
  Lemma self_abscissae f g : same_data f g ->
    abscissae f g = (half * ql f, - (half * ql f)).
  Proof.
    intros (El & _ & _ & _ & Eu & Ev & Ew). unfold abscissae.
    rewrite <- Eu, <- Ev, <- Ew, <- El.
    set (d := dot (qu f) (qv f) (qw f) (qu f) (qv f) (qw f)).
    assert (E : Qeqb (d * d - d * d) 0 = true) by (apply Qeqb_eq; ring).
    rewrite E. reflexivity.
  Qed.

  (** normal equations of the nearest points of the axes of [f] and of [g]
      moved by a, b periods *)
  Definition gram (f g : qfiber) : Q := qu f * qu g + qv f * qv g + qw f * qw g.
  Definition normal (f g : qfiber) (a b : Z) (s t : Q) : Prop :=
    let rx := qx g + inject_Z a * q_size m - qx f in
    let ry := qy g + inject_Z b * q_size m - qy f in
    let rz := qz g - qz f in
    qu f * rx + qv f * ry + qw f * rz + t * gram f g - s * gram f f == 0 /\
    qu g * rx + qv g * ry + qw g * rz + t * gram g g - s * gram f g == 0 /\
    ~ gram f f * gram g g - gram f g * gram f g == 0.

  Lemma opp0 x y : x == 0 -> y == - x -> y == 0.
  Proof. intros H E. rewrite E, H. reflexivity. Qed.
  Lemma normal_swap f g a b s t : normal f g a b s t -> normal g f (- a) (- b) t s.
  Proof.
    unfold normal, gram. rewrite !inject_Z_opp. intros (H1 & H2 & H3).
    split; [|split].
    - apply (opp0 _ _ H2). ring.
    - apply (opp0 _ _ H1). ring.
    - intro C. apply H3. rewrite <- C. ring.
  Qed.

  (** the abscissae computed by Cramer's rule solve the normal equations *)
  Lemma cramer f g a b a' b' f' g' :
    moved m a b f f' -> moved m a' b' g g' ->
    ~ gram f f * gram g g - gram f g * gram f g == 0 ->
    normal f g (a' - a) (b' - b) (fst (abscissae f' g')) (snd (abscissae f' g')).
  Proof.
    intros Mf Mg Hd.
    destruct (moved_data _ _ _ _ Mf) as (_ & _ & _ & Ez & Eu & Ev & Ew).
    destruct (moved_data _ _ _ _ Mg) as (_ & _ & _ & Ez' & Eu' & Ev' & Ew').
    destruct (moved_coord _ _ _ _ Mf) as (Ex & Ey). destruct (moved_coord _ _ _ _ Mg) as (Ex' & Ey').
    unfold abscissae. rewrite <- Eu, <- Ev, <- Ew, <- Eu', <- Ev', <- Ew', <- Ez, <- Ez'.
    unfold dot. unfold gram in Hd.
    destruct (Qeqb _ 0) eqn:E.
    { apply Qeqb_eq in E. exfalso. apply Hd. rewrite <- E. ring. }
    apply Qeqb_neq in E. unfold normal, gram. cbn [fst snd].
    rewrite !inject_Z_minus || unfold Zminus; rewrite ?inject_Z_plus, ?inject_Z_opp.
    set (rx := qx g + (inject_Z a' + - inject_Z a) * q_size m - qx f).
    set (ry := qy g + (inject_Z b' + - inject_Z b) * q_size m - qy f).
    set (rz := qz g - qz f).
    assert (Erx : qx g' - qx f' == rx) by (rewrite Ex, Ex'; unfold rx; ring).
    assert (Ery : qy g' - qy f' == ry) by (rewrite Ey, Ey'; unfold ry; ring).
    setoid_rewrite Erx. setoid_rewrite Ery.
    clearbody rx ry rz. clear - E.
    split; [|split].
    - field. intro C. apply E. rewrite <- C. ring.
    - field. intro C. apply E. rewrite <- C. ring.
    - intro C. apply E. rewrite <- C. ring.
  Qed.
  Lemma parallel f g a b a' b' f' g' :
    moved m a b f f' -> moved m a' b' g g' ->
    gram f f * gram g g - gram f g * gram f g == 0 ->
    abscissae f' g' = (half * ql f, - (half * ql g)).
  Proof.
    intros Mf Mg Hd.
    destruct (moved_data _ _ _ _ Mf) as (El & _ & _ & Ez & Eu & Ev & Ew).
    destruct (moved_data _ _ _ _ Mg) as (El' & _ & _ & Ez' & Eu' & Ev' & Ew').
    unfold abscissae. rewrite <- Eu, <- Ev, <- Ew, <- Eu', <- Ev', <- Ew', <- El, <- El'.
    unfold dot. unfold gram in Hd.
    destruct (Qeqb _ 0) eqn:E; auto.
    apply Qeqb_neq in E. exfalso. apply E. rewrite <- Hd. ring.
  Qed.
  (** solutions of the normal equations are unique *)
  Lemma normal_unique f g a b s t s' t' :
    normal f g a b s t -> normal f g a b s' t' -> s == s' /\ t == t'.
  Proof.
    unfold normal. set (G := gram f f). set (H := gram g g). set (K := gram f g).
    intros (H1 & H2 & H3) (H1' & H2' & _).
    assert (E1 : (t - t') * K - (s - s') * G == 0) by lra.
    assert (E2 : (t - t') * H - (s - s') * K == 0) by lra.
    assert (F1 : (s - s') * (G * H - K * K) == 0).
    { setoid_replace ((s - s') * (G * H - K * K)) with
        (K * ((t - t') * H - (s - s') * K) - H * ((t - t') * K - (s - s') * G)) by ring.
      rewrite E1, E2. ring. }
    assert (F2 : (t - t') * (G * H - K * K) == 0).
    { setoid_replace ((t - t') * (G * H - K * K)) with
        (G * ((t - t') * H - (s - s') * K) - K * ((t - t') * K - (s - s') * G)) by ring.
      rewrite E1, E2. ring. }
    apply Qmult_integral in F1. apply Qmult_integral in F2.
    destruct F1 as [F1|F1]; [|contradiction]. destruct F2 as [F2|F2]; [|contradiction].
    split; lra.
  Qed.

  (** the neighbourhood test on images *)
  Lemma near_close f g a b a' b' f' g' : moved m a b f f' -> moved m a' b' g g' -> near f' g' = true ->
    close (q_size m) f g (a' - a) (b' - b).
  Proof.
    intros Mf Mg H. destruct (moved_data _ _ _ _ Mf) as (El & _). destruct (moved_data _ _ _ _ Mg) as (El' & _).
    destruct (moved_coord _ _ _ _ Mf) as (Ex & Ey). destruct (moved_coord _ _ _ _ Mg) as (Ex' & Ey').
    unfold near, sq, half in H. rewrite <- El, <- El' in H. apply andb_true_iff in H. destruct H as [_ H]. qb. rewrite Ex, Ey, Ex', Ey' in H.
    unfold close. unfold Zminus. rewrite !inject_Z_plus, !inject_Z_opp.
    setoid_replace ((ql f + ql g) / 2) with ((1 # 2) * (ql f + ql g)) by field.
    eapply Qle_lt_trans; [|exact H]. apply Qle_lteq. right. ring.
  Qed.
  Lemma close_swap f g a b : close (q_size m) f g a b -> close (q_size m) g f (- a) (- b).
  Proof.
    unfold close. rewrite !inject_Z_opp. intros H. setoid_replace (ql g + ql f) with (ql f + ql g) by ring.
    eapply Qle_lt_trans; [|exact H]. apply Qle_lteq. right. ring.
  Qed.

  (** ** Rows of the network *)
  Variable ps : list (nat * nat).
  Hypothesis Hps : pos_ok ps.
  Let D := final (map orient (candidates im ps)).

  Definition row_data (c : cand) : Prop :=
    exists i j f g, kA c = i /\ kB c = j /\ (i <= j)%nat /\ fibers i f /\ fibers j g /\
      ((i = j /\ ksA c = half * ql f /\ ksB c = - (half * ql f)) \/
       ((i < j)%nat /\ Qabs (ksA c) < half * ql f /\ Qabs (ksB c) < half * ql g /\
        exists a b, allowed per a b /\ close (q_size m) f g a b /\ normal f g a b (ksA c) (ksB c))).

  Lemma fiber_in i f : fibers i f -> In f (q_rows m).
  Proof. intros H. eapply nth_error_In; eauto. Qed.

  Lemma row_data_of c : In c (map orient (candidates im ps)) -> row_data c.
  Proof.
    intros Hc. apply in_map_iff in Hc. destruct Hc as (c0 & <- & Hc).
    apply (cand_made _ _ Hps) in Hc.
    destruct Hc as (i & j & f & g & a & b & f' & g' & a' & b' & Ff & Fg & Mf & Mg & Hp & -> & Hk & Hne).
    pose proof (cand_labels (i, f') (j, g')) as [LA LB].
    pose proof (cand_abs (i, f') (j, g')) as [SA SB]. cbn [fst snd] in *.
    set (c0 := cand_of (i, f') (j, g')) in *. clearbody c0.
    destruct (Nat.eq_dec i j) as [E|E].
    - assert (g = f) by (unfold fibers in *; congruence). subst g. rewrite <- E in LB.
      assert (Eo : orient c0 = c0) by (unfold orient; rewrite LA, LB, Nat.leb_refl; auto).
      rewrite Eo. exists i, i, f, f. repeat (split; auto). left. split; auto.
      destruct (moved_data _ _ _ _ Mf) as (E1 & E2 & E3 & E4 & E5 & E6 & E7).
      destruct (moved_data _ _ _ _ Mg) as (F1 & F2 & F3 & F4 & F5 & F6 & F7).
      assert (Hs : same_data f' g').
      { unfold same_data. rewrite <- E1, <- E2, <- E3, <- E4, <- E5, <- E6, <- E7.
        rewrite <- F1, <- F2, <- F3, <- F4, <- F5, <- F6, <- F7. auto 10. }
      apply self_abscissae in Hs. rewrite Hs in SA, SB. cbn [fst snd] in *. rewrite <- E1 in *.
      auto.
    - unfold keep in Hk. rewrite LA, LB in Hk.
      rewrite (proj2 (Nat.eqb_neq i j) E), orb_false_r in Hk.
      unfold im in Hk. rewrite (by_label_nth m per i f Ff), (by_label_nth m per j g Fg) in Hk.
      apply andb_true_iff in Hk. destruct Hk as [K1 K2]. qb.
      assert (Hd : ~ gram f f * gram g g - gram f g * gram f g == 0).
      { intros Hd. rewrite (parallel _ _ _ _ _ _ _ _ Mf Mg Hd) in SA. cbn [fst] in SA.
        rewrite SA in K1. pose proof (Qle_Qabs (half * ql f)). lra. }
      pose proof (cramer _ _ _ _ _ _ _ _ Mf Mg Hd) as HN. rewrite <- SA, <- SB in HN.
      pose proof (near_close _ _ _ _ _ _ _ _ Mf Mg Hne) as HC.
      unfold orient. rewrite LA, LB. destruct (Nat.leb_spec i j) as [L|L].
      + exists i, j, f, g. repeat (split; auto). right. split; [lia|]. split; auto. split; auto.
        exists (a' - a)%Z, (b' - b)%Z. split; [|split; auto]. intros Hper. specialize (Hp Hper). lia.
      + exists j, i, g, f. cbn [kA kB ksA ksB]. repeat (split; auto); try lia.
        right. split; [lia|]. split; auto. split; auto.
        exists (- (a' - a))%Z, (- (b' - b))%Z. split.
        * intros Hper. specialize (Hp Hper). lia.
        * split; [now apply close_swap|now apply normal_swap].
  Qed.

  Lemma net_row k c : nth_error (enum (net_conns im ps)) k = Some c ->
    fst c = Z.of_nat k /\ exists d, nth_error D k = Some d /\ snd c = conn_of im d /\ row_data d.
  Proof.
    rewrite enum_nth_error. unfold net_conns. fold (final (map orient (candidates im ps))). fold D.
    rewrite nth_error_map. destruct (nth_error D k) as [d|] eqn:E; [|discriminate].
    intros H; inversion H; subst c. split; auto. exists d. split; auto. split; auto.
    apply row_data_of. apply final_incl. apply nth_error_In in E. exact E.
  Qed.
End Net.

(** ** Net.init and Net(mat) as a whole *)
Section New.
  Variable m : qmat.
  Variable per : bool.
  Let im := images per m.

  Lemma position_lt len p i : position len p = Some i -> (i < len)%nat.
  Proof.
    unfold position. destruct (Z.leb_spec 0 p); destruct (Z.ltb_spec p (Z.of_nat len)); simpl.
    - intros H1; inversion H1. lia.
    - destruct (Z.leb_spec (- Z.of_nat len) p); destruct (Z.ltb_spec p 0); simpl; try discriminate. lia.
    - destruct (Z.leb_spec (- Z.of_nat len) p); destruct (Z.ltb_spec p 0); simpl; try discriminate.
      intros H3; inversion H3. lia.
    - destruct (Z.leb_spec (- Z.of_nat len) p); destruct (Z.ltb_spec p 0); simpl; try discriminate. lia.
  Qed.
  Lemma position_some len p : (- Z.of_nat len <= p < Z.of_nat len)%Z <-> position len p <> None.
  Proof.
    unfold position. destruct (Z.leb_spec 0 p); destruct (Z.ltb_spec p (Z.of_nat len));
    destruct (Z.leb_spec (- Z.of_nat len) p); destruct (Z.ltb_spec p 0); simpl; split; intros; try lia;
      try congruence.
  Qed.
  Lemma positions_ok len l r : positions len l = Ok r ->
    forall i j, In (i, j) r -> (i < len)%nat /\ (j < len)%nat.
  Proof.
    revert r. induction l as [|[p q] l IH]; simpl; intros r H.
    - inversion H. intros i j [].
    - destruct (position len p) as [i0|] eqn:Ei; [|discriminate].
      destruct (position len q) as [j0|] eqn:Ej; [|discriminate].
      destruct (positions len l) as [r'|] eqn:E; [|discriminate]. simpl in H. inversion H; subst r.
      intros i j [Hin|Hin].
      + inversion Hin; subst. split; eapply position_lt; eauto.
      + eapply IH; eauto.
  Qed.
  Lemma positions_total len l :
    (forall p q, In (p, q) l -> position len p <> None /\ position len q <> None) ->
    exists r, positions len l = Ok r.
  Proof.
    induction l as [|[p q] l IH]; simpl; intros H; [eexists; eauto|].
    destruct (H p q) as [H1 H2]; auto.
    destruct (position len p); [|congruence]. destruct (position len q); [|congruence].
    destruct IH as (r & ->); [intros; apply H; auto|]. simpl. eauto.
  Qed.
  Lemma positions_exn len l e : positions len l = Exn e ->
    e = IndexErr /\ exists p q, In (p, q) l /\ (position len p = None \/ position len q = None).
  Proof.
    induction l as [|[p q] l IH]; simpl; [discriminate|].
    destruct (position len p) eqn:Ep; [destruct (position len q) eqn:Eq|].
    - destruct (positions len l) eqn:E; simpl; [discriminate|]. intros H; inversion H; subst.
      destruct (IH eq_refl) as (-> & p' & q' & H1 & H2). split; auto. exists p', q'; auto.
    - intros H; inversion H. split; auto. exists p, q; auto.
    - intros H; inversion H. split; auto. exists p, q; auto.
  Qed.

  Lemma pair_list_ok pairs ps : pair_list im pairs = Ok ps -> pos_ok m per ps.
  Proof.
    destruct pairs as [l|]; simpl; intros H.
    - intros i j Hij. eapply positions_ok; eauto.
    - inversion H. apply triu_ok.
  Qed.

  Definition net_table (ps : list (nat * nat)) : net_df :=
    mkNetDf net_columns (enum (net_conns im ps))
      (mkAttrs (Some (Z.of_nat (length (q_rows m)))) (Some (Fin (q_size m))) (Some per) None) true.

  Lemma fiber_lt i f : nth_error (q_rows m) i = Some f -> (i < length (q_rows m))%nat.
  Proof. intros H. apply nth_error_Some. congruence. Qed.

  Lemma table_ok ps : valid m -> pos_ok m per ps -> net_ok (net_table ps).
  Proof.
    intros Hv Hps. split; [intros c Hc; exact Hc|].
    exists (Z.of_nat (length (q_rows m))). simpl.
    split; auto. split; [discriminate|]. split; [discriminate|].
    split; [apply enum_labelled|]. split; auto.
    assert (HR : forall k c, In (k, c) (enum (net_conns im ps)) ->
       exists d, c = conn_of im d /\ row_data m per d).
    { intros k c H. apply In_nth_error in H. destruct H as (i & H).
      apply (net_row m per ps Hps) in H. destruct H as (_ & d & _ & E & H). exists d; auto. }
    split; [|split].
    - intros k c H. apply HR in H. destruct H as (d & -> & i & j & f & g & E1 & E2 & Hij & Ff & Fg & _).
      unfold labels_in, conn_of. simpl. rewrite E1, E2.
      apply fiber_lt in Ff. apply fiber_lt in Fg. lia.
    - intros k c H. apply HR in H. destruct H as (d & -> & i & j & f & g & E1 & E2 & Hij & Ff & Fg & _).
      unfold ordered, conn_of. simpl. lia.
    - intros i j li lj c d Hij Hi Hj (E1 & E2 & _).
      apply (net_row m per ps Hps) in Hi. apply (net_row m per ps Hps) in Hj.
      destruct Hi as (_ & c' & Hi & Ec & _). destruct Hj as (_ & d' & Hj & Ed & _). simpl in Ec, Ed. subst c d.
      unfold conn_of in E1, E2. simpl in E1, E2.
      assert (i = j); [|lia].
      eapply lex_unique; [apply final_sorted|exact Hi|exact Hj|lia|lia].
  Qed.

  Lemma net_new_inv pairs t : net_new m per pairs = Ok t ->
    valid m /\ exists ps, pair_list im pairs = Ok ps /\ pos_ok m per ps /\ t = net_table ps.
  Proof.
    unfold net_new, net_init. destruct (mat_check (df_of m)) as [b|e] eqn:E; [|discriminate].
    simpl. assert (Hv : valid m).
    { pose proof (mat_check_true _ _ E). subst b. apply mat_check_ok in E.
      destruct E as [E|E]; [discriminate E|exact E]. }
    fold im. destruct (pair_list im pairs) as [ps|e] eqn:Ep; [|discriminate]. simpl.
    change (mkNetDf net_columns _ _ true) with (net_table ps).
    destruct (net_check (net_table ps)); [|discriminate]. simpl. intros H; inversion H.
    split; auto. exists ps. split; auto. split; auto. eapply pair_list_ok; eauto.
  Qed.
  Lemma net_new_total pairs ps : valid m -> pair_list im pairs = Ok ps ->
    net_new m per pairs = Ok (net_table ps).
  Proof.
    intros Hv Ep. unfold net_new, net_init. rewrite (valid_check m Hv). simpl.
    fold im. rewrite Ep. simpl. change (mkNetDf net_columns _ _ true) with (net_table ps).
    rewrite (proj2 (net_check_ok (net_table ps))); auto.
    right. apply table_ok; auto. eapply pair_list_ok; eauto.
  Qed.
End New.

(** ** Properties of Net(mat) *)
Section Props.
  Variable m : qmat.
  Variable per : bool.
  Variable pairs : option (list (Z * Z)).
  Variable t : net_df.
  Hypothesis Hnew : net_new m per pairs = Ok t.

  Lemma new_valid : valid m.
  Proof. apply net_new_inv in Hnew. tauto. Qed.
  Lemma new_ok : net_ok t.
  Proof.
    apply net_new_inv in Hnew. destruct Hnew as (Hv & ps & _ & Hp & ->). now apply table_ok.
  Qed.
  Lemma new_check : net_check t = Ok true.
  Proof. apply net_check_ok. right. apply new_ok. Qed.

  Lemma new_row k c : nth_error (n_rows t) k = Some c -> fst c = Z.of_nat k.
  Proof.
    apply net_new_inv in Hnew. destruct Hnew as (Hv & ps & _ & Hp & ->).
    intros H. apply (net_row m per ps Hp) in H. tauto.
  Qed.

  (** what is known of every row *)
  Lemma row_facts k c : is_row t k c ->
    exists f g, has_fiber m (cA c) f /\ has_fiber m (cB c) g /\ (cA c <= cB c)%Z /\
      cxA c = ax f (csA c) /\ cyA c = ay f (csA c) /\ czA c = az f (csA c) /\
      cxB c = ax g (csB c) /\ cyB c = ay g (csB c) /\ czB c = az g (csB c) /\
      ((cA c = cB c /\ f = g /\ csA c = half * ql f /\ csB c = - (half * ql f)) \/
       ((cA c < cB c)%Z /\ Qabs (csA c) < half * ql f /\ Qabs (csB c) < half * ql g /\
        exists a b, allowed per a b /\ close (q_size m) f g a b /\ normal m f g a b (csA c) (csB c))).
  Proof.
    apply net_new_inv in Hnew. destruct Hnew as (Hv & ps & _ & Hp & ->).
    intros H. apply (net_row m per ps Hp) in H. destruct H as (_ & d & _ & Ec & Hd).
    simpl in Ec. subst c. destruct Hd as (i & j & f & g & E1 & E2 & Hij & Ff & Fg & Hd).
    exists f, g. unfold conn_of. cbn [cA cB csA csB cxA cyA czA cxB cyB czB].
    rewrite E1, E2, (by_label_nth m per i f Ff), (by_label_nth m per j g Fg).
    unfold has_fiber. rewrite !Nat2Z.id.
    split; [split; [lia|exact Ff]|]. split; [split; [lia|exact Fg]|].
    split; [lia|]. do 6 (split; [reflexivity|]).
    destruct Hd as [(E & Ea & Eb)|(L & H)].
    - left. subst j. rewrite E in Ff. split; [lia|]. split; [congruence|auto].
    - right. split; [lia|auto].
  Qed.

  Lemma rows_increasing k l c d : (k < l)%nat -> is_row t k c -> is_row t l d ->
    (cA c < cA d)%Z \/ (cA c = cA d /\ (cB c < cB d)%Z).
  Proof.
    apply net_new_inv in Hnew. destruct Hnew as (Hv & ps & _ & Hp & ->).
    intros Hkl Hc Hd. apply (net_row m per ps Hp) in Hc. apply (net_row m per ps Hp) in Hd.
    destruct Hc as (_ & c' & Hc & Ec & _). destruct Hd as (_ & d' & Hd & Ed & _). simpl in Ec, Ed. subst c d.
    unfold conn_of. simpl.
    pose proof (final_sorted (map orient (candidates (images per m) ps))) as HS.
    rewrite StronglySorted_nth in HS. destruct (HS _ _ _ _ Hkl Hc Hd) as [H|[H1 H2]]; [left; lia|right; lia].
  Qed.
End Props.
