(** Uniqueness of crossings (C13) and independence of heights (C14). *)
From Coq Require Import String Permutation.
From Verif Require Import Num NumP ListX ListP Frames MatM NetM Spec SpecNet CheckP MatP NetP NetGeoP.
Open Scope Q_scope.

(** ** C13 *)
Section Short.
  Variable S : Q.
  Variables f g : qfiber.
  Hypothesis Lf : 0 < ql f.
  Hypothesis Lg : 0 < ql g.
  Hypothesis Uf : at_most_unit f.
  Hypothesis Ug : at_most_unit g.
  Hypothesis Sf : 2 * ql f <= S.
  Hypothesis Sg : 2 * ql g <= S.

  Lemma period_unique x k k' : - (half * (ql f + ql g)) < x + inject_Z k * S < half * (ql f + ql g) ->
    - (half * (ql f + ql g)) < x + inject_Z k' * S < half * (ql f + ql g) -> k = k'.
  Proof.
    unfold half. intros H H'.
    assert (HS : 0 < S) by lra.
    assert (E : - S < inject_Z (k - k') * S < S).
    { unfold Zminus. rewrite inject_Z_plus, inject_Z_opp. split; lra. }
    assert (- (1) < inject_Z (k - k') < 1).
    { split; apply Qnot_le_lt; intro C.
      - assert (inject_Z (k - k') * S <= - (1) * S) by (apply Qmult_le_compat_r; lra). lra.
      - assert (1 * S <= inject_Z (k - k') * S) by (apply Qmult_le_compat_r; lra). lra. }
    unfold inject_Z, Qlt in H0. simpl in H0. lia.
  Qed.
  Lemma image_unique a b s t a' b' s' t' :
    crosses_at S f g a b s t -> crosses_at S f g a' b' s' t' -> a = a' /\ b = b'.
  Proof.
    intros H H'.
    destruct (crossing_near_coord S f g a b s t Lf Lg Uf Ug H) as [X Y].
    destruct (crossing_near_coord S f g a' b' s' t' Lf Lg Uf Ug H') as [X' Y'].
    split; [apply (period_unique (qx g - qx f)) | apply (period_unique (qy g - qy f))]; split; lra.
  Qed.
End Short.

Lemma short_crossing_kept m t i j f g a b s s' :
  net_new m true None = Ok t -> all_in_plane m -> all_at_most_unit m ->
  (forall f, In f (q_rows m) -> 2 * ql f <= q_size m) ->
  has_fiber m i f -> has_fiber m j g -> (i < j)%Z -> crosses_at (q_size m) f g a b s s' ->
  exists k c, is_row t k c /\ cA c = i /\ cB c = j /\ csA c == s /\ csB c == s'.
Proof.
  intros Hnew HP HU HL [Hi Fi] [Hj Fj] Hij Hc.
  pose proof (new_valid _ _ _ _ Hnew) as Hv.
  assert (If : In f (q_rows m)) by (eapply nth_error_In; eauto).
  assert (Ig : In g (q_rows m)) by (eapply nth_error_In; eauto).
  destruct (valid_fiber m Hv f If) as (Lf & _). destruct (valid_fiber m Hv g Ig) as (Lg & _).
  assert (HLS : lengths_le m (q_size m)).
  { intros h Hh. destruct (valid_fiber m Hv h Hh) as (Lh & _). specialize (HL h Hh). lra. }
  destruct (crossing_row_periodic m true t Hnew (Z.to_nat i) (Z.to_nat j) f g a b s s')
    as (k & c & Hr & EA & EB); auto; [lia|].
  rewrite Z2Nat.id in EA, EB by lia. exists k, c. split; auto. split; auto. split; auto.
  assert (Hc' : exists a b, allowed true a b /\ crosses_at (q_size m) f g a b (csA c) (csB c)).
  { apply (row_crosses m true None t Hnew k c f g); auto; rewrite ?EA, ?EB; auto; split; auto. }
  destruct Hc' as (a' & b' & _ & Hc').
  destruct (image_unique (q_size m) f g Lf Lg (HU f If) (HU g Ig) (HL f If) (HL g Ig)
    _ _ _ _ _ _ _ _ Hc Hc') as [-> ->].
  assert (N1 : normal m f g a' b' s s')
    by (destruct Hc as (_ & _ & E1 & E2 & H); apply meets_normal; auto; apply HP; auto).
  assert (N2 : normal m f g a' b' (csA c) (csB c))
    by (destruct Hc' as (_ & _ & E1 & E2 & H); apply meets_normal; auto; apply HP; auto).
  destruct (normal_unique _ _ _ _ _ _ _ _ _ N1 N2) as [E1 E2]. split; lra.
Qed.

(** ** C14 *)
Lemma Forall2_filter {A B} (R : A -> B -> Prop) p q l l' :
  (forall x y, R x y -> p x = q y) -> Forall2 R l l' -> Forall2 R (filter p l) (filter q l').
Proof.
  intros H F. induction F as [|x y l l' Hxy F IH]; simpl; auto.
  rewrite (H _ _ Hxy). destruct (q y); auto.
Qed.
Lemma Forall2_map' {A B C D} (R : A -> B -> Prop) (S : C -> D -> Prop) f g l l' :
  (forall x y, R x y -> S (f x) (g y)) -> Forall2 R l l' -> Forall2 S (map f l) (map g l').
Proof. intros H F. induction F; simpl; auto. Qed.
Lemma Forall2_insert {A B} (R : A -> B -> Prop) leb leb' x x' l l' :
  (forall x y x' y', R x x' -> R y y' -> leb x y = leb' x' y') ->
  R x x' -> Forall2 R l l' -> Forall2 R (insert leb x l) (insert leb' x' l').
Proof.
  intros H Hx F. induction F as [|y y' l l' Hy F IH]; simpl; auto.
  rewrite (H _ _ _ _ Hx Hy). destruct (leb' x' y'); auto.
Qed.
Lemma Forall2_isort {A B} (R : A -> B -> Prop) leb leb' l l' :
  (forall x y x' y', R x x' -> R y y' -> leb x y = leb' x' y') ->
  Forall2 R l l' -> Forall2 R (isort leb l) (isort leb' l').
Proof.
  intros H F. induction F; simpl; auto. apply Forall2_insert; auto.
Qed.
Lemma Forall2_dedup {A B} (R : A -> B -> Prop) eqk eqk' l l' :
  (forall x y x' y', R x x' -> R y y' -> eqk x y = eqk' x' y') ->
  Forall2 R l l' -> Forall2 R (dedup eqk l) (dedup eqk' l').
Proof.
  intros H F. induction F as [|x x' l l' Hx F IH]; simpl; auto.
  constructor; auto. apply Forall2_filter; auto. intros y y' Hy. rewrite (H _ _ _ _ Hx Hy). auto.
Qed.
Lemma Forall2_nth' {A B} (R : A -> B -> Prop) l l' d d' i :
  R d d' -> Forall2 R l l' -> R (nth i l d) (nth i l' d').
Proof. intros Hd F. revert i. induction F; intros [|i]; simpl; auto. Qed.
Lemma Forall2_len {A B} (R : A -> B -> Prop) l l' : Forall2 R l l' -> length l = length l'.
Proof. induction 1; simpl; auto. Qed.
Lemma Forall2_nth_error {A B} (R : A -> B -> Prop) l l' i x : Forall2 R l l' ->
  nth_error l i = Some x -> exists y, nth_error l' i = Some y /\ R x y.
Proof.
  intros F. revert i. induction F; intros [|i]; simpl; try discriminate.
  - intros H1; inversion H1; subst; eauto.
  - auto.
Qed.
Lemma Forall2_flip {A B} (R : A -> B -> Prop) l l' : Forall2 R l l' -> Forall2 (fun y x => R x y) l' l.
Proof. induction 1; auto. Qed.
Lemma Forall2_combine {A B C} (R : B -> C -> Prop) (k : list A) l l' : Forall2 R l l' ->
  Forall2 (fun p q => fst p = fst q /\ R (snd p) (snd q)) (combine k l) (combine k l').
Proof.
  intros F. revert k. induction F; intros [|a k]; simpl; auto.
Qed.

Definition flat_same (f g : qfiber) : Prop := same_but_z f g /\ qw f == 0.
Definition im_same (p q : nat * qfiber) : Prop := fst p = fst q /\ flat_same (snd p) (snd q).
Definition cand_same (c d : cand) : Prop :=
  kA c = kA d /\ kB c = kB d /\ ksA c == ksA d /\ ksB c == ksB d.

Lemma shift_same dx dy f g : flat_same f g -> flat_same (shift dx dy f) (shift dx dy g).
Proof.
  intros [(E1 & E2 & E3 & E4 & E5 & E6 & E7 & E8 & E9 & E10) W].
  unfold flat_same, same_but_z, shift; simpl. rewrite E1, E2, E3, E4, E5, E6, E7, E8, E9, E10 in *.
  auto 20.
Qed.
Lemma lmax_same l l' : Forall2 flat_same l l' -> lmax_of l = lmax_of l'.
Proof.
  unfold lmax_of. induction 1 as [|f g l l' H F IH]; simpl; auto.
  destruct H as [[-> _] _]. rewrite IH. auto.
Qed.
Lemma images_same per m m' : q_size m = q_size m' -> Forall2 flat_same (q_rows m) (q_rows m') ->
  Forall2 im_same (images per m) (images per m').
Proof.
  intros ES F. unfold images, labelled.
  assert (HB : Forall2 im_same (combine (seq 0 (length (q_rows m))) (q_rows m))
                              (combine (seq 0 (length (q_rows m'))) (q_rows m'))).
  { rewrite (Forall2_len _ _ _ F). apply Forall2_combine. exact F. }
  destruct per; auto. rewrite ES, (lmax_same _ _ F).
  repeat apply Forall2_app; auto;
    (apply (Forall2_map' im_same); [intros x y [E1 E2]; split; simpl; auto; apply shift_same; auto|];
     apply Forall2_filter; auto;
     intros x y [_ [(E1 & E2 & E3 & E4 & E5 & _) _]]; rewrite ?E4, ?E5; auto).
Qed.
Lemma near_same f g f' g' : flat_same f f' -> flat_same g g' -> near f g = near f' g'.
Proof.
  intros [(E1 & E2 & E3 & E4 & E5 & _) _] [(F1 & F2 & F3 & F4 & F5 & _) _].
  unfold near. rewrite E1, E4, E5, F1, F4, F5. auto.
Qed.
Lemma abs_same f g f' g' : flat_same f f' -> flat_same g g' ->
  fst (abscissae f g) == fst (abscissae f' g') /\ snd (abscissae f g) == snd (abscissae f' g').
Proof.
  intros [(E1 & E2 & E3 & E4 & E5 & E6 & E7 & E8 & _) W] [(F1 & F2 & F3 & F4 & F5 & F6 & F7 & F8 & _) W'].
  unfold abscissae. rewrite <- E1, <- E4, <- E5, <- E6, <- E7, <- E8, <- F1, <- F4, <- F5, <- F6, <- F7, <- F8.
  set (det := _ - _). destruct (Qeqb det 0); [split; reflexivity|]. cbn [fst snd].
  assert (D : forall r, dot (qu f) (qv f) (qw f) (qx g - qx f) (qy g - qy f) r
     == dot (qu f) (qv f) (qw f) (qx g - qx f) (qy g - qy f) (qz g - qz f)) by (intros; unfold dot; rewrite W; ring).
  assert (D' : forall r, dot (qu g) (qv g) (qw g) (qx g - qx f) (qy g - qy f) r
     == dot (qu g) (qv g) (qw g) (qx g - qx f) (qy g - qy f) (qz g - qz f)) by (intros; unfold dot; rewrite W'; ring).
  rewrite (D (qz g' - qz f')), (D' (qz g' - qz f')). split; reflexivity.
Qed.
Lemma cand_of_same p q p' q' : im_same p p' -> im_same q q' -> cand_same (cand_of p q) (cand_of p' q').
Proof.
  intros [E1 F1] [E2 F2]. destruct (abs_same _ _ _ _ F1 F2) as [A1 A2].
  pose proof (cand_labels p q) as [M1 M2]. pose proof (cand_labels p' q') as [L1 L2].
  pose proof (cand_abs p q) as [K1 K2]. pose proof (cand_abs p' q') as [K3 K4].
  unfold cand_same. rewrite L1, L2, M1, M2, K1, K2, K3, K4. auto.
Qed.

Section Same.
  Variable per : bool.
  Variables m m' : qmat.
  Hypothesis ES : q_size m = q_size m'.
  Hypothesis F : Forall2 flat_same (q_rows m) (q_rows m').
  Let im := images per m.
  Let im' := images per m'.

  Lemma im_eq : Forall2 im_same im im'.
  Proof. apply images_same; auto. Qed.
  Lemma fiber0_same : flat_same fiber0 fiber0.
  Proof. unfold flat_same, same_but_z. simpl. repeat split; reflexivity. Qed.
  Lemma by_label_same i : flat_same (by_label im i) (by_label im' i).
  Proof.
    unfold by_label. apply Forall2_nth'; [apply fiber0_same|].
    apply (Forall2_map' im_same); [intros x y H; apply H|apply im_eq].
  Qed.
  Lemma keep_same c d : cand_same c d -> keep im c = keep im' d.
  Proof.
    intros (E1 & E2 & E3 & E4). unfold keep. rewrite E1, E2, E3, E4.
    destruct (by_label_same (kA d)) as [(-> & _) _]. destruct (by_label_same (kB d)) as [(-> & _) _].
    reflexivity.
  Qed.
  Lemma candidates_same ps : Forall2 cand_same (candidates im ps) (candidates im' ps).
  Proof.
    unfold candidates. apply Forall2_filter; [apply keep_same|].
    apply (Forall2_map' (fun a b => im_same (fst a) (fst b) /\ im_same (snd a) (snd b))).
    { intros x y [H1 H2]. apply cand_of_same; auto. }
    apply Forall2_filter.
    { intros x y [[_ H1] [_ H2]]. apply near_same; auto. }
    induction ps as [|[i j] ps IH]; simpl; auto. constructor; auto. simpl.
    unfold nth_image. split; apply Forall2_nth'; try apply im_eq; split; simpl; auto; apply fiber0_same.
  Qed.
  Lemma conns_same ps : Forall2 same_from_above (net_conns im ps) (net_conns im' ps).
  Proof.
    unfold net_conns. apply (Forall2_map' cand_same).
    - intros c d (E1 & E2 & E3 & E4). unfold same_from_above, conn_of. simpl.
      rewrite E1, E2. split; auto. split; auto. split; auto. split; auto.
      destruct (by_label_same (kA d)) as [(_ & _ & _ & X & Y & U & V & _) _].
      destruct (by_label_same (kB d)) as [(_ & _ & _ & X' & Y' & U' & V' & _) _].
      rewrite X, Y, U, V, X', Y', U', V', E3, E4. repeat split; reflexivity.
    - apply Forall2_dedup.
      { intros x y x' y' (E1 & E2 & _) (F1 & F2 & _). unfold cand_dup. rewrite E1, E2, F1, F2. auto. }
      apply Forall2_isort.
      { intros x y x' y' (E1 & E2 & _) (F1 & F2 & _). unfold cand_leb. rewrite E1, E2, F1, F2. auto. }
      apply (Forall2_map' cand_same); [|apply candidates_same].
      intros c d (E1 & E2 & E3 & E4). unfold orient. rewrite E1, E2.
      destruct (Nat.leb _ _); unfold cand_same; simpl; auto.
  Qed.
End Same.

Lemma net_same per pairs m m' t t' : all_in_plane m -> same_but_heights m m' ->
  net_new m per pairs = Ok t -> net_new m' per pairs = Ok t' ->
  length (n_rows t) = length (n_rows t') /\
  forall k c d, is_row t k c -> is_row t' k d -> same_from_above c d.
Proof.
  intros HP [ES F] H H'.
  assert (F' : Forall2 flat_same (q_rows m) (q_rows m')).
  { clear -HP F. unfold all_in_plane in HP. induction F; auto. constructor.
    - split; auto. apply HP. left; auto.
    - apply IHF. intros; apply HP; right; auto. }
  apply net_new_inv in H. apply net_new_inv in H'.
  destruct H as (_ & ps & Ep & _ & ->). destruct H' as (_ & ps' & Ep' & _ & ->).
  assert (ps = ps').
  { pose proof (Forall2_len _ _ _ (im_eq per m m' ES F')) as EL.
    destruct pairs as [l|]; simpl in *; rewrite <- EL in Ep'; congruence. }
  subst ps'. pose proof (conns_same per m m' ES F' ps) as HC. simpl. split.
  - unfold enum. rewrite !combine_length, !map_length, !seq_length, (Forall2_len _ _ _ HC). auto.
  - intros k c d. unfold is_row. simpl. rewrite !enum_nth_error.
    destruct (nth_error (net_conns (images per m) ps) k) as [c'|] eqn:E1; [|discriminate].
    destruct (nth_error (net_conns (images per m') ps) k) as [d'|] eqn:E2; [|discriminate].
    simpl. intros X Y; inversion X; inversion Y; subst.
    destruct (Forall2_nth_error _ _ _ _ _ HC E1) as (e & Ee & He). congruence.
Qed.

(** ** C05: when Net(mat) raises *)
Lemma net_total m per pairs : valid m -> pairs_in_range (length (q_rows m)) pairs ->
  exists t, net_new m per pairs = Ok t.
Proof.
  intros Hv Hp. assert (exists ps, pair_list (images per m) pairs = Ok ps).
  { destruct pairs as [l|]; simpl; [|eauto]. apply positions_total. intros p q Hpq.
    destruct (Hp l p q eq_refl Hpq) as [H1 H2]. pose proof (images_len m per) as HL.
    rewrite <- !position_some. lia. }
  destruct H as (ps & Ep). eexists. apply (net_new_total m per pairs ps); auto.
Qed.
Lemma net_raises m per pairs e : net_new m per pairs = Exn e ->
  mat_fails (df_of m) e \/
  (valid m /\ e = IndexErr /\ exists l p q n, pairs = Some l /\ In (p, q) l /\
     (length (q_rows m) <= n)%nat /\ (per = false -> n = length (q_rows m)) /\
     (~ (- Z.of_nat n <= p < Z.of_nat n)%Z \/ ~ (- Z.of_nat n <= q < Z.of_nat n)%Z)).
Proof.
  intros H. destruct (mat_check (df_of m)) as [b|e'] eqn:E.
  - right. pose proof (mat_check_true _ _ E). subst b.
    assert (Hv : valid m) by (apply mat_check_ok in E; destruct E as [E|E]; [discriminate E|exact E]).
    split; auto. destruct (pair_list (images per m) pairs) as [ps|e'] eqn:Ep.
    + rewrite (net_new_total m per pairs ps Hv Ep) in H. discriminate.
    + assert (e = e').
      { unfold net_new, net_init in H. rewrite E in H. simpl in H. rewrite Ep in H. simpl in H. congruence. }
      subst e'. destruct pairs as [l|]; simpl in Ep; [|discriminate].
      apply positions_exn in Ep. destruct Ep as (He & p & q & Hpq & Hn). split; auto.
      exists l, p, q, (length (images per m)). split; auto. split; auto.
      split; [apply images_len|]. split.
      { intros ->. unfold images. apply labelled_length. }
      destruct Hn as [Hn|Hn]; [left|right]; intro C; apply position_some in C; contradiction.
  - left. unfold net_new, net_init in H. rewrite E in H. simpl in H. inversion H; subst.
    apply mat_check_raises in E. tauto.
Qed.

(** ** The facts about rows in the form of the property theorems *)
Section Final.
  Variable m : qmat.
  Variable per : bool.
  Variable pairs : option (list (Z * Z)).
  Variable t : net_df.

  Lemma numbered k r : net_new m per pairs = Ok t ->
    nth_error (n_rows t) k = Some r -> exists c, r = (Z.of_nat k, c) /\ is_row t k c.
  Proof.
    intros H Hr. pose proof (new_row m per pairs t H k r Hr) as E. destruct r as [i c]. simpl in E.
    subst i. exists c. auto.
  Qed.
  Lemma attributes : net_new m per pairs = Ok t ->
    at_n (n_attrs t) = Some (Z.of_nat (length (q_rows m))) /\
    at_size (n_attrs t) = Some (Fin (q_size m)) /\ at_periodic (n_attrs t) = Some per.
  Proof.
    intros H. apply net_new_inv in H. destruct H as (_ & ps & _ & _ & ->). simpl. auto.
  Qed.
  Lemma end_abscissae k c f : net_new m per pairs = Ok t -> is_row t k c -> cA c = cB c ->
    has_fiber m (cA c) f -> csA c == ql f / 2 /\ csB c == - (ql f / 2).
  Proof.
    intros H Hr E Hf. destruct (row_facts m per pairs t H k c Hr) as
      (f' & g' & Hf' & Hg' & _ & _ & _ & _ & _ & _ & _ & HH).
    rewrite <- (fiber_fun _ _ _ _ Hf Hf') in *.
    destruct HH as [(_ & _ & -> & ->)|(C & _)]; [|lia]. unfold half. split; field.
  Qed.
  Lemma row_inside k c f g : net_new m per pairs = Ok t -> is_row t k c -> (cA c < cB c)%Z ->
    has_fiber m (cA c) f -> has_fiber m (cB c) g -> inside f (csA c) /\ inside g (csB c).
  Proof.
    intros H Hr L Hf Hg. destruct (row_facts m per pairs t H k c Hr) as
      (f' & g' & Hf' & Hg' & _ & _ & _ & _ & _ & _ & _ & HH).
    rewrite <- (fiber_fun _ _ _ _ Hf Hf') in *. rewrite <- (fiber_fun _ _ _ _ Hg Hg') in *.
    destruct HH as [(E & _)|(_ & H1 & H2 & _)]; [lia|]. split; apply inside_half; auto.
  Qed.
  Lemma on_axes k c : net_new m per pairs = Ok t -> is_row t k c ->
    exists f g, has_fiber m (cA c) f /\ has_fiber m (cB c) g /\
      cxA c = ax f (csA c) /\ cyA c = ay f (csA c) /\ czA c = az f (csA c) /\
      cxB c = ax g (csB c) /\ cyB c = ay g (csB c) /\ czB c = az g (csB c).
  Proof.
    intros H Hr. destruct (row_facts m per pairs t H k c Hr) as
      (f & g & Hf & Hg & _ & E1 & E2 & E3 & E4 & E5 & E6 & _). exists f, g. auto 10.
  Qed.
  Lemma row_nearest k c f g : net_new m per pairs = Ok t -> is_row t k c -> (cA c < cB c)%Z ->
    has_fiber m (cA c) f -> has_fiber m (cB c) g ->
    exists a b, allowed per a b /\ forall s s',
      let d := dist2 (q_size m) f g a b in
      d (csA c) (csB c) <= d s s' /\ (d s s' == d (csA c) (csB c) -> s == csA c /\ s' == csB c).
  Proof.
    intros H Hr L Hf Hg. destruct (row_facts m per pairs t H k c Hr) as
      (f' & g' & Hf' & Hg' & _ & _ & _ & _ & _ & _ & _ & HH).
    rewrite <- (fiber_fun _ _ _ _ Hf Hf') in *. rewrite <- (fiber_fun _ _ _ _ Hg Hg') in *.
    destruct HH as [(E & _)|(_ & _ & _ & a & b & Hab & _ & HN)]; [lia|].
    exists a, b. split; auto. intros s s'. apply (nearest m f g a b _ _ HN).
  Qed.
  Lemma row_coincide k c f g : net_new m per pairs = Ok t -> is_row t k c -> (cA c < cB c)%Z ->
    has_fiber m (cA c) f -> has_fiber m (cB c) g -> in_plane f -> in_plane g ->
    exists a b, allowed per a b /\
      cxA c == cxB c + inject_Z a * q_size m /\ cyA c == cyB c + inject_Z b * q_size m /\
      czA c == qz f /\ czB c == qz g.
  Proof.
    intros H Hr L Hf Hg Pf Pg. destruct (row_facts m per pairs t H k c Hr) as
      (f' & g' & Hf' & Hg' & _ & E1 & E2 & E3 & E4 & E5 & E6 & HH).
    rewrite <- (fiber_fun _ _ _ _ Hf Hf') in *. rewrite <- (fiber_fun _ _ _ _ Hg Hg') in *.
    destruct HH as [(E & _)|(_ & _ & _ & a & b & Hab & _ & HN)]; [lia|].
    destruct (normal_meets m f g Pf Pg a b _ _ HN) as (M1 & M2 & _).
    exists a, b. split; auto. rewrite E1, E2, E3, E4, E5, E6. split; auto. split; auto.
    unfold az, in_plane in *. rewrite Pf, Pg. split; ring.
  Qed.
  Lemma not_parallel k c f g : net_new m per pairs = Ok t -> is_row t k c -> (cA c < cB c)%Z ->
    has_fiber m (cA c) f -> has_fiber m (cB c) g -> in_plane f -> in_plane g ->
    ~ qu f * qv g - qv f * qu g == 0.
  Proof.
    intros H Hr L Hf Hg Pf Pg.
    destruct (row_crosses m per pairs t H k c f g Hr L Hf Hg Pf Pg) as (a & b & _ & HC). apply HC.
  Qed.
End Final.

Lemma end_nodes m per t i f : net_new m per None = Ok t -> has_fiber m i f ->
  exists k c, is_row t k c /\ cA c = i /\ cB c = i /\
    csA c == ql f / 2 /\ csB c == - (ql f / 2) /\
    forall k' c', is_row t k' c' -> cA c' = i -> cB c' = i -> k' = k.
Proof.
  intros H Hf. destruct (end_row_exists m per t H (Z.to_nat i) f (proj2 Hf)) as (k & c & Hr & EA & EB).
  rewrite Z2Nat.id in EA, EB by apply Hf.
  destruct (end_abscissae m per None t k c f H Hr) as [S1 S2]; [congruence|rewrite EA; auto|].
  exists k, c. do 5 (split; auto). intros k' c' Hr' EA' EB'.
  destruct (Nat.lt_trichotomy k k') as [L|[L|L]]; auto; exfalso.
  - destruct (rows_increasing m per None t H _ _ _ _ L Hr Hr'); lia.
  - destruct (rows_increasing m per None t H _ _ _ _ L Hr' Hr); lia.
Qed.

Lemma flat_iff m t i j f g : net_new m false None = Ok t ->
  all_in_plane m -> all_at_most_unit m -> has_fiber m i f -> has_fiber m j g -> (i < j)%Z ->
  ((exists k c, is_row t k c /\ cA c = i /\ cB c = j) <->
   (exists s s', crosses_at (q_size m) f g 0 0 s s')).
Proof.
  intros H HP HU Hf Hg Hij. split.
  - intros (k & c & Hr & EA & EB).
    assert (If : In f (q_rows m)) by (eapply nth_error_In; apply Hf).
    assert (Ig : In g (q_rows m)) by (eapply nth_error_In; apply Hg).
    destruct (row_crosses m false None t H k c f g) as (a & b & Hab & HC); rewrite ?EA, ?EB; auto.
    destruct (Hab eq_refl) as [-> ->]. eauto.
  - intros (s & s' & HC).
    destruct (crossing_row_flat m false t H (Z.to_nat i) (Z.to_nat j) f g s s')
      as (k & c & Hr & EA & EB); auto; try apply Hf; try apply Hg.
    + destruct Hf, Hg. lia.
    + exists k, c. rewrite Z2Nat.id in EA by apply Hf. rewrite Z2Nat.id in EB by apply Hg. auto.
Qed.
Lemma periodic_iff m t i j f g : net_new m true None = Ok t ->
  all_in_plane m -> all_at_most_unit m -> lengths_le m (q_size m) ->
  has_fiber m i f -> has_fiber m j g -> (i < j)%Z ->
  ((exists k c, is_row t k c /\ cA c = i /\ cB c = j) <->
   (exists a b s s', crosses_at (q_size m) f g a b s s')).
Proof.
  intros H HP HU HL Hf Hg Hij. split.
  - intros (k & c & Hr & EA & EB).
    assert (If : In f (q_rows m)) by (eapply nth_error_In; apply Hf).
    assert (Ig : In g (q_rows m)) by (eapply nth_error_In; apply Hg).
    destruct (row_crosses m true None t H k c f g) as (a & b & Hab & HC); rewrite ?EA, ?EB; auto.
    eauto.
  - intros (a & b & s & s' & HC).
    destruct (crossing_row_periodic m true t H (Z.to_nat i) (Z.to_nat j) f g a b s s')
      as (k & c & Hr & EA & EB); auto; try apply Hf; try apply Hg.
    + destruct Hf, Hg. lia.
    + exists k, c. rewrite Z2Nat.id in EA by apply Hf. rewrite Z2Nat.id in EB by apply Hg. auto.
Qed.
Lemma image_unique' S f g a b s t a' b' s' t' : 0 < ql f -> 0 < ql g ->
  at_most_unit f -> at_most_unit g -> 2 * ql f <= S -> 2 * ql g <= S ->
  crosses_at S f g a b s t -> crosses_at S f g a' b' s' t' -> a = a' /\ b = b'.
Proof. intros. apply (image_unique S f g) with (s := s) (t := t) (s' := s') (t' := t'); auto. Qed.

(** *** C65: networks of arbitrarily oriented fibers *)
Lemma facing_normal m f g a b s s' : facing (q_size m) f g a b s s' <-> normal m f g a b s s'.
Proof.
  unfold facing, normal, ax, ay, az.
  assert (LG : gram f f * gram g g - gram f g * gram f g ==
    (qv f * qw g - qw f * qv g) * (qv f * qw g - qw f * qv g) + (qw f * qu g - qu f * qw g) * (qw f * qu g - qu f * qw g) +
    (qu f * qv g - qv f * qu g) * (qu f * qv g - qv f * qu g)) by (unfold gram; ring).
  assert (E1 : forall x y, x == y -> (x == 0 <-> y == 0)) by (intros x y ->; tauto).
  cbv zeta. rewrite LG.
  rewrite (E1 _ (qu f * (qx g + inject_Z a * q_size m - qx f) + qv f * (qy g + inject_Z b * q_size m - qy f) + qw f * (qz g - qz f)
    + s' * gram f g - s * gram f f)) by (unfold gram; ring).
  rewrite (E1 ((qx g + s' * qu g + inject_Z a * q_size m - (qx f + s * qu f)) * qu g + (qy g + s' * qv g + inject_Z b * q_size m - (qy f + s * qv f)) * qv g +
    (qz g + s' * qw g - (qz f + s * qw f)) * qw g)
    (qu g * (qx g + inject_Z a * q_size m - qx f) + qv g * (qy g + inject_Z b * q_size m - qy f) + qw g * (qz g - qz f)
    + s' * gram g g - s * gram f g)) by (unfold gram; ring).
  set (A := qv f * qw g). set (A' := qw f * qv g). set (B := qw f * qu g). set (B' := qu f * qw g). set (C := qu f * qv g). set (C' := qv f * qu g).
  assert (Z : (A - A') * (A - A') + (B - B') * (B - B') + (C - C') * (C - C') == 0 <-> A == A' /\ B == B' /\ C == C').
  { split.
    - intros H. pose proof (sq_pos (A - A')). pose proof (sq_pos (B - B')). pose proof (sq_pos (C - C')).
      assert (S0 : forall x, x * x == 0 -> x == 0) by (intros x Hx; apply Qmult_integral in Hx; tauto).
      assert (A - A' == 0) by (apply S0; lra). assert (B - B' == 0) by (apply S0; lra). assert (C - C' == 0) by (apply S0; lra).
      repeat split; lra.
    - intros (-> & -> & ->). ring. }
  rewrite Z. tauto.
Qed.
Lemma row_facing m per pairs t k c f g : net_new m per pairs = Ok t -> is_row t k c -> (cA c < cB c)%Z ->
  has_fiber m (cA c) f -> has_fiber m (cB c) g ->
  exists a b, allowed per a b /\ close (q_size m) f g a b /\ facing (q_size m) f g a b (csA c) (csB c).
Proof.
  intros H Hr L Hf Hg. destruct (row_facts m per pairs t H k c Hr) as
    (f' & g' & Hf' & Hg' & _ & _ & _ & _ & _ & _ & _ & HH).
  rewrite <- (fiber_fun _ _ _ _ Hf Hf') in *. rewrite <- (fiber_fun _ _ _ _ Hg Hg') in *.
  destruct HH as [(E & _)|(_ & _ & _ & a & b & Hab & HC & HN)]; [lia|]. exists a, b. rewrite facing_normal. auto.
Qed.
Lemma facing_iff m per t i j f g : net_new m per None = Ok t -> (per = true -> lengths_le m (q_size m)) ->
  has_fiber m i f -> has_fiber m j g -> (i < j)%Z ->
  ((exists k c, is_row t k c /\ cA c = i /\ cB c = j) <->
   (exists a b s s', allowed per a b /\ close (q_size m) f g a b /\ facing (q_size m) f g a b s s' /\ inside f s /\ inside g s')).
Proof.
  intros H HL Hf Hg Hij. split.
  - intros (k & c & Hr & EA & EB). assert (L : (cA c < cB c)%Z) by lia.
    destruct (row_facing m per None t k c f g H Hr L) as (a & b & HA & HC & HF); rewrite ?EA, ?EB; auto.
    destruct (row_inside m per None t k c f g H Hr L) as (I1 & I2); rewrite ?EA, ?EB; auto. exists a, b, (csA c), (csB c). auto.
  - intros (a & b & s & s' & HA & HC & HF & I1 & I2). rewrite facing_normal in HF. pose proof Hf as [P1 Ff]. pose proof Hg as [P2 Fg].
    assert (R : exists k c, is_row t k c /\ cA c = Z.of_nat (Z.to_nat i) /\ cB c = Z.of_nat (Z.to_nat j)).
    { destruct per.
      - apply (facing_row_periodic m true t H (Z.to_nat i) (Z.to_nat j) f g a b s s'); auto. lia.
      - destruct (HA eq_refl) as [-> ->]. apply (facing_row_flat m false t H (Z.to_nat i) (Z.to_nat j) f g s s'); auto. lia. }
    rewrite !Z2Nat.id in R by auto. exact R.
Qed.
