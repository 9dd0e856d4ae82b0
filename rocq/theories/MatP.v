(** Mat.init (C02, C03). *)
From Coq Require Import String.
From Verif Require Import Num NumP ListX ListP Frames MatM NetM Spec CheckP.
Open Scope Q_scope.

Section Init.
  Variable R : rng.
  Variables cos sin : Q -> Q.

  Lemma draws_spec n : forall s,
    length (fst (draws R n s)) = n /\
    (draws_in_range R -> forall x, In x (fst (draws R n s)) -> - (1 # 2) <= x <= 1 # 2).
  Proof using.
    induction n as [|n IH]; intros s; simpl.
    - split; auto. intros _ x [].
    - destruct (rng_draw R s) as [x s1] eqn:E1. specialize (IH s1).
      destruct (draws R n s1) as [t s2]. simpl in *. split; [lia|].
      intros H y [<-|Hy]; [|apply IH; auto]. specialize (H s). rewrite E1 in H. exact H.
  Qed.

  Lemma make_rows_length p n : forall xs ys zs ps qs,
    length xs = n -> length ys = n -> length zs = n -> length ps = n -> length qs = n ->
    length (make_rows cos sin p xs ys zs ps qs) = n.
  Proof using.
    induction n; intros [|] [|] [|] [|] [|]; simpl; intros; try discriminate; auto.
  Qed.
  Lemma make_rows_in p f : forall xs ys zs ps qs,
    In f (make_rows cos sin p xs ys zs ps qs) ->
    exists x y z a q, In x xs /\ In y ys /\ In z zs /\ f = make_fiber cos sin p x y z a q.
  Proof using.
    induction xs as [|x xs IH]; intros [|y ys] [|z zs] [|a ps] [|q qs]; simpl; try tauto.
    intros [<-|H].
    - exists x, y, z, a, q. auto.
    - apply IH in H. destruct H as (x' & y' & z' & a' & q' & ? & ? & ? & ?).
      exists x', y', z', a', q'. auto.
  Qed.
  Lemma make_rows_z p n : forall xs ys zs ps qs,
    length xs = n -> length ys = n -> length zs = n -> length ps = n -> length qs = n ->
    map fz (make_rows cos sin p xs ys zs ps qs) = map Fin zs.
  Proof using.
    induction n; intros [|] [|] [|] [|] [|]; simpl; intros; try discriminate; auto.
    f_equal. apply IHn; auto.
  Qed.

  Lemma enum_in {A} (l : list A) k a : In (k, a) (enum l) -> In a l.
  Proof using. intros H. apply (in_map snd) in H. now rewrite enum_snd in H. Qed.
  Lemma enum_labelled {A} (l : list A) : labelled_in_order (enum l).
  Proof using.
    intros k lab a H. rewrite enum_nth_error in H. destruct (nth_error l k); inversion H; auto.
  Qed.

  Lemma scale_in n s c : draws_in_range R -> 0 <= c ->
    forall x, In x (map (fun d => d * c) (fst (draws R n s))) -> - c / 2 <= x <= c / 2.
  Proof using.
    intros HR Hc x Hx. apply in_map_iff in Hx. destruct Hx as (d & <- & Hd).
    apply (proj2 (draws_spec n s)) in Hd; auto. qdiv. nra.
  Qed.

  Lemma mat_generated p ent prior :
    draws_in_range R -> trig_accurate cos sin -> params_ok p ->
    exists m s, mat_new R cos sin p ent prior = Ok (m, s) /\ generated p m.
  Proof using.
    intros HR HT (Hn & Hl & Hb & Hh & Hs & HG & HE & Hk).
    unfold mat_new, mat_init.
    assert (E0 : exists s0, reseed R (p_seed p) ent = Ok s0).
    { unfold reseed. destruct (p_seed p) as [k|]; [|eauto]. specialize (Hk k eq_refl).
      destruct (Z.leb_spec 0 k); [|lia]. destruct (Z.ltb_spec k 4294967296); [|lia]. simpl. eauto. }
    destruct E0 as (s0 & ->). simpl. destruct (Z.ltb_spec (p_n p) 0); [lia|].
    set (n := Z.to_nat (p_n p)) in *.
    pose proof (draws_spec n s0) as D1. pose proof (scale_in n s0 (p_size p) HR Hs) as I1.
    destruct (draws R n s0) as [dx s1]. simpl in *.
    pose proof (draws_spec n s1) as D2. pose proof (scale_in n s1 (p_size p) HR Hs) as I2.
    destruct (draws R n s1) as [dy s2]. simpl in *.
    pose proof (draws_spec n s2) as D3. pose proof (scale_in n s2 (p_size p) HR Hs) as I3.
    destruct (draws R n s2) as [dz s3]. simpl in *.
    pose proof (draws_spec n s3) as D4.
    destruct (draws R n s3) as [dp s4]. simpl in *.
    pose proof (draws_spec n s4) as D5.
    destruct (draws R n s4) as [dq s5]. simpl in *.
    set (rows := make_rows cos sin p _ _ _ _ _).
    assert (Hlen : length rows = n).
    { apply make_rows_length; rewrite ?isort_length, map_length; tauto. }
    set (m := mkMatDf _ _ _).
    assert (Hrow : forall f, In f rows -> exists x y z a q,
              - p_size p / 2 <= x <= p_size p / 2 /\ - p_size p / 2 <= y <= p_size p / 2 /\
              - p_size p / 2 <= z <= p_size p / 2 /\ f = make_fiber cos sin p x y z a q).
    { intros f Hf. apply make_rows_in in Hf. destruct Hf as (x & y & z & a & q & Hx & Hy & Hz & ->).
      exists x, y, z, a, q. apply isort_in in Hz. auto. }
    assert (Hz : forall i j li lj f g, (i < j)%nat -> nth_error (m_rows m) i = Some (li, f) ->
       nth_error (m_rows m) j = Some (lj, g) -> exists a b, fz f = Fin a /\ fz g = Fin b /\ a <= b).
    { intros i j li lj f g Hij Hi Hj.
      assert (Ez : map fz rows = map Fin (isort Qleb (map (fun d => d * p_size p) dz)))
        by (apply (make_rows_z p n); rewrite ?isort_length, map_length; tauto).
      assert (Hso : StronglySorted (fun a b => Qleb a b = true)
                      (isort Qleb (map (fun d => d * p_size p) dz))).
      { apply isort_sorted; intros.
        - rewrite !Qleb_le. destruct (Qlt_le_dec x y); [left|right]; lra.
        - rewrite !Qleb_le in *. lra. }
      rewrite StronglySorted_nth in Hso.
      simpl in Hi, Hj. rewrite enum_nth_error in Hi, Hj.
      destruct (nth_error rows i) as [f'|] eqn:Fi; [|discriminate].
      destruct (nth_error rows j) as [g'|] eqn:Fj; [|discriminate].
      simpl in Hi, Hj. inversion Hi; inversion Hj; subst.
      apply (map_nth_error fz) in Fi. apply (map_nth_error fz) in Fj.
      rewrite Ez, nth_error_map in Fi, Fj.
      destruct (nth_error (isort _ _) i) as [a|] eqn:Ga; [|discriminate].
      destruct (nth_error (isort _ _) j) as [b|] eqn:Gb; [|discriminate].
      simpl in Fi, Fj. inversion Fi as [Ei]; inversion Fj as [Ej].
      specialize (Hso _ _ _ _ Hij Ga Gb). apply Qleb_le in Hso.
      exists a, b; auto. }
    assert (Hok : mat_ok m).
    { split; [intros c Hc; exact Hc|]. exists (Fin (p_size p)). simpl.
      rewrite enum_length, Hlen. unfold n.
      split; [f_equal; lia|]. split; [reflexivity|]. split; [apply enum_labelled|].
      split; [|split; [|split]]; intros k f Hf; apply enum_in in Hf; apply Hrow in Hf;
        destruct Hf as (x & y & z & a & q & Hx & Hy & Hz' & ->); simpl.
      - split; [exact Hl|split; [exact Hb|exact Hh]].
      - exists x, y. auto.
      - do 3 eexists. do 3 (split; [reflexivity|]).
        pose proof (HT a) as T1. pose proof (HT q) as T2.
        set (ca := cos a) in *. set (sa := sin a) in *. set (cq := cos q) in *. set (sq := sin q) in *.
        assert (E : ca * cq * (ca * cq) + sa * cq * (sa * cq) + sq * sq
                    == (cq * cq) * (ca * ca + sa * sa) + sq * sq) by ring.
        rewrite E. clear E.
        assert (0 <= cq * cq) by nra. assert (0 <= sq * sq) by nra.
        set (A := ca * ca + sa * sa) in *. set (B := cq * cq) in *. set (C := sq * sq) in *.
        clearbody A B C. split; nra.
      - split; assumption. }
    exists m, s5. assert (Ec : mat_check m = Ok true) by (apply mat_check_ok; auto).
    rewrite Ec. simpl. split; auto.
    split; [|split; [|split; [|split; [|split]]]]; auto.
    - simpl. now rewrite enum_length.
    - apply enum_labelled.
    - intros k f Hf. simpl in Hf. apply enum_in in Hf. apply Hrow in Hf.
      destruct Hf as (x & y & z & a & q & _ & _ & _ & ->). repeat split.
    - intros k f Hf. simpl in Hf. apply enum_in in Hf. apply Hrow in Hf.
      destruct Hf as (x & y & z & a & q & Hx & Hy & Hz' & ->). simpl.
      split; [exists x, y; auto | exists z, z; auto].
  Qed.

  (** *** C03 *)
  Lemma mat_reproducible p k ent1 ent2 prior1 prior2 :
    p_seed p = Some k ->
    mat_new R cos sin p ent1 prior1 = mat_new R cos sin p ent2 prior2.
  Proof using.
    intros H. unfold mat_new, mat_init, reseed. rewrite H. reflexivity.
  Qed.
End Init.

(** *** C04 *)
Lemma mat_finite m s :
  mat_check m = Ok true -> ~ flag_set (m_attrs m) -> at_size (m_attrs m) = Some (Fin s) ->
  every (fun f => is_fin (fx f) = true /\ is_fin (fy f) = true /\ is_fin (fu f) = true
                  /\ is_fin (fv f) = true /\ is_fin (fw f) = true) (m_rows m).
Proof.
  intros H Hf Es k f Hin. apply mat_check_ok in H. destruct H as [H|H]; [contradiction|].
  destruct H as (_ & size & _ & Es' & _ & _ & Hb & Hu & _).
  assert (size = Fin s) by congruence. subst size.
  destruct (Hb k f Hin) as (a & b & -> & -> & _).
  destruct (Hu k f Hin) as (c & d & e & -> & -> & -> & _). auto.
Qed.

(** a checked table with finite geometry is the table of a [qmat] *)
Lemma representable m s :
  mat_check m = Ok true -> ~ flag_set (m_attrs m) -> at_size (m_attrs m) = Some (Fin s) ->
  every (fun f => is_fin (fl f) = true /\ is_fin (fb f) = true /\ is_fin (fh f) = true
                  /\ is_fin (fz f) = true) (m_rows m) ->
  exists q, m_rows (df_of q) = m_rows m /\ at_n (m_attrs (df_of q)) = at_n (m_attrs m)
            /\ at_size (m_attrs (df_of q)) = at_size (m_attrs m) /\ mat_check (df_of q) = Ok true.
Proof.
  intros H Hf Es Hfin. pose proof (mat_finite m s H Hf Es) as Hfin2.
  apply mat_check_ok in H. destruct H as [H|H]; [contradiction|].
  destruct H as (Hc & size & En & Es' & Hl & Hd & Hb & Hu & HM).
  assert (size = Fin s) by congruence. subst size.
  set (back := fun f : fiber => mkQ (qof (fl f)) (qof (fb f)) (qof (fh f)) (qof (fx f)) (qof (fy f))
                 (qof (fz f)) (qof (fu f)) (qof (fv f)) (qof (fw f)) (fG f) (fE f)).
  assert (Hback : forall k f, In (k, f) (m_rows m) -> fiber_of (back f) = f).
  { intros k f Hin. destruct (Hfin k f Hin) as (H1 & H2 & H3 & H4).
    destruct (Hfin2 k f Hin) as (H5 & H6 & H7 & H8 & H9).
    destruct f as [l b h x y z u v w G E]. simpl in *.
    destruct l; try discriminate. destruct b; try discriminate. destruct h; try discriminate.
    destruct x; try discriminate. destruct y; try discriminate. destruct z; try discriminate.
    destruct u; try discriminate. destruct v; try discriminate. destruct w; try discriminate.
    reflexivity. }
  exists (mkQmat (map back (map snd (m_rows m))) s).
  assert (Er : m_rows (df_of (mkQmat (map back (map snd (m_rows m))) s)) = m_rows m).
  { simpl. apply nth_error_ext. intros k. rewrite enum_nth_error, !nth_error_map.
    destruct (nth_error (m_rows m) k) as [[lab f]|] eqn:E; [|reflexivity]. simpl.
    rewrite (Hback lab f) by (eapply nth_error_In; eauto). rewrite (Hl _ _ _ E). reflexivity. }
  split; auto. simpl. rewrite !map_length. split; [congruence|]. split; [congruence|].
  apply mat_check_ok. right. unfold mat_ok. rewrite Er. simpl. rewrite !map_length.
  split; [intros c Hc'; exact Hc'|]. exists (Fin s). auto 10.
Qed.
