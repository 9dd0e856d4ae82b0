(** The lengths used by stiffness (C32). *)
From Coq Require Import String Permutation.
From Verif Require Import Num NumP ListX ListP Frames MatM NetM MeshM ModelM Spec SpecNet SpecMesh SpecModel
  CheckP GroupP MeshCheckP NetP NetZP StackP StackNewP MeshP StiffP StiffLimP.
Open Scope Q_scope.

Lemma entry_unique {A} (B : A -> ncoo) (key : A -> nat) l r x : NoDup (map key l) ->
  forall p, In p l -> (forall q, In q l -> key q <> key p -> entry (B q) r x = Fin 0) ->
  neqv (entry (flat_map B l) r x) (entry (B p) r x).
Proof.
  assert (Z : forall l, (forall q, In q l -> entry (B q) r x = Fin 0) -> neqv (entry (flat_map B l) r x) (Fin 0)).
  { induction l0 as [|a l0 IH]; intros H; simpl; [reflexivity|]. rewrite entry_app, IH by (intros; apply H; right; auto).
    rewrite (H a) by (left; auto). simpl. ring. }
  induction l as [|a l IH]; intros ND p Hp HQ; [destruct Hp|]. simpl in ND. inversion ND; subst. simpl.
  rewrite entry_app. destruct Hp as [->|Hp].
  - rewrite Z.
    + destruct (entry (B p) r x); simpl; auto. ring.
    + intros q Hq. apply HQ; [right; auto|]. intros C. apply H1. rewrite <- C. apply in_map. auto.
  - rewrite (IH H2 p Hp) by (intros; apply HQ; [right|]; auto). rewrite (HQ a).
    + destruct (entry (B p) r x); simpl; auto. ring.
    + left; auto.
    + intros C. apply H1. rewrite C. apply in_map. auto.
Qed.

Lemma elem_keys m rs : labelled_in_order rs -> NoDup (map ei (elements m rs)).
Proof.
  intros HL. unfold elements. rewrite map_map. simpl.
  assert (ND : NoDup (map (fun r : Z * node => Z.to_nat (fst r)) rs)).
  { apply NoDup_nth_error. intros i j Hi E. rewrite map_length in Hi.
    assert (Hj : (j < length rs)%nat).
    { rewrite <- (map_length (fun r : Z * node => Z.to_nat (fst r))). apply nth_error_Some. rewrite <- E.
      apply nth_error_Some. rewrite map_length. auto. }
    rewrite !nth_error_map in E. apply nth_error_Some in Hi. apply nth_error_Some in Hj.
    destruct (nth_error rs i) as [[a d]|] eqn:E1; [|congruence]. destruct (nth_error rs j) as [[b e]|] eqn:E2; [|congruence].
    rewrite (HL _ _ _ E1), (HL _ _ _ E2) in E. simpl in E. rewrite !Nat2Z.id in E. congruence. }
  revert ND. generalize (fun r : Z * node => Z.ltb (fst r) (nbeam (snd r))). clear HL. intros p.
  induction rs as [|r rs IH]; simpl; intros ND; [constructor|]. inversion ND; subst. destruct (p r); simpl; auto.
  constructor; auto. intros C. apply H1. apply in_map_iff in C. destruct C as (q & E & Hq). apply filter_In in Hq.
  apply in_map_iff. exists q. tauto.
Qed.

Lemma find_key {A} (key : A -> nat) l : NoDup (map key l) -> forall p, In p l ->
  find (fun q => Nat.eqb (key q) (key p)) l = Some p.
Proof.
  induction l as [|q l IH]; intros ND p Hp; [destruct Hp|]. simpl in *. inversion ND; subst.
  destruct (Nat.eqb_spec (key q) (key p)) as [E|E].
  - destruct Hp as [->|Hp]; auto. exfalso. apply H1. rewrite E. apply in_map. auto.
  - destruct Hp as [->|Hp]; [congruence|]. auto.
Qed.

Lemma entry_sum {A} (B : A -> ncoo) (F : A -> Q) l r x :
  (forall p, In p l -> neqv (entry (B p) r x) (Fin (F p))) -> neqv (entry (flat_map B l) r x) (Fin (qsum (map F l))).
Proof.
  induction l as [|a l IH]; intros H; simpl; [reflexivity|].
  rewrite entry_app, (H a) by (left; auto). rewrite IH by (intros; apply H; right; auto). simpl. reflexivity.
Qed.
Lemma sum_index {A} (F : option A -> nat -> Q) (l : list A) : forall a,
  qsum (map (fun i => F (nth_error l (i - a)) i) (seq a (length l))) == qsum (map (fun p => F (Some (snd p)) (fst p)) (combine (seq a (length l)) l)).
Proof.
  induction l as [|x l IH]; intros a; simpl; [reflexivity|]. rewrite Nat.sub_diag. simpl. rewrite <- (IH (S a)).
  apply Qplus_comp; [reflexivity|]. apply qsum_ext. intros i Hi. apply in_seq in Hi.
  replace (i - a)%nat with (S (i - S a)) by lia. reflexivity.
Qed.
Lemma sum_filter {A} (p : A -> bool) (F : A -> Q) l : (forall x, In x l -> p x = false -> F x == 0) ->
  qsum (map F (filter p l)) == qsum (map F l).
Proof.
  induction l as [|x l IH]; intros H; simpl; [reflexivity|]. destruct (p x) eqn:E; simpl.
  - rewrite IH by (intros; apply H; auto; right; auto). reflexivity.
  - rewrite IH by (intros; apply H; auto; right; auto). rewrite (H x) by (auto; left; auto). ring.
Qed.
Lemma combine_snd {A B} (l : list A) : forall l' : list B, length l = length l' -> map snd (combine l l') = l'.
Proof. induction l as [|a l IH]; intros [|b l']; simpl; intros H; try discriminate; auto. f_equal. auto. Qed.
Lemma combine_nth_inv {A B} (l : list A) : forall (l' : list B) k a b, nth_error (combine l l') k = Some (a, b) ->
  nth_error l k = Some a /\ nth_error l' k = Some b.
Proof.
  induction l as [|x l IH]; intros [|y l'] [|k] a b H; simpl in *; try discriminate.
  - inversion H; auto.
  - apply IH in H. auto.
Qed.
Lemma seq_nth_error n : forall a k, (k < n)%nat -> nth_error (seq a n) k = Some (a + k)%nat.
Proof.
  induction n as [|n IH]; intros a k H; [lia|]. destruct k; simpl; [f_equal; lia|]. rewrite IH by lia. f_equal. lia.
Qed.
Lemma entry_step i j q P Q r x : neqv (entry P r x) (Fin Q) ->
  neqv (entry ((i, j, Fin q) :: P) r x) (Fin ((if Nat.eqb i r && Nat.eqb j x then q else 0) + Q)).
Proof.
  intros H. rewrite entry_cons. destruct (_ && _).
  - rewrite H. reflexivity.
  - rewrite H. simpl. ring.
Qed.
Lemma block_local c i j f G E l r x : qG f = Fin G -> qE f = Fin E -> 0 < G -> 0 < E -> 0 < l -> 0 < qh f -> 0 < qb f ->
  (i < j)%nat -> neqv (entry (block c i j f l) r x)
    (Fin match local i j r, local i j x with Some a, Some b => nth b (nth a (beam_matrix f G E l c) []) 0 | _, _ => 0 end).
Proof.
  intros EG EE G0 E0 l0 h0 b0 L. unfold block. cbv zeta.
  rewrite (k0_fin f G E l EG EE G0 E0 l0 h0), (k1_fin f G E l c EG EE G0 E0 l0 h0), (k2_fin f G E l EG EE G0 E0 l0 h0), (k4_fin f G E l EG EE G0 E0 l0 h0).
  unfold beam_matrix. cbv zeta. generalize (beam_stiffness f G E l). intros k.
  assert (DN : entry [] r x = Fin 0) by reflexivity.
  etransitivity; [repeat apply entry_step; rewrite DN; reflexivity|]. cbn [nopp neqv].
  unfold local. rewrite !(Nat.eqb_sym _ r), !(Nat.eqb_sym _ x).
  destruct (Nat.eqb_spec r (2 * i)), (Nat.eqb_spec r (2 * i + 1)), (Nat.eqb_spec r (2 * j)), (Nat.eqb_spec r (2 * j + 1)); try (exfalso; lia);
  destruct (Nat.eqb_spec x (2 * i)), (Nat.eqb_spec x (2 * i + 1)), (Nat.eqb_spec x (2 * j)), (Nat.eqb_spec x (2 * j + 1)); try (exfalso; lia);
  cbn [andb nth]; try ring; field; lra.
Qed.

Section Lengths.
  Variable m : qmat.
  Variable g : mesh_df.
  Variables lmin lmax : option Q.
  Variable c : Q.
  Variable K : ncoo.
  Hypothesis HK : stiffness m g lmin lmax c = Ok K.
  Hypothesis noflag : ~ flag_set (g_attrs g).
  Let rows := g_rows g.
  Let ps := parts m g lmin lmax.

  Definition len (i : nat) : Q :=
    match find (fun p => Nat.eqb (ei (fst p)) i) (parts m g lmin lmax) with Some p => snd p | None => 0 end.

  Lemma parts_keys : NoDup (map (fun p : elem * Q => ei (fst p)) ps).
  Proof.
    unfold ps, parts. rewrite <- (map_map fst ei). rewrite combine_fst.
    - apply elem_keys. eapply labelled; eauto.
    - symmetry. eapply lens_length; eauto.
  Qed.
  Lemma len_part p : In p ps -> len (ei (fst p)) = snd p.
  Proof. intros Hp. unfold len. fold ps. rewrite (find_key (fun p : elem * Q => ei (fst p)) ps parts_keys p Hp). auto. Qed.
  Lemma part_of i j d e : beam_element g i j d e -> exists k x, nth_error (elements m rows) k = Some x /\
    nth_error (lens m g lmin lmax) k = Some (len i) /\ In (x, len i) ps /\ ei x = i /\ ej x = j /\
    has_fiber m (nf d) (ef x) /\ el x = ns e - ns d.
  Proof.
    intros HB. destruct (element_ex m g lmin lmax c K HK noflag i j d e HB) as (x & Hx & Ei & Ej).
    pose proof (element_inv m g lmin lmax c K HK noflag x Hx) as (i' & j' & d' & e' & (Hd' & He' & _) & _ & Ei' & Ej' & Hf & El).
    apply In_nth_error in Hx. destruct Hx as (k & Hk).
    assert (L : (k < length (lens m g lmin lmax))%nat).
    { rewrite (lens_length m g lmin lmax c K HK noflag). apply nth_error_Some. unfold rows in Hk. rewrite Hk. discriminate. }
    destruct (nth_error (lens m g lmin lmax) k) as [l|] eqn:El'; [|apply nth_error_None in El'; lia].
    assert (HP : In (x, l) ps) by (apply (nth_error_In _ k), combine_nth_error; auto).
    pose proof (len_part _ HP) as Q. simpl in Q. rewrite Ei in Q. exists k, x. rewrite Q.
    destruct HB as (Hd & He & _). pose proof (labelled m g lmin lmax c K HK noflag) as HL.
    rewrite Ei in Ei'. rewrite Ej in Ej'. subst i' j'.
    pose proof (node_fun rows HL i d' d Hd' Hd). pose proof (node_fun rows HL j e' e He' He). subst d' e'. auto 8.
  Qed.
  Lemma len_entry i j d e f G E : lengths_ok g lmin lmax -> finite_moduli m -> beam_element g i j d e ->
    has_fiber m (nf d) f -> qG f = Fin G -> qE f = Fin E ->
    neqv (entry K (2 * i) (2 * j)) (Fin (- beam_stiffness f G E (len i))).
  Proof.
    intros HL HF HB Hf EG EE. destruct (part_of i j d e HB) as (k & x & _ & _ & Hp & Ei & Ej & Hx & _).
    assert (ef x = f) by (destruct Hx as [_ Hx]; destruct Hf as [_ Hf]; congruence).
    destruct (part_facts m g lmin lmax c K HK noflag HL HF _ Hp) as (G' & E' & EG' & EE' & G0 & E0 & l0 & h0 & b0).
    cbn [fst snd] in *. rewrite H in *. assert (G' = G) by congruence. assert (E' = E) by congruence. subst G' E'.
    rewrite (K_parts m g lmin lmax c K HK noflag). fold ps. pose proof HB as (_ & _ & Lij & _).
    etransitivity; [apply (entry_unique _ (fun p : elem * Q => ei (fst p)) ps _ _ parts_keys (x, len i) Hp)|].
    - intros q Hq N. cbn [fst snd] in N. apply entry_none. intros v Hv. apply N.
      destruct (element_inv m g lmin lmax c K HK noflag _ (proj1 (part_elem m g lmin lmax _ Hq)))
        as (i' & j' & d' & e' & (_ & _ & L' & _) & _ & Ei' & Ej' & _).
      apply block_in in Hv. rewrite Ei', Ej' in Hv.
      rewrite !(Nat.mul_comm 2), !Nat.div_mul in Hv by lia. lia.
    - cbn [fst snd]. rewrite Ei, Ej, H. rewrite (block_local c i j f G E (len i) _ _ EG EE G0 E0 l0 h0 b0 Lij).
      unfold local. repeat match goal with |- context [Nat.eqb ?a ?b] =>
        destruct (Nat.eqb_spec a b); [try (exfalso; lia)|try (exfalso; lia)] end. reflexivity.
  Qed.
  Lemma len_range lo hi : lower_bound g lmin lo -> upper_bound g lmax hi -> lo <= hi ->
    (forall i j d e, beam_element g i j d e -> lo <= len i <= hi) /\
    (forall i j d e i' j' d' e', beam_element g i j d e -> beam_element g i' j' d' e' ->
       ns e - ns d <= ns e' - ns d' -> len i <= len i').
  Proof.
    intros HLo HHi L. pose proof (lens_ok m g lmin lmax c K HK noflag) as HR. fold rows in HR.
    set (ls := map el (elements m rows)) in *.
    assert (IN : forall x, In x ls -> exists i j d e, beam_element g i j d e /\ x = ns e - ns d).
    { intros x Hx. apply in_map_iff in Hx. destruct Hx as (y & <- & Hy).
      destruct (element_inv m g lmin lmax c K HK noflag y Hy) as (i & j & d & e & HB & _ & _ & _ & _ & ->). eauto 8. }
    assert (NI : forall i j d e, beam_element g i j d e -> exists k, nth_error ls k = Some (ns e - ns d) /\ nth_error (lens m g lmin lmax) k = Some (len i)).
    { intros i j d e HB. destruct (part_of i j d e HB) as (k & x & Hk & Hl & _ & _ & _ & _ & El). exists k. split; auto.
      unfold ls. rewrite nth_error_map, Hk, <- El. auto. }
    destruct (rescale_inv _ _ _ _ HR) as (mn & mx & lo' & hi' & HS & HM & Elo & Ehi & _).
    assert (Qlo : lo == match lmin with Some v => v | None => mn end).
    { revert HLo. unfold lower_bound. case lmin; [intros v ->; reflexivity|]. intros [H1 (i & j & d & e & HB & H2)].
      destruct HS as [HS1 HS2]. apply Qle_antisym.
      - destruct (IN _ HS1) as (i' & j' & d' & e' & HB' & ->). eapply H1; eauto.
      - rewrite H2. destruct (NI i j d e HB) as (k & Hk & _). apply HS2. eapply nth_error_In; eauto. }
    assert (Qhi : hi == match lmax with Some v => v | None => mx end).
    { revert HHi. unfold upper_bound. case lmax; [intros v ->; reflexivity|]. intros [H1 (i & j & d & e & HB & H2)].
      destruct HM as [HM1 HM2]. apply Qle_antisym.
      - rewrite H2. destruct (NI i j d e HB) as (k & Hk & _). apply HM2. eapply nth_error_In; eauto.
      - destruct (IN _ HM1) as (i' & j' & d' & e' & HB' & ->). eapply H1; eauto. }
    destruct (rescale_bounds _ _ _ _ mn mx HR HS HM) as (_ & B1 & B2); [rewrite <- Qlo, <- Qhi; auto|].
    split.
    - intros i j d e HB. destruct (NI i j d e HB) as (k & _ & Hk). pose proof (B1 k _ Hk). rewrite Qlo, Qhi. auto.
    - intros i j d e i' j' d' e' HB HB' LE. destruct (NI i j d e HB) as (k & Hk & Hl). destruct (NI i' j' d' e' HB') as (k' & Hk' & Hl').
      apply (B2 k k' _ _ _ _ Hk Hk' Hl Hl' LE).
  Qed.
  Lemma len_unscaled i j d e : lengths_ok g lmin lmax -> lmin = None -> lmax = None -> beam_element g i j d e -> len i == ns e - ns d.
  Proof.
    intros HL N1 N2 HB. destruct (part_of i j d e HB) as (k & x & _ & _ & Hp & _ & _ & _ & El).
    pose proof (part_length m g lmin lmax c K HK noflag HL N1 N2 _ Hp) as Q. simpl in Q. rewrite Q, El. reflexivity.
  Qed.
  Lemma len_assembly r x : lengths_ok g lmin lmax -> finite_moduli m ->
    neqv (entry K r x) (Fin (assembled m g c len r x)).
  Proof.
    intros HL HF. rewrite (K_parts m g lmin lmax c K HK noflag). fold ps.
    set (T := fun p : elem * Q => let f := ef (fst p) in
      match qG f, qE f, local (ei (fst p)) (ej (fst p)) r, local (ei (fst p)) (ej (fst p)) x with
      | Fin G, Fin E, Some a, Some b => nth b (nth a (beam_matrix f G E (snd p) c) []) 0 | _, _, _, _ => 0 end).
    etransitivity; [apply (entry_sum _ T)|].
    - intros p Hp. destruct (part_facts m g lmin lmax c K HK noflag HL HF _ Hp) as (G & E & EG & EE & G0 & E0 & l0 & h0 & b0).
      destruct (element_inv m g lmin lmax c K HK noflag _ (proj1 (part_elem m g lmin lmax _ Hp)))
        as (i' & j' & d' & e' & (_ & _ & L' & _) & _ & Ei' & Ej' & _).
      rewrite <- Ei', <- Ej' in L'. rewrite (block_local c _ _ _ G E _ r x EG EE G0 E0 l0 h0 b0 L').
      unfold T. cbv zeta. rewrite EG, EE. reflexivity.
    - cbn [neqv]. unfold assembled.
      pose proof (labelled m g lmin lmax c K HK noflag) as HLb. fold rows in HLb.
      transitivity (qsum (map (fun r0 : Z * node => T (mkElem (Z.to_nat (fst r0)) (Z.to_nat (nbeam (snd r0)))
                       (nth (Z.to_nat (nf (snd r0))) (q_rows m) fiber0)
                       (ns (node_at (map snd rows) (nbeam (snd r0))) - ns (node_at (map snd rows) (fst r0))), len (Z.to_nat (fst r0))))
        (filter (fun r0 : Z * node => Z.ltb (fst r0) (nbeam (snd r0))) rows))).
      { replace ps with (map (fun e : elem => (e, len (ei e))) (elements m rows)).
        - unfold elements. rewrite !map_map. reflexivity.
        - transitivity (map (fun p : elem * Q => (fst p, len (ei (fst p)))) ps).
          + rewrite <- (map_map fst (fun e => (e, len (ei e)))). unfold ps, parts. rewrite combine_fst; [reflexivity|].
            symmetry. eapply lens_length; eauto.
          + transitivity (map (fun p : elem * Q => p) ps); [|apply map_id]. apply map_ext_in. intros p Hp.
            rewrite (len_part p Hp). destruct p; reflexivity. }
      set (F := fun (o : option (Z * node)) (i : nat) => match o with
        | Some (_, d) => if Z.ltb (Z.of_nat i) (nbeam d) then
           match nth_error (q_rows m) (Z.to_nat (nf d)) with
           | Some f => match qG f, qE f, local i (Z.to_nat (nbeam d)) r, local i (Z.to_nat (nbeam d)) x with
             | Fin G, Fin E, Some a, Some b => nth b (nth a (beam_matrix f G E (len i) c) []) 0 | _, _, _, _ => 0 end
           | None => 0 end else 0
        | None => 0 end).
      transitivity (qsum (map (fun i => F (nth_error rows (i - 0)) i) (seq 0 (length rows)))).
      2:{ apply qsum_ext. intros i _. rewrite Nat.sub_0_r. reflexivity. }
      rewrite (sum_index F rows 0).
      transitivity (qsum (map (fun r0 : Z * node => F (Some r0) (Z.to_nat (fst r0))) rows)).
      + rewrite <- (sum_filter (fun r0 : Z * node => Z.ltb (fst r0) (nbeam (snd r0))) (fun r0 => F (Some r0) (Z.to_nat (fst r0))) rows).
        * apply qsum_ext. intros [lab d] Hr. apply filter_In in Hr. destruct Hr as [Hr Hlt]. cbn [fst snd] in *.
          apply In_nth_error in Hr. destruct Hr as (k & Hk). pose proof (HLb _ _ _ Hk) as El. subst lab.
          unfold T, F. cbv zeta. cbn [fst snd ei ej ef]. rewrite Z2Nat.id by lia. rewrite Hlt.
          assert (HB : (0 <= nf d < Z.of_nat (length (q_rows m)))%Z).
          { destruct (stiff_inv m g lmin lmax c K HK noflag) as (_ & _ & ls & _ & HB & _). apply (HB k d).
            - eexists; eauto.
            - apply Z.ltb_lt in Hlt. auto. }
          destruct (nth_error (q_rows m) (Z.to_nat (nf d))) as [f|] eqn:Ef.
          -- assert (EN : nth (Z.to_nat (nf d)) (q_rows m) fiber0 = f) by (apply nth_error_nth; auto). rewrite EN. reflexivity.
          -- apply nth_error_None in Ef. lia.
        * intros [lab d] Hr Hlt. cbn [fst snd] in *. apply In_nth_error in Hr. destruct Hr as (k & Hk).
          pose proof (HLb _ _ _ Hk) as El. subst lab. unfold F. rewrite Z2Nat.id by lia. rewrite Hlt. reflexivity.
      + assert (EQ : rows = map (fun p : nat * (Z * node) => snd p) (combine (seq 0 (length rows)) rows)).
        { symmetry. apply (combine_snd (seq 0 (length rows)) rows). apply seq_length. }
        rewrite EQ at 1. rewrite map_map. apply qsum_ext. intros [i [lab d]] Hp. cbn [fst snd].
        apply In_nth_error in Hp. destruct Hp as (k & Hk). apply combine_nth_inv in Hk. destruct Hk as [Hs Hk].
        pose proof (HLb _ _ _ Hk) as El. subst lab. rewrite Nat2Z.id.
        assert (i = k); [|subst; reflexivity].
        assert (k < length rows)%nat by (apply nth_error_Some; rewrite Hk; discriminate).
        rewrite seq_nth_error in Hs by auto. inversion Hs. lia.
  Qed.
  Lemma stiff_lengths : lengths_ok g lmin lmax -> finite_moduli m -> exists len : nat -> Q,
    (forall r x, neqv (entry K r x) (Fin (assembled m g c len r x))) /\
    (forall i j d e f G E, beam_element g i j d e -> has_fiber m (nf d) f -> qG f = Fin G -> qE f = Fin E ->
       neqv (entry K (2 * i) (2 * j)) (Fin (- beam_stiffness f G E (len i)))) /\
    (forall lo hi, lower_bound g lmin lo -> upper_bound g lmax hi -> lo <= hi ->
       (forall i j d e, beam_element g i j d e -> lo <= len i <= hi) /\
       (forall i j d e i' j' d' e', beam_element g i j d e -> beam_element g i' j' d' e' ->
          ns e - ns d <= ns e' - ns d' -> len i <= len i')) /\
    (lmin = None -> lmax = None -> forall i j d e, beam_element g i j d e -> len i == ns e - ns d).
  Proof.
    intros HL HF. exists len. split; [intros; apply len_assembly; auto|]. split; [intros; eapply len_entry; eauto|]. split; [apply len_range|].
    intros N1 N2 i j d e HB. eapply len_unscaled; eauto.
  Qed.
End Lengths.

(** totality *)
Lemma stiffness_total m g lmin lmax c : valid m -> mesh_ok g ->
  at_n (g_attrs g) = Some (Z.of_nat (length (q_rows m))) -> (exists i j d e, beam_element g i j d e) ->
  exists K, stiffness m g lmin lmax c = Ok K.
Proof.
  intros Hv HM En (i & j & d & e & ((lab & Hd) & _ & Lij & Eb)). unfold stiffness.
  rewrite (proj2 (mat_check_ok (df_of m)) (or_intror Hv)). simpl.
  rewrite (proj2 (mesh_check_ok g) (or_intror HM)). simpl.
  destruct HM as (_ & n & En' & _ & _ & HL & _ & _ & HF & _). rewrite En in En'. inversion En'; subst n.
  assert (E : fibers_known m (map snd (filter (fun r => Z.ltb (fst r) (nbeam (snd r))) (g_rows g))) = true).
  { apply forallb_forall. intros x Hx. apply in_map_iff in Hx. destruct Hx as ([l x'] & <- & Hx). apply filter_In in Hx.
    destruct Hx as [Hx _]. apply In_nth_error in Hx. destruct Hx as (k & Hx). specialize (HF k x' (ex_intro _ l Hx)).
    unfold in_range. apply andb_true_iff. rewrite Z.leb_le, Z.ltb_lt. auto. }
  rewrite E. simpl.
  assert (NE : map el (elements m (g_rows g)) <> []).
  { intros C. apply map_eq_nil in C. unfold elements in C. apply map_eq_nil in C.
    assert (I : In (lab, d) (filter (fun r => Z.ltb (fst r) (nbeam (snd r))) (g_rows g))).
    { apply filter_In. split; [eapply nth_error_In; eauto|]. simpl. rewrite (HL _ _ _ Hd), Eb. apply Z.ltb_lt. lia. }
    rewrite C in I. destruct I. }
  destruct (rescale_total lmin lmax _ NE) as (out & ->). simpl. eauto.
Qed.
