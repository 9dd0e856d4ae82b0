(** Proofs for C107: the system assembled for a mesh that contains another one. *)
From Coq Require Import Permutation Sorting.Sorted Lia Lqa.
From Verif Require Import Num NumP ListX ListP Frames MatM NetM MeshM ModelM SolverM Spec SpecNet SpecMesh SpecModel SpecSolver SpecPerm
  SpecScale SpecProgress SpecRename SpecPart MeshCheckP StiffP ConstraintP SolverP SolverRunP SolverSysP SolverApiP SolverFinP PermP ScaleP ProgressFinP RenameMatP RenameRunP RenameDataP PartMatP.
Open Scope Q_scope.

Lemma interp_same mn mx lo hi x : lo == mn -> hi == mx -> mn <= x -> x <= mx -> interp2 (Qmin mn lo) (Qmax mx hi) lo hi x == x.
Proof.
  intros E1 E2 A B. unfold interp2.
  assert (H1 : Qmin mn lo == mn) by (apply Q.min_l; lra). assert (H2 : Qmax mx hi == mx) by (apply Q.max_l; lra).
  destruct (Qleb (Qmax mx hi) x) eqn:E.
  - apply Qleb_le in E. lra.
  - assert (L : ~ Qmax mx hi <= x) by (intros L; apply Qleb_le in L; congruence). apply Qnot_le_lt in L.
    rewrite H1, H2, E1, E2. field. lra.
Qed.

Section Data.
  Variable rho : nat -> nat.
  Variables m m' : qmat.
  Variables g g' : mesh_df.
  Hypothesis HR : mesh_within rho m m' g g'.
  Variables lmin lmin' lmax lmax' : option Q.
  Variables cp cp' : Q.
  Variables K K' : ncoo.
  Variables cs cs' : csys.
  Hypothesis HK : stiffness m g lmin lmax cp = Ok K.
  Hypothesis HK' : stiffness m' g' lmin' lmax' cp' = Ok K'.
  Hypothesis HC : constraint m g = Ok cs.
  Hypothesis HC' : constraint m' g' = Ok cs'.
  Hypothesis NF : ~ flag_set (g_attrs g).
  Hypothesis NF' : ~ flag_set (g_attrs g').
  Hypothesis Hmin : option_in no_units lmin lmin'.
  Hypothesis Hmax : option_in no_units lmax lmax'.
  Hypothesis Hcp : cp' == cp.
  Hypothesis Hspan : (lmin = None /\ lmax = None) \/ same_span g g'.
  Notation rows := (g_rows g).
  Notation rows' := (g_rows g').
  Notation n := (length (g_rows g)).
  Notation n' := (length (g_rows g')).
  Notation ps := (cons_pairs (g_rows g)).
  Notation ps' := (cons_pairs (g_rows g')).
  Notation nu := (2 * length (g_rows g))%nat.
  Notation nu' := (2 * length (g_rows g'))%nat.
  Notation N := (2 * length (g_rows g) + 3 * length (cons_pairs (g_rows g)))%nat.
  Notation N' := (2 * length (g_rows g') + 3 * length (cons_pairs (g_rows g')))%nat.

  Lemma rho_lt i : (i < n)%nat -> (rho i < n')%nat. Proof. exact (proj1 HR i). Qed.
  Lemma rho_inj i j : (i < n)%nat -> (j < n)%nat -> rho i = rho j -> i = j. Proof. exact (proj1 (proj2 HR) i j). Qed.
  Lemma nfun' i d e : is_node rows' i d -> is_node rows' i e -> d = e. Proof. intros (a & A) (b & B). congruence. Qed.
  Lemma nlt i d : is_node rows i d -> (i < n)%nat. Proof. apply SolverSysP.node_lt. Qed.
  Lemma nex i : (i < n)%nat -> exists d, is_node rows i d.
  Proof. intros H. destruct (nth_error rows i) as [[k d]|] eqn:E; [exists d, k; exact E|apply nth_error_None in E; lia]. Qed.
  Lemma nex' i : (i < n)%nat -> exists d, is_node rows' (rho i) d.
  Proof. intros H. apply rho_lt in H. destruct (nth_error rows' (rho i)) as [[k d]|] eqn:E; [exists d, k; exact E|apply nth_error_None in E; lia]. Qed.

  (** *** contacts *)
  Lemma pair_bounds i j : In (i, j) ps -> (i < n /\ j < n)%nat.
  Proof. intros H. apply In_nth_error in H. destruct H as (k & H). destruct (pair_lt m g cs HC NF k i j H) as (_ & A & B & _). auto. Qed.
  Lemma pairs_in i j : (i < n)%nat -> (j < n)%nat -> In (i, j) ps <-> In (rho i, rho j) ps'.
  Proof. intros A B. rewrite <- (contact_pair m g cs HC NF), <- (contact_pair m' g' cs' HC' NF'). destruct HR as (_ & _ & _ & _ & H & _). apply H; auto. Qed.
  Lemma firsts' : NoDup (map fst ps'). Proof. apply firsts. apply (lab m' g' _ _ _ K' HK' NF'). Qed.
  Lemma ps_nodup : NoDup ps. Proof. apply (NoDup_map_inv fst). apply firsts. apply (lab m g _ _ _ K HK NF). Qed.
  Lemma ps_nodup' : NoDup ps'. Proof. apply (NoDup_map_inv fst). apply firsts'. Qed.
  Definition kap (k : nat) : nat := posn (rho (fst (nth k ps (0, 0)%nat))) (map fst ps').
  Lemma kap_at k i j : nth_error ps k = Some (i, j) -> nth_error ps' (kap k) = Some (rho i, rho j).
  Proof.
    intros H. unfold kap. rewrite (nth_of ps), H. cbn [fst]. pose proof (nth_error_In _ _ H) as HI. destruct (pair_bounds i j HI) as [Li Lj].
    apply (pairs_in i j Li Lj) in HI. assert (HF : In (rho i) (map fst ps')) by (apply (in_map fst _ _ HI)).
    destruct (posn_in _ _ HF) as [A B]. rewrite map_length in A. rewrite (nth_of (map fst ps')), nth_error_map in B.
    destruct (nth_error ps' (posn (rho i) (map fst ps'))) as [[a b]|] eqn:E; [|apply nth_error_None in E; lia]. cbn in B. subst a.
    f_equal. apply (NoDup_map_inj fst ps'); [apply firsts'|apply (nth_error_In _ _ E)|exact HI|reflexivity].
  Qed.
  Lemma kap_any k k' i j : nth_error ps k = Some (i, j) -> nth_error ps' k' = Some (rho i, rho j) -> k' = kap k.
  Proof.
    intros A B. pose proof (kap_at k i j A) as C. apply (proj1 (NoDup_nth_error ps') ps_nodup'); [apply nth_error_Some; congruence|congruence].
  Qed.
  Lemma kap_lt k : (k < length ps)%nat -> (kap k < length ps')%nat.
  Proof.
    intros H. destruct (nth_error ps k) as [[i j]|] eqn:E; [|apply nth_error_None in E; lia]. apply nth_error_Some. rewrite (kap_at k i j E). discriminate.
  Qed.
  Lemma kap_inj k l : (k < length ps)%nat -> (l < length ps)%nat -> kap k = kap l -> k = l.
  Proof.
    intros A B E. destruct (nth_error ps k) as [[i j]|] eqn:E1; [|apply nth_error_None in E1; lia]. destruct (nth_error ps l) as [[i2 j2]|] eqn:E2; [|apply nth_error_None in E2; lia].
    pose proof (kap_at k i j E1) as H1. pose proof (kap_at l i2 j2 E2) as H2. rewrite E in H1. rewrite H1 in H2. injection H2 as H2 H3.
    destruct (pair_bounds i j (nth_error_In _ _ E1)). destruct (pair_bounds i2 j2 (nth_error_In _ _ E2)).
    apply rho_inj in H2; auto. apply rho_inj in H3; auto. subst. apply (proj1 (NoDup_nth_error ps) ps_nodup); [exact A|congruence].
  Qed.
  Definition prl (p p' : nat * (nat * nat)) : Prop :=
    nth_error ps (fst p) = Some (snd p) /\ fst p' = kap (fst p) /\ fst (snd p') = rho (fst (snd p)) /\ snd (snd p') = rho (snd (snd p)).
  Lemma pairs_matched : exists q r, Permutation (q ++ r) (indexed ps') /\ Forall2 prl (indexed ps) q /\
    forall y, In y r -> forall i, (i < n)%nat -> fst (snd y) <> rho i /\ snd (snd y) <> rho i.
  Proof.
    destruct (matched_part prl (indexed ps) (indexed ps')) as (q & r & P & F & O).
    - intros [k [i j]] H. apply indexed_in in H. exists (kap k, (rho i, rho j)). split; [apply indexed_in; apply kap_at; exact H|].
      split; [exact H|]. auto.
    - intros [k [i j]] [a [b c]] [a' [b' c']] _ _ _ (_ & A1 & A2 & A3) (_ & B1 & B2 & B3). cbn [fst snd] in *. congruence.
    - intros [k [i j]] [k2 [i2 j2]] [a [b c]] _ _ _ (A0 & A1 & A2 & A3) (B0 & B1 & B2 & B3). cbn [fst snd] in *.
      assert (E : k = k2).
      { apply kap_inj; [apply nth_error_Some; congruence|apply nth_error_Some; congruence|congruence]. }
      subst k2. congruence.
    - apply indexed_nodup.
    - apply indexed_nodup.
    - exists q, r. split; [exact P|]. split; [exact F|]. intros [k' [i' j']] Hy i Li. cbn [fst snd]. destruct (O _ Hy) as [HI NR]. apply indexed_in in HI.
      assert (CT : contact g' i' j') by (apply (contact_pair m' g' cs' HC' NF'); apply (nth_error_In _ _ HI)).
      destruct HR as (_ & _ & _ & _ & _ & _ & AP). pose proof (AP i' j' CT) as AP'.
      assert (X : ~ (found rho g i' /\ found rho g j')).
      { intros [(a & La & ->) (b & Lb & ->)]. apply NR. pose proof (nth_error_In _ _ HI) as HI'. apply (pairs_in a b La Lb) in HI'.
        apply In_nth_error in HI'. destruct HI' as (k & Hk). exists (k, (a, b)). split; [apply indexed_in; exact Hk|]. split; [exact Hk|]. cbn [fst snd].
        split; [apply (kap_any k k' a b Hk HI)|auto]. }
      split; intros E; apply X; (assert (FI : found rho g i' \/ found rho g j') by (first [left; exists i; split; assumption|right; exists i; split; assumption])); tauto.
  Qed.

  (** *** numbering of the unknowns *)
  Definition tau (r : nat) : nat :=
    if Nat.ltb r nu then (2 * rho (r / 2) + r mod 2)%nat else (nu' + (3 * kap ((r - nu) / 3) + (r - nu) mod 3))%nat.
  Lemma tau_disp i : (i < n)%nat -> tau (2 * i) = (2 * rho i)%nat.
  Proof. intros L. unfold tau. rewrite (proj2 (Nat.ltb_lt (2 * i) nu)) by lia. rewrite div2_even, mod2_even. lia. Qed.
  Lemma tau_rot i : (i < n)%nat -> tau (2 * i + 1) = (2 * rho i + 1)%nat.
  Proof. intros L. unfold tau. rewrite (proj2 (Nat.ltb_lt (2 * i + 1) nu)) by lia. rewrite div2_odd, mod2_odd. lia. Qed.
  Lemma tau_row k a : (a < 3)%nat -> tau (nu + (3 * k + a)) = (nu' + (3 * kap k + a))%nat.
  Proof.
    intros L. unfold tau. rewrite (proj2 (Nat.ltb_ge (nu + (3 * k + a)) nu)) by lia. replace (nu + (3 * k + a) - nu)%nat with (3 * k + a)%nat by lia.
    destruct (div3 k a L) as [-> ->]. reflexivity.
  Qed.
  Lemma unknown r : (r < N)%nat -> (exists i, (i < n)%nat /\ (r = 2 * i \/ r = 2 * i + 1)%nat) \/
    (exists k a, (k < length ps)%nat /\ (a < 3)%nat /\ (r = nu + (3 * k + a))%nat).
  Proof.
    intros L. destruct (Nat.lt_ge_cases r nu) as [U|U].
    - left. destruct (split2 r) as (i & E). exists i. split; [lia|exact E].
    - right. destruct (split3 (r - nu)) as (k & a & E & A). exists k, a. split; [lia|]. split; [exact A|]. lia.
  Qed.
  Lemma tau_up r : (r < nu)%nat -> (tau r < nu')%nat.
  Proof.
    intros L. destruct (split2 r) as (i & [->| ->]).
    - rewrite tau_disp by lia. pose proof (rho_lt i). lia.
    - rewrite tau_rot by lia. pose proof (rho_lt i). lia.
  Qed.
  Lemma tau_low r : (nu <= r)%nat -> (nu' <= tau r)%nat.
  Proof. intros L. unfold tau. rewrite (proj2 (Nat.ltb_ge r nu) L). lia. Qed.
  Lemma tau_lt r : (r < N)%nat -> (tau r < N')%nat.
  Proof.
    intros L. destruct (unknown r L) as [(i & Li & [->| ->])|(k & a & Lk & La & ->)].
    - pose proof (tau_up (2 * i)). lia.
    - pose proof (tau_up (2 * i + 1)). lia.
    - rewrite tau_row by exact La. pose proof (kap_lt k Lk). lia.
  Qed.
  Lemma tau_inj r t : (r < N)%nat -> (t < N)%nat -> tau r = tau t -> r = t.
  Proof.
    intros L M E. destruct (Nat.lt_ge_cases r nu) as [U|U], (Nat.lt_ge_cases t nu) as [W|W].
    - destruct (split2 r) as (i & Ei), (split2 t) as (j & Ej). assert (Li : (i < n)%nat) by lia. assert (Lj : (j < n)%nat) by lia.
      destruct Ei as [->| ->], Ej as [->| ->]; rewrite ?tau_disp, ?tau_rot in E by assumption; try (exfalso; lia);
        assert (X : rho i = rho j) by lia; apply rho_inj in X; auto; subst; reflexivity.
    - pose proof (tau_up r U). pose proof (tau_low t W). lia.
    - pose proof (tau_low r U). pose proof (tau_up t W). lia.
    - destruct (unknown r L) as [(i & Li & X)|(k & a & Lk & La & ->)]; [lia|]. destruct (unknown t M) as [(i & Li & X)|(l & b & Ll & Lb & ->)]; [lia|].
      rewrite !tau_row in E by assumption. assert (X : kap k = kap l /\ a = b) by lia. destruct X as [X ->]. assert (Y : k = l) by (apply kap_inj; auto). subst l. reflexivity.
  Qed.
  (** unknowns of nodes and contacts that are not of the part *)
  Lemma out_node a c : (c < 2)%nat -> (a < n')%nat -> (forall i, (i < n)%nat -> a <> rho i) -> forall i, (i < N)%nat -> (2 * a + c)%nat <> tau i.
  Proof.
    intros Lc La H i L E. destruct (unknown i L) as [(j & Lj & [->| ->])|(k & b & Lk & Lb & ->)].
    - rewrite tau_disp in E by exact Lj. apply (H j Lj). lia.
    - rewrite tau_rot in E by exact Lj. apply (H j Lj). lia.
    - rewrite tau_row in E by exact Lb. lia.
  Qed.
  Lemma out_row k c i' j' : (c < 3)%nat -> nth_error ps' k = Some (i', j') -> (forall i, (i < n)%nat -> i' <> rho i) -> forall i, (i < N)%nat -> (nu' + (3 * k + c))%nat <> tau i.
  Proof.
    intros Lc Hk H i L E. destruct (unknown i L) as [(j & Lj & X)|(l & b & Ll & Lb & ->)].
    - assert (tau i < nu')%nat by (apply tau_up; lia). lia.
    - rewrite tau_row in E by exact Lb. assert (X : k = kap l) by lia. subst k. destruct (nth_error ps l) as [[x y]|] eqn:E2; [|apply nth_error_None in E2; lia].
      rewrite (kap_at l x y E2) in Hk. injection Hk as <- <-. destruct (pair_bounds x y (nth_error_In _ _ E2)) as [Lx _]. apply (H x Lx). reflexivity.
  Qed.

  (** *** beams *)
  Definition erl (e e' : elem) : Prop :=
    (ei e < n)%nat /\ (ej e < n)%nat /\ ei e' = rho (ei e) /\ ej e' = rho (ej e) /\ fiber_seen no_units (ef e) (ef e') /\ el e' == el e.
  Lemma els_total e : In e (elements m rows) -> exists e', In e' (elements m' rows') /\ erl e e'.
  Proof.
    intros H. destruct (element_inv m g _ _ _ K HK NF e H) as (i & j & d & f & HB & Ef & Ei & Ej & HF & El).
    pose proof HB as (Hi & Hj & _ & _). pose proof (nlt i d Hi) as Li. pose proof (nlt j f Hj) as Lj.
    destruct (nex' i Li) as (d' & Hi'). destruct (nex' j Lj) as (f' & Hj').
    destruct HR as (_ & _ & HN & HBm & _). destruct (HBm i j d f d' f' Hi Hj Hi' Hj') as [X1 X2]. unfold erl. rewrite Ei, Ej.
    apply X1 in HB as HB'. destruct (element_ex m' g' _ _ _ K' HK' NF' _ _ _ _ HB') as (e' & He' & Ei' & Ej').
    exists e'. split; [exact He'|]. split; [exact Li|]. split; [exact Lj|]. split; [exact Ei'|]. split; [exact Ej'|].
    destruct (element_inv m' g' _ _ _ K' HK' NF' e' He') as (a & b & x & y & (Ha & Hb & _) & Exy & Ea & Eb & HF' & El').
    assert (a = rho i) by congruence. assert (b = rho j) by congruence. rewrite H0 in Ha. rewrite H1 in Hb.
    pose proof (nfun' _ _ _ Ha Hi'). pose proof (nfun' _ _ _ Hb Hj'). subst x y. split; [|rewrite El, El'; apply X2; exact HB].
    destruct (HN i d d' Hi Hi') as (_ & HS). apply HS; [exact HF|exact HF'].
  Qed.
  Lemma els_matched : exists q r, Permutation (q ++ r) (elements m' rows') /\ Forall2 erl (elements m rows) q /\
    forall y, In y r -> (ei y < n')%nat /\ (ej y < n')%nat /\ forall i, (i < n)%nat -> ei y <> rho i /\ ej y <> rho i.
  Proof.
    destruct (matched_part erl (elements m rows) (elements m' rows')) as (q & r & P & F & O).
    - apply els_total.
    - intros x y y' _ Hy Hy' (_ & _ & A & _) (_ & _ & B & _). apply (NoDup_map_inj ei (elements m' rows')); auto; [apply els_nodup; apply (lab m' g' _ _ _ K' HK' NF')|]. congruence.
    - intros x x' y Hx Hx' _ (L1 & _ & A & _) (L2 & _ & B & _). apply (NoDup_map_inj ei (elements m rows)); auto; [apply els_nodup; apply (lab m g _ _ _ K HK NF)|].
      apply rho_inj; auto; congruence.
    - apply (NoDup_map_inv ei). apply els_nodup. apply (lab m g _ _ _ K HK NF).
    - apply (NoDup_map_inv ei). apply els_nodup. apply (lab m' g' _ _ _ K' HK' NF').
    - exists q, r. split; [exact P|]. split; [exact F|]. intros y Hy. destruct (O y Hy) as [HI NR].
      destruct (element_inv m' g' _ _ _ K' HK' NF' y HI) as (i' & j' & d' & f' & HB & Ef & Ei & Ej & HF & El).
      pose proof HB as (Hi' & Hj' & _ & _). rewrite Ei, Ej. split; [apply (SolverSysP.node_lt _ _ _ Hi')|]. split; [apply (SolverSysP.node_lt _ _ _ Hj')|].
      destruct HR as (_ & _ & _ & HBm & _ & AP & _). pose proof (AP i' j' d' f' HB) as AP'.
      assert (X : ~ (found rho g i' /\ found rho g j')).
      { intros [(a & La & ->) (b & Lb & ->)]. apply NR. destruct (nex a La) as (x & Hx). destruct (nex b Lb) as (z & Hz).
        apply (proj1 (HBm a b x z d' f' Hx Hz Hi' Hj')) in HB. destruct (element_ex m g _ _ _ K HK NF _ _ _ _ HB) as (e & He & Ee & Ee2). exists e. split; [exact He|].
        destruct (els_total e He) as (e2 & He2 & Q). assert (e2 = y); [|subst; exact Q].
        apply (NoDup_map_inj ei (elements m' rows')); [apply els_nodup; apply (lab m' g' _ _ _ K' HK' NF')|exact He2|exact HI|]. destruct Q as (_ & _ & Q & _). congruence. }
      intros i Li. split; intros E; apply X; (assert (FI : found rho g i' \/ found rho g j') by (first [left; exists i; split; assumption|right; exists i; split; assumption])); tauto.
  Qed.

  (** *** stiffness *)
  Lemma block_in e e' l l' : erl e e' -> l' == l ->
    mat_rn tau none (block cp (ei e) (ej e) (ef e) l) (block cp' (ei e') (ej e') (ef e') l').
  Proof.
    intros (Li & Lj & E1 & E2 & HF & _) Hl. assert (SL : scq no_units l l') by (unfold scq; cbn; rewrite Hl; ring).
    assert (U : un_mod no_units * un_len no_units == 1 /\ un_mod no_units * un_len no_units * un_len no_units == 1 /\
      un_mod no_units * un_len no_units * un_len no_units * un_len no_units == 1) by (cbn; repeat split; reflexivity). destruct U as (U1 & U2 & U3).
    pose proof (one_eqv _ _ _ U1 (sc_k0 no_units no_units_ok _ _ _ _ HF SL)) as K0.
    pose proof (one_eqv _ _ _ U2 (sc_k1 no_units no_units_ok _ _ _ _ _ _ Hcp HF SL)) as K1.
    pose proof (one_eqv _ _ _ U3 (sc_k2 no_units no_units_ok _ _ _ _ HF SL)) as K2.
    pose proof (one_eqv _ _ _ U3 (sc_k4 no_units no_units_ok _ _ _ _ HF SL)) as K4.
    unfold block. set (k0 := k0_of (ef e) l) in *. set (k1 := k1_of cp (ef e) l) in *. set (k2 := k2_of (ef e) l) in *. set (k4 := k4_of (ef e) l) in *.
    set (k0' := k0_of (ef e') l') in *. set (k1' := k1_of cp' (ef e') l') in *. set (k2' := k2_of (ef e') l') in *. set (k4' := k4_of (ef e') l') in *.
    clearbody k0 k1 k2 k4 k0' k1' k2' k4'. rewrite E1, E2. set (i := ei e) in *. set (j := ej e) in *. clearbody i j.
    pose proof (nopp_eqv _ _ K0) as O0. pose proof (nopp_eqv _ _ K1) as O1. pose proof (nopp_eqv _ _ K4) as O4.
    eexists. split; [reflexivity|].
    repeat (apply Forall2_cons; [unfold erel; cbn [fst snd]; rewrite ?tau_disp, ?tau_rot by assumption; cbn [none xorb flip]; auto|]).
    constructor.
  Qed.
  Lemma block_out c a b f l : (a < n')%nat -> (b < n')%nat -> (forall i, (i < n)%nat -> a <> rho i /\ b <> rho i) -> outside N tau (block c a b f l).
  Proof.
    intros La Lb H r x v HI i Li.
    assert (A0 : (2 * a)%nat <> tau i) by (rewrite <- (Nat.add_0_r (2 * a)); apply out_node; auto; try lia; intros k Lk; apply (H k Lk)).
    assert (A1 : (2 * a + 1)%nat <> tau i) by (apply out_node; auto; intros k Lk; apply (H k Lk)).
    assert (B0 : (2 * b)%nat <> tau i) by (rewrite <- (Nat.add_0_r (2 * b)); apply out_node; auto; try lia; intros k Lk; apply (H k Lk)).
    assert (B1 : (2 * b + 1)%nat <> tau i) by (apply out_node; auto; intros k Lk; apply (H k Lk)).
    unfold block in HI. cbn [In] in HI. repeat (destruct HI as [HI|HI]; [injection HI as <- <- <-; split; assumption|]). destruct HI.
  Qed.
  Lemma len_in x : In x (map el (elements m rows)) -> exists y, In y (map el (elements m' rows')) /\ y == x.
  Proof. intros Hx. apply in_map_iff in Hx. destruct Hx as (e & <- & He). destruct (els_total e He) as (e' & He' & Q). exists (el e'). split; [apply in_map; exact He'|apply Q]. Qed.
  Lemma len_of i j d e : beam_element g i j d e -> exists x, In x (map el (elements m rows)) /\ x == ns e - ns d.
  Proof.
    intros HB. destruct (element_ex m g _ _ _ K HK NF _ _ _ _ HB) as (a & Ha & E1 & E2). exists (el a). split; [apply in_map; exact Ha|].
    destruct (element_inv m g _ _ _ K HK NF a Ha) as (i2 & j2 & d2 & f2 & HB2 & _ & A1 & A2 & _ & El). rewrite El.
    destruct HB as ((x1 & X1) & (x2 & X2) & _). destruct HB2 as ((z1 & Z1) & (z2 & Z2) & _).
    assert (Ei : i2 = i) by congruence. assert (Ej : j2 = j) by congruence. rewrite Ei in Z1. rewrite Ej in Z2. assert (d2 = d) by congruence. assert (f2 = e) by congruence. subst. reflexivity.
  Qed.
  Lemma stiff_in : mat_in N tau K K'.
  Proof.
    destruct (K_form m g _ _ _ K HK NF) as (mn & mx & lo & hi & MN & MX & ELo & EHi & EK).
    destruct (K_form m' g' _ _ _ K' HK' NF') as (mn' & mx' & lo' & hi' & MN' & MX' & ELo' & EHi' & EK').
    destruct els_matched as (q & r & QP & QF & QO).
    assert (LS : forall e e', In e (elements m rows) -> In e' (elements m' rows') -> el e' == el e ->
      interp2 (Qmin mn' lo') (Qmax mx' hi') lo' hi' (el e') == interp2 (Qmin mn lo) (Qmax mx hi) lo hi (el e)).
    { intros e e' He He' EE. destruct Hspan as [[E1 E2]|SP].
      - rewrite E1 in ELo, Hmin. rewrite E2 in EHi, Hmax. destruct lmin'; [destruct Hmin|]. destruct lmax'; [destruct Hmax|].
        pose proof (proj2 MN _ (in_map el _ _ He)). pose proof (proj2 MX _ (in_map el _ _ He)). pose proof (proj2 MN' _ (in_map el _ _ He')). pose proof (proj2 MX' _ (in_map el _ _ He')).
        rewrite (interp_same mn mx lo hi (el e)), (interp_same mn' mx' lo' hi' (el e')); auto; subst lo hi lo' hi'; reflexivity.
      - assert (ONE : forall y, In y (map el (elements m' rows')) -> (exists x, In x (map el (elements m rows)) /\ x <= y) /\ (exists x, In x (map el (elements m rows)) /\ y <= x)).
        { intros y Hy. apply in_map_iff in Hy. destruct Hy as (a & <- & Ha). destruct (element_inv m' g' _ _ _ K' HK' NF' a Ha) as (i & j & d & f & HB & _ & _ & _ & _ & El).
          destruct (SP i j d f HB) as [(i1 & j1 & d1 & e1 & B1 & L1) (i2 & j2 & d2 & e2 & B2 & L2)].
          destruct (len_of _ _ _ _ B1) as (x1 & X1 & Y1). destruct (len_of _ _ _ _ B2) as (x2 & X2 & Y2).
          split; [exists x1|exists x2]; (split; [assumption|rewrite El; lra]). }
        assert (M1 : mn' == mn).
        { destruct MN as [A1 A2], MN' as [B1 B2]. destruct (len_in mn A1) as (y & Hy & Ey). destruct (proj1 (ONE mn' B1)) as (x & Hx & Ex). pose proof (B2 y Hy). pose proof (A2 x Hx). lra. }
        assert (M2 : mx' == mx).
        { destruct MX as [A1 A2], MX' as [B1 B2]. destruct (len_in mx A1) as (y & Hy & Ey). destruct (proj2 (ONE mx' B1)) as (x & Hx & Ex). pose proof (B2 y Hy). pose proof (A2 x Hx). lra. }
        assert (M3 : lo' == lo).
        { rewrite ELo, ELo'. destruct lmin, lmin'; simpl in Hmin; try contradiction; [rewrite Hmin; cbn; ring|exact M1]. }
        assert (M4 : hi' == hi).
        { rewrite EHi, EHi'. destruct lmax, lmax'; simpl in Hmax; try contradiction; [rewrite Hmax; cbn; ring|exact M2]. }
        assert (SC : forall x y, y == x -> scq no_units x y) by (intros x y H; unfold scq; cbn; rewrite H; ring).
        pose proof (sc_interp no_units no_units_ok (Qmin mn lo) (Qmax mx hi) lo hi (el e) (Qmin mn' lo') (Qmax mx' hi') lo' hi' (el e')
          (sc_min no_units no_units_ok _ _ _ _ (SC _ _ M1) (SC _ _ M3)) (sc_max no_units no_units_ok _ _ _ _ (SC _ _ M2) (SC _ _ M4)) (SC _ _ M3) (SC _ _ M4)
          (SC _ _ EE)) as X. unfold scq in X. rewrite X. cbn [no_units un_len]. ring. }
    set (B' := fun e => block cp' (ei e) (ej e) (ef e) (interp2 (Qmin mn' lo') (Qmax mx' hi') lo' hi' (el e))) in *.
    exists (flat_map B' q), (flat_map B' r). split; [|split].
    - rewrite EK'. rewrite <- flat_map_app. apply Permutation_flat_map. exact QP.
    - rewrite EK. assert (QI : forall y, In y q -> In y (elements m' rows')) by (intros y Hy; apply (Permutation_in _ QP); apply in_or_app; left; exact Hy).
      clear EK EK' QP QO. assert (EI : forall e, In e (elements m rows) -> In e (elements m rows)) by auto. revert EI QI. revert QF. generalize (elements m rows) at 1 2 4 as l. intros l QF.
      induction QF as [|e e' l q RE QF IH]; intros EI QI; [exists []; split; constructor|]. cbn [flat_map]. apply rn_app.
      + apply block_in; [exact RE|]. apply LS; [apply EI; left; auto|apply QI; left; auto|apply RE].
      + apply IH; [intros; apply EI; right; auto|intros; apply QI; right; auto].
    - intros a c v HI. apply in_flat_map in HI. destruct HI as (y & Hy & HI). destruct (QO y Hy) as (L1 & L2 & O). apply (block_out _ _ _ _ _ L1 L2 O a c v HI).
  Qed.

  (** *** contact rows *)
  Lemma contact_in (f f' : nat * nat * num -> nat * nat * num) :
    (forall p p', prl p p' -> mat_rn tau none (map f (four p)) (map f' (four p'))) ->
    (forall p', In p' (indexed ps') -> (forall i, (i < n)%nat -> fst (snd p') <> rho i /\ snd (snd p') <> rho i) -> outside N tau (map f' (four p'))) ->
    mat_in N tau (map f (c_matrix ps)) (map f' (c_matrix ps')).
  Proof.
    intros H O. destruct pairs_matched as (q & r & QP & QF & QO).
    exists (flat_map (fun p => map f' (four p)) q), (flat_map (fun p => map f' (four p)) r). split; [|split].
    - rewrite <- flat_map_app, <- map_flat. apply Permutation_map. etransitivity; [|symmetry; apply c_flat]. apply Permutation_flat_map. exact QP.
    - apply (rn_perm_l tau none (flat_map (fun p => map f (four p)) (indexed ps))); [|rewrite <- map_flat; apply Permutation_map; symmetry; apply c_flat].
      apply (rn_flat tau none prl); [|exact QF]. intros a b _ Hab. apply H. exact Hab.
    - intros a c v HI. apply in_flat_map in HI. destruct HI as (y & Hy & HI). apply (O y) with (v := v); [|apply (QO y Hy)|exact HI].
      apply (Permutation_in _ QP). apply in_or_app. right. exact Hy.
  Qed.
  Lemma bmat_in : mat_in N tau (bmat nu K (csC cs)) (bmat nu' K' (csC cs')).
  Proof.
    rewrite (csC_eq m g cs HC), (csC_eq m' g' cs' HC'). unfold bmat. apply in_app_mat; [exact stiff_in|].
    assert (OUT : forall k' i' j', In (k', (i', j')) (indexed ps') -> (forall i, (i < n)%nat -> i' <> rho i /\ j' <> rho i) -> forall i, (i < N)%nat ->
      (2 * i')%nat <> tau i /\ (2 * j')%nat <> tau i /\ (nu' + 3 * k')%nat <> tau i /\ (nu' + (3 * k' + 1))%nat <> tau i /\ (nu' + (3 * k' + 2))%nat <> tau i).
    { intros k' i' j' HI O i Li. apply indexed_in in HI. destruct (pair_lt m' g' cs' HC' NF' k' i' j' HI) as (_ & A & B & _).
      split; [rewrite <- (Nat.add_0_r (2 * i')); apply out_node; auto; try lia; intros a La; apply (O a La)|].
      split; [rewrite <- (Nat.add_0_r (2 * j')); apply out_node; auto; try lia; intros a La; apply (O a La)|].
      split; [rewrite <- (Nat.add_0_r (3 * k')); apply (out_row k' 0 i' j'); auto; try lia; intros a La; apply (O a La)|].
      split; apply (out_row k' _ i' j'); auto; intros a La; apply (O a La). }
    apply in_app_mat.
    - apply contact_in.
      + intros [k [i j]] [k' [i' j']] (E & E1 & E2 & E3). cbn [fst snd] in *. subst k' i' j'. destruct (pair_bounds i j (nth_error_In _ _ E)) as [Li Lj].
        eexists. split; [reflexivity|]. unfold four. cbn [map fst snd].
        pose proof (tau_row k 0 ltac:(lia)) as T0. pose proof (tau_row k 1 ltac:(lia)) as T1. pose proof (tau_row k 2 ltac:(lia)) as T2. rewrite !Nat.add_0_r in T0.
        repeat (apply Forall2_cons; [unfold erel; cbn [fst snd]; rewrite ?tau_disp, ?T0, ?T1, ?T2 by assumption; cbn [none xorb flip]; auto using neqv_refl|]).
        constructor.
      + intros [k' [i' j']] HI O a c v HE i Li. cbn [fst snd] in O. destruct (OUT k' i' j' HI O i Li) as (O1 & O2 & O3 & O4 & O5).
        unfold four in HE. cbn [map fst snd In] in HE. repeat (destruct HE as [HE|HE]; [injection HE as <- <- <-; split; assumption|]). destruct HE.
    - apply contact_in.
      + intros [k [i j]] [k' [i' j']] (E & E1 & E2 & E3). cbn [fst snd] in *. subst k' i' j'. destruct (pair_bounds i j (nth_error_In _ _ E)) as [Li Lj].
        eexists. split; [reflexivity|]. unfold four. cbn [map fst snd].
        pose proof (tau_row k 0 ltac:(lia)) as T0. pose proof (tau_row k 1 ltac:(lia)) as T1. pose proof (tau_row k 2 ltac:(lia)) as T2. rewrite !Nat.add_0_r in T0.
        repeat (apply Forall2_cons; [unfold erel; cbn [fst snd]; rewrite ?tau_disp, ?T0, ?T1, ?T2 by assumption; cbn [none xorb flip]; auto using neqv_refl|]).
        constructor.
      + intros [k' [i' j']] HI O a c v HE i Li. cbn [fst snd] in O. destruct (OUT k' i' j' HI O i Li) as (O1 & O2 & O3 & O4 & O5).
        unfold four in HE. cbn [map fst snd In] in HE. repeat (destruct HE as [HE|HE]; [injection HE as <- <- <-; split; assumption|]). destruct HE.
  Qed.

  (** *** bounds *)
  Lemma thick_in i d d' h h' : is_node rows i d -> is_node rows' (rho i) d' -> thick m d h -> thick m' d' h' -> h' == h.
  Proof.
    intros A B (f & F & <-) (f' & F' & <-). destruct HR as (_ & _ & HN & _). destruct (HN i d d' A B) as (_ & HS).
    destruct (HS f f' F F') as (_ & E & _). rewrite E. cbn. ring.
  Qed.
  Lemma height_in i d d' : is_node rows i d -> is_node rows' (rho i) d' -> nz d' == nz d.
  Proof. intros A B. destruct HR as (_ & _ & HN & _). apply (HN i d d' A B). Qed.
  Lemma top_in : csZ cs <= csZ cs'.
  Proof.
    destruct (top_spec m g cs HC) as [A1 (i & d & h & A2 & A3 & A4)]. destruct (top_spec m' g' cs' HC') as [B1 _].
    destruct (nex' i (nlt i d A2)) as (e & He). destruct (thick_ex m' g' cs' HC' _ _ He) as (k & Hk & _).
    pose proof (B1 _ _ _ He Hk). rewrite (height_in i d e A2 He), (thick_in i d e h k A2 He A3 Hk) in H. lra.
  Qed.
  (** bounds, up to the height of the lid *)
  Lemma bound_in k i j a : nth_error ps k = Some (i, j) -> (a < 3)%nat ->
    exists b b', nth_error (csH cs) (3 * k + a) = Some b /\ nth_error (csH cs') (3 * kap k + a) = Some b' /\
      neqv (nadd b (Fin (if Nat.eqb a 2 then csZ cs' - csZ cs else 0))) b'.
  Proof.
    intros E La. pose proof (kap_at k i j E) as E'.
    destruct (cons_inv m g cs HC) as (_ & _ & _ & t0 & t & _ & EC). destruct (cons_inv m' g' cs' HC') as (_ & _ & _ & t0' & t' & _ & EC').
    assert (H1 : csH cs = flat_map (h_rows (map snd rows) (h_column m (map snd rows)) (csZ cs)) ps) by (rewrite EC; reflexivity).
    assert (H2 : csH cs' = flat_map (h_rows (map snd rows') (h_column m' (map snd rows')) (csZ cs')) ps') by (rewrite EC'; reflexivity).
    rewrite H1, H2. clear EC EC' H1 H2. rewrite !flat3_nth by (auto; reflexivity). rewrite E, E'.
    destruct (pair_bounds i j (nth_error_In _ _ E)) as [Li Lj]. destruct (nex i Li) as (d & Hd). destruct (nex j Lj) as (e & He).
    destruct (nex' i Li) as (d' & Hd'). destruct (nex' j Lj) as (e' & He').
    destruct (thick_ex m g cs HC _ _ Hd) as (hd & Td & _). destruct (thick_ex m g cs HC _ _ He) as (he & Te & _).
    destruct (thick_ex m' g' cs' HC' _ _ Hd') as (hd' & Td' & _). destruct (thick_ex m' g' cs' HC' _ _ He') as (he' & Te' & _).
    unfold h_rows. cbn [fst snd]. rewrite (nth_ds g i d Hd), (nth_ds g j e He), (nth_ds g' _ d' Hd'), (nth_ds g' _ e' He').
    rewrite (nth_h m g cs HC i d hd Hd Td), (nth_h m g cs HC j e he He Te), (nth_h m' g' cs' HC' _ d' hd' Hd' Td'), (nth_h m' g' cs' HC' _ e' he' He' Te').
    pose proof (height_in i d d' Hd Hd') as Z1. pose proof (height_in j e e' He He') as Z2. pose proof (thick_in i d d' _ _ Hd Hd' Td Td') as T1. pose proof (thick_in j e e' _ _ He He' Te Te') as T2.
    destruct a as [|[|[|a]]]; [| | |lia]; cbn [nth_error Nat.eqb]; (eexists; eexists; split; [reflexivity|]; split; [reflexivity|]).
    - cbn [nadd neqv]. rewrite Z1, T1. ring.
    - destruct (Nat.eqb_spec i j) as [->|Ne]; [rewrite Nat.eqb_refl; exact I|].
      destruct (Nat.eqb_spec (rho i) (rho j)) as [X|_]; [exfalso; apply Ne; apply rho_inj; auto|]. cbn [nadd neqv]. rewrite Z1, Z2, T1, T2. ring.
    - cbn [nadd neqv]. rewrite Z2, T2. ring.
  Qed.
  Lemma rate_in k a : (k < length ps)%nat -> (a < 3)%nat -> nth_error (csdH cs) (3 * k + a) = Some (Fin (if Nat.eqb a 2 then 1 else 0)) /\
    nth_error (csdH cs') (3 * kap k + a) = Some (Fin (if Nat.eqb a 2 then 1 else 0)).
  Proof.
    intros Lk La. rewrite (csdH_eq m g cs HC), (csdH_eq m' g' cs' HC'). rewrite !flat3_nth by (auto; reflexivity).
    destruct (nth_error ps k) as [[i j]|] eqn:E; [|apply nth_error_None in E; lia]. rewrite (kap_at k i j E).
    destruct a as [|[|[|a]]]; [| | |lia]; split; reflexivity.
  Qed.
End Data.
