(** Proofs for C104: the systems assembled for two numberings of the same mesh. *)
From Coq Require Import Permutation Sorting.Sorted Lia Lqa.
From Verif Require Import Num NumP ListX ListP Frames MatM NetM MeshM ModelM SolverM Spec SpecNet SpecMesh SpecModel SpecSolver SpecPerm
  SpecScale SpecProgress SpecRename MeshCheckP StiffP ConstraintP SolverP SolverRunP SolverSysP SolverApiP SolverFinP PermP ScaleP ProgressFinP RenameMatP RenameRunP.
Open Scope Q_scope.

Lemma NoDup_map_filter {A B} (f : A -> B) p l : NoDup (map f l) -> NoDup (map f (filter p l)).
Proof.
  induction l as [|a l IH]; intros H; [constructor|]. inversion H; subst. cbn [filter]. destruct (p a); [|apply IH; auto]. cbn [map].
  constructor; [|apply IH; auto]. intros K. apply in_map_iff in K. destruct K as (b & E & Hb). apply filter_In in Hb. apply H2. rewrite <- E. apply in_map. apply Hb.
Qed.
Lemma NoDup_map_inj {A B} (f : A -> B) l a b : NoDup (map f l) -> In a l -> In b l -> f a = f b -> a = b.
Proof.
  induction l as [|c l IH]; intros N Ha Hb E; [destruct Ha|]. inversion N; subst.
  destruct Ha as [->|Ha], Hb as [->|Hb]; auto.
  - exfalso. apply H1. rewrite E. apply in_map. exact Hb.
  - exfalso. apply H1. rewrite <- E. apply in_map. exact Ha.
Qed.
Lemma labels_nodup rows : labelled_in_order rows -> NoDup (map (fun r : Z * node => Z.to_nat (fst r)) rows).
Proof.
  intros H. replace (map (fun r : Z * node => Z.to_nat (fst r)) rows) with (seq 0 (length rows)); [apply seq_NoDup|].
  apply nth_ext with (d := 0%nat) (d' := 0%nat); [rewrite seq_length, map_length; reflexivity|]. intros i L. rewrite seq_length in L.
  rewrite seq_nth by exact L. rewrite (nth_of (map _ rows)), nth_error_map. destruct (nth_error rows i) as [[lab d]|] eqn:E; [|apply nth_error_None in E; lia].
  cbn. rewrite (H i lab d E). rewrite Nat2Z.id. reflexivity.
Qed.
Lemma div2_even i : ((2 * i) / 2 = i)%nat.
Proof. rewrite Nat.mul_comm. apply Nat.div_mul. lia. Qed.
Lemma div2_odd i : ((2 * i + 1) / 2 = i)%nat.
Proof. symmetry. apply (Nat.div_unique _ 2 i 1); lia. Qed.
Lemma mod2_even i : ((2 * i) mod 2 = 0)%nat.
Proof. symmetry. apply (Nat.mod_unique _ 2 i 0); lia. Qed.
Lemma mod2_odd i : ((2 * i + 1) mod 2 = 1)%nat.
Proof. symmetry. apply (Nat.mod_unique _ 2 i 1); lia. Qed.
Lemma div3 k a : (a < 3)%nat -> ((3 * k + a) / 3 = k)%nat /\ ((3 * k + a) mod 3 = a)%nat.
Proof. intros H. split; symmetry; [apply (Nat.div_unique _ 3 k a)|apply (Nat.mod_unique _ 3 k a)]; lia. Qed.
Lemma split3 r : exists k a, (r = 3 * k + a /\ a < 3)%nat.
Proof. exists (r / 3)%nat, (r mod 3)%nat. split; [apply Nat.div_mod; lia|apply Nat.mod_upper_bound; lia]. Qed.
Lemma split2 r : exists i, (r = 2 * i \/ r = 2 * i + 1)%nat.
Proof. destruct (Nat.Even_or_Odd r) as [(i & E)|(i & E)]; exists i; lia. Qed.

Section Data.
  Variable R : renaming.
  Variables m m' : qmat.
  Variables g g' : mesh_df.
  Hypothesis HR : mesh_renamed R m m' g g'.
  Variables lmin lmin' lmax lmax' : option Q.
  Variables cp cp' : Q.
  Variables K K' : ncoo.
  Variables cs cs' : csys.
  Hypothesis HK : stiffness m g lmin lmax cp = Ok K.
  Hypothesis HK' : stiffness m' g' lmin' lmax' cp' = Ok K'.
  Hypothesis HC : constraint m g = Ok cs.
  Hypothesis HC' : constraint m' g' = Ok cs'.
  Hypothesis NF : ~ flag_set (g_attrs g).
  Hypothesis NF' : ~ flag_set (g_attrs g').
  Hypothesis Hmin : option_in no_units lmin lmin'.
  Hypothesis Hmax : option_in no_units lmax lmax'.
  Hypothesis Hcp : cp' == cp.
  Notation rows := (g_rows g).
  Notation rows' := (g_rows g').
  Notation n := (length (g_rows g)).
  Notation rho := (rn_node R).
  Notation ps := (cons_pairs (g_rows g)).
  Notation ps' := (cons_pairs (g_rows g')).
  Notation nu := (2 * length (g_rows g))%nat.
  Notation N := (2 * length (g_rows g) + 3 * length (cons_pairs (g_rows g)))%nat.

  Lemma lab : labelled_in_order rows. Proof. apply (labelled m g _ _ _ K HK NF). Qed.
  Lemma lab' : labelled_in_order rows'. Proof. apply (labelled m' g' _ _ _ K' HK' NF'). Qed.
  Lemma len : length rows' = n. Proof. exact (proj1 HR). Qed.
  Lemma rho_lt i : (i < n)%nat -> (rho i < n)%nat. Proof. exact (proj1 (proj1 (proj2 HR)) i). Qed.
  Lemma rho_inj i j : (i < n)%nat -> (j < n)%nat -> rho i = rho j -> i = j. Proof. exact (proj2 (proj1 (proj2 HR)) i j). Qed.
  Lemma nfun i d e : is_node rows i d -> is_node rows i e -> d = e. Proof. intros (a & A) (b & B). congruence. Qed.
  Lemma nfun' i d e : is_node rows' i d -> is_node rows' i e -> d = e. Proof. intros (a & A) (b & B). congruence. Qed.
  Lemma nlt i d : is_node rows i d -> (i < n)%nat. Proof. apply SolverSysP.node_lt. Qed.
  Lemma nex i : (i < n)%nat -> exists d, is_node rows i d.
  Proof. intros H. destruct (nth_error rows i) as [[k d]|] eqn:E; [exists d, k; exact E|apply nth_error_None in E; lia]. Qed.
  Lemma nex' i : (i < n)%nat -> exists d, is_node rows' i d.
  Proof. intros H. rewrite <- len in H. destruct (nth_error rows' i) as [[k d]|] eqn:E; [exists d, k; exact E|apply nth_error_None in E; lia]. Qed.
  (** the node with a given new name *)
  Lemma named i' d' : is_node rows' i' d' -> exists i d, i' = rho i /\ is_node rows i d.
  Proof.
    intros H. assert (L : (i' < n)%nat) by (rewrite <- len; apply (SolverSysP.node_lt _ _ _ H)).
    destruct (inv_of_ok n rho rho_lt rho_inj) as [A _]. destruct (A i' L) as [B C]. destruct (nex _ B) as (d & Hd). exists (inv_of n rho i'), d. auto.
  Qed.
  Definition turned (i : nat) : bool := rn_back R (nf (nth i (map snd rows) node0)).
  Lemma turned_at i d : is_node rows i d -> turned i = rn_back R (nf d).
  Proof. intros (l & H). unfold turned. rewrite (nth_of (map snd rows)), nth_error_map, H. reflexivity. Qed.

  (** *** contacts *)
  Lemma contact_pair i j : contact g i j <-> In (i, j) ps.
  Proof.
    split.
    - intros (d & Hd & E & L). destruct (pair_ex m g cs HC NF i d j Hd E L) as (k & Hk). apply (nth_error_In _ k Hk).
    - intros H. apply In_nth_error in H. destruct H as (k & H). destruct (pair_inv m g cs HC NF k i j H) as (d & e & Hd & _ & E & _ & L). exists d. auto.
  Qed.
  Lemma contact_pair' i j : contact g' i j <-> In (i, j) ps'.
  Proof.
    split.
    - intros (d & Hd & E & L). destruct (pair_ex m' g' cs' HC' NF' i d j Hd E L) as (k & Hk). apply (nth_error_In _ k Hk).
    - intros H. apply In_nth_error in H. destruct H as (k & H). destruct (pair_inv m' g' cs' HC' NF' k i j H) as (d & e & Hd & _ & E & _ & L). exists d. auto.
  Qed.
  Lemma pair_bounds i j : In (i, j) ps -> (i < n /\ j < n)%nat.
  Proof. intros H. apply In_nth_error in H. destruct H as (k & H). destruct (pair_lt m g cs HC NF k i j H) as (_ & A & B & _). auto. Qed.
  Lemma pair_bounds' i j : In (i, j) ps' -> (i < n /\ j < n)%nat.
  Proof. intros H. apply In_nth_error in H. destruct H as (k & H). destruct (pair_lt m' g' cs' HC' NF' k i j H) as (_ & A & B & _). rewrite len in A, B. auto. Qed.
  Lemma pairs_rn i j : (i < n)%nat -> (j < n)%nat -> In (i, j) ps <-> In (rho i, rho j) ps'.
  Proof. intros A B. rewrite <- contact_pair, <- contact_pair'. destruct HR as (_ & _ & _ & _ & _ & H). apply H; auto. Qed.
  Lemma firsts rs : labelled_in_order rs -> NoDup (map fst (cons_pairs rs)).
  Proof.
    intros H. unfold cons_pairs. rewrite map_map. cbn [fst]. apply (NoDup_map_filter (fun r : Z * node => Z.to_nat (fst r))). apply labels_nodup. exact H.
  Qed.
  Lemma ps_nodup : NoDup ps. Proof. apply (NoDup_map_inv fst). apply firsts. apply lab. Qed.
  Lemma ps_nodup' : NoDup ps'. Proof. apply (NoDup_map_inv fst). apply firsts. apply lab'. Qed.
  Definition kap (k : nat) : nat := posn (rho (fst (nth k ps (0, 0)%nat))) (map fst ps').
  Lemma kap_at k i j : nth_error ps k = Some (i, j) -> nth_error ps' (kap k) = Some (rho i, rho j).
  Proof.
    intros H. unfold kap. rewrite (nth_of ps), H. cbn [fst]. pose proof (nth_error_In _ _ H) as HI. destruct (pair_bounds i j HI) as [Li Lj].
    apply (pairs_rn i j Li Lj) in HI. assert (HF : In (rho i) (map fst ps')) by (apply (in_map fst _ _ HI)).
    destruct (posn_in _ _ HF) as [A B]. rewrite map_length in A. rewrite (nth_of (map fst ps')), nth_error_map in B.
    destruct (nth_error ps' (posn (rho i) (map fst ps'))) as [[a b]|] eqn:E; [|apply nth_error_None in E; lia]. cbn in B. subst a.
    f_equal. apply (NoDup_map_inj fst ps'); [apply firsts; apply lab'|apply (nth_error_In _ _ E)|exact HI|reflexivity].
  Qed.
  Lemma kap_any k k' i j : nth_error ps k = Some (i, j) -> nth_error ps' k' = Some (rho i, rho j) -> k' = kap k.
  Proof.
    intros A B. pose proof (kap_at k i j A) as C. apply (proj1 (NoDup_nth_error ps') ps_nodup'); [apply nth_error_Some; congruence|congruence].
  Qed.
  Lemma kap_lt k : (k < length ps)%nat -> (kap k < length ps')%nat.
  Proof.
    intros H. destruct (nth_error ps k) as [[i j]|] eqn:E; [|apply nth_error_None in E; lia]. apply nth_error_Some. rewrite (kap_at k i j E). discriminate.
  Qed.
  Lemma kap_inj k l : (k < length ps)%nat -> (l < length ps)%nat -> kap k = kap l -> k = l.
  Proof.
    intros A B E. destruct (nth_error ps k) as [[i j]|] eqn:E1; [|apply nth_error_None in E1; lia]. destruct (nth_error ps l) as [[i2 j2]|] eqn:E2; [|apply nth_error_None in E2; lia].
    pose proof (kap_at k i j E1) as H1. pose proof (kap_at l i2 j2 E2) as H2. rewrite E in H1. rewrite H1 in H2. injection H2 as H2 H3.
    destruct (pair_bounds i j (nth_error_In _ _ E1)). destruct (pair_bounds i2 j2 (nth_error_In _ _ E2)).
    apply rho_inj in H2; auto. apply rho_inj in H3; auto. subst. apply (proj1 (NoDup_nth_error ps) ps_nodup); [exact A|congruence].
  Qed.
  Definition indexed (l : list (nat * nat)) := combine (seq 0 (length l)) l.
  Lemma indexed_in l k p : In (k, p) (indexed l) <-> nth_error l k = Some p.
  Proof.
    unfold indexed. split.
    - intros H. apply In_nth_error in H. destruct H as (a & H). rewrite indexed_nth in H. destruct (nth_error l a) eqn:E; [|discriminate H].
      injection H as <- <-. exact E.
    - intros H. apply (nth_error_In _ k). rewrite indexed_nth, H. reflexivity.
  Qed.
  Lemma indexed_nodup l : NoDup (indexed l).
  Proof.
    apply (NoDup_map_inv fst). replace (map fst (indexed l)) with (seq 0 (length l)); [apply seq_NoDup|].
    unfold indexed. generalize 0%nat as a. induction l as [|x l IH]; intros a; [reflexivity|]. cbn [length seq combine map fst]. f_equal. apply IH.
  Qed.
  Definition prl (p p' : nat * (nat * nat)) : Prop :=
    nth_error ps (fst p) = Some (snd p) /\ fst p' = kap (fst p) /\ fst (snd p') = rho (fst (snd p)) /\ snd (snd p') = rho (snd (snd p)).
  Lemma pairs_matched : exists q, Permutation q (indexed ps') /\ Forall2 prl (indexed ps) q.
  Proof.
    apply matched.
    - intros [k [i j]] H. apply indexed_in in H. exists (kap k, (rho i, rho j)). split; [apply indexed_in; apply kap_at; exact H|].
      split; [exact H|]. auto.
    - intros [k' [i' j']] H. apply indexed_in in H. pose proof (nth_error_In _ _ H) as HI. pose proof (pair_bounds' i' j' HI) as [Li Lj].
      destruct (inv_of_ok n rho rho_lt rho_inj) as [A _]. destruct (A i' Li) as [B1 C1]. destruct (A j' Lj) as [B2 C2].
      rewrite <- C1, <- C2 in HI. apply (pairs_rn _ _ B1 B2) in HI. apply In_nth_error in HI. destruct HI as (k & Hk).
      exists (k, (inv_of n rho i', inv_of n rho j')). split; [apply indexed_in; exact Hk|]. cbn [prl fst snd]. split; [exact Hk|]. cbn [fst snd].
      rewrite C1, C2. split; [|split; reflexivity]. apply (kap_any k k' _ _ Hk). rewrite C1, C2. exact H.
    - intros [k [i j]] [a [b c]] [a' [b' c']] _ _ _ (_ & A1 & A2 & A3) (_ & B1 & B2 & B3). cbn [fst snd] in *. congruence.
    - intros [k [i j]] [k2 [i2 j2]] [a [b c]] _ _ _ (A0 & A1 & A2 & A3) (B0 & B1 & B2 & B3). cbn [fst snd] in *.
      assert (E : k = k2).
      { apply kap_inj; [apply nth_error_Some; congruence|apply nth_error_Some; congruence|congruence]. }
      subst k2. congruence.
    - apply indexed_nodup.
    - apply indexed_nodup.
  Qed.
  Lemma pairs_len : length ps' = length ps.
  Proof.
    destruct pairs_matched as (q & P & F). apply Permutation_length in P. apply NetZP.Forall2_len in F. unfold indexed in P, F.
    rewrite combine_length, seq_length in P, F. lia.
  Qed.

  (** *** numbering of the unknowns *)
  Definition tau (r : nat) : nat :=
    if Nat.ltb r nu then (2 * rho (r / 2) + r mod 2)%nat else (nu + (3 * kap ((r - nu) / 3) + (r - nu) mod 3))%nat.
  Definition sig (r : nat) : bool := if Nat.ltb r nu then Nat.odd r && turned (r / 2) else false.
  Lemma tau_disp i : (i < n)%nat -> tau (2 * i) = (2 * rho i)%nat.
  Proof. intros L. unfold tau. rewrite (proj2 (Nat.ltb_lt (2 * i) nu)) by lia. rewrite div2_even, mod2_even. lia. Qed.
  Lemma tau_rot i : (i < n)%nat -> tau (2 * i + 1) = (2 * rho i + 1)%nat.
  Proof. intros L. unfold tau. rewrite (proj2 (Nat.ltb_lt (2 * i + 1) nu)) by lia. rewrite div2_odd, mod2_odd. lia. Qed.
  Lemma tau_row k a : (a < 3)%nat -> tau (nu + (3 * k + a)) = (nu + (3 * kap k + a))%nat.
  Proof.
    intros L. unfold tau. rewrite (proj2 (Nat.ltb_ge (nu + (3 * k + a)) nu)) by lia. replace (nu + (3 * k + a) - nu)%nat with (3 * k + a)%nat by lia.
    destruct (div3 k a L) as [-> ->]. reflexivity.
  Qed.
  Lemma sig_disp i : sig (2 * i) = false.
  Proof. unfold sig. destruct (Nat.ltb _ _); auto. rewrite Nat.odd_mul. reflexivity. Qed.
  Lemma sig_rot i : (i < n)%nat -> sig (2 * i + 1) = turned i.
  Proof.
    intros L. unfold sig. rewrite (proj2 (Nat.ltb_lt (2 * i + 1) nu)) by lia. rewrite div2_odd, Nat.odd_add, Nat.odd_mul. reflexivity.
  Qed.
  Lemma sig_row r : (nu <= r)%nat -> sig r = false.
  Proof. intros L. unfold sig. rewrite (proj2 (Nat.ltb_ge r nu) L). reflexivity. Qed.
  (** the unknowns one by one *)
  Lemma unknown r : (r < N)%nat -> (exists i, (i < n)%nat /\ (r = 2 * i \/ r = 2 * i + 1)%nat) \/
    (exists k a, (k < length ps)%nat /\ (a < 3)%nat /\ (r = nu + (3 * k + a))%nat).
  Proof.
    intros L. destruct (Nat.lt_ge_cases r nu) as [U|U].
    - left. destruct (split2 r) as (i & E). exists i. split; [lia|exact E].
    - right. destruct (split3 (r - nu)) as (k & a & E & A). exists k, a. split; [lia|]. split; [exact A|]. lia.
  Qed.
  Lemma tau_up r : (r < nu)%nat -> (tau r < nu)%nat.
  Proof.
    intros L. destruct (split2 r) as (i & [->| ->]).
    - rewrite tau_disp by lia. pose proof (rho_lt i). lia.
    - rewrite tau_rot by lia. pose proof (rho_lt i). lia.
  Qed.
  Lemma tau_low r : (nu <= r)%nat -> (nu <= tau r)%nat.
  Proof. intros L. unfold tau. rewrite (proj2 (Nat.ltb_ge r nu) L). lia. Qed.
  Lemma tau_lt r : (r < N)%nat -> (tau r < N)%nat.
  Proof.
    intros L. destruct (unknown r L) as [(i & Li & [->| ->])|(k & a & Lk & La & ->)].
    - pose proof (tau_up (2 * i)). lia.
    - pose proof (tau_up (2 * i + 1)). lia.
    - rewrite tau_row by exact La. pose proof (kap_lt k Lk). rewrite pairs_len in *. lia.
  Qed.
  Lemma tau_inj r t : (r < N)%nat -> (t < N)%nat -> tau r = tau t -> r = t.
  Proof.
    intros L M E. destruct (Nat.lt_ge_cases r nu) as [U|U], (Nat.lt_ge_cases t nu) as [W|W].
    - destruct (split2 r) as (i & Ei), (split2 t) as (j & Ej). assert (Li : (i < n)%nat) by lia. assert (Lj : (j < n)%nat) by lia.
      destruct Ei as [->| ->], Ej as [->| ->]; rewrite ?tau_disp, ?tau_rot in E by assumption; try (exfalso; lia);
        assert (X : rho i = rho j) by lia; apply rho_inj in X; auto; subst; reflexivity.
    - pose proof (tau_up r U). pose proof (tau_low t W). lia.
    - pose proof (tau_low r U). pose proof (tau_up t W). lia.
    - destruct (unknown r L) as [(i & Li & X)|(k & a & Lk & La & ->)]; [lia|]. destruct (unknown t M) as [(i & Li & X)|(l & b & Ll & Lb & ->)]; [lia|].
      rewrite !tau_row in E by assumption. assert (X : kap k = kap l /\ a = b) by lia. destruct X as [X ->]. assert (Y : k = l) by (apply kap_inj; auto). subst l. reflexivity.
  Qed.

  (** *** beams *)
  Lemma els_nodup mm rs : labelled_in_order rs -> NoDup (map ei (elements mm rs)).
  Proof.
    intros H. unfold elements. rewrite map_map. cbn [ei]. apply (NoDup_map_filter (fun r : Z * node => Z.to_nat (fst r))). apply labels_nodup. exact H.
  Qed.
  Definition erl (e e' : elem) : Prop :=
    turned (ei e) = turned (ej e) /\ (ei e < n)%nat /\ (ej e < n)%nat /\
    (if turned (ei e) then ei e' = rho (ej e) /\ ej e' = rho (ei e) else ei e' = rho (ei e) /\ ej e' = rho (ej e)) /\
    fiber_seen no_units (ef e) (ef e') /\ el e' == el e.
  Lemma els_total e : In e (elements m rows) -> exists e', In e' (elements m' rows') /\ erl e e'.
  Proof.
    intros H. destruct (element_inv m g _ _ _ K HK NF e H) as (i & j & d & f & HB & Ef & Ei & Ej & HF & El).
    pose proof HB as (Hi & Hj & _ & _). pose proof (nlt i d Hi) as Li. pose proof (nlt j f Hj) as Lj.
    destruct (nex' (rho i) (rho_lt i Li)) as (d' & Hi'). destruct (nex' (rho j) (rho_lt j Lj)) as (f' & Hj').
    destruct HR as (_ & _ & _ & HN & HBm & _). pose proof (HBm i j d f d' f' Hi Hj Hi' Hj') as X. pose proof (turned_at i d Hi) as Ti. pose proof (turned_at j f Hj) as Tj. rewrite Ef in Ti.
    rewrite Ef in X. unfold erl. rewrite Ei, Ej. rewrite Ti, Tj. destruct (rn_back R (nf f)) eqn:B.
    - destruct X as [X1 X2]. apply X1 in HB as HB'. destruct (element_ex m' g' _ _ _ K' HK' NF' _ _ _ _ HB') as (e' & He' & Ei' & Ej').
      exists e'. split; [exact He'|]. split; [reflexivity|]. split; [exact Li|]. split; [exact Lj|]. split; [split; assumption|].
      destruct (element_inv m' g' _ _ _ K' HK' NF' e' He') as (a & b & x & y & (Ha & Hb & _) & Exy & Ea & Eb & HF' & El').
      assert (a = rho j) by congruence. assert (b = rho i) by congruence. subst a b. rewrite H0 in Ha. rewrite H1 in Hb.
      pose proof (nfun' _ _ _ Ha Hj'). pose proof (nfun' _ _ _ Hb Hi'). subst x y. split; [|rewrite El, El'; apply X2; exact HB].
      destruct (HN j f f' Hj Hj') as (_ & _ & HS). apply HS; [rewrite <- Ef; exact HF|exact HF'].
    - destruct X as [X1 X2]. apply X1 in HB as HB'. destruct (element_ex m' g' _ _ _ K' HK' NF' _ _ _ _ HB') as (e' & He' & Ei' & Ej').
      exists e'. split; [exact He'|]. split; [reflexivity|]. split; [exact Li|]. split; [exact Lj|]. split; [split; assumption|].
      destruct (element_inv m' g' _ _ _ K' HK' NF' e' He') as (a & b & x & y & (Ha & Hb & _) & Exy & Ea & Eb & HF' & El').
      assert (a = rho i) by congruence. assert (b = rho j) by congruence. subst a b. rewrite H0 in Ha. rewrite H1 in Hb.
      pose proof (nfun' _ _ _ Ha Hi'). pose proof (nfun' _ _ _ Hb Hj'). subst x y. split; [|rewrite El, El'; apply X2; exact HB].
      destruct (HN i d d' Hi Hi') as (_ & _ & HS). apply HS; [exact HF|exact HF'].
  Qed.
  Lemma els_onto e' : In e' (elements m' rows') -> exists e, In e (elements m rows) /\ erl e e'.
  Proof.
    intros H. destruct (element_inv m' g' _ _ _ K' HK' NF' e' H) as (i' & j' & d' & f' & HB & Ef & Ei & Ej & HF & El).
    pose proof HB as (Hi' & Hj' & _ & _). destruct (named i' d' Hi') as (i & d & -> & Hi). destruct (named j' f' Hj') as (j & f & -> & Hj).
    destruct HR as (_ & _ & PI & HN & HBm & _).
    assert (EF : nf d = nf f).
    { apply PI. destruct (HN i d d' Hi Hi') as (A & _). destruct (HN j f f' Hj Hj') as (B & _). congruence. }
    pose proof (HBm i j d f d' f' Hi Hj Hi' Hj') as X. pose proof (HBm j i f d f' d' Hj Hi Hj' Hi') as Y. rewrite <- EF in Y.
    destruct (rn_back R (nf d)) eqn:B.
    - apply (proj1 Y) in HB as HB0. destruct (element_ex m g _ _ _ K HK NF _ _ _ _ HB0) as (e & He & Ee & Ee2). exists e. split; [exact He|].
      destruct (els_total e He) as (e2 & He2 & Q). assert (e2 = e'); [|subst; exact Q].
      apply (NoDup_map_inj ei (elements m' rows')); [apply els_nodup; apply lab'|exact He2|exact H|]. destruct Q as (_ & _ & _ & Q & _).
      rewrite Ee, Ee2, (turned_at j f Hj), <- EF, B in Q. rewrite (proj1 Q). congruence.
    - apply (proj1 X) in HB as HB0. destruct (element_ex m g _ _ _ K HK NF _ _ _ _ HB0) as (e & He & Ee & Ee2). exists e. split; [exact He|].
      destruct (els_total e He) as (e2 & He2 & Q). assert (e2 = e'); [|subst; exact Q].
      apply (NoDup_map_inj ei (elements m' rows')); [apply els_nodup; apply lab'|exact He2|exact H|]. destruct Q as (_ & _ & _ & Q & _).
      rewrite Ee, Ee2, (turned_at i d Hi), B in Q. rewrite (proj1 Q). congruence.
  Qed.
  Lemma els_matched : exists q, Permutation q (elements m' rows') /\ Forall2 erl (elements m rows) q.
  Proof.
    apply matched.
    - apply els_total.
    - apply els_onto.
    - intros x y y' _ Hy Hy' (_ & _ & _ & A & _) (_ & _ & _ & B & _). apply (NoDup_map_inj ei (elements m' rows')); auto; [apply els_nodup; apply lab'|].
      destruct (turned (ei x)); destruct A, B; congruence.
    - intros x x' y Hx Hx' _ (T & L1 & L2 & A & _) (T' & L1' & L2' & B & _). apply (NoDup_map_inj ei (elements m rows)); auto; [apply els_nodup; apply lab|].
      destruct (turned (ei x)) eqn:C, (turned (ei x')) eqn:D; destruct A as [A1 A2], B as [B1 B2].
      + apply rho_inj; auto; congruence.
      + exfalso. assert (ei x = ej x') by (apply rho_inj; auto; congruence). congruence.
      + exfalso. assert (ei x = ej x') by (apply rho_inj; auto; congruence). congruence.
      + apply rho_inj; auto; congruence.
    - apply (NoDup_map_inv ei). apply els_nodup. apply lab.
    - apply (NoDup_map_inv ei). apply els_nodup. apply lab'.
  Qed.

  (** *** stiffness *)
  Lemma one_eqv a x y : a == 1 -> times a x y -> neqv x y.
  Proof. intros E H. apply t_eqv. apply (t_ext a); auto. Qed.
  Lemma block_rn e e' l l' : erl e e' -> l' == l ->
    mat_rn tau sig (block cp (ei e) (ej e) (ef e) l) (block cp' (ei e') (ej e') (ef e') l').
  Proof.
    intros (T & Li & Lj & E & HF & _) Hl. assert (SL : scq no_units l l') by (unfold scq; cbn; rewrite Hl; ring).
    assert (U : un_mod no_units * un_len no_units == 1 /\ un_mod no_units * un_len no_units * un_len no_units == 1 /\
      un_mod no_units * un_len no_units * un_len no_units * un_len no_units == 1) by (cbn; repeat split; reflexivity). destruct U as (U1 & U2 & U3).
    pose proof (one_eqv _ _ _ U1 (sc_k0 no_units no_units_ok _ _ _ _ HF SL)) as K0.
    pose proof (one_eqv _ _ _ U2 (sc_k1 no_units no_units_ok _ _ _ _ _ _ Hcp HF SL)) as K1.
    pose proof (one_eqv _ _ _ U3 (sc_k2 no_units no_units_ok _ _ _ _ HF SL)) as K2.
    pose proof (one_eqv _ _ _ U3 (sc_k4 no_units no_units_ok _ _ _ _ HF SL)) as K4.
    unfold block. set (k0 := k0_of (ef e) l) in *. set (k1 := k1_of cp (ef e) l) in *. set (k2 := k2_of (ef e) l) in *. set (k4 := k4_of (ef e) l) in *.
    set (k0' := k0_of (ef e') l') in *. set (k1' := k1_of cp' (ef e') l') in *. set (k2' := k2_of (ef e') l') in *. set (k4' := k4_of (ef e') l') in *.
    clearbody k0 k1 k2 k4 k0' k1' k2' k4'. set (i := ei e) in *. set (j := ej e) in *. clearbody i j.
    pose proof (nopp_eqv _ _ K0) as O0. pose proof (nopp_eqv _ _ K1) as O1. pose proof (nopp_eqv _ _ K4) as O4.
    assert (N1 : neqv (nopp (nopp k1)) k1') by (etransitivity; [apply nopp_nopp|exact K1]).
    assert (SI : sig (2 * i + 1) = turned i) by (apply sig_rot; exact Li). assert (SJ : sig (2 * j + 1) = turned i) by (rewrite sig_rot by exact Lj; symmetry; exact T).
    destruct (turned i); destruct E as [-> ->].
    - set (a := (2 * rho i)%nat). set (b := (2 * rho i + 1)%nat). set (c := (2 * rho j)%nat). set (d := (2 * rho j + 1)%nat).
      exists (([(a, a, k0'); (a, b, nopp k1'); (a, c, nopp k0'); (a, d, nopp k1')] ++
               [(b, a, nopp k1'); (b, b, k2'); (b, c, k1'); (b, d, nopp k4')]) ++
              ([(c, a, nopp k0'); (c, b, k1'); (c, c, k0'); (c, d, k1')] ++
               [(d, a, nopp k1'); (d, b, nopp k4'); (d, c, k1'); (d, d, k2')])). split.
      + change (Permutation (([(a, a, k0'); (a, b, nopp k1')] ++ [(a, c, nopp k0'); (a, d, nopp k1')]) ++
          ([(b, a, nopp k1'); (b, b, k2')] ++ [(b, c, k1'); (b, d, nopp k4')]) ++
          ([(c, a, nopp k0'); (c, b, k1')] ++ [(c, c, k0'); (c, d, k1')]) ++
          ([(d, a, nopp k1'); (d, b, nopp k4')] ++ [(d, c, k1'); (d, d, k2')]))
         ((([(c, c, k0'); (c, d, k1')] ++ [(c, a, nopp k0'); (c, b, k1')]) ++ ([(d, c, k1'); (d, d, k2')] ++ [(d, a, nopp k1'); (d, b, nopp k4')])) ++
          (([(a, c, nopp k0'); (a, d, nopp k1')] ++ [(a, a, k0'); (a, b, nopp k1')]) ++ ([(b, c, k1'); (b, d, nopp k4')] ++ [(b, a, nopp k1'); (b, b, k2')])))).
        rewrite (app_assoc (_ ++ _) (_ ++ _) (_ ++ _)). etransitivity; [apply Permutation_app_comm|].
        apply Permutation_app; apply Permutation_app; apply Permutation_app_comm.
      + cbn [app]. repeat (apply Forall2_cons; [unfold erel; cbn [fst snd]; rewrite ?tau_disp, ?tau_rot by assumption; rewrite ?sig_disp, ?SI, ?SJ; cbn [xorb flip]; auto|]).
        constructor.
    - eexists. split; [reflexivity|].
      repeat (apply Forall2_cons; [unfold erel; cbn [fst snd]; rewrite ?tau_disp, ?tau_rot by assumption; rewrite ?sig_disp, ?SI, ?SJ; cbn [xorb flip]; auto|]).
      constructor.
  Qed.

  Lemma flat_combine (f : Q -> Q) (B : elem -> Q -> ncoo) es :
    flat_map (fun p => B (fst p) (snd p)) (combine es (map f (map el es))) = flat_map (fun e => B e (f (el e))) es.
  Proof. induction es as [|e es IH]; [reflexivity|]. cbn [map combine flat_map fst snd]. rewrite IH. reflexivity. Qed.
  Lemma K_form mm gg lm lM c0 KK : stiffness mm gg lm lM c0 = Ok KK -> ~ flag_set (g_attrs gg) ->
    exists mn mx lo hi, smallest (map el (elements mm (g_rows gg))) mn /\ largest (map el (elements mm (g_rows gg))) mx /\
      lo = match lm with Some v => v | None => mn end /\ hi = match lM with Some v => v | None => mx end /\
      KK = flat_map (fun e => block c0 (ei e) (ej e) (ef e) (interp2 (Qmin mn lo) (Qmax mx hi) lo hi (el e))) (elements mm (g_rows gg)).
  Proof.
    intros H NG. destruct (stiff_inv mm gg _ _ _ KK H NG) as (_ & _ & ls & RS & _ & E). destruct (rescale_inv _ _ _ _ RS) as (mn & mx & lo & hi & A & B & C & D & F).
    exists mn, mx, lo, hi. split; [exact A|]. split; [exact B|]. split; [exact C|]. split; [exact D|]. rewrite E, F.
    apply (flat_combine _ (fun e l => block c0 (ei e) (ej e) (ef e) l)).
  Qed.
  Lemma stiff_rn : mat_rn tau sig K K'.
  Proof.
    destruct (K_form m g _ _ _ K HK NF) as (mn & mx & lo & hi & MN & MX & ELo & EHi & EK).
    destruct (K_form m' g' _ _ _ K' HK' NF') as (mn' & mx' & lo' & hi' & MN' & MX' & ELo' & EHi' & EK').
    destruct els_matched as (q & QP & QF).
    assert (EL : forall x, In x (map el (elements m rows)) -> exists y, In y (map el (elements m' rows')) /\ y == x).
    { intros x Hx. apply in_map_iff in Hx. destruct Hx as (e & <- & He). destruct (els_total e He) as (e' & He' & Q). exists (el e'). split; [apply in_map; exact He'|apply Q]. }
    assert (EL' : forall y, In y (map el (elements m' rows')) -> exists x, In x (map el (elements m rows)) /\ y == x).
    { intros y Hy. apply in_map_iff in Hy. destruct Hy as (e' & <- & He'). destruct (els_onto e' He') as (e & He & Q). exists (el e). split; [apply in_map; exact He|apply Q]. }
    assert (M1 : mn' == mn).
    { destruct MN as [A1 A2], MN' as [B1 B2]. destruct (EL mn A1) as (y & Hy & Ey). destruct (EL' mn' B1) as (x & Hx & Ex). pose proof (B2 y Hy). pose proof (A2 x Hx). lra. }
    assert (M2 : mx' == mx).
    { destruct MX as [A1 A2], MX' as [B1 B2]. destruct (EL mx A1) as (y & Hy & Ey). destruct (EL' mx' B1) as (x & Hx & Ex). pose proof (B2 y Hy). pose proof (A2 x Hx). lra. }
    assert (M3 : lo' == lo).
    { rewrite ELo, ELo'. destruct lmin, lmin'; simpl in Hmin; try contradiction; [rewrite Hmin; cbn; ring|exact M1]. }
    assert (M4 : hi' == hi).
    { rewrite EHi, EHi'. destruct lmax, lmax'; simpl in Hmax; try contradiction; [rewrite Hmax; cbn; ring|exact M2]. }
    assert (SC : forall x y, y == x -> scq no_units x y) by (intros x y H; unfold scq; cbn; rewrite H; ring).
    rewrite EK, EK'. apply (rn_perm tau sig _ (flat_map (fun e => block cp' (ei e) (ej e) (ef e) (interp2 (Qmin mn' lo') (Qmax mx' hi') lo' hi' (el e))) q)); [|apply Permutation_flat_map; exact QP].
    apply (rn_flat tau sig erl); [|exact QF]. intros e e' _ Hq. apply block_rn; [exact Hq|].
    pose proof (sc_interp no_units no_units_ok (Qmin mn lo) (Qmax mx hi) lo hi (el e) (Qmin mn' lo') (Qmax mx' hi') lo' hi' (el e')
      (sc_min no_units no_units_ok _ _ _ _ (SC _ _ M1) (SC _ _ M3)) (sc_max no_units no_units_ok _ _ _ _ (SC _ _ M2) (SC _ _ M4)) (SC _ _ M3) (SC _ _ M4)
      (SC _ _ (proj2 (proj2 (proj2 (proj2 (proj2 Hq))))))) as X.
    unfold scq in X. rewrite X. cbn [no_units un_len]. ring.
  Qed.

  (** *** contact rows *)
  Definition four (e : nat * (nat * nat)) : ncoo :=
    [((3 * fst e)%nat, (2 * fst (snd e))%nat, Fin (- (1))); ((3 * fst e + 1)%nat, (2 * fst (snd e))%nat, Fin 1);
     ((3 * fst e + 1)%nat, (2 * snd (snd e))%nat, Fin (- (1))); ((3 * fst e + 2)%nat, (2 * snd (snd e))%nat, Fin 1)].
  Lemma maps_flat {A B} (f1 f2 f3 f4 : A -> B) l :
    Permutation (map f1 l ++ map f2 l ++ map f3 l ++ map f4 l) (flat_map (fun a => [f1 a; f2 a; f3 a; f4 a]) l).
  Proof.
    induction l as [|a l IH]; [reflexivity|]. cbn [map flat_map app]. apply Permutation_cons; [reflexivity|]. rewrite <- Permutation_middle.
    apply Permutation_cons; [reflexivity|]. rewrite (app_assoc (map f1 l)), <- Permutation_middle, <- app_assoc. apply Permutation_cons; [reflexivity|].
    rewrite (app_assoc (map f1 l)), (app_assoc (map f1 l ++ map f2 l)), <- Permutation_middle, <- !app_assoc. apply Permutation_cons; [reflexivity|]. exact IH.
  Qed.
  Lemma c_flat l : Permutation (c_matrix l) (flat_map four (indexed l)).
  Proof. unfold c_matrix. apply maps_flat. Qed.
  Lemma map_flat {A B C} (f : B -> C) (F : A -> list B) l : map f (flat_map F l) = flat_map (fun a => map f (F a)) l.
  Proof. induction l as [|a l IH]; [reflexivity|]. cbn [flat_map]. rewrite map_app, IH. reflexivity. Qed.
  Lemma contact_rn (f : nat * nat * num -> nat * nat * num) :
    (forall p p', prl p p' -> mat_rn tau sig (map f (four p)) (map f (four p'))) -> mat_rn tau sig (map f (c_matrix ps)) (map f (c_matrix ps')).
  Proof.
    intros H. destruct pairs_matched as (q & QP & QF).
    apply (rn_perm_l tau sig (flat_map (fun p => map f (four p)) (indexed ps))); [|rewrite <- map_flat; apply Permutation_map; symmetry; apply c_flat].
    apply (rn_perm tau sig _ (flat_map (fun p => map f (four p)) q)).
    - apply (rn_flat tau sig prl); [|exact QF]. intros a b _ Hab. apply H. exact Hab.
    - rewrite <- map_flat. apply Permutation_map. etransitivity; [|symmetry; apply c_flat]. apply Permutation_flat_map. exact QP.
  Qed.
  Lemma bmat_rn : mat_rn tau sig (bmat nu K (csC cs)) (bmat nu K' (csC cs')).
  Proof.
    rewrite (csC_eq m g cs HC), (csC_eq m' g' cs' HC'). unfold bmat. apply rn_app; [exact stiff_rn|]. apply rn_app.
    - apply contact_rn. intros [k [i j]] [k' [i' j']] (E & E1 & E2 & E3). cbn [fst snd] in *. subst k' i' j'. destruct (pair_bounds i j (nth_error_In _ _ E)) as [Li Lj].
      eexists. split; [reflexivity|]. unfold four. cbn [map fst snd].
      pose proof (tau_row k 0 ltac:(lia)) as T0. pose proof (tau_row k 1 ltac:(lia)) as T1. pose proof (tau_row k 2 ltac:(lia)) as T2. rewrite !Nat.add_0_r in T0.
      repeat (apply Forall2_cons; [unfold erel; cbn [fst snd]; rewrite ?tau_disp, ?T0, ?T1, ?T2 by assumption; rewrite ?sig_disp, ?sig_row by lia; cbn [xorb flip]; auto using neqv_refl|]).
      constructor.
    - apply contact_rn. intros [k [i j]] [k' [i' j']] (E & E1 & E2 & E3). cbn [fst snd] in *. subst k' i' j'. destruct (pair_bounds i j (nth_error_In _ _ E)) as [Li Lj].
      eexists. split; [reflexivity|]. unfold four. cbn [map fst snd].
      pose proof (tau_row k 0 ltac:(lia)) as T0. pose proof (tau_row k 1 ltac:(lia)) as T1. pose proof (tau_row k 2 ltac:(lia)) as T2. rewrite !Nat.add_0_r in T0.
      repeat (apply Forall2_cons; [unfold erel; cbn [fst snd]; rewrite ?tau_disp, ?T0, ?T1, ?T2 by assumption; rewrite ?sig_disp, ?sig_row by lia; cbn [xorb flip]; auto using neqv_refl|]).
      constructor.
  Qed.

  (** *** bounds *)
  Lemma thick_rn i d d' h h' : is_node rows i d -> is_node rows' (rho i) d' -> thick m d h -> thick m' d' h' -> h' == h.
  Proof.
    intros A B (f & F & <-) (f' & F' & <-). destruct HR as (_ & _ & _ & HN & _). destruct (HN i d d' A B) as (_ & _ & HS).
    destruct (HS f f' F F') as (_ & E & _). rewrite E. cbn. ring.
  Qed.
  Lemma height_rn i d d' : is_node rows i d -> is_node rows' (rho i) d' -> nz d' == nz d.
  Proof. intros A B. destruct HR as (_ & _ & _ & HN & _). apply (HN i d d' A B). Qed.
  Lemma top_rn : csZ cs' == csZ cs.
  Proof.
    destruct (top_spec m g cs HC) as [A1 (i & d & h & A2 & A3 & A4)]. destruct (top_spec m' g' cs' HC') as [B1 (i' & d' & h' & B2 & B3 & B4)].
    assert (L : csZ cs <= csZ cs').
    { destruct (nex' (rho i) (rho_lt i (nlt i d A2))) as (e & He). destruct (thick_ex m' g' cs' HC' _ _ He) as (k & Hk & _).
      pose proof (B1 _ _ _ He Hk). rewrite (height_rn i d e A2 He), (thick_rn i d e h k A2 He A3 Hk) in H. lra. }
    assert (G : csZ cs' <= csZ cs).
    { destruct (named i' d' B2) as (j & e & -> & He). destruct (thick_ex m g cs HC _ _ He) as (k & Hk & _).
      pose proof (A1 _ _ _ He Hk). pose proof (height_rn j e d' He B2). pose proof (thick_rn j e d' k h' He B2 Hk B3). unfold Qdiv in *. rewrite H0, H1 in B4. lra. }
    lra.
  Qed.
  Lemma bound_rn k i j a : nth_error ps k = Some (i, j) -> (a < 3)%nat ->
    exists b b', nth_error (csH cs) (3 * k + a) = Some b /\ nth_error (csH cs') (3 * kap k + a) = Some b' /\ neqv b b'.
  Proof.
    intros E La. pose proof (kap_at k i j E) as E'. pose proof top_rn as HZ.
    destruct (cons_inv m g cs HC) as (_ & _ & _ & t0 & t & _ & EC). destruct (cons_inv m' g' cs' HC') as (_ & _ & _ & t0' & t' & _ & EC').
    assert (H1 : csH cs = flat_map (h_rows (map snd rows) (h_column m (map snd rows)) (csZ cs)) ps) by (rewrite EC; reflexivity).
    assert (H2 : csH cs' = flat_map (h_rows (map snd rows') (h_column m' (map snd rows')) (csZ cs')) ps') by (rewrite EC'; reflexivity).
    rewrite H1, H2. clear EC EC' H1 H2. rewrite !flat3_nth by (auto; reflexivity). rewrite E, E'.
    destruct (pair_bounds i j (nth_error_In _ _ E)) as [Li Lj]. destruct (nex i Li) as (d & Hd). destruct (nex j Lj) as (e & He).
    destruct (nex' _ (rho_lt i Li)) as (d' & Hd'). destruct (nex' _ (rho_lt j Lj)) as (e' & He').
    destruct (thick_ex m g cs HC _ _ Hd) as (hd & Td & _). destruct (thick_ex m g cs HC _ _ He) as (he & Te & _).
    destruct (thick_ex m' g' cs' HC' _ _ Hd') as (hd' & Td' & _). destruct (thick_ex m' g' cs' HC' _ _ He') as (he' & Te' & _).
    unfold h_rows. cbn [fst snd]. rewrite (nth_ds g i d Hd), (nth_ds g j e He), (nth_ds g' _ d' Hd'), (nth_ds g' _ e' He').
    rewrite (nth_h m g cs HC i d hd Hd Td), (nth_h m g cs HC j e he He Te), (nth_h m' g' cs' HC' _ d' hd' Hd' Td'), (nth_h m' g' cs' HC' _ e' he' He' Te').
    pose proof (height_rn i d d' Hd Hd') as Z1. pose proof (height_rn j e e' He He') as Z2. pose proof (thick_rn i d d' _ _ Hd Hd' Td Td') as T1. pose proof (thick_rn j e e' _ _ He He' Te Te') as T2.
    destruct a as [|[|[|a]]]; [| | |lia]; cbn [nth_error]; (eexists; eexists; split; [reflexivity|]; split; [reflexivity|]).
    - cbn [neqv]. rewrite Z1, T1. reflexivity.
    - destruct (Nat.eqb_spec i j) as [->|Ne]; [rewrite Nat.eqb_refl; exact I|].
      destruct (Nat.eqb_spec (rho i) (rho j)) as [X|_]; [exfalso; apply Ne; apply rho_inj; auto|]. cbn [neqv]. rewrite Z1, Z2, T1, T2. reflexivity.
    - cbn [neqv]. rewrite Z2, T2, HZ. reflexivity.
  Qed.
  Lemma rate_rn k a : (k < length ps)%nat -> (a < 3)%nat -> nth_error (csdH cs) (3 * k + a) = nth_error (csdH cs') (3 * kap k + a) /\
    exists q, nth_error (csdH cs) (3 * k + a) = Some (Fin q).
  Proof.
    intros Lk La. rewrite (csdH_eq m g cs HC), (csdH_eq m' g' cs' HC'). rewrite !flat3_nth by (auto; reflexivity).
    destruct (nth_error ps k) as [[i j]|] eqn:E; [|apply nth_error_None in E; lia]. rewrite (kap_at k i j E). split; [reflexivity|].
    destruct a as [|[|[|a]]]; [| | |lia]; cbn [nth_error]; eauto.
  Qed.
End Data.

(** *** ranks of the contacts *)
Lemma sorted_before l k x a : StronglySorted lt l -> nth_error l k = Some x -> In a (firstn k l) <-> In a l /\ (a < x)%nat.
Proof.
  intros H. revert k. induction H as [|y l H IH F]; intros k E; [destruct k; discriminate E|]. destruct k as [|k].
  - injection E as <-. cbn [firstn]. split; [intros []|]. intros [[->|A] B]; [lia|]. rewrite Forall_forall in F. pose proof (F a A). lia.
  - cbn [nth_error] in E. cbn [firstn In]. rewrite (IH k E). rewrite Forall_forall in F. pose proof (F x (nth_error_In _ _ E)). split.
    + intros [->|[A B]]; [split; auto|split; auto].
    + intros [[->|A] B]; [left; reflexivity|right; auto].
Qed.
Lemma nodup_firstn (l : list nat) : forall k, NoDup l -> NoDup (firstn k l).
Proof.
  induction l as [|a l IH]; intros k H; [rewrite firstn_nil; constructor|]. destruct k as [|k]; [constructor|]. inversion H; subst. cbn [firstn]. constructor; [|apply IH; assumption].
  intros A. apply H2. rewrite <- (firstn_skipn k l). apply in_or_app. left. exact A.
Qed.
Lemma sorted_nodup l : StronglySorted lt l -> NoDup l.
Proof. induction 1 as [|y l H IH F]; constructor; [|exact IH]. intros A. rewrite Forall_forall in F. pose proof (F y A). lia. Qed.
Lemma sorted_filter {A} (f : A -> nat) p l : StronglySorted lt (map f l) -> StronglySorted lt (map f (filter p l)).
Proof.
  induction l as [|a l IH]; intros H; [constructor|]. cbn [map] in H. apply StronglySorted_inv in H. destruct H as [H F]. cbn [filter]. destruct (p a); [|apply IH; exact H].
  cbn [map]. constructor; [apply IH; exact H|]. rewrite Forall_forall in *. intros x Hx. apply F. apply in_map_iff in Hx. destruct Hx as (y & E & Hy). apply filter_In in Hy.
  apply in_map_iff. exists y. tauto.
Qed.
Lemma seq_sorted n : forall a, StronglySorted lt (seq a n).
Proof. induction n as [|n IH]; intros a; [constructor|]. cbn [seq]. constructor; [apply IH|]. rewrite Forall_forall. intros x Hx. apply in_seq in Hx. lia. Qed.
Lemma firsts_sorted rs : labelled_in_order rs -> StronglySorted lt (map fst (cons_pairs rs)).
Proof.
  intros H. unfold cons_pairs. rewrite map_map. cbn [fst]. apply (sorted_filter (fun r : Z * node => Z.to_nat (fst r))).
  assert (E : map (fun r : Z * node => Z.to_nat (fst r)) rs = seq 0 (length rs)); [|rewrite E; apply seq_sorted].
  symmetry. apply nth_ext with (d := 0%nat) (d' := 0%nat); [rewrite seq_length, map_length; reflexivity|]. intros i L. rewrite seq_length in L.
  rewrite seq_nth by exact L. rewrite (nth_of (map _ rs)), nth_error_map. destruct (nth_error rs i) as [[lab d]|] eqn:E; [|apply nth_error_None in E; lia].
  cbn. rewrite (H i lab d E). rewrite Nat2Z.id. reflexivity.
Qed.
Lemma rank_pair m g cs : constraint m g = Ok cs -> ~ flag_set (g_attrs g) ->
  forall k i j, contact_rank g k i j <-> nth_error (cons_pairs (g_rows g)) k = Some (i, j).
Proof.
  intros HC NF. pose proof (clabelled m g cs HC NF) as LB. set (ps := cons_pairs (g_rows g)). pose proof (firsts_sorted _ LB) as SS. fold ps in SS.
  assert (CP : forall a, (exists b, contact g a b) <-> In a (map fst ps)).
  { intros a. split.
    - intros (b & H). apply (contact_pair m g cs HC NF) in H. apply (in_map fst _ _ H).
    - intros H. apply in_map_iff in H. destruct H as ([x b] & E & H). cbn in E. subst x. exists b. apply (contact_pair m g cs HC NF). exact H. }
  assert (ONE : forall k i j l, nth_error ps k = Some (i, j) -> NoDup l -> (forall a, In a l <-> (a < i)%nat /\ exists b, contact g a b) -> length l = k).
  { intros k i j l E ND H. assert (EF : nth_error (map fst ps) k = Some i) by (rewrite nth_error_map, E; reflexivity).
    assert (Lk : (k < length (map fst ps))%nat) by (apply nth_error_Some; congruence).
    assert (EL : length (firstn k (map fst ps)) = k) by (rewrite firstn_length; lia). rewrite <- EL.
    assert (IN : forall a, In a l <-> In a (firstn k (map fst ps))) by (intros a; rewrite H, CP, (sorted_before _ _ _ a SS EF); tauto).
    apply Nat.le_antisymm; apply NoDup_incl_length; auto; try (intros a; apply IN).
    pose proof (sorted_nodup _ SS) as N0. apply nodup_firstn. exact N0. }
  intros k i j. split.
  - intros (C & l & ND & EL & H). pose proof (proj1 (contact_pair m g cs HC NF i j) C) as HI. apply In_nth_error in HI. destruct HI as (k0 & E). fold ps in E.
    rewrite <- (ONE k0 i j l E ND H) in E. rewrite EL in E. exact E.
  - intros E. split; [apply (contact_pair m g cs HC NF); apply (nth_error_In _ _ E)|].
    assert (EF : nth_error (map fst ps) k = Some i) by (rewrite nth_error_map, E; reflexivity).
    assert (Lk : (k < length (map fst ps))%nat) by (apply nth_error_Some; congruence).
    exists (firstn k (map fst ps)). split; [|split].
    + pose proof (sorted_nodup _ SS) as N0. apply nodup_firstn. exact N0.
    + rewrite firstn_length. lia.
    + intros a. rewrite CP, (sorted_before _ _ _ a SS EF). tauto.
Qed.
