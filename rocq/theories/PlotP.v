(** The picture of the system and the error printed with it. *)
From Coq Require Import Permutation.
From Verif Require Import Num NumP ListX ListP Frames MatM NetM MeshM ModelM SolverM PlotM Spec SpecNet SpecMesh SpecModel SpecSolver SpecPerm SpecPlot
  StiffP StiffLimP StiffLenP ConstraintP SolverP SolverRunP SolverSysP SolverApiP SolverFinP ResultP PermP.
Open Scope Q_scope.

(** ** values *)
Lemma neqv_trans x y z : neqv x y -> neqv y z -> neqv x z.
Proof. destruct x, y; cbn; try tauto; destruct z; cbn; try tauto. intros A B. rewrite A. exact B. Qed.
Lemma shows_up_eqv v w : neqv v w -> shows_up v <-> shows_up w.
Proof.
  unfold shows_up. destruct v as [a| | |], w as [b| | |]; cbn; intros H; try tauto.
  split; intros [_ N]; (split; [discriminate|]); intros E; apply N; rewrite <- E; [|symmetry]; auto; try (rewrite H; reflexivity).
Qed.
Lemma shown_iff v : nltb (Fin 0) (nabs v) = true <-> shows_up v.
Proof.
  unfold shows_up. destruct v as [a| | |]; cbn.
  - split.
    + intros H. split; [discriminate|]. intros E. qb. rewrite E in H. apply Qlt_irrefl in H. exact H.
    + intros [_ N]. qb. apply Qabs_case; intros L; destruct (Qlt_le_dec 0 a) as [A|A]; auto; try lra;
        exfalso; apply N; apply Qle_antisym; auto; lra.
  - split; auto. intros _. split; [discriminate|tauto].
  - split; auto. intros _. split; [discriminate|tauto].
  - split; [discriminate|]. intros [N _]. congruence.
Qed.
Lemma shows_zero : ~ shows_up (Fin 0).
Proof. intros [_ N]. apply N. reflexivity. Qed.
Lemma nadd_zero_l v : neqv (nadd (Fin 0) v) v.
Proof. destruct v; cbn; auto. ring. Qed.
Lemma nadd_zero_r v : neqv (nadd v (Fin 0)) v.
Proof. destruct v; cbn; auto. ring. Qed.

Lemma entry_filter (p : nat -> nat -> bool) P r c : entry (filter (fun e => p (fst (fst e)) (snd (fst e))) P) r c = if p r c then entry P r c else Fin 0.
Proof.
  unfold entry. destruct (p r c) eqn:E.
  - f_equal. f_equal. induction P as [|[[i j] v] P IH]; [reflexivity|]. cbn [filter fst snd].
    destruct (Nat.eqb i r && Nat.eqb j c) eqn:M.
    + apply andb_true_iff in M. destruct M as [M1 M2]. apply Nat.eqb_eq in M1, M2. subst i j. rewrite E. cbn [filter fst snd].
      rewrite !Nat.eqb_refl. cbn [andb]. f_equal. exact IH.
    + destruct (p i j); [cbn [filter fst snd]; rewrite M|]; exact IH.
  - assert (F : filter (fun e => Nat.eqb (fst (fst e)) r && Nat.eqb (snd (fst e)) c) (filter (fun e => p (fst (fst e)) (snd (fst e))) P) = []).
    { induction P as [|[[i j] v] P IH]; [reflexivity|]. cbn [filter fst snd]. destruct (p i j) eqn:E'; [|exact IH]. cbn [filter fst snd].
      destruct (Nat.eqb i r && Nat.eqb j c) eqn:M; [|exact IH].
      apply andb_true_iff in M. destruct M as [M1 M2]. apply Nat.eqb_eq in M1, M2. subst i j. congruence. }
    rewrite F. reflexivity.
Qed.
Lemma spy_in A perm a b r c : nth_error perm a = Some r -> nth_error perm b = Some c -> In (a, b) (spy A perm) <-> shows_up (entry A r c).
Proof.
  intros Ha Hb. unfold spy. rewrite filter_In. cbn [fst snd]. rewrite (nth_error_nth _ _ _ Ha), (nth_error_nth _ _ _ Hb), shown_iff.
  split; [tauto|]. intros H. split; auto. apply in_prod; apply in_seq; split; try lia; cbn; apply nth_error_Some; congruence.
Qed.
Lemma isclose_fin x b : isclose (Fin x) b = true <-> exists y, b = Fin y /\ Qabs (x - y) <= (1 # 100000000) + (1 # 100000) * Qabs y.
Proof.
  destruct b as [y| | |]; cbn [isclose]; [|split; [discriminate|intros (y & H & _); discriminate H] ..].
  split; [intros H; qb; exists y; split; auto|]. intros (z & E & L). injection E as <-. qb. exact L.
Qed.

Section Picture.
  Variables nu nc : nat.
  Variables (K C : ncoo) (u H : list num).
  Hypothesis Kin : forall r c v, In (r, c, v) K -> (r < nu /\ c < nu)%nat.
  Hypothesis Cin : forall r c v, In (r, c, v) C -> (r < nc /\ c < nu)%nat /\ fin v.
  Hypothesis Lu : length u = nu.
  Hypothesis Fu : finite_vec u.
  Hypothesis LH : length H = nc.
  Let P := bmat nu K C.

  Lemma system_entry r c : neqv (entry P r c) (system_at nu K C r c).
  Proof.
    unfold P, bmat. eapply neqv_trans; [apply entry_app|].
    assert (E1 : (nu <= r \/ nu <= c)%nat -> entry K r c = Fin 0).
    { intros L. apply entry_none. intros v Hv. apply Kin in Hv. lia. }
    set (U := map (fun e : nat * nat * num => let '(a, b, v) := e in (b, (nu + a)%nat, v)) C).
    set (D := map (fun e : nat * nat * num => let '(a, b, v) := e in ((nu + a)%nat, b, v)) C).
    assert (EU : entry U r c = if Nat.ltb r nu && Nat.leb nu c then entry C (c - nu) r else Fin 0).
    { destruct (Nat.ltb r nu && Nat.leb nu c) eqn:B.
      - apply andb_true_iff in B. destruct B as [B1 B2]. apply Nat.leb_le in B2. unfold entry, U. f_equal. clear - B2.
        induction C as [|[[a b] v] l IH]; [reflexivity|]. cbn [map filter fst snd].
        replace (Nat.eqb b r && Nat.eqb (nu + a) c) with (Nat.eqb a (c - nu) && Nat.eqb b r).
        + destruct (Nat.eqb a (c - nu) && Nat.eqb b r); cbn [map snd]; rewrite IH; reflexivity.
        + rewrite andb_comm. f_equal. destruct (Nat.eqb_spec a (c - nu)), (Nat.eqb_spec (nu + a) c); auto; lia.
      - apply entry_none. intros v Hv. unfold U in Hv. apply in_map_iff in Hv. destruct Hv as ([[a b] w] & E & Hv). injection E as E1' E2' E3'.
        apply Cin in Hv. destruct Hv as [[_ Lb] _]. apply andb_false_iff in B. destruct B as [B|B]; [apply Nat.ltb_ge in B|apply Nat.leb_gt in B]; lia. }
    assert (ED : entry D r c = if Nat.leb nu r && Nat.ltb c nu then entry C (r - nu) c else Fin 0).
    { destruct (Nat.leb nu r && Nat.ltb c nu) eqn:B.
      - apply andb_true_iff in B. destruct B as [B1 B2]. apply Nat.leb_le in B1. unfold entry, D. f_equal. clear - B1.
        induction C as [|[[a b] v] l IH]; [reflexivity|]. cbn [map filter fst snd].
        replace (Nat.eqb (nu + a) r) with (Nat.eqb a (r - nu)).
        + destruct (Nat.eqb a (r - nu) && Nat.eqb b c); cbn [map snd]; rewrite IH; reflexivity.
        + destruct (Nat.eqb_spec a (r - nu)), (Nat.eqb_spec (nu + a) r); auto; lia.
      - apply entry_none. intros v Hv. unfold D in Hv. apply in_map_iff in Hv. destruct Hv as ([[a b] w] & E & Hv). injection E as E1' E2' E3'.
        apply Cin in Hv. destruct Hv as [[_ Lb] _]. apply andb_false_iff in B. destruct B as [B|B]; [apply Nat.leb_gt in B|apply Nat.ltb_ge in B]; lia. }
    eapply neqv_trans; [apply nadd_eqv; [apply neqv_refl|apply entry_app]|]. fold U D. rewrite EU, ED. unfold system_at.
    destruct (Nat.ltb_spec r nu) as [L|L]; destruct (Nat.ltb_spec c nu) as [L'|L']; cbn [andb].
    - replace (Nat.leb nu c) with false by (symmetry; apply Nat.leb_gt; auto). replace (Nat.leb nu r) with false by (symmetry; apply Nat.leb_gt; auto). cbn [andb].
      eapply neqv_trans; [apply nadd_eqv; [apply neqv_refl|apply nadd_zero_l]|]. apply nadd_zero_r.
    - replace (Nat.leb nu c) with true by (symmetry; apply Nat.leb_le; auto). replace (Nat.leb nu r) with false by (symmetry; apply Nat.leb_gt; auto). cbn [andb].
      rewrite E1 by auto. eapply neqv_trans; [apply nadd_zero_l|]. apply nadd_zero_r.
    - replace (Nat.leb nu r) with true by (symmetry; apply Nat.leb_le; auto). cbn [andb].
      rewrite E1 by auto. eapply neqv_trans; [apply nadd_zero_l|]. apply nadd_zero_l.
    - rewrite andb_false_r. rewrite E1 by auto. cbn. reflexivity.
  Qed.

  Lemma row_value k : matvec C u k = Fin (product C (vals u) k).
  Proof.
    unfold matvec, product. rewrite nsum_fin.
    - rewrite map_map. f_equal. f_equal. apply map_ext_in. intros [[i c] v] Hv.
      destruct (Nat.eqb_spec i k) as [->|N]; [|reflexivity]. destruct (Cin _ _ _ Hv) as [[_ Lc] (q & ->)].
      destruct (Fu (nth c u NaN)) as (a & Ea); [apply nth_In; lia|]. rewrite Ea. cbn. unfold vals. rewrite nth_of, nth_error_map.
      rewrite (nth_error_nth' u NaN) by lia. rewrite Ea. reflexivity.
    - intros z Hz. apply in_map_iff in Hz. destruct Hz as ([[i c] v] & <- & Hv).
      destruct (Nat.eqb_spec i k) as [->|N]; [|eexists; reflexivity]. destruct (Cin _ _ _ Hv) as [[_ Lc] (q & ->)].
      destruct (Fu (nth c u NaN)) as (a & Ea); [apply nth_In; lia|]. rewrite Ea. eexists. reflexivity.
  Qed.
  Lemma touching_at k : (k < nc)%nat -> nth_error (touching nc C u H) k = Some (isclose (matvec C u k) (nth k H NaN)).
  Proof. intros L. unfold touching. rewrite nth_error_map, (seq_error _ _ L). reflexivity. Qed.
  Lemma touches_iff k : (k < nc)%nat -> isclose (matvec C u k) (nth k H NaN) = true <-> touches C u H k.
  Proof.
    intros L. rewrite row_value, isclose_fin. unfold touches. rewrite (nth_error_nth' H NaN) by lia.
    split; intros (y & E & B); exists y; (split; [congruence|exact B]).
  Qed.

  Lemma mask_K_at r : nth r (mask_K nu nc) false = Nat.ltb r nu.
  Proof.
    unfold mask_K. destruct (Nat.ltb_spec r nu) as [L|L].
    - rewrite app_nth1 by (rewrite repeat_length; auto). rewrite nth_of, nth_error_repeat by auto; reflexivity.
    - rewrite app_nth2 by (rewrite repeat_length; auto). apply nth_repeat.
  Qed.
  Lemma below_mask (l : list bool) r : nth r (repeat false nu ++ l) false = true <-> exists k, r = (nu + k)%nat /\ nth_error l k = Some true.
  Proof.
    destruct (Nat.lt_ge_cases r nu) as [L|L].
    - rewrite app_nth1 by (rewrite repeat_length; auto). rewrite nth_repeat. split; [discriminate|]. intros (k & E & _). lia.
    - rewrite app_nth2 by (rewrite repeat_length; auto). rewrite repeat_length. split.
      + intros E. exists (r - nu)%nat. split; [lia|]. rewrite nth_of in E. destruct (nth_error l (r - nu)); [congruence|discriminate E].
      + intros (k & -> & E). replace (nu + k - nu)%nat with k by lia. apply nth_error_nth with (d := false) in E. exact E.
  Qed.
  Lemma touching_length : length (touching nc C u H) = nc.
  Proof. unfold touching. rewrite map_length, seq_length. reflexivity. Qed.
  Lemma mask_C_at j r : nth r (mask_C nu nc C j u H) false = true <-> exists k, r = (nu + k)%nat /\ (k < nc)%nat /\ touches C u H k /\ Nat.modulo k 3 = j.
  Proof.
    unfold mask_C. rewrite below_mask.
    assert (X : forall k, nth_error (map (fun p => snd p && Nat.eqb (Nat.modulo (fst p) 3) j) (combine (seq 0 nc) (touching nc C u H))) k = Some true <->
      (k < nc)%nat /\ touches C u H k /\ Nat.modulo k 3 = j).
    { intros k. replace (seq 0 nc) with (seq 0 (length (touching nc C u H))) by (rewrite touching_length; reflexivity).
      rewrite nth_error_map, indexed_nth. destruct (Nat.lt_ge_cases k nc) as [L|L].
      - rewrite touching_at by auto. cbn [option_map fst snd]. split.
        + intros B. injection B as B. apply andb_true_iff in B. destruct B as [B1 B2]. apply touches_iff in B1; auto. apply Nat.eqb_eq in B2. auto.
        + intros (_ & T & M). f_equal. apply andb_true_iff. split; [apply touches_iff; auto|apply Nat.eqb_eq; exact M].
      - rewrite (proj2 (nth_error_None _ _)) by (rewrite touching_length; auto). split; [discriminate|intros (F & _); lia]. }
    split; intros (k & E & B); exists k; (split; [exact E|]); apply X; exact B.
  Qed.
  Lemma mask_off_at r : nth r (mask_off nu nc C u H) false = true <-> exists k, r = (nu + k)%nat /\ (k < nc)%nat /\ ~ touches C u H k.
  Proof.
    unfold mask_off. rewrite below_mask. split; intros (k & E & B); exists k; (split; [exact E|]).
    - rewrite nth_error_map in B. destruct (nth_error (touching nc C u H) k) as [t|] eqn:N; [|discriminate B].
      assert (L : (k < nc)%nat) by (rewrite <- touching_length; apply nth_error_Some; congruence).
      rewrite touching_at in N by auto. injection N as <-. injection B as B. split; auto. intros T. apply touches_iff in T; auto. rewrite T in B. discriminate B.
    - destruct B as (L & T). rewrite nth_error_map, touching_at by auto. cbn. f_equal. apply negb_true_iff.
      destruct (isclose _ _) eqn:E'; auto. exfalso. apply T. apply touches_iff; auto.
  Qed.
  Lemma touches_dec k : (k < nc)%nat -> touches C u H k \/ ~ touches C u H k.
  Proof. intros L. destruct (isclose (matvec C u k) (nth k H NaN)) eqn:E; [left|right; intros T; apply touches_iff in T; auto; congruence]. apply touches_iff; auto. Qed.

  (** a mask that only lists contacts *)
  Lemma cross_at mask r c : (forall r, nth r mask false = true -> (nu <= r)%nat) ->
    shows_up (entry (keep_rows mask P ++ keep_cols mask P) r c) <->
    shows_up (system_at nu K C r c) /\ exists k, of_contact nu r c k /\ nth (nu + k) mask false = true.
  Proof.
    intros HM. rewrite (shows_up_eqv _ _ (entry_app _ _ _ _)).
    unfold keep_rows, keep_cols. rewrite (entry_filter (fun a _ => nth a mask false)), (entry_filter (fun _ b => nth b mask false)). cbv beta.
    destruct (Nat.lt_ge_cases r nu) as [L|L]; destruct (Nat.lt_ge_cases c nu) as [L'|L'].
    - assert (A : nth r mask false = false) by (destruct (nth r mask false) eqn:E; auto; apply HM in E; lia).
      assert (B : nth c mask false = false) by (destruct (nth c mask false) eqn:E; auto; apply HM in E; lia). rewrite A, B.
      split; [intros S; destruct (shows_zero S)|]. intros (_ & k & [[E _]|[E _]] & _); lia.
    - assert (A : nth r mask false = false) by (destruct (nth r mask false) eqn:E; auto; apply HM in E; lia). rewrite A.
      rewrite (shows_up_eqv _ _ (nadd_zero_l _)). split.
      + intros S. destruct (nth c mask false) eqn:E; [|destruct (shows_zero S)]. rewrite (shows_up_eqv _ _ (system_entry r c)) in S. split; auto.
        exists (c - nu)%nat. replace (nu + (c - nu))%nat with c by lia. split; auto. right. split; [lia|auto].
      + intros (S & k & [[E _]|[E _]] & M); [lia|]. rewrite <- E in M. rewrite M. rewrite (shows_up_eqv _ _ (system_entry r c)). exact S.
    - assert (B : nth c mask false = false) by (destruct (nth c mask false) eqn:E; auto; apply HM in E; lia). rewrite B.
      rewrite (shows_up_eqv _ _ (nadd_zero_r _)). split.
      + intros S. destruct (nth r mask false) eqn:E; [|destruct (shows_zero S)]. rewrite (shows_up_eqv _ _ (system_entry r c)) in S. split; auto.
        exists (r - nu)%nat. replace (nu + (r - nu))%nat with r by lia. split; auto. left. split; [lia|auto].
      + intros (S & k & [[E _]|[E _]] & M); [|lia]. rewrite <- E in M. rewrite M. rewrite (shows_up_eqv _ _ (system_entry r c)). exact S.
    - assert (Z : entry P r c = Fin 0).
      { apply entry_none. intros v Hv. unfold P, bmat in Hv. rewrite !in_app_iff in Hv. destruct Hv as [Hv|[Hv|Hv]]; [apply Kin in Hv; lia| |];
        apply in_map_iff in Hv; destruct Hv as ([[a b] w] & E & Hv); injection E as E1 E2 E3; apply Cin in Hv; lia. }
      rewrite Z. split.
      + intros S. exfalso. apply shows_zero. revert S. apply shows_up_eqv. destruct (nth r mask false), (nth c mask false); cbn; reflexivity.
      + intros (_ & k & [[_ E]|[_ E]] & _); lia.
  Qed.
  Lemma stiff_at r c : shows_up (entry (keep_cols (mask_K nu nc) (keep_rows (mask_K nu nc) P)) r c) <-> shows_up (system_at nu K C r c) /\ (r < nu /\ c < nu)%nat.
  Proof.
    unfold keep_rows, keep_cols. rewrite (entry_filter (fun _ b => nth b (mask_K nu nc) false)), (entry_filter (fun a _ => nth a (mask_K nu nc) false)). cbv beta.
    rewrite !mask_K_at. destruct (Nat.ltb_spec r nu) as [L|L]; destruct (Nat.ltb_spec c nu) as [L'|L'];
      try (split; [intros S; destruct (shows_zero S)|intros (_ & ? & ?); lia]).
    rewrite (shows_up_eqv _ _ (system_entry r c)). tauto.
  Qed.
  Lemma of_contact_lt r c k : shows_up (system_at nu K C r c) -> of_contact nu r c k -> (k < nc)%nat.
  Proof.
    intros S O. destruct (Nat.lt_ge_cases k nc) as [L|L]; auto. exfalso. apply shows_zero. revert S.
    unfold system_at. destruct O as [[-> B]|[-> B]].
    - replace (Nat.ltb (nu + k) nu) with false by (symmetry; apply Nat.ltb_ge; lia). replace (Nat.ltb c nu) with true by (symmetry; apply Nat.ltb_lt; lia).
      rewrite entry_none; auto. intros v Hv. apply Cin in Hv. lia.
    - replace (Nat.ltb (nu + k) nu) with false by (symmetry; apply Nat.ltb_ge; lia). replace (Nat.ltb r nu) with true by (symmetry; apply Nat.ltb_lt; lia).
      rewrite entry_none; auto. intros v Hv. apply Cin in Hv. lia.
  Qed.
  Lemma drawn_at col r c : shows_up (entry (drawn nu nc K C u H col) r c) <-> shows_up (system_at nu K C r c) /\ coloured nu C u H r c col.
  Proof.
    assert (X : forall j, shows_up (entry (keep_rows (mask_C nu nc C j u H) P ++ keep_cols (mask_C nu nc C j u H) P) r c) <->
      shows_up (system_at nu K C r c) /\ exists k i, of_contact nu r c k /\ touches C u H k /\ k = (3 * i + j)%nat /\ (j < 3)%nat).
    { intros j. rewrite cross_at.
      - split; intros (S & k & E); (split; [exact S|]).
        + destruct E as (O & M). apply mask_C_at in M. destruct M as (k' & E & L & T & M). assert (k' = k) by lia. subst k'.
          exists k, (Nat.div k 3). split; auto. split; auto. split; [rewrite <- M; apply Nat.div_mod; lia|rewrite <- M; apply Nat.mod_upper_bound; lia].
        + destruct E as (i & O & T & E & Lj). exists k. split; auto. apply mask_C_at. exists k. split; auto. split; [eapply of_contact_lt; eauto|].
          split; auto. subst k. rewrite Nat.add_comm, Nat.mul_comm, Nat.mod_add by lia. apply Nat.mod_small; auto.
      - intros r' M. apply mask_C_at in M. destruct M as (k & -> & _). lia. }
    destruct col; cbn [drawn coloured]; fold P.
    - apply stiff_at.
    - rewrite X. split; intros (S & k & i & O & T & E); (split; [exact S|]); exists k, i; intuition lia.
    - rewrite X. split; intros (S & k & i & O & T & E); (split; [exact S|]); exists k, i; intuition lia.
    - rewrite X. split; intros (S & k & i & O & T & E); (split; [exact S|]); exists k, i; intuition lia.
    - rewrite cross_at.
      + split; intros (S & k & O & M); (split; [exact S|]); exists k; (split; [exact O|]).
        * apply mask_off_at in M. destruct M as (k' & E & _ & T). assert (k' = k) by lia. subst. exact T.
        * apply mask_off_at. exists k. split; auto. split; auto. eapply of_contact_lt; eauto.
      + intros r' M. apply mask_off_at in M. destruct M as (k & -> & _). lia.
  Qed.
  Lemma of_contact_one r c k k' : of_contact nu r c k -> of_contact nu r c k' -> k = k'.
  Proof. intros [[-> B]|[-> B]] [[E B']|[E B']]; lia. Qed.
  Lemma one_colour r c : shows_up (system_at nu K C r c) -> exists col, coloured nu C u H r c col /\ forall col', coloured nu C u H r c col' -> col' = col.
  Proof.
    intros S.
    assert (D : (r < nu /\ c < nu)%nat \/ exists k, of_contact nu r c k).
    { destruct (Nat.lt_ge_cases r nu) as [L|L]; destruct (Nat.lt_ge_cases c nu) as [L'|L'].
      - auto.
      - right. exists (c - nu)%nat. right. lia.
      - right. exists (r - nu)%nat. left. lia.
      - exfalso. apply shows_zero. revert S. unfold system_at.
        replace (Nat.ltb r nu) with false by (symmetry; apply Nat.ltb_ge; auto). replace (Nat.ltb c nu) with false by (symmetry; apply Nat.ltb_ge; auto). auto. }
    destruct D as [D|(k & O)].
    - exists Stiffness. split; [exact D|]. intros [] Hc; cbn in Hc; auto; [| | |]; exfalso.
      + destruct Hc as (k & _ & [[]|[]] & _); lia.
      + destruct Hc as (k & _ & [[]|[]] & _); lia.
      + destruct Hc as (k & _ & [[]|[]] & _); lia.
      + destruct Hc as (k & [[]|[]] & _); lia.
    - assert (NS : ~ (r < nu /\ c < nu)%nat) by (destruct O as [[]|[]]; lia).
      pose proof (of_contact_lt r c k S O) as L. destruct (touches_dec k L) as [T|T].
      + assert (M : exists i, k = (3 * i)%nat \/ k = (3 * i + 1)%nat \/ k = (3 * i + 2)%nat).
        { exists (Nat.div k 3). pose proof (Nat.div_mod k 3 ltac:(lia)). pose proof (Nat.mod_upper_bound k 3 ltac:(lia)). lia. }
        destruct M as (i & M).
        assert (G : forall col', coloured nu C u H r c col' -> col' = if Nat.eqb k (3 * i) then Lower else if Nat.eqb k (3 * i + 1) then Inner else Upper).
        { intros [] Hc; cbn in Hc.
          - contradiction.
          - destruct Hc as (k' & i' & O' & _ & E). rewrite (of_contact_one r c k' k O' O) in E.
            destruct (Nat.eqb_spec k (3 * i)); [lia|]. destruct (Nat.eqb_spec k (3 * i + 1)); [reflexivity|lia].
          - destruct Hc as (k' & i' & O' & _ & E). rewrite (of_contact_one r c k' k O' O) in E.
            destruct (Nat.eqb_spec k (3 * i)); [reflexivity|]. destruct (Nat.eqb_spec k (3 * i + 1)); lia.
          - destruct Hc as (k' & i' & O' & _ & E). rewrite (of_contact_one r c k' k O' O) in E.
            destruct (Nat.eqb_spec k (3 * i)); [lia|]. destruct (Nat.eqb_spec k (3 * i + 1)); [lia|reflexivity].
          - destruct Hc as (k' & O' & T'). rewrite (of_contact_one r c k' k O' O) in T'. contradiction. }
        eexists. split; [|exact G].
        destruct (Nat.eqb_spec k (3 * i)); [cbn; exists k, i; auto|]. destruct (Nat.eqb_spec k (3 * i + 1)); [cbn; exists k, i; auto|].
        cbn. exists k, i. split; auto. split; auto. lia.
      + exists Inactive. split; [exists k; auto|]. intros [] Hc; cbn in Hc; auto; exfalso.
        * contradiction.
        * destruct Hc as (k' & i' & O' & T' & _). rewrite (of_contact_one r c k' k O' O) in T'. contradiction.
        * destruct Hc as (k' & i' & O' & T' & _). rewrite (of_contact_one r c k' k O' O) in T'. contradiction.
        * destruct Hc as (k' & i' & O' & T' & _). rewrite (of_contact_one r c k' k O' O) in T'. contradiction.
  Qed.
End Picture.

(** ** the call *)
Lemma shapes_ok nu nc (l l' : list (list num)) : Nat.modulo nc 3 = 0%nat -> sized_vecs nu l -> sized_vecs nc l' ->
  Nat.eqb (Nat.modulo nc 3) 0 && forallb (fun v => Nat.eqb (length v) nu) l && forallb (fun v => Nat.eqb (length v) nc) l' = true.
Proof.
  intros M A B. rewrite M. cbn [Nat.eqb andb]. apply andb_true_iff. split; apply forallb_forall; intros v Hv; apply Nat.eqb_eq; auto.
Qed.
Lemma contacts_by_three m g cs : constraint m g = Ok cs -> Nat.modulo (length (csH cs)) 3 = 0%nat.
Proof. intros H. rewrite (csH_len m g cs H). rewrite Nat.mul_comm. apply Nat.mod_mul. lia. Qed.

Lemma plot_total lsolve m g lmin lmax cpl K cs : stiffness m g lmin lmax cpl = Ok K -> constraint m g = Ok cs ->
  forall u F du dF f H df dH perm tol, sized_vecs (2 * length (g_rows g)) [u; F; du; dF] -> sized_vecs (length (csH cs)) [f; H; df; dH] ->
  exists pic e, plot_system lsolve (2 * length (g_rows g)) (length (csH cs)) K (csC cs) u F du dF f H df dH perm tol = Ok (pic, e).
Proof.
  intros HK HC u F du dF f H df dH perm tol A B. unfold plot_system, shapes_fit. rewrite shapes_ok; auto; [|eapply contacts_by_three; eauto].
  cbn [negb]. cbv zeta. eexists. eexists. reflexivity.
Qed.
Lemma plot_shapes lsolve nu nc K C u F du dF f H df dH perm tol pic e :
  plot_system lsolve nu nc K C u F du dF f H df dH perm tol = Ok (pic, e) ->
  length u = nu /\ length H = nc /\ forall col, pic col = spy (drawn nu nc K C u H col) (drawn_order (nu + nc) perm).
Proof.
  unfold plot_system. destruct (shapes_fit nu nc u F du dF f H df dH) eqn:SF; cbn [negb]; [|discriminate]. cbv zeta. intros E. injection E as <- _.
  unfold shapes_fit in SF. rewrite !andb_true_iff in SF. destruct SF as [[_ S1] S2]. rewrite forallb_forall in S1, S2.
  split; [apply Nat.eqb_eq, S1; left; auto|]. split; [apply Nat.eqb_eq, S2; right; left; auto|]. intros col. destruct perm; reflexivity.
Qed.
Lemma plot_colours lsolve m g lmin lmax cpl K cs : stiffness m g lmin lmax cpl = Ok K -> constraint m g = Ok cs -> ~ flag_set (g_attrs g) ->
  let nu := (2 * length (g_rows g))%nat in let nc := length (csH cs) in
  forall u F du dF f H df dH perm tol pic e, plot_system lsolve nu nc K (csC cs) u F du dF f H df dH perm tol = Ok (pic, e) -> finite_vec u ->
  forall a b r c, nth_error (drawn_order (nu + nc) perm) a = Some r -> nth_error (drawn_order (nu + nc) perm) b = Some c ->
    (forall col, In (a, b) (pic col) <-> shows_up (system_at nu K (csC cs) r c) /\ coloured nu (csC cs) u H r c col) /\
    (shows_up (system_at nu K (csC cs) r c) -> exists col, In (a, b) (pic col) /\ forall col', In (a, b) (pic col') -> col' = col).
Proof.
  intros HK HC NF nu nc u F du dF f H df dH perm tol pic e E Fu a b r c Ha Hb. destruct (plot_shapes _ _ _ _ _ _ _ _ _ _ _ _ _ _ _ _ _ E) as (Lu & LH & EP).
  assert (Kin : forall r c v, In (r, c, v) K -> (r < nu /\ c < nu)%nat) by (intros x y v Hv; apply (K_lt m g _ _ _ K HK NF x y v Hv)).
  assert (Cin : forall r c v, In (r, c, v) (csC cs) -> (r < nc /\ c < nu)%nat /\ fin v).
  { intros x y v Hv. unfold nc. rewrite (csH_len m g cs HC). apply (C_lt m g cs HC NF x y v Hv). }
  assert (G : forall col, In (a, b) (pic col) <-> shows_up (system_at nu K (csC cs) r c) /\ coloured nu (csC cs) u H r c col).
  { intros col. rewrite EP, (spy_in _ _ a b r c Ha Hb). apply (drawn_at nu nc K (csC cs) u H Kin Cin Lu Fu LH). }
  split; auto. intros S. destruct (one_colour nu nc K (csC cs) u H Cin Lu Fu LH r c S) as (col & A & B).
  exists col. split; [apply G; auto|]. intros col' H'. apply B. apply G; auto.
Qed.

(** ** the error is the one recorded *)
Lemma split_sys nu (l : list num) : firstn nu l ++ skipn nu l = l.
Proof. apply firstn_skipn. Qed.
Lemma scatter_in dx dx' ps sol r : length dx = length dx' -> In r ps -> (r < length dx)%nat -> nth r (scatter dx ps sol) NaN = nth r (scatter dx' ps sol) NaN.
Proof.
  intros L I Lr. unfold scatter. rewrite !nth_of, !nth_error_map, !indexed_nth.
  destruct (nth_error dx r) eqn:E; [|apply nth_error_None in E; lia]. destruct (nth_error dx' r) eqn:E'; [|apply nth_error_None in E'; lia].
  cbn. destruct (rev (places r ps)) eqn:R; auto. exfalso.
  assert (N : places r ps = []) by (rewrite <- (rev_involutive (places r ps)), R; reflexivity).
  apply In_nth_error in I. destruct I as (k & Hk).
  assert (X : In k (places r ps)).
  { unfold places. apply in_map_iff. exists (k, r). split; auto. apply filter_In. split; [|apply Nat.eqb_refl].
    apply nth_error_In with (n := k). rewrite indexed_nth, Hk. reflexivity. }
  rewrite N in X. destruct X.
Qed.
Lemma hist_sized lsolve S s0 itermax : sized S s0 -> forall s, In s (history lsolve S itermax s0) -> length (st_dx s) = length (sy_dq S).
Proof.
  intros Z. assert (G : forall f s0, sized S s0 -> forall s, In s (s0 :: run lsolve S f s0) -> sized S s).
  { induction f as [|f IH]; intros t Zt s [<-|Hs]; auto; [destruct Hs|]. cbn [run] in Hs. destruct (nltb _ _); [|destruct Hs].
    destruct (step lsolve S t) as [t1|] eqn:E; [|destruct Hs]. apply (IH t1); auto. eapply sized_step; eauto. }
  intros s Hs. apply (G itermax s0 Z s Hs).
Qed.
Lemma plot_error lsolve m g p S h K cs : solve lsolve m g p = Ok (S, h) ->
  stiffness m g (sp_lmin p) (sp_lmax p) (sp_coupling p) = Ok K -> constraint m g = Ok cs -> numbering (length (sy_dq S)) (sp_perm p) ->
  let nu := (2 * length (g_rows g))%nat in let nc := length (csH cs) in
  forall k s s' du df, nth_error h k = Some s -> nth_error h (Datatypes.S k) = Some s' -> length du = nu -> length df = nc ->
  exists pic, plot_system lsolve nu nc K (csC cs) (st_u S s) (st_F S s) du (repeat (Fin 0) nu) (st_f S s) (st_H S s) df (csdH cs) (sp_perm p) (sp_tol p) = Ok (pic, st_err2 s').
Proof.
  intros HS HK HC NB nu nc k s s' du df Hk Hk' Ldu Ldf.
  destruct (fin_lengths _ _ _ _ _ _ HS cs HC s (nth_error_In _ _ Hk)) as (Lu & LF & Lf & LH). fold nu nc in Lu, LF, Lf, LH.
  assert (LD : length (csdH cs) = nc) by (unfold nc; rewrite (csdH_len m g cs HC), (csH_len m g cs HC); reflexivity).
  destruct (call_facts _ _ _ _ _ _ HS NB) as (PM & _ & s00 & EH0 & Z0 & _).
  destruct (solve_inv _ _ _ _ _ _ HS) as (K' & cs' & HK' & HC' & ES & EH). cbv zeta in ES, EH. fold nu in ES, EH.
  assert (K' = K) by congruence. assert (cs' = cs) by congruence. subst K' cs'.
  rewrite EH in Hk, Hk'. destruct (history_next _ _ _ _ _ _ _ Hk Hk') as [_ ST]. rewrite <- EH in Hk, Hk'.
  unfold plot_system, shapes_fit. rewrite shapes_ok; [|eapply contacts_by_three; eauto| |].
  2:{ intros v [<-|[<-|[<-|[<-|[]]]]]; auto. apply repeat_length. }
  2:{ intros v [<-|[<-|[<-|[<-|[]]]]]; auto. }
  cbn [negb]. cbv zeta. eexists. apply f_equal, f_equal2; [reflexivity|].
  assert (EX : st_u S s ++ st_f S s = st_x s) by apply split_sys. assert (EQ : st_F S s ++ st_H S s = st_q s) by apply split_sys. rewrite EX, EQ.
  assert (Pq : bmat nu K (csC cs) = sy_P S) by (rewrite ES; reflexivity). rewrite Pq.
  assert (Dq : repeat (Fin 0) nu ++ csdH cs = sy_dq S) by (rewrite ES; reflexivity). rewrite Dq.
  assert (Tq : sp_tol p = sy_tol S) by (rewrite ES; reflexivity). rewrite Tq.
  assert (Lq : length (st_q s) = (nu + nc)%nat) by (rewrite <- EQ, app_length, LF, LH; reflexivity).
  assert (Lx : length (st_x s) = (nu + nc)%nat) by (rewrite <- EX, app_length, Lu, Lf; reflexivity).
  assert (Rq : match sp_perm p with Some l => l | None => seq 0 (nu + nc) end = sy_perm S).
  { rewrite ES at 1. cbn [sy_perm]. destruct (sp_perm p); auto. rewrite app_length, repeat_length. reflexivity. }
  rewrite Rq.
  unfold step in ST. set (mask := active S (gaps (sy_P S) (st_x s) (st_q s))) in ST.
  destruct (py_min _); [|discriminate ST]. destruct (err_gt _ _); [discriminate ST|]. injection ST as <-. cbn [st_err2].
  assert (Lg : length (gaps (sy_P S) (st_x s) (st_q s)) = length (st_q s)) by (unfold gaps; rewrite map_length, combine_length, seq_length; lia).
  assert (EM : map (fun p0 => nleb (snd p0) (Fin (sy_tol S)) && nltb (Fin 0) (colsum (sy_P S) (fst p0))) (combine (seq 0 (length (st_q s))) (gaps (sy_P S) (st_x s) (st_q s))) = mask).
  { unfold mask, active. rewrite Lg. reflexivity. }
  rewrite EM. unfold error2.
  assert (Lm : length mask = (nu + nc)%nat) by (unfold mask, active; rewrite map_length, combine_length, seq_length; lia).
  f_equal. apply map_ext_in. intros r Hr.
  assert (MV : forall r, matvec (filter (fun e => nth (fst (fst e)) mask false && nth (snd (fst e)) mask false) (sy_P S))
    (scatter (du ++ df) (filter (fun r0 => nth r0 mask false) (sy_perm S)) (lsolve (submatrix (sy_P S) (filter (fun r0 => nth r0 mask false) (sy_perm S))) (map (fun r0 => nth r0 (sy_dq S) NaN) (filter (fun r0 => nth r0 mask false) (sy_perm S))))) r =
    matvec (filter (fun e => nth (fst (fst e)) mask false && nth (snd (fst e)) mask false) (sy_P S)) (increment lsolve S s mask) r).
  { intros r'. unfold matvec. f_equal. apply map_ext_in. intros [[i c] v] He. destruct (Nat.eqb i r'); auto. f_equal.
    apply filter_In in He. destruct He as [_ He]. cbn [fst snd] in He. apply andb_true_iff in He. destruct He as [_ Mc].
    assert (Lc : (c < nu + nc)%nat) by (rewrite <- Lm; destruct (Nat.lt_ge_cases c (length mask)) as [L|L]; auto; rewrite nth_overflow in Mc by auto; discriminate Mc).
    unfold increment. apply scatter_in.
    - rewrite app_length, Ldu, Ldf, map_length.
      assert (LX : length (st_dx s) = length (sy_dq S)) by (apply (hist_sized lsolve S s00 (sp_itermax p)); auto; rewrite <- EH0; eapply nth_error_In; eauto).
      rewrite LX, <- Dq, app_length, repeat_length, LD. reflexivity.
    - apply filter_In. split; auto. eapply Permutation_in; [apply Permutation_sym; exact PM|]. apply in_seq. rewrite <- Dq, app_length, repeat_length, LD. lia.
    - rewrite app_length, Ldu, Ldf. exact Lc. }
  rewrite MV. reflexivity.
Qed.

(** ** contacts drawn and contacts recorded *)
Lemma plot_contacts lsolve m g p S h : solve lsolve m g p = Ok (S, h) -> ~ flag_set (g_attrs g) -> tolerances_ok p ->
  forall cs k s s', constraint m g = Ok cs -> nth_error h k = Some s -> nth_error h (Datatypes.S k) = Some s' -> reliable lsolve m g p S s ->
  clear_cut (sp_tol p) (csC cs) (st_u S s) (st_H S s) ->
  forall r, nth (2 * length (g_rows g) + r) (st_mask s') false = true <-> touches (csC cs) (st_u S s) (st_H S s) r.
Proof.
  intros HS NF T cs k s s' HC Hk Hk' RL CC r. destruct (fin_mask_next _ _ _ _ _ _ HS NF T cs k s s' HC Hk Hk' RL) as (_ & M & _). rewrite M. clear M.
  split.
  - intros (q & G & L). pose proof G as (y & Hy & Ey). destruct (CC r y q Hy G) as [Z|[B _]]; [|exfalso; lra].
    exists y. split; auto. setoid_replace (product (csC cs) (vals (st_u S s)) r - y) with 0 by lra. pose proof (Qabs_nonneg y). change (Qabs 0) with 0. lra.
  - intros (y & Hy & L). exists (y - product (csC cs) (vals (st_u S s)) r).
    assert (G : gap_is (csC cs) (st_H S s) (vals (st_u S s)) r (y - product (csC cs) (vals (st_u S s)) r)) by (exists y; split; auto; reflexivity).
    split; auto. destruct (CC r y _ Hy G) as [Z|[_ B]]; [rewrite Z; apply T|].
    exfalso. setoid_replace (product (csC cs) (vals (st_u S s)) r - y) with (- (y - product (csC cs) (vals (st_u S s)) r)) in L by ring.
    rewrite Qabs_opp in L. pose proof (Qle_Qabs (y - product (csC cs) (vals (st_u S s)) r)). lra.
Qed.
