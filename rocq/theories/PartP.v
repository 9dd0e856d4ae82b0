(** Proofs for C107: a part of a mesh that touches nothing else is compressed as if it were alone. *)
From Coq Require Import Permutation Lia Lqa.
From Verif Require Import Num NumP ListX ListP Frames MatM NetM StackM MeshM ModelM SolverM Spec SpecNet SpecMesh SpecModel SpecSolver SpecPerm
  SpecStack SpecScale SpecProgress SpecRename SpecPart MeshCheckP StiffP ConstraintP SolverP SolverRunP SolverSysP SolverApiP SolverFinP PermP ScaleP ProgressFinP
  RenameMatP RenameRunP RenameDataP RenameP VtkP PartMatP PartRunP PartDataP.
Open Scope Q_scope.

(** a compressed column of the part is one of the whole *)
Lemma part_compressed rho m m' g g' cs' z z' u u' tol tol' : mesh_within rho m m' g g' -> constraint m' g' = Ok cs' -> tol' == tol -> z' == z ->
  (forall i, (i < length (g_rows g))%nat -> disp u' (rho i) == disp u i) -> compressed m g tol u z -> compressed m' g' tol' u' z'.
Proof.
  intros HR HC' Ht Hz Hu (i & j & d & e & (Hd & He & E & L) & F & LD & C).
  pose proof (SolverSysP.node_lt _ _ _ Hd) as Li. pose proof (SolverSysP.node_lt _ _ _ He) as Lj.
  pose proof HR as (_ & _ & _ & _ & CT & _).
  destruct (proj1 (CT i j Li Lj) (ex_intro _ d (conj Hd (conj E L)))) as (d' & Hd' & E' & L').
  destruct (nex' rho m m' g g' HR j Lj) as (e' & He').
  destruct (thick_ex m' g' cs' HC' _ _ Hd') as (h1 & T1 & _). destruct (thick_ex m' g' cs' HC' _ _ He') as (h2 & T2 & _).
  assert (A : nz d' + disp u' (rho i) == nz d + disp u i) by (rewrite (height_in rho m m' g g' HR i d d' Hd Hd'), (Hu i Li); reflexivity).
  assert (B : nz e' + disp u' (rho j) == nz e + disp u j) by (rewrite (height_in rho m m' g g' HR j e e' He He'), (Hu j Lj); reflexivity).
  exists (rho i), (rho j), d', e'. split; [split; [exact Hd'|split; [exact He'|split; [exact E'|exact L']]]|]. split; [|split].
  - destruct F as (h & T & F0). exists h1. split; [exact T1|]. rewrite A, Ht, (thick_in rho m m' g g' HR i d d' _ _ Hd Hd' T T1). exact F0.
  - destruct LD as (h & T & F0). exists h2. split; [exact T2|]. rewrite B, Ht, Hz, (thick_in rho m m' g g' HR j e e' _ _ He He' T T2). exact F0.
  - destruct C as [->|(h & k & T & T' & F0)]; [left; reflexivity|right]. exists h1, h2. split; [exact T1|]. split; [exact T2|].
    rewrite A, B, Ht, (thick_in rho m m' g g' HR i d d' _ _ Hd Hd' T T1), (thick_in rho m m' g g' HR j e e' _ _ He He' T' T2). exact F0.
Qed.

Theorem part_solve rho lsolve lsolve' m m' g g' p p' S h S' h' : mesh_within rho m m' g g' -> same_model g g' p p' -> faces_lid m g ->
  exact_solver lsolve -> exact_solver lsolve' -> right_length lsolve -> right_length lsolve' -> tolerances_ok p -> tolerances_ok p' ->
  ~ flag_set (g_attrs g) -> ~ flag_set (g_attrs g') ->
  solve lsolve m g p = Ok (S, h) -> solve lsolve' m' g' p' = Ok (S', h') ->
  numbering (length (sy_dq S)) (sp_perm p) -> numbering (length (sy_dq S')) (sp_perm p') ->
  (forall k s, nth_error h k = Some s -> (Datatypes.S k < length h)%nat -> regular S s) ->
  (forall k s, nth_error h' k = Some s -> (Datatypes.S k < length h')%nat -> regular S' s) ->
  (forall s, In s h' -> not_below h s -> part_follows rho g g' S S' h s) /\
  ((forall j t, nth_error h j = Some t -> length h = Datatypes.S j -> compressed_at m g S t) ->
   (forall k s, nth_error h' k = Some s -> compressed_at m' g' S' s -> Datatypes.S k = length h') ->
   forall s, In s h' -> not_below h s).
Proof.
  intros HR (P1 & P2 & P3 & P4 & P5 & P6) FL X X' RL RL' T T' NF NF' E E' NB NB' RG RG'.
  pose proof (call_ok _ _ _ _ _ _ X RL T NF E NB) as OK. pose proof (call_ok _ _ _ _ _ _ X' RL' T' NF' E' NB') as OK'.
  destruct (start_good _ _ _ _ _ _ NF E) as (K & cs & HK & HC & NS & PS & DS & TS & KS & ZS & EH & G0).
  destruct (start_good _ _ _ _ _ _ NF' E') as (K' & cs' & HK' & HC' & NS' & PS' & DS' & TS' & KS' & ZS' & EH' & G0').
  cbv zeta in *. clear E E'. set (s0 := init_state (sy_P S) _ _ _) in *. set (s0' := init_state (sy_P S') _ _ _) in *.
  pose (nu := (2 * length (g_rows g))%nat). pose (nu' := (2 * length (g_rows g'))%nat). pose (ps := cons_pairs (g_rows g)). pose (ps' := cons_pairs (g_rows g')).
  assert (LD : length (sy_dq S) = (nu + 3 * length ps)%nat) by (rewrite DS, app_length, repeat_length, (csdH_len m g cs HC), NS; reflexivity).
  assert (LD' : length (sy_dq S') = (nu' + 3 * length ps')%nat) by (rewrite DS', app_length, repeat_length, (csdH_len m' g' cs' HC'), NS'; reflexivity).
  assert (BM : mat_in (nu + 3 * length ps) (tau rho g g') (sy_P S) (sy_P S')).
  { rewrite PS, PS', NS, NS'. apply (bmat_in rho m m' g g' HR _ _ _ _ _ _ K K' cs cs' HK HK' HC HC' NF NF' P1 P2 P3 P6). }
  assert (TL : forall r, (r < nu + 3 * length ps)%nat -> (tau rho g g' r < nu' + 3 * length ps')%nat) by apply (tau_lt rho m m' g g' HR _ _ _ K' cs cs' HK' HC HC' NF NF').
  assert (TI : forall r t, (r < nu + 3 * length ps)%nat -> (t < nu + 3 * length ps)%nat -> tau rho g g' r = tau rho g g' t -> r = t)
    by apply (tau_inj rho m m' g g' HR _ _ _ _ _ _ K K' cs cs' HK HK' HC HC' NF NF').
  assert (IN : inside (nu + 3 * length ps) (sy_P S)) by (intros r c v Hv; rewrite <- LD; apply (ok_idx _ _ OK r c v Hv)).
  assert (IN' : inside (nu' + 3 * length ps') (sy_P S')) by (intros r c v Hv; rewrite <- LD'; apply (ok_idx _ _ OK' r c v Hv)).
  set (ta := tau rho g g') in *.
  assert (UP : forall r, (r < nu)%nat -> (ta r < nu')%nat) by (intros r L; apply (tau_up rho m m' g g' HR r L)).
  assert (Ztop : csZ cs <= csZ cs') by apply (top_in rho m m' g g' HR cs cs' HC HC').
  assert (XZ : forall P q t z r, nth r (xs (init_state P q t z)) 0 == 0).
  { intros P q t z r. unfold xs, init_state. cbn [st_x]. rewrite map_map, (nth_of (map _ q)), nth_error_map. destruct (nth_error q r); reflexivity. }
  (* rows of the bounds and of the rates *)
  assert (AT : forall n l k a, nth (n + (3 * k + a)) (repeat (Fin 0) n ++ l) NaN = match nth_error l (3 * k + a) with Some b => b | None => NaN end).
  { intros n l k a. rewrite app_nth2 by (rewrite repeat_length; lia). rewrite repeat_length. replace (n + (3 * k + a) - n)%nat with (3 * k + a)%nat by lia. apply nth_of. }
  assert (UZ : forall n l r, (r < n)%nat -> nth r (repeat (Fin 0) n ++ l) NaN = Fin 0).
  { intros n l r L. rewrite app_nth1 by (rewrite repeat_length; exact L). rewrite nth_of, nth_error_repeat by exact L. reflexivity. }
  assert (LOW : forall r, (r < nu + 3 * length ps)%nat -> (r < nu)%nat \/ exists k a i j, (a < 3)%nat /\ nth_error ps k = Some (i, j) /\ r = (nu + (3 * k + a))%nat).
  { intros r L. destruct (Nat.lt_ge_cases r nu) as [U|U]; [left; exact U|right]. destruct (split3 (r - nu)) as (k & a & Er & La). exists k, a.
    destruct (nth_error ps k) as [[i j]|] eqn:Ek; [|apply nth_error_None in Ek; lia]. exists i, j. split; [exact La|]. split; [reflexivity|]. lia. }
  assert (RATE : forall r, (r < nu + 3 * length ps)%nat -> dqr S' (ta r) == dqr S r /\
    ((r < nu)%nat -> dqr S r == 0) /\ (forall k a, (a < 3)%nat -> r = (nu + (3 * k + a))%nat -> dqr S r == (if Nat.eqb a 2 then 1 else 0))).
  { intros r L. unfold dqr. rewrite DS, DS', NS, NS'. fold nu nu'. destruct (LOW r L) as [U|(k & a & i & j & La & Ek & Er)].
    - rewrite (UZ nu _ r U), (UZ nu' _ (ta r) (UP r U)). split; [reflexivity|]. split; [reflexivity|]. intros; lia.
    - assert (Lk : (k < length ps)%nat) by (apply nth_error_Some; congruence).
      destruct (rate_in rho m m' g g' HR _ _ _ K' cs cs' HK' HC HC' NF NF' k a Lk La) as [A B]. rewrite Er.
      assert (Et : ta (nu + (3 * k + a))%nat = (nu' + (3 * kap rho g g' k + a))%nat) by apply (tau_row rho g g' k a La). rewrite Et, !AT, A, B. split; [reflexivity|].
      split; [intros; lia|]. intros k2 a2 La2 E2. assert (k2 = k /\ a2 = a) by lia. destruct H as [-> ->]. reflexivity. }
  assert (BND : forall r, (r < nu + 3 * length ps)%nat -> neqv (nadd (nth r (st_q s0) NaN) (Fin ((csZ cs' - csZ cs) * dqr S r))) (nth (ta r) (st_q s0') NaN)).
  { intros r L. change (st_q s0) with (repeat (Fin 0) (sy_nu S) ++ csH cs). change (st_q s0') with (repeat (Fin 0) (sy_nu S') ++ csH cs'). rewrite NS, NS'. fold nu nu'.
    destruct (RATE r L) as (_ & R1 & R2). destruct (LOW r L) as [U|(k & a & i & j & La & Ek & Er)].
    - rewrite (UZ nu _ r U), (UZ nu' _ (ta r) (UP r U)). cbn [nadd neqv]. rewrite (R1 U). ring.
    - assert (R3 : (csZ cs' - csZ cs) * dqr S r == (if Nat.eqb a 2 then csZ cs' - csZ cs else 0)) by (rewrite (R2 k a La Er); destruct (Nat.eqb a 2); ring).
      destruct (bound_in rho m m' g g' HR _ _ _ K' cs cs' HK' HC HC' NF NF' k i j a Ek La) as (b & b' & B1 & B2 & B3).
      assert (Et : ta r = (nu' + (3 * kap rho g g' k + a))%nat) by (rewrite Er; apply (tau_row rho g g' k a La)). rewrite Et, Er, !AT, B1, B2, <- Er.
      etransitivity; [|exact B3]. destruct b; cbn [nadd neqv]; auto. rewrite R3. reflexivity. }
  assert (HP : forall y y', (forall c, (c < length (sy_dq S))%nat -> nth (ta c) y' 0 == nth c y 0) ->
    forall r, (r < length (sy_dq S))%nat -> product (sy_P S') y' (ta r) == product (sy_P S) y r).
  { rewrite LD. intros y y' Hy r L. apply (in_product (nu + 3 * length ps) ta TI (sy_P S) (sy_P S') y y' BM IN Hy r L). }
  assert (HO : forall y', (forall r', (forall c, (c < length (sy_dq S))%nat -> r' <> ta c) -> nth r' y' 0 == 0) ->
    forall r', (forall c, (c < length (sy_dq S))%nat -> r' <> ta c) -> product (sy_P S') y' r' == 0).
  { rewrite LD. intros y' Hy r' O. apply (in_zero (nu + 3 * length ps) ta (sy_P S) (sy_P S') y' r' BM IN Hy O). }
  assert (HFn : forall r, (r < length (sy_dq S))%nat -> fin_row (sy_P S') (ta r) <-> fin_row (sy_P S) r).
  { rewrite LD. intros r L. apply (in_fin (nu + 3 * length ps) ta TI _ _ BM IN r L). }
  assert (HCl : forall r, (r < length (sy_dq S))%nat -> nltb (Fin 0) (colsum (sy_P S') (ta r)) = nltb (Fin 0) (colsum (sy_P S) r)).
  { rewrite LD. intros r L. symmetry. apply nltb_eqv; [apply neqv_refl|]. apply (in_colsum (nu + 3 * length ps) ta TI _ _ (nu' + 3 * length ps') BM IN IN' TL r L). }
  assert (HDQ : forall r, (r < length (sy_dq S))%nat -> dqr S' (ta r) == dqr S r) by (rewrite LD; intros r L; apply (RATE r L)).
  assert (QS : forall r, (r < nu + 3 * length ps)%nat -> (qfin s0' (ta r) <-> qfin s0 r) /\
    (qfin s0 r -> qof (nth (ta r) (st_q s0') NaN) == qof (nth r (st_q s0) NaN) - (csZ cs - csZ cs') * dqr S r)).
  { intros r L. pose proof (BND r L) as B. unfold qfin. destruct (nth r (st_q s0) NaN) as [q| | |], (nth (ta r) (st_q s0') NaN) as [q'| | |]; cbn [nadd neqv] in B; try contradiction.
    - split; [split; intros _; eexists; reflexivity|]. intros _. cbn [qof]. rewrite <- B. ring.
    - split; [split; intros (b & C); discriminate C|intros (b & C); discriminate C].
    - split; [split; intros (b & C); discriminate C|intros (b & C); discriminate C].
    - split; [split; intros (b & C); discriminate C|intros (b & C); discriminate C]. }
  assert (Ht0 : nth_error h 0 = Some s0) by (rewrite EH; reflexivity). assert (Hs0 : nth_error h' 0 = Some s0') by (rewrite EH'; reflexivity).
  assert (CH : forall k s s', nth_error h k = Some s -> nth_error h (Datatypes.S k) = Some s' -> step lsolve S s = Some s').
  { intros k s s'. rewrite EH. intros A B. apply (history_next _ _ _ _ _ _ _ A B). }
  assert (CH' : forall k s s', nth_error h' k = Some s -> nth_error h' (Datatypes.S k) = Some s' -> step lsolve' S' s = Some s').
  { intros k s s'. rewrite EH'. intros A B. apply (history_next _ _ _ _ _ _ _ A B). }
  assert (RE : forall k s s', nth_error h k = Some s -> nth_error h (Datatypes.S k) = Some s' -> regular S s).
  { intros k s s' A B. apply (RG k s A). apply nth_error_Some. congruence. }
  assert (RE' : forall k s s', nth_error h' k = Some s -> nth_error h' (Datatypes.S k) = Some s' -> regular S' s).
  { intros k s s' A B. apply (RG' k s A). apply nth_error_Some. congruence. }
  assert (X0 : forall r, nth r (xs s0) 0 == 0) by (intros r; unfold s0; apply XZ).
  assert (ZT : qof (st_Z s0) == csZ cs) by reflexivity. assert (ZT' : qof (st_Z s0') == csZ cs') by reflexivity.
  assert (LQ : forall r, (r < length (sy_dq S))%nat -> qfin s0 r -> dqr S r == 0 \/ (dqr S r == 1 /\ 0 <= qof (nth r (st_q s0) NaN))).
  { rewrite LD. intros r L _. destruct (RATE r L) as (_ & R1 & R2). destruct (LOW r L) as [U|(k & a & i & j & La & Ek & Er)]; [left; apply (R1 U)|].
    pose proof (R2 k a La Er) as R3. destruct (Nat.eqb_spec a 2) as [Ea|Ea]; [right|left; exact R3]. split; [exact R3|].
    change (st_q s0) with (repeat (Fin 0) (sy_nu S) ++ csH cs). rewrite NS. fold nu. rewrite Er, AT.
    destruct (cons_inv m g cs HC) as (_ & _ & _ & t0 & t & _ & EC). assert (H1 : csH cs = flat_map (h_rows (map snd (g_rows g)) (h_column m (map snd (g_rows g))) (csZ cs)) ps) by (rewrite EC; reflexivity).
    rewrite H1, flat3_nth by (auto; reflexivity). fold ps in Ek. rewrite Ek.
    destruct (pair_inv m g cs HC NF k i j Ek) as (d & e & Hd & He & _). destruct (thick_ex m g cs HC _ _ He) as (he & Te & _).
    unfold h_rows. cbn [fst snd]. rewrite (nth_ds g j e He), (nth_h m g cs HC j e he He Te). rewrite Ea. cbn [nth_error qof].
    pose proof (proj1 (top_spec m g cs HC) j e he He Te). unfold half. qlra. }
  assert (HL : exists r, (r < length (sy_dq S))%nat /\ fin_row (sy_P S) r /\ qfin s0 r /\ qof (nth r (st_q s0) NaN) == 0 /\ dqr S r == 1).
  { destruct FL as (i & j & d & e & he & (Hd & He & EN & Lij) & Te & HT). destruct (pair_ex m g cs HC NF i d j Hd EN Lij) as (k & Ek).
    assert (Lk : (k < length ps)%nat) by (apply nth_error_Some; unfold ps; congruence).
    exists (nu + (3 * k + 2))%nat. assert (Lr : (nu + (3 * k + 2) < nu + 3 * length ps)%nat) by lia. split; [rewrite LD; exact Lr|].
    split; [rewrite PS, NS; apply (below_fin m g _ _ _ K cs HK HC NF); unfold nu; lia|].
    assert (VQ : nth (nu + (3 * k + 2)) (st_q s0) NaN = Fin (csZ cs - nz e - half * he)).
    { change (st_q s0) with (repeat (Fin 0) (sy_nu S) ++ csH cs). rewrite NS. fold nu. rewrite AT.
      destruct (cons_inv m g cs HC) as (_ & _ & _ & t0 & t & _ & EC). assert (H1 : csH cs = flat_map (h_rows (map snd (g_rows g)) (h_column m (map snd (g_rows g))) (csZ cs)) ps) by (rewrite EC; reflexivity).
      rewrite H1, flat3_nth by (auto; reflexivity). unfold ps in *. rewrite Ek.
      unfold h_rows. cbn [fst snd]. rewrite (nth_ds g j e He), (nth_h m g cs HC j e he He Te). reflexivity. }
    split; [eexists; exact VQ|]. rewrite VQ. split; [|rewrite (proj2 (proj2 (RATE _ Lr)) k 2%nat ltac:(lia) eq_refl); reflexivity].
    destruct (top_spec m g cs HC) as (A1 & i2 & d2 & h2 & A2 & A3 & A4). destruct HT as (B1 & _). pose proof (B1 _ _ _ A2 A3). pose proof (A1 _ _ _ He Te).
    cbn [qof]. unfold half. qlra. }
  assert (ST : psim S ta s0' s0 (qof (st_Z s0) - qof (st_Z s0')) []).
  { split.
    - intros r L. unfold s0, s0'. rewrite !XZ. destruct r; cbn [nth]; ring.
    - rewrite LD. intros r L. apply (QS r L).
    - rewrite LD. intros r L Q. rewrite ZT, ZT'. apply (QS r L). exact Q. }
  assert (HI : qof (st_Z s0) <= qof (st_Z s0')) by (rewrite ZT, ZT'; exact Ztop).
  assert (TL2 : forall r, (r < length (sy_dq S))%nat -> (ta r < length (sy_dq S'))%nat) by (rewrite LD, LD'; exact TL).
  assert (TI2 : forall r t, (r < length (sy_dq S))%nat -> (t < length (sy_dq S))%nat -> ta r = ta t -> r = t) by (rewrite LD; exact TI).
  assert (T1 : sy_tol S == 0) by (rewrite TS; exact P4). assert (T2 : sy_tol S' == 0) by (rewrite TS'; exact P5).
  assert (VX : forall n s r, (r < n)%nat -> nth r (map qof (firstn n (st_x s))) 0 = nth r (xs s) 0).
  { intros n s r L. unfold xs. change 0 with (qof NaN). rewrite !map_nth. change (qof NaN) with 0. rewrite nth_firstn by exact L. reflexivity. }
  assert (VF : forall n s r, nth r (map qof (skipn n (st_x s))) 0 = nth (n + r) (xs s) 0).
  { intros n s r. unfold xs. change 0 with (qof NaN). rewrite !map_nth. change (qof NaN) with 0. rewrite nth_skipn. reflexivity. }
  assert (SPLIT : forall s (a b : nat -> Q -> Prop), (forall r, (r < nu)%nat -> a r (nth (ta r) (xs s) 0)) -> (forall r, (r < 3 * length ps)%nat -> b r (nth (ta (nu + r)%nat) (xs s) 0)) ->
    part_is rho g g' S' s a b).
  { intros s a b HA HB. split.
    - intros i Li c Lc. unfold st_u, vals. rewrite NS'. pose proof (rho_lt rho m m' g g' HR i Li) as Lr. rewrite VX by lia.
      destruct c as [|[|c]]; [| |lia].
      + pose proof (HA (2 * i)%nat ltac:(unfold nu; lia)) as H. unfold ta in H. rewrite (tau_disp rho g g' i Li) in H. rewrite !Nat.add_0_r in *. exact H.
      + pose proof (HA (2 * i + 1)%nat ltac:(unfold nu; lia)) as H. unfold ta in H. rewrite (tau_rot rho g g' i Li) in H. exact H.
    - intros k k' i j c Hk Hk' Lc. apply (rank_pair m g cs HC NF) in Hk. apply (rank_pair m' g' cs' HC' NF') in Hk'.
      pose proof (kap_any rho m m' g g' HR _ _ _ K' cs cs' HK' HC HC' NF NF' k k' i j Hk Hk') as ->.
      assert (Lk : (k < length ps)%nat) by (apply nth_error_Some; unfold ps; congruence). unfold st_f, vals. rewrite NS', VF.
      pose proof (HB (3 * k + c)%nat ltac:(lia)) as H. unfold ta, nu in H. rewrite (tau_row rho g g' k c Lc) in H. exact H. }
  assert (LENS : forall s r, (r < nu)%nat -> nth r (vals (st_u S s)) 0 = nth r (xs s) 0) by (intros s r L; unfold st_u, vals; rewrite NS; apply VX; exact L).
  assert (LENF : forall s r, nth r (vals (st_f S s)) 0 = nth (nu + r) (xs s) 0) by (intros s r; unfold st_f, vals; rewrite NS; apply VF).
  split.
  - intros s Hs NBl. apply In_nth_error in Hs. destruct Hs as (k & Hk).
    destruct (part_values lsolve lsolve' S S' OK OK' ta TL2 TI2 HP HO HFn HCl HDQ T1 T2 h h' s0 s0' Ht0 Hs0 CH CH' RE RE' G0 G0' X0 LQ HL ST HI k s Hk NBl) as [(A & B)|(j & t & t' & J & J' & A1 & A2 & A3 & B)].
    + left. split; [exists s0; split; [exact Ht0|exact A]|]. apply SPLIT; intros r L; apply B; rewrite LD; lia.
    + right. exists j, t, t'. do 5 (split; [assumption|]). apply SPLIT; intros r L; unfold on_line.
      * rewrite !LENS by exact L. apply B. rewrite LD. lia.
      * rewrite !LENF. apply B. rewrite LD. lia.
  - intros LC LC' s Hs. apply In_nth_error in Hs. destruct Hs as (k & Hk). intros j t Hj Lj.
    apply (part_ends lsolve lsolve' S S' OK OK' ta TL2 TI2 HP HO HFn HCl HDQ T1 T2 h h' s0 s0' Ht0 Hs0 CH CH' RE RE' G0 G0' X0 LQ HL ST HI) with (k := k) (j := j); auto.
    clear k Hk j t Hj Lj s. intros k u s j t U U' J J' Z P. pose proof (LC j t J J') as C.
    assert (C' : compressed_at m' g' S' u).
    { unfold compressed_at in *. apply (part_compressed rho m m' g g' cs' (qof (st_Z t)) (qof (st_Z u)) (vals (st_u S t)) (vals (st_u S' u)) (sy_tol S) (sy_tol S') HR HC'); auto.
      - rewrite T1, T2. reflexivity.
      - intros i Li. unfold disp. rewrite LENS by (unfold nu; lia). unfold st_u, vals. rewrite NS', VX by (pose proof (rho_lt rho m m' g g' HR i Li); lia).
        pose proof (pq_x _ _ _ _ _ _ P (2 * i)%nat ltac:(rewrite LD; unfold nu; lia)) as Y. unfold ta in Y. rewrite (tau_disp rho g g' i Li) in Y. rewrite Y. ring. }
    pose proof (LC' k u U C') as Y. assert (Datatypes.S k < length h')%nat by (apply nth_error_Some; congruence). lia.
Qed.

(** *** direct solvers *)
Theorem part_calls rho lsolve lsolve' m m' g g' p p' S h S' h' : mesh_within rho m m' g g' -> same_model g g' p p' -> faces_lid m g ->
  direct_solver lsolve -> direct_solver lsolve' -> sound_data m g p -> sound_data m' g' p' -> starts_held m g (sp_tol p) -> starts_held m' g' (sp_tol p') ->
  solve lsolve m g p = Ok (S, h) -> solve lsolve' m' g' p' = Ok (S', h') ->
  numbering (length (sy_dq S)) (sp_perm p) -> numbering (length (sy_dq S')) (sp_perm p') ->
  (forall s, In s h' -> not_below h s -> part_follows rho g g' S S' h s) /\
  ((forall j t, nth_error h j = Some t -> length h = Datatypes.S j -> compressed_at m g S t) -> forall s, In s h' -> part_follows rho g g' S S' h s).
Proof.
  intros HR SM FL D D' SD SD' SH SH' E E' N N'.
  assert (RG : forall k s, nth_error h k = Some s -> (Datatypes.S k < length h)%nat -> regular S s).
  { intros k s Hk L. destruct (go_regular lsolve m g p S h D SD N SH E k s Hk) as (_ & Q & C). apply Q. intros X. apply C in X. lia. }
  assert (RG' : forall k s, nth_error h' k = Some s -> (Datatypes.S k < length h')%nat -> regular S' s).
  { intros k s Hk L. destruct (go_regular lsolve' m' g' p' S' h' D' SD' N' SH' E' k s Hk) as (_ & Q & C). apply Q. intros X. apply C in X. lia. }
  destruct (part_solve rho lsolve lsolve' m m' g g' p p' S h S' h') as [A B]; auto; try apply D; try apply D'; try apply SD; try apply SD'.
  split; [exact A|]. intros LC s Hs. apply (A s Hs). apply (B LC); [|exact Hs].
  intros k u Hk. apply (go_regular lsolve' m' g' p' S' h' D' SD' N' SH' E' k u Hk).
Qed.

(** the highest top faces the lid, when the nodes that face each other do not overlap *)
Theorem faces_made m g cs : constraint m g = Ok cs -> mesh_ok g -> admissible_start m g -> faces_lid m g.
Proof.
  intros HC (_ & n & _ & _ & _ & _ & _ & _ & _ & _ & _ & CI & _) (_ & NO). destruct (top_spec m g cs HC) as (A1 & i & d & h & A2 & A3 & A4).
  assert (HT : highest_top m g (nz d + h / 2)).
  { split; [intros a b c H1 H2; pose proof (A1 a b c H1 H2); lra|]. exists i, d, h. split; [exact A2|]. split; [exact A3|]. reflexivity. }
  destruct (CI i d A2) as (c & e & E1 & Hc & E2). destruct (Nat.lt_ge_cases i c) as [L|L].
  - exfalso. destruct (thick_ex m g cs HC _ _ Hc) as (h' & T' & P'). pose proof (NO i c d e h h' A2 Hc L E1 A3 T') as B.
    pose proof (A1 c e h' Hc T') as B'. unfold disp in B. assert (Z : forall r, nth r (@nil Q) 0 == 0) by (intros [|r]; reflexivity). rewrite !Z in B. qlra.
  - exists c, i, e, d, h. split; [split; [exact Hc|split; [exact A2|split; [exact E2|exact L]]]|]. split; [exact A3|exact HT].
Qed.

(** *** as stated *)
Theorem part_records : forall rho lsolve lsolve' m m' g g' p p' S h S' h', mesh_within rho m m' g g' -> same_model g g' p p' -> faces_lid m g ->
  exact_solver lsolve -> exact_solver lsolve' -> right_length lsolve -> right_length lsolve' -> tolerances_ok p -> tolerances_ok p' ->
  ~ flag_set (g_attrs g) -> ~ flag_set (g_attrs g') ->
  solve lsolve m g p = Ok (S, h) -> solve lsolve' m' g' p' = Ok (S', h') ->
  numbering (length (sy_dq S)) (sp_perm p) -> numbering (length (sy_dq S')) (sp_perm p') ->
  (forall k s, nth_error h k = Some s -> (Datatypes.S k < length h)%nat -> regular S s) ->
  (forall k s, nth_error h' k = Some s -> (Datatypes.S k < length h')%nat -> regular S' s) ->
  forall s, In s h' -> not_below h s -> part_follows rho g g' S S' h s.
Proof. intros rho lsolve lsolve' m m' g g' p p' S h S' h' H1 H2 H3 H4 H5 H6 H7 H8 H9 H10 H11 H12 H13 H14 H15 H16 H17. apply (part_solve rho lsolve lsolve' m m' g g' p p' S h S' h' H1 H2 H3 H4 H5 H6 H7 H8 H9 H10 H11 H12 H13 H14 H15 H16 H17). Qed.
Theorem part_direct : forall rho lsolve lsolve' m m' g g' p p' S h S' h', mesh_within rho m m' g g' -> same_model g g' p p' -> faces_lid m g ->
  direct_solver lsolve -> direct_solver lsolve' -> sound_data m g p -> sound_data m' g' p' -> starts_held m g (sp_tol p) -> starts_held m' g' (sp_tol p') ->
  solve lsolve m g p = Ok (S, h) -> solve lsolve' m' g' p' = Ok (S', h') ->
  numbering (length (sy_dq S)) (sp_perm p) -> numbering (length (sy_dq S')) (sp_perm p') ->
  forall s, In s h' -> not_below h s -> part_follows rho g g' S S' h s.
Proof. intros rho lsolve lsolve' m m' g g' p p' S h S' h' H1 H2 H3 H4 H5 H6 H7 H8 H9 H10 H11 H12 H13. apply (part_calls rho lsolve lsolve' m m' g g' p p' S h S' h' H1 H2 H3 H4 H5 H6 H7 H8 H9 H10 H11 H12 H13). Qed.
Theorem part_to_end : forall rho lsolve lsolve' m m' g g' p p' S h S' h', mesh_within rho m m' g g' -> same_model g g' p p' -> faces_lid m g ->
  direct_solver lsolve -> direct_solver lsolve' -> sound_data m g p -> sound_data m' g' p' -> starts_held m g (sp_tol p) -> starts_held m' g' (sp_tol p') ->
  solve lsolve m g p = Ok (S, h) -> solve lsolve' m' g' p' = Ok (S', h') ->
  numbering (length (sy_dq S)) (sp_perm p) -> numbering (length (sy_dq S')) (sp_perm p') ->
  (forall j t, nth_error h j = Some t -> length h = Datatypes.S j -> compressed_at m g S t) ->
  forall s, In s h' -> part_follows rho g g' S S' h s.
Proof. intros rho lsolve lsolve' m m' g g' p p' S h S' h' H1 H2 H3 H4 H5 H6 H7 H8 H9 H10 H11 H12 H13. apply (part_calls rho lsolve lsolve' m m' g g' p p' S h S' h' H1 H2 H3 H4 H5 H6 H7 H8 H9 H10 H11 H12 H13). Qed.
Theorem faces_stacked : forall linprog m per t thr st m' g cs, net_new m per None = Ok t -> SpecStack.solved linprog m t -> all_in_plane m ->
  stack_new linprog m t thr = Ok (st, m') -> mesh_new st = Ok g -> constraint m' g = Ok cs -> faces_lid m' g.
Proof.
  intros linprog m per t thr st m' g cs Hn Hs HP Hst Hg HC. apply (faces_made m' g cs HC); [apply (stack_ready linprog m per t thr st m' g Hn Hs Hst Hg)|].
  apply (stack_admissible linprog m per t thr st m' g cs Hn Hs HP Hst Hg HC).
Qed.
