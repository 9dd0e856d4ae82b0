(** Proofs about the compression of a mat moved in its plane (C100). *)
From Coq Require Import String.
From Verif Require Import Num NumP ListX ListP Frames MatM NetM StackM MeshM ModelM SolverM Spec SpecNet SpecStack SpecMesh SpecModel SpecSolver SpecMeta SpecTorus SpecPiles
  SpecScale SpecProgress SpecMove CheckP NetP NetGeoP NetZP StackP StackNewP MeshP MeshCheckP MetaP TorusP PilesP.
Open Scope Q_scope.

(** ** mesh of two networks with proportional rows *)
Section Mesh.
  Variable U : units.
  Hypothesis HU : 0 < un_len U.
  Definition pseen (p q : pnode) : Prop :=
    plab q = plab p /\ pcons q = pcons p /\ pf q = pf p /\ ps q == un_len U * ps p /\ pz q == un_len U * pz p.
  Lemma raw_seen rs rs' : Forall2 (row_seen U) rs rs' -> Forall2 pseen (raw_nodes rs) (raw_nodes rs').
  Proof.
    intros F. unfold raw_nodes. rewrite <- (Forall2_len _ _ _ F). generalize 0%nat as a.
    induction F as [|c c' l l' (A & B & SA & SB & ZA & ZB) F IH]; intros a; [constructor|].
    change (length (c :: l)) with (S (length l)). cbn [seq combine flat_map]. apply Forall2_app; [|apply IH].
    unfold two_nodes. cbn [fst snd]. repeat constructor; cbn [plab pcons pf ps pz]; auto.
  Qed.
  Lemma leb_seen x y x' y' : pseen x x' -> pseen y y' -> fs_leb (pf x) (pf y) (ps x) (ps y) = fs_leb (pf x') (pf y') (ps x') (ps y').
  Proof.
    intros (_ & _ & A & B & _) (_ & _ & C & D & _). unfold fs_leb. rewrite A, C. f_equal. f_equal.
    apply eq_true_iff_eq; split; intros L; qb; [rewrite B, D; apply Qmult_le_l; [exact HU|exact L]|rewrite B, D in L; apply (proj1 (Qmult_le_l (ps x) (ps y) (un_len U) HU)); exact L].
  Qed.
  Lemma sorted_seen rs rs' : Forall2 (row_seen U) rs rs' -> Forall2 pseen (sorted_nodes rs) (sorted_nodes rs').
  Proof. intros F. unfold sorted_nodes. apply Forall2_isort; [exact leb_seen|]. apply raw_seen, F. Qed.
  Lemma map_seen {B} (f : pnode -> B) l l' : (forall p q, pseen p q -> f q = f p) -> Forall2 pseen l l' -> map f l' = map f l.
  Proof. intros H F. induction F as [|p q l l' X F IH]; simpl; [reflexivity|]. rewrite IH, (H _ _ X). reflexivity. Qed.
  Lemma group_seen l l' : Forall2 pseen l l' -> groupcat pf (fun g => roll (map plab g)) l' = groupcat pf (fun g => roll (map plab g)) l.
  Proof.
    intros F. unfold groupcat. rewrite (map_seen pf l l'); [|intros p q X; apply X|exact F].
    apply flat_map_ext. intros k. f_equal. apply map_seen; [intros p q X; apply X|].
    apply Forall2_filter; [|exact F]. intros p q (_ & _ & -> & _). reflexivity.
  Qed.
  Lemma find_seen c l l' (ix : list nat) : Forall2 pseen l l' ->
    match find (fun ip => Nat.eqb (fst ip) c) (combine ix l') with Some ip => pf (snd ip) | None => (-1)%Z end =
    match find (fun ip => Nat.eqb (fst ip) c) (combine ix l) with Some ip => pf (snd ip) | None => (-1)%Z end.
  Proof.
    intros F. revert ix. induction F as [|p q l l' X F IH]; intros [|i ix]; cbn [combine find]; try reflexivity.
    cbn [fst]. destruct (Nat.eqb i c); [apply X|apply IH].
  Qed.
  Definition numbered_row (loc : nat -> Z) (q : pnode * (nat * (nat * nat))) : Z * node :=
    let '(p, (i, (b, c))) := q in
    let c' := if Z.eqb (pf p) (loc c) then i else c in
    (Z.of_nat i, mkNode (pf p) (ps p) (px p) (py p) (pz p) (Z.of_nat b) (Z.of_nat c')).
  Lemma rows_seen l l' : Forall2 pseen l l' -> forall loc loc', (forall c, loc' c = loc c) -> forall ic,
    Forall2 (node_seen U) (map (numbered_row loc) (combine l ic)) (map (numbered_row loc') (combine l' ic)).
  Proof.
    intros G loc loc' E. induction G as [|p q l l' X G IH]; intros [|[i [b c]] ic]; cbn [combine map]; constructor; auto.
    unfold numbered_row. rewrite E. destruct X as (X1 & X2 & X3 & X4 & X5). rewrite X3. split; [reflexivity|]. cbn [snd nf nbeam ncons ns nz]. auto 10.
  Qed.
  Lemma nodes_seen rs rs' : Forall2 (row_seen U) rs rs' -> Forall2 (node_seen U) (mesh_nodes rs) (mesh_nodes rs').
  Proof.
    intros F. pose proof (sorted_seen rs rs' F) as G. unfold mesh_nodes.
    set (sn := sorted_nodes rs) in *. set (sn' := sorted_nodes rs') in *. clearbody sn sn'. cbv zeta.
    rewrite (group_seen sn sn' G).
    rewrite (map_seen (fun p => Z.of_nat (plab p)) sn sn'); [|intros p q (-> & _); reflexivity|exact G].
    set (ind := argsortZ (map (fun p => Z.of_nat (plab p)) sn)). set (bm := map (fun i => nth i ind 0%nat) (groupcat pf (fun g => roll (map plab g)) sn)).
    rewrite (map_seen (fun p => nth (plab p) ind 0%nat) sn sn'); [|intros p q (-> & _); reflexivity|exact G].
    rewrite (map_seen (fun p => nth (pcons p) ind 0%nat) sn sn'); [|intros p q (_ & -> & _); reflexivity|exact G].
    set (ix := map (fun p => nth (plab p) ind 0%nat) sn). set (cs := map (fun p => nth (pcons p) ind 0%nat) sn).
    apply (rows_seen sn sn' G (fun c => match find (fun ip => Nat.eqb (fst ip) c) (combine ix sn) with Some ip => pf (snd ip) | None => (-1)%Z end)
      (fun c => match find (fun ip => Nat.eqb (fst ip) c) (combine ix sn') with Some ip => pf (snd ip) | None => (-1)%Z end)).
    intros c. apply find_seen, G.
  Qed.
  Lemma mesh_seen_rows t t' g g' : Forall2 (row_seen U) (map snd (n_rows t)) (map snd (n_rows t')) -> mesh_new t = Ok g -> mesh_new t' = Ok g' -> mesh_seen U g g'.
  Proof.
    intros F H H'. unfold mesh_seen.
    assert (R : forall a b, mesh_new a = Ok b -> g_rows b = mesh_nodes (map snd (n_rows a))).
    { clear. intros a b. unfold mesh_new, mesh_init. destruct (net_check a); [|discriminate]. cbn [bind]. intros H.
      destruct (mesh_check _) in H; [|discriminate]. injection H as <-. reflexivity. }
    rewrite (R _ _ H), (R _ _ H'). apply nodes_seen, F.
  Qed.
End Mesh.

(** ** two networks with the same pairs *)
Definition clt (c d : conn) : Prop := (cA c < cA d)%Z \/ (cA c = cA d /\ (cB c < cB d)%Z).
Inductive increasing : list conn -> Prop :=
| inc_nil : increasing []
| inc_cons : forall c l, (forall d, In d l -> clt c d) -> increasing l -> increasing (c :: l).
Lemma increasing_nth l : (forall i j c d, (i < j)%nat -> nth_error l i = Some c -> nth_error l j = Some d -> clt c d) -> increasing l.
Proof.
  induction l as [|c l IH]; intros H; constructor.
  - intros d Hd. apply In_nth_error in Hd. destruct Hd as (j & Hj). apply (H 0%nat (S j) c d); [lia|reflexivity|exact Hj].
  - apply IH. intros i j a b L A B. apply (H (S i) (S j) a b); [lia|exact A|exact B].
Qed.
Lemma align (R : conn -> conn -> Prop) l : increasing l -> forall l', increasing l' ->
  (forall c, In c l -> exists c', In c' l' /\ cA c' = cA c /\ cB c' = cB c /\ R c c') ->
  (forall c', In c' l' -> exists c, In c l /\ cA c' = cA c /\ cB c' = cB c) -> Forall2 R l l'.
Proof.
  unfold clt. induction 1 as [|c l Hc I IH]; intros l' I' HF HB.
  - destruct l' as [|c' l']; [constructor|]. destruct (HB c') as (c & [] & _). left; reflexivity.
  - destruct I' as [|c' l' Hc' I'].
    + destruct (HF c) as (c' & [] & _). left; reflexivity.
    + destruct (HF c) as (d' & Hd' & A1 & B1 & R1); [left; reflexivity|].
      destruct (HB c') as (d & Hd & A2 & B2); [left; reflexivity|].
      assert (E : d' = c').
      { destruct Hd' as [->|Hd']; [reflexivity|]. exfalso. apply Hc' in Hd'. unfold clt in Hd'.
        destruct Hd as [<-|Hd]; [lia|]. apply Hc in Hd. unfold clt in Hd. lia. }
      subst d'. constructor; [exact R1|]. apply IH; [exact I'| |].
      * intros x Hx. destruct (HF x) as (x' & [<-|Hx'] & A & B & Rx); [right; exact Hx| |eauto 6].
        apply Hc in Hx. unfold clt in Hx. exfalso. lia.
      * intros x' Hx'. destruct (HB x') as (x & [<-|Hx] & A & B); [right; exact Hx'| |eauto].
        apply Hc' in Hx'. unfold clt in Hx'. exfalso. lia.
Qed.

Section Net.
  Variables (M : motion) (U : units) (per : bool) (m m' : qmat).
  Hypothesis HC : carried M U per m m'.
  Hypothesis flat : all_in_plane m.
  Lemma carried_at i f : has_fiber m i f -> exists f', has_fiber m' i f' /\ carried_fiber M U per (q_size m') f f'.
  Proof. intros [L E]. destruct HC as (_ & _ & F & _). destruct (Forall2_nth_error _ _ _ _ _ F E) as (f' & E' & K). exists f'. split; [split; assumption|exact K]. Qed.
  Lemma carried_back i f' : has_fiber m' i f' -> exists f, has_fiber m i f /\ carried_fiber M U per (q_size m') f f'.
  Proof.
    intros [L E]. destruct HC as (_ & _ & F & _). pose proof (Forall2_len _ _ _ F) as EL.
    destruct (nth_error (q_rows m) (Z.to_nat i)) as [f|] eqn:Ef.
    - destruct (Forall2_nth_error _ _ _ _ _ F Ef) as (f2 & E' & K). assert (f2 = f') by congruence. subst f2. exists f. split; [split; assumption|exact K].
    - apply nth_error_None in Ef. assert (Z.to_nat i < length (q_rows m'))%nat by (apply nth_error_Some; congruence). lia.
  Qed.
  Lemma carried_in f' : In f' (q_rows m') -> exists f, In f (q_rows m) /\ carried_fiber M U per (q_size m') f f'.
  Proof.
    intros H. apply In_nth_error in H. destruct H as (i & H). destruct (carried_back (Z.of_nat i) f') as (f & [_ Hf] & K).
    - split; [lia|]. rewrite Nat2Z.id. exact H.
    - exists f. split; [eapply nth_error_In; exact Hf|exact K].
  Qed.
  Lemma carried_len f f' : carried_fiber M U per (q_size m') f f' -> ql f' == mv_k M * ql f.
  Proof. intros ((f1 & (A & _) & _ & (_ & B & _)) & _). rewrite B, A. reflexivity. Qed.
  Lemma carried_flat : all_in_plane m'.
  Proof.
    intros f' H. destruct (carried_in f' H) as (f & Hf & ((f1 & (_ & _ & _ & _ & _ & A) & _ & (_ & _ & _ & _ & _ & B)) & _)).
    unfold in_plane. rewrite B, A. pose proof (flat f Hf) as P. unfold in_plane in P. rewrite P. ring.
  Qed.
  Lemma carried_unit : all_at_most_unit m -> all_at_most_unit m'.
  Proof.
    intros HU f' H. destruct (carried_in f' H) as (f & Hf & ((f1 & (_ & _ & _ & A1 & A2 & _) & _ & (_ & _ & _ & B1 & B2 & _)) & _)).
    unfold at_most_unit. rewrite B1, B2, A1, A2. pose proof (HU f Hf) as P. unfold at_most_unit in P.
    destruct HC as ((_ & HM) & _).
    assert (E : 1 * (mv_c M * qu f - mv_s M * mirrored M (qv f)) * (1 * (mv_c M * qu f - mv_s M * mirrored M (qv f))) + 1 * (mv_s M * qu f + mv_c M * mirrored M (qv f)) * (1 * (mv_s M * qu f + mv_c M * mirrored M (qv f)))
      == (mv_c M * mv_c M + mv_s M * mv_s M) * (qu f * qu f + qv f * qv f)) by (unfold mirrored; destruct (mv_m M); ring).
    rewrite E, HM. lra.
  Qed.
  Lemma carried_short : per = true -> forall f, In f (q_rows m') -> 2 * ql f <= q_size m'.
  Proof.
    intros E f' H. destruct (carried_in f' H) as (f & Hf & K). pose proof (carried_len f f' K) as L.
    destruct HC as ((HM & _) & _ & _ & HP). destruct (HP E) as (_ & ES & _ & HS). specialize (HS f Hf). rewrite L, ES.
    setoid_replace (2 * (mv_k M * ql f)) with (mv_k M * (2 * ql f)) by ring. apply Qmult_le_l; assumption.
  Qed.
  Lemma carried_boxes : valid m -> valid m' -> per = true -> boxes M m m'.
  Proof.
    intros V V' E. pose proof carried_short as S'. destruct HC as (_ & _ & _ & HP). destruct (HP E) as (A & B & _ & HS).
    split; [exact A|]. split; [exact B|]. split; intros f Hf.
    - pose proof (HS f Hf). destruct (valid_fiber m V f Hf) as (L & _). lra.
    - pose proof (S' E f Hf). destruct (valid_fiber m' V' f Hf) as (L & _). lra.
  Qed.
  Lemma carried_pair f g f' g' i j : has_fiber m i f -> has_fiber m j g -> carried_fiber M U per (q_size m') f f' -> carried_fiber M U per (q_size m') g g' ->
    alike_pair M per (q_size m') 1 1 f g f' g'.
  Proof.
    intros [_ Hf] [_ Hg] (A & _) (B & _). split; [exact A|]. split; [exact B|]. left. split; apply flat; eapply nth_error_In; eassumption.
  Qed.
  Variables (t t' : net_df).
  Hypothesis Ht : net_new m per None = Ok t.
  Hypothesis Ht' : net_new m' per None = Ok t'.
  Lemma carried_joined A B f g s s' : A <> B -> has_fiber m A f -> has_fiber m B g ->
    (joined t A B s s' <-> joined t' A B (1 * (mv_k M * s)) (1 * (mv_k M * s'))).
  Proof.
    intros N Hf Hg. destruct (carried_at A f Hf) as (f' & Hf' & Kf). destruct (carried_at B g Hg) as (g' & Hg' & Kg).
    pose proof HC as (HM & _ & _ & HP).
    apply (alike_joined M m m' per 1 1 f g f' g' HM (carried_pair f g f' g' A B Hf Hg Kf Kg)); auto.
    - intros E. destruct (HP E) as (X & Y & _). auto.
    - intros E. destruct (HP E) as (_ & _ & X & Y). split; [exact flat|]. split; [exact X|]. split; [exact Y|].
      split; [exact carried_flat|]. split; [apply carried_unit, X|apply carried_short, E].
  Qed.
  Lemma net_increasing m0 t0 : net_new m0 per None = Ok t0 -> increasing (map snd (n_rows t0)).
  Proof.
    intros H. assert (NO : net_ok t0) by (eapply new_ok; exact H). apply increasing_nth. intros i j c d L Hc Hd.
    apply (rows_snd t0 i c NO) in Hc. apply (rows_snd t0 j d NO) in Hd. exact (rows_increasing m0 per None t0 H i j c d L Hc Hd).
  Qed.
  Hypothesis HZ : forall i f f', has_fiber m i f -> has_fiber m' i f' -> qz f' == un_len U * qz f.
  Lemma row_at m0 t0 c : net_new m0 per None = Ok t0 -> all_in_plane m0 -> In c (map snd (n_rows t0)) ->
    exists k f g, is_row t0 k c /\ (cA c <= cB c)%Z /\ has_fiber m0 (cA c) f /\ has_fiber m0 (cB c) g /\ czA c == qz f /\ czB c == qz g.
  Proof.
    intros H P Hc. assert (NO : net_ok t0) by (eapply new_ok; exact H). apply In_nth_error in Hc. destruct Hc as (k & Hc).
    apply (rows_snd t0 k c NO) in Hc. destruct (row_facts m0 per None t0 H k c Hc) as (f & g & Hf & Hg & L & _ & _ & E3 & _ & _ & E6 & _).
    exists k, f, g. split; [exact Hc|]. split; [exact L|]. split; [exact Hf|]. split; [exact Hg|].
    rewrite E3, E6. unfold az.
    pose proof (P f (nth_error_In _ _ (proj2 Hf))) as P1. pose proof (P g (nth_error_In _ _ (proj2 Hg))) as P2. unfold in_plane in P1, P2. rewrite P1, P2. split; ring.
  Qed.
  Lemma row_match c : In c (map snd (n_rows t)) -> exists c', In c' (map snd (n_rows t')) /\ cA c' = cA c /\ cB c' = cB c /\ row_seen U c c'.
  Proof.
    intros Hc. destruct (row_at m t c Ht flat Hc) as (k & f & g & Hr & L & Hf & Hg & Z1 & Z2).
    destruct (carried_at _ f Hf) as (f' & Hf' & Kf). destruct (carried_at _ g Hg) as (g' & Hg' & Kg).
    assert (NO : net_ok t') by (eapply new_ok; exact Ht'). pose proof HC as (_ & HK & _).
    assert (X : exists k' c', is_row t' k' c' /\ cA c' = cA c /\ cB c' = cB c /\ csA c' == mv_k M * csA c /\ csB c' == mv_k M * csB c).
    { destruct (Z.eq_dec (cA c) (cB c)) as [E|N].
      - destruct (end_nodes m' per t' (cA c) f' Ht' Hf') as (k' & c' & Hr' & EA & EB & SA & SB & _).
        destruct (end_abscissae m per None t k c f Ht Hr E Hf) as (TA & TB). exists k', c'. pose proof (carried_len f f' Kf) as EL.
        split; [exact Hr'|]. split; [exact EA|]. split; [congruence|]. rewrite SA, SB, TA, TB, EL. split; field.
      - assert (J : joined t (cA c) (cB c) (csA c) (csB c)).
        { exists k, c. split; [exact Hr|]. left. repeat split; reflexivity. }
        apply (carried_joined _ _ f g _ _ N Hf Hg) in J. destruct J as (k' & c' & Hr' & [(EA & EB & SA & SB)|(EA & EB & SA & SB)]).
        + exists k', c'. split; [exact Hr'|]. split; [exact EA|]. split; [exact EB|]. rewrite SA, SB. split; ring.
        + exfalso. destruct (row_facts m' per None t' Ht' k' c' Hr') as (? & ? & _ & _ & L' & _). lia. }
    destruct X as (k' & c' & Hr' & EA & EB & SA & SB).
    assert (Hc' : In c' (map snd (n_rows t'))) by (eapply nth_error_In; apply (rows_snd t' k' c' NO), Hr').
    exists c'. split; [exact Hc'|]. split; [exact EA|]. split; [exact EB|].
    destruct (row_at m' t' c' Ht' carried_flat Hc') as (_ & f2 & g2 & _ & _ & Hf2 & Hg2 & Z3 & Z4). rewrite EA in Hf2. rewrite EB in Hg2.
    repeat split; auto; try (rewrite <- HK; assumption).
    - rewrite Z3, Z1. exact (HZ _ _ _ Hf Hf2).
    - rewrite Z4, Z2. exact (HZ _ _ _ Hg Hg2).
  Qed.
  Lemma row_back c' : In c' (map snd (n_rows t')) -> exists c, In c (map snd (n_rows t)) /\ cA c' = cA c /\ cB c' = cB c.
  Proof.
    intros Hc. destruct (row_at m' t' c' Ht' carried_flat Hc) as (k & f' & g' & Hr & L & Hf' & Hg' & _).
    destruct (carried_back _ f' Hf') as (f & Hf & Kf). destruct (carried_back _ g' Hg') as (g & Hg & Kg).
    assert (NO : net_ok t) by (eapply new_ok; exact Ht). pose proof HC as ((KP & _) & _).
    destruct (Z.eq_dec (cA c') (cB c')) as [E|N].
    - destruct (end_nodes m per t (cA c') f Ht Hf) as (k' & c & Hr' & EA & EB & _). exists c.
      split; [eapply nth_error_In; apply (rows_snd t k' c NO), Hr'|]. split; congruence.
    - assert (J : joined t' (cA c') (cB c') (1 * (mv_k M * (csA c' / mv_k M))) (1 * (mv_k M * (csB c' / mv_k M)))).
      { exists k, c'. split; [exact Hr|]. left. repeat split; try reflexivity; field; intros Z; rewrite Z in KP; exact (Qlt_irrefl 0 KP). }
      apply (carried_joined _ _ f g _ _ N Hf Hg) in J. destruct J as (k' & c & Hr' & [(EA & EB & _)|(EA & EB & _)]).
      + exists c. split; [eapply nth_error_In; apply (rows_snd t k' c NO), Hr'|]. split; congruence.
      + exfalso. destruct (row_facts m per None t Ht k' c Hr') as (? & ? & _ & _ & L' & _). lia.
  Qed.
  Lemma net_seen : Forall2 (row_seen U) (map snd (n_rows t)) (map snd (n_rows t')).
  Proof. apply align; [eapply net_increasing; exact Ht|eapply net_increasing; exact Ht'|exact row_match|exact row_back]. Qed.
End Net.

(** ** stack, mesh *)
Lemma carried_heights M U per m m' n n' : carried M U per m m' -> same_but_heights m n -> same_but_heights m' n' -> carried M U per n n'.
Proof.
  intros (HM & HK & F & HP) (S1 & F1) (S2 & F2). split; [exact HM|]. split; [exact HK|]. split.
  - rewrite <- S2. set (size := q_size m') in *. clearbody size. clear S1 S2 HP.
    assert (K : Forall2 (carried_fiber M U per size) (q_rows m) (q_rows m') -> Forall2 (carried_fiber M U per size) (q_rows n) (q_rows n')).
    { clear F. intros F. revert F1 F2. generalize (q_rows n) as l. generalize (q_rows n') as l'. induction F as [|f f' r r' Hf F IH]; intros l' l F1 F2.
      - inversion F1. inversion F2. constructor.
      - inversion F1 as [|? g ? k E1 G1]; subst. inversion F2 as [|? g' ? k' E2 G2]; subst. constructor; [|apply IH; assumption].
        destruct E1 as (A1 & A2 & A3 & A4 & A5 & A6 & A7 & A8 & A9 & A10). destruct E2 as (B1 & B2 & B3 & B4 & B5 & B6 & B7 & B8 & B9 & B10).
        destruct Hf as ((f1 & FO & _ & ST) & SE). split.
        + exists (with_z f1 (mv_k M * qz g + mv_z M)). split; [|split].
          * unfold follows in *. cbn [with_z ql qx qy qu qv qw]. rewrite <- A1, <- A4, <- A5, <- A6, <- A7, <- A8. exact FO.
          * unfold rises. cbn [with_z qz]. reflexivity.
          * unfold strand in *. cbn [with_z ql qx qy qu qv qw]. rewrite <- B1, <- B4, <- B5, <- B6, <- B7, <- B8. exact ST.
        + unfold fiber_seen in *. rewrite <- A2, <- A3, <- A9, <- A10, <- B2, <- B3, <- B9, <- B10. exact SE. }
    apply K, F.
  - intros E. destruct (HP E) as (Q & ES & UN & SH). split; [exact Q|]. rewrite <- S1, <- S2. split; [exact ES|].
    split; intros f Hf; apply In_nth_error in Hf; destruct Hf as (i & Hf).
    + destruct (same_fiber n m (Z.of_nat i) f (same_sym m n (conj S1 F1))) as (f0 & [_ H0] & (_ & _ & _ & _ & _ & A6 & A7 & _)); [split; [lia|rewrite Nat2Z.id; exact Hf]|].
      pose proof (UN f0 (nth_error_In _ _ H0)) as X. unfold at_most_unit in *. rewrite A6, A7. exact X.
    + destruct (same_fiber n m (Z.of_nat i) f (same_sym m n (conj S1 F1))) as (f0 & [_ H0] & (A1 & _)); [split; [lia|rewrite Nat2Z.id; exact Hf]|].
      rewrite A1. exact (SH f0 (nth_error_In _ _ H0)).
Qed.
Lemma enum_snd {A} (l : list A) : map snd (enum l) = l.
Proof.
  unfold enum. assert (H : forall a, map snd (combine (map Z.of_nat (seq a (length l))) l) = l); [|apply H].
  induction l as [|x l IH]; intros a; cbn [length seq map combine]; [reflexivity|]. cbn [snd]. f_equal. apply IH.
Qed.
Section Stacked.
  Variables (linprog linprog' : lp -> list Q) (M : motion) (U : units) (per : bool) (m m' : qmat) (t t' : net_df).
  Hypothesis HC : carried M U per m m'.
  Hypothesis flat : all_in_plane m.
  Hypothesis Ht : net_new m per None = Ok t.
  Hypothesis Ht' : net_new m' per None = Ok t'.
  Hypothesis S1 : solved linprog m t.
  Hypothesis S2 : solved linprog' m' t'.
  Variables (thr thr' : option Q) (st st' : net_df) (n n' : qmat).
  Hypothesis HT : option_in U thr thr'.
  Hypothesis R1 : stack_new linprog m t thr = Ok (st, n).
  Hypothesis R2 : stack_new linprog' m' t' thr' = Ok (st', n').
  Lemma mv_heights i f f' : has_fiber n i f -> has_fiber n' i f' -> qz f' == un_len U * qz f.
  Proof.
    intros Hf Hf'. destruct (built_inv linprog m per t Ht S1 _ _ _ R1) as (_ & _ & _ & SB & _).
    destruct (same_fiber n m i f (same_sym _ _ SB) Hf) as (f0 & Hf0 & _).
    rewrite <- (heights_fiber n i f Hf), <- (heights_fiber n' i f' Hf'). pose proof HC as (HM & HK & _). rewrite <- HK.
    refine (arranged_eq linprog linprog' M m m' per t t' (fun i => i) Ht Ht' HM flat _ thr thr' st st' n n' S1 S2 R1 R2 _ _ i f0 Hf0).
    - apply (carried_boxes M U per m m' HC); [apply (new_facts _ _ _ _ Ht)|apply (new_facts _ _ _ _ Ht')].
    - split; [|split; intros; assumption]. intros j g Hg. destruct (carried_at M U per m m' HC j g Hg) as (g' & Hg' & AL & (_ & EH & _)).
      exists g'. split; [exact Hg'|]. split; [exists 1; exact AL|]. rewrite EH, HK. reflexivity.
    - intros a b fa gb _ Hb _. destruct (carried_back M U per m m' HC b gb Hb) as (g & Hg & _). exists b, g. split; [exact Hg|reflexivity].
  Qed.
  Lemma mv_carried : carried M U per n n'.
  Proof.
    destruct (built_inv linprog m per t Ht S1 _ _ _ R1) as (_ & _ & _ & SB & _). destruct (built_inv linprog' m' per t' Ht' S2 _ _ _ R2) as (_ & _ & _ & SB' & _).
    exact (carried_heights M U per m m' n n' HC SB SB').
  Qed.
  Lemma mv_mat : mat_seen U n n'.
  Proof. destruct mv_carried as (_ & _ & F & _). unfold mat_seen. induction F as [|f f' l l' (_ & X) F IH]; constructor; assumption. Qed.
  Lemma mv_rows : Forall2 (row_seen U) (map snd (n_rows st)) (map snd (n_rows st')).
  Proof.
    destruct (built_inv linprog m per t Ht S1 _ _ _ R1) as (_ & _ & _ & SB & _ & full & Hfull & E1).
    destruct (built_inv linprog' m' per t' Ht' S2 _ _ _ R2) as (_ & _ & _ & _ & _ & full' & Hfull' & E2).
    pose proof (net_seen M U per n n' mv_carried (same_plane _ _ SB flat) full full' Hfull Hfull' mv_heights) as F. rewrite E1, E2. clear E1 E2.
    clear R1 R2. destruct thr as [d|], thr' as [d'|]; cbn [option_in filter_net n_rows] in *; try contradiction; [|exact F].
    rewrite !enum_snd. apply Forall2_filter; [|exact F]. intros c c' (EA & EB & _ & _ & ZA & ZB). unfold kept. rewrite EA, EB. f_equal.
    destruct HC as ((KP & _) & HK & _).
    assert (L : 0 < un_len U) by (rewrite <- HK; exact KP).
    assert (EZ : Qabs (czB c' - czA c') == un_len U * Qabs (czB c - czA c)).
    { rewrite <- (Qabs_pos (un_len U)) at 1 by (apply Qlt_le_weak, L). rewrite <- Qabs_Qmult. apply Qabs_wd. rewrite ZA, ZB. ring. }
    apply eq_true_iff_eq; split; intros X; qb.
    - rewrite EZ, HT. apply Qmult_le_l; assumption.
    - rewrite EZ, HT in X. apply (proj1 (Qmult_le_l _ _ (un_len U) L)). exact X.
  Qed.
  Lemma mv_mesh g g' : mesh_new st = Ok g -> mesh_new st' = Ok g' -> mesh_seen U g g'.
  Proof.
    intros Hg Hg'. refine (mesh_seen_rows U _ st st' g g' mv_rows Hg Hg'). destruct HC as ((KP & _) & HK & _). rewrite <- HK. exact KP.
  Qed.
End Stacked.

Theorem move_stack linprog linprog' M U per m m' t t' : carried M U per m m' -> all_in_plane m ->
  net_new m per None = Ok t -> net_new m' per None = Ok t' -> solved linprog m t -> solved linprog' m' t' ->
  forall thr thr' st st' n n', option_in U thr thr' -> stack_new linprog m t thr = Ok (st, n) -> stack_new linprog' m' t' thr' = Ok (st', n') ->
  Forall2 (row_seen U) (map snd (n_rows st)) (map snd (n_rows st')) /\ carried M U per n n' /\
  (forall i f f', has_fiber n i f -> has_fiber n' i f' -> qz f' == un_len U * qz f) /\
  forall g g', mesh_new st = Ok g -> mesh_new st' = Ok g' -> mesh_seen U g g'.
Proof.
  intros HC P Ht Ht' S1 S2 thr thr' st st' n n' HT R1 R2. split; [|split; [|split]].
  - exact (mv_rows linprog linprog' M U per m m' t t' HC P Ht Ht' S1 S2 thr thr' st st' n n' HT R1 R2).
  - exact (mv_carried linprog linprog' M U per m m' t t' HC Ht Ht' S1 S2 thr thr' st st' n n' R1 R2).
  - exact (mv_heights linprog linprog' M U per m m' t t' HC P Ht Ht' S1 S2 thr thr' st st' n n' R1 R2).
  - exact (mv_mesh linprog linprog' M U per m m' t t' HC P Ht Ht' S1 S2 thr thr' st st' n n' HT R1 R2).
Qed.
