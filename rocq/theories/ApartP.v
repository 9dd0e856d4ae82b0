(** Proofs about fibers of a mat that touch none of the others (C108). *)
From Coq Require Import String.
From Verif Require Import Num NumP ListX ListP Frames MatM NetM StackM MeshM ModelM SolverM InterpM ResultM Spec SpecNet SpecStack SpecMesh SpecModel SpecSolver SpecMeta SpecTorus SpecPiles
  SpecMain SpecPack SpecScale SpecProgress SpecMove SpecRename SpecOrder SpecPart SpecApart CheckP NetP NetGeoP NetZP StackP StackNewP MeshP MeshCheckP MetaP TorusP PilesP MoveP OrderP
  MainP PackP RenameP OrderRunP PartP.
Open Scope Q_scope.

(** ** meshes whose rows are found one way *)
Section Within.
  Variables (F : Z -> Z -> Q -> Prop) (st st' : net_df) (g g' : mesh_df).
  Let G : Z -> Z -> Q -> Prop := fun a i r => F i a r.
  Hypothesis Hg : mesh_new st = Ok g.
  Hypothesis Hg' : mesh_new st' = Ok g'.
  Hypothesis RT : forall c, In c (map snd (n_rows st)) -> exists c', In c' (map snd (n_rows st')) /\ row_to F c c'.
  Hypothesis RB : forall c' x a r, In c' (map snd (n_rows st')) -> G (fib c' x) a r -> exists c, In c (map snd (n_rows st)) /\ row_to G c' c.
  Hypothesis FN : forall i j a b r s, F i a r -> F j b s -> (i = j <-> a = b).
  Hypothesis F1 : forall i a r, F i a r -> r == 1.
  Hypothesis UP : forall k c, nth_row st k c -> (cA c <= cB c)%Z.
  Hypothesis UP' : forall k c, nth_row st' k c -> (cA c <= cB c)%Z.
  Hypothesis ON : once st.
  Hypothesis NT' : no_ties g'.
  Let FS : forall i a r, F i a r -> r == 1 \/ r == - (1).
  Proof. intros i a r H. left. exact (F1 _ _ _ H). Qed.
  Let FU : forall i a r s, F i a r -> F i a s -> r == s.
  Proof. intros i a r s A B. rewrite (F1 _ _ _ A), (F1 _ _ _ B). reflexivity. Qed.
  Let GN : forall a b i j r s, G a i r -> G b j s -> (a = b <-> i = j).
  Proof. intros a b i j r s A B. symmetry. exact (FN _ _ _ _ _ _ A B). Qed.
  Let GS : forall a i r, G a i r -> r == 1 \/ r == - (1).
  Proof. intros a i r A. exact (FS _ _ _ A). Qed.
  Let GU : forall a i r s, G a i r -> G a i s -> r == s.
  Proof. intros a i r s A B. exact (FU _ _ _ _ A B). Qed.
  Lemma in_no_ties : no_ties g.
  Proof. exact (no_ties_to G st' st g' g Hg' Hg RT GN GS GU ON NT'). Qed.
  Lemma in_onto x' d' a r : is_node (g_rows g') x' d' -> F a (nf d') r -> exists x, at_same F g g' x x'.
  Proof. intros H Fa. destruct (same_total G st' st g' g Hg' Hg RB GN GS x' d' a r H Fa) as (x & S). exists x. apply (same_sym_at G g' g x' x GS) in S. exact S. Qed.
  Theorem meshes_in : exists rho,
    (forall i, (i < length (g_rows g))%nat -> (rho i < length (g_rows g'))%nat) /\
    (forall i j, (i < length (g_rows g))%nat -> (j < length (g_rows g))%nat -> rho i = rho j -> i = j) /\
    (forall i, (i < length (g_rows g))%nat -> at_same F g g' i (rho i)) /\
    (forall i j, (i < length (g_rows g))%nat -> (j < length (g_rows g))%nat -> contact g i j <-> contact g' (rho i) (rho j)) /\
    (forall i j d e d' e', is_node (g_rows g) i d -> is_node (g_rows g) j e -> is_node (g_rows g') (rho i) d' -> is_node (g_rows g') (rho j) e' ->
       (beam_element g i j d e <-> beam_element g' (rho i) (rho j) d' e') /\ (beam_element g i j d e -> ns e' - ns d' == ns e - ns d)) /\
    (forall i' d', is_node (g_rows g') i' d' -> SpecPart.found rho g i' <-> exists i r, F i (nf d') r) /\
    (forall i' j', contact g' i' j' -> SpecPart.found rho g i' <-> SpecPart.found rho g j').
  Proof.
    pose proof in_no_ties as NT.
    destruct (finite_choice (at_same F g g') 0%nat (length (g_rows g))) as (rho & HN).
    { intros i L. destruct (node_ex _ _ L) as (d & Hd). destruct (node_row st g i d Hg Hd) as (k & c & b & Hk & _ & E1 & _).
      destruct (RT c) as (c' & _ & rA & rB & FA & FB & _); [apply in_row; eauto|].
      assert (X : exists a r, F (nf d) a r) by (rewrite E1; destruct b; unfold fib; eauto). destruct X as (a & r & Fa).
      exact (same_total F st st' g g' Hg Hg' (fun c x a r Hc _ => RT c Hc) FN FS i d a r Hd Fa). }
    assert (LT : forall i x, at_same F g g' i x -> (i < length (g_rows g))%nat /\ (x < length (g_rows g'))%nat).
    { intros i x (d & d' & r & A & B & _). split; eapply node_lt; eassumption. }
    assert (FD : forall i' d', is_node (g_rows g') i' d' -> SpecPart.found rho g i' <-> exists i r, F i (nf d') r).
    { intros i' d' Hd'. split.
      - intros (i & L & ->). destruct (HN i L) as (d & d0 & r & _ & A & Fr & _). rewrite (node_fun _ _ _ _ Hd' A). eauto.
      - intros (a & r & Fa). destruct (in_onto i' d' a r Hd' Fa) as (x & S). exists x. destruct (LT _ _ S) as [L _]. split; [exact L|].
        exact (same_fun F g g' FN FU NT' x _ _ S (HN x L)). }
    exists rho. split; [intros i L; exact (proj2 (LT _ _ (HN i L)))|]. split.
    { intros i j Li Lj E. apply (same_inj F g g' FN FS FU i j (rho i) NT); [exact (HN i Li)|rewrite E; exact (HN j Lj)]. }
    split; [exact HN|]. split; [|split; [|split; [exact FD|]]].
    - intros i j Li Lj. split; intros C.
      + exact (contact_to F st st' g g' Hg Hg' (fun c x a r Hc _ => RT c Hc) FN FS FU NT' UP UP' i j _ _ C (HN i Li) (HN j Lj)).
      + refine (contact_to G st' st g' g Hg' Hg RB GN GS GU NT UP' UP _ _ i j C _ _); apply same_sym_at; auto.
    - intros i j d e d' e' Hi Hj Hi' Hj'. pose proof (HN i (node_lt _ _ _ Hi)) as Si. pose proof (HN j (node_lt _ _ _ Hj)) as Sj.
      assert (Si' : at_same G g' g (rho i) i) by (apply same_sym_at; auto). assert (Sj' : at_same G g' g (rho j) j) by (apply same_sym_at; auto).
      pose proof Si as (d0 & d0' & r & A1 & A2 & Fr & _). pose proof (node_fun _ _ _ _ A1 Hi). pose proof (node_fun _ _ _ _ A2 Hi'). subst d0 d0'.
      assert (BT' : forall x d a r, is_node (g_rows g) x d -> G a (nf d) r -> exists x', at_same G g' g x' x).
      { intros x d0 a0 r0 Hx _. exists (rho x). apply same_sym_at; [exact FS|]. apply HN. exact (node_lt _ _ _ Hx). }
      pose proof (fun B => beam_to F st st' g g' Hg Hg' FN FU NT' NT in_onto i j _ _ d e d' e' r B Si Sj Hi' Hj' Fr) as W.
      split; [split|].
      + intros B. apply (W B), (F1 _ _ _ Fr).
      + intros B. apply (beam_to G st' st g' g Hg' Hg GN GU NT NT' BT' _ _ _ _ _ _ _ _ r B Si' Sj' Hi Hj Fr), (F1 _ _ _ Fr).
      + intros B. apply (W B), (F1 _ _ _ Fr).
    - intros i' j' (d' & Hd' & Ec & _). destruct (node_row st' g' i' d' Hg' Hd') as (k & c & b & Hk & Ep & E1 & _ & _ & Ec').
      destruct (Z.eqb_spec (cA c) (cB c)) as [E|N]; [assert (j' = i') by lia; subst j'; tauto|].
      assert (Ej : j' = place (map snd (n_rows st')) k (negb b)) by lia. destruct (row_at_node st' g' k c (negb b) Hg' Hk) as (e' & He' & E2 & _). rewrite <- Ej in He'.
      rewrite (FD i' d' Hd'), (FD j' e' He'), E1, E2.
      assert (K : forall x y, (exists i r, F i (fib c x) r) -> exists i r, F i (fib c y) r).
      { intros x y (i & r & Fi). destruct (RB c x i r) as (c0 & _ & rA & rB & GA & GB & _); [apply in_row; eauto|exact Fi|]. destruct y; unfold fib; [exists (cB c0), rB; exact GB|exists (cA c0), rA; exact GA]. }
      split; apply K.
  Qed.
End Within.

(** ** the stacks of the two mats *)
Section Apart.
  Variables (linprog linprog' : lp -> list Q) (e : Z -> Z) (per : bool) (m m' : qmat) (t t' : net_df).
  Hypothesis HC : set_apart e per t t' m m'.
  Hypothesis flat' : all_in_plane m'.
  Lemma ap_in f : In f (q_rows m) -> exists f', In f' (q_rows m') /\ strand per (q_size m') 1 f f' /\ fiber_seen no_units f f'.
  Proof.
    intros H. apply In_nth_error in H. destruct H as (j & H). destruct HC as (_ & H1 & _). destruct (H1 (Z.of_nat j) f) as (f' & [_ Hf'] & K); [split; [lia|rewrite Nat2Z.id; exact H]|].
    exists f'. split; [eapply nth_error_In; exact Hf'|exact K].
  Qed.
  Lemma ap_flat : all_in_plane m.
  Proof.
    intros f H. destruct (ap_in f H) as (f' & Hf' & (_ & _ & _ & _ & _ & B) & _). pose proof (flat' f' Hf') as P. unfold in_plane in *. rewrite B in P. rewrite <- P. ring.
  Qed.
  Lemma ap_per : per = true -> all_at_most_unit m /\ (forall f, In f (q_rows m) -> 2 * ql f <= q_size m) /\
    all_at_most_unit m' /\ (forall f, In f (q_rows m') -> 2 * ql f <= q_size m').
  Proof.
    intros E. pose proof HC as (ES & _ & _ & _ & _ & HP). destruct (HP E) as (A & B). split; [|split; [|split; [exact A|exact B]]]; intros f H; destruct (ap_in f H) as (f' & Hf' & (_ & L & _ & U & V & _) & _).
    - pose proof (A f' Hf') as X. unfold at_most_unit in *. rewrite U, V in X.
      assert (EQ : 1 * qu f * (1 * qu f) + 1 * qv f * (1 * qv f) == qu f * qu f + qv f * qv f) by ring. rewrite EQ in X. exact X.
    - rewrite <- L, <- ES. exact (B f' Hf').
  Qed.
  Lemma ap_boxes : valid m -> valid m' -> per = true -> boxes ident m m'.
  Proof.
    intros V V' E. pose proof HC as (ES & _). destruct (ap_per E) as (_ & A & _ & B). split; [exact (proj2 ident_ok)|]. split; [cbn [mv_k ident]; rewrite ES; ring|]. split; intros f Hf.
    - pose proof (A f Hf). destruct (valid_fiber m V f Hf) as (L & _). lra.
    - pose proof (B f Hf). destruct (valid_fiber m' V' f Hf) as (L & _). lra.
  Qed.
  Hypothesis Ht : net_new m per None = Ok t.
  Hypothesis Ht' : net_new m' per None = Ok t'.
  Hypothesis S1 : SpecStack.solved linprog m t.
  Hypothesis S2 : SpecStack.solved linprog' m' t'.
  Variables (thr : option Q) (st st' : net_df) (n n' : qmat).
  Hypothesis R1 : stack_new linprog m t thr = Ok (st, n).
  Hypothesis R2 : stack_new linprog' m' t' thr = Ok (st', n').
  Lemma ap_heights i f f' : has_fiber n i f -> has_fiber n' (e i) f' -> qz f' == qz f.
  Proof.
    intros Hf Hf'. destruct (built_inv linprog m per t Ht S1 _ _ _ R1) as (_ & _ & _ & SB & _).
    destruct (same_fiber n m i f (same_sym _ _ SB) Hf) as (f0 & Hf0 & _).
    rewrite <- (heights_fiber n i f Hf), <- (heights_fiber n' (e i) f' Hf').
    setoid_replace (height (heights n) i) with (mv_k ident * height (heights n) i) by (cbn [mv_k ident]; ring).
    pose proof HC as (ES & H1 & HI & HO & HA & _).
    refine (arranged_eq linprog linprog' ident m m' per t t' e Ht Ht' (proj1 ident_ok) ap_flat _ thr thr st st' n n' S1 S2 R1 R2 _ _ i f0 Hf0).
    - apply ap_boxes; [apply (new_facts _ _ _ _ Ht)|apply (new_facts _ _ _ _ Ht')].
    - split; [|split].
      + intros j g Hg. destruct (H1 j g Hg) as (g' & Hg' & ST & (_ & EH & _)). exists g'. split; [exact Hg'|]. split; [exists 1; apply ident_alike, ST|].
        cbn [mv_k ident]. rewrite EH. reflexivity.
      + intros a b fa gb Ha Hb L (s & s' & k & c & Hr & J). apply HO. split; [exact L|]. pose proof (net_up _ _ _ _ _ Ht Hr).
        exists k, c. destruct J as [(A & B & _)|(A & B & _)]; [auto|lia].
      + intros a b fa gb Ha Hb. apply HI.
    - intros a b fa gb Ha _ CN. apply (HA _ _ CN). exists a, fa. auto.
  Qed.
  Definition calls (i a : Z) (r : Q) : Prop := a = e i /\ r = 1 /\ exists f, has_fiber m i f.
  Lemma calls_fun i j a b r s : calls i a r -> calls j b s -> (i = j <-> a = b).
  Proof. intros (-> & _) (-> & _). destruct HC as (_ & _ & HI & _). split; [intros ->; reflexivity|apply HI]. Qed.
  Lemma calls_one i a r : calls i a r -> r == 1.
  Proof. intros (_ & -> & _). reflexivity. Qed.
  Lemma ap_same : same_but_heights m n /\ same_but_heights m' n'.
  Proof.
    destruct (built_inv linprog m per t Ht S1 _ _ _ R1) as (_ & _ & _ & SB & _). destruct (built_inv linprog' m' per t' Ht' S2 _ _ _ R2) as (_ & _ & _ & SB' & _). auto.
  Qed.
  Lemma calls_at i a r : calls i a r -> exists f f', has_fiber n i f /\ has_fiber n' a f' /\ strand per (q_size n') r f f' /\ qz f' == qz f /\ fiber_seen no_units f f'.
  Proof.
    intros (-> & -> & f0 & Hf0). destruct ap_same as (SB & SB'). pose proof HC as (ES & H1 & _). destruct (H1 i f0 Hf0) as (f0' & Hf0' & ST & SE).
    destruct (same_fiber m n i f0 SB Hf0) as (f & Hf & (A1 & A2 & A3 & A4 & A5 & A6 & A7 & A8 & A9 & A10)).
    destruct (same_fiber m' n' (e i) f0' SB' Hf0') as (f' & Hf' & (B1 & B2 & B3 & B4 & B5 & B6 & B7 & B8 & B9 & B10)).
    exists f, f'. split; [exact Hf|]. split; [exact Hf'|]. split; [|split; [exact (ap_heights i f f' Hf Hf')|]].
    - rewrite <- (proj1 SB'). unfold strand in *. rewrite <- A1, <- A4, <- A5, <- A6, <- A7, <- A8, <- B1, <- B4, <- B5, <- B6, <- B7, <- B8. exact ST.
    - unfold fiber_seen in *. rewrite <- A2, <- A3, <- A9, <- A10, <- B2, <- B3, <- B9, <- B10. exact SE.
  Qed.
  Lemma calls_total i f : has_fiber n i f -> exists a r, calls i a r.
  Proof. intros Hf. destruct ap_same as (SB & _). destruct (same_fiber n m i f (same_sym _ _ SB) Hf) as (f0 & Hf0 & _). exists (e i), 1. repeat split. eauto. Qed.
  Lemma member_calls j : member e m j <-> exists i r, calls i j r.
  Proof. split; [intros (i & f & Hf & ->); exists i, 1; repeat split; eauto|intros (i & r & -> & _ & f & Hf); exists i, f; auto]. Qed.
  Lemma ap_n : q_size n' == q_size n /\ all_in_plane n /\ all_in_plane n' /\ (per = true -> all_at_most_unit n /\ (forall f, In f (q_rows n) -> 2 * ql f <= q_size n) /\
    all_at_most_unit n' /\ (forall f, In f (q_rows n') -> 2 * ql f <= q_size n')).
  Proof.
    destruct ap_same as (SB & SB'). split; [rewrite <- (proj1 SB), <- (proj1 SB'); exact (proj1 HC)|]. split; [exact (same_plane _ _ SB ap_flat)|]. split; [exact (same_plane _ _ SB' flat')|].
    assert (K : forall x y, same_but_heights x y -> all_at_most_unit x -> (forall f, In f (q_rows x) -> 2 * ql f <= q_size x) ->
      all_at_most_unit y /\ (forall f, In f (q_rows y) -> 2 * ql f <= q_size y)).
    { intros x y SX U L. split; intros f Hf; apply In_nth_error in Hf; destruct Hf as (i & Hf);
        destruct (same_fiber y x (Z.of_nat i) f (same_sym _ _ SX)) as (f0 & [_ H0] & (A1 & _ & _ & _ & _ & A6 & A7 & _)); try (split; [lia|rewrite Nat2Z.id; exact Hf]).
      - pose proof (U f0 (nth_error_In _ _ H0)) as X. unfold at_most_unit in *. rewrite A6, A7. exact X.
      - rewrite A1, <- (proj1 SX). exact (L f0 (nth_error_In _ _ H0)). }
    intros E. destruct (ap_per E) as (A & B & C & D). destruct (K m n SB A B). destruct (K m' n' SB' C D). auto.
  Qed.
  Lemma ap_rows : (forall c, In c (map snd (n_rows st)) -> exists c', In c' (map snd (n_rows st')) /\ row_to calls c c') /\
    (forall c' x a r, In c' (map snd (n_rows st')) -> calls a (fib c' x) r -> exists c, In c (map snd (n_rows st)) /\ row_to (fun a i r => calls i a r) c' c) /\
    (forall k c, nth_row st k c -> (cA c <= cB c)%Z) /\ (forall k c, nth_row st' k c -> (cA c <= cB c)%Z) /\ once st.
  Proof.
    destruct (built_inv linprog m per t Ht S1 _ _ _ R1) as (_ & _ & _ & SB & _ & full & Hfull & E1).
    destruct (built_inv linprog' m' per t' Ht' S2 _ _ _ R2) as (_ & _ & _ & SB' & _ & full' & Hfull' & E2).
    destruct ap_n as (ES & P & P' & HP).
    assert (OR : forall i j a b r s, connected full i j -> calls i a r -> calls j b s -> (a < b)%Z).
    { intros i j a b r s CN (-> & _) (-> & _). destruct HC as (_ & _ & _ & HO & _). apply HO. exact (connected_same per None m n t full i j ap_flat SB Ht Hfull CN). }
    assert (NA : forall i a r, calls i a r -> exists f f', has_fiber n i f /\ has_fiber n' a f' /\ strand per (q_size n') r f f' /\ qz f' == qz f).
    { intros i a r H. destruct (calls_at i a r H) as (f & f' & A & B & C & D & _). eauto 8. }
    pose proof (row_to_at per n n' calls full full' ES P P' HP calls_total NA calls_fun Hfull Hfull' OR) as RT.
    assert (OB : forall a b i j r s, connected full' a b -> calls i a r -> calls j b s -> (i < j)%Z).
    { intros a b i j r s. exact (order_back per n n' calls full full' ES P P' HP NA calls_fun Hfull Hfull' OR i j a b r s). }
    assert (RB : forall c' x a r, In c' (map snd (n_rows full')) -> calls a (fib c' x) r -> exists c, In c (map snd (n_rows full)) /\ row_to (fun a i r => calls i a r) c' c).
    { intros c' x a r Hc' Ca.
      assert (BOTH : forall y, exists i s, calls i (fib c' y) s).
      { intros y. destruct (row_at per n' full' c' Hfull' P' Hc') as (k & f & g & Hr & L & _).
        destruct (Z.eq_dec (cA c') (cB c')) as [E|N]; [exists a, r; destruct x, y; unfold fib in *; congruence|].
        assert (CN : connected t' (cA c') (cB c')).
        { apply (connected_same per None m' n' t' full' _ _ flat' SB' Ht' Hfull'). split; [lia|]. exists k, c'. auto. }
        destruct HC as (_ & _ & _ & _ & HA & _). specialize (HA _ _ CN). rewrite !member_calls in HA.
        assert (X : exists i s, calls i (fib c' x) s) by eauto. destruct x, y; unfold fib in *; tauto. }
      apply (row_to_of per n' n (fun a i r => calls i a r) full' full (Qeq_sym _ _ ES) P' P); auto.
      - intros E. destruct (HP E) as (A & B & C & D). auto.
      - intros b i s H. destruct (NA i b s H) as (f & f' & A & B & C & D). exists f', f. split; [exact B|]. split; [exact A|]. split; [|symmetry; exact D].
        apply strand_sym, (strand_size per (q_size n')); [exact ES|exact C].
      - intros b c i j u v A B. symmetry. exact (calls_fun _ _ _ _ _ _ A B).
      - exact (BOTH false).
      - exact (BOTH true). }
    assert (IN : forall f d x, In x (map snd (n_rows (filter_net (Some d) f))) <-> In x (map snd (n_rows f)) /\ kept d x = true).
    { intros f d x. cbn [filter_net n_rows]. rewrite enum_snd. apply filter_In. }
    assert (SUB : forall f x, In x (map snd (n_rows (filter_net thr f))) -> In x (map snd (n_rows f))).
    { intros f x. destruct thr as [d|]; [|exact (fun H => H)]. intros H. apply IN in H. apply H. }
    assert (UPF : forall nn ff k c, net_new nn per None = Ok ff -> nth_row (filter_net thr ff) k c -> (cA c <= cB c)%Z).
    { intros nn ff k c Hn Hk. assert (H : In c (map snd (n_rows ff))) by (apply SUB, in_row; eauto). apply In_nth_error in H. destruct H as (l & H).
      apply (rows_snd ff l c (new_ok _ _ _ _ Hn)) in H. exact (net_up _ _ _ _ _ Hn H). }
    rewrite E1, E2. split; [|split; [|split; [|split]]].
    - intros c Hc. destruct (RT c (SUB _ _ Hc)) as (c' & Hc' & K). exists c'. split; [|exact K]. destruct thr as [d|]; [|exact Hc'].
      apply IN. split; [exact Hc'|]. apply IN in Hc. exact (kept_to calls d c c' calls_fun K (proj2 Hc)).
    - intros c x a r Hc Ca. destruct (RB c x a r (SUB _ _ Hc) Ca) as (c' & Hc' & K). exists c'. split; [|exact K]. destruct thr as [d|]; [|exact Hc'].
      apply IN. split; [exact Hc'|]. apply IN in Hc. refine (kept_to (fun a i r => calls i a r) d c c' _ K (proj2 Hc)).
      intros b l i j u v A B. symmetry. exact (calls_fun _ _ _ _ _ _ A B).
    - intros k c. exact (UPF n full k c Hfull).
    - intros k c. exact (UPF n' full' k c Hfull').
    - apply increasing_once. pose proof (net_increasing per n full Hfull) as I. destruct thr as [d|]; [|exact I].
      cbn [filter_net n_rows]. rewrite enum_snd. apply increasing_filter, I.
  Qed.
  Variables (g g' : mesh_df).
  Hypothesis Hg : mesh_new st = Ok g.
  Hypothesis Hg' : mesh_new st' = Ok g'.
  Hypothesis NT' : no_ties g'.
  Theorem apart_mesh : exists rho, mesh_within rho n n' g g' /\ part_nodes rho e m g g'.
  Proof.
    destruct ap_rows as (RT & RB & UP & UP' & ON).
    destruct (meshes_in calls st st' g g' Hg Hg' RT RB calls_fun calls_one UP UP' ON NT') as (rho & RL & RI & SM & CT & BM & FD & FC).
    assert (NM : forall i d d', is_node (g_rows g) i d -> is_node (g_rows g') (rho i) d' -> calls (nf d) (nf d') 1 /\ ns d' == ns d /\ nz d' == nz d).
    { intros i d d' Hd Hd'. destruct (SM i (node_lt _ _ _ Hd)) as (d0 & d0' & r & A & B & N & S & Z).
      rewrite (node_fun _ _ _ _ A Hd), (node_fun _ _ _ _ B Hd') in *. destruct N as (N1 & N2 & N3). rewrite N2 in S. split; [repeat split; auto|]. split; [rewrite S; ring|exact Z]. }
    exists rho. split; [|split].
    - split; [exact RL|]. split; [exact RI|]. split; [|split; [exact BM|split; [exact CT|split; [|exact FC]]]].
      + intros i d d' Hd Hd'. destruct (NM i d d' Hd Hd') as (N & _ & Z). split; [exact Z|].
        intros f f' Hf Hf'. destruct (calls_at _ _ _ N) as (f0 & f0' & A & B & _ & _ & K). rewrite (fiber_fun _ _ _ _ Hf A), (fiber_fun _ _ _ _ Hf' B). exact K.
      + intros i' j' d x B. pose proof B as (Hd & Hx & _). rewrite (FD i' d Hd), (FD j' x Hx).
        assert (nf d = nf x) as ->; [|tauto].
        destruct (init_order st' g' (mesh_new_inv _ _ Hg')) as (_ & O & BO & _). apply (beam_iff g' _ _ _ _ O BO NT') in B. apply B.
    - intros i d d' Hd Hd'. destruct (NM i d d' Hd Hd') as (N & S & _). split; [apply N|exact S].
    - intros i' d' Hd'. rewrite member_calls. symmetry. exact (FD i' d' Hd').
  Qed.
End Apart.

Section Runs.
  Variables (linprog linprog' : lp -> list Q) (lsolve lsolve' : ncoo -> list num -> list num) (e : Z -> Z) (per : bool) (m m' : qmat) (t t' : net_df).
  Hypothesis LP : right_linprog linprog.
  Hypothesis LP' : right_linprog linprog'.
  Hypothesis DS : direct_solver lsolve.
  Hypothesis DS' : direct_solver lsolve'.
  Hypothesis Ht : net_new m per None = Ok t.
  Hypothesis Ht' : net_new m' per None = Ok t'.
  Hypothesis HC : set_apart e per t t' m m'.
  Variables (thr : option Q) (p p' : solve_params) (size size' : option nat).
  Hypothesis RD : ready m thr p size.
  Hypothesis RD' : ready m' thr p' size'.
  Variables (st st' : net_df) (n n' : qmat) (g g' : mesh_df) (S S' : sysdata) (h h' : list state).
  Hypothesis R1 : stack_new linprog m t thr = Ok (st, n).
  Hypothesis R2 : stack_new linprog' m' t' thr = Ok (st', n').
  Hypothesis Hg : mesh_new st = Ok g.
  Hypothesis Hg' : mesh_new st' = Ok g'.
  Hypothesis NT' : no_ties g'.
  Hypothesis SM : same_model g g' p p'.
  Hypothesis E : solve lsolve n g p = Ok (S, h).
  Hypothesis E' : solve lsolve' n' g' p' = Ok (S', h').
  Theorem apart_solve : exists rho, mesh_within rho n n' g g' /\ part_nodes rho e m g g' /\
    (forall s, In s h' -> not_below h s -> part_follows rho g g' S S' h s) /\
    ((forall j u, nth_error h j = Some u -> length h = Datatypes.S j -> compressed_at n g S u) -> forall s, In s h' -> part_follows rho g g' S S' h s).
  Proof.
    assert (FL' : all_in_plane m') by (destruct RD' as (_ & _ & FL & _); exact FL). assert (FL : all_in_plane m) by (destruct RD as (_ & _ & FL & _); exact FL).
    destruct (apart_mesh linprog linprog' e per m m' t t' HC FL' Ht Ht' (LP _ _ _ Ht) (LP' _ _ _ Ht') thr st st' n n' R1 R2 g g' Hg Hg' NT') as (rho & MW & PN).
    exists rho. split; [exact MW|]. split; [exact PN|].
    assert (NF : ~ flag_set (g_attrs g)) by apply (pk_sound linprog lsolve LP DS m per thr p size RD t st n g Ht R1 Hg).
    assert (FA : faces_lid n g).
    { destruct (start_good _ _ _ _ _ _ NF E) as (K & cs & _ & HCS & _). exact (faces_stacked linprog m per t thr st n g cs Ht (LP _ _ _ Ht) FL R1 Hg HCS). }
    pose proof (pk_sound linprog lsolve LP DS m per thr p size RD t st n g Ht R1 Hg) as SD.
    pose proof (pk_sound linprog' lsolve' LP' DS' m' per thr p' size' RD' t' st' n' g' Ht' R2 Hg') as SD'.
    pose proof (pk_held linprog LP m per thr p size RD t st n g Ht R1 Hg) as SH. pose proof (pk_held linprog' LP' m' per thr p' size' RD' t' st' n' g' Ht' R2 Hg') as SH'.
    pose proof (pk_numbering m thr p size RD S) as NB. pose proof (pk_numbering m' thr p' size' RD' S') as NB'. split.
    - exact (part_direct rho lsolve lsolve' n n' g g' p p' S h S' h' MW SM FA DS DS' SD SD' SH SH' E E' NB NB').
    - exact (part_to_end rho lsolve lsolve' n n' g g' p p' S h S' h' MW SM FA DS DS' SD SD' SH SH' E E' NB NB').
  Qed.
End Runs.
