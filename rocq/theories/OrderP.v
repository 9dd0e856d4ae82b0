(** Proofs about the order of the fibers of a mat (C105). *)
From Coq Require Import String.
From Verif Require Import Num NumP ListX ListP Frames MatM NetM StackM MeshM ModelM SolverM Spec SpecNet SpecStack SpecMesh SpecModel SpecMeta SpecTorus SpecPiles
  SpecScale SpecProgress SpecMove SpecRename SpecOrder CheckP NetP NetGeoP NetZP StackP StackNewP MeshP MeshCheckP MetaP TorusP PilesP MoveP.
Open Scope Q_scope.

(** ** rows of two networks, one way *)
Definition row_to (F : Z -> Z -> Q -> Prop) (c c' : conn) : Prop :=
  exists rA rB, F (cA c) (cA c') rA /\ F (cB c) (cB c') rB /\ czA c' == czA c /\ czB c' == czB c /\
    (cA c = cB c -> csA c' == csA c /\ csB c' == csB c /\ csB c == - csA c /\ czB c == czA c) /\
    (cA c <> cB c -> csA c' == rA * csA c /\ csB c' == rB * csB c).
Definition ident : motion := mkMotion 1 1 0 0 0 0 false.
Lemma ident_ok : proper ident /\ quarter ident.
Proof. split; [split; cbn; [lra|ring]|]. exists 1%Z, 0%Z. repeat split. Qed.
Lemma ident_alike per size r f f' : strand per size r f f' -> alike ident per size r f f'.
Proof. intros S. exists f. split; [|split; [|exact S]]; [unfold follows|unfold rises]; unfold mirrored; cbn [mv_k mv_c mv_s mv_x mv_y mv_z mv_m ident]; repeat split; ring. Qed.
Lemma net_up m per t k c : net_new m per None = Ok t -> is_row t k c -> (cA c <= cB c)%Z.
Proof. intros H Hr. destruct (row_facts m per None t H k c Hr) as (? & ? & _ & _ & L & _). exact L. Qed.

Section Rows.
  Variables (per : bool) (m m' : qmat) (F : Z -> Z -> Q -> Prop) (t t' : net_df).
  Hypothesis ES : q_size m' == q_size m.
  Hypothesis flat : all_in_plane m.
  Hypothesis flat' : all_in_plane m'.
  Hypothesis HS : per = true -> all_at_most_unit m /\ (forall f, In f (q_rows m) -> 2 * ql f <= q_size m) /\
    all_at_most_unit m' /\ (forall f, In f (q_rows m') -> 2 * ql f <= q_size m').
  Hypothesis FT : forall i f, has_fiber m i f -> exists i' r, F i i' r.
  Hypothesis FF : forall i i' r, F i i' r -> exists f f', has_fiber m i f /\ has_fiber m' i' f' /\ strand per (q_size m') r f f' /\ qz f' == qz f.
  Hypothesis FN : forall i j a b r s, F i a r -> F j b s -> (i = j <-> a = b).
  Hypothesis Ht : net_new m per None = Ok t.
  Hypothesis Ht' : net_new m' per None = Ok t'.
  Lemma to_joined i j a b r s x y : i <> j -> F i a r -> F j b s -> (joined t i j x y <-> joined t' a b (r * x) (s * y)).
  Proof.
    intros N Fi Fj. destruct (FF _ _ _ Fi) as (f & f' & Hf & Hf' & Sf & _). destruct (FF _ _ _ Fj) as (g & g' & Hg & Hg' & Sg & _).
    assert (N' : a <> b) by (intros E; apply N; apply (FN _ _ _ _ _ _ Fi Fj); exact E).
    assert (AP : alike_pair ident per (q_size m') r s f g f' g').
    { split; [apply ident_alike, Sf|]. split; [apply ident_alike, Sg|]. left. split; apply flat; eapply nth_error_In; [apply Hf|apply Hg]. }
    rewrite (alike_joined ident m m' per r s f g f' g' (proj1 ident_ok) AP) with (t := t) (t' := t') (i' := a) (j' := b); auto.
    - cbn [mv_k ident]. split; intros (k & c & Hr & J); exists k, c; (split; [exact Hr|]); destruct J as [(A & B & X & Y)|(A & B & X & Y)]; [left|right|left|right];
        (split; [exact A|]); (split; [exact B|]); rewrite X, Y; split; ring.
    - intros _. split; [exact (proj2 ident_ok)|]. cbn [mv_k ident]. rewrite ES. ring.
    - intros E. destruct (HS E) as (A1 & A2 & A3 & A4). auto 10.
  Qed.
  Hypothesis OR : forall i j a b r s, connected t i j -> F i a r -> F j b s -> (a < b)%Z.
  Lemma row_to_of c : In c (map snd (n_rows t)) -> (exists a r, F (cA c) a r) -> (exists b s, F (cB c) b s) -> exists c', In c' (map snd (n_rows t')) /\ row_to F c c'.
  Proof.
    intros Hc (a & r & Fa) (b & s & Fb). destruct (row_at per m t c Ht flat Hc) as (k & f & g & Hr & L & Hf & Hg & Z1 & Z2).
    destruct (FF _ _ _ Fa) as (f0 & f' & Hf0 & Hf' & Sf & ZF). destruct (FF _ _ _ Fb) as (g0 & g' & Hg0 & Hg' & Sg & ZG).
    rewrite (fiber_fun _ _ _ _ Hf0 Hf) in *. rewrite (fiber_fun _ _ _ _ Hg0 Hg) in *. clear Hf0 Hg0.
    assert (NO : net_ok t') by (eapply new_ok; exact Ht').
    assert (X : exists k' c', is_row t' k' c' /\ cA c' = a /\ cB c' = b /\ (cA c = cB c -> csA c' == csA c /\ csB c' == csB c /\ csB c == - csA c) /\
      (cA c <> cB c -> csA c' == r * csA c /\ csB c' == s * csB c)).
    { destruct (Z.eq_dec (cA c) (cB c)) as [E|N].
      - destruct (end_nodes m' per t' a f' Ht' Hf') as (k' & c' & Hr' & EA & EB & SA & SB & _).
        destruct (end_abscissae m per None t k c f Ht Hr E Hf) as (TA & TB). exists k', c'. destruct Sf as (_ & EL & _).
        split; [exact Hr'|]. split; [exact EA|]. split; [rewrite EB; apply (FN _ _ _ _ _ _ Fa Fb), E|]. split; [|intros N; contradiction].
        intros _. rewrite SA, SB, TA, TB, EL. repeat split; reflexivity.
      - assert (J : joined t (cA c) (cB c) (csA c) (csB c)).
        { exists k, c. split; [exact Hr|]. left. repeat split; reflexivity. }
        apply (to_joined _ _ _ _ _ _ _ _ N Fa Fb) in J.
        assert (CN : connected t (cA c) (cB c)) by (split; [lia|]; exists k, c; auto).
        pose proof (OR _ _ _ _ _ _ CN Fa Fb) as LT. destruct J as (k' & c' & Hr' & [(EA & EB & SA & SB)|(EA & EB & SA & SB)]).
        + exists k', c'. split; [exact Hr'|]. split; [exact EA|]. split; [exact EB|]. split; [intros E; contradiction|]. auto.
        + exfalso. pose proof (net_up _ _ _ _ _ Ht' Hr'). lia. }
    destruct X as (k' & c' & Hr' & EA & EB & SE & SN).
    assert (Hc' : In c' (map snd (n_rows t'))) by (eapply nth_error_In; apply (rows_snd t' k' c' NO), Hr').
    exists c'. split; [exact Hc'|]. exists r, s. rewrite EA, EB. split; [exact Fa|]. split; [exact Fb|].
    destruct (row_at per m' t' c' Ht' flat' Hc') as (_ & f2 & g2 & _ & _ & Hf2 & Hg2 & Z3 & Z4). rewrite EA in Hf2. rewrite EB in Hg2.
    rewrite (fiber_fun _ _ _ _ Hf2 Hf') in *. rewrite (fiber_fun _ _ _ _ Hg2 Hg') in *.
    split; [rewrite Z3, Z1; exact ZF|]. split; [rewrite Z4, Z2; exact ZG|]. split; [|exact SN].
    intros E. destruct (SE E) as (X1 & X2 & X3). repeat (split; [assumption|]). rewrite Z1, Z2. rewrite <- E in Hg. rewrite (fiber_fun _ _ _ _ Hf Hg). reflexivity.
  Qed.
  Lemma row_to_at c : In c (map snd (n_rows t)) -> exists c', In c' (map snd (n_rows t')) /\ row_to F c c'.
  Proof. intros Hc. destruct (row_at per m t c Ht flat Hc) as (k & f & g & _ & _ & Hf & Hg & _). apply row_to_of; [exact Hc|apply (FT _ f Hf)|apply (FT _ g Hg)]. Qed.
  (** the order of the connected fibers of [t'] *)
  Lemma order_back i j a b r s : connected t' a b -> F i a r -> F j b s -> (i < j)%Z.
  Proof.
    intros (LT & k' & c' & Hr' & EA & EB) Fi Fj. assert (N : i <> j) by (intros E; apply (FN _ _ _ _ _ _ Fi Fj) in E; lia).
    destruct (FF _ _ _ Fi) as (f & f' & _ & _ & (Rr & _) & _). destruct (FF _ _ _ Fj) as (g & g' & _ & _ & (Rs & _) & _).
    assert (J : joined t' a b (r * (r * csA c')) (s * (s * csB c'))).
    { exists k', c'. split; [exact Hr'|]. left. split; [exact EA|]. split; [exact EB|]. pose proof (sign_sq r Rr) as X. pose proof (sign_sq s Rs) as Y.
      split; rewrite Qmult_assoc; [rewrite X|rewrite Y]; ring. }
    apply (to_joined _ _ _ _ _ _ _ _ N Fi Fj) in J. destruct J as (k & c & Hr & [(A & B & _)|(A & B & _)]); pose proof (net_up _ _ _ _ _ Ht Hr); [lia|].
    exfalso. assert (CN : connected t j i) by (split; [lia|]; exists k, c; auto). pose proof (OR _ _ _ _ _ _ CN Fj Fi). lia.
  Qed.
End Rows.

(** ** beams, from the places of the nodes *)
Lemma node_fun rows i d e : is_node rows i d -> is_node rows i e -> d = e.
Proof. intros (a & A) (b & B). congruence. Qed.
Lemma beam_iff g i j d e : nodes_ordered (g_rows g) -> beams_ok (g_rows g) -> no_ties g ->
  (beam_element g i j d e <-> is_node (g_rows g) i d /\ is_node (g_rows g) j e /\ nf d = nf e /\ ns d < ns e /\
     forall k x, is_node (g_rows g) k x -> nf x = nf d -> ns d < ns x -> ns x < ns e -> False).
Proof.
  intros HO HB HT.
  assert (LT : forall a b x y, (a < b)%nat -> is_node (g_rows g) a x -> is_node (g_rows g) b y -> nf x = nf y -> ns x < ns y).
  { intros a b x y L A B E. destruct (HO a b x y L A B) as [X|[_ X]]; [lia|]. apply Qle_lteq in X. destruct X as [X|X]; [exact X|].
    assert (a = b) by (apply (HT a b x y); assumption). lia. }
  assert (GT : forall a b x y, is_node (g_rows g) a x -> is_node (g_rows g) b y -> nf x = nf y -> ns x < ns y -> (a < b)%nat).
  { intros a b x y A B E L. destruct (lt_eq_lt_dec a b) as [[X|X]|X]; [exact X| |].
    - subst b. rewrite (node_fun _ _ _ _ A B) in L. exfalso. exact (Qlt_irrefl _ L).
    - pose proof (LT b a y x X B A (eq_sym E)). lra. }
  split.
  - intros (Hi & Hj & L & EB). destruct (HB i d Hi) as (b & Eb & d0 & e0 & Hd0 & He0 & EF & NX).
    assert (b = j) by lia. subst b. pose proof (node_fun _ _ _ _ Hd0 Hi). subst d0. pose proof (node_fun _ _ _ _ He0 Hj). subst e0.
    destruct NX as [(_ & NX)|(NX & _)]; [|lia]. split; [exact Hi|]. split; [exact Hj|]. split; [exact EF|]. split; [apply (LT i j); auto|].
    intros k x Hk Ex L1 L2. apply (NX k x); auto; split; [apply (GT i k d x)|apply (GT k j x e)]; auto; congruence.
  - intros (Hi & Hj & EF & L & NB). pose proof (GT i j d e Hi Hj EF L) as LI. split; [exact Hi|]. split; [exact Hj|]. split; [exact LI|].
    destruct (HB i d Hi) as (b & Eb & d0 & e0 & Hd0 & He0 & EF0 & NX). pose proof (node_fun _ _ _ _ Hd0 Hi). subst d0. rewrite Eb. f_equal.
    destruct NX as [(LB & NX)|(_ & NX & _)]; [|exfalso; apply (NX j e); auto; congruence].
    destruct (lt_eq_lt_dec b j) as [[X|X]|X]; [|exact X|].
    + exfalso. apply (NB b e0 He0 (eq_sym EF0)); [apply (LT i b)|apply (LT b j)]; auto; congruence.
    + exfalso. apply (NX j e); [lia|exact Hj|congruence].
Qed.

(** ** nodes of two meshes at the same places *)
Definition fib (c : conn) (b : bool) : Z := if b then cB c else cA c.
Definition abs_at (c : conn) (b : bool) : Q := if b then csB c else csA c.
Definition z_at (c : conn) (b : bool) : Q := if b then czB c else czA c.
Definition turn (c : conn) (r : Q) (b : bool) : bool := xorb b (Z.eqb (cA c) (cB c) && Qltb r 0).
Definition at_same (F : Z -> Z -> Q -> Prop) (g g' : mesh_df) (i i' : nat) : Prop :=
  exists d d' r, is_node (g_rows g) i d /\ is_node (g_rows g') i' d' /\ F (nf d) (nf d') r /\ ns d' == r * ns d /\ nz d' == nz d.
Lemma row_at_node st g k c b : mesh_new st = Ok g -> nth_row st k c ->
  exists d, is_node (g_rows g) (place (map snd (n_rows st)) k b) d /\ nf d = fib c b /\ ns d = abs_at c b /\ nz d = z_at c b /\
    ncons d = Z.of_nat (if Z.eqb (cA c) (cB c) then place (map snd (n_rows st)) k b else place (map snd (n_rows st)) k (negb b)).
Proof.
  intros Hg Hk. destruct (init_numbers st g (mesh_new_inv _ _ Hg)) as ((N1 & _) & LK). destruct (N1 k c b Hk) as (d0 & Hd0 & C1 & C2 & _ & _ & C5).
  exists d0. repeat (split; [assumption|]). exact (LK k c b d0 Hk Hd0).
Qed.
Lemma node_row st g i d : mesh_new st = Ok g -> is_node (g_rows g) i d -> exists k c b, nth_row st k c /\ place (map snd (n_rows st)) k b = i /\
  nf d = fib c b /\ ns d = abs_at c b /\ nz d = z_at c b /\
  ncons d = Z.of_nat (if Z.eqb (cA c) (cB c) then i else place (map snd (n_rows st)) k (negb b)).
Proof.
  intros Hg Hd. destruct (init_numbers st g (mesh_new_inv _ _ Hg)) as ((_ & N2 & _) & _). destruct (N2 i d Hd) as (k & c & b & Hk & E).
  destruct (row_at_node st g k c b Hg Hk) as (d0 & Hd0 & C). rewrite E in Hd0, C. rewrite (node_fun _ _ _ _ Hd Hd0). exists k, c, b. auto.
Qed.
Lemma in_row st c : In c (map snd (n_rows st)) <-> exists k, nth_row st k c.
Proof. split; [intros H; apply In_nth_error in H; destruct H as (k & H); exists k; apply nth_row_snd, H|intros (k & H); apply nth_row_snd in H; eapply nth_error_In, H]. Qed.
Section Mesh.
  Variables (F : Z -> Z -> Q -> Prop) (st st' : net_df) (g g' : mesh_df).
  Hypothesis Hg : mesh_new st = Ok g.
  Hypothesis Hg' : mesh_new st' = Ok g'.
  Hypothesis RT : forall c x a r, In c (map snd (n_rows st)) -> F (fib c x) a r -> exists c', In c' (map snd (n_rows st')) /\ row_to F c c'.
  Hypothesis FN : forall i j a b r s, F i a r -> F j b s -> (i = j <-> a = b).
  Hypothesis FS : forall i a r, F i a r -> r == 1 \/ r == - (1).
  Hypothesis FU : forall i a r s, F i a r -> F i a s -> r == s.
  Lemma side_to c c' b : row_to F c c' -> exists r, F (fib c b) (fib c' (turn c r b)) r /\ abs_at c' (turn c r b) == r * abs_at c b /\
    z_at c' (turn c r b) == z_at c b.
  Proof.
    intros (rA & rB & FA & FB & ZA & ZB & HE & HN). unfold turn. destruct (Z.eqb_spec (cA c) (cB c)) as [E|N].
    - destruct (HE E) as (SA & SB & SS & ZZ). pose proof (proj1 (FN _ _ _ _ _ _ FA FB) E) as E'.
      exists rA. cbn [andb]. assert (FF : forall x y, F (fib c x) (fib c' y) rA) by (intros [] []; unfold fib; rewrite <- ?E, <- ?E'; exact FA).
      split; [apply FF|]. destruct (FS _ _ _ FA) as [R|R].
      + assert (Qltb rA 0 = false) as -> by (apply not_true_is_false; intros X; qb; lra). rewrite xorb_false_r. rewrite R.
        destruct b; unfold abs_at, z_at; [rewrite SB, ZB|rewrite SA, ZA]; split; try ring.
      + assert (Qltb rA 0 = true) as -> by (qb; lra). rewrite xorb_true_r. rewrite R.
        destruct b; cbn [negb]; unfold abs_at, z_at; [rewrite SA, ZA, SS, ZZ|rewrite SB, ZB, SS, ZZ]; split; ring.
    - destruct (HN N) as (SA & SB). cbn [andb]. destruct b; [exists rB|exists rA]; rewrite xorb_false_r; unfold fib, abs_at, z_at; auto.
  Qed.
  Lemma same_total i d a s : is_node (g_rows g) i d -> F (nf d) a s -> exists i', at_same F g g' i i'.
  Proof.
    intros Hd Fd. destruct (node_row st g i d Hg Hd) as (k & c & b & Hk & _ & E1 & E2 & E3 & _).
    destruct (RT c b a s) as (c' & Hc' & RC); [apply in_row; eauto|rewrite <- E1; exact Fd|]. apply in_row in Hc'. destruct Hc' as (k' & Hk').
    destruct (side_to c c' b RC) as (r & Fr & A & Z). destruct (row_at_node st' g' k' c' (turn c r b) Hg' Hk') as (d' & Hd' & E1' & E2' & E3' & _).
    eexists. exists d, d', r. split; [exact Hd|]. split; [exact Hd'|]. rewrite E1, E2, E3, E1', E2', E3'. auto.
  Qed.
  Lemma same_inj i j x : no_ties g -> at_same F g g' i x -> at_same F g g' j x -> i = j.
  Proof.
    intros NT (d & d' & r & Hi & Hx & Fr & S & _) (e & e' & s & Hj & Hx' & Fs & S' & _). pose proof (node_fun _ _ _ _ Hx Hx'). subst e'.
    assert (EF : nf d = nf e) by (apply (FN _ _ _ _ _ _ Fr Fs); reflexivity). apply (NT i j d e Hi Hj EF).
    rewrite <- EF in Fs. pose proof (FU _ _ _ _ Fr Fs) as RS. rewrite <- RS in S'. rewrite S in S'. destruct (FS _ _ _ Fr) as [R|R]; rewrite R in S'; lra.
  Qed.
  Hypothesis NT' : no_ties g'.
  Lemma same_fun i x y : at_same F g g' i x -> at_same F g g' i y -> x = y.
  Proof.
    intros (d & d' & r & Hi & Hx & Fr & S & _) (e & e' & s & Hi' & Hy & Fs & S' & _). pose proof (node_fun _ _ _ _ Hi Hi'). subst e.
    assert (EF : nf d' = nf e') by (apply (FN _ _ _ _ _ _ Fr Fs); reflexivity). apply (NT' x y d' e' Hx Hy EF).
    rewrite <- EF in Fs. pose proof (FU _ _ _ _ Fr Fs) as RS. rewrite S, S', RS. reflexivity.
  Qed.
  (** contacts *)
  Hypothesis UP : forall k c, nth_row st k c -> (cA c <= cB c)%Z.
  Hypothesis UP' : forall k c, nth_row st' k c -> (cA c <= cB c)%Z.
  Lemma ordered : nodes_ordered (g_rows g) /\ nodes_ordered (g_rows g').
  Proof. split; [apply (init_order st g (mesh_new_inv _ _ Hg))|apply (init_order st' g' (mesh_new_inv _ _ Hg'))]. Qed.
  Lemma contact_to i j i' j' : contact g i j -> at_same F g g' i i' -> at_same F g g' j j' -> contact g' i' j'.
  Proof.
    intros (d & Hd & Ec & L) Si Sj. destruct (node_row st g i d Hg Hd) as (k & c & b & Hk & Ep & E1 & E2 & E3 & Ec').
    pose proof Si as (d1 & d1' & r1 & Hd1 & _ & F1 & _). pose proof (node_fun _ _ _ _ Hd1 Hd). subst d1.
    destruct (RT c b (nf d1') r1) as (c' & Hc' & RC); [apply in_row; eauto|rewrite <- E1; exact F1|]. clear d1' r1 Hd1 F1. apply in_row in Hc'. destruct Hc' as (k' & Hk').
    assert (Q1 : forall x y, at_same F g g' (place (map snd (n_rows st)) k x) y -> exists r, F (fib c x) (fib c' (turn c r x)) r /\
      y = place (map snd (n_rows st')) k' (turn c r x)).
    { intros x y S. destruct (side_to c c' x RC) as (r & Fr & A & Z). exists r. split; [exact Fr|]. apply (same_fun _ _ _ S).
      destruct (row_at_node st g k c x Hg Hk) as (d0 & Hd0 & X1 & X2 & X3 & _).
      destruct (row_at_node st' g' k' c' (turn c r x) Hg' Hk') as (d' & Hd' & E1' & E2' & E3' & _).
      exists d0, d', r. split; [exact Hd0|]. split; [exact Hd'|]. rewrite X1, X2, X3, E1', E2', E3'. auto. }
    destruct RC as (rA & rB & FA & FB & _). destruct (Z.eqb_spec (cA c) (cB c)) as [E|N].
    - assert (j = i) by lia. subst j. rewrite (same_fun _ _ _ Sj Si). clear Sj. rewrite <- Ep in Si. destruct (Q1 b i' Si) as (r & _ & ->).
      destruct (row_at_node st' g' k' c' (turn c r b) Hg' Hk') as (d' & Hd' & _ & _ & _ & Ed'). exists d'. split; [exact Hd'|].
      assert (cA c' = cB c') as E' by (apply (FN _ _ _ _ _ _ FA FB), E). rewrite (proj2 (Z.eqb_eq _ _) E') in Ed'. split; [exact Ed'|lia].
    - assert (N' : cA c' <> cB c') by (intros X; apply N; apply (FN _ _ _ _ _ _ FA FB), X).
      assert (Ej : j = place (map snd (n_rows st)) k (negb b)) by lia. rewrite Ej in *. rewrite <- Ep in *. clear Ej Ep.
      pose proof (UP k c Hk) as U. pose proof (UP' k' c' Hk') as U'.
      destruct (row_at_node st g k c (negb b) Hg Hk) as (e & He & X1 & _).
      assert (b = false).
      { destruct b; [|reflexivity]. exfalso. cbn [negb] in *. unfold fib in *.
        destruct (Nat.eq_dec (place (map snd (n_rows st)) k true) (place (map snd (n_rows st)) k false)) as [Y|Y].
        - rewrite Y in Hd. rewrite (node_fun _ _ _ _ Hd He) in E1. lia.
        - destruct (proj1 ordered (place (map snd (n_rows st)) k true) (place (map snd (n_rows st)) k false) d e) as [O|[O _]]; auto; lia. }
      subst b. cbn [negb] in *. destruct (Q1 _ _ Si) as (r & _ & ->). destruct (Q1 _ _ Sj) as (s & _ & ->). unfold turn. rewrite (proj2 (Z.eqb_neq _ _) N). cbn [andb xorb].
      destruct (row_at_node st' g' k' c' false Hg' Hk') as (d' & Hd' & Y1 & _ & _ & Ed'). rewrite (proj2 (Z.eqb_neq _ _) N') in Ed'. cbn [negb] in Ed'.
      exists d'. split; [exact Hd'|]. split; [exact Ed'|]. destruct (row_at_node st' g' k' c' true Hg' Hk') as (e' & He' & Y2 & _). unfold fib in *.
      destruct (Nat.le_gt_cases (place (map snd (n_rows st')) k' false) (place (map snd (n_rows st')) k' true)) as [Y|Y]; [exact Y|].
      exfalso. destruct (proj2 ordered _ _ _ _ Y He' Hd') as [O|[O _]]; lia.
  Qed.
  (** beams *)
  Hypothesis NT : no_ties g.
  Hypothesis BT : forall x' d' a r, is_node (g_rows g') x' d' -> F a (nf d') r -> exists x, at_same F g g' x x'.
  Lemma beams2 : beams_ok (g_rows g) /\ beams_ok (g_rows g').
  Proof. split; [apply (init_order st g (mesh_new_inv _ _ Hg))|apply (init_order st' g' (mesh_new_inv _ _ Hg'))]. Qed.
  Lemma beam_to i j i' j' d e d' e' r : beam_element g i j d e -> at_same F g g' i i' -> at_same F g g' j j' ->
    is_node (g_rows g') i' d' -> is_node (g_rows g') j' e' -> F (nf d) (nf d') r ->
    (r == 1 -> beam_element g' i' j' d' e' /\ ns e' - ns d' == ns e - ns d) /\
    (r == - (1) -> beam_element g' j' i' e' d' /\ ns d' - ns e' == ns e - ns d).
  Proof.
    intros B (d0 & d0' & r0 & A1 & A2 & A3 & A4 & _) (e0 & e0' & s0 & B1 & B2 & B3 & B4 & _) Hd' He' Fr.
    apply (beam_iff g i j d e (proj1 ordered) (proj1 beams2) NT) in B. destruct B as (Hd & He & EF & L & NB).
    pose proof (node_fun _ _ _ _ A1 Hd). pose proof (node_fun _ _ _ _ A2 Hd'). pose proof (node_fun _ _ _ _ B1 He). pose proof (node_fun _ _ _ _ B2 He'). subst d0 d0' e0 e0'.
    pose proof (FU _ _ _ _ A3 Fr) as R0. pose proof (proj1 (FN _ _ _ _ _ _ A3 B3) EF) as EF'.
    assert (S0 : s0 == r) by (rewrite <- EF, <- EF' in B3; apply (FU _ _ _ _ B3 Fr)). rewrite R0 in A4. rewrite S0 in B4.
    assert (K : forall k x', is_node (g_rows g') k x' -> nf x' = nf d' -> exists y x, is_node (g_rows g) y x /\ nf x = nf d /\ ns x' == r * ns x).
    { intros k x' Hx' Ex. assert (Fx' : F (nf d) (nf x') r) by (rewrite Ex; exact Fr). destruct (BT k x' _ _ Hx' Fx') as (y & x & x0 & rx & Hy & Hx0 & Fx & Sx & _). pose proof (node_fun _ _ _ _ Hx0 Hx'). subst x0.
      exists y, x. split; [exact Hy|]. assert (nf x = nf d) as Exd by (apply (FN _ _ _ _ _ _ Fx Fr), Ex). split; [exact Exd|].
      rewrite Exd, Ex in Fx. rewrite Sx. rewrite (FU _ _ _ _ Fx Fr). reflexivity. }
    split; intros R; rewrite R in A4, B4; (split; [|rewrite A4, B4; ring]); apply (beam_iff g' _ _ _ _ (proj2 ordered) (proj2 beams2) NT').
    - split; [exact Hd'|]. split; [exact He'|]. split; [exact EF'|]. split; [rewrite A4, B4; lra|]. intros k x' Hx' Ex L1 L2.
      destruct (K k x' Hx' Ex) as (y & x & Hy & Exd & Sx). rewrite Sx, R in L1, L2. rewrite A4 in L1. rewrite B4 in L2. apply (NB y x Hy Exd); lra.
    - split; [exact He'|]. split; [exact Hd'|]. split; [symmetry; exact EF'|]. split; [rewrite A4, B4; lra|]. intros k x' Hx' Ex L1 L2.
      destruct (K k x' Hx' (eq_trans Ex (eq_sym EF'))) as (y & x & Hy & Exd & Sx). rewrite Sx, R in L1, L2. rewrite B4 in L1. rewrite A4 in L2. apply (NB y x Hy Exd); lra.
  Qed.
End Mesh.

(** ** both ways *)
Lemma same_sym_at (F : Z -> Z -> Q -> Prop) g g' i i' : (forall j a r, F j a r -> r == 1 \/ r == - (1)) -> at_same F g g' i i' -> at_same (fun a j r => F j a r) g' g i' i.
Proof.
  intros FS (d & d' & r & Hi & Hi' & Fr & S & Z). exists d', d, r. split; [exact Hi'|]. split; [exact Hi|]. split; [exact Fr|].
  split; [rewrite S; destruct (FS _ _ _ Fr) as [R|R]; rewrite R; ring|symmetry; exact Z].
Qed.
Definition once (t : net_df) : Prop := forall k l c e, nth_row t k c -> nth_row t l e -> cA c = cA e -> cB c = cB e -> k = l.
Lemma increasing_once t : increasing (map snd (n_rows t)) -> once t.
Proof.
  intros I k l c e Hk Hl EA EB. apply nth_row_snd in Hk. apply nth_row_snd in Hl. revert k l Hk Hl.
  induction I as [|x r Hx I IH]; intros [|k] [|l] Hk Hl; cbn [nth_error] in Hk, Hl; try discriminate; [reflexivity| | |f_equal; eauto].
  - injection Hk as ->. apply nth_error_In in Hl. apply Hx in Hl. unfold clt in Hl. lia.
  - injection Hl as ->. apply nth_error_In in Hk. apply Hx in Hk. unfold clt in Hk. lia.
Qed.
Lemma increasing_filter p l : increasing l -> increasing (filter p l).
Proof.
  induction 1 as [|c l Hc I IH]; cbn [filter]; [constructor|]. destruct (p c); [|exact IH]. constructor; [|exact IH].
  intros d Hd. apply filter_In in Hd. apply Hc, Hd.
Qed.
Lemma finite_choice {A} (P : nat -> A -> Prop) (a : A) n : (forall i, (i < n)%nat -> exists x, P i x) -> exists f, forall i, (i < n)%nat -> P i (f i).
Proof.
  induction n as [|n IH]; intros H; [exists (fun _ => a); intros i L; lia|].
  destruct IH as (f & Hf); [intros i L; apply H; lia|]. destruct (H n ltac:(lia)) as (x & Hx).
  exists (fun i => if Nat.eqb i n then x else f i). intros i L. destruct (Nat.eqb_spec i n) as [->|N]; [exact Hx|apply Hf; lia].
Qed.
Lemma inject_le n n' (f : nat -> nat) : (forall i, (i < n)%nat -> (f i < n')%nat) -> (forall i j, (i < n)%nat -> (j < n)%nat -> f i = f j -> i = j) -> (n <= n')%nat.
Proof.
  intros B I. rewrite <- (seq_length n 0), <- (map_length f), <- (seq_length n' 0). apply NoDup_incl_length.
  - assert (K : forall l, NoDup l -> (forall x, In x l -> (x < n)%nat) -> NoDup (map f l)).
    { induction 1 as [|x l Hx N IH]; intros Hl; cbn [map]; constructor; [|apply IH; intros; apply Hl; right; assumption].
      intros Hin. apply in_map_iff in Hin. destruct Hin as (y & E & Hy). apply I in E; [subst y; contradiction|apply Hl; right; exact Hy|apply Hl; left; reflexivity]. }
    apply K; [apply seq_NoDup|]. intros x Hx. apply in_seq in Hx. lia.
  - intros x Hx. apply in_map_iff in Hx. destruct Hx as (y & <- & Hy). apply in_seq in Hy. apply in_seq. specialize (B y ltac:(lia)). lia.
Qed.
Lemma node_lt rows i d : is_node rows i d -> (i < length rows)%nat.
Proof. intros (l & E). apply nth_error_Some. congruence. Qed.
Lemma node_ex (rows : list (Z * node)) i : (i < length rows)%nat -> exists d, is_node rows i d.
Proof. intros L. destruct (nth_error rows i) as [[l d]|] eqn:E; [exists d, l; exact E|]. apply nth_error_None in E. lia. Qed.

Section Both.
  Variables (F : Z -> Z -> Q -> Prop) (st st' : net_df) (g g' : mesh_df).
  Let G : Z -> Z -> Q -> Prop := fun a i r => F i a r.
  Hypothesis Hg : mesh_new st = Ok g.
  Hypothesis Hg' : mesh_new st' = Ok g'.
  Hypothesis RT : forall c, In c (map snd (n_rows st)) -> exists c', In c' (map snd (n_rows st')) /\ row_to F c c'.
  Hypothesis RB : forall c', In c' (map snd (n_rows st')) -> exists c, In c (map snd (n_rows st)) /\ row_to G c' c.
  Hypothesis FN : forall i j a b r s, F i a r -> F j b s -> (i = j <-> a = b).
  Hypothesis FS : forall i a r, F i a r -> r == 1 \/ r == - (1).
  Hypothesis FU : forall i a r s, F i a r -> F i a s -> r == s.
  Hypothesis UP : forall k c, nth_row st k c -> (cA c <= cB c)%Z.
  Hypothesis UP' : forall k c, nth_row st' k c -> (cA c <= cB c)%Z.
  Hypothesis ON' : once st'.
  Hypothesis NT : no_ties g.
  Let GN : forall a b i j r s, G a i r -> G b j s -> (a = b <-> i = j).
  Proof. intros a b i j r s A B. symmetry. exact (FN _ _ _ _ _ _ A B). Qed.
  Let GS : forall a i r, G a i r -> r == 1 \/ r == - (1).
  Proof. intros a i r A. exact (FS _ _ _ A). Qed.
  Let GU : forall a i r s, G a i r -> G a i s -> r == s.
  Proof. intros a i r s A B. exact (FU _ _ _ _ A B). Qed.
  Lemma turn_eq c r s b : r == s -> turn c r b = turn c s b.
  Proof. intros E. unfold turn. f_equal. f_equal. apply eq_true_iff_eq; split; intros X; qb; lra. Qed.
  Lemma no_ties_to : no_ties g'.
  Proof.
    intros x y d e Hx Hy EF ES. destruct (node_row st' g' x d Hg' Hx) as (k' & c' & b' & Hk' & <- & D1 & D2 & _).
    destruct (node_row st' g' y e Hg' Hy) as (l' & e' & b2' & Hl' & <- & E1 & E2 & _).
    destruct (RB c') as (c & Hc & RC); [apply in_row; eauto|]. apply in_row in Hc. destruct Hc as (k & Hk).
    destruct (RB e') as (e0 & He & RE); [apply in_row; eauto|]. apply in_row in He. destruct He as (l & Hl).
    destruct (side_to G GN GS c' c b' RC) as (r & Gr & A & _). destruct (side_to G GN GS e' e0 b2' RE) as (s & Gs & B & _).
    rewrite D1, E1 in EF. rewrite D2, E2 in ES. pose proof (proj1 (GN _ _ _ _ _ _ Gr Gs) EF) as EI.
    assert (RS : r == s) by (rewrite <- EF, <- EI in Gs; exact (GU _ _ _ _ Gr Gs)).
    destruct (row_at_node st g k c (turn c' r b') Hg Hk) as (d1 & Hd1 & X1 & X2 & _). destruct (row_at_node st g l e0 (turn e' s b2') Hg Hl) as (e1 & He1 & Y1 & Y2 & _).
    assert (EP : place (map snd (n_rows st)) k (turn c' r b') = place (map snd (n_rows st)) l (turn e' s b2')).
    { apply (NT _ _ d1 e1 Hd1 He1); [congruence|]. rewrite X2, Y2, A, B, RS, ES. reflexivity. }
    destruct (init_numbers st g (mesh_new_inv _ _ Hg)) as ((_ & _ & N3) & _). destruct (N3 _ _ _ _ _ _ Hk Hl EP) as [EK EB]. subst l.
    assert (c = e0) by (apply nth_row_snd in Hk; apply nth_row_snd in Hl; congruence). subst e0.
    destruct RC as (? & ? & GA & GB & _). destruct RE as (? & ? & GA' & GB' & _).
    assert (EA : cA c' = cA e') by (apply (GN _ _ _ _ _ _ GA GA'); reflexivity). assert (EB' : cB c' = cB e') by (apply (GN _ _ _ _ _ _ GB GB'); reflexivity).
    pose proof (ON' k' l' c' e' Hk' Hl' EA EB') as EK. subst l'. assert (c' = e') by (apply nth_row_snd in Hk'; apply nth_row_snd in Hl'; congruence). subst e'.
    rewrite (turn_eq c' r s b' RS) in EB. unfold turn in EB. f_equal. destruct b', b2', (Z.eqb (cA c') (cB c') && Qltb s 0); cbn in EB; congruence.
  Qed.
  Lemma tot_to c : In c (map snd (n_rows st)) -> forall x, exists a r, F (fib c x) a r.
  Proof. intros Hc x. destruct (RT c Hc) as (c' & _ & rA & rB & FA & FB & _). destruct x; unfold fib; eauto. Qed.
  Lemma same_onto x' d' : is_node (g_rows g') x' d' -> exists x, at_same F g g' x x'.
  Proof.
    intros H. destruct (node_row st' g' x' d' Hg' H) as (k & c & b & Hk & _ & E1 & _). destruct (RB c) as (c0 & _ & rA & rB & FA & FB & _); [apply in_row; eauto|].
    assert (X : exists a r, G (nf d') a r) by (rewrite E1; destruct b; unfold fib; eauto). destruct X as (a & r & Ga).
    destruct (same_total G st' st g' g Hg' Hg (fun c x a r Hc _ => RB c Hc) GN GS x' d' a r H Ga) as (x & S). exists x. apply (same_sym_at G g' g x' x GS) in S. exact S. Qed.
  Theorem meshes_same : exists node, length (g_rows g') = length (g_rows g) /\ one_to_one (length (g_rows g)) node /\
    (forall i, (i < length (g_rows g))%nat -> at_same F g g' i (node i)) /\
    (forall i j, (i < length (g_rows g))%nat -> (j < length (g_rows g))%nat -> contact g i j <-> contact g' (node i) (node j)) /\
    (forall i j d e d' e' r, is_node (g_rows g) i d -> is_node (g_rows g) j e -> is_node (g_rows g') (node i) d' -> is_node (g_rows g') (node j) e' -> F (nf d) (nf d') r ->
       (r == 1 -> (beam_element g i j d e <-> beam_element g' (node i) (node j) d' e') /\ (beam_element g i j d e -> ns e' - ns d' == ns e - ns d)) /\
       (r == - (1) -> (beam_element g i j d e <-> beam_element g' (node j) (node i) e' d') /\ (beam_element g i j d e -> ns d' - ns e' == ns e - ns d))).
  Proof.
    pose proof no_ties_to as NT'.
    destruct (finite_choice (at_same F g g') 0%nat (length (g_rows g))) as (node & HN).
    { intros i L. destruct (node_ex _ _ L) as (d & Hd). destruct (node_row st g i d Hg Hd) as (k & c & b & Hk & _ & E1 & _).
      destruct (tot_to c) with (x := b) as (a & r & Fa); [apply in_row; eauto|]. rewrite <- E1 in Fa.
      exact (same_total F st st' g g' Hg Hg' (fun c x a r Hc _ => RT c Hc) FN FS i d a r Hd Fa). }
    destruct (finite_choice (fun x i => at_same F g g' i x) 0%nat (length (g_rows g'))) as (back & HB).
    { intros i L. destruct (node_ex _ _ L) as (d & Hd). exact (same_onto i d Hd). }
    assert (LT : forall i x, at_same F g g' i x -> (i < length (g_rows g))%nat /\ (x < length (g_rows g'))%nat).
    { intros i x (d & d' & r & A & B & _). split; eapply node_lt; eassumption. }
    assert (I1 : forall i j, (i < length (g_rows g))%nat -> (j < length (g_rows g))%nat -> node i = node j -> i = j).
    { intros i j Li Lj E. apply (same_inj F g g' FN FS FU i j (node i) NT); [exact (HN i Li)|rewrite E; exact (HN j Lj)]. }
    assert (EL : length (g_rows g') = length (g_rows g)).
    { apply Nat.le_antisymm.
      - apply (inject_le _ _ back); [intros x L; exact (proj1 (LT _ _ (HB x L)))|]. intros x y Lx Ly E.
        apply (same_fun F g g' FN FU NT' (back x)); [exact (HB x Lx)|rewrite E; exact (HB y Ly)].
      - apply (inject_le _ _ node); [intros i L; exact (proj2 (LT _ _ (HN i L)))|exact I1]. }
    exists node. split; [exact EL|]. split; [split; [intros i L; rewrite <- EL; exact (proj2 (LT _ _ (HN i L)))|exact I1]|]. split; [exact HN|]. split.
    - intros i j Li Lj. split; intros C.
      + exact (contact_to F st st' g g' Hg Hg' (fun c x a r Hc _ => RT c Hc) FN FS FU NT' UP UP' i j _ _ C (HN i Li) (HN j Lj)).
      + refine (contact_to G st' st g' g Hg' Hg (fun c x a r Hc _ => RB c Hc) GN GS GU NT UP' UP _ _ i j C _ _); apply same_sym_at; auto.
    - intros i j d e d' e' r Hi Hj Hi' Hj' Fr. pose proof (HN i (node_lt _ _ _ Hi)) as Si. pose proof (HN j (node_lt _ _ _ Hj)) as Sj.
      assert (Si' : at_same G g' g (node i) i) by (apply same_sym_at; auto). assert (Sj' : at_same G g' g (node j) j) by (apply same_sym_at; auto).
      assert (BT' : forall x d a r, is_node (g_rows g) x d -> G a (nf d) r -> exists x', at_same G g' g x' x).
      { intros x d0 a0 r0 Hx _. exists (node x). apply same_sym_at; [exact FS|]. apply HN. exact (node_lt _ _ _ Hx). }
      pose proof (fun B => beam_to F st st' g g' Hg Hg' FN FU NT' NT (fun x d a r Hx _ => same_onto x d Hx) i j _ _ d e d' e' r B Si Sj Hi' Hj' Fr) as W.
      assert (O' : nodes_ordered (g_rows g') /\ beams_ok (g_rows g')) by (destruct (init_order st' g' (mesh_new_inv _ _ Hg')) as (_ & X & Y & _); auto).
      assert (FJ : beam_element g' (node j) (node i) e' d' -> F (nf e) (nf e') r).
      { intros B. apply (beam_iff g' _ _ _ _ (proj1 O') (proj2 O') NT') in B. destruct B as (_ & _ & EF & _).
        destruct Sj as (e0 & e0' & s & A1 & A2 & A3 & _). pose proof (node_fun _ _ _ _ A1 Hj). pose proof (node_fun _ _ _ _ A2 Hj'). subst e0 e0'.
        pose proof (proj2 (FN _ _ _ _ _ _ A3 Fr) EF) as EI. rewrite EI, EF. exact Fr. }
      split; intros R; (split; [split|]).
      + intros B. apply (W B), R.
      + intros B. apply (beam_to G st' st g' g Hg' Hg GN GU NT NT' BT' _ _ _ _ _ _ _ _ r B Si' Sj' Hi Hj Fr), R.
      + intros B. apply (W B), R.
      + intros B. apply (W B), R.
      + intros B. apply (beam_to G st' st g' g Hg' Hg GN GU NT NT' BT' _ _ _ _ _ _ _ _ r B Sj' Si' Hj Hi (FJ B)), R.
      + intros B. apply (W B), R.
  Qed.
End Both.
