(** Proofs about the compression of a mat whose fibers are listed in another order (C105). *)
From Coq Require Import String.
From Verif Require Import Num NumP ListX ListP Frames MatM NetM StackM MeshM ModelM SolverM InterpM ResultM Spec SpecNet SpecStack SpecMesh SpecModel SpecSolver SpecMeta SpecTorus SpecPiles
  SpecMain SpecPack SpecScale SpecProgress SpecMove SpecRename SpecOrder CheckP NetP NetGeoP NetZP StackP StackNewP MeshP MeshCheckP MetaP TorusP PilesP MoveP OrderP
  ScaleP UnitsP MainP PackP RenameP.
Open Scope Q_scope.

Lemma way_sign b : way b == 1 \/ way b == - (1).
Proof. destruct b; [right|left]; reflexivity. Qed.
Section Shuffled.
  Variables (linprog linprog' : lp -> list Q) (e : Z -> Z) (back : Z -> bool) (per : bool) (m m' : qmat) (t t' : net_df).
  Hypothesis HC : shuffled e back per t m m'.
  Hypothesis flat : all_in_plane m.
  Lemma sh_back j f' : has_fiber m' j f' -> exists i f, has_fiber m i f /\ j = e i /\ strand per (q_size m') (way (back i)) f f' /\ fiber_seen no_units f f'.
  Proof.
    intros H. destruct HC as (_ & H1 & H2 & _). destruct (H2 j f' H) as (i & f & Hf & ->). exists i, f. split; [exact Hf|]. split; [reflexivity|].
    destruct (H1 i f Hf) as (f2 & Hf2 & S & K). rewrite <- (fiber_fun _ _ _ _ Hf2 H). auto.
  Qed.
  Lemma sh_in f' : In f' (q_rows m') -> exists i f, In f (q_rows m) /\ strand per (q_size m') (way (back i)) f f' /\ fiber_seen no_units f f'.
  Proof.
    intros H. apply In_nth_error in H. destruct H as (j & H). destruct (sh_back (Z.of_nat j) f') as (i & f & [_ Hf] & _ & K); [split; [lia|rewrite Nat2Z.id; exact H]|].
    exists i, f. split; [eapply nth_error_In; exact Hf|exact K].
  Qed.
  Lemma sh_flat : all_in_plane m'.
  Proof.
    intros f' H. destruct (sh_in f' H) as (i & f & Hf & (_ & _ & _ & _ & _ & B) & _). unfold in_plane. rewrite B. pose proof (flat f Hf) as P. unfold in_plane in P. rewrite P. ring.
  Qed.
  Lemma sh_per : per = true -> all_at_most_unit m /\ (forall f, In f (q_rows m) -> 2 * ql f <= q_size m) /\
    all_at_most_unit m' /\ (forall f, In f (q_rows m') -> 2 * ql f <= q_size m').
  Proof.
    intros E. pose proof HC as (ES & _ & _ & _ & _ & HP). destruct (HP E) as (A & B). split; [exact A|]. split; [exact B|]. split; intros f' H; destruct (sh_in f' H) as (i & f & Hf & (R & L & _ & U & V & _) & _).
    - pose proof (A f Hf) as X. unfold at_most_unit in *. rewrite U, V. pose proof (sign_sq _ R) as R2.
      assert (EQ : way (back i) * qu f * (way (back i) * qu f) + way (back i) * qv f * (way (back i) * qv f) == way (back i) * way (back i) * (qu f * qu f + qv f * qv f)) by ring.
      rewrite EQ, R2. lra.
    - rewrite L, ES. exact (B f Hf).
  Qed.
  Lemma sh_boxes : valid m -> valid m' -> per = true -> boxes ident m m'.
  Proof.
    intros V V' E. pose proof HC as (ES & _). destruct (sh_per E) as (_ & A & _ & B). split; [exact (proj2 ident_ok)|]. split; [cbn [mv_k ident]; rewrite ES; ring|]. split; intros f Hf.
    - pose proof (A f Hf). destruct (valid_fiber m V f Hf) as (L & _). lra.
    - pose proof (B f Hf). destruct (valid_fiber m' V' f Hf) as (L & _). lra.
  Qed.
  Lemma sh_ready thr p size : valid m' -> ready m thr p size -> ready m' thr p size.
  Proof.
    intros V' (V & NE & FL & FS & W & R). split; [exact V'|]. split.
    { intros E. destruct (q_rows m) as [|f l] eqn:Em; [apply NE; reflexivity|]. destruct HC as (_ & H1 & _).
      destruct (H1 0%Z f) as (f' & [_ Hf'] & _); [split; [lia|rewrite Em; reflexivity]|]. rewrite E in Hf'. destruct (Z.to_nat (e 0)); discriminate Hf'. }
    split; [exact sh_flat|]. split.
    { intros f' Hf'. destruct (sh_in f' Hf') as (i & f & Hf & _ & (_ & _ & EG & _)). destruct (FS f Hf) as (G & E). rewrite E in EG.
      destruct (t_fin_r _ _ _ EG) as (q & -> & _). exists q. reflexivity. }
    split; [|exact R]. unfold wide in *. destruct thr as [d|]; [|exact I]. intros f' g' Hf' Hg'.
    destruct (sh_in f' Hf') as (i & f & Hf & _ & (_ & EF & _)). destruct (sh_in g' Hg') as (j & g & Hg & _ & (_ & EG & _)).
    specialize (W f g Hf Hg). cbn [un_len no_units] in EF, EG. rewrite EF, EG. setoid_replace ((1 * qh f + 1 * qh g) / 2) with ((qh f + qh g) / 2) by field. exact W.
  Qed.
  Hypothesis Ht : net_new m per None = Ok t.
  Hypothesis Ht' : net_new m' per None = Ok t'.
  Hypothesis S1 : solved linprog m t.
  Hypothesis S2 : solved linprog' m' t'.
  Variables (thr : option Q) (st st' : net_df) (n n' : qmat).
  Hypothesis R1 : stack_new linprog m t thr = Ok (st, n).
  Hypothesis R2 : stack_new linprog' m' t' thr = Ok (st', n').
  Lemma sh_heights i f f' : has_fiber n i f -> has_fiber n' (e i) f' -> qz f' == qz f.
  Proof.
    intros Hf Hf'. destruct (built_inv linprog m per t Ht S1 _ _ _ R1) as (_ & _ & _ & SB & _).
    destruct (same_fiber n m i f (same_sym _ _ SB) Hf) as (f0 & Hf0 & _).
    rewrite <- (heights_fiber n i f Hf), <- (heights_fiber n' (e i) f' Hf').
    setoid_replace (height (heights n) i) with (mv_k ident * height (heights n) i) by (cbn [mv_k ident]; ring).
    pose proof HC as (ES & H1 & H2 & HI & HO & _).
    refine (arranged_eq linprog linprog' ident m m' per t t' e Ht Ht' (proj1 ident_ok) flat _ thr thr st st' n n' S1 S2 R1 R2 _ _ i f0 Hf0).
    - apply sh_boxes; [apply (new_facts _ _ _ _ Ht)|apply (new_facts _ _ _ _ Ht')].
    - split; [|split].
      + intros j g Hg. destruct (H1 j g Hg) as (g' & Hg' & ST & (_ & EH & _)). exists g'. split; [exact Hg'|]. split; [exists (way (back j)); apply ident_alike, ST|].
        cbn [mv_k ident]. rewrite EH. reflexivity.
      + intros a b fa gb Ha Hb L (s & s' & k & c & Hr & J). apply HO. split; [exact L|]. pose proof (net_up _ _ _ _ _ Ht Hr).
        exists k, c. destruct J as [(A & B & _)|(A & B & _)]; [auto|lia].
      + intros a b fa gb Ha Hb. apply HI.
    - intros a b fa gb _ Hb _. destruct (H2 b gb Hb) as (c & g & Hg & E). exists c, g. auto.
  Qed.
  Definition names (i a : Z) (r : Q) : Prop := a = e i /\ r = way (back i) /\ exists f, has_fiber m i f.
  Lemma names_fun i j a b r s : names i a r -> names j b s -> (i = j <-> a = b).
  Proof. intros (-> & _) (-> & _). destruct HC as (_ & _ & _ & HI & _). split; [intros ->; reflexivity|apply HI]. Qed.
  Lemma names_sign i a r : names i a r -> r == 1 \/ r == - (1).
  Proof. intros (_ & -> & _). apply way_sign. Qed.
  Lemma names_same i a r s : names i a r -> names i a s -> r == s.
  Proof. intros (_ & -> & _) (_ & -> & _). reflexivity. Qed.
  Lemma sh_same : same_but_heights m n /\ same_but_heights m' n'.
  Proof.
    destruct (built_inv linprog m per t Ht S1 _ _ _ R1) as (_ & _ & _ & SB & _). destruct (built_inv linprog' m' per t' Ht' S2 _ _ _ R2) as (_ & _ & _ & SB' & _). auto.
  Qed.
  Lemma names_at i a r : names i a r -> exists f f', has_fiber n i f /\ has_fiber n' a f' /\ strand per (q_size n') r f f' /\ qz f' == qz f /\ fiber_seen no_units f f'.
  Proof.
    intros (-> & -> & f0 & Hf0). destruct sh_same as (SB & SB'). pose proof HC as (ES & H1 & _). destruct (H1 i f0 Hf0) as (f0' & Hf0' & ST & SE).
    destruct (same_fiber m n i f0 SB Hf0) as (f & Hf & (A1 & A2 & A3 & A4 & A5 & A6 & A7 & A8 & A9 & A10)).
    destruct (same_fiber m' n' (e i) f0' SB' Hf0') as (f' & Hf' & (B1 & B2 & B3 & B4 & B5 & B6 & B7 & B8 & B9 & B10)).
    exists f, f'. split; [exact Hf|]. split; [exact Hf'|]. split; [|split; [exact (sh_heights i f f' Hf Hf')|]].
    - rewrite <- (proj1 SB'). unfold strand in *. rewrite <- A1, <- A4, <- A5, <- A6, <- A7, <- A8, <- B1, <- B4, <- B5, <- B6, <- B7, <- B8. exact ST.
    - unfold fiber_seen in *. rewrite <- A2, <- A3, <- A9, <- A10, <- B2, <- B3, <- B9, <- B10. exact SE.
  Qed.
  Lemma names_total i f : has_fiber n i f -> exists a r, names i a r.
  Proof. intros Hf. destruct sh_same as (SB & _). destruct (same_fiber n m i f (same_sym _ _ SB) Hf) as (f0 & Hf0 & _). exists (e i), (way (back i)). repeat split. eauto. Qed.
  Lemma names_onto a f : has_fiber n' a f -> exists i r, names i a r.
  Proof.
    intros Hf. destruct sh_same as (_ & SB). destruct (same_fiber n' m' a f (same_sym _ _ SB) Hf) as (f0 & Hf0 & _).
    destruct (sh_back a f0 Hf0) as (i & g & Hg & E & _). exists i, (way (back i)). repeat split; eauto.
  Qed.
  Lemma sh_n : q_size n' == q_size n /\ all_in_plane n /\ all_in_plane n' /\ (per = true -> all_at_most_unit n /\ (forall f, In f (q_rows n) -> 2 * ql f <= q_size n) /\
    all_at_most_unit n' /\ (forall f, In f (q_rows n') -> 2 * ql f <= q_size n')).
  Proof.
    destruct sh_same as (SB & SB'). split; [rewrite <- (proj1 SB), <- (proj1 SB'); exact (proj1 HC)|]. split; [exact (same_plane _ _ SB flat)|]. split; [exact (same_plane _ _ SB' sh_flat)|].
    assert (K : forall x y, same_but_heights x y -> all_at_most_unit x -> (forall f, In f (q_rows x) -> 2 * ql f <= q_size x) ->
      all_at_most_unit y /\ (forall f, In f (q_rows y) -> 2 * ql f <= q_size y)).
    { intros x y SX U L. split; intros f Hf; apply In_nth_error in Hf; destruct Hf as (i & Hf);
        destruct (same_fiber y x (Z.of_nat i) f (same_sym _ _ SX)) as (f0 & [_ H0] & (A1 & _ & _ & _ & _ & A6 & A7 & _)); try (split; [lia|rewrite Nat2Z.id; exact Hf]).
      - pose proof (U f0 (nth_error_In _ _ H0)) as X. unfold at_most_unit in *. rewrite A6, A7. exact X.
      - rewrite A1, <- (proj1 SX). exact (L f0 (nth_error_In _ _ H0)). }
    intros E. destruct (sh_per E) as (A & B & C & D). destruct (K m n SB A B). destruct (K m' n' SB' C D). auto.
  Qed.
  Lemma kept_to (F : Z -> Z -> Q -> Prop) d c c' : (forall i j a b r s, F i a r -> F j b s -> (i = j <-> a = b)) -> row_to F c c' -> kept d c = true -> kept d c' = true.
  Proof.
    intros FN (rA & rB & FA & FB & ZA & ZB & _). unfold kept. rewrite !orb_true_iff. intros [K|K]; [left|right].
    - qb. rewrite ZA, ZB. exact K.
    - apply Z.eqb_eq in K. apply Z.eqb_eq. apply (FN _ _ _ _ _ _ FA FB), K.
  Qed.
  Lemma sh_rows : (forall c, In c (map snd (n_rows st)) -> exists c', In c' (map snd (n_rows st')) /\ row_to names c c') /\
    (forall c', In c' (map snd (n_rows st')) -> exists c, In c (map snd (n_rows st)) /\ row_to (fun a i r => names i a r) c' c) /\
    (forall k c, nth_row st k c -> (cA c <= cB c)%Z) /\ (forall k c, nth_row st' k c -> (cA c <= cB c)%Z) /\ once st'.
  Proof.
    destruct (built_inv linprog m per t Ht S1 _ _ _ R1) as (_ & _ & _ & SB & _ & full & Hfull & E1).
    destruct (built_inv linprog' m' per t' Ht' S2 _ _ _ R2) as (_ & _ & _ & SB' & _ & full' & Hfull' & E2).
    destruct sh_n as (ES & P & P' & HP).
    assert (OR : forall i j a b r s, connected full i j -> names i a r -> names j b s -> (a < b)%Z).
    { intros i j a b r s CN (-> & _) (-> & _). destruct HC as (_ & _ & _ & _ & HO & _). apply HO. exact (connected_same per None m n t full i j flat SB Ht Hfull CN). }
    assert (NA : forall i a r, names i a r -> exists f f', has_fiber n i f /\ has_fiber n' a f' /\ strand per (q_size n') r f f' /\ qz f' == qz f).
    { intros i a r H. destruct (names_at i a r H) as (f & f' & A & B & C & D & _). eauto 8. }
    pose proof (row_to_at per n n' names full full' ES P P' HP names_total NA names_fun Hfull Hfull' OR) as RT.
    assert (OB : forall a b i j r s, connected full' a b -> names i a r -> names j b s -> (i < j)%Z).
    { intros a b i j r s. exact (order_back per n n' names full full' ES P P' HP NA names_fun Hfull Hfull' OR i j a b r s). }
    assert (RB : forall c', In c' (map snd (n_rows full')) -> exists c, In c (map snd (n_rows full)) /\ row_to (fun a i r => names i a r) c' c).
    { apply (row_to_at per n' n (fun a i r => names i a r) full' full (Qeq_sym _ _ ES) P' P); auto.
      - intros E. destruct (HP E) as (A & B & C & D). auto.
      - exact names_onto.
      - intros a i r H. destruct (NA i a r H) as (f & f' & A & B & C & D). exists f', f. split; [exact B|]. split; [exact A|]. split; [|symmetry; exact D].
        apply strand_sym, (strand_size per (q_size n')); [exact ES|exact C].
      - intros a b i j r s A B. symmetry. exact (names_fun _ _ _ _ _ _ A B). }
    assert (IN : forall f d x, In x (map snd (n_rows (filter_net (Some d) f))) <-> In x (map snd (n_rows f)) /\ kept d x = true).
    { intros f d x. cbn [filter_net n_rows]. rewrite enum_snd. apply filter_In. }
    assert (SUB : forall f x, In x (map snd (n_rows (filter_net thr f))) -> In x (map snd (n_rows f))).
    { intros f x. destruct thr as [d|]; [|exact (fun H => H)]. intros H. apply IN in H. apply H. }
    assert (UPF : forall nn ff k c, net_new nn per None = Ok ff -> nth_row (filter_net thr ff) k c -> (cA c <= cB c)%Z).
    { intros nn ff k c Hn Hk. assert (H : In c (map snd (n_rows ff))) by (apply SUB, in_row; eauto). apply In_nth_error in H. destruct H as (l & H).
      apply (rows_snd ff l c (new_ok _ _ _ _ Hn)) in H. exact (net_up _ _ _ _ _ Hn H). }
    rewrite E1, E2. split; [|split; [|split; [|split]]].
    - intros c Hc. destruct (RT c (SUB _ _ Hc)) as (c' & Hc' & K). exists c'. split; [|exact K]. destruct thr as [d|]; [|exact Hc'].
      apply IN. split; [exact Hc'|]. apply IN in Hc. exact (kept_to names d c c' names_fun K (proj2 Hc)).
    - intros c Hc. destruct (RB c (SUB _ _ Hc)) as (c' & Hc' & K). exists c'. split; [|exact K]. destruct thr as [d|]; [|exact Hc'].
      apply IN. split; [exact Hc'|]. apply IN in Hc. refine (kept_to (fun a i r => names i a r) d c c' _ K (proj2 Hc)).
      intros a b i j r s A B. symmetry. exact (names_fun _ _ _ _ _ _ A B).
    - intros k c. exact (UPF n full k c Hfull).
    - intros k c. exact (UPF n' full' k c Hfull').
    - apply increasing_once. pose proof (net_increasing per n' full' Hfull') as I. destruct thr as [d|]; [|exact I].
      cbn [filter_net n_rows]. rewrite enum_snd. apply increasing_filter, I.
  Qed.
  Variables (g g' : mesh_df).
  Hypothesis Hg : mesh_new st = Ok g.
  Hypothesis Hg' : mesh_new st' = Ok g'.
  Hypothesis NT : no_ties g.
  Theorem shuffled_mesh : exists node, mesh_renamed (mkRen node e back) n n' g g' /\ same_places node back g g'.
  Proof.
    destruct sh_rows as (RT & RB & UP & UP' & ON).
    destruct (meshes_same names st st' g g' Hg Hg' RT RB names_fun names_sign names_same UP UP' ON NT) as (node & EL & O & SM & CT & BM).
    assert (NM : forall i d d', is_node (g_rows g) i d -> is_node (g_rows g') (node i) d' -> names (nf d) (nf d') (way (back (nf d))) /\
      ns d' == way (back (nf d)) * ns d /\ nz d' == nz d).
    { intros i d d' Hd Hd'. destruct (SM i (node_lt _ _ _ Hd)) as (d0 & d0' & r & A & B & N & S & Z).
      rewrite (node_fun _ _ _ _ A Hd), (node_fun _ _ _ _ B Hd') in *. destruct N as (N1 & N2 & N3). rewrite N2 in S. split; [repeat split; auto|auto]. }
    exists node. split; [|intros i d d' Hd Hd'; apply (NM i d d' Hd Hd')].
    split; [exact EL|]. split; [exact O|]. split; [cbn [rn_fiber]; intros i j; exact (proj1 (proj2 (proj2 (proj2 HC))) i j)|]. split; [|split].
    - intros i d d' Hd Hd'. cbn [rn_node] in Hd'. destruct (NM i d d' Hd Hd') as (N & _ & Z). split; [apply N|]. split; [exact Z|].
      intros f f' Hf Hf'. destruct (names_at _ _ _ N) as (f0 & f0' & A & B & _ & _ & K). rewrite (fiber_fun _ _ _ _ Hf A), (fiber_fun _ _ _ _ Hf' B). exact K.
    - intros i j d x d' x' Hd Hx Hd' Hx'. cbn [rn_node rn_back] in *. destruct (NM i d d' Hd Hd') as (N & _).
      destruct (BM i j d x d' x' _ Hd Hx Hd' Hx' N) as [B1 B2]. destruct (back (nf d)); [apply B2; reflexivity|apply B1; reflexivity].
    - exact CT.
  Qed.
End Shuffled.

Lemma neqv_times x y : neqv x y <-> times 1 x y.
Proof. destruct x, y; cbn; try tauto. split; intros H; [rewrite H; ring|rewrite H; ring]. Qed.
Lemma renamed_curves R g g' S S' h h' size : Forall2 (record_renamed R g g' S S') h h' -> same_curves (results_of S h size) (results_of S' h' size).
Proof.
  intros F t. unfold results_of. cbn [r_Z r_rl]. split; apply neqv_times, i_new; try reflexivity.
  - induction F as [|s s' l l' (_ & _ & Z & _) F IH]; cbn [map]; constructor; [apply neqv_times, Z|exact IH].
  - induction F as [|s s' l l' (_ & _ & _ & Z) F IH]; cbn [map]; constructor; [apply neqv_times, Z|exact IH].
Qed.

Theorem shuffled_solve linprog linprog' lsolve lsolve' e back per m m' t t' : right_linprog linprog -> right_linprog linprog' -> direct_solver lsolve -> direct_solver lsolve' ->
  net_new m per None = Ok t -> net_new m' per None = Ok t' -> shuffled e back per t m m' ->
  forall thr p size, ready m thr p size ->
  forall st st' n n' g g' S h S' h', stack_new linprog m t thr = Ok (st, n) -> stack_new linprog' m' t' thr = Ok (st', n') ->
  mesh_new st = Ok g -> mesh_new st' = Ok g' -> no_ties g -> solve lsolve n g p = Ok (S, h) -> solve lsolve' n' g' p = Ok (S', h') ->
  exists node, mesh_renamed (mkRen node e back) n n' g g' /\ same_places node back g g' /\ Forall2 (record_renamed (mkRen node e back) g g' S S') h h' /\
    same_curves (results_of S h size) (results_of S' h' size).
Proof.
  intros LP LP' DS DS' Ht Ht' HC thr p size RD st st' n n' g g' S h S' h' R1 R2 Hg Hg' NT E E'. pose proof RD as RD1.
  assert (V' : valid m') by (apply (new_facts _ _ _ _ Ht')).
  assert (FL : all_in_plane m) by (destruct RD as (_ & _ & FL & _); exact FL).
  assert (RD' : ready m' thr p size) by exact (sh_ready e back per m m' t HC FL thr p size V' RD).
  destruct (shuffled_mesh linprog linprog' e back per m m' t t' HC FL Ht Ht' (LP _ _ _ Ht) (LP' _ _ _ Ht') thr st st' n n' R1 R2 g g' Hg Hg' NT) as (node & MR & SP).
  exists node. split; [exact MR|]. split; [exact SP|].
  assert (PR : params_renamed p p).
  { unfold params_renamed, params_in. repeat split; try reflexivity; try (cbn [un_len no_units]; ring); unfold option_in;
      match goal with |- match ?x with _ => _ end => destruct x end; auto; cbn [un_len no_units]; ring. }
  assert (F : Forall2 (record_renamed (mkRen node e back) g g' S S') h h'); [|split; [exact F|exact (renamed_curves _ _ _ _ _ _ _ size F)]].
  apply (renamed_calls _ lsolve lsolve' n n' g g' p p S h S' h' MR PR DS DS'); auto.
  - exact (pk_sound linprog lsolve LP DS m per thr p size RD1 t st n g Ht R1 Hg).
  - exact (pk_sound linprog' lsolve' LP' DS' m' per thr p size RD' t' st' n' g' Ht' R2 Hg').
  - exact (pk_held linprog LP m per thr p size RD1 t st n g Ht R1 Hg).
  - exact (pk_numbering m thr p size RD1 S).
  - exact (pk_numbering m thr p size RD1 S').
Qed.
