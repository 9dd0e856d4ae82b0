(** Proofs about stiffness (C29 - C33). *)
From Coq Require Import String Permutation.
From Verif Require Import Num NumP ListX ListP Frames MatM NetM MeshM ModelM Spec SpecNet SpecMesh SpecModel
  CheckP GroupP MeshCheckP NetP NetZP StackP StackNewP MeshP.
Open Scope Q_scope.

Lemma qeqb_false x : 0 < x -> Qeqb x 0 = false.
Proof. intros H. apply Qeqb_neq. lra. Qed.

(** ** One element *)
Section Element.
  Variable f : qfiber.
  Variables G E l c : Q.
  Hypothesis EG : qG f = Fin G.
  Hypothesis EE : qE f = Fin E.
  Hypothesis G0 : 0 < G.
  Hypothesis E0 : 0 < E.
  Hypothesis l0 : 0 < l.
  Hypothesis h0 : 0 < qh f.
  Hypothesis b0 : 0 < qb f.
  Let h := qh f.

  Let k := beam_stiffness f G E l.

  Lemma den_pos : 0 < 1 + G / E * (l / h * (l / h)).
  Proof.
    unfold h. assert (0 < G / E) by (apply Qlt_shift_div_l; lra).
    assert (0 < l / qh f) by (apply Qlt_shift_div_l; lra).
    assert (0 <= G / E * (l / qh f * (l / qh f))); [|lra].
    apply Qmult_le_0_compat; [apply Qlt_le_weak; assumption|]. apply Qmult_le_0_compat; apply Qlt_le_weak; assumption.
  Qed.
  Lemma k0_fin : k0_of f l = Fin k.
  Proof.
    unfold k0_of. rewrite EG, EE. cbn [nmul ndiv nadd].
    rewrite (qeqb_false l l0), (qeqb_false E E0), (qeqb_false (qh f) h0). cbn [nmul nadd ndiv].
    rewrite qeqb_false; [reflexivity|]. apply den_pos.
  Qed.
  Lemma k_pos : 0 < k.
  Proof.
    unfold k, beam_stiffness. apply Qlt_shift_div_l; [apply den_pos|]. rewrite Qmult_0_l.
    apply Qlt_shift_div_l; [auto|]. rewrite Qmult_0_l.
    assert (0 < np_pi / 4) by reflexivity.
    apply Qmult_lt_0_compat; auto. apply Qmult_lt_0_compat; auto. apply Qmult_lt_0_compat; auto.
  Qed.
  Lemma k1_fin : k1_of c f l = Fin (k * l / 2 * c).
  Proof. unfold k1_of. rewrite k0_fin. reflexivity. Qed.
  Lemma k2_fin : k2_of f l = Fin (k * (l * l) / 3 + k * (E / G) * (h * h)).
  Proof.
    unfold k2_of. rewrite k0_fin, EE, EG. cbn [nmul ndiv nadd]. rewrite (qeqb_false G G0). reflexivity.
  Qed.
  Lemma k4_fin : k4_of f l = Fin (k * (l * l) / 3 + k * (E / G) * (h * h) + - (k * (l * l) / 2)).
  Proof. unfold k4_of, k3_of. rewrite k2_fin, k0_fin. reflexivity. Qed.

  Variables i j : nat.
  Variable u : list Q.
  Let ui := disp u i. Let ti := rot u i. Let uj := disp u j. Let tj := rot u j.

  Definition energy (k l c E G h ui ti uj tj : Q) : Q :=
    k * ((ui - uj + c * l / 2 * (ti + tj)) * (ui - uj + c * l / 2 * (ti + tj))
         + (1 - c * c) * (l * l) / 4 * ((ti + tj) * (ti + tj))
         + (l * l / 12 + E / G * (h * h)) * ((ti - tj) * (ti - tj))).

  Lemma block_finite : all_finite (block c i j f l).
  Proof.
    intros r x v. unfold block. rewrite k0_fin, k1_fin, k2_fin, k4_fin. simpl.
    intros H. repeat (destruct H as [H|H]; [inversion H; eexists; reflexivity|]). destruct H.
  Qed.
  Lemma block_quad : quadratic (block c i j f l) u == energy k l c E G h ui ti uj tj.
  Proof.
    unfold quadratic, block. rewrite k0_fin, k1_fin, k2_fin, k4_fin.
    cbn [map qsum qof nopp]. fold (disp u i) (rot u i) (disp u j) (rot u j). fold ui ti uj tj.
    unfold energy. generalize (E / G). intros r. field.
  Qed.
  (** the four rows of the product *)
  Definition force (k l c : Q) (ui ti uj tj : Q) : Q := k * (ui - uj) + k * l / 2 * c * (ti + tj).
  Definition moment (k l c r h ui ti uj tj : Q) : Q :=
    k * l / 2 * c * (ui - uj) + (k * (l * l) / 3 + k * r * (h * h)) * ti
    - (k * (l * l) / 3 + k * r * (h * h) - k * (l * l) / 2) * tj.
  Lemma block_product r : product (block c i j f l) u r ==
    (if Nat.eqb (2 * i) r then force k l c ui ti uj tj else 0)
    + (if Nat.eqb (2 * i + 1) r then moment k l c (E / G) h ui ti uj tj else 0)
    + (if Nat.eqb (2 * j) r then - force k l c ui ti uj tj else 0)
    + (if Nat.eqb (2 * j + 1) r then moment k l c (E / G) h ui tj uj ti else 0).
  Proof.
    unfold product, block. rewrite k0_fin, k1_fin, k2_fin, k4_fin.
    cbn [map qsum qof nopp]. fold (disp u i) (rot u i) (disp u j) (rot u j). fold ui ti uj tj.
    unfold force, moment. generalize (E / G). intros q.
    destruct (Nat.eqb (2 * i) r), (Nat.eqb (2 * i + 1) r), (Nat.eqb (2 * j) r), (Nat.eqb (2 * j + 1) r); field.
  Qed.
End Element.

(** ** Assembly *)
Lemma quad_app P P' u : quadratic (P ++ P') u == quadratic P u + quadratic P' u.
Proof. unfold quadratic. rewrite map_app. apply qsum_app. Qed.
Lemma product_app P P' u r : product (P ++ P') u r == product P u r + product P' u r.
Proof. unfold product. rewrite map_app. apply qsum_app. Qed.

Lemma quad_flat {A} (B : A -> ncoo) l u :
  quadratic (flat_map B l) u == qsum (map (fun e => quadratic (B e) u) l).
Proof.
  induction l as [|e l IH]; simpl; [reflexivity|]. rewrite quad_app, IH. reflexivity.
Qed.
Lemma product_flat {A} (B : A -> ncoo) l u r :
  product (flat_map B l) u r == qsum (map (fun e => product (B e) u r) l).
Proof.
  induction l as [|e l IH]; simpl; [reflexivity|]. rewrite product_app, IH. reflexivity.
Qed.
Lemma qsum_nonneg l : (forall x, In x l -> 0 <= x) -> 0 <= qsum l.
Proof.
  induction l as [|x l IH]; simpl; intros H; [lra|].
  assert (0 <= x) by (apply H; auto). assert (0 <= qsum l) by (apply IH; intros; apply H; auto). lra.
Qed.
Lemma qsum_zero_all l : (forall x, In x l -> 0 <= x) -> qsum l == 0 -> forall x, In x l -> x == 0.
Proof.
  induction l as [|y l IH]; intros H E x; [intros []|]. simpl in *. intros [->|Hx].
  - assert (0 <= x) by (apply H; auto). assert (0 <= qsum l) by (apply qsum_nonneg; intros; apply H; auto). lra.
  - assert (0 <= y) by (apply H; auto). assert (0 <= qsum l) by (apply qsum_nonneg; intros; apply H; auto).
    apply IH; auto. lra.
Qed.
Lemma qsum_zeros l : (forall x, In x l -> x == 0) -> qsum l == 0.
Proof.
  induction l as [|x l IH]; simpl; intros H; [reflexivity|]. rewrite (H x) by auto. rewrite IH by auto. ring.
Qed.

(** ** Rescaling (C32) *)
Lemma qmin_spec l : forall x, In (qmin_list x l) (x :: l) /\ forall y, In y (x :: l) -> qmin_list x l <= y.
Proof.
  induction l as [|a l IH]; intros x; simpl.
  - split; auto. intros y [->|[]]. lra.
  - destruct (IH x) as [H1 H2]. simpl in H1. destruct (Q.min_spec a (qmin_list x l)) as [[L E]|[L E]].
    + split.
      * unfold Qmin, GenericMinMax.gmin in *. destruct (a ?= qmin_list x l) eqn:C; auto.
        destruct H1; auto.
      * intros y Hy. rewrite E. destruct Hy as [Hy|[Hy|Hy]].
        -- pose proof (H2 y (or_introl Hy)). lra.
        -- subst. lra.
        -- pose proof (H2 y (or_intror Hy)). lra.
    + split.
      * unfold Qmin, GenericMinMax.gmin in *. destruct (a ?= qmin_list x l) eqn:C; auto.
        destruct H1; auto.
      * intros y Hy. rewrite E. destruct Hy as [Hy|[Hy|Hy]].
        -- apply (H2 y (or_introl Hy)).
        -- subst. lra.
        -- apply (H2 y (or_intror Hy)).
Qed.
Lemma qmax_spec l : forall x, In (qmax_list x l) (x :: l) /\ forall y, In y (x :: l) -> y <= qmax_list x l.
Proof.
  induction l as [|a l IH]; intros x; simpl.
  - split; auto. intros y [->|[]]. lra.
  - destruct (IH x) as [H1 H2]. simpl in H1. destruct (Q.max_spec a (qmax_list x l)) as [[L E]|[L E]].
    + split.
      * unfold Qmax, GenericMinMax.gmax in *. destruct (a ?= qmax_list x l) eqn:C; auto.
        destruct H1; auto.
      * intros y Hy. rewrite E. destruct Hy as [Hy|[Hy|Hy]].
        -- apply (H2 y (or_introl Hy)).
        -- subst. lra.
        -- apply (H2 y (or_intror Hy)).
    + split.
      * unfold Qmax, GenericMinMax.gmax in *. destruct (a ?= qmax_list x l) eqn:C; auto.
        destruct H1; auto.
      * intros y Hy. rewrite E. destruct Hy as [Hy|[Hy|Hy]].
        -- pose proof (H2 y (or_introl Hy)). lra.
        -- subst. lra.
        -- pose proof (H2 y (or_intror Hy)). lra.
Qed.

Lemma interp2_slope a b lo hi x : a <= x -> x < b ->
  exists r, 0 <= r /\ r <= 1 /\ interp2 a b lo hi x == lo + r * (hi - lo) /\ r == (x - a) / (b - a).
Proof.
  intros H1 H2. exists ((x - a) / (b - a)). unfold interp2.
  replace (Qleb b x) with false by (symmetry; apply Qleb_gt; auto).
  split; [apply Qle_shift_div_l; lra|]. split; [apply Qle_shift_div_r; lra|]. split; [|reflexivity].
  field. lra.
Qed.
Lemma interp2_between a b lo hi x : a <= x -> x <= b ->
  (lo <= interp2 a b lo hi x <= hi) \/ (hi <= interp2 a b lo hi x <= lo).
Proof.
  intros H1 H2. destruct (Qlt_le_dec x b) as [L|L].
  - destruct (interp2_slope a b lo hi x H1 L) as (r & R1 & R2 & E & _). rewrite E.
    destruct (Qlt_le_dec lo hi); [left|right]; nra.
  - unfold interp2. replace (Qleb b x) with true by (symmetry; apply Qleb_le; auto).
    destruct (Qlt_le_dec lo hi); [left|right]; lra.
Qed.
Lemma interp2_mono a b lo hi x y : a <= x -> x <= y -> y <= b -> lo <= hi ->
  interp2 a b lo hi x <= interp2 a b lo hi y.
Proof.
  intros H1 H2 H3 H. destruct (Qlt_le_dec y b) as [L|L].
  - assert (Lx : x < b) by lra. assert (Hy : a <= y) by lra.
    destruct (interp2_slope a b lo hi x H1 Lx) as (r & R1 & R2 & E & Er).
    destruct (interp2_slope a b lo hi y Hy L) as (q & Q1 & Q2 & E' & Eq). rewrite E, E'.
    assert (r <= q). { rewrite Er, Eq. apply Qmult_le_compat_r; [lra|]. apply Qlt_le_weak, Qinv_lt_0_compat. lra. }
    assert (0 <= (q - r) * (hi - lo)) by (apply Qmult_le_0_compat; lra). lra.
  - destruct (interp2_between a b lo hi x H1 ltac:(lra)) as [B|B];
      unfold interp2 at 2; replace (Qleb b y) with true by (symmetry; apply Qleb_le; auto); lra.
Qed.
Lemma interp2_id a b lo hi x : a == lo -> b == hi -> lo <= x -> x <= hi -> interp2 a b lo hi x == x.
Proof.
  intros Ea Eb H1 H2. unfold interp2. destruct (Qleb b x) eqn:C; qb; [lra|]. rewrite Ea, Eb. field. lra.
Qed.
Lemma qmin_le a b : Qmin a b <= a /\ Qmin a b <= b.
Proof. destruct (Q.min_spec a b) as [[L E]|[L E]]; rewrite E; lra. Qed.
Lemma qmax_ge a b : a <= Qmax a b /\ b <= Qmax a b.
Proof. destruct (Q.max_spec a b) as [[L E]|[L E]]; rewrite E; lra. Qed.

(** smallest and largest of the lengths *)
Definition smallest (ls : list Q) (x : Q) : Prop := In x ls /\ forall y, In y ls -> x <= y.
Definition largest (ls : list Q) (x : Q) : Prop := In x ls /\ forall y, In y ls -> y <= x.

Lemma rescale_inv lmin lmax ls out : rescale lmin lmax ls = Ok out ->
  exists mn mx lo hi, smallest ls mn /\ largest ls mx /\
    lo = match lmin with Some v => v | None => mn end /\ hi = match lmax with Some v => v | None => mx end /\
    out = map (interp2 (Qmin mn lo) (Qmax mx hi) lo hi) ls.
Proof.
  unfold rescale. destruct ls as [|x l]; [discriminate|]. intros H. inversion H.
  exists (qmin_list x l), (qmax_list x l). eexists. eexists.
  split; [apply qmin_spec|]. split; [apply qmax_spec|]. split; [reflexivity|]. split; [reflexivity|]. reflexivity.
Qed.
Lemma rescale_total lmin lmax ls : ls <> [] -> exists out, rescale lmin lmax ls = Ok out.
Proof. destruct ls; [congruence|]. intros _. unfold rescale. eauto. Qed.
Lemma rescale_pos lmin lmax ls out : rescale lmin lmax ls = Ok out ->
  match lmin with Some v => 0 < v | None => forall l, In l ls -> 0 < l end ->
  match lmax with Some v => 0 < v | None => exists l, In l ls /\ 0 < l end ->
  length out = length ls /\ forall l, In l out -> 0 < l.
Proof.
  intros H B1 B2. apply rescale_inv in H. destruct H as (mn & mx & lo & hi & [I1 S1] & [I2 S2] & El & Eh & ->).
  split; [apply map_length|]. intros l Hl. apply in_map_iff in Hl. destruct Hl as (x & <- & Hx).
  assert (0 < lo) by (subst lo; destruct lmin; auto).
  assert (0 < hi) by (subst hi; destruct lmax; auto; destruct B2 as (y & Hy & Py); pose proof (S2 y Hy); lra).
  pose proof (S1 x Hx). pose proof (S2 x Hx). pose proof (qmin_le mn lo). pose proof (qmax_ge mx hi).
  destruct (interp2_between (Qmin mn lo) (Qmax mx hi) lo hi x) as [B|B]; lra.
Qed.
Lemma rescale_none ls out : rescale None None ls = Ok out -> Forall2 Qeq ls out.
Proof.
  intros H. apply rescale_inv in H. destruct H as (mn & mx & lo & hi & [I1 S1] & [I2 S2] & -> & -> & ->).
  assert (G : forall l, (forall x, In x l -> mn <= x <= mx) -> Forall2 Qeq l (map (interp2 (Qmin mn mn) (Qmax mx mx) mn mx) l)).
  { induction l as [|x l IH]; intros Hl; simpl; constructor; [|apply IH; intros; apply Hl; right; auto].
    destruct (Hl x (or_introl eq_refl)). symmetry. apply interp2_id; auto;
      [destruct (Q.min_spec mn mn) as [[C _]|[_ En]]; [lra|auto]|destruct (Q.max_spec mx mx) as [[C _]|[_ En]]; [lra|auto]]. }
  apply G. intros x Hx. split; [apply S1|apply S2]; auto.
Qed.
Lemma rescale_bounds lmin lmax ls out mn mx : rescale lmin lmax ls = Ok out ->
  smallest ls mn -> largest ls mx ->
  let lo := match lmin with Some v => v | None => mn end in
  let hi := match lmax with Some v => v | None => mx end in
  lo <= hi -> length out = length ls /\
  (forall k l, nth_error out k = Some l -> lo <= l <= hi) /\
  (forall k k' l l' o o', nth_error ls k = Some l -> nth_error ls k' = Some l' ->
     nth_error out k = Some o -> nth_error out k' = Some o' -> l <= l' -> o <= o').
Proof.
  intros H [I1 S1] [I2 S2] lo hi L. apply rescale_inv in H.
  destruct H as (mn' & mx' & lo' & hi' & [I1' S1'] & [I2' S2'] & El & Eh & ->).
  assert (mn == mn') by (apply Qle_antisym; [apply S1|apply S1']; auto).
  assert (mx == mx') by (apply Qle_antisym; [apply S2'|apply S2]; auto).
  assert (Elo : lo == lo') by (unfold lo; subst lo'; destruct lmin; [reflexivity|auto]).
  assert (Ehi : hi == hi') by (unfold hi; subst hi'; destruct lmax; [reflexivity|auto]).
  clearbody lo hi. pose proof (qmin_le mn' lo') as QM. pose proof (qmax_ge mx' hi') as QX.
  split; [apply map_length|]. split.
  - intros k l Hl. rewrite nth_error_map in Hl. destruct (nth_error ls k) as [x|] eqn:E; [|discriminate].
    inversion Hl. apply nth_error_In in E. pose proof (S1' x E). pose proof (S2' x E).
    destruct (interp2_between (Qmin mn' lo') (Qmax mx' hi') lo' hi' x) as [B|B]; lra.
  - intros k k' l l' o o' Hl Hl' Ho Ho' LE. rewrite nth_error_map in Ho, Ho'. rewrite Hl in Ho. rewrite Hl' in Ho'.
    inversion Ho. inversion Ho'. apply nth_error_In in Hl. apply nth_error_In in Hl'.
    pose proof (S1' l Hl). pose proof (S2' l' Hl'). apply interp2_mono; lra.
Qed.
Lemma rescale_equal lmin ls out x : rescale lmin None ls = Ok out -> (forall l, In l ls -> l == x) ->
  forall o, In o out -> o == x.
Proof.
  intros H HE o Ho. apply rescale_inv in H. destruct H as (mn & mx & lo & hi & [I1 S1] & [I2 S2] & El & -> & ->).
  apply in_map_iff in Ho. destruct Ho as (y & <- & Hy). pose proof (HE mn I1) as Em. pose proof (HE mx I2) as Ex.
  pose proof (HE y Hy). unfold interp2. destruct (Q.max_spec mx mx) as [[C _]|[_ E]]; [lra|].
  replace (Qleb (Qmax mx mx) y) with true by (symmetry; apply Qleb_le; lra). auto.
Qed.

(** ** Permutations of entries (C29) *)
Lemma nadd_comm x y : neqv (nadd x y) (nadd y x).
Proof. destruct x, y; simpl; auto. ring. Qed.
Lemma nadd_assoc x y z : neqv (nadd x (nadd y z)) (nadd (nadd x y) z).
Proof. destruct x, y, z; simpl; auto. ring. Qed.
#[export] Instance nadd_proper : Proper (neqv ==> neqv ==> neqv) nadd.
Proof. intros [] [] H [] [] H'; simpl in *; try contradiction; auto. lra. Qed.
Lemma nsum_perm l l' : Permutation l l' -> neqv (nsum l) (nsum l').
Proof.
  induction 1; simpl.
  - reflexivity.
  - rewrite IHPermutation. reflexivity.
  - rewrite nadd_assoc, (nadd_comm y x), <- nadd_assoc. reflexivity.
  - etransitivity; eauto.
Qed.
Definition swap (e : nat * nat * num) : nat * nat * num := (snd (fst e), fst (fst e), snd e).
Lemma entry_swap P r x : entry (map swap P) r x = entry P x r.
Proof.
  unfold entry. f_equal. induction P as [|[[i j] v] P IH]; simpl; auto.
  rewrite andb_comm. destruct (Nat.eqb i x && Nat.eqb j r); simpl; rewrite IH; auto.
Qed.
Lemma entry_perm P P' r x : Permutation P P' -> neqv (entry P r x) (entry P' r x).
Proof.
  intros H. unfold entry. apply nsum_perm, Permutation_map.
  induction H; simpl; auto.
  - destruct (_ && _); auto.
  - destruct (_ && _), (_ && _); auto using perm_swap.
  - etransitivity; eauto.
Qed.
Lemma entry_none P r x : (forall v, ~ In (r, x, v) P) -> entry P r x = Fin 0.
Proof.
  intros H. unfold entry. replace (filter _ P) with (@nil (nat * nat * num)); [reflexivity|].
  symmetry. induction P as [|[[i j] v] P IH]; simpl; auto.
  destruct (Nat.eqb i r && Nat.eqb j x) eqn:E.
  - apply andb_true_iff in E. destruct E as [E1 E2]. apply Nat.eqb_eq in E1. apply Nat.eqb_eq in E2. subst.
    destruct (H v). left; auto.
  - apply IH. intros v' Hv. apply (H v'). right; auto.
Qed.
Definition transposed : list nat := [0; 4; 8; 12; 1; 5; 9; 13; 2; 6; 10; 14; 3; 7; 11; 15]%nat.
Lemma transpose_perm {A} (d : A) (L : list A) : length L = 16%nat ->
  Permutation (map (fun k => nth k L d) transposed) L.
Proof.
  intros HL. transitivity (map (fun k => nth k L d) (seq 0 16)).
  - apply Permutation_map. transitivity (isort Nat.leb transposed); [symmetry; apply isort_perm|]. reflexivity.
  - assert (E : map (fun k => nth k L d) (seq 0 16) = L); [|rewrite E; reflexivity].
    do 16 (destruct L as [|? L]; [discriminate|]). destruct L; [reflexivity|discriminate].
Qed.
Lemma block_swap c i j f l : Permutation (map swap (block c i j f l)) (block c i j f l).
Proof.
  transitivity (map (fun k => nth k (block c i j f l) (0, 0, NaN)%nat) transposed); [|apply transpose_perm; reflexivity].
  assert (E : map swap (block c i j f l) = map (fun k => nth k (block c i j f l) (0, 0, NaN)%nat) transposed);
    [reflexivity|rewrite E; reflexivity].
Qed.
Lemma swap_flat {A} (B : A -> ncoo) l : (forall x, In x l -> Permutation (map swap (B x)) (B x)) ->
  Permutation (map swap (flat_map B l)) (flat_map B l).
Proof.
  induction l as [|a l IH]; intros H; [reflexivity|]. simpl. rewrite map_app.
  apply Permutation_app; [apply H; left; auto|apply IH; intros; apply H; right; auto].
Qed.
Lemma block_in c i j f l r x v : In (r, x, v) (block c i j f l) ->
  (Nat.div r 2 = i \/ Nat.div r 2 = j) /\ (Nat.div x 2 = i \/ Nat.div x 2 = j).
Proof.
  assert (D0 : forall n, Nat.div (2 * n) 2 = n) by (intros; rewrite Nat.mul_comm; apply Nat.div_mul; lia).
  assert (D1 : forall n, Nat.div (2 * n + 1) 2 = n)
    by (intros; rewrite Nat.mul_comm, Nat.add_comm, Nat.div_add by lia; reflexivity).
  unfold block. cbv zeta. intros H. cbn [In] in H.
  repeat (destruct H as [H|H]; [apply pair_equal_spec in H; destruct H as [H _]; apply pair_equal_spec in H; destruct H as [<- <-]; rewrite ?D0, ?D1; auto|]). destruct H.
Qed.

(** u . P u from the rows of P u *)
Lemma qsum_ext {A} (f h : A -> Q) l : (forall x, In x l -> f x == h x) -> qsum (map f l) == qsum (map h l).
Proof.
  induction l as [|a l IH]; simpl; intros H; [reflexivity|]. rewrite (H a), IH; auto. reflexivity.
Qed.
Lemma qsum_plus {A} (f h : A -> Q) l : qsum (map (fun x => f x + h x) l) == qsum (map f l) + qsum (map h l).
Proof. induction l as [|a l IH]; simpl; [reflexivity|]. rewrite IH. ring. Qed.
Lemma qsum_pick (y : nat -> Q) i N : forall a, (a <= i < a + N)%nat ->
  qsum (map (fun r => if Nat.eqb i r then y r else 0) (seq a N)) == y i.
Proof.
  induction N as [|N IH]; intros a H; [lia|]. simpl. destruct (Nat.eqb_spec i a) as [->|C].
  - assert (E : qsum (map (fun r => if Nat.eqb a r then y r else 0) (seq (S a) N)) == 0); [|rewrite E; ring].
    apply qsum_zeros. intros x Hx. apply in_map_iff in Hx. destruct Hx as (r & <- & Hr). apply in_seq in Hr.
    destruct (Nat.eqb_spec a r); [lia|reflexivity].
  - rewrite IH by lia. ring.
Qed.
Lemma quad_rows P u N : (forall r x v, In (r, x, v) P -> (r < N)%nat) ->
  quadratic P u == qsum (map (fun r => nth r u 0 * product P u r) (seq 0 N)).
Proof.
  induction P as [|[[i j] v] P IH]; intros H.
  - unfold quadratic, product. simpl. symmetry. apply qsum_zeros. intros x Hx. apply in_map_iff in Hx.
    destruct Hx as (r & <- & _). ring.
  - assert (E : quadratic ((i, j, v) :: P) u == nth i u 0 * (qof v * nth j u 0) + quadratic P u) by reflexivity.
    rewrite E, IH by (intros; eapply H; right; eauto). clear E IH.
    rewrite (qsum_ext (fun r => nth r u 0 * product ((i, j, v) :: P) u r)
      (fun r => (if Nat.eqb i r then (fun r => nth r u 0 * (qof v * nth j u 0)) r else 0) + nth r u 0 * product P u r)).
    + rewrite qsum_plus, qsum_pick by (split; [lia|simpl; apply (H i j v); left; auto]). reflexivity.
    + intros r _. unfold product. simpl. destruct (Nat.eqb i r); ring.
Qed.
Lemma kernel_quad P u : (forall r, product P u r == 0) -> quadratic P u == 0.
Proof.
  intros H. set (N := S (list_max (map (fun e => fst (fst e)) P))).
  rewrite (quad_rows P u N).
  - apply qsum_zeros. intros x Hx. apply in_map_iff in Hx. destruct Hx as (r & <- & _). rewrite H. ring.
  - intros r x v Hi. unfold N. apply Nat.lt_succ_r.
    pose proof (proj1 (list_max_le (map (fun e => fst (fst e)) P) _) (le_n _)) as HF. rewrite Forall_forall in HF.
    apply HF. apply in_map_iff. exists (r, x, v). auto.
Qed.

(** ** The elements of a mesh *)
Section Stiffness.
  Variable m : qmat.
  Variable g : mesh_df.
  Variables lmin lmax : option Q.
  Variable c : Q.
  Variable K : ncoo.
  Hypothesis HK : stiffness m g lmin lmax c = Ok K.
  Hypothesis noflag : ~ flag_set (g_attrs g).
  Let rows := g_rows g.

  Lemma stiff_inv : valid m /\ mesh_ok g /\ exists ls,
    rescale lmin lmax (map el (elements m rows)) = Ok ls /\
    (forall i d, is_node rows i d -> (Z.of_nat i < nbeam d)%Z -> (0 <= nf d < Z.of_nat (length (q_rows m)))%Z) /\
    K = flat_map (fun e => block c (ei (fst e)) (ej (fst e)) (ef (fst e)) (snd e)) (combine (elements m rows) ls).
  Proof.
    revert HK. unfold stiffness.
    destruct (mat_check (df_of m)) as [b|] eqn:E1; [|discriminate]. pose proof (mat_check_true _ _ E1). subst b.
    destruct (mesh_check g) as [b|] eqn:E2; [|discriminate]. pose proof (mesh_check_true _ _ E2). subst b. simpl.
    pose proof (proj1 (mesh_check_ok g) E2) as HM. destruct HM as [HM|HM]; [contradiction|].
    destruct (fibers_known _ _) eqn:E3; [|discriminate]. simpl. fold rows in E3 |- *.
    destruct (rescale _ _ _) as [ls|] eqn:E4; [|discriminate]. simpl. intros H. inversion H.
    split; [apply check_valid; auto|]. split; auto. exists ls. split; auto. split; [|auto].
    intros i d (lab & Hd) L. unfold fibers_known in E3. rewrite forallb_forall in E3.
    assert (HL : labelled_in_order rows) by (destruct HM as (_ & n & _ & _ & _ & HL & _); exact HL).
    specialize (E3 d). assert (X : in_range (Z.of_nat (length (q_rows m))) (nf d) = true).
    { apply E3. apply in_map_iff. exists (lab, d). split; auto. apply filter_In. split; [eapply nth_error_In; eauto|].
      simpl. rewrite (HL _ _ _ Hd). apply Z.ltb_lt. auto. }
    unfold in_range in X. apply andb_true_iff in X. rewrite Z.leb_le, Z.ltb_lt in X. auto.
  Qed.
  Lemma mok : mesh_ok g. Proof. apply stiff_inv. Qed.
  Lemma labelled : labelled_in_order rows.
  Proof. destruct mok as (_ & n & _ & _ & _ & HL & _). exact HL. Qed.
  Lemma beamsok : beams_ok rows.
  Proof. destruct mok as (_ & n & _ & _ & _ & _ & _ & _ & _ & _ & HB & _). exact HB. Qed.
  Lemma ordered_nodes : nodes_ordered rows.
  Proof. destruct mok as (_ & n & _ & _ & _ & _ & _ & _ & _ & HO & _). exact HO. Qed.

  Lemma node_at_nth i d : is_node rows i d -> node_at (map snd rows) (Z.of_nat i) = d.
  Proof.
    intros (lab & H). unfold node_at. rewrite Nat2Z.id. apply nth_error_nth. rewrite nth_error_map, H. auto.
  Qed.
  Lemma element_inv e : In e (elements m rows) -> exists i j d d', beam_element g i j d d' /\ nf d = nf d' /\
    ei e = i /\ ej e = j /\ has_fiber m (nf d) (ef e) /\ el e = ns d' - ns d.
  Proof.
    unfold elements. intros H. apply in_map_iff in H. destruct H as ([lab d] & <- & H).
    apply filter_In in H. destruct H as [H L]. simpl in L. apply Z.ltb_lt in L.
    apply In_nth_error in H. destruct H as (i & H). pose proof (labelled _ _ _ H) as El. subst lab.
    assert (Hd : is_node rows i d) by (eexists; eauto).
    destruct (beamsok i d Hd) as (j & Ej & d0 & d' & Hd0 & Hd' & Ef & _).
    assert (d0 = d) by (eapply node_fun; [apply labelled|eauto|eauto]). subst d0.
    exists i, j, d, d'. cbn [ei ej ef el fst snd]. rewrite Ej in *. rewrite !Nat2Z.id.
    split; [split; [auto|split; [auto|split; [lia|auto]]]|]. split; auto. split; auto. split; auto. split.
    - destruct (proj2 (proj2 stiff_inv)) as (ls & _ & HF & _).
      specialize (HF i d Hd). rewrite Ej in HF. specialize (HF L). split; [lia|].
      apply nth_error_nth'. apply Nat2Z.inj_lt. rewrite Z2Nat.id; lia.
    - rewrite (node_at_nth j d' Hd'), (node_at_nth i d Hd). auto.
  Qed.
  Lemma element_ex i j d d' : beam_element g i j d d' -> exists e, In e (elements m rows) /\ ei e = i /\ ej e = j.
  Proof.
    intros ((lab & Hd) & Hd' & L & Ej). pose proof (labelled _ _ _ Hd) as El. subst lab.
    eexists. split.
    - unfold elements. apply in_map_iff. exists (Z.of_nat i, d). split; [reflexivity|]. apply filter_In.
      split; [eapply nth_error_In; exact Hd|]. simpl. rewrite Ej. apply Z.ltb_lt. lia.
    - simpl. rewrite Ej, !Nat2Z.id. auto.
  Qed.

  (** *** C29 *)
  Definition lens : list Q := match rescale lmin lmax (map el (elements m rows)) with Ok ls => ls | _ => [] end.
  Definition parts : list (elem * Q) := combine (elements m rows) lens.
  Lemma K_parts : K = flat_map (fun e => block c (ei (fst e)) (ej (fst e)) (ef (fst e)) (snd e)) parts.
  Proof. destruct stiff_inv as (_ & _ & ls & E & _ & EK). unfold parts, lens. rewrite E. auto. Qed.
  Lemma lens_ok : rescale lmin lmax (map el (elements m rows)) = Ok lens.
  Proof. destruct stiff_inv as (_ & _ & ls & E & _ & EK). unfold lens. rewrite E. auto. Qed.
  Lemma lens_length : length lens = length (elements m rows).
  Proof.
    pose proof lens_ok as H. apply rescale_inv in H. destruct H as (? & ? & ? & ? & _ & _ & _ & _ & E).
    rewrite E, !map_length. auto.
  Qed.
  Lemma part_elem p : In p parts -> In (fst p) (elements m rows) /\ In (snd p) lens.
  Proof. destruct p as [e l]. intros H. split; [eapply in_combine_l|eapply in_combine_r]; eauto. Qed.
  Lemma elem_part e : In e (elements m rows) -> exists l, In (e, l) parts.
  Proof.
    intros H. apply In_nth_error in H. destruct H as (k & H).
    destruct (nth_error lens k) as [l|] eqn:E.
    - exists l. apply (nth_error_In _ k). apply combine_nth_error; auto.
    - apply nth_error_None in E. rewrite lens_length in E.
      assert (k < length (elements m rows))%nat by (apply nth_error_Some; congruence). lia.
  Qed.

  Lemma stiff_symmetric r x : neqv (entry K r x) (entry K x r).
  Proof.
    rewrite <- (entry_swap K r x). apply entry_perm. rewrite K_parts. symmetry. apply swap_flat.
    intros p _. apply block_swap.
  Qed.
  Lemma stiff_local r x v : In (r, x, v) K -> neighbours g (Nat.div r 2) (Nat.div x 2).
  Proof.
    rewrite K_parts. intros H. apply in_flat_map in H. destruct H as (p & Hp & H).
    destruct (part_elem p Hp) as [He _]. destruct (element_inv _ He) as (i & j & d & d' & (Hd & Hd' & L & Eb) & Ef & Ei & Ej & _).
    rewrite Ei, Ej in H. apply block_in in H. destruct H as [[->| ->] [->| ->]].
    - exists d, d. split; [exact Hd|]. split; [exact Hd|]. split; [reflexivity|left; reflexivity].
    - exists d, d'. split; [exact Hd|]. split; [exact Hd'|]. split; [exact Ef|right; left; split; assumption].
    - exists d', d. split; [exact Hd'|]. split; [exact Hd|]. split; [symmetry; exact Ef|right; right; split; assumption].
    - exists d', d'. split; [exact Hd'|]. split; [exact Hd'|]. split; [reflexivity|left; reflexivity].
  Qed.

  (** *** finite moduli: C30, C31 *)
  Lemma fiber_facts e : In e (elements m rows) -> In (ef e) (q_rows m).
  Proof.
    intros He. destruct (element_inv e He) as (i & j & d & d' & _ & _ & _ & _ & [_ Hf] & _). eapply nth_error_In; eauto.
  Qed.
  Section Positive.
  Hypothesis usable : lengths_ok g lmin lmax.
  Lemma lens_pos l : In l lens -> 0 < l.
  Proof.
    destruct usable as [U1 U2]. apply (rescale_pos _ _ _ _ lens_ok).
    - revert U1. case lmin; [auto|]. intros U1 x Hx. apply in_map_iff in Hx. destruct Hx as (e & <- & He).
      destruct (element_inv e He) as (i & j & d & d' & HB & _ & _ & _ & _ & ->). pose proof (U1 _ _ _ _ HB). lra.
    - revert U2. case lmax; [auto|]. intros U2. destruct U2 as (i & j & d & d' & HB & L).
      destruct (element_ex i j d d' HB) as (e & He & Ei & Ej). exists (el e). split; [apply in_map; auto|].
      destruct (element_inv e He) as (i' & j' & d1 & d2 & (H1 & H2 & _) & _ & Ei' & Ej' & _ & ->). subst.
      destruct HB as (H1' & H2' & _).
      assert (d1 = d) by (eapply node_fun; [apply labelled|eauto|eauto]).
      assert (d2 = d') by (eapply node_fun; [apply labelled|eauto|eauto]). subst. lra.
  Qed.

  Section Finite.
  Hypothesis fin : finite_moduli m.
  Lemma part_facts p : In p parts -> exists G E, qG (ef (fst p)) = Fin G /\ qE (ef (fst p)) = Fin E /\
    0 < G /\ 0 < E /\ 0 < snd p /\ 0 < qh (ef (fst p)) /\ 0 < qb (ef (fst p)).
  Proof.
    intros Hp. destruct (part_elem p Hp) as [He Hl]. pose proof (fiber_facts _ He) as Hf.
    destruct (fin _ Hf) as (G & E & EG & EE). exists G, E.
    destruct (valid_fiber m (proj1 stiff_inv) _ Hf) as (_ & Hb & Hh & _ & _ & _ & HG & HE).
    rewrite EG in HG. rewrite EE in HE. simpl in HG, HE. pose proof (lens_pos _ Hl). auto 8.
  Qed.
  Lemma stiff_finite : all_finite K.
  Proof.
    intros r x v. rewrite K_parts. intros H. apply in_flat_map in H. destruct H as (p & Hp & H).
    destruct (part_facts p Hp) as (G & E & EG & EE & G0 & E0 & l0 & h0 & b0).
    exact (block_finite _ G E _ c EG EE G0 E0 l0 h0 _ _ r x v H).
  Qed.
  Definition part_energy (u : list Q) (p : elem * Q) : Q :=
    let f := ef (fst p) in let G := qof (qG f) in let E := qof (qE f) in
    energy (beam_stiffness f G E (snd p)) (snd p) c E G (qh f) (disp u (ei (fst p))) (rot u (ei (fst p)))
           (disp u (ej (fst p))) (rot u (ej (fst p))).
  Lemma stiff_energy u : quadratic K u == qsum (map (part_energy u) parts).
  Proof.
    rewrite K_parts, quad_flat. apply qsum_ext. intros p Hp.
    destruct (part_facts p Hp) as (G & E & EG & EE & G0 & E0 & l0 & h0 & b0).
    rewrite (block_quad _ G E _ c EG EE G0 E0 l0 h0). unfold part_energy. rewrite EG, EE. reflexivity.
  Qed.
  Lemma energy_nonneg k l E G h ui ti uj tj : 0 < k -> 0 < l -> 0 < E -> 0 < G -> 0 < h -> c * c <= 1 ->
    0 <= energy k l c E G h ui ti uj tj.
  Proof.
    intros k0 l0 E0 G0 h0 C. unfold energy. apply Qmult_le_0_compat; [lra|].
    assert (0 < E / G) by (apply Qlt_shift_div_l; lra).
    pose proof (sq_pos (ui - uj + c * l / 2 * (ti + tj))). pose proof (sq_pos (ti + tj)). pose proof (sq_pos (ti - tj)).
    assert (0 <= (1 - c * c) * (l * l) / 4 * ((ti + tj) * (ti + tj))).
    { apply Qmult_le_0_compat; auto. apply Qle_shift_div_l; [reflexivity|]. rewrite Qmult_0_l. apply Qmult_le_0_compat; [lra|apply sq_pos]. }
    assert (0 <= (l * l / 12 + E / G * (h * h)) * ((ti - tj) * (ti - tj))).
    { apply Qmult_le_0_compat; auto. assert (0 <= l * l / 12) by (apply Qle_shift_div_l; [reflexivity|]; nra).
      assert (0 <= E / G * (h * h)) by (apply Qmult_le_0_compat; [lra|apply sq_pos]). lra. }
    lra.
  Qed.
  Lemma part_nonneg u p : c * c <= 1 -> In p parts -> 0 <= part_energy u p.
  Proof.
    intros C Hp. destruct (part_facts p Hp) as (G & E & EG & EE & G0 & E0 & l0 & h0 & b0).
    unfold part_energy. rewrite EG, EE. simpl. apply energy_nonneg; auto. apply k_pos; auto.
  Qed.
  Lemma stiff_psd u : c * c <= 1 -> 0 <= quadratic K u.
  Proof.
    intros C. rewrite stiff_energy. apply qsum_nonneg. intros x Hx. apply in_map_iff in Hx.
    destruct Hx as (p & <- & Hp). apply part_nonneg; auto.
  Qed.
  (** products *)
  Lemma stiff_product u r : (forall p, In p parts -> let f := ef (fst p) in
      let ui := disp u (ei (fst p)) in let ti := rot u (ei (fst p)) in
      let uj := disp u (ej (fst p)) in let tj := rot u (ej (fst p)) in let l := snd p in
      ui - uj + c * l / 2 * (ti + tj) == 0 /\ ti == tj /\ (1 - c * c) * ti == 0) -> product K u r == 0.
  Proof.
    intros H. rewrite K_parts, product_flat. apply qsum_zeros. intros x Hx. apply in_map_iff in Hx.
    destruct Hx as (p & <- & Hp). destruct (part_facts p Hp) as (G & E & EG & EE & G0 & E0 & l0 & h0 & b0).
    rewrite (block_product _ G E _ c EG EE G0 E0 l0 h0). specialize (H p Hp). cbv zeta in H. destruct H as (H1 & H2 & H3).
    set (ui := disp u (ei (fst p))) in *. set (ti := rot u (ei (fst p))) in *.
    set (uj := disp u (ej (fst p))) in *. set (tj := rot u (ej (fst p))) in *. set (l := snd p) in *.
    set (k := beam_stiffness (ef (fst p)) G E l). set (h := qh (ef (fst p))) in *.
    assert (F0 : force k l c ui ti uj tj == 0).
    { unfold force. transitivity (k * (ui - uj + c * l / 2 * (ti + tj))); [field|rewrite H1; ring]. }
    assert (MM : forall x y, x == ti -> y == ti -> moment k l c (E / G) h ui x uj y == 0).
    { intros x y Hx Hy. unfold moment. rewrite Hx, Hy.
      assert (D : ui - uj == - (c * l * ti)) by (transitivity (ui - uj + c * l / 2 * (ti + tj) - c * l / 2 * (ti + tj)); [ring|rewrite H1, <- H2; field]).
      rewrite D. generalize (E / G). intros q.
      transitivity (k * l * l / 2 * ((1 - c * c) * ti)); [field|rewrite H3; ring]. }
    assert (M1 : moment k l c (E / G) h ui ti uj tj == 0) by (apply MM; [reflexivity|symmetry; auto]).
    assert (M2 : moment k l c (E / G) h ui tj uj ti == 0) by (apply MM; [symmetry; auto|reflexivity]).
    destruct (Nat.eqb _ r), (Nat.eqb _ r), (Nat.eqb _ r), (Nat.eqb _ r); lra.
  Qed.
  (** zero energy *)
  Lemma zero_energy u p : c * c <= 1 -> quadratic K u == 0 -> In p parts ->
    let ui := disp u (ei (fst p)) in let ti := rot u (ei (fst p)) in
    let uj := disp u (ej (fst p)) in let tj := rot u (ej (fst p)) in let l := snd p in
    ui - uj + c * l / 2 * (ti + tj) == 0 /\ ti == tj /\ (1 - c * c) * ti == 0.
  Proof.
    intros C H Hp. rewrite stiff_energy in H.
    assert (Z : part_energy u p == 0).
    { refine (qsum_zero_all _ _ H _ (in_map _ _ _ Hp)). intros x Hx. apply in_map_iff in Hx.
      destruct Hx as (q & <- & Hq). apply part_nonneg; auto. }
    destruct (part_facts p Hp) as (G & E & EG & EE & G0 & E0 & l0 & h0 & b0).
    unfold part_energy in Z. rewrite EG, EE in Z. cbn [qof] in Z. cbv zeta.
    pose proof (k_pos (ef (fst p)) G E (snd p) G0 E0 l0 h0 b0) as K0.
    set (ui := disp u (ei (fst p))) in *. set (ti := rot u (ei (fst p))) in *.
    set (uj := disp u (ej (fst p))) in *. set (tj := rot u (ej (fst p))) in *. set (l := snd p) in *.
    set (k := beam_stiffness (ef (fst p)) G E l) in *. set (h := qh (ef (fst p))) in *. unfold energy in Z.
    clearbody k h l ui ti uj tj. clear H EG EE Hp.
    assert (R0 : 0 < E / G) by (apply Qlt_shift_div_l; lra). generalize dependent (E / G). intros q Z R0.
    set (X := ui - uj + c * l / 2 * (ti + tj)) in *.
    assert (A1 : 0 <= X * X) by apply sq_pos.
    assert (A2 : 0 <= (1 - c * c) * (l * l) / 4 * ((ti + tj) * (ti + tj))).
    { apply Qmult_le_0_compat; [|apply sq_pos]. apply Qle_shift_div_l; [reflexivity|]. rewrite Qmult_0_l. apply Qmult_le_0_compat; [lra|apply sq_pos]. }
    assert (LL : 0 < l * l) by nra.
    assert (A4 : 0 < l * l / 12 + q * (h * h)).
    { assert (0 < l * l / 12) by (apply Qlt_shift_div_l; [reflexivity|]; lra).
      assert (0 <= q * (h * h)) by (apply Qmult_le_0_compat; [lra|apply sq_pos]). lra. }
    assert (A3 : 0 <= (l * l / 12 + q * (h * h)) * ((ti - tj) * (ti - tj))).
    { apply Qmult_le_0_compat; [lra|apply sq_pos]. }
    apply Qmult_integral in Z. destruct Z as [Z|Z]; [lra|].
    assert (Z1 : X * X == 0) by lra.
    assert (Z2 : (1 - c * c) * (l * l) / 4 * ((ti + tj) * (ti + tj)) == 0) by lra.
    assert (Z3 : (l * l / 12 + q * (h * h)) * ((ti - tj) * (ti - tj)) == 0) by lra.
    apply Qmult_integral in Z1. apply Qmult_integral in Z3.
    assert (T : ti == tj).
    { destruct Z3 as [Z3|Z3]; [lra|]. apply Qmult_integral in Z3. destruct Z3; lra. }
    split; [destruct Z1; auto|]. split; auto.
    apply Qmult_integral in Z2. destruct Z2 as [Z2|Z2].
    - assert (W : (1 - c * c) * (l * l) == 0) by (transitivity (4 * ((1 - c * c) * (l * l) / 4)); [field|rewrite Z2; ring]).
      apply Qmult_integral in W. destruct W as [W|W]; [rewrite W; ring|lra].
    - apply Qmult_integral in Z2. assert (ti == 0) by (destruct Z2; lra). rewrite H. ring.
  Qed.

  (** from elements to fibers *)
  Lemma next_elem i j d e : is_node rows i d -> is_node rows j e -> (i < j)%nat -> nf d = nf e ->
    exists d', beam_element g i (S i) d d' /\ nf d' = nf d.
  Proof.
    intros Hd He L Ef. assert (LS : (S i < length rows)%nat) by (pose proof (node_lt rows j e He); lia).
    destruct (node_ex rows (S i) LS) as (d' & Hd').
    assert (Ef' : nf d' = nf d).
    { destruct (Nat.eq_dec (S i) j) as [E|N]; [subst j; rewrite (node_fun rows labelled (S i) d' e Hd' He); auto|].
      pose proof (ordered_nodes i (S i) d d' ltac:(lia) Hd Hd') as O1.
      pose proof (ordered_nodes (S i) j d' e ltac:(lia) Hd' He) as O2. lia. }
    exists d'. split; auto. split; auto. split; auto. split; [lia|].
    destruct (beamsok i d Hd) as (b & Eb & d0 & d1 & Hd0 & Hd1 & E01 & HB). rewrite Eb. f_equal.
    assert (d0 = d) by (apply (node_fun rows labelled i); auto). subst d0.
    destruct HB as [[HB1 HB2]|[HB1 [HB2 _]]].
    - destruct (Nat.eq_dec b (S i)); auto. destruct (HB2 (S i) d' ltac:(lia) Hd' Ef').
    - destruct (HB2 (S i) d' ltac:(lia) Hd' Ef').
  Qed.
  Lemma chain (R : nat -> node -> nat -> node -> Prop) :
    (forall i d, R i d i d) ->
    (forall i j d e, beam_element g i j d e -> nf e = nf d -> R i d j e) ->
    (forall i j k d e f, R i d j e -> R j e k f -> R i d k f) ->
    forall i j d e, is_node rows i d -> is_node rows j e -> (i <= j)%nat -> nf d = nf e -> R i d j e.
  Proof.
    intros H0 H1 H2 i j d e Hd He L. remember (j - i)%nat as n eqn:En. revert i d Hd L En.
    induction n as [|n IH]; intros i d Hd L En Ef.
    - assert (i = j) by lia. subst j. rewrite (node_fun rows labelled i d e Hd He). auto.
    - destruct (next_elem i j d e Hd He ltac:(lia) Ef) as (d' & HB & Ef'). pose proof HB as (_ & Hd' & _).
      eapply H2; [apply H1; eauto|]. apply IH; auto; lia || congruence.
  Qed.
  Lemma element_part i j d e : beam_element g i j d e -> exists p, In p parts /\ ei (fst p) = i /\ ej (fst p) = j.
  Proof.
    intros HB. destruct (element_ex i j d e HB) as (x & Hx & Ei & Ej). destruct (elem_part x Hx) as (l & Hl).
    exists (x, l). auto.
  Qed.

  Lemma translation_kernel u r : translates g u -> product K u r == 0.
  Proof.
    intros (t & Ht). apply stiff_product. intros p Hp. cbv zeta.
    destruct (element_inv _ (proj1 (part_elem p Hp))) as (i & j & d & d' & (Hd & Hd' & _) & Ef & -> & -> & _).
    destruct (Ht i d Hd) as [U1 R1]. destruct (Ht j d' Hd') as [U2 R2]. rewrite U1, U2, R1, R2, Ef.
    split; [field|]. split; [reflexivity|ring].
  Qed.
  Lemma translates_only_kernel u r : translates_only g u -> product K u r == 0.
  Proof.
    intros HT. apply stiff_product. intros p Hp. cbv zeta.
    destruct (element_inv _ (proj1 (part_elem p Hp))) as (i & j & d & d' & (Hd & Hd' & L & _) & Ef & -> & -> & _).
    destruct (HT i j d d' Hd Hd' Ef ltac:(lia)) as (R1 & R2 & U). rewrite U, R1, R2.
    split; [field|]. split; [reflexivity|ring].
  Qed.
  Lemma kernel_translates u : c * c < 1 -> (forall r, product K u r == 0) -> translates_only g u.
  Proof.
    intros C H. apply kernel_quad in H. intros i j d e Hd He Ef N.
    set (R := fun (i : nat) (d : node) (j : nat) (e : node) => i = j \/ (rot u i == 0 /\ rot u j == 0 /\ disp u i == disp u j)).
    assert (HR : forall i j d e, is_node rows i d -> is_node rows j e -> (i <= j)%nat -> nf d = nf e -> R i d j e).
    { apply chain; unfold R; auto.
      - intros a b x y HB _. right. destruct (element_part a b x y HB) as (p & Hp & Ei & Ej).
        destruct (zero_energy u p ltac:(lra) H Hp) as (Z1 & Z2 & Z3). rewrite Ei, Ej in *.
        assert (T : rot u a == 0). { apply Qmult_integral in Z3. destruct Z3 as [Z3|Z3]; auto. lra. }
        rewrite T in *. split; [reflexivity|]. split; [symmetry; auto|].
        rewrite <- Z2 in Z1. assert (E0 : c * snd p / 2 * (0 + 0) == 0) by field. rewrite E0 in Z1. lra.
      - intros a b k x y z [->|H1] [->|H2]; auto. right. destruct H1 as (A & B & D), H2 as (A' & B' & D'). split; auto. split; auto. lra. }
    destruct (Nat.le_gt_cases i j) as [L|L].
    - destruct (HR i j d e Hd He L Ef) as [|X]; [congruence|]. destruct X as (A & B & D). auto.
    - destruct (HR j i e d He Hd ltac:(lia) ltac:(auto)) as [|X]; [congruence|]. destruct X as (A & B & D). split; auto. split; auto. lra.
  Qed.
  (** no rescaling *)
  Section Unscaled.
  Hypothesis Nmin : lmin = None.
  Hypothesis Nmax : lmax = None.
  Lemma part_length p : In p parts -> snd p == el (fst p).
  Proof.
    pose proof lens_ok as H. rewrite Nmin, Nmax in H. apply rescale_none in H. unfold parts.
    remember (elements m rows) as es eqn:Ees. clear Ees. generalize dependent lens. revert es.
    induction es as [|e es IH]; intros ls HF; simpl in HF; inversion HF; subst; simpl; [intros []|].
    intros [<-|Hp]; simpl; [symmetry; auto|]. eapply IH; eauto.
  Qed.
  Lemma rigid_kernel u r : c == 1 -> rigid g u -> product K u r == 0.
  Proof.
    intros C HT. apply stiff_product. intros p Hp. cbv zeta. rewrite (part_length p Hp).
    destruct (element_inv _ (proj1 (part_elem p Hp))) as (i & j & d & d' & (Hd & Hd' & _) & Ef & -> & -> & _ & ->).
    destruct (HT i j d d' Hd Hd' Ef) as [R U]. rewrite <- R, C. split; [|split; [reflexivity|ring]].
    assert (E : disp u i - disp u j == - (rot u i * (ns d' - ns d))) by (rewrite <- U; ring). rewrite E. field.
  Qed.
  Lemma kernel_rigid u : c == 1 -> (forall r, product K u r == 0) -> rigid g u.
  Proof.
    intros C H. apply kernel_quad in H.
    set (R := fun (i : nat) (d : node) (j : nat) (e : node) => rot u i == rot u j /\ disp u j - disp u i == rot u i * (ns e - ns d)).
    assert (HR : forall i j d e, is_node rows i d -> is_node rows j e -> (i <= j)%nat -> nf d = nf e -> R i d j e).
    { apply chain; unfold R.
      - intros i d. split; [reflexivity|ring].
      - intros a b x y HB _. destruct (element_part a b x y HB) as (p & Hp & Ei & Ej).
        destruct (zero_energy u p ltac:(rewrite C; lra) H Hp) as (Z1 & Z2 & _). rewrite (part_length p Hp) in Z1.
        destruct (element_inv _ (proj1 (part_elem p Hp))) as (i & j & d & d' & (Hd & Hd' & _) & Ef & Ei' & Ej' & _ & El).
        rewrite El, Ei, Ej in *. subst i j. pose proof HB as (Hx & Hy & _).
        rewrite (node_fun rows labelled a x d Hx Hd), (node_fun rows labelled b y d' Hy Hd'). split; auto.
        rewrite <- Z2, C in Z1. transitivity (rot u a * (ns d' - ns d) - (disp u a - disp u b + 1 * (ns d' - ns d) / 2 * (rot u a + rot u a)));
          [field|rewrite Z1; ring].
      - intros a b k x y z [A1 A2] [B1 B2]. split; [lra|]. rewrite <- A1 in B2. lra. }
    intros i j d e Hd He Ef. destruct (Nat.le_gt_cases i j) as [L|L].
    - apply (HR i j d e); auto.
    - destruct (HR j i e d He Hd ltac:(lia) ltac:(auto)) as [A B]. split; [symmetry; auto|].
      rewrite A in B. lra.
  Qed.
  End Unscaled.
  End Finite.

  (** *** infinite tensile modulus: C33 *)
  Section Infinite.
  Hypothesis finG : finite_shear m.
  Hypothesis infE : forall f, In f (q_rows m) -> qE f = PInf.
  Lemma k0_inf f G l : qG f = Fin G -> qE f = PInf -> 0 < l -> 0 < qh f ->
    k0_of f l = Fin (np_pi / 4 * (G * qb f * qh f) / l / (1 + 0 * (l / qh f * (l / qh f)))).
  Proof.
    intros EG EE l0 h0. unfold k0_of. rewrite EG, EE. cbn [nmul ndiv nadd].
    rewrite (qeqb_false l l0), (qeqb_false (qh f) h0). cbn [nmul nadd ndiv].
    rewrite qeqb_false; [reflexivity|]. lra.
  Qed.
  Lemma kinf_pos G b h l : 0 < G -> 0 < b -> 0 < h -> 0 < l ->
    0 < np_pi / 4 * (G * b * h) / l / (1 + 0 * (l / h * (l / h))).
  Proof.
    intros G0 b0 h0 l0. apply Qlt_shift_div_l; [lra|]. rewrite Qmult_0_l. apply Qlt_shift_div_l; [auto|]. rewrite Qmult_0_l.
    assert (0 < np_pi / 4) by reflexivity.
    apply Qmult_lt_0_compat; auto. apply Qmult_lt_0_compat; auto. apply Qmult_lt_0_compat; auto.
  Qed.
  Lemma qsgn_pos x : 0 < x -> qsgn x = Gt.
  Proof. intros H. unfold qsgn. apply Qgt_alt. auto. Qed.
  Lemma k2_inf f G l : qG f = Fin G -> qE f = PInf -> 0 < l -> 0 < qh f -> 0 < G -> 0 < qb f -> k2_of f l = PInf.
  Proof.
    intros EG EE l0 h0 G0 b0. unfold k2_of. rewrite (k0_inf f G l EG EE l0 h0), EE, EG. cbn [nmul ndiv nadd].
    replace (Qltb G 0) with false by (symmetry; apply Qltb_ge; lra). cbn [nmul].
    rewrite (qsgn_pos _ (kinf_pos G (qb f) (qh f) l G0 b0 h0 l0)). cbn [inf_of nmul].
    rewrite (qsgn_pos (qh f * qh f)) by nra. reflexivity.
  Qed.
  Lemma part_inf p : In p parts -> exists G, qG (ef (fst p)) = Fin G /\ qE (ef (fst p)) = PInf /\
    0 < G /\ 0 < snd p /\ 0 < qh (ef (fst p)) /\ 0 < qb (ef (fst p)).
  Proof.
    intros Hp. destruct (part_elem p Hp) as [He Hl]. pose proof (fiber_facts _ He) as Hf.
    destruct (finG _ Hf) as (G & EG). exists G.
    destruct (valid_fiber m (proj1 stiff_inv) _ Hf) as (_ & Hb & Hh & _ & _ & _ & HG & HE).
    rewrite EG in HG. simpl in HG. pose proof (lens_pos _ Hl). auto 8.
  Qed.
  Lemma nsum_fin l : (forall v, In v l -> exists q, v = Fin q) -> exists q, nsum l = Fin q.
  Proof.
    induction l as [|v l IH]; intros H; simpl; [eauto|].
    destruct (H v (or_introl eq_refl)) as (q & ->). destruct IH as (q' & ->); [intros; apply H; right; auto|]. simpl. eauto.
  Qed.
  Lemma nsum_pinf l : (forall v, In v l -> v = PInf) -> l <> [] -> nsum l = PInf.
  Proof.
    induction l as [|v l IH]; intros H N; [congruence|]. simpl. rewrite (H v (or_introl eq_refl)).
    destruct l as [|w l]; [reflexivity|]. rewrite IH; auto; [intros; apply H; right; auto|discriminate].
  Qed.
  Lemma entry_vals P r x v : In v (map snd (filter (fun e : nat * nat * num => Nat.eqb (fst (fst e)) r && Nat.eqb (snd (fst e)) x) P)) <->
    In (r, x, v) P.
  Proof.
    rewrite in_map_iff. split.
    - intros ([[i j] w] & E & H). simpl in E. subst w. apply filter_In in H. destruct H as [H H'].
      apply andb_true_iff in H'. simpl in H'. rewrite !Nat.eqb_eq in H'. destruct H'; subst. auto.
    - intros H. exists (r, x, v). split; auto. apply filter_In. split; auto. simpl. rewrite !Nat.eqb_refl. auto.
  Qed.
  (** rows and columns of displacements are finite *)
  Lemma inf_disp i x : (exists q, entry K (2 * i) x = Fin q) /\ (exists q, entry K x (2 * i) = Fin q).
  Proof.
    assert (F : forall r y v, In (r, y, v) K -> r = (2 * i)%nat \/ y = (2 * i)%nat -> exists q, v = Fin q).
    { intros r y v. rewrite K_parts. intros H D. apply in_flat_map in H. destruct H as (p & Hp & H).
      destruct (part_inf p Hp) as (G & EG & EE & G0 & l0 & h0 & b0).
      unfold block in H. cbv zeta in H. unfold k1_of in H. rewrite (k0_inf _ G _ EG EE l0 h0) in H. cbn [In nopp nmul ndiv Qeqb] in H.
      repeat (destruct H as [H|H]; [inversion H; subst; try (eexists; reflexivity); exfalso; lia|]). destruct H. }
    split; apply nsum_fin; intros v Hv; apply entry_vals in Hv; eapply F; eauto.
  Qed.
  Lemma inf_rot i j d e : beam_element g i j d e ->
    entry K (2 * i + 1) (2 * i + 1) = PInf /\ entry K (2 * j + 1) (2 * j + 1) = PInf.
  Proof.
    intros HB. destruct (element_part i j d e HB) as (p & Hp & Ei & Ej).
    assert (F : forall n v, In ((2 * n + 1)%nat, (2 * n + 1)%nat, v) K -> v = PInf).
    { intros n v. rewrite K_parts. intros H. apply in_flat_map in H. destruct H as (q & Hq & H).
      destruct (part_inf q Hq) as (G & EG & EE & G0 & l0 & h0 & b0).
      destruct (element_inv _ (proj1 (part_elem q Hq))) as (a & b & d1 & d2 & (_ & _ & L & _) & _ & Ea & Eb & _).
      rewrite Ea, Eb in H. unfold block in H. cbv zeta in H. rewrite (k2_inf _ G _ EG EE l0 h0 G0 b0) in H. cbn [In] in H.
      repeat (destruct H as [H|H]; [inversion H; subst; auto; exfalso; lia|]). destruct H. }
    assert (I : forall n, n = i \/ n = j -> exists v, In ((2 * n + 1)%nat, (2 * n + 1)%nat, v) K).
    { intros n Hn. exists (k2_of (ef (fst p)) (snd p)). rewrite K_parts. apply in_flat_map. exists p. split; auto.
      rewrite Ei, Ej. unfold block. cbv zeta. destruct Hn; subst n; simpl; auto 20. }
    assert (Q : forall n, n = i \/ n = j -> entry K (2 * n + 1) (2 * n + 1) = PInf).
    { intros n Hn. apply nsum_pinf.
      - intros v Hv. apply entry_vals in Hv. eapply F; eauto.
      - destruct (I n Hn) as (v & Hv). apply entry_vals in Hv. intros C. rewrite C in Hv. destruct Hv. }
    auto.
  Qed.
  End Infinite.
  End Positive.
End Stiffness.
