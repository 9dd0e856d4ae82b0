(** Well-posedness of the systems of the solver, and progress of the loop (C88, C89). *)
From Coq Require Import String Permutation.
From Verif Require Import Num NumP ListX ListP Frames MatM NetM MeshM ModelM SolverM Spec SpecNet SpecMesh SpecModel SpecSolver SpecPerm SpecProgress
  MeshCheckP NetP StackP StiffP StiffLimP StiffLenP ConstraintP SolverP SolverRunP SolverSysP SolverApiP SolverFinP EnergyP PermP.
Open Scope Q_scope.

(** ** Energy of the beams, with tensile moduli finite or not *)
Section Beams.
  Variable m : qmat.
  Variable g : mesh_df.
  Variables lmin lmax : option Q.
  Variable c : Q.
  Variable K : ncoo.
  Hypothesis HK : stiffness m g lmin lmax c = Ok K.
  Hypothesis noflag : ~ flag_set (g_attrs g).
  Hypothesis HL : lengths_ok g lmin lmax.
  Hypothesis HG : finite_shear m.
  Hypothesis HC : c * c < 1.
  Variable y : list Q.
  Hypothesis stiff_rot : forall i d f, is_node (g_rows g) i d -> has_fiber m (nf d) f -> qE f = PInf -> rot y i == 0.
  Let prs := parts m g lmin lmax.

  Lemma energy_zero k l E G h ui ti uj tj : 0 < k -> 0 < l -> 0 < E -> 0 < G -> 0 < h ->
    energy k l c E G h ui ti uj tj == 0 -> ti == 0 /\ tj == 0 /\ ui == uj.
  Proof.
    intros k0 l0 E0 G0 h0 Z. unfold energy in Z.
    assert (R0 : 0 < E / G) by (apply Qlt_shift_div_l; lra). generalize dependent (E / G). intros q Z R0.
    set (X := ui - uj + c * l / 2 * (ti + tj)) in *.
    assert (A1 : 0 <= X * X) by apply sq_pos.
    assert (LL : 0 < l * l) by nra.
    assert (B2 : 0 < (1 - c * c) * (l * l) / 4).
    { apply Qlt_shift_div_l; [reflexivity|]. rewrite Qmult_0_l. apply Qmult_lt_0_compat; lra. }
    assert (A2 : 0 <= (1 - c * c) * (l * l) / 4 * ((ti + tj) * (ti + tj))) by (apply Qmult_le_0_compat; [lra|apply sq_pos]).
    assert (A4 : 0 < l * l / 12 + q * (h * h)).
    { assert (0 < l * l / 12) by (apply Qlt_shift_div_l; [reflexivity|]; lra).
      assert (0 <= q * (h * h)) by (apply Qmult_le_0_compat; [lra|apply sq_pos]). lra. }
    assert (A3 : 0 <= (l * l / 12 + q * (h * h)) * ((ti - tj) * (ti - tj))) by (apply Qmult_le_0_compat; [lra|apply sq_pos]).
    apply Qmult_integral in Z. destruct Z as [Z|Z]; [lra|].
    assert (Z1 : X * X == 0) by lra.
    assert (Z2 : (1 - c * c) * (l * l) / 4 * ((ti + tj) * (ti + tj)) == 0) by lra.
    assert (Z3 : (l * l / 12 + q * (h * h)) * ((ti - tj) * (ti - tj)) == 0) by lra.
    apply Qmult_integral in Z1. apply Qmult_integral in Z2. apply Qmult_integral in Z3.
    assert (T : ti - tj == 0) by (destruct Z3 as [Z3|Z3]; [lra|]; apply Qmult_integral in Z3; destruct Z3; lra).
    assert (U : ti + tj == 0) by (destruct Z2 as [Z2|Z2]; [lra|]; apply Qmult_integral in Z2; destruct Z2; lra).
    split; [lra|]. split; [lra|]. assert (Z0 : X == 0) by (destruct Z1; auto). unfold X in Z0. rewrite U, Qmult_0_r in Z0. lra.
  Qed.
  Lemma part_case p : In p prs -> exists G, qG (ef (fst p)) = Fin G /\ 0 < G /\ 0 < snd p /\ 0 < qh (ef (fst p)) /\ 0 < qb (ef (fst p)) /\
    ((exists E, qE (ef (fst p)) = Fin E /\ 0 < E) \/ qE (ef (fst p)) = PInf).
  Proof.
    intros Hp. destruct (part_elem m g lmin lmax p Hp) as [He Hl]. pose proof (fiber_facts m g lmin lmax c K HK noflag _ He) as Hf.
    destruct (HG _ Hf) as (G & EG). exists G.
    destruct (valid_fiber m (proj1 (stiff_inv m g lmin lmax c K HK noflag)) _ Hf) as (_ & Hb & Hh & _ & _ & _ & PG & PE).
    pose proof (lens_pos m g lmin lmax c K HK noflag HL _ Hl) as Pl. rewrite EG in PG. simpl in PG. do 5 (split; [assumption|]).
    destruct (qE (ef (fst p))) as [E| | |] eqn:EE; simpl in PE; try contradiction; [left; eauto|right; auto].
  Qed.
  Lemma part_rots p : In p prs -> qE (ef (fst p)) = PInf -> rot y (ei (fst p)) == 0 /\ rot y (ej (fst p)) == 0.
  Proof.
    intros Hp EE. destruct (part_elem m g lmin lmax p Hp) as [He _].
    destruct (element_inv m g lmin lmax c K HK noflag _ He) as (i & j & d & e & (Hd & Hj & _) & Ef & -> & -> & Hf & _).
    split; [apply (stiff_rot i d _ Hd Hf EE)|]. rewrite Ef in Hf. apply (stiff_rot j e _ Hj Hf EE).
  Qed.
  Definition pquad (p : elem * Q) : Q := quadratic (block c (ei (fst p)) (ej (fst p)) (ef (fst p)) (snd p)) y.
  Lemma quad_inf i j f k l : k0_of f l = Fin k -> rot y i == 0 -> rot y j == 0 ->
    quadratic (block c i j f l) y == k * ((disp y i - disp y j) * (disp y i - disp y j)).
  Proof.
    intros Ek Ti Tj. unfold quadratic, block. cbv zeta. unfold k1_of. rewrite Ek. cbn [map qsum qof nopp nmul ndiv Qeqb].
    fold (disp y i) (rot y i) (disp y j) (rot y j). rewrite Ti, Tj. ring.
  Qed.
  Lemma pquad_sign p : In p prs -> 0 <= pquad p /\
    (pquad p == 0 -> rot y (ei (fst p)) == 0 /\ rot y (ej (fst p)) == 0 /\ disp y (ei (fst p)) == disp y (ej (fst p))).
  Proof.
    intros Hp. destruct (part_case p Hp) as (G & EG & G0 & l0 & h0 & b0 & [(E & EE & E0)|EE]); unfold pquad.
    - rewrite (block_quad _ G E _ c EG EE G0 E0 l0 h0). pose proof (k_pos (ef (fst p)) G E (snd p) G0 E0 l0 h0 b0) as k0.
      split; [apply energy_nonneg; auto; lra|]. apply energy_zero; auto.
    - destruct (part_rots p Hp EE) as [Ti Tj]. pose proof (k0_inf (ef (fst p)) G (snd p) EG EE l0 h0) as Ek.
      pose proof (kinf_pos G (qb (ef (fst p))) (qh (ef (fst p))) (snd p) G0 b0 h0 l0) as k0.
      rewrite (quad_inf _ _ _ _ _ Ek Ti Tj). set (k := np_pi / 4 * _ / _ / _) in *. clearbody k. split.
      + apply Qmult_le_0_compat; [lra|apply sq_pos].
      + intros Z. split; auto. split; auto. apply Qmult_integral in Z. destruct Z as [Z|Z]; [lra|]. apply Qmult_integral in Z. destruct Z; lra.
  Qed.
  Hypothesis zero : quadratic K y == 0.
  Lemma part_still p : In p prs -> rot y (ei (fst p)) == 0 /\ rot y (ej (fst p)) == 0 /\ disp y (ei (fst p)) == disp y (ej (fst p)).
  Proof.
    intros Hp. apply (pquad_sign p Hp). pose proof zero as Z. rewrite (K_parts m g lmin lmax c K HK noflag), quad_flat in Z.
    refine (qsum_zero_all _ _ Z _ (in_map pquad _ _ Hp)). intros x Hx. apply in_map_iff in Hx. destruct Hx as (q & <- & Hq). apply (pquad_sign q Hq).
  Qed.
  Lemma fiber_still i j d e : is_node (g_rows g) i d -> is_node (g_rows g) j e -> nf d = nf e -> disp y i == disp y j.
  Proof.
    assert (HR : forall i j d e, is_node (g_rows g) i d -> is_node (g_rows g) j e -> (i <= j)%nat -> nf d = nf e -> disp y i == disp y j).
    { apply (chain m g lmin lmax c K HK noflag (fun i _ j _ => disp y i == disp y j)).
      - reflexivity.
      - intros a b x z HB _. destruct (element_part m g lmin lmax c K HK noflag a b x z HB) as (p & Hp & <- & <-). apply (part_still p Hp).
      - intros a b k _ _ _ H1 H2. rewrite H1. exact H2. }
    intros Hd He Ef. destruct (Nat.le_gt_cases i j) as [L|L]; [eapply HR; eauto|]. symmetry. apply (HR j i e d); auto. lia.
  Qed.
End Beams.

(** ** Columns of C *)
Section Columns.
  Variable ps : list (nat * nat).
  Variable b : list Q.
  Hypothesis uniq : forall k k' i j i' j', nth_error ps k = Some (i, j) -> nth_error ps k' = Some (i', j') ->
    i = i' \/ i = j' \/ j = i' \/ j = j' -> k = k'.
  Definition cpart (fr : nat -> nat) (fc : nat * nat -> nat) (v : Q) : ncoo :=
    map (fun e => (fr (fst e), fc (snd e), Fin v)) (combine (seq 0 (length ps)) ps).
  Lemma tsum_split (fr : nat -> nat) (fc : nat * nat -> nat) v r :
    transpose_product (cpart fr fc v) b r ==
    qsum (map (fun k => match nth_error ps k with Some p => if Nat.eqb (fc p) r then v * nth (fr k) b 0 else 0 | None => 0 end) (seq 0 (length ps))).
  Proof.
    unfold transpose_product, cpart. rewrite map_map. cbn [qof].
    assert (G : forall l a, (forall k, nth_error l k = nth_error ps (a + k)) ->
      qsum (map (fun e : nat * (nat * nat) => if Nat.eqb (fc (snd e)) r then v * nth (fr (fst e)) b 0 else 0) (combine (seq a (length l)) l)) ==
      qsum (map (fun k => match nth_error ps k with Some p => if Nat.eqb (fc p) r then v * nth (fr k) b 0 else 0 | None => 0 end) (seq a (length l)))).
    { induction l as [|x l IH]; intros a H; [reflexivity|]. cbn [length seq combine map qsum fst snd].
      pose proof (H 0%nat) as H0. rewrite Nat.add_0_r in H0. cbn [nth_error] in H0. rewrite <- H0, IH; [reflexivity|].
      intros k. specialize (H (Datatypes.S k)). cbn [nth_error] in H. rewrite H. f_equal. lia. }
    apply G. reflexivity.
  Qed.
  Lemma tsum_at (fr : nat -> nat) (fc : nat * nat -> nat) v r k p : nth_error ps k = Some p -> fc p = r ->
    (forall k' p', nth_error ps k' = Some p' -> fc p' = r -> k' = k) ->
    transpose_product (cpart fr fc v) b r == v * nth (fr k) b 0.
  Proof.
    intros Hk Hp U. rewrite tsum_split. assert (Lk : (k < length ps)%nat) by (apply nth_error_Some; congruence).
    rewrite <- (qsum_pick (fun k => v * nth (fr k) b 0) k (length ps) 0) by lia. apply qsum_ext. intros k' _.
    destruct (nth_error ps k') as [p'|] eqn:E.
    - destruct (Nat.eqb_spec (fc p') r) as [E'|E'].
      + rewrite (U k' p' E E'), Nat.eqb_refl. reflexivity.
      + destruct (Nat.eqb_spec k k') as [->|]; [|reflexivity]. assert (p = p') by congruence. congruence.
    - destruct (Nat.eqb_spec k k') as [->|]; [congruence|reflexivity].
  Qed.
  Lemma tsum_none (fr : nat -> nat) (fc : nat * nat -> nat) v r : (forall k' p', nth_error ps k' = Some p' -> fc p' <> r) ->
    transpose_product (cpart fr fc v) b r == 0.
  Proof.
    intros U. rewrite tsum_split. apply qsum_zeros. intros x Hx. apply in_map_iff in Hx. destruct Hx as (k & <- & _).
    destruct (nth_error ps k) as [p'|] eqn:E; [|reflexivity]. destruct (Nat.eqb_spec (fc p') r) as [E'|E']; [destruct (U k p' E E')|reflexivity].
  Qed.
  Lemma tapp A B r : transpose_product (A ++ B) b r == transpose_product A b r + transpose_product B b r.
  Proof. unfold transpose_product. rewrite map_app, qsum_app. reflexivity. Qed.
  Lemma c_columns k i j : nth_error ps k = Some (i, j) ->
    let b0 := nth (3 * k) b 0 in let b1 := nth (3 * k + 1) b 0 in let b2 := nth (3 * k + 2) b 0 in
    (i <> j -> transpose_product (c_matrix ps) b (2 * i) == b1 - b0 /\ transpose_product (c_matrix ps) b (2 * j) == b2 - b1) /\
    (i = j -> transpose_product (c_matrix ps) b (2 * i) == b2 - b0).
  Proof.
    intros Hk b0 b1 b2.
    assert (U1 : forall x k' (p' : nat * nat), x = i \/ x = j -> nth_error ps k' = Some p' -> (2 * fst p')%nat = (2 * x)%nat -> k' = k).
    { intros x k' [i' j'] Hx H' E. cbn [fst] in E. apply (uniq k' k i' j' i j H' Hk). lia. }
    assert (U2 : forall x k' (p' : nat * nat), x = i \/ x = j -> nth_error ps k' = Some p' -> (2 * snd p')%nat = (2 * x)%nat -> k' = k).
    { intros x k' [i' j'] Hx H' E. cbn [snd] in E. apply (uniq k' k i' j' i j H' Hk). lia. }
    assert (N1 : i <> j -> forall k' (p' : nat * nat), nth_error ps k' = Some p' -> (2 * fst p')%nat <> (2 * j)%nat).
    { intros N k' p' H' E. pose proof (U1 j k' p' (or_intror eq_refl) H' E). subst k'. rewrite Hk in H'. injection H' as <-. cbn [fst] in E. lia. }
    assert (N2 : i <> j -> forall k' (p' : nat * nat), nth_error ps k' = Some p' -> (2 * snd p')%nat <> (2 * i)%nat).
    { intros N k' p' H' E. pose proof (U2 i k' p' (or_introl eq_refl) H' E). subst k'. rewrite Hk in H'. injection H' as <-. cbn [snd] in E. lia. }
    set (f0 := fun k => (3 * k)%nat). set (f1 := fun k => (3 * k + 1)%nat). set (f2 := fun k => (3 * k + 2)%nat).
    set (c1 := fun p : nat * nat => (2 * fst p)%nat) in *. set (c2 := fun p : nat * nat => (2 * snd p)%nat) in *.
    assert (D : forall r, transpose_product (c_matrix ps) b r ==
      transpose_product (cpart f0 c1 (- (1))) b r + transpose_product (cpart f1 c1 1) b r +
      transpose_product (cpart f1 c2 (- (1))) b r + transpose_product (cpart f2 c2 1) b r).
    { intros r. unfold c_matrix. cbv zeta. rewrite !tapp. unfold cpart, f0, f1, f2, c1, c2. ring. }
    assert (A1 : forall f v x, x = i -> transpose_product (cpart f c1 v) b (2 * x) == v * nth (f k) b 0).
    { intros f v x ->. apply (tsum_at f c1 v (2 * i) k (i, j) Hk eq_refl). intros k' p'. apply (U1 i k' p' (or_introl eq_refl)). }
    assert (A2 : forall f v x, x = j -> transpose_product (cpart f c2 v) b (2 * x) == v * nth (f k) b 0).
    { intros f v x ->. apply (tsum_at f c2 v (2 * j) k (i, j) Hk eq_refl). intros k' p'. apply (U2 j k' p' (or_intror eq_refl)). }
    split; [intros N; split|intros E]; rewrite D.
    - rewrite !A1, (tsum_none f1 c2 _ _ (N2 N)), (tsum_none f2 c2 _ _ (N2 N)) by auto. unfold b0, b1, f0, f1. ring.
    - rewrite !A2, (tsum_none f0 c1 _ _ (N1 N)), (tsum_none f1 c1 _ _ (N1 N)) by auto. unfold b2, b1, f1, f2. ring.
    - rewrite !A1, !A2 by auto. unfold b0, b1, b2, f0, f1, f2. ring.
  Qed.
End Columns.

Lemma NoDup_at {A} (l : list A) k k' a : NoDup l -> nth_error l k = Some a -> nth_error l k' = Some a -> k = k'.
Proof. intros N H H'. apply (proj1 (NoDup_nth_error l) N); [apply nth_error_Some; congruence|congruence]. Qed.

Section Pairs.
  Variable m : qmat.
  Variable g : mesh_df.
  Variable cs : csys.
  Hypothesis Hcs : constraint m g = Ok cs.
  Hypothesis noflag : ~ flag_set (g_attrs g).
  Let ps := cons_pairs (g_rows g).
  Lemma firsts_nodup : NoDup (map fst ps).
  Proof.
    unfold ps, cons_pairs. rewrite map_map. cbn [fst].
    assert (N : NoDup (map (fun r : Z * node => Z.to_nat (fst r)) (g_rows g))).
    { apply NoDup_nth_error. intros a b L. rewrite !nth_error_map. intros E. rewrite map_length in L.
      destruct (nth_error (g_rows g) a) as [[la x]|] eqn:Ea; [|apply nth_error_None in Ea; lia].
      destruct (nth_error (g_rows g) b) as [[lb z]|] eqn:Eb; [|discriminate E]. cbn [option_map fst] in E.
      pose proof (clabelled m g cs Hcs noflag _ _ _ Ea). pose proof (clabelled m g cs Hcs noflag _ _ _ Eb). subst. rewrite !Nat2Z.id in E. congruence. }
    revert N. generalize (g_rows g). induction l as [|[la x] l IH]; intros N; [constructor|]. inversion N; subst. cbn [filter fst snd].
    destruct (Z.leb la (ncons x)); [|auto]. cbn [map fst]. constructor; [|auto]. intros C. apply H1. apply in_map_iff in C. destruct C as (r & E & Hr).
    apply filter_In in Hr. apply in_map_iff. exists r. split; [exact E|apply Hr].
  Qed.
  Lemma pairs_uniq k k' i j i' j' : nth_error ps k = Some (i, j) -> nth_error ps k' = Some (i', j') ->
    i = i' \/ i = j' \/ j = i' \/ j = j' -> k = k'.
  Proof.
    intros H H' E.
    assert (F : i = i' -> k = k').
    { intros <-. apply (NoDup_at (map fst ps) k k' i firsts_nodup); rewrite nth_error_map; [rewrite H|rewrite H']; reflexivity. }
    destruct (pair_inv m g cs Hcs noflag k i j H) as (d & e & Hd & He & Cd & Ce & L).
    destruct (pair_inv m g cs Hcs noflag k' i' j' H') as (d' & e' & Hd' & He' & Cd' & Ce' & L').
    pose proof (node_fun _ (clabelled m g cs Hcs noflag)) as NF.
    destruct E as [E|[E|[E|E]]]; [auto| | |].
    - subst j'. pose proof (NF _ _ _ Hd He'). subst e'. apply F. lia.
    - subst i'. pose proof (NF _ _ _ He Hd'). subst d'. apply F. lia.
    - subst j'. pose proof (NF _ _ _ He He'). subst e'. apply F. lia.
  Qed.
  Lemma pair_of_node i d : is_node (g_rows g) i d -> exists k a b, nth_error ps k = Some (a, b) /\ (i = a \/ i = b).
  Proof.
    intros Hd. destruct (cinv m g cs Hcs noflag i d Hd) as (j & e & Ed & He & Ee). destruct (Nat.le_gt_cases i j) as [L|L].
    - destruct (pair_ex m g cs Hcs noflag i d j Hd Ed L) as (k & Hk). exists k, i, j. auto.
    - destruct (pair_ex m g cs Hcs noflag j e i He Ee ltac:(lia)) as (k & Hk). exists k, j, i. auto.
  Qed.
  Lemma some_pair : exists k i j, nth_error ps k = Some (i, j).
  Proof.
    destruct (top_spec m g cs Hcs) as [_ (i & d & h & Hd & _)]. destruct (pair_of_node i d Hd) as (k & a & b & Hk & _). eauto.
  Qed.
  Lemma pair_paired k i j : nth_error ps k = Some (i, j) -> exists d e, paired g i j d e.
  Proof. intros H. destruct (pair_inv m g cs Hcs noflag k i j H) as (d & e & Hd & He & Cd & _ & L). exists d, e. split; auto. Qed.
  Lemma paired_pair i j d e : paired g i j d e -> exists k, nth_error ps k = Some (i, j).
  Proof. intros (Hd & _ & C & L). apply (pair_ex m g cs Hcs noflag i d j); auto. Qed.
End Pairs.

(** ** Systems of the states *)
Lemma held_ext m g tol u u' z fb : (forall i, disp u i == disp u' i) -> held m g tol u z fb -> held m g tol u' z fb.
Proof.
  intros E. assert (F : forall i d, on_floor m tol u i d -> on_floor m tol u' i d) by (intros i d (h & T & L); exists h; rewrite <- E; auto).
  assert (G : forall i d, on_lid m tol u z i d -> on_lid m tol u' z i d) by (intros i d (h & T & L); exists h; rewrite <- E; auto).
  assert (H : forall i j d e, touching m tol u i j d e -> touching m tol u' i j d e) by (intros i j d e (h & h' & T & T' & L); exists h, h'; rewrite <- !E; auto).
  induction 1 as [i j d e HP HF|i j d e HP HF|i j d e HP N HF _ IH|i j d e HP N HF _ IH].
  - apply (held_floor m g _ _ _ i j d e HP). auto.
  - apply (held_lid m g _ _ _ i j d e HP). auto.
  - apply (held_below m g _ _ _ i j d e HP N); auto.
  - apply (held_above m g _ _ _ i j d e HP N); auto.
Qed.

Section Posed.
  Variable lsolve : ncoo -> list num -> list num.
  Variable m : qmat.
  Variable g : mesh_df.
  Variable p : solve_params.
  Variable K : ncoo.
  Variable cs : csys.
  Hypothesis HK : stiffness m g (sp_lmin p) (sp_lmax p) (sp_coupling p) = Ok K.
  Hypothesis Hcs : constraint m g = Ok cs.
  Hypothesis noflag : ~ flag_set (g_attrs g).
  Hypothesis tols : tolerances_ok p.
  Hypothesis lens : right_length lsolve.
  Hypothesis HL : lengths_ok g (sp_lmin p) (sp_lmax p).
  Hypothesis HG : finite_shear m.
  Hypothesis HC : sp_coupling p * sp_coupling p < 1.
  Hypothesis E0 : sp_errtol p == 0.
  Let nu := (2 * length (g_rows g))%nat.
  Let ps := cons_pairs (g_rows g).
  Let n := (nu + 3 * length ps)%nat.
  Let P := bmat nu K (csC cs).
  Let q0 := repeat (Fin 0) nu ++ csH cs.
  Let perm := match sp_perm p with Some l => l | None => seq 0 (length q0) end.
  Let S := mkSys nu P (repeat (Fin 0) nu ++ csdH cs) perm (sp_tol p) (sp_errtol p) (sp_packing p) (Fin (csZ cs)).
  Let s0 := init_state P q0 (sp_tol p) (Fin (csZ cs)).
  Hypothesis PC : perm_complete S.
  Hypothesis TR : forall s, trusted lsolve m g p K cs s.
  Let u (s : state) := vals (st_u S s).
  Let z (s : state) := qof (st_Z s).

  Lemma ww s : reach lsolve S s0 s -> well S s0 s.
  Proof. intros R. exact (w_well lsolve m g p K cs HK Hcs noflag tols lens s R (TR s)). Qed.
  Lemma af s r : reach lsolve S s0 s -> (act S s r <->
    ((r < length (sy_dq S))%nat /\ fin_row (sy_P S) r /\ qfin s r /\ D S s r <= sy_tol S /\ nltb (Fin 0) (colsum (sy_P S) r) = true)).
  Proof. intros R. exact (act_fin S (w_idx m g p K cs HK Hcs noflag) (w_rows m g p K cs HK Hcs noflag) s r (proj1 (ww s R))). Qed.
  Lemma ag s r : reach lsolve S s0 s ->
    (act S s (nu + r) <-> exists q, gap_is (csC cs) (st_H S s) (u s) r q /\ q <= sp_tol p).
  Proof. intros R. exact (act_gap lsolve m g p K cs HK Hcs noflag tols lens s r R (TR s)). Qed.
  Lemma rows_three s : reach lsolve S s0 s -> forall k i j d e, nth_error ps k = Some (i, j) -> paired g i j d e ->
    (act S s (nu + 3 * k) <-> on_floor m (sp_tol p) (u s) i d) /\
    (act S s (nu + (3 * k + 1)) <-> i <> j /\ touching m (sp_tol p) (u s) i j d e) /\
    (act S s (nu + (3 * k + 2)) <-> on_lid m (sp_tol p) (u s) (z s) j e).
  Proof.
    intros R k i j d e Hk (Hd & He & _). destruct (thick_ex m g cs Hcs i d Hd) as (hi & Ti & _). destruct (thick_ex m g cs Hcs j e He) as (hj & Tj & _).
    destruct (w_bounds lsolve m g p K cs HK Hcs noflag tols lens s R (TR s)) as [_ HB].
    destruct (HB k i j d e hi hj Hk Hd He Ti Tj) as ((b0 & B0 & V0) & (b1 & B1 & BI & BF) & (b2 & B2 & V2)).
    destruct (c_rows ps (u s) k i j Hk) as (C0 & C1 & C2).
    assert (PR : forall r, product (csC cs) (u s) r = product (c_matrix ps) (u s) r) by (intros r; rewrite (csC_eq m g cs Hcs); reflexivity).
    assert (G : forall r b, nth_error (st_H S s) r = Some (Fin b) ->
      (act S s (nu + r) <-> b - product (c_matrix ps) (u s) r <= sp_tol p)).
    { intros r b Hb. rewrite (ag s r R). split.
      - intros (q & (b' & Hb' & Eq) & Lq). assert (b' = b) by congruence. subst b'. rewrite PR in Eq. lra.
      - intros Lq. exists (b - product (csC cs) (u s) r). split; [exists b; split; [exact Hb|reflexivity]|]. rewrite PR. exact Lq. }
    split; [|split].
    - rewrite (G _ _ B0), C0, V0. split.
      + intros L. exists hi. split; auto. lra.
      + intros (h & Th & L). rewrite (thick_fun m d h hi Th Ti) in L. lra.
    - destruct (Nat.eq_dec i j) as [E|N].
      + rewrite (ag s _ R). split; [|intros [N _]; contradiction].
        intros (q & (b' & Hb' & _) & _). change (nth_error (st_H S s) (3 * k + 1) = Some (Fin b')) in Hb'.
        change (nth_error (st_H S s) (3 * k + 1) = Some b1) in B1. rewrite B1, (BI E) in Hb'. discriminate Hb'.
      + destruct (BF N) as (x & Ex & Vx). rewrite Ex in B1. rewrite (G _ _ B1), C1, Vx. split.
        * intros L. split; auto. exists hi, hj. split; auto. split; auto. lra.
        * intros (_ & h & h' & Th & Th' & L). rewrite (thick_fun m d h hi Th Ti), (thick_fun m e h' hj Th' Tj) in L. lra.
    - rewrite (G _ _ B2), C2, V2. fold (z s). split.
      + intros L. exists hj. split; auto. lra.
      + intros (h & Th & L). rewrite (thick_fun m e h hj Th Tj) in L. lra.
  Qed.

  (** rows of displacements take part in every system *)
  Lemma wbal s r : reach lsolve S s0 s -> (r < nu)%nat -> fin_row P r -> nltb (Fin 0) (colsum P r) = true -> act S s r.
  Proof.
    intros R L FR CS. destruct (ww s R) as (I & _ & HQ & HB).
    assert (L' : (r < length (sy_dq S))%nat) by (apply (w_above m g p K cs Hcs); exact L).
    assert (Q : qfin s r) by (apply HQ; auto; apply (w_kq0 g p K cs); exact L).
    apply (af s r R).
    split; auto. split; [exact FR|]. split; auto. split; [|exact CS].
    assert (SL : slack S s0 s) by (left; exact E0).
    destruct (HB SL r L FR Q) as [_ B]. rewrite (drift_zero S s0 s E0) in B. destruct tols as [T0 _]. change (sy_tol S) with (sp_tol p). lra.
  Qed.
  Lemma node_rows s k i j : reach lsolve S s0 s -> nth_error ps k = Some (i, j) -> act S s (2 * i) /\ act S s (2 * j).
  Proof.
    intros R Hk. destruct (w_covered m g p K cs HK Hcs noflag PC HL HG) as [_ CV].
    destruct (pair_lt m g cs Hcs noflag k i j Hk) as (Lk & Li & Lj & _). fold ps in Lk.
    assert (X : forall t x, (t = 0%nat /\ x = i) \/ (t = 2%nat /\ x = j) -> act S s (2 * x)).
    { intros t x Ht. destruct (CV (nu + (3 * k + t))%nat) as (c & v & Hv & Lc & FR & CS).
      { rewrite (w_len m g p K cs Hcs). cbn [sy_nu]. fold nu ps. lia. }
      assert (c = 2 * x)%nat.
      { destruct (P_case m g K cs Hcs noflag _ _ _ Hv) as [H|[(H & _)|(_ & H)]].
        - apply (K_lt m g _ _ _ K HK noflag) in H. fold nu in H. lia.
        - fold nu in H. lia.
        - fold nu in H. replace (nu + (3 * k + t) - nu)%nat with (3 * k + t)%nat in H by lia.
          rewrite (csC_eq m g cs Hcs) in H. destruct (c_matrix_in _ _ _ _ H) as (k' & i' & j' & Hk' & C). fold ps in Hk'.
          assert (k' = k) by (decompose [or and] C; lia). subst k'. rewrite Hk in Hk'. injection Hk' as <- <-. decompose [or and] C; lia. }
      subst c. apply wbal; auto. }
    split; [apply (X 0%nat i)|apply (X 2%nat j)]; auto.
  Qed.
  Lemma act_closed s r : reach lsolve S s0 s -> (act S s r <-> closed S s r).
  Proof.
    intros R. destruct (ww s R) as (I & _). apply active_iff. exact (inv_q S s I).
  Qed.
  (** a rotation takes part if the node is in an element *)
  Lemma rot_part s i : reach lsolve S s0 s -> (2 * i + 1 < nu)%nat -> act S s (2 * i + 1) ->
    exists q, In q (parts m g (sp_lmin p) (sp_lmax p)) /\ (i = ei (fst q) \/ i = ej (fst q)).
  Proof.
    intros R Li A. destruct (ww s R) as (I & _).
    apply (af s _ R) in A. destruct A as (L & FR & _ & _ & CS).
    destruct (existsb (fun q : elem * Q => Nat.eqb i (ei (fst q)) || Nat.eqb i (ej (fst q))) (parts m g (sp_lmin p) (sp_lmax p))) eqn:EX.
    { apply existsb_exists in EX. destruct EX as (q & Hq & E). exists q. split; auto. apply orb_true_iff in E. rewrite !Nat.eqb_eq in E. exact E. }
    exfalso.
    assert (NE : forall r v, ~ In (r, (2 * i + 1)%nat, v) (sy_P S)).
    { intros r v Hv. destruct (P_case m g K cs Hcs noflag _ _ _ Hv) as [H|[(H1 & H & H2)|(H1 & H)]].
      - rewrite (K_parts m g _ _ _ K HK noflag) in H. apply in_flat_map in H. destruct H as (q & Hq & H).
        apply block_in in H. destruct H as [_ H].
        assert (D2 : Nat.div (2 * i + 1) 2 = i) by (rewrite Nat.mul_comm, Nat.add_comm, Nat.div_add by lia; reflexivity). rewrite D2 in H.
        assert (NN : existsb (fun q : elem * Q => Nat.eqb i (ei (fst q)) || Nat.eqb i (ej (fst q))) (parts m g (sp_lmin p) (sp_lmax p)) = true).
        { apply existsb_exists. exists q. split; auto. apply orb_true_iff. rewrite !Nat.eqb_eq. exact H. }
        congruence.
      - fold nu in H2. lia.
      - rewrite (csC_eq m g cs Hcs) in H. destruct (c_matrix_in _ _ _ _ H) as (k & x' & y' & _ & C). decompose [or and] C; lia. }
    assert (Z : colsum (sy_P S) (2 * i + 1) = Fin 0).
    { unfold colsum. match goal with |- context [filter ?h ?l] => assert (FN : filter h l = []) end.
      { destruct (filter _ _) as [|[[x y] v] t'] eqn:Ef; auto. exfalso.
        assert (H : In (x, y, v) ((x, y, v) :: t')) by (left; auto). rewrite <- Ef in H. apply filter_In in H. destruct H as [H Ey].
        apply Nat.eqb_eq in Ey. simpl in Ey. subst y. apply (NE _ _ H). }
      rewrite FN. reflexivity. }
    rewrite Z in CS. discriminate CS.
  Qed.

  Section Kernel.
    Variable s : state.
    Hypothesis R : reach lsolve S s0 s.
    Variable y : list Q.
    Hypothesis YA : forall r, ~ act S s r -> nth r y 0 == 0.
    Hypothesis YB : forall r, act S s r -> product P y r == 0.
    Lemma bil_app A B a b : bil (A ++ B) a b == bil A a b + bil B a b.
    Proof. unfold bil. rewrite map_app, qsum_app. reflexivity. Qed.
    Lemma lower_zero : bil (lower nu (csC cs)) y y == 0.
    Proof.
      rewrite (bil_rows _ y y n).
      - apply qsum_zeros. intros x Hx. apply in_map_iff in Hx. destruct Hx as (r & <- & Hr).
        destruct (Nat.lt_ge_cases r nu) as [L|L].
        + rewrite product_zero; [ring|]. intros c v Hv. unfold lower in Hv. apply in_map_iff in Hv. destruct Hv as ([[a b] w] & E & _). injection E as E _ _. lia.
        + destruct (act_dec S s r) as [A|A]; [|rewrite (YA r A); ring]. pose proof (YB r A) as Z.
          replace r with (nu + (r - nu))%nat in Z |- * by lia. rewrite lower_product. unfold P, nu in Z. rewrite (below_product m g _ _ _ K cs HK Hcs noflag) in Z.
          fold nu in Z. rewrite Z. ring.
      - intros r c v Hv. unfold lower in Hv. apply in_map_iff in Hv. destruct Hv as ([[a b] w] & E & Hv). injection E as <- <- _.
        destruct (C_lt m g cs Hcs noflag _ _ _ Hv) as [[H1 _] _]. fold ps in H1. unfold n. lia.
    Qed.
    Lemma quad_zero : quadratic K y == 0.
    Proof.
      assert (PZ : bil P y y == 0).
      { rewrite (bil_rows P y y n).
        - apply qsum_zeros. intros x Hx. apply in_map_iff in Hx. destruct Hx as (r & <- & _).
          destruct (act_dec S s r) as [A|A]; [rewrite (YB r A)|rewrite (YA r A)]; ring.
        - intros r c v Hv. apply (P_idx m g _ _ _ K cs HK Hcs noflag) in Hv. apply Hv. }
      unfold P in PZ. rewrite bmat_eq, !bil_app, lower_zero in PZ.
      assert (UZ : bil (upper nu (csC cs)) y y == 0).
      { rewrite upper_swap. rewrite <- lower_zero. unfold bil. rewrite map_map. apply qsum_ext. intros [[i c] v] _. cbn [swap fst snd]. ring. }
      rewrite UZ in PZ. rewrite bil_quad in PZ. lra.
    Qed.
    Lemma rot_inf i d f : is_node (g_rows g) i d -> has_fiber m (nf d) f -> qE f = PInf -> rot y i == 0.
    Proof.
      intros Hd Hf EE. apply YA. exact (stiff_idle m g p K cs HK Hcs noflag s i d f (proj1 (ww s R)) Hd Hf EE).
    Qed.
    Lemma row_zero k i j : nth_error ps k = Some (i, j) ->
      (act S s (nu + 3 * k) -> disp y i == 0) /\ (act S s (nu + (3 * k + 1)) -> disp y i == disp y j) /\ (act S s (nu + (3 * k + 2)) -> disp y j == 0).
    Proof.
      intros Hk. destruct (c_rows ps y k i j Hk) as (C0 & C1 & C2).
      assert (X : forall r, act S s (nu + r) -> product (c_matrix ps) y r == 0).
      { intros r A. apply YB in A. unfold P, nu in A. rewrite (below_product m g _ _ _ K cs HK Hcs noflag), (csC_eq m g cs Hcs) in A. exact A. }
      split; [|split]; intros A; apply X in A; [rewrite C0 in A|rewrite C1 in A|rewrite C2 in A]; lra.
    Qed.
    Let still := fiber_still m g _ _ _ K HK noflag HL HG HC y rot_inf quad_zero.
    Lemma held_zero fb : held m g (sp_tol p) (u s) (z s) fb -> forall i d, is_node (g_rows g) i d -> nf d = fb -> disp y i == 0.
    Proof.
      assert (X : forall i j d e, paired g i j d e -> exists k, nth_error ps k = Some (i, j) /\
        (on_floor m (sp_tol p) (u s) i d -> disp y i == 0) /\ (i <> j /\ touching m (sp_tol p) (u s) i j d e -> disp y i == disp y j) /\
        (on_lid m (sp_tol p) (u s) (z s) j e -> disp y j == 0)).
      { intros i j d e HP. destruct (paired_pair m g cs Hcs noflag i j d e HP) as (k & Hk). exists k. split; [exact Hk|].
        destruct (rows_three s R k i j d e Hk HP) as (R0 & R1 & R2). destruct (row_zero k i j Hk) as (Z0 & Z1 & Z2). rewrite R0 in Z0. rewrite R1 in Z1. rewrite R2 in Z2. auto. }
      induction 1 as [i j d e HP HF|i j d e HP HF|i j d e HP N HF _ IH|i j d e HP N HF _ IH];
        destruct (X i j d e HP) as (k & Hk & Z0 & Z1 & Z2); pose proof HP as (Hd & He & _); intros i' d' Hd' Ef.
      - rewrite (still i' i d' d Hd' Hd Ef). auto.
      - rewrite (still i' j d' e Hd' He Ef). auto.
      - rewrite (still i' j d' e Hd' He Ef). rewrite <- Z1 by auto. apply (IH i d); auto.
      - rewrite (still i' i d' d Hd' Hd Ef). rewrite Z1 by auto. apply (IH j e); auto.
    Qed.
    Hypothesis HH : all_held m g (sp_tol p) (u s) (z s).
    Lemma node_exists i : (i < length (g_rows g))%nat -> exists d, is_node (g_rows g) i d.
    Proof.
      intros L. destruct (nth_error (g_rows g) i) as [[lab d]|] eqn:E; [|apply nth_error_None in E; lia]. exists d, lab. exact E.
    Qed.
    Lemma u_zero c : (c < nu)%nat -> nth c y 0 == 0.
    Proof.
      intros L. pose proof (Nat.div_mod c 2 ltac:(lia)) as E. pose proof (Nat.mod_upper_bound c 2 ltac:(lia)) as B. set (i := Nat.div c 2) in *.
      assert (Li : (i < length (g_rows g))%nat) by (unfold nu in L; lia). destruct (node_exists i Li) as (d & Hd).
      destruct (Nat.eq_dec (Nat.modulo c 2) 0) as [Z|N].
      - replace c with (2 * i)%nat by lia. apply (held_zero (nf d) (HH i d Hd) i d Hd eq_refl).
      - replace c with (2 * i + 1)%nat by lia. destruct (act_dec S s (2 * i + 1)) as [A|A]; [|apply YA; exact A].
        destruct (rot_part s i R ltac:(lia) A) as (q & Hq & Hi).
        destruct (part_still m g _ _ _ K HK noflag HL HG HC y rot_inf quad_zero q Hq) as (T1 & T2 & _). destruct Hi as [Hi|Hi]; rewrite <- Hi in *; auto.
    Qed.
    Lemma force_equal k i j : nth_error ps k = Some (i, j) ->
      let b t := nth (nu + (3 * k + t)) y 0 in
      (i <> j -> b 1%nat == b 0%nat /\ b 2%nat == b 1%nat) /\ (i = j -> b 2%nat == b 0%nat).
    Proof.
      intros Hk b. destruct (node_rows s k i j R Hk) as [Ai Aj]. apply YB in Ai. apply YB in Aj.
      destruct (pair_lt m g cs Hcs noflag k i j Hk) as (_ & Li & Lj & _).
      assert (X : forall x, (x < length (g_rows g))%nat -> product P y (2 * x) == 0 -> transpose_product (c_matrix ps) (skipn nu y) (2 * x) == 0).
      { intros x Lx H. unfold P in H. rewrite bmat_above in H by (unfold nu; lia). rewrite upper_product, (csC_eq m g cs Hcs) in H. fold ps in H. rewrite <- H.
        assert (KZ : product K y (2 * x) == 0).
        { unfold product. apply qsum_zeros. intros w Hw. apply in_map_iff in Hw. destruct Hw as ([[a c] v] & <- & Hv). destruct (Nat.eqb a (2 * x)); [|reflexivity].
          rewrite (u_zero c); [ring|]. apply (K_lt m g _ _ _ K HK noflag a c v Hv). }
        rewrite KZ. ring. }
      pose proof (X i Li Ai) as Xi. pose proof (X j Lj Aj) as Xj.
      destruct (c_columns ps (skipn nu y) (pairs_uniq m g cs Hcs noflag) k i j Hk) as [C1 C2]. cbv zeta in C1, C2. repeat rewrite nth_skipn in C1; repeat rewrite nth_skipn in C2.
      unfold b. cbv beta. rewrite Nat.add_0_r. split; intros E.
      - destruct (C1 E) as [Ci Cj]. rewrite Ci in Xi. rewrite Cj in Xj. split; lra.
      - rewrite (C2 E) in Xi. lra.
    Qed.
    Lemma kernel_zero : ~ compressed m g (sp_tol p) (u s) (z s) -> forall r, nth r y 0 == 0.
    Proof.
      intros NC r. destruct (act_dec S s r) as [A|A]; [|apply YA; exact A].
      pose proof (proj1 (af s r R) A) as (L & _). pose proof (w_len m g p K cs Hcs : length (sy_dq S) = n) as LS. rewrite LS in L. unfold n in L. clear A.
      destruct (Nat.lt_ge_cases r nu) as [Lr|Lr]; [apply u_zero; exact Lr|].
      destruct (below_case g r (conj Lr L)) as (k & i & j & t & Hk & Lt & Er). change (nth_error ps k = Some (i, j)) in Hk. change (r = (nu + (3 * k + t))%nat) in Er.
      destruct (pair_paired m g cs Hcs noflag k i j Hk) as (d & e & HP). destruct (rows_three s R k i j d e Hk HP) as (R0 & R1 & R2).
      destruct (force_equal k i j Hk) as [F1 F2]. cbv zeta in F1, F2. rewrite Nat.add_0_r in F1, F2.
      assert (Y0 : ~ act S s (nu + 3 * k) -> nth (nu + 3 * k) y 0 == 0) by apply YA.
      assert (Y1 : ~ act S s (nu + (3 * k + 1)) -> nth (nu + (3 * k + 1)) y 0 == 0) by apply YA.
      assert (Y2 : ~ act S s (nu + (3 * k + 2)) -> nth (nu + (3 * k + 2)) y 0 == 0) by apply YA.
      assert (G : nth (nu + 3 * k) y 0 == 0 /\ nth (nu + (3 * k + 1)) y 0 == 0 /\ nth (nu + (3 * k + 2)) y 0 == 0).
      { destruct (Nat.eq_dec i j) as [E|N].
        - specialize (F2 E). assert (Z1 : nth (nu + (3 * k + 1)) y 0 == 0) by (apply Y1; rewrite R1; tauto).
          destruct (act_dec S s (nu + 3 * k)) as [A0|A0]; [|specialize (Y0 A0); lra].
          destruct (act_dec S s (nu + (3 * k + 2))) as [A2|A2]; [|specialize (Y2 A2); lra].
          exfalso. apply NC. exists i, j, d, e. split; auto. split; [apply R0; auto|]. split; [apply R2; auto|auto].
        - destruct (F1 N) as [F3 F4]. destruct (act_dec S s (nu + 3 * k)) as [A0|A0]; [|specialize (Y0 A0); lra].
          destruct (act_dec S s (nu + (3 * k + 2))) as [A2|A2]; [|specialize (Y2 A2); lra].
          destruct (act_dec S s (nu + (3 * k + 1))) as [A1|A1]; [|specialize (Y1 A1); lra].
          exfalso. apply NC. exists i, j, d, e. split; auto. split; [apply R0; auto|]. split; [apply R2; auto|]. right. apply R1; auto. }
      destruct G as (G0 & G1 & G2). subst r. destruct t as [|[|[|t]]]; [rewrite Nat.add_0_r| | |lia]; auto.
    Qed.
  End Kernel.
  (** C88: the system of a state has one solution *)
  Lemma posed s : reach lsolve S s0 s -> all_held m g (sp_tol p) (u s) (z s) -> ~ compressed m g (sp_tol p) (u s) (z s) -> regular S s.
  Proof.
    intros R HH NC. split.
    - intros r c v Hr _ Hv. apply (act_closed s r R), (af s r R) in Hr. destruct Hr as (_ & FR & _). apply (FR c v Hv).
    - intros y Y1 Y2. apply (kernel_zero s R y); auto.
      + intros r A. apply Y1. rewrite <- (act_closed s r R). exact A.
      + intros r A. apply Y2. apply (act_closed s r R). exact A.
  Qed.

  (** a column without void: equal forces on its three rows do nothing *)
  Lemma stuck s : reach lsolve S s0 s -> compressed m g (sp_tol p) (u s) (z s) -> ~ regular S s.
  Proof.
    intros R (i & j & d & e & HP & HF & HL' & HT) [_ RG].
    destruct (paired_pair m g cs Hcs noflag i j d e HP) as (k & Hk). change (nth_error ps k = Some (i, j)) in Hk.
    destruct (rows_three s R k i j d e Hk HP) as (R0 & R1 & R2). apply R0 in HF. apply R2 in HL'.
    set (on := fun r => Nat.eqb r (nu + 3 * k) || Nat.eqb r (nu + (3 * k + 2)) || (Nat.eqb r (nu + (3 * k + 1)) && negb (Nat.eqb i j))).
    set (y := map (fun r => if on r then 1 else 0) (seq 0 n)).
    assert (Lk : (k < length ps)%nat) by (apply nth_error_Some; congruence).
    assert (ON : forall r, on r = true -> (nu <= r < n)%nat).
    { intros r H. unfold on in H. unfold n. apply orb_true_iff in H. destruct H as [H|H]; [apply orb_true_iff in H; destruct H as [H|H]|apply andb_true_iff in H; destruct H as [H _]];
        apply Nat.eqb_eq in H; lia. }
    assert (Ny : forall r, nth r y 0 == if on r then 1 else 0).
    { intros r. unfold y. rewrite nth_map_seq. destruct (Nat.ltb_spec r n) as [L|L]; [reflexivity|]. destruct (on r) eqn:E; [|reflexivity].
      apply ON in E. lia. }
    assert (A : forall r, on r = true -> act S s r).
    { intros r H. unfold on in H. apply orb_true_iff in H. destruct H as [H|H]; [apply orb_true_iff in H; destruct H as [H|H]; apply Nat.eqb_eq in H; subst r; auto|].
      apply andb_true_iff in H. destruct H as [H H']. apply Nat.eqb_eq in H. subst r. apply negb_true_iff, Nat.eqb_neq in H'. apply R1. split; auto. destruct HT; [contradiction|auto]. }
    assert (Z : forall r, nth r y 0 == 0).
    { apply RG.
      - intros r C. rewrite Ny. destruct (on r) eqn:E; [|reflexivity]. destruct C. apply (act_closed s r R). apply A. exact E.
      - intros r C. apply (act_closed s r R), (af s r R) in C. destruct C as (L & _). pose proof (w_len m g p K cs Hcs : length (sy_dq S) = n) as LS. rewrite LS in L. unfold n in L.
        change (product P y r == 0). destruct (Nat.lt_ge_cases r nu) as [Lr|Lr].
        + unfold P. rewrite bmat_above by exact Lr. rewrite upper_product, (csC_eq m g cs Hcs). fold ps.
          assert (KZ : product K y r == 0).
          { unfold product. apply qsum_zeros. intros w Hw. apply in_map_iff in Hw. destruct Hw as ([[a c] v] & <- & Hv). destruct (Nat.eqb a r); [|reflexivity].
            rewrite (Ny c). destruct (on c) eqn:E; [|ring]. apply ON in E. destruct (K_lt m g _ _ _ K HK noflag a c v Hv) as [_ Lc]. unfold nu in E. lia. }
          rewrite KZ. enough (TZ : transpose_product (c_matrix ps) (skipn nu y) r == 0) by (rewrite TZ; ring).
          destruct (existsb (fun e => Nat.eqb (snd (fst e)) r) (c_matrix ps)) eqn:EX.
          * apply existsb_exists in EX. destruct EX as ([[a c] v] & Hv & Ec). cbn [fst snd] in Ec. apply Nat.eqb_eq in Ec. subst c.
            destruct (c_matrix_in ps a r v Hv) as (k' & i' & j' & Hk' & C).
            assert (RC : r = (2 * i')%nat \/ r = (2 * j')%nat) by (decompose [or and] C; auto). clear C.
            destruct (c_columns ps (skipn nu y) (pairs_uniq m g cs Hcs noflag) k' i' j' Hk') as [C1 C2]. cbv zeta in C1, C2.
            repeat rewrite nth_skipn in C1; repeat rewrite nth_skipn in C2. rewrite !Ny in C1. rewrite !Ny in C2.
            assert (E0' : on (nu + 3 * k')%nat = Nat.eqb k' k).
            { unfold on. destruct (Nat.eqb_spec (nu + 3 * k') (nu + 3 * k)), (Nat.eqb_spec (nu + 3 * k') (nu + (3 * k + 2))), (Nat.eqb_spec (nu + 3 * k') (nu + (3 * k + 1))), (Nat.eqb_spec k' k); cbn; try reflexivity; lia. }
            assert (E2' : on (nu + (3 * k' + 2))%nat = Nat.eqb k' k).
            { unfold on. destruct (Nat.eqb_spec (nu + (3 * k' + 2)) (nu + 3 * k)), (Nat.eqb_spec (nu + (3 * k' + 2)) (nu + (3 * k + 2))), (Nat.eqb_spec (nu + (3 * k' + 2)) (nu + (3 * k + 1))), (Nat.eqb_spec k' k); cbn; try reflexivity; lia. }
            assert (E1' : i' <> j' -> on (nu + (3 * k' + 1))%nat = Nat.eqb k' k).
            { intros N'. unfold on. destruct (Nat.eqb_spec k' k) as [Ek|Nk].
              - subst k'. rewrite Hk in Hk'. injection Hk' as <- <-. destruct (Nat.eqb_spec i j); [contradiction|]. rewrite Nat.eqb_refl. cbn. apply orb_true_r.
              - destruct (Nat.eqb_spec (nu + (3 * k' + 1)) (nu + 3 * k)), (Nat.eqb_spec (nu + (3 * k' + 1)) (nu + (3 * k + 2))), (Nat.eqb_spec (nu + (3 * k' + 1)) (nu + (3 * k + 1))); cbn; try reflexivity; lia. }
            rewrite E0', E2' in C2. destruct (Nat.eq_dec i' j') as [Ei|Ni].
            -- subst j'. assert (r = (2 * i')%nat) by tauto. subst r. rewrite (C2 eq_refl). ring.
            -- rewrite E0', E2', (E1' Ni) in C1. destruct (C1 Ni) as [Ca Cb]. destruct RC; subst r; [rewrite Ca|rewrite Cb]; ring.
          * unfold transpose_product. apply qsum_zeros. intros w Hw. apply in_map_iff in Hw. destruct Hw as ([[a c] v] & <- & Hv).
            destruct (Nat.eqb_spec c r) as [E|N]; [|reflexivity]. exfalso.
            assert (C : existsb (fun e => Nat.eqb (snd (fst e)) r) (c_matrix ps) = true); [|congruence]. apply existsb_exists. exists (a, c, v). split; [exact Hv|]. apply Nat.eqb_eq. exact E.
        + replace r with (nu + (r - nu))%nat by lia. unfold P, nu. rewrite (below_product m g _ _ _ K cs HK Hcs noflag). fold nu.
          unfold product. apply qsum_zeros. intros w Hw. apply in_map_iff in Hw. destruct Hw as ([[a c] v] & <- & Hv). destruct (Nat.eqb a (r - nu)); [|reflexivity].
          rewrite (Ny c). destruct (on c) eqn:E; [|ring]. apply ON in E. destruct (C_lt m g cs Hcs noflag a c v Hv) as [[_ Lc] _]. unfold nu in E. lia. }
    specialize (Z (nu + 3 * k)%nat). rewrite Ny in Z. unfold on in Z. rewrite Nat.eqb_refl in Z. cbn in Z. lra.
  Qed.

  (** *** one pass, whatever the error accepted *)
  Hypothesis X : exact_solver lsolve.
  Hypothesis PM : Permutation perm (seq 0 (length (sy_dq S))).
  Let Se (e : Q) := mkSys nu P (repeat (Fin 0) nu ++ csdH cs) perm (sp_tol p) e (sp_packing p) (Fin (csZ cs)).
  Lemma xi : forall r c v, In (r, c, v) (sy_P S) -> (r < length (sy_dq S) /\ c < length (sy_dq S))%nat.
  Proof. exact (w_idx m g p K cs HK Hcs noflag). Qed.
  Lemma xr : forall r, fin_row (sy_P S) r \/ dead (sy_P S) r.
  Proof. exact (w_rows m g p K cs HK Hcs noflag). Qed.
  Lemma xd : forall r, (r < length (sy_dq S))%nat -> fin (nth r (sy_dq S) NaN).
  Proof. exact (w_dqfin m g p K cs Hcs). Qed.
  Lemma xl : length (sy_dq S) = n.
  Proof. exact (w_len m g p K cs Hcs). Qed.
  Lemma dq_vec : finite_vec (sy_dq S).
  Proof.
    intros v Hv. apply In_nth_error in Hv. destruct Hv as (r & Hr). assert (L : (r < length (sy_dq S))%nat) by (apply nth_error_Some; congruence).
    pose proof (xd r L) as F. rewrite (nth_error_nth _ _ NaN Hr) in F. exact F.
  Qed.
  Lemma inv_e s e : Inv S s -> Inv (Se e) s.
  Proof. intros I. destruct I. constructor; assumption. Qed.
  Lemma dq_three k i j : nth_error ps k = Some (i, j) ->
    dqr S (nu + 3 * k) == 0 /\ dqr S (nu + (3 * k + 1)) == 0 /\ dqr S (nu + (3 * k + 2)) == 1.
  Proof.
    intros Hk. assert (E : forall t, (t < 3)%nat -> dqr S (nu + (3 * k + t)) = qof (if Nat.eqb t 2 then Fin 1 else Fin 0)).
    { intros t Lt. rewrite <- (dH_at m g cs Hcs k i j t Hk Lt). exact (w_dqb g p K cs (3 * k + t)). }
    pose proof (E 0%nat ltac:(lia)) as E1. rewrite Nat.add_0_r in E1. rewrite E1, (E 1%nat), (E 2%nat) by lia. repeat split; reflexivity.
  Qed.
  Lemma fin_bound s k i j t : reach lsolve S s0 s -> nth_error ps k = Some (i, j) -> (t < 3)%nat -> (t = 1%nat -> i <> j) ->
    exists b, nth_error (st_H S s) (3 * k + t) = Some (Fin b).
  Proof.
    intros R Hk Lt N. destruct (pair_paired m g cs Hcs noflag k i j Hk) as (d & e & Hd & He & _).
    destruct (thick_ex m g cs Hcs i d Hd) as (hi & Ti & _). destruct (thick_ex m g cs Hcs j e He) as (hj & Tj & _).
    destruct (w_bounds lsolve m g p K cs HK Hcs noflag tols lens s R (TR s)) as [_ HB].
    destruct (HB k i j d e hi hj Hk Hd He Ti Tj) as ((b0 & B0 & _) & (b1 & B1 & _ & BF) & (b2 & B2 & _)).
    destruct t as [|[|[|t]]]; [| | |lia].
    - exists b0. rewrite Nat.add_0_r. exact B0.
    - destruct (BF (N eq_refl)) as (x & Ex & _). exists x. rewrite <- Ex. exact B1.
    - exists b2. exact B2.
  Qed.
  Lemma v_three y k i j : nth_error ps k = Some (i, j) ->
    V S y (nu + 3 * k) == disp y i /\ V S y (nu + (3 * k + 1)) == disp y j - disp y i /\ V S y (nu + (3 * k + 2)) == 1 - disp y j.
  Proof.
    intros Hk. destruct (c_rows ps y k i j Hk) as (C0 & C1 & C2). destruct (dq_three k i j Hk) as (D0 & D1 & D2).
    assert (E : forall r, V S y (nu + r) == dqr S (nu + r) - product (c_matrix ps) y r).
    { intros r. unfold V. change (sy_P S) with P. unfold P, nu. rewrite (below_product m g _ _ _ K cs HK Hcs noflag), (csC_eq m g cs Hcs). reflexivity. }
    rewrite !E, D0, D1, D2, C0, C1, C2. split; [ring|]. split; ring.
  Qed.

  Section Advance.
    Variable s : state.
    Hypothesis R : reach lsolve S s0 s.
    Hypothesis RG : regular S s.
    Let y := map qof (dxn lsolve S s).
    Let I := proj1 (ww s R).
    Lemma ad_fin : forall v, In v (answer lsolve S s) -> fin v.
    Proof. exact (proj1 (solved lsolve X S PM dq_vec s (inv_q S s I) RG)). Qed.
    Lemma ad_zero r : act S s r -> V S y r == 0.
    Proof.
      intros A. assert (SZ : sized S s) by (split; [apply (inv_x S s I)|split; [apply (inv_dx S s I)|apply (inv_q S s I)]]).
      assert (FD : finite_vec (st_dx s)).
      { intros v Hv. apply In_nth_error in Hv. destruct Hv as (r' & Hr). assert (L : (r' < length (sy_dq S))%nat) by (rewrite <- (inv_dx S s I); apply nth_error_Some; congruence).
        pose proof (inv_dxf S s I r' L) as F. rewrite (nth_error_nth _ _ NaN Hr) in F. exact F. }
      destruct (increment_solves lsolve S s X PM dq_vec SZ FD RG) as (_ & _ & HS). apply (act_closed s r R) in A. specialize (HS r A).
      unfold V, dqr. change (map qof (dxn lsolve S s)) with (vals (dxn lsolve S s)) in y. unfold y. rewrite HS. ring.
    Qed.
    (** some gap closes *)
    Lemma ad_row : exists r, (r < length (sy_dq S))%nat /\ fin_row (sy_P S) r /\ qfin s r /\ sy_tol S < D S s r /\ 0 < V S y r.
    Proof.
      destruct (some_pair m g cs Hcs noflag) as (k & i & j & Hk). change (nth_error ps k = Some (i, j)) in Hk.
      destruct (v_three y k i j Hk) as (V0 & V1 & V2).
      destruct (pair_lt m g cs Hcs noflag k i j Hk) as (Lk & _). change (k < length ps)%nat in Lk.
      assert (NE : forall t, 0 < V S y (nu + (3 * k + t)) -> t = 1%nat -> i <> j).
      { intros t Vt -> ->. rewrite V1 in Vt. lra. }
      assert (G : forall t, (t < 3)%nat -> 0 < V S y (nu + (3 * k + t)) -> exists r, (r < length (sy_dq S))%nat /\ fin_row (sy_P S) r /\ qfin s r /\ sy_tol S < D S s r /\ 0 < V S y r).
      { intros t Lt Vt. exists (nu + (3 * k + t))%nat. destruct (fin_bound s0 k i j t (reach0 _ _ _) Hk Lt (NE t Vt)) as (b & Hb). destruct (fin_bound s k i j t R Hk Lt (NE t Vt)) as (b' & Hb').
        assert (EH : st_H S s0 = csH cs).
        { unfold st_H. cbn [st_q s0 init_state sy_nu S]. unfold q0. rewrite skipn_app, repeat_length, Nat.sub_diag, skipn_all2 by (rewrite repeat_length; lia). reflexivity. }
        rewrite EH in Hb.
        assert (L : (nu + (3 * k + t) < length (sy_dq S))%nat) by (rewrite xl; unfold n; lia).
        assert (FR : fin_row (sy_P S) (nu + (3 * k + t))) by (apply (below_fin m g _ _ _ K cs HK Hcs noflag); unfold nu; lia).
        assert (Q : qfin s (nu + (3 * k + t))) by (exists b'; exact (proj2 (H_case m g p K cs Hcs s _ _ I Hb'))).
        split; [exact L|]. split; [exact FR|]. split; [exact Q|]. split; [|exact Vt].
        apply Qnot_le_lt. intros C. assert (A : act S s (nu + (3 * k + t))).
        { apply (af s _ R). split; [exact L|]. split; [exact FR|]. split; [exact Q|]. split; [exact C|]. exact (below_col m g p K cs HK Hcs noflag _ _ Hb). }
        rewrite (ad_zero _ A) in Vt. lra. }
      destruct (Qlt_le_dec 0 (V S y (nu + (3 * k + 0)))) as [L0|L0]; [apply (G 0%nat); [lia|exact L0]|].
      destruct (Qlt_le_dec 0 (V S y (nu + (3 * k + 1)))) as [L1|L1]; [apply (G 1%nat); [lia|exact L1]|].
      destruct (Qlt_le_dec 0 (V S y (nu + (3 * k + 2)))) as [L2|L2]; [apply (G 2%nat); [lia|exact L2]|].
      exfalso. rewrite Nat.add_0_r in L0. lra.
    Qed.
    Lemma ad_error : exists e, error2 S (active S (gaps (sy_P S) (st_x s) (st_q s))) (dxn lsolve S s) = Fin e /\ e == 0.
    Proof.
      set (mask := active S (gaps (sy_P S) (st_x s) (st_q s))).
      unfold error2. cbv zeta. set (PMm := filter _ (sy_P S)). set (rs := filter _ (seq 0 (length mask))).
      assert (AR : forall r, In r rs -> act S s r) by (intros r Hr; apply filter_In in Hr; exact (proj2 Hr)).
      assert (EM : forall r, In r rs -> matvec PMm (dxn lsolve S s) r = Fin (product PMm y r)).
      { intros r Hr. pose proof (AR r Hr) as A. apply (af s r R) in A. destruct A as (L & HR & _). apply (matvec_fin PMm (length (sy_dq S))).
        - intros r' c w Hw. apply filter_In in Hw. apply (xi r' c w). apply Hw.
        - apply (dxn_length lsolve S s I).
        - apply (dxn_fin lsolve S lens s I ad_fin).
        - intros c w Hw. apply filter_In in Hw. eapply HR. apply Hw. }
      assert (EP : forall r, In r rs -> product PMm y r == product (sy_P S) y r).
      { intros r Hr. apply filter_In in Hr. destruct Hr as [_ Hr]. apply product_filter; auto.
        intros c E. apply (y_zero lsolve S lens s I). unfold act. fold mask. rewrite E. discriminate. }
      exists (qsum (map (fun r => (product PMm y r + - dqr S r) * (product PMm y r + - dqr S r)) rs)). split.
      - rewrite nsum_fin.
        + f_equal. rewrite map_map. f_equal. apply map_ext_in. intros r Hr. cbv zeta. rewrite (EM r Hr).
          destruct (xd r (proj1 (proj1 (af s r R) (AR r Hr)))) as (b & Eb). unfold dqr. rewrite Eb. reflexivity.
        + intros w Hw. apply in_map_iff in Hw. destruct Hw as (r & <- & Hr). cbv zeta. rewrite (EM r Hr).
          destruct (xd r (proj1 (proj1 (af s r R) (AR r Hr)))) as (b & Eb). rewrite Eb. eexists. reflexivity.
      - apply qsum_zeros. intros w Hw. apply in_map_iff in Hw. destruct Hw as (r & <- & Hr). pose proof (ad_zero r (AR r Hr)) as Z.
        rewrite (EP r Hr). unfold V in Z. assert (E : product (sy_P S) y r + - dqr S r == 0) by lra. rewrite E. ring.
    Qed.
    Lemma ad_step : exists s', (exists e, st_err2 s' = Fin e /\ e == 0) /\ forall e, 0 <= e -> step lsolve (Se e) s = Some s'.
    Proof.
      destruct ad_row as (r & L & FR & Q & DT & VP). destruct ad_error as (e & Ee & Ze).
      pose proof (ratio_of lsolve S xi xr xd lens s I ad_fin r L FR Q DT VP) as RA.
      destruct (py_min (ratios S (gaps (sy_P S) (st_x s) (st_q s)) (gaps (sy_P S) (dxn lsolve S s) (sy_dq S)))) as [mm|] eqn:EM.
      2:{ destruct (ratios S _ _); [destruct RA|discriminate EM]. }
      set (mv := fun l dl => map (fun q => nadd (fst q) (nmul (snd q) (nopp mm))) (combine l dl)).
      exists (mkState (mv (st_x s) (dxn lsolve S s)) (mv (st_q s) (sy_dq S)) (dxn lsolve S s) (nadd (st_Z s) (nopp mm)) (ndiv (sy_Z0 S) (nadd (st_Z s) (nopp mm)))
        (active S (gaps (sy_P S) (st_x s) (st_q s))) (Fin e)).
      split; [|intros e' He].
      2:{ unfold step. change (increment lsolve (Se e') s (active (Se e') (gaps (sy_P (Se e')) (st_x s) (st_q s)))) with (dxn lsolve S s).
          change (ratios (Se e')) with (ratios S). change (sy_P (Se e')) with (sy_P S). change (sy_dq (Se e')) with (sy_dq S). change (active (Se e')) with (active S). change (error2 (Se e')) with (error2 S).
          cbv zeta. rewrite EM, Ee. assert (EG : err_gt (Fin e) (sy_errtol (Se e')) = false).
          { change (sy_errtol (Se e')) with e'. unfold err_gt. destruct (Qltb e' 0) eqn:EL; qb; [lra|]. simpl. destruct (Qltb (sq e') e) eqn:EQ; auto. qb. assert (0 <= sq e') by apply sq_pos. lra. }
          rewrite EG. reflexivity. }
      cbn. exists e. auto.
    Qed.
  End Advance.

  (** *** columns without void *)
  Hypothesis NC : covered S.
  Hypothesis DS : finite_answers lsolve \/ finite_or_nan lsolve.
  Lemma nan_none s e : reach lsolve S s0 s -> (forall v, In v (answer lsolve S s) -> v = NaN) -> step lsolve (Se e) s = None.
  Proof.
    intros R F. destruct (ww s R) as (I & _ & HQ & HB). destruct NC as [C1 C2].
    assert (SL : slack S s0 s) by (left; exact E0). pose proof (drift_zero S s0 s E0) as DZ.
    assert (T0 : 0 <= sy_tol S) by apply (proj1 tols).
    apply (step_nan lsolve (Se e) xi lens s (inv_e s e I) F).
    intros r gp Hg T. change (gaps (sy_P (Se e))) with (gaps (sy_P S)) in Hg. change (sy_tol (Se e)) with (sy_tol S) in T.
    assert (L : (r < length (sy_dq S))%nat).
    { assert (r < length (gaps (sy_P S) (st_x s) (st_q s)))%nat by (apply nth_error_Some; congruence).
      rewrite gaps_length, (inv_q S s I) in *. assumption. }
    destruct (Nat.lt_ge_cases r nu) as [Lr|Lr].
    - exfalso. assert (Q0 : qfin s r) by (apply HQ; auto; apply (w_kq0 g p K cs); exact Lr).
      destruct (gap_case S xi xr s r I L) as [(HR & Q & E)|[(_ & Q & _)|(_ & E)]].
      + rewrite Hg in E. injection E as ->. simpl in T. qb. destruct (HB SL r Lr HR Q) as [_ B]. change (sy_tol S) with (sp_tol p) in *. lra.
      + destruct Q0 as (b & Eb). rewrite Eb in Q. discriminate Q.
      + rewrite Hg in E. injection E as ->. discriminate T.
    - destruct (C2 r (conj Lr L)) as (c & v & Hv & Lc & HR & CS). exists c, v. split; [exact Hv|].
      assert (Lc' : (c < length (sy_dq S))%nat) by (apply (w_above m g p K cs Hcs); exact Lc).
      split; [|apply C1; exact Lc']. exact (wbal s c R Lc HR CS).
  Qed.
  Lemma blocked s e : reach lsolve S s0 s -> 0 <= e -> 3 * e < 1 -> compressed m g (sp_tol p) (u s) (z s) -> step lsolve (Se e) s = None.
  Proof.
    intros R He E3 (i & j & d & e' & HP & HF & HL' & HT). destruct (paired_pair m g cs Hcs noflag i j d e' HP) as (k & Hk). change (nth_error ps k = Some (i, j)) in Hk.
    destruct (rows_three s R k i j d e' Hk HP) as (R0 & R1 & R2). apply R0 in HF. apply R2 in HL'.
    pose proof (proj1 (ww s R)) as I.
    assert (FN : (forall v, In v (answer lsolve S s) -> fin v) \/ (forall v, In v (answer lsolve S s) -> v = NaN)).
    { destruct DS as [FA|FA]; [left; intros v Hv; eapply FA; exact Hv|apply FA]. }
    destruct FN as [FA|FA]; [|apply nan_none; auto].
    destruct (step lsolve (Se e) s) as [s'|] eqn:Es; auto. exfalso.
    destruct (step_fin lsolve (Se e) xi xr xd lens s (inv_e s e I) FA s' Es) as (t & M & _).
    destruct M as (_ & _ & _ & _ & _ & _ & _ & _ & HV & _). change (sy_errtol (Se e)) with e in HV. change (act (Se e)) with (act S) in HV. change (V (Se e)) with (V S) in HV. change (dxn lsolve (Se e) s) with (dxn lsolve S s) in HV.
    destruct (v_three (map qof (dxn lsolve S s)) k i j Hk) as (V0 & V1 & V2).
    pose proof (proj2 (HV _ HF)) as B0. pose proof (proj2 (HV _ HL')) as B2. rewrite V0 in B0. rewrite V2 in B2.
    destruct (Nat.eq_dec i j) as [E|N]; [subst j; lra|]. destruct HT as [E|HT]; [contradiction|].
    assert (A1 : act S s (nu + (3 * k + 1))) by (apply R1; auto). pose proof (proj2 (HV _ A1)) as B1. rewrite V1 in B1. lra.
  Qed.
  Lemma compressed_dec s : reach lsolve S s0 s -> compressed m g (sp_tol p) (u s) (z s) \/ ~ compressed m g (sp_tol p) (u s) (z s).
  Proof.
    intros R. set (f := fun k => match nth_error ps k with Some (i, j) => 
      nth (nu + 3 * k) (active S (gaps (sy_P S) (st_x s) (st_q s))) false && nth (nu + (3 * k + 2)) (active S (gaps (sy_P S) (st_x s) (st_q s))) false &&
      (Nat.eqb i j || nth (nu + (3 * k + 1)) (active S (gaps (sy_P S) (st_x s) (st_q s))) false) | None => false end).
    destruct (existsb f (seq 0 (length ps))) eqn:E.
    - left. apply existsb_exists in E. destruct E as (k & _ & Hf). unfold f in Hf. destruct (nth_error ps k) as [[i j]|] eqn:Hk; [|discriminate Hf].
      destruct (pair_paired m g cs Hcs noflag k i j Hk) as (d & e & HP). destruct (rows_three s R k i j d e Hk HP) as (R0 & R1 & R2).
      apply andb_true_iff in Hf. destruct Hf as [Hf H1]. apply andb_true_iff in Hf. destruct Hf as [H0 H2].
      exists i, j, d, e. split; [exact HP|]. split; [apply R0; exact H0|]. split; [apply R2; exact H2|].
      apply orb_true_iff in H1. destruct H1 as [H1|H1]; [left; apply Nat.eqb_eq; auto|right; apply R1; exact H1].
    - right. intros (i & j & d & e & HP & HF & HL' & HT). destruct (paired_pair m g cs Hcs noflag i j d e HP) as (k & Hk). change (nth_error ps k = Some (i, j)) in Hk.
      destruct (rows_three s R k i j d e Hk HP) as (R0 & R1 & R2).
      assert (C : existsb f (seq 0 (length ps)) = true); [|congruence]. apply existsb_exists. exists k.
      split; [apply in_seq; split; [lia|]; apply nth_error_Some; congruence|]. unfold f. rewrite Hk.
      apply andb_true_iff. split; [apply andb_true_iff; split; [apply R0; exact HF|apply R2; exact HL']|].
      apply orb_true_iff. destruct (Nat.eq_dec i j) as [Ei|N]; [left; apply Nat.eqb_eq; auto|right]. destruct HT as [Ei|HT]; [contradiction|]. apply R1. auto.
  Qed.

  (** *** what holds the fibers keeps holding them *)
  Lemma kept s s' : reach lsolve S s0 s -> nltb (st_rl s) (sy_packing S) = true -> step lsolve S s = Some s' -> forall r, act S s (nu + r) -> act S s' (nu + r).
  Proof.
    intros R RL Es r A. assert (R' : reach lsolve S s0 s') by (eapply reachS; eauto).
    apply (ag s r R) in A. destruct A as (q & G & L). apply (ag s' r R'). exists q. split; [|exact L].
    exact (api_contact lsolve m g p K cs HK Hcs noflag tols lens s s' R Es (TR s') RL E0 r q G L).
  Qed.
  Lemma held_kept s s' fb : reach lsolve S s0 s -> nltb (st_rl s) (sy_packing S) = true -> step lsolve S s = Some s' ->
    held m g (sp_tol p) (u s) (z s) fb -> held m g (sp_tol p) (u s') (z s') fb.
  Proof.
    intros R RL Es. assert (R' : reach lsolve S s0 s') by (eapply reachS; eauto).
    assert (K3 : forall i j d e, paired g i j d e -> (on_floor m (sp_tol p) (u s) i d -> on_floor m (sp_tol p) (u s') i d) /\
      (on_lid m (sp_tol p) (u s) (z s) j e -> on_lid m (sp_tol p) (u s') (z s') j e) /\
      (i <> j -> touching m (sp_tol p) (u s) i j d e -> touching m (sp_tol p) (u s') i j d e)).
    { intros i j d e HP. destruct (paired_pair m g cs Hcs noflag i j d e HP) as (k & Hk).
      destruct (rows_three s R k i j d e Hk HP) as (R0 & R1 & R2). destruct (rows_three s' R' k i j d e Hk HP) as (R0' & R1' & R2').
      split; [|split].
      - rewrite <- R0, <- R0'. apply kept; auto.
      - rewrite <- R2, <- R2'. apply kept; auto.
      - intros N T. apply R1'. apply (kept s s' R RL Es). apply R1. auto. }
    induction 1 as [i j d e HP H|i j d e HP H|i j d e HP N H _ IH|i j d e HP N H _ IH]; destruct (K3 i j d e HP) as (K0 & K2 & K1).
    - apply (held_floor m g _ _ _ i j d e HP). auto.
    - apply (held_lid m g _ _ _ i j d e HP). auto.
    - apply (held_below m g _ _ _ i j d e HP N); auto.
    - apply (held_above m g _ _ _ i j d e HP N); auto.
  Qed.
  Hypothesis H0 : all_held m g (sp_tol p) [] (csZ cs).
  Lemma held_all s : reach lsolve S s0 s -> all_held m g (sp_tol p) (u s) (z s).
  Proof.
    induction 1 as [|s s' R IH RL Es].
    - intros i d Hd. apply (held_ext m g (sp_tol p) [] (u s0) (csZ cs)); [|apply (H0 i d Hd)].
      intros j. unfold disp, u, vals. rewrite nth_qof.
      assert (ER : nth (2 * j) (@nil Q) 0 = 0) by (destruct (2 * j)%nat; reflexivity). rewrite ER.
      rewrite nth_of. unfold st_u, s0, init_state. cbn [st_x]. rewrite firstn_map, nth_error_map. destruct (nth_error _ _); reflexivity.
    - intros i d Hd. apply (held_kept s s' _ R RL Es). apply (IH i d Hd).
  Qed.
  (** each pass goes on, or a column has no void *)
  Lemma advance s : reach lsolve S s0 s -> 
    (compressed m g (sp_tol p) (u s) (z s) /\ forall e, 0 <= e -> 3 * e < 1 -> step lsolve (Se e) s = None) \/
    (~ compressed m g (sp_tol p) (u s) (z s) /\ regular S s /\
     exists s', (exists q, st_err2 s' = Fin q /\ q == 0) /\ forall e, 0 <= e -> step lsolve (Se e) s = Some s').
  Proof.
    intros R. destruct (compressed_dec s R) as [C|C].
    - left. split; auto. intros e He E3. apply blocked; auto.
    - right. split; auto. pose proof (posed s R (held_all s R) C) as RG. split; auto. apply ad_step; auto.
  Qed.

  Lemma run_same e : 0 <= e -> 3 * e < 1 -> forall fuel s, reach lsolve S s0 s -> run lsolve (Se e) fuel s = run lsolve S fuel s.
  Proof.
    intros He E3. induction fuel as [|fuel IH]; intros s R; [reflexivity|]. cbn [run].
    change (sy_packing (Se e)) with (sy_packing S). destruct (nltb (st_rl s) (sy_packing S)) eqn:RL; [|reflexivity].
    assert (Z1 : 0 <= sp_errtol p) by lra. assert (Z2 : 3 * sp_errtol p < 1) by lra.
    destruct (advance s R) as [(_ & N)|(_ & _ & s' & _ & Hs)].
    - rewrite (N e He E3), (N _ Z1 Z2 : step lsolve S s = None). reflexivity.
    - rewrite (Hs e He), (Hs _ Z1 : step lsolve S s = Some s'). f_equal. apply IH. exact (reachS lsolve S s0 s s' R RL (Hs _ Z1)).
  Qed.
  Lemma run_stops : forall fuel s, reach lsolve S s0 s -> let h := s :: run lsolve S fuel s in
    forall t, nth_error h (length h - 1) = Some t -> (length h <= fuel)%nat ->
      nltb (st_rl t) (sp_packing p) = false \/ compressed m g (sp_tol p) (u t) (z t).
  Proof.
    assert (Z1 : 0 <= sp_errtol p) by lra.
    induction fuel as [|fuel IH]; intros s R h t Ht L; [simpl in L; lia|]. subst h. cbn [run] in *.
    destruct (nltb (st_rl s) (sy_packing S)) eqn:RL; [|injection Ht as <-; left; exact RL].
    destruct (step lsolve S s) as [s'|] eqn:Es.
    - cbn [length] in *. apply (IH s'); [eapply reachS; eauto| |cbn [length]; lia].
      cbn [length]. replace (Datatypes.S (Datatypes.S (length (run lsolve S fuel s'))) - 1)%nat with (Datatypes.S (length (run lsolve S fuel s'))) in Ht by lia.
      replace (Datatypes.S (length (run lsolve S fuel s')) - 1)%nat with (length (run lsolve S fuel s')) by lia. exact Ht.
    - injection Ht as <-. right. destruct (advance s R) as [(C & _)|(_ & _ & s' & _ & Hs)]; [exact C|].
      rewrite (Hs _ Z1 : step lsolve S s = Some s') in Es. discriminate Es.
  Qed.
  Lemma run_blocked : forall fuel s, reach lsolve S s0 s -> let h := s :: run lsolve S fuel s in
    forall k t, nth_error h k = Some t -> compressed m g (sp_tol p) (u t) (z t) -> (Datatypes.S k = length h)%nat.
  Proof.
    assert (Z1 : 0 <= sp_errtol p) by lra. assert (Z2 : 3 * sp_errtol p < 1) by lra.
    induction fuel as [|fuel IH]; intros s R h k t Ht C; subst h; cbn [run] in *.
    - destruct k as [|[|k]]; [reflexivity|discriminate Ht..].
    - destruct k as [|k].
      + injection Ht as ->. destruct (nltb (st_rl t) (sy_packing S)); [|reflexivity].
        rewrite (blocked t _ R Z1 Z2 C : step lsolve S t = None). reflexivity.
      + destruct (nltb (st_rl s) (sy_packing S)) eqn:RL; [|destruct k; discriminate Ht].
        destruct (step lsolve S s) as [s'|] eqn:Es; [|destruct k; discriminate Ht].
        cbn [length]. f_equal. apply (IH s' ltac:(eapply reachS; eauto) k t Ht C).
  Qed.
  Lemma reach_err s : reach lsolve S s0 s -> exists q, st_err2 s = Fin q /\ q == 0.
  Proof.
    assert (Z1 : 0 <= sp_errtol p) by lra.
    intros R. destruct R as [|s s' R RL Es]; [exists 0; split; reflexivity|].
    destruct (advance s R) as [(_ & N)|(_ & _ & s2 & H2 & Hs)].
    - assert (Z2 : 3 * sp_errtol p < 1) by lra. rewrite (N _ Z1 Z2 : step lsolve S s = None) in Es. discriminate Es.
    - rewrite (Hs _ Z1 : step lsolve S s = Some s2) in Es. injection Es as <-. exact H2.
  Qed.
End Posed.

(** *** the call *)
Section Call.
  Variable lsolve : ncoo -> list num -> list num.
  Variable m : qmat.
  Variable g : mesh_df.
  Variable p : solve_params.
  Variable S : sysdata.
  Variable h : list state.
  Hypothesis DS : direct_solver lsolve.
  Hypothesis SD : sound_data m g p.
  Hypothesis NU : numbering (length (sy_dq S)) (sp_perm p).
  Hypothesis H0 : starts_held m g (sp_tol p).
  Hypothesis HS : solve lsolve m g p = Ok (S, h).
  Lemma call_facts2 : exists S0, solve lsolve m g (strict p) = Ok (S0, h) /\
    S0 = mkSys (sy_nu S) (sy_P S) (sy_dq S) (sy_perm S) (sy_tol S) 0 (sy_packing S) (sy_Z0 S) /\ sy_tol S = sp_tol p /\ sy_packing S = sp_packing p /\
    (forall k s, nth_error h k = Some s -> reliable lsolve m g (strict p) S0 s /\ held_at m g S s /\ (exists q, st_err2 s = Fin q /\ q == 0) /\
       ((compressed_at m g S s /\ ~ regular S s /\ Datatypes.S k = length h) \/ (~ compressed_at m g S s /\ regular S s))) /\
    (forall s, nth_error h (length h - 1) = Some s -> (length h <= sp_itermax p)%nat -> nltb (st_rl s) (sp_packing p) = false \/ compressed_at m g S s).
  Proof.
    destruct DS as (DL & DX & DA). destruct SD as (noflag & tols & E3 & HC & HL & HG).
    destruct (call_facts lsolve m g p S h HS NU) as (PM & _).
    destruct (solve_inv _ _ _ _ _ _ HS) as (K & cs & HK & Hcs & ES & EH). cbv zeta in ES, EH.
    set (nu := (2 * length (g_rows g))%nat) in *. set (P := bmat nu K (csC cs)) in *. set (q0 := repeat (Fin 0) nu ++ csH cs) in *.
    set (s0 := init_state P q0 (sp_tol p) (Fin (csZ cs))) in *.
    set (perm := match sp_perm p with Some l => l | None => seq 0 (length q0) end) in *.
    set (S0 := mkSys nu P (repeat (Fin 0) nu ++ csdH cs) perm (sp_tol p) 0 (sp_packing p) (Fin (csZ cs))).
    set (p0 := strict p).
    assert (tols0 : tolerances_ok p0) by (destruct tols; split; [assumption|apply Qle_refl]).
    assert (PC : perm_complete S0).
    { intros r L. rewrite ES in PM. apply (Permutation_in _ (Permutation_sym PM)). apply in_seq. split; [lia|]. exact L. }
    assert (TR : forall s, trusted lsolve m g p0 K cs s).
    { intros s. destruct DA as [DA|DA]; [left; exact DA|right]. split; [exact DA|]. split; [exact PC|]. split; [exact HL|]. split; [exact HG|]. left. reflexivity. }
    assert (PM0 : Permutation perm (seq 0 (length (sy_dq S0)))) by (rewrite ES in PM; exact PM).
    assert (NC : covered S0) by exact (w_covered m g p0 K cs HK Hcs noflag PC HL HG).
    assert (HZ : all_held m g (sp_tol p0) [] (csZ cs)) by (apply H0; apply (top_spec m g cs Hcs)).
    assert (EQ0 : sp_errtol p0 == 0) by reflexivity.
    pose proof (run_same lsolve m g p0 K cs HK Hcs noflag tols0 DL HL HG HC EQ0 PC TR DX PM0 NC DA HZ (sp_errtol p) (proj2 tols) E3 (sp_itermax p) s0 (reach0 _ _ _)) as RS.
    change (run lsolve (mkSys nu P (repeat (Fin 0) nu ++ csdH cs) perm (sp_tol p) (sp_errtol p) (sp_packing p) (Fin (csZ cs))) (sp_itermax p) s0 = run lsolve S0 (sp_itermax p) s0) in RS.
    rewrite <- ES in RS.
    assert (EH0 : h = history lsolve S0 (sp_itermax p) s0) by (rewrite EH; unfold history; rewrite RS; reflexivity).
    assert (ES0 : S0 = mkSys (sy_nu S) (sy_P S) (sy_dq S) (sy_perm S) (sy_tol S) 0 (sy_packing S) (sy_Z0 S)) by (rewrite ES; reflexivity).
    exists S0. split; [|split; [exact ES0|split; [rewrite ES; reflexivity|split; [rewrite ES; reflexivity|split]]]].
    - rewrite EH0. unfold solve, assemble, p0, strict. cbn [sp_lmin sp_lmax sp_coupling sp_perm sp_tol sp_errtol sp_packing sp_itermax]. rewrite HK, Hcs. reflexivity.
    - intros k s Hk. pose proof Hk as Hk'. rewrite EH0 in Hk'.
      pose proof (reachn_reach lsolve S0 s0 _ _ (history_nth lsolve S0 s0 (w_nun m g p0 K cs Hcs) _ _ _ Hk')) as R.
      split; [split; [exact DL|exact (TR s)]|].
      assert (EC : compressed_at m g S s <-> compressed m g (sp_tol p0) (vals (st_u S0 s)) (qof (st_Z s))) by (rewrite ES; reflexivity).
      split; [|split].
      + pose proof (held_all lsolve m g p0 K cs HK Hcs noflag tols0 DL EQ0 TR HZ s R) as HH. rewrite ES. exact HH.
      + exact (reach_err lsolve m g p0 K cs HK Hcs noflag tols0 DL HL HG HC EQ0 PC TR DX PM0 NC DA HZ s R).
      + rewrite EC. destruct (advance lsolve m g p0 K cs HK Hcs noflag tols0 DL HL HG HC EQ0 PC TR DX PM0 NC DA HZ s R) as [(C & _)|(C & RG & _)].
        * left. split; [exact C|]. split.
          { intros RG. apply (stuck lsolve m g p0 K cs HK Hcs noflag tols0 DL TR s R C). rewrite ES in RG. destruct RG as [RA RB]. split; [exact RA|exact RB]. }
          rewrite EH0. exact (run_blocked lsolve m g p0 K cs HK Hcs noflag tols0 DL EQ0 TR NC DA (sp_itermax p) s0 (reach0 _ _ _) k s Hk' C).
        * right. split; [exact C|]. rewrite ES. destruct RG as [RA RB]. split; [exact RA|exact RB].
    - intros s Hk L. assert (EC : compressed_at m g S s <-> compressed m g (sp_tol p0) (vals (st_u S0 s)) (qof (st_Z s))) by (rewrite ES; reflexivity).
      rewrite EC. rewrite EH0 in Hk, L.
      exact (run_stops lsolve m g p0 K cs HK Hcs noflag tols0 DL HL HG HC EQ0 PC TR DX PM0 NC DA HZ (sp_itermax p) s0 (reach0 _ _ _) s Hk L).
  Qed.
End Call.
