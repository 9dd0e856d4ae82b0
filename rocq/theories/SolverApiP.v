(** Statements about solve. *)
From Coq Require Import String Permutation.
From Verif Require Import Num NumP ListX ListP Frames MatM NetM MeshM ModelM SolverM Spec SpecNet SpecMesh SpecModel SpecSolver
  MeshCheckP NetP StackP StiffP StiffLimP StiffLenP ConstraintP SolverP SolverRunP SolverSysP.
Open Scope Q_scope.

(** displacement rows of K *)
Lemma block_even c i j f l k v : (i < j)%nat -> In ((2 * k)%nat, (2 * k)%nat, v) (block c i j f l) -> v = k0_of f l.
Proof.
  intros L H. unfold block in H. cbv zeta in H.
  repeat (destruct H as [H|H]; [injection H as H1 H2 H3; first [symmetry; exact H3|exfalso; lia]|]). destruct H.
Qed.
Lemma block_opposite c i j f l u : (i < j)%nat ->
  product (block c i j f l) u (2 * i) + product (block c i j f l) u (2 * j) == 0 /\
  forall k, k <> i -> k <> j -> product (block c i j f l) u (2 * k) == 0.
Proof.
  intros L. assert (O : forall x, qof (nopp x) == - qof x) by (intros []; simpl; ring).
  split.
  - unfold product, block. cbv zeta. cbn [map qsum].
    repeat match goal with |- context [Nat.eqb ?a ?b] =>
      first [replace (Nat.eqb a b) with true by (symmetry; apply Nat.eqb_eq; lia)
            |replace (Nat.eqb a b) with false by (symmetry; apply Nat.eqb_neq; lia)] end.
    rewrite !O. ring.
  - intros k Ni Nj. apply product_zero. intros x v H. unfold block in H. cbv zeta in H.
    repeat (destruct H as [H|H]; [injection H as H1 H2 H3; exfalso; lia|]). destruct H.
Qed.

Section Stiff.
  Variable m : qmat.
  Variable g : mesh_df.
  Variables lmin lmax : option Q.
  Variable c : Q.
  Variable K : ncoo.
  Hypothesis HK : stiffness m g lmin lmax c = Ok K.
  Hypothesis noflag : ~ flag_set (g_attrs g).
  Lemma part_lt p : In p (parts m g lmin lmax) -> exists d d', beam_element g (ei (fst p)) (ej (fst p)) d d' /\ nf d = nf d'.
  Proof.
    intros Hp. destruct (part_elem m g lmin lmax p Hp) as [He _].
    destruct (element_inv m g lmin lmax c K HK noflag _ He) as (i & j & d & d' & HB & EF & <- & <- & _). eauto.
  Qed.
  Lemma disp_row i : lengths_ok g lmin lmax -> finite_shear m -> fin_row K (2 * i).
  Proof.
    intros HL HG. destruct (K_rows m g lmin lmax c K HK noflag (2 * i)) as [H|(v & Hv & N)]; auto. exfalso. apply N. clear N.
    rewrite (K_parts m g lmin lmax c K HK noflag) in Hv. apply in_flat_map in Hv. destruct Hv as (p & Hp & Hv).
    destruct (part_lt p Hp) as (d & d' & (_ & _ & L & _) & _). apply block_even in Hv; auto. subst v.
    destruct (part_elem m g lmin lmax p Hp) as [He Hl]. pose proof (fiber_facts m g lmin lmax c K HK noflag _ He) as Hf.
    destruct (HG _ Hf) as (G & EG).
    destruct (valid_fiber m (proj1 (stiff_inv m g lmin lmax c K HK noflag)) _ Hf) as (_ & Hb & Hh & _ & _ & _ & PG & PE).
    pose proof (lens_pos m g lmin lmax c K HK noflag HL _ Hl) as Pl. rewrite EG in PG. simpl in PG.
    destruct (qE (ef (fst p))) as [E| | |] eqn:EE; simpl in PE; try contradiction.
    - eexists. apply (k0_fin _ G E _ EG EE PG PE Pl Hh).
    - eexists. apply (k0_inf _ G _ EG EE Pl Hh).
  Qed.

  (** forces of the elements cancel out on sets of nodes that contain both nodes of each element or none *)
  Lemma stiff_sum u (p : nat -> bool) : (forall q, In q (parts m g lmin lmax) -> p (ei (fst q)) = p (ej (fst q))) ->
    qsum (map (fun i => product K u (2 * i)) (filter p (seq 0 (length (g_rows g))))) == 0.
  Proof.
    intros HP. rewrite (K_parts m g lmin lmax c K HK noflag).
    assert (HB : forall q, In q (parts m g lmin lmax) -> (ei (fst q) < ej (fst q) /\ ej (fst q) < length (g_rows g))%nat).
    { intros q Hq. destruct (part_lt q Hq) as (d & d' & (H1 & H2 & L & _) & _). split; auto. eapply node_lt; eauto. }
    induction (parts m g lmin lmax) as [|q l IH]; cbn [flat_map].
    - apply qsum_zeros. intros z Hz. apply in_map_iff in Hz. destruct Hz as (i & <- & _). reflexivity.
    - set (F := fun i : nat => product (block c (ei (fst q)) (ej (fst q)) (ef (fst q)) (snd q)) u (2 * i)).
      transitivity (qsum (map (fun i => F i + product (flat_map (fun e : elem * Q => block c (ei (fst e)) (ej (fst e)) (ef (fst e)) (snd e)) l) u (2 * i))
        (filter p (seq 0 (length (g_rows g)))))).
      { apply qsum_ext. intros i _. apply product_app. }
      rewrite qsum_plus, IH; [|intros; apply HP; right; auto|intros; apply HB; right; auto].
      destruct (HB q (or_introl eq_refl)) as [L1 L2]. specialize (HP q (or_introl eq_refl)).
      destruct (block_opposite c (ei (fst q)) (ej (fst q)) (ef (fst q)) (snd q) u L1) as [B1 B2].
      fold (F (ei (fst q))) (F (ej (fst q))) in B1.
      destruct (p (ei (fst q))) eqn:Pi.
      + rewrite sum_filter.
        * transitivity (qsum (map (fun i => (if Nat.eqb (ei (fst q)) i then F i else 0) + (if Nat.eqb (ej (fst q)) i then F i else 0)) (seq 0 (length (g_rows g)))) + 0).
          -- apply Qplus_comp; [|reflexivity]. apply qsum_ext. intros i _.
             destruct (Nat.eqb_spec (ei (fst q)) i); destruct (Nat.eqb_spec (ej (fst q)) i); subst; try lia; try ring.
             assert (Fz : F i == 0) by (apply B2; congruence). rewrite Fz. ring.
          -- rewrite qsum_plus, !qsum_pick by lia. rewrite B1. reflexivity.
        * intros i _ Pf. apply B2; intros ->; congruence.
      + rewrite Qplus_0_r. apply qsum_zeros. intros z Hz. apply in_map_iff in Hz. destruct Hz as (i & <- & Hi).
        apply filter_In in Hi. destruct Hi as [_ Pt]. apply B2; intros ->; congruence.
  Qed.
End Stiff.

(** C^T f on x = (u, f) *)
Lemma nth_skipn {A} (l : list A) k i d : nth i (skipn k l) d = nth (k + i) l d.
Proof. revert l. induction k; intros [|a l]; simpl; auto. destruct i; auto. Qed.
Lemma nth_firstn {A} (l : list A) k i d : (i < k)%nat -> nth i (firstn k l) d = nth i l d.
Proof. revert l i. induction k; intros [|a l] [|i] L; simpl; auto; try lia. apply IHk. lia. Qed.
Lemma upper_product nu C x r : product (upper nu C) x r == transpose_product C (skipn nu x) r.
Proof.
  unfold product, transpose_product, upper. rewrite map_map. apply qsum_ext. intros [[i c] v] _.
  destruct (Nat.eqb c r); [rewrite nth_skipn|]; reflexivity.
Qed.
Lemma firstn_product nu K x r : (forall i c v, In (i, c, v) K -> (c < nu)%nat) -> product K x r == product K (firstn nu x) r.
Proof.
  intros H. unfold product. apply qsum_ext. intros [[i c] v] Hi. destruct (Nat.eqb i r); [rewrite nth_firstn; [reflexivity|eapply H; eauto]|reflexivity].
Qed.
Lemma transpose_total C f N : (forall i c v, In (i, c, v) C -> exists k, c = (2 * k)%nat /\ (k < N)%nat) ->
  qsum (map (fun i => transpose_product C f (2 * i)) (seq 0 N)) == qsum (map (fun e => let '(i, c, v) := e in qof v * nth i f 0) C).
Proof.
  induction C as [|[[i c] v] C IH]; intros H; cbn [map qsum].
  - apply qsum_zeros. intros z Hz. apply in_map_iff in Hz. destruct Hz as (k & <- & _). reflexivity.
  - rewrite <- IH by (intros; eapply H; right; eauto). destruct (H i c v (or_introl eq_refl)) as (k & -> & L).
    rewrite <- (qsum_pick (fun _ => qof v * nth i f 0) k N 0) by lia. rewrite <- qsum_plus. apply qsum_ext. intros j _.
    unfold transpose_product. cbn [map qsum].
    destruct (Nat.eqb_spec (2 * k) (2 * j)); destruct (Nat.eqb_spec k j); try lia; reflexivity.
Qed.
Lemma combine_fst_seq {A} (l : list A) a : map fst (combine (seq a (length l)) l) = seq a (length l).
Proof. revert a. induction l; intros a0; simpl; f_equal; auto. Qed.
Lemma c_total ps f : qsum (map (fun e : nat * nat * num => let '(i, c, v) := e in qof v * nth i f 0) (c_matrix ps)) ==
  lid_force f (length ps) - floor_force f (length ps).
Proof.
  unfold c_matrix, lid_force, floor_force. rewrite !map_app, !qsum_app, !map_map. cbn [qof].
  set (k := combine (seq 0 (length ps)) ps).
  assert (E : forall (F : nat -> Q) (G : nat * (nat * nat) -> Q), (forall e, G e == F (fst e)) ->
    qsum (map G k) == qsum (map F (seq 0 (length ps)))).
  { intros F G H. rewrite <- (combine_fst_seq ps 0). fold k. rewrite map_map. apply qsum_ext. intros e _. apply H. }
  rewrite (E (fun j => - nth (3 * j) f 0)), (E (fun j => nth (3 * j + 1) f 0)), (E (fun j => - nth (3 * j + 1) f 0)), (E (fun j => nth (3 * j + 2) f 0))
    by (intros e; ring).
  assert (N : forall (F : nat -> Q) l, qsum (map (fun j => - F j) l) == - qsum (map F l)).
  { intros F l. induction l; simpl; [ring|]. rewrite IHl. ring. }
  rewrite !N. ring.
Qed.

(** ** States of a run *)
Section Api.
  Variable lsolve : ncoo -> list num -> list num.
  Variable m : qmat.
  Variable g : mesh_df.
  Variable p : solve_params.
  Variable K : ncoo.
  Variable cs : csys.
  Hypothesis HK : stiffness m g (sp_lmin p) (sp_lmax p) (sp_coupling p) = Ok K.
  Hypothesis Hcs : constraint m g = Ok cs.
  Hypothesis noflag : ~ flag_set (g_attrs g).
  Hypothesis tols : tolerances_ok p.
  Let nu := (2 * length (g_rows g))%nat.
  Let ps := cons_pairs (g_rows g).
  Let n := (nu + 3 * length ps)%nat.
  Let P := bmat nu K (csC cs).
  Let q0 := repeat (Fin 0) nu ++ csH cs.
  Let perm := match sp_perm p with Some l => l | None => seq 0 (length q0) end.
  Let S := mkSys nu P (repeat (Fin 0) nu ++ csdH cs) perm (sp_tol p) (sp_errtol p) (sp_packing p) (Fin (csZ cs)).
  Let s0 := init_state P q0 (sp_tol p) (Fin (csZ cs)).

  Lemma w_len : length (sy_dq S) = n.
  Proof. apply (dq_len m g cs Hcs). Qed.
  Lemma w_idx r c v : In (r, c, v) (sy_P S) -> (r < length (sy_dq S) /\ c < length (sy_dq S))%nat.
  Proof. rewrite w_len. apply (P_idx m g _ _ _ K cs HK Hcs noflag). Qed.
  Lemma w_sym r c : neqv (entry (sy_P S) r c) (entry (sy_P S) c r).
  Proof. apply (P_sym m g _ _ _ K cs HK noflag). Qed.
  Lemma w_rows r : fin_row (sy_P S) r \/ dead (sy_P S) r.
  Proof. apply (P_rows m g _ _ _ K cs HK Hcs noflag). Qed.
  Lemma w_dqfin r : (r < length (sy_dq S))%nat -> fin (nth r (sy_dq S) NaN).
  Proof. rewrite w_len. apply (dq_fin m g cs Hcs). Qed.
  Lemma w_zerodq r : (r < length (sy_dq S))%nat -> nltb (Fin 0) (colsum (sy_P S) r) = false -> dqr S r == 0.
  Proof. rewrite w_len. apply (zero_dq m g _ _ _ K cs HK Hcs noflag). Qed.
  Lemma w_start : Inv S s0.
  Proof. apply (start_inv m g _ _ _ K cs HK Hcs noflag). Qed.
  Lemma w_nun : (sy_nu S <= length (sy_dq S))%nat.
  Proof. rewrite w_len. unfold n. simpl. lia. Qed.
  Lemma w_kq0 r : (r < sy_nu S)%nat -> qfin s0 r.
  Proof. intros L. unfold qfin. simpl. unfold q0, nu. rewrite (q0_above g cs r L). eexists; reflexivity. Qed.
  Lemma w_D0 r : D S s0 r == qof (nth r q0 NaN).
  Proof. apply D0. Qed.
  Lemma w_kbal0 r : (r < sy_nu S)%nat -> D S s0 r == 0.
  Proof. intros L. rewrite w_D0. unfold q0, nu. rewrite (q0_above g cs r L). reflexivity. Qed.
  Lemma w_xs0 r : nth r (xs s0) 0 == 0.
  Proof. apply xs0. Qed.

  Lemma w_above r : (r < nu)%nat -> (r < length (sy_dq S))%nat.
  Proof. rewrite w_len. unfold n. lia. Qed.
  Lemma w_dqb r : dqr S (nu + r) = qof (nth r (csdH cs) NaN).
  Proof. unfold dqr. f_equal. apply dq_below. Qed.
  Lemma w_q0b r : nth (nu + r) q0 NaN = nth r (csH cs) NaN.
  Proof. apply q0_below. Qed.

  Hypothesis lens : right_length lsolve.
  Definition trusted (s : state) : Prop := finite_answers lsolve \/ (finite_or_nan lsolve /\ failures_detectable m g p S s).

  Lemma w_slack s : errors_below_tol S s <-> slack S s0 s.
  Proof. unfold errors_below_tol, slack, travel, drift, zz. simpl. reflexivity. Qed.
  Lemma w_drift s : drift S s0 s == sp_errtol p * travel S s.
  Proof. reflexivity. Qed.
  Lemma w_covered : perm_complete S -> lengths_ok g (sp_lmin p) (sp_lmax p) -> finite_shear m -> covered S.
  Proof.
    intros HP HL HG. split; [exact HP|]. rewrite w_len. intros r Lr.
    destruct (below_case g r Lr) as (k & i & j & t & Hk & Lt & ->). fold nu.
    destruct (pair_lt m g cs Hcs noflag k i j Hk) as (Lk & Li & Lj & _).
    destruct (c_matrix_row ps k i j Hk) as (C0 & C1 & C2). destruct (c_rows ps (unit_vec n (2 * i)) k i j Hk) as (P0 & _ & _).
    destruct (c_rows ps (unit_vec n (2 * j)) k i j Hk) as (_ & _ & P2).
    assert (HI : forall a c v, In (a, c, v) (c_matrix ps) -> In ((nu + a)%nat, c, v) (sy_P S)).
    { intros a c v H. simpl. unfold P. rewrite bmat_eq. rewrite !in_app_iff. right. right. unfold lower. apply in_map_iff.
      exists (a, c, v). split; auto. rewrite (csC_eq m g cs Hcs). exact H. }
    assert (FR : forall x, fin_row P (2 * x)).
    { intros x. apply (P_fin_row m g K cs Hcs noflag). apply (disp_row m g _ _ _ K HK noflag x HL HG). }
    assert (CP : forall x a, (a < 3 * length ps)%nat -> (x < length (g_rows g))%nat ->
      ~ product (c_matrix ps) (unit_vec n (2 * x)) a == 0 -> nltb (Fin 0) (colsum P (2 * x)) = true).
    { intros x a La Lx N. apply (col_pos P n (2 * x) (nu + a)); auto.
      - apply (P_idx m g _ _ _ K cs HK Hcs noflag).
      - apply (P_sym m g _ _ _ K cs HK noflag).
      - unfold n; lia.
      - intros Z. apply N.
        assert (FB : fin_row P (nu + a)) by (apply (below_fin m g _ _ _ K cs HK Hcs noflag); unfold nu; lia).
        unfold ps. rewrite <- (csC_eq m g cs Hcs), <- (below_product m g _ _ _ K cs HK Hcs noflag).
        pose proof (unit_product P n (nu + a) (2 * x) (P_idx m g _ _ _ K cs HK Hcs noflag) FB) as U.
        unfold P, nu in U. rewrite U by (unfold n, nu; lia).
        pose proof (P_sym m g _ _ _ K cs HK noflag (nu + a) (2 * x)) as SY. unfold P, nu in *.
        destruct (entry (bmat (2 * length (g_rows g)) K (csC cs)) (2 * length (g_rows g) + a) (2 * x)), (entry (bmat (2 * length (g_rows g)) K (csC cs)) (2 * x) (2 * length (g_rows g) + a));
          simpl in SY; try contradiction; simpl in *; auto; try reflexivity. rewrite SY. exact Z. }
    assert (Ui : nltb (Fin 0) (colsum P (2 * i)) = true).
    { apply (CP i (3 * k)%nat); [lia|lia|]. rewrite P0. unfold n, nu, ps. rewrite (disp_unit g i i Li), Nat.eqb_refl. lra. }
    assert (Uj : nltb (Fin 0) (colsum P (2 * j)) = true).
    { apply (CP j (3 * k + 2)%nat); [lia|lia|]. rewrite P2. unfold n, nu, ps. rewrite (disp_unit g j j Lj), Nat.eqb_refl. lra. }
    destruct t as [|[|[|t]]]; [| | |lia].
    - exists (2 * i)%nat, (Fin (- (1))). split; [apply HI; rewrite Nat.add_0_r; auto|]. split; [simpl; unfold nu; lia|]. split; [apply FR|exact Ui].
    - exists (2 * i)%nat, (Fin 1). split; [apply HI; auto|]. split; [simpl; unfold nu; lia|]. split; [apply FR|exact Ui].
    - exists (2 * j)%nat, (Fin 1). split; [apply HI; auto|]. split; [simpl; unfold nu; lia|]. split; [apply FR|exact Uj].
  Qed.
  Lemma w_good s : trusted s -> good lsolve S s0 s.
  Proof.
    intros [H|(H & H1 & H2 & H3 & H4)]; [left; intros A b; apply H|right]. split; [intros A b; apply H|].
    split; [apply w_covered; auto|apply w_slack; auto].
  Qed.
  Lemma w_well s : reach lsolve S s0 s -> trusted s -> well S s0 s.
  Proof.
    intros R T. apply (reach_well lsolve S s0 w_idx w_sym w_rows w_dqfin lens w_zerodq (proj1 tols) (proj2 tols) w_start w_nun w_kq0 w_kbal0 s R (w_good s T)).
  Qed.
  (** C44 *)
  Lemma api_nan s : reach lsolve S s0 s -> finite_or_nan lsolve -> failures_detectable m g p S s ->
    (forall v, In v (answer lsolve S s) -> v = NaN) -> step lsolve S s = None.
  Proof.
    intros R F D HN. pose proof (w_well s R (or_intror (conj F D))) as W. destruct D as (H1 & H2 & H3 & H4).
    apply (nan_stops lsolve S s0 w_idx w_rows lens (proj1 tols) w_nun w_kq0 s W); auto.
    apply w_covered; auto.
  Qed.
  Definition w_ind := reach_ind_move lsolve S s0 w_idx w_sym w_rows w_dqfin lens w_zerodq (proj1 tols) (proj2 tols) w_start w_nun w_kq0 w_kbal0.

  (** H at a state: the bounds for a lid at Z *)
  Lemma w_q s : reach lsolve S s0 s -> trusted s -> forall r, (r < n)%nat -> qfin s r ->
    qof (nth r (st_q s) NaN) == qof (nth r q0 NaN) - travel S s * dqr S r.
  Proof.
    intros R T. revert s R T. intros s R T. apply w_good in T. revert s R T.
    apply (w_ind (fun s => forall r, (r < n)%nat -> qfin s r -> qof (nth r (st_q s) NaN) == qof (nth r q0 NaN) - travel S s * dqr S r)).
    - intros r L Q. unfold travel. simpl. ring.
    - intros a b y t R W G IH M W' G' Es r L Q'. pose proof M as (_ & _ & M3 & M4 & MZ & _). rewrite <- w_len in L.
      destruct W as (I & _). destruct (inv_qf S a I r L) as [Q|[Q _]].
      + destruct (M3 r L Q) as [_ E]. rewrite E, IH by (auto; rewrite <- w_len; auto). unfold travel. rewrite MZ. ring.
      + exfalso. apply (M4 r L); auto. intros (x & Ex). rewrite Ex in Q. discriminate Q.
  Qed.
  Lemma w_bounds s : reach lsolve S s0 s -> trusted s -> bounds_for m g (qof (st_Z s)) (st_H S s).
  Proof.
    intros R T. pose proof (w_well s R T) as (I & _ & HQ & _). pose proof (w_q s R T) as EQ.
    assert (LH : length (st_H S s) = (3 * length ps)%nat).
    { unfold st_H. rewrite skipn_length, (inv_q S s I), w_len. unfold n. simpl. lia. }
    split; [exact LH|]. intros k i j d e hi hj Hk Hd He Ti Tj.
    destruct (H_bounds m g cs Hcs) as [_ HB]. destruct (HB k i j d e hi hj Hk Hd He Ti Tj) as ((b0 & B0 & E0) & (b1 & B1 & BI & BF) & (b2 & B2 & E2)).
    destruct (pair_lt m g cs Hcs noflag k i j Hk) as (Lk & _).
    assert (HN : forall t, (t < 3)%nat -> nth_error (st_H S s) (3 * k + t) = Some (nth (nu + (3 * k + t)) (st_q s) NaN)).
    { intros t Lt. rewrite <- nth_skipn. change (skipn nu (st_q s)) with (st_H S s). apply nth_error_nth'. rewrite LH. fold ps in Lk. lia. }
    assert (HF : forall t b, (t < 3)%nat -> nth_error (csH cs) (3 * k + t) = Some (Fin b) ->
      exists z, nth (nu + (3 * k + t)) (st_q s) NaN = Fin z /\ z == b - (csZ cs - qof (st_Z s)) * (if Nat.eqb t 2 then 1 else 0)).
    { intros t b Lt Hb. fold ps in Lk. assert (L : (nu + (3 * k + t) < n)%nat) by (unfold n; lia).
      assert (E : nth (nu + (3 * k + t)) q0 NaN = Fin b).
      { rewrite w_q0b, nth_of, Hb. reflexivity. }
      assert (Q : qfin s (nu + (3 * k + t))).
      { apply HQ; [rewrite w_len; auto|]. exists b. exact E. }
      specialize (EQ _ L Q). destruct Q as (z & Ez). exists z. split; auto. rewrite Ez, E, w_dqb, (dH_at m g cs Hcs k i j t Hk Lt) in EQ.
      cbn [qof] in EQ. rewrite EQ. change (travel S s) with (csZ cs - qof (st_Z s)). destruct (Nat.eqb t 2); cbn [qof]; ring. }
    split; [|split].
    - destruct (HF 0%nat b0) as (z & Ez & Vz); [lia|rewrite Nat.add_0_r; auto|]. exists z.
      rewrite <- (Nat.add_0_r (3 * k)), HN, Ez by lia. split; auto. rewrite Vz, E0. cbn [Nat.eqb]. ring.
    - rewrite HN by lia. eexists. split; [reflexivity|]. split.
      + intros Eij. specialize (BI Eij). subst b1. fold ps in Lk.
        destruct (inv_qf S s I (nu + (3 * k + 1))) as [Q|[Q _]]; auto.
        * rewrite w_len; unfold n; lia.
        * exfalso. apply HQ in Q; [|rewrite w_len; unfold n; lia]. destruct Q as (z & Ez). change (st_q s0) with q0 in Ez.
          rewrite w_q0b, nth_of, B1 in Ez. discriminate Ez.
      + intros Nij. destruct (BF Nij) as (x & -> & Ex). destruct (HF 1%nat x) as (z & Ez & Vz); [lia|auto|].
        exists z. split; auto. rewrite Vz, Ex. cbn [Nat.eqb]. ring.
    - destruct (HF 2%nat b2) as (z & Ez & Vz); [lia|auto|]. exists z. rewrite HN, Ez by lia. split; auto.
      rewrite Vz, E2. cbn [Nat.eqb]. ring.
  Qed.

  Lemma vals_u s : vals (st_u S s) = firstn nu (xs s).
  Proof. unfold vals, st_u, xs. simpl. symmetry. apply firstn_map. Qed.
  Lemma vals_f s : vals (st_f S s) = skipn nu (xs s).
  Proof. unfold vals, st_f, xs. simpl. symmetry. apply skipn_map. Qed.
  Lemma D_below s r : D S s (nu + r) == qof (nth r (st_H S s) NaN) - product (csC cs) (vals (st_u S s)) r.
  Proof.
    unfold D. change (sy_P S) with P. unfold P, nu. rewrite (below_product m g _ _ _ K cs HK Hcs noflag). fold nu. rewrite vals_u.
    rewrite (firstn_product nu (csC cs) (xs s)); [|intros i c v H; apply (C_lt m g cs Hcs noflag i c v H)].
    unfold st_H. change (sy_nu S) with nu. rewrite nth_skipn. reflexivity.
  Qed.
  Lemma D_above s r : (r < nu)%nat -> D S s r == qof (nth r (st_F S s) NaN) -
    (product K (vals (st_u S s)) r + transpose_product (csC cs) (vals (st_f S s)) r).
  Proof.
    intros L. unfold D. change (sy_P S) with P. unfold P. rewrite bmat_above by auto. rewrite vals_u, vals_f, upper_product.
    rewrite (firstn_product nu K (xs s)); [|intros i c v H; apply (K_lt m g _ _ _ K HK noflag i c v H)].
    unfold st_F. change (sy_nu S) with nu. rewrite nth_firstn by auto. reflexivity.
  Qed.
  Lemma len_H s : Inv S s -> length (st_H S s) = length (csH cs).
  Proof.
    intros I. unfold st_H. rewrite skipn_length, (inv_q S s I), w_len. rewrite (csH_len m g cs Hcs). unfold n. simpl. fold ps. lia.
  Qed.
  Lemma H_case s r b : Inv S s -> nth_error (st_H S s) r = Some b -> (nu + r < length (sy_dq S))%nat /\ nth (nu + r) (st_q s) NaN = b.
  Proof.
    intros I H. assert (L : (r < length (st_H S s))%nat) by (apply nth_error_Some; congruence).
    rewrite (len_H s I), (csH_len m g cs Hcs) in L. split; [rewrite w_len; unfold n; fold ps in L; lia|].
    rewrite <- nth_skipn. change (skipn nu (st_q s)) with (st_H S s). apply nth_error_nth. exact H.
  Qed.

  (** rows without bound stay so *)
  Lemma api_unbounded s r : reach lsolve S s0 s -> trusted s -> nth_error (csH cs) r = Some PInf -> nth_error (st_H S s) r = Some PInf.
  Proof.
    intros R T Hr. destruct (w_well s R T) as (I & _ & HQ & _). assert (L : (r < length (st_H S s))%nat) by (rewrite (len_H s I); apply nth_error_Some; congruence).
    destruct (nth_error (st_H S s) r) as [b|] eqn:E; [|apply nth_error_None in E; lia]. destruct (H_case s r b I E) as [L' Eb].
    destruct (inv_qf S s I (nu + r) L') as [Q|[Q _]]; [|congruence]. exfalso. apply HQ in Q; auto. destruct Q as (z & Ez). change (st_q s0) with q0 in Ez.
    rewrite w_q0b, (nth_error_nth _ _ _ Hr) in Ez. discriminate Ez.
  Qed.
  (** finite results *)
  Lemma api_finite s : reach lsolve S s0 s -> trusted s -> finite_vec (st_u S s) /\ finite_vec (st_f S s) /\ exists z, st_Z s = Fin z.
  Proof.
    intros R T. destruct (w_well s R T) as (I & _).
    assert (X : finite_vec (st_x s)).
    { intros v Hv. apply In_nth_error in Hv. destruct Hv as (k & Hk).
      assert (L : (k < length (sy_dq S))%nat) by (rewrite <- (inv_x S s I); apply nth_error_Some; congruence).
      destruct (inv_xf S s I k L) as (q & E). rewrite (nth_error_nth _ _ _ Hk) in E. eauto. }
    split; [|split; [|apply (inv_Z S s I)]].
    - intros v Hv. apply X. unfold st_u in Hv. rewrite <- (firstn_skipn (sy_nu S) (st_x s)). apply in_app_iff. auto.
    - intros v Hv. apply X. unfold st_f in Hv. rewrite <- (firstn_skipn (sy_nu S) (st_x s)). apply in_app_iff. auto.
  Qed.

  (** C37 *)
  Lemma start_gap r : satisfies (csC cs) (csH cs) [] -> (nu + r < n)%nat -> qfin s0 (nu + r) -> 0 <= D S s0 (nu + r).
  Proof.
    intros H L (q & E). change (st_q s0) with q0 in E. rewrite w_D0, E. rewrite w_q0b, nth_of in E.
    destruct (nth_error (csH cs) r) as [b|] eqn:Er; [|discriminate E]. subst b. specialize (H r _ Er). apply nleb_fin in H.
    rewrite (product_null (csC cs) [] r) in H; [exact H|]. intros k. destruct k; reflexivity.
  Qed.
  Lemma api_feasible s : reach lsolve S s0 s -> trusted s -> satisfies (csC cs) (csH cs) [] ->
    satisfies_upto (sp_errtol p * travel S s) (csC cs) (st_H S s) (vals (st_u S s)).
  Proof.
    intros R T H0 r b Hr. destruct (w_well s R T) as (I & _ & HQ & _). destruct (H_case s r b I Hr) as [L E].
    destruct (inv_qf S s I (nu + r) L) as [Q|[Q _]]; [right|left; congruence].
    pose proof Q as (q & Eq). rewrite E in Eq. subst b. exists q. split; auto.
    assert (L' := L). rewrite w_len in L'.
    pose proof (gap_lower lsolve S s0 w_idx w_sym w_rows w_dqfin lens w_zerodq (proj1 tols) (proj2 tols) w_start w_nun w_kq0 w_kbal0 s R (w_good s T)
      (nu + r) L (below_fin m g _ _ _ K cs HK Hcs noflag _ (Nat.le_add_r _ _)) Q (start_gap r H0 L' (proj1 (HQ _ L) Q))) as G.
    rewrite w_drift, D_below in G. rewrite (nth_error_nth _ _ NaN Hr) in G. rewrite Eq in G. cbn [qof] in G. lra.
  Qed.
  Lemma api_admissible s : reach lsolve S s0 s -> trusted s -> satisfies (csC cs) (csH cs) [] -> sp_errtol p == 0 ->
    in_slab m g (qof (st_Z s)) (vals (st_u S s)) /\ no_overlap m g (vals (st_u S s)).
  Proof.
    intros R T H0 E0. apply (admissible_iff m g cs Hcs noflag _ _ _ (w_bounds s R T)).
    intros r b Hr. destruct (api_feasible s R T H0 r b Hr) as [->|(q & -> & L)]; [reflexivity|].
    apply nleb_fin. rewrite E0 in L. lra.
  Qed.

  (** C38 *)
  Lemma F_zero s : reach lsolve S s0 s -> trusted s -> forall r, (r < nu)%nat -> exists z, nth_error (st_F S s) r = Some (Fin z) /\ z == 0.
  Proof.
    intros R T r L. destruct (w_well s R T) as (I & _ & HQ & _). pose proof (w_above r L) as L'.
    assert (Q : qfin s r) by (apply HQ; auto; apply w_kq0; auto). pose proof (w_q s R T r ltac:(rewrite <- w_len; auto) Q) as E.
    destruct Q as (z & Ez). exists z. split.
    - unfold st_F. change (sy_nu S) with nu. rewrite <- Ez, <- (nth_firstn (st_q s) nu) by auto. apply nth_error_nth'. rewrite firstn_length, (inv_q S s I). apply Nat.min_glb_lt; auto.
    - rewrite Ez in E. cbn [qof] in E. rewrite E. unfold dqr. change (sy_dq S) with (repeat (Fin 0) nu ++ csdH cs). unfold q0, nu.
      rewrite (q0_above g cs r L), (dq_above g cs r L). simpl. ring.
  Qed.
  Lemma api_balance s : reach lsolve S s0 s -> trusted s -> errors_below_tol S s -> forall r, (r < nu)%nat -> fin_row K r ->
    near0 (sp_errtol p * travel S s) (product K (vals (st_u S s)) r + transpose_product (csC cs) (vals (st_f S s)) r).
  Proof.
    intros R T SL r L HR. destruct (w_well s R T) as (I & _ & HQ & HB).
    pose proof (w_above r L) as L'.
    destruct (HB (proj1 (w_slack s) SL) r L (P_fin_row m g K cs Hcs noflag r HR) (proj2 (HQ r L') (w_kq0 r L))) as [B1 B2].
    rewrite w_drift, D_above in B1, B2 by auto. destruct (F_zero s R T r L) as (z & Ez & Z0).
    rewrite (nth_error_nth _ _ NaN Ez) in B1, B2. cbn [qof] in B1, B2. unfold near0. lra.
  Qed.

  (** C39 *)
  Lemma api_force s : reach lsolve S s0 s -> trusted s -> sp_errtol p == 0 -> forall r, ~ nth r (vals (st_f S s)) 0 == 0 ->
    exists q, gap_is (csC cs) (st_H S s) (vals (st_u S s)) r q /\ q <= sp_tol p.
  Proof.
    intros R T E0 r N. destruct (w_well s R T) as (I & _). rewrite vals_f, nth_skipn in N.
    pose proof (force_active lsolve S s0 w_idx w_sym w_rows w_dqfin lens w_zerodq (proj1 tols) (proj2 tols) w_start w_nun w_kq0 w_kbal0 s E0 w_xs0 R (w_good s T) _ N) as A.
    apply (act_fin S w_idx w_rows s _ I) in A. destruct A as (L & _ & (q & Eq) & LD & _).
    exists (D S s (nu + r)). split; [|exact LD]. exists q. split; [|rewrite D_below, <- nth_skipn in *; fold (sy_nu S) in *].
    - rewrite <- Eq, <- nth_skipn. change (skipn nu (st_q s)) with (st_H S s). apply nth_error_nth'.
      rewrite (len_H s I), (csH_len m g cs Hcs). rewrite w_len in L. unfold n in L. fold ps. lia.
    - change (skipn nu (st_q s)) with (st_H S s) in Eq. rewrite Eq. reflexivity.
  Qed.
  Lemma api_contact s s' : reach lsolve S s0 s -> step lsolve S s = Some s' -> trusted s' -> nltb (st_rl s) (sy_packing S) = true -> sp_errtol p == 0 ->
    forall r q, gap_is (csC cs) (st_H S s) (vals (st_u S s)) r q -> q <= sp_tol p -> gap_is (csC cs) (st_H S s') (vals (st_u S s')) r q.
  Proof.
    intros R Es T' Er E0 r q (b & Hb & Eq) Lq.
    assert (R' : reach lsolve S s0 s') by (eapply reachS; eauto).
    pose proof (w_good s' T') as G'. pose proof (good_back lsolve S s0 (proj1 tols) (proj2 tols) s s' Es G') as G.
    pose proof (reach_well lsolve S s0 w_idx w_sym w_rows w_dqfin lens w_zerodq (proj1 tols) (proj2 tols) w_start w_nun w_kq0 w_kbal0 s R G) as W.
    destruct (well_step lsolve S s0 w_idx w_sym w_rows w_dqfin lens w_zerodq (proj1 tols) (proj2 tols) w_nun w_kq0 s s' W G Es) as (t & M & W').
    pose proof W as (I & _ & HQ & _). pose proof W' as (I' & _ & HQ' & _).
    destruct (H_case s r _ I Hb) as [L Eb]. assert (Q : qfin s (nu + r)) by (exists b; auto).
    assert (Q' : qfin s' (nu + r)) by (apply HQ'; auto; apply HQ; auto).
    assert (FR : fin_row (sy_P S) (nu + r)) by (apply (below_fin m g _ _ _ K cs HK Hcs noflag); unfold nu; lia).
    assert (Dq : D S s (nu + r) == q) by (rewrite D_below, (nth_error_nth _ _ NaN Hb), Eq; reflexivity).
    assert (ED : D S s' (nu + r) == D S s (nu + r)).
    { destruct (act_dec S s (nu + r)) as [A|A].
      - apply (active_kept S s0 w_idx w_rows s s' _ t (nu + r) E0 W W' M A).
      - rewrite (move_gap S _ _ _ _ _ M L Q).
        rewrite (idle_row S w_idx w_sym w_rows w_zerodq s _ (nu + r) I L FR Q A); [ring|]. rewrite Dq. exact Lq. }
    destruct Q' as (b' & Eb'). exists b'. rewrite <- nth_skipn in Eb'. change (skipn nu (st_q s')) with (st_H S s') in Eb'.
    assert (Hb' : nth_error (st_H S s') r = Some (Fin b')).
    { rewrite <- Eb'. apply nth_error_nth'. rewrite (len_H s' I'), <- (len_H s I). apply nth_error_Some. congruence. }
    split; auto. rewrite D_below, Dq in ED. rewrite (nth_error_nth _ _ NaN Hb') in ED. cbn [qof] in ED. symmetry. exact ED.
  Qed.

  (** C40 *)
  Lemma api_steps itermax k s : nth_error (history lsolve S itermax s0) k = Some s -> trusted s -> errors_below_tol S s ->
    (k <= length (csH cs))%nat.
  Proof.
    intros Hk T SL. apply (history_nth lsolve S s0 w_nun) in Hk. pose proof (touched_bound lsolve S s0 w_idx w_sym w_rows w_dqfin lens w_zerodq (proj1 tols) (proj2 tols) w_start w_nun w_kq0 w_kbal0 k s Hk (w_good s T) (proj1 (w_slack s) SL)) as L.
    rewrite w_len in L. rewrite (csH_len m g cs Hcs). unfold n in L. simpl in L. fold ps. lia.
  Qed.

  (** C41 *)
  Lemma api_down s s' : reach lsolve S s0 s -> step lsolve S s = Some s' -> trusted s' -> nltb (st_rl s) (sy_packing S) = true ->
    exists z z', st_Z s = Fin z /\ st_Z s' = Fin z' /\ z' < z /\ st_rl s' = ndiv (Fin (csZ cs)) (Fin z').
  Proof.
    intros R Es T' Er. pose proof (w_good s' T') as G'. pose proof (good_back lsolve S s0 (proj1 tols) (proj2 tols) s s' Es G') as G.
    pose proof (reach_well lsolve S s0 w_idx w_sym w_rows w_dqfin lens w_zerodq (proj1 tols) (proj2 tols) w_start w_nun w_kq0 w_kbal0 s R G) as W.
    destruct (well_step lsolve S s0 w_idx w_sym w_rows w_dqfin lens w_zerodq (proj1 tols) (proj2 tols) w_nun w_kq0 s s' W G Es) as (t & M & W').
    destruct W as (I & _). destruct W' as (I' & _). destruct (inv_Z S s I) as (z & Ez). destruct (inv_Z S s' I') as (z' & Ez').
    exists z, z'. split; auto. split; auto. pose proof (move_pos S (proj1 tols) _ _ _ _ M) as Pt.
    destruct M as (_ & _ & _ & _ & MZ & MR & _). rewrite Ez, Ez' in MZ. cbn [qof] in MZ. split; [lra|]. rewrite MR, Ez'. reflexivity.
  Qed.
  Lemma api_thick s : reach lsolve S s0 s -> trusted s -> satisfies (csC cs) (csH cs) [] -> sp_errtol p == 0 ->
    forall i d h, is_node (g_rows g) i d -> thick m d h -> h <= qof (st_Z s).
  Proof.
    intros R T H0 E0 i d h Hd Hh. destruct (api_admissible s R T H0 E0) as [IS _]. destruct (IS i d h Hd Hh). qlra.
  Qed.

  (** C42 *)
  Lemma qsum_near (l : list nat) (F : nat -> Q) e : (forall i, In i l -> near0 e (F i)) -> near0 (inject_Z (Z.of_nat (length l)) * e) (qsum (map F l)).
  Proof.
    unfold near0. induction l as [|a l IH]; intros H.
    - cbn [length map qsum]. change (inject_Z (Z.of_nat 0)) with 0. split; lra.
    - cbn [length map qsum]. destruct IH as [I1 I2]; [intros; apply H; right; auto|]. destruct (H a (or_introl eq_refl)) as [H1 H2].
      rewrite Nat2Z.inj_succ. unfold Z.succ. rewrite inject_Z_plus. change (inject_Z 1) with 1. split; lra.
  Qed.
  Lemma api_sum s (pr : nat -> bool) : reach lsolve S s0 s -> trusted s -> errors_below_tol S s ->
    lengths_ok g (sp_lmin p) (sp_lmax p) -> finite_shear m ->
    (forall q, In q (parts m g (sp_lmin p) (sp_lmax p)) -> pr (ei (fst q)) = pr (ej (fst q))) ->
    let l := filter pr (seq 0 (length (g_rows g))) in
    near0 (inject_Z (Z.of_nat (length l)) * (sp_errtol p * travel S s)) (qsum (map (fun i => transpose_product (csC cs) (vals (st_f S s)) (2 * i)) l)).
  Proof.
    intros R T SL HL HG HP l.
    assert (B : near0 (inject_Z (Z.of_nat (length l)) * (sp_errtol p * travel S s))
      (qsum (map (fun i => product K (vals (st_u S s)) (2 * i) + transpose_product (csC cs) (vals (st_f S s)) (2 * i)) l))).
    { apply qsum_near. intros i Hi. apply filter_In in Hi. destruct Hi as [Hi _]. apply in_seq in Hi.
      apply api_balance; auto; [unfold nu; lia|]. apply (disp_row m g _ _ _ K HK noflag i HL HG). }
    unfold near0 in *. rewrite qsum_plus in B. pose proof (stiff_sum m g _ _ _ K HK noflag (vals (st_u S s)) pr HP) as Z. fold l in Z. lra.
  Qed.
  Lemma api_fiber s fb : reach lsolve S s0 s -> trusted s -> errors_below_tol S s ->
    lengths_ok g (sp_lmin p) (sp_lmax p) -> finite_shear m ->
    near0 (inject_Z (Z.of_nat (length (nodes_of g fb))) * (sp_errtol p * travel S s)) (fiber_force (csC cs) g (vals (st_f S s)) fb).
  Proof.
    intros R T SL HL HG. apply api_sum; auto. intros q Hq.
    destruct (part_lt m g _ _ _ K HK noflag q Hq) as (d & d' & ((l1 & H1) & (l2 & H2) & _) & E). rewrite H1, H2, E. reflexivity.
  Qed.
  Lemma api_total s : reach lsolve S s0 s -> trusted s -> errors_below_tol S s ->
    lengths_ok g (sp_lmin p) (sp_lmax p) -> finite_shear m ->
    near0 (inject_Z (Z.of_nat (length (g_rows g))) * (sp_errtol p * travel S s))
      (lid_force (vals (st_f S s)) (length ps) - floor_force (vals (st_f S s)) (length ps)).
  Proof.
    intros R T SL HL HG. pose proof (api_sum s (fun _ => true) R T SL HL HG (fun _ _ => eq_refl)) as B. cbv zeta in B.
    assert (FT : forall l : list nat, filter (fun _ => true) l = l) by (induction l; simpl; congruence).
    rewrite FT, seq_length in B. unfold near0 in *.
    rewrite (transpose_total (csC cs)) in B.
    - rewrite (csC_eq m g cs Hcs), c_total in B. exact B.
    - rewrite (csC_eq m g cs Hcs). intros i c v H. destruct (c_matrix_in _ _ _ _ H) as (k & a & b & Hk & C).
      destruct (pair_lt m g cs Hcs noflag k a b Hk) as (_ & La & Lb & _). decompose [or and] C; subst c; eexists; split; eauto.
  Qed.

  (** C45 *)
  Lemma k2_stiff f l : qE f = PInf -> ~ fin (k2_of f l).
  Proof.
    intros E H. unfold k2_of in H. apply nadd_fin_inv in H. destruct H as [_ H]. apply fin_mul_inv in H. rewrite E in H.
    destruct H as (q & H). destruct (k0_of f l) as [k| | |], (qG f) as [G| | |]; simpl in H; try discriminate H;
      repeat match goal with H : context [Qltb ?a 0] |- _ => destruct (Qltb a 0) end; simpl in H; try discriminate H;
      repeat match goal with H : context [qsgn ?a] |- _ => destruct (qsgn a) end; simpl in H; discriminate H.
  Qed.
  Lemma never_active r : (forall s, reach lsolve S s0 s -> Inv S s -> ~ act S s r) -> forall s, reach lsolve S s0 s -> trusted s -> nth r (xs s) 0 == 0.
  Proof.
    intros H s R T. apply w_good in T. revert s R T.
    apply (w_ind (fun s => nth r (xs s) 0 == 0)); [apply w_xs0|].
    intros a b y t R W G IH M W' G' Es. destruct M as (_ & HX & _ & _ & _ & _ & _ & _ & _ & HY & _).
    rewrite (HX r), IH, (HY r); [ring|]. apply H; auto. apply W.
  Qed.
  Lemma stiff_idle a i d f : Inv S a -> is_node (g_rows g) i d -> has_fiber m (nf d) f -> qE f = PInf -> ~ act S a (2 * i + 1).
  Proof.
    intros I Hd Hf EE A. pose proof (node_lt _ _ _ Hd) as Li. apply (act_fin S w_idx w_rows a _ I) in A. destruct A as (L & FR & _ & _ & CS).
    (* either the node is in an element, whose diagonal term is not finite, or it has no entry *)
    assert (NE : forall c v, ~ In ((2 * i + 1)%nat, c, v) (sy_P S)).
    { intros c v Hv. destruct (P_case m g K cs Hcs noflag _ _ _ Hv) as [H|[(_ & H & _)|(H & _)]].
      - rewrite (K_parts m g _ _ _ K HK noflag) in H. apply in_flat_map in H. destruct H as (q & Hq & H).
        apply block_in in H. destruct H as [H _].
        assert (D2 : Nat.div (2 * i + 1) 2 = i) by (rewrite Nat.mul_comm, Nat.add_comm, Nat.div_add by lia; reflexivity). rewrite D2 in H.
        destruct (part_elem m g _ _ q Hq) as [He _].
        destruct (element_inv m g _ _ _ K HK noflag _ He) as (i' & j' & d1 & d2 & (H1 & H2 & _) & EF & E1 & E2 & HF & _).
        assert (Ef : ef (fst q) = f).
        { assert (Ed : nf d = nf d1).
          { destruct H as [H|H]; [rewrite <- E1, <- H in H1|rewrite <- E2, <- H in H2].
            - f_equal. eapply node_fun; [eapply labelled; eauto|exact Hd|exact H1].
            - rewrite EF. f_equal. eapply node_fun; [eapply labelled; eauto|exact Hd|exact H2]. }
          rewrite Ed in Hf. destruct Hf as [_ Hf]. destruct HF as [_ HF]. congruence. }
        assert (HD : In ((2 * i + 1)%nat, (2 * i + 1)%nat, k2_of f (snd q)) (sy_P S)).
        { change (sy_P S) with P. unfold P. rewrite bmat_eq. apply in_app_iff. left. rewrite (K_parts m g _ _ _ K HK noflag). apply in_flat_map. exists q. split; auto.
          rewrite Ef. unfold block. cbv zeta. destruct H as [H|H]; rewrite <- H; simpl; tauto. }
        destruct (k2_stiff f (snd q) EE). apply (FR _ _ HD).
      - rewrite (csC_eq m g cs Hcs) in H. destruct (c_matrix_in _ _ _ _ H) as (k & x & y & _ & C). decompose [or and] C; lia.
      - unfold nu in *. lia. }
    (* no entry: the column sum is zero *)
    assert (Z : colsum (sy_P S) (2 * i + 1) = Fin 0).
    { unfold colsum. match goal with |- context [filter ?h ?l] => assert (FN : filter h l = []) end.
      { destruct (filter _ _) as [|[[x y] v] t'] eqn:Ef; auto. exfalso.
        assert (H : In (x, y, v) ((x, y, v) :: t')) by (left; auto). rewrite <- Ef in H. apply filter_In in H. destruct H as [H Ey].
        apply Nat.eqb_eq in Ey. simpl in Ey. subst y.
        destruct (P_case m g K cs Hcs noflag _ _ _ H) as [H'|[(_ & _ & H')|(_ & H')]].
        - rewrite (K_parts m g _ _ _ K HK noflag) in H'. apply in_flat_map in H'. destruct H' as (q & Hq & H').
          apply (Permutation_in _ (Permutation_sym (block_swap _ _ _ _ _))) in H'. apply in_map_iff in H'. destruct H' as ([[x' y'] v'] & E & H').
          unfold swap in E. simpl in E. injection E as -> -> ->.
          apply (NE x v). change (sy_P S) with P. unfold P. rewrite bmat_eq. apply in_app_iff. left.
          rewrite (K_parts m g _ _ _ K HK noflag). apply in_flat_map. eauto.
        - unfold nu in *. lia.
        - rewrite (csC_eq m g cs Hcs) in H'. destruct (c_matrix_in _ _ _ _ H') as (k & x' & y' & _ & C). decompose [or and] C; lia. }
      rewrite FN. reflexivity. }
    rewrite Z in CS. discriminate CS.
  Qed.
  Lemma api_rotation s : reach lsolve S s0 s -> trusted s -> forall i d f, is_node (g_rows g) i d -> has_fiber m (nf d) f -> qE f = PInf ->
    rot (vals (st_u S s)) i == 0.
  Proof.
    intros R T i d f Hd Hf EE. pose proof (node_lt _ _ _ Hd) as Li. unfold rot. rewrite vals_u, nth_firstn by (unfold nu; lia).
    apply never_active; auto. intros a _ I. apply (stiff_idle a i d f I Hd Hf EE).
  Qed.

  (** C66: the recorded masks *)
  Lemma below_col r b : nth_error (csH cs) r = Some (Fin b) -> nltb (Fin 0) (colsum P (nu + r)) = true.
  Proof.
    intros Hb. assert (Lr : (r < 3 * length ps)%nat) by (unfold ps; rewrite <- (csH_len m g cs Hcs); apply nth_error_Some; congruence).
    destruct (nltb (Fin 0) (colsum P (nu + r))) eqn:C; auto. exfalso.
    assert (LB : (nu <= nu + r < n)%nat) by (unfold n; lia).
    destruct (below_case g (nu + r) LB) as (k & i & j & t & Hk & Lt & Er). fold nu in Er. assert (r = 3 * k + t)%nat by lia. subst r. clear Er.
    assert (Z : forall x, product (c_matrix ps) (unit_vec n x) (3 * k + t) == 0).
    { intros x. unfold ps. rewrite <- (csC_eq m g cs Hcs), <- (below_product m g _ _ _ K cs HK Hcs noflag).
      apply (zero_col P n (P_idx m g _ _ _ K cs HK Hcs noflag) (P_sym m g _ _ _ K cs HK noflag) _); [|exact C].
      apply (below_fin m g _ _ _ K cs HK Hcs noflag). unfold nu. lia. }
    destruct (pair_lt m g cs Hcs noflag k i j Hk) as (_ & Li & Lj & _).
    destruct (c_rows ps (unit_vec n (2 * i)) k i j Hk) as (P0 & P1 & _). destruct (c_rows ps (unit_vec n (2 * j)) k i j Hk) as (_ & _ & P2).
    pose proof (disp_unit g i i Li) as Uii. pose proof (disp_unit g i j Lj) as Uij. pose proof (disp_unit g j j Lj) as Ujj.
    rewrite Nat.eqb_refl in Uii, Ujj. fold nu ps in Uii, Uij, Ujj. fold n in Uii, Uij, Ujj.
    destruct t as [|[|[|t]]]; [| | |lia].
    - specialize (Z (2 * i)%nat). rewrite Nat.add_0_r, P0, Uii in Z. discriminate Z.
    - destruct (Nat.eqb_spec i j) as [E|NE].
      + destruct (pair_inv m g cs Hcs noflag k i j Hk) as (d & e & Hd & He & _). destruct (thick_ex m g cs Hcs i d Hd) as (hi & Ti & _).
        destruct (thick_ex m g cs Hcs j e He) as (hj & Tj & _). destruct (H_bounds m g cs Hcs) as [_ HB].
        destruct (HB k i j d e hi hj Hk Hd He Ti Tj) as (_ & (b1 & B1 & BI & _) & _). rewrite B1, (BI E) in Hb. discriminate Hb.
      + specialize (Z (2 * i)%nat). rewrite P1, Uii, Uij in Z. discriminate Z.
    - specialize (Z (2 * j)%nat). rewrite P2, Ujj in Z. discriminate Z.
  Qed.
  Lemma gap_D s r q : Inv S s -> gap_is (csC cs) (st_H S s) (vals (st_u S s)) r q -> (nu + r < length (sy_dq S))%nat /\ qfin s (nu + r) /\ D S s (nu + r) == q.
  Proof.
    intros I (b & Hb & E). destruct (H_case s r _ I Hb) as [L Eb]. split; auto. split; [exists b; auto|].
    rewrite D_below, (nth_error_nth _ _ NaN Hb), E. reflexivity.
  Qed.
  Lemma D_gap s r : Inv S s -> (nu + r < length (sy_dq S))%nat -> qfin s (nu + r) -> gap_is (csC cs) (st_H S s) (vals (st_u S s)) r (D S s (nu + r)).
  Proof.
    intros I L (q & Eq). exists q. assert (E : nth r (st_H S s) NaN = Fin q) by (unfold st_H; change (sy_nu S) with nu; rewrite nth_skipn; exact Eq).
    split; [|rewrite D_below, E; reflexivity]. rewrite <- E. apply nth_error_nth'.
    rewrite (len_H s I), (csH_len m g cs Hcs). rewrite w_len in L. unfold n in L. fold ps. lia.
  Qed.
  Lemma act_gap s r : reach lsolve S s0 s -> trusted s ->
    (act S s (nu + r) <-> exists q, gap_is (csC cs) (st_H S s) (vals (st_u S s)) r q /\ q <= sp_tol p).
  Proof.
    intros R T. destruct (w_well s R T) as (I & _ & HQ & _). rewrite (act_fin S w_idx w_rows s _ I). split.
    - intros (L & _ & Q & LD & _). exists (D S s (nu + r)). split; [apply D_gap; auto|exact LD].
    - intros (q & Hg & Lq). destruct (gap_D s r q I Hg) as (L & Q & E). split; auto.
      split; [apply (below_fin m g _ _ _ K cs HK Hcs noflag); unfold nu; lia|]. split; auto. split; [rewrite E; exact Lq|].
      apply HQ in Q; auto. destruct Q as (b & Eb). change (st_q s0) with q0 in Eb. rewrite w_q0b in Eb. apply (below_col r b). rewrite <- Eb. apply nth_error_nth'.
      rewrite (csH_len m g cs Hcs). rewrite w_len in L. unfold n in L. fold ps. lia.
  Qed.
  Lemma mask_start r : nth (nu + r) (st_mask s0) false = true <-> exists q, gap_is (csC cs) (st_H S s0) (vals (st_u S s0)) r q /\ q <= sp_tol p.
  Proof.
    pose proof w_start as I. unfold s0 at 1. cbn [st_mask init_state]. rewrite nth_of, nth_error_map. split.
    - intros H. destruct (Nat.lt_ge_cases (nu + r) (length (sy_dq S))) as [L|L].
      + destruct (gap_case S w_idx w_rows s0 (nu + r) I L) as [(_ & Q & E)|[(_ & _ & E)|(_ & E)]]; cbn [st_x st_q init_state] in E; change (sy_P S) with P in E;
          unfold s0, init_state in E; cbn [st_x st_q] in E; rewrite E in H; cbn [option_map] in H; try discriminate H.
        apply nleb_fin in H. exists (D S s0 (nu + r)). split; [apply D_gap; auto|exact H].
      + rewrite (proj2 (nth_error_None _ _)) in H; [discriminate H|]. rewrite gaps_length. rewrite <- (inv_q S s0 I) in L. exact L.
    - intros (q & Hg & Lq). destruct (gap_D s0 r q I Hg) as (L & Q & E).
      destruct (gap_case S w_idx w_rows s0 (nu + r) I L) as [(_ & _ & G)|[(_ & G & _)|(Dd & _)]].
      + change (sy_P S) with P in G. unfold s0, init_state in G. cbn [st_x st_q] in G. rewrite G. cbn [option_map]. apply nleb_fin. fold s0. eapply Qle_trans; [apply Qle_lteq; right; exact E|exact Lq].
      + destruct Q as (b & Eb). rewrite Eb in G. discriminate G.
      + exfalso. assert (FR : fin_row (sy_P S) (nu + r)) by (apply (below_fin m g _ _ _ K cs HK Hcs noflag); unfold nu; lia). apply (not_both S (nu + r) FR Dd).
  Qed.
  Lemma api_bounds s r b : reach lsolve S s0 s -> trusted s -> nth_error (csH cs) r = Some (Fin b) ->
    exists d q, nth_error (csdH cs) r = Some (Fin d) /\ nth_error (st_H S s) r = Some (Fin q) /\ q == b - d * travel S s.
  Proof.
    intros R T Hb. destruct (w_well s R T) as (I & _ & HQ & _).
    assert (Lr : (r < 3 * length ps)%nat) by (unfold ps; rewrite <- (csH_len m g cs Hcs); apply nth_error_Some; congruence).
    assert (L : (nu + r < n)%nat) by (unfold n; lia).
    assert (E0 : nth (nu + r) q0 NaN = Fin b) by (rewrite w_q0b, nth_of, Hb; reflexivity).
    assert (Q : qfin s (nu + r)) by (apply HQ; [rewrite w_len; auto|exists b; exact E0]).
    pose proof (w_q s R T (nu + r) L Q) as EQ. rewrite E0, w_dqb in EQ. destruct Q as (q & Ez). rewrite Ez in EQ.
    destruct (dq_fin m g cs Hcs (nu + r) L) as (d & Ed). unfold nu in Ed. rewrite dq_below in Ed. rewrite Ed in EQ.
    exists d, q. split; [|split].
    - rewrite <- Ed. apply nth_error_nth'. rewrite (csdH_len m g cs Hcs). exact Lr.
    - rewrite <- Ez, <- nth_skipn. change (skipn nu (st_q s)) with (st_H S s). apply nth_error_nth'. rewrite (len_H s I), (csH_len m g cs Hcs). exact Lr.
    - cbn [qof] in EQ. rewrite EQ. ring.
  Qed.
  (** a force at the end of a step is found on gaps closed at its start *)
  Lemma api_step_force s s' : reach lsolve S s0 s -> step lsolve S s = Some s' -> trusted s' -> nltb (st_rl s) (sy_packing S) = true -> sp_errtol p == 0 ->
    forall r, ~ nth r (vals (st_f S s')) 0 == 0 -> exists q, gap_is (csC cs) (st_H S s) (vals (st_u S s)) r q /\ q <= sp_tol p.
  Proof.
    intros R Es T' Er E0 r N. pose proof (w_good s' T') as G'. pose proof (good_back lsolve S s0 (proj1 tols) (proj2 tols) s s' Es G') as G.
    pose proof (reach_well lsolve S s0 w_idx w_sym w_rows w_dqfin lens w_zerodq (proj1 tols) (proj2 tols) w_start w_nun w_kq0 w_kbal0 s R G) as W.
    destruct (well_step lsolve S s0 w_idx w_sym w_rows w_dqfin lens w_zerodq (proj1 tols) (proj2 tols) w_nun w_kq0 s s' W G Es) as (t & M & W').
    pose proof W as (I & _). rewrite vals_f, nth_skipn in N.
    assert (A : act S s (nu + r)).
    { destruct (act_dec S s (nu + r)) as [A|A]; auto.
      apply (force_active lsolve S s0 w_idx w_sym w_rows w_dqfin lens w_zerodq (proj1 tols) (proj2 tols) w_start w_nun w_kq0 w_kbal0 s E0 w_xs0 R G).
      intros Ea. apply N. pose proof M as (_ & HX & _ & _ & _ & _ & _ & _ & _ & HY & _). rewrite (HX (nu + r)%nat), Ea, (HY _ A). ring. }
    apply (act_fin S w_idx w_rows s _ I) in A. destruct A as (L & _ & (q & Eq) & LD & _).
    exists (D S s (nu + r)). split; [|exact LD]. exists q. split; [|rewrite D_below, <- nth_skipn in *; fold (sy_nu S) in *].
    - rewrite <- Eq, <- nth_skipn. change (skipn nu (st_q s)) with (st_H S s). apply nth_error_nth'.
      rewrite (len_H s I), (csH_len m g cs Hcs). rewrite w_len in L. unfold n in L. fold ps. lia.
    - change (skipn nu (st_q s)) with (st_H S s) in Eq. rewrite Eq. reflexivity.
  Qed.
  Lemma api_new s s' : reach lsolve S s0 s -> step lsolve S s = Some s' -> trusted s' -> nltb (st_rl s) (sy_packing S) = true -> errors_below_tol S s ->
    exists r q q', gap_is (csC cs) (st_H S s) (vals (st_u S s)) r q /\ sp_tol p < q /\ gap_is (csC cs) (st_H S s') (vals (st_u S s')) r q' /\ q' == 0.
  Proof.
    intros R Es T' Er SL. pose proof (w_good s' T') as G'. pose proof (good_back lsolve S s0 (proj1 tols) (proj2 tols) s s' Es G') as G.
    pose proof (reach_well lsolve S s0 w_idx w_sym w_rows w_dqfin lens w_zerodq (proj1 tols) (proj2 tols) w_start w_nun w_kq0 w_kbal0 s R G) as W.
    destruct (well_step lsolve S s0 w_idx w_sym w_rows w_dqfin lens w_zerodq (proj1 tols) (proj2 tols) w_nun w_kq0 s s' W G Es) as (t & M & W').
    apply w_slack in SL.
    destruct (contact_made S s0 w_idx w_sym w_rows w_zerodq (proj1 tols) s s' _ t SL W W' M) as (r & [Lr Ln] & NA & FR & Q' & D0 & CS & _).
    pose proof W as (I & _ & HQ & _). pose proof W' as (I' & _ & HQ' & _). change (sy_nu S) with nu in Lr.
    assert (Er' : r = (nu + (r - nu))%nat) by lia. set (x := (r - nu)%nat) in *. clearbody x. subst r.
    assert (Q : qfin s (nu + x)) by (apply HQ; auto; apply HQ'; auto).
    exists x, (D S s (nu + x)), (D S s' (nu + x)). split; [apply D_gap; auto|]. split; [|split; [apply D_gap; auto|exact D0]].
    apply Qnot_le_lt. intros LD. apply NA. apply (act_fin S w_idx w_rows s _ I). auto.
  Qed.
End Api.
