(** The main script (C79). *)
From Coq Require Import Permutation.
From Verif Require Import Num NumP ListX ListP Frames MatM NetM StackM MeshM ModelM SolverM InterpM ResultM RenderM VtkM PlotM MainM
  Spec SpecNet SpecStack SpecMesh SpecModel SpecSolver SpecInterp SpecRender SpecVtk SpecPerm SpecPlot SpecMain
  CheckP MeshCheckP MatP DrawP NetP NetZP StackP StackNewP MeshP StiffP StiffLenP ConstraintP SolverP SolverSysP SolverFinP InterpP ResultP VtkP PlotP.
Open Scope Q_scope.

(** ** Reading the generated mat *)
Section Read.
  Variable R : rng.
  Variables cos sin : Q -> Q.
  Lemma new_rows p ent prior m s : mat_new R cos sin p ent prior = Ok (m, s) ->
    exists rows, m = mkMatDf mat_columns (enum rows) (mkAttrs (Some (p_n p)) (Some (Fin (p_size p))) None None) /\
      p_n p = Z.of_nat (length rows) /\ (forall f, In f rows -> exists x y z a d, f = make_fiber cos sin p x y z a (d * p_psi p)) /\ mat_check m = Ok true.
  Proof.
    unfold mat_new, mat_init. destruct (reseed R (p_seed p) ent) as [s0|] eqn:E0; [|discriminate]. cbn [bind].
    destruct (Z.ltb_spec (p_n p) 0) as [L|L]; [discriminate|]. set (n := Z.to_nat (p_n p)).
    pose proof (proj1 (draws_spec R n s0)) as D1. destruct (draws R n s0) as [dx s1]. cbn [fst] in D1.
    pose proof (proj1 (draws_spec R n s1)) as D2. destruct (draws R n s1) as [dy s2]. cbn [fst] in D2.
    pose proof (proj1 (draws_spec R n s2)) as D3. destruct (draws R n s2) as [dz s3]. cbn [fst] in D3.
    pose proof (proj1 (draws_spec R n s3)) as D4. destruct (draws R n s3) as [dp s4]. cbn [fst] in D4.
    pose proof (proj1 (draws_spec R n s4)) as D5. destruct (draws R n s4) as [dq s5]. cbn [fst] in D5.
    cbn [bind fst]. set (rows := make_rows cos sin p _ _ _ _ _).
    destruct (mat_check _) as [b|] eqn:EC; [|discriminate]. pose proof (mat_check_true _ _ EC). subst b. cbn [bind]. intros H. injection H as <- <-.
    exists rows. split; [reflexivity|]. split; [|split; [|exact EC]].
    - unfold rows. rewrite (make_rows_length cos sin p n); rewrite ?isort_length, ?map_length; auto. unfold n. rewrite Z2Nat.id; auto.
    - intros f Hf. apply In_nth_error in Hf. destruct Hf as (k & Hk). unfold rows in Hk. apply DrawP.make_rows_nth in Hk.
      destruct Hk as (x & y & z & a & q & _ & _ & _ & _ & Eq5 & ->). apply nth_error_In in Eq5. apply in_map_iff in Eq5. destruct Eq5 as (d & <- & _).
      exists x, y, z, a, d. reflexivity.
  Qed.
  Lemma read_rows rows a : map (fun r => read_fiber (snd r)) (m_rows (mkMatDf mat_columns (enum rows) a)) = map read_fiber rows.
  Proof. cbn [m_rows]. rewrite <- (map_map snd read_fiber), enum_snd. reflexivity. Qed.
  Lemma read_back p ent prior m s : mat_new R cos sin p ent prior = Ok (m, s) -> df_of (read_mat m) = m /\ mat_check m = Ok true.
  Proof.
    intros H. destruct (new_rows p ent prior m s H) as (rows & -> & En & HF & EC). split; [|exact EC].
    unfold read_mat, df_of. rewrite read_rows. cbn [q_rows q_size m_attrs at_size qof]. rewrite !map_length, En. f_equal. f_equal.
    rewrite map_map. rewrite <- (map_id rows) at 2. apply map_ext_in. intros f Hf. destruct (HF f Hf) as (x & y & z & b & d & ->). reflexivity.
  Qed.
  Lemma read_asked p ent prior m s f : mat_new R cos sin p ent prior = Ok (m, s) -> In f (q_rows (read_mat m)) ->
    as_asked p f /\ exists d, qw f = sin (d * p_psi p).
  Proof.
    intros H Hf. destruct (new_rows p ent prior m s H) as (rows & -> & En & HF & EC). unfold read_mat in Hf. rewrite read_rows in Hf. cbn [q_rows] in Hf.
    apply in_map_iff in Hf. destruct Hf as (f' & <- & Hf). destruct (HF f' Hf) as (x & y & z & b & d & ->). split; [repeat split; reflexivity|]. exists d. reflexivity.
  Qed.
  Lemma read_length p ent prior m s : mat_new R cos sin p ent prior = Ok (m, s) -> Z.of_nat (length (q_rows (read_mat m))) = p_n p.
  Proof.
    intros H. destruct (new_rows p ent prior m s H) as (rows & -> & En & _). unfold read_mat. rewrite read_rows. cbn [q_rows]. rewrite map_length. auto.
  Qed.
End Read.

(** ** Elements *)
Section Elements.
  Variable g : mesh_df.
  Hypothesis HM : mesh_ok g.
  Let rows := g_rows g.
  Lemma next_elem i j d e : is_node rows i d -> is_node rows j e -> (i < j)%nat -> nf d = nf e ->
    exists d', beam_element g i (S i) d d' /\ nf d' = nf d.
  Proof.
    destruct HM as (_ & n & _ & _ & _ & HL & _ & _ & _ & HO & HB0 & _). fold rows in HL, HO, HB0.
    intros Hd He L Ef. assert (LS : (S i < length rows)%nat) by (pose proof (node_lt rows j e He); lia).
    destruct (node_ex rows (S i) LS) as (d' & Hd').
    assert (Ef' : nf d' = nf d).
    { destruct (Nat.eq_dec (S i) j) as [E|N]; [subst j; rewrite (node_fun rows HL (S i) d' e Hd' He); auto|].
      pose proof (HO i (S i) d d' ltac:(lia) Hd Hd') as O1.
      pose proof (HO (S i) j d' e ltac:(lia) Hd' He) as O2. lia. }
    exists d'. split; auto. split; auto. split; auto. split; [lia|].
    destruct (HB0 i d Hd) as (b & Eb & d0 & d1 & Hd0 & Hd1 & E01 & HB). rewrite Eb. f_equal.
    assert (d0 = d) by (apply (node_fun rows HL i); auto). subst d0.
    destruct HB as [[HB1 HB2]|[HB1 [HB2 _]]].
    - destruct (Nat.eq_dec b (S i)); auto. destruct (HB2 (S i) d' ltac:(lia) Hd' Ef').
    - destruct (HB2 (S i) d' ltac:(lia) Hd' Ef').
  Qed.
  Lemma long_elem k : forall i j d e, (j - i)%nat = k -> is_node rows i d -> is_node rows j e -> (i < j)%nat -> nf d = nf e -> ns d < ns e ->
    exists i' j' d' e', beam_element g i' j' d' e' /\ ns d' < ns e'.
  Proof.
    pose proof HM as (_ & n & _ & _ & _ & HL & _). fold rows in HL.
    induction k as [|k IH]; intros i j d e Ek Hd He L Ef Ls; [lia|]. destruct (next_elem i j d e Hd He L Ef) as (d' & HB & Ef').
    destruct (Qlt_le_dec (ns d) (ns d')) as [H|H]; [exists i, (S i), d, d'; auto|]. pose proof HB as (_ & Hd' & _).
    destruct (Nat.eq_dec (S i) j) as [E|N]; [subst j; rewrite (node_fun rows HL (S i) d' e Hd' He) in *; lra|].
    apply (IH (S i) j d' e); auto; [lia|lia|congruence|lra].
  Qed.
  Lemma span_elem m : valid m -> spans m g -> q_rows m <> [] -> exists i j d e, beam_element g i j d e /\ ns d < ns e.
  Proof.
    intros Hv HS NE. destruct (q_rows m) as [|f l] eqn:E; [congruence|].
    assert (HF : has_fiber m 0 f) by (split; [lia|rewrite E; reflexivity]).
    destruct (HS 0%Z f HF) as (i & d & j & e & (Hd & Fd & _) & (He & Fe & _) & L & S0 & S1).
    apply (long_elem (j - i) i j d e); auto; [congruence|].
    assert (P : 0 < ql f) by (apply (valid_fiber m Hv f); rewrite E; left; reflexivity). rewrite S0, S1. qlra.
  Qed.
End Elements.

(** ** The value at the end of the run *)
Lemma call_two n y t : (2 <= n)%nat -> t == 1 -> forall v, nth (n - 2) y NaN = Fin v -> nth (n - 1) y NaN = Fin v ->
  is_num (call_linear (linspace n) y t) v.
Proof.
  intros Hn Et v E0 E1. pose proof (d_pos n Hn) as D. cbv zeta in D. unfold call_linear.
  assert (EP : t == param n (n - 2) 1).
  { rewrite Et. unfold param. fold (nq (n - 2)) (nq (n - 1)). assert (ES : nq (n - 2) + 1 == nq (n - 1)) by (rewrite <- nq_S; replace (S (n - 2)) with (n - 1)%nat by lia; reflexivity).
    rewrite ES. field. lra. }
  rewrite (search_left_eq n Hn (n - 2) 1 t EP ltac:(lra) ltac:(lra) ltac:(lia)). rewrite linspace_length.
  replace (Nat.min (Nat.max (S (n - 2)) 1) (n - 1)) with (n - 1)%nat by lia.
  destruct (Nat.eqb_spec (n - 1) 0) as [E|_]; [lia|]. replace (n - 1 - 1)%nat with (n - 2)%nat by lia. rewrite E0, E1.
  rewrite !linspace_nth by lia.
  assert (NZ : ~ nq (n - 1) / nq (n - 1) - nq (n - 2) / nq (n - 1) == 0).
  { intros E. assert (ES : nq (n - 1) == nq (n - 2) + 1) by (rewrite <- nq_S; replace (S (n - 2)) with (n - 1)%nat by lia; reflexivity).
    assert (E2 : (nq (n - 1) / nq (n - 1) - nq (n - 2) / nq (n - 1)) * nq (n - 1) == 0) by (rewrite E; ring).
    field_simplify in E2; lra. }
  cbn [nsub nopp nadd ndiv]. destruct (Qeqb _ 0) eqn:Q; [apply Qeqb_eq in Q; contradiction|].
  cbn [nmul nadd]. eexists. split; [reflexivity|]. assert (Z0 : v + - v == 0) by ring. rewrite Z0. unfold Qdiv. ring.
Qed.
Lemma call_end y size t : y <> [] -> samples_ok size -> t == 1 -> is_num (interp_call (interp_new LinearVec (map Fin y) size) t) (nth (length y - 1) y 0).
Proof.
  intros NE Hs Et. destruct y as [|v [|w y]]; [congruence| |].
  - cbn [length Nat.sub nth map]. unfold interp_call. rewrite new_t. change (in_kind _) with LinearVec. change (in_fill _) with (Fin v).
    destruct size as [n|]; cbn [msize].
    + simpl in Hs. change (msize [Fin v] (Some n)) with n. rewrite eval_in by (try lia; lra). cbn [call].
      assert (G : forall k, (0 < k < n)%nat -> nth k (in_y (interp_new LinearVec [Fin v] (Some n))) NaN = Fin v).
      { intros k Hk. rewrite new_y. change (msize [Fin v] (Some n)) with n. pose proof (d_pos n ltac:(lia)) as D. cbv zeta in D.
        erewrite nth_error_nth; [|rewrite nth_error_map, (nth_error_nth' (linspace n) 0) by (rewrite linspace_length; lia); rewrite linspace_nth by lia; reflexivity].
        cbn [length]. unfold linspace, eval1d. cbn [seq map Nat.eqb last]. change (ylast [Fin v]) with (Fin v).
        assert (P : 0 < nq k / nq (n - 1)). { apply Qlt_shift_div_l; [lra|]. pose proof (nq_lt 0 k ltac:(lia)). change (nq 0) with 0 in *. lra. }
        apply Qltb_lt in P. rewrite P, orb_true_r. reflexivity. }
      apply call_two; [lia|exact Et|apply G; lia|apply G; lia].
    + change (msize [Fin v] None) with 1%nat. unfold linspace, eval1d. cbn [length seq map Nat.eqb last].
      assert (P : Qltb 0 t = true) by (apply Qltb_lt; lra). rewrite P, orb_true_r. exists v. split; reflexivity.
  - apply api_ends; [left; reflexivity|simpl; lia| |exact Et]. destruct size; simpl in *; [lia|exact I].
Qed.
Section End.
  Variables (vs : list (list num)) (n : nat) (size : option nat).
  Hypothesis Hv : forall v, In v vs -> finite_vec v /\ length v = n.
  Hypothesis NE : vs <> [].
  Hypothesis Hs : samples_ok size.
  Lemma end_length : length (call_vec (interp_vec LinearVec vs size) 1) = n.
  Proof.
    clear - Hv NE. unfold call_vec, interp_vec. rewrite !map_length, seq_length. destruct vs as [|v l]; [congruence|]. apply Hv. left. reflexivity.
  Qed.
  Lemma end_value j : (j < n)%nat -> is_num (nth j (call_vec (interp_vec LinearVec vs size) 1) NaN) (nth j (vals (nth (length vs - 1) vs [])) 0).
  Proof.
    intros L. assert (EL : length (hd [] vs) = n) by (clear - Hv NE; destruct vs as [|v l]; [congruence|]; apply Hv; left; reflexivity).
    unfold call_vec, interp_vec. rewrite map_map, EL. erewrite nth_error_nth; [|rewrite nth_error_map, seq_error by auto; reflexivity].
    rewrite component_fin; [|intros v H; destruct (Hv v H) as [F E]; split; auto; lia].
    assert (LV : (0 < length vs)%nat) by (destruct vs; [congruence|simpl; lia]).
    eapply is_num_eqv; [apply call_end; [|exact Hs|reflexivity]|].
    - intros E. apply map_eq_nil in E. congruence.
    - rewrite map_length. destruct (nth_error vs (length vs - 1)) as [v|] eqn:E; [|apply nth_error_None in E; lia].
      rewrite (nth_error_nth _ _ _ E). erewrite nth_error_nth; [reflexivity|]. rewrite nth_error_map, E. reflexivity.
  Qed.
  Lemma end_finite : finite_vec (call_vec (interp_vec LinearVec vs size) 1).
  Proof.
    intros v Hvv. apply (In_nth _ _ NaN) in Hvv. destruct Hvv as (j & Lj & <-). rewrite end_length in Lj.
    destruct (end_value j Lj) as (q & -> & _). eauto.
  Qed.
  Lemma end_vals j : nth j (vals (call_vec (interp_vec LinearVec vs size) 1)) 0 == nth j (vals (nth (length vs - 1) vs [])) 0.
  Proof.
    destruct (Nat.lt_ge_cases j n) as [L|L].
    - rewrite nth_vals by (rewrite end_length; auto). apply is_num_qof. apply end_value. exact L.
    - rewrite !nth_overflow; [reflexivity| |]; unfold vals; rewrite map_length; [|rewrite end_length; auto].
      assert (LV : (0 < length vs)%nat) by (destruct vs; [congruence|simpl; lia]).
      destruct (Hv (nth (length vs - 1) vs [])) as [_ ->]; auto. apply nth_In. lia.
  Qed.
End End.

(** ** Splitting vectors *)
Lemma every_other_nth {A} (d : A) : forall k l, length l = (2 * k)%nat -> length (fst (every_other l)) = k /\ length (snd (every_other l)) = k /\
  forall i, nth i (fst (every_other l)) d = nth (2 * i) l d /\ nth i (snd (every_other l)) d = nth (2 * i + 1) l d.
Proof.
  induction k as [|k IH]; intros l E.
  - destruct l; [|discriminate E]. split; [reflexivity|]. split; [reflexivity|]. intros i. destruct i; split; try reflexivity; symmetry; apply nth_overflow; simpl; lia.
  - destruct l as [|a [|b t]]; simpl in E; try lia. destruct (IH t ltac:(lia)) as (L1 & L2 & H). cbn [every_other].
    destruct (every_other t) as [x y]. cbn [fst snd length] in *. split; [lia|]. split; [lia|]. intros [|i]; [split; reflexivity|].
    destruct (H i) as [H1 H2]. split; [transitivity (nth i x d); [reflexivity|]|transitivity (nth i y d); [reflexivity|]].
    + rewrite H1. replace (2 * S i)%nat with (S (S (2 * i))) by lia. reflexivity.
    + rewrite H2. replace (2 * S i + 1)%nat with (S (S (2 * i + 1))) by lia. reflexivity.
Qed.
Lemma finite_arg_ok l : finite_vec l -> finite_arg l = Ok (vals l).
Proof.
  intros F. unfold finite_arg. replace (forallb is_fin l) with true; [reflexivity|]. symmetry. apply forallb_forall. intros v Hv. destruct (F v Hv) as (q & ->). reflexivity.
Qed.
Lemma finite_arg_inv l y : finite_arg l = Ok y -> y = vals l /\ finite_vec l.
Proof.
  unfold finite_arg. destruct (forallb is_fin l) eqn:E; [|discriminate]. intros H. injection H as <-. split; [reflexivity|].
  rewrite forallb_forall in E. intros v Hv. specialize (E v Hv). destruct v; try discriminate E. eauto.
Qed.

(** ** Nodal forces *)
Section Pull.
  Variables (m : qmat) (g : mesh_df) (cs : csys).
  Hypothesis Hcs : constraint m g = Ok cs.
  Hypothesis noflag : ~ flag_set (g_attrs g).
  Let nu := (2 * length (g_rows g))%nat.
  Variable f : list num.
  Hypothesis Ff : finite_vec f.
  Hypothesis Lf : length f = length (csH cs).
  Lemma pull_at r : matvec (map (fun e => (snd (fst e), fst (fst e), snd e)) (csC cs)) f r = Fin (transpose_product (csC cs) (vals f) r).
  Proof.
    assert (ENT : forall i c v, In (i, c, v) (csC cs) -> exists q a, v = Fin q /\ nth i f NaN = Fin a /\ nth i (vals f) 0 = a).
    { intros i c v H. destruct (C_lt m g cs Hcs noflag i c v H) as ((L & _) & (q & ->)). rewrite <- (csH_len m g cs Hcs), <- Lf in L.
      destruct (Ff (nth i f NaN) (nth_In _ _ L)) as (a & Ea). exists q, a. split; [reflexivity|]. split; [exact Ea|]. rewrite nth_vals by exact L. rewrite Ea. reflexivity. }
    unfold matvec, transpose_product. rewrite map_map. rewrite nsum_fin.
    - f_equal. rewrite map_map. f_equal. apply map_ext_in. intros [[i c] v] H. cbn [fst snd]. destruct (ENT i c v H) as (q & a & -> & Ea & Eb).
      destruct (Nat.eqb c r); [|reflexivity]. rewrite Ea, Eb. reflexivity.
    - intros x Hx. apply in_map_iff in Hx. destruct Hx as ([[i c] v] & <- & H). cbn [fst snd]. destruct (ENT i c v H) as (q & a & -> & Ea & Eb).
      destruct (Nat.eqb c r); [|eexists; reflexivity]. rewrite Ea. eexists. reflexivity.
  Qed.
  Lemma pull_finite : finite_vec (pull nu (csC cs) f).
  Proof. intros v Hv. unfold pull in Hv. apply in_map_iff in Hv. destruct Hv as (r & <- & _). rewrite pull_at. eauto. Qed.
  Lemma pull_length : length (pull nu (csC cs) f) = nu.
  Proof. unfold pull. rewrite map_length, seq_length. reflexivity. Qed.
  Lemma pull_vals r : (r < nu)%nat -> nth r (vals (pull nu (csC cs) f)) 0 = transpose_product (csC cs) (vals f) r.
  Proof.
    intros L. rewrite nth_vals by (rewrite pull_length; exact L). unfold pull. erewrite nth_error_nth; [|rewrite nth_error_map, seq_error by exact L; reflexivity].
    rewrite pull_at. reflexivity.
  Qed.
End Pull.
Lemma no_moment m g cs f i : constraint m g = Ok cs -> transpose_product (csC cs) f (2 * i + 1) == 0.
Proof.
  intros Hcs. unfold transpose_product. apply qsum_zeros. intros x Hx. apply in_map_iff in Hx. destruct Hx as ([[r c] v] & <- & H).
  rewrite (csC_eq m g cs Hcs) in H. destruct (c_matrix_in _ _ _ _ H) as (k & a & b & _ & D).
  destruct (Nat.eqb_spec c (2 * i + 1)) as [E|N]; [|reflexivity]. decompose [or and] D; lia.
Qed.
Lemma transpose_ext C f f' r : (forall j, nth j f 0 == nth j f' 0) -> transpose_product C f r == transpose_product C f' r.
Proof.
  intros H. unfold transpose_product. apply qsum_ext. intros [[i c] v] _. destruct (Nat.eqb c r); [rewrite H|]; reflexivity.
Qed.

(** ** The fields given to the renderer after a run *)
Lemma run_fields lsolve m g cs S h p size : constraint m g = Ok cs -> ~ flag_set (g_attrs g) -> solve lsolve m g p = Ok (S, h) -> tolerances_ok p -> samples_ok size ->
  (forall s, In s h -> reliable lsolve m g p S s) -> let r := results_of S h size in
  finite_vec (call_vec (r_u r) 1) /\ finite_vec (pull (2 * length (g_rows g)) (csC cs) (call_vec (r_f r) 1)) /\
  forall s, last_state h s -> let y := every_other (vals (call_vec (r_u r) 1)) in
    let z := every_other (vals (pull (2 * length (g_rows g)) (csC cs) (call_vec (r_f r) 1))) in
    fields_of g (csC cs) S s (fst y) (snd y) (fst z) (snd z).
Proof.
  intros Hcs NF HS TOL SZ REL r.
  assert (NE : h <> []) by (destruct (solve_inv _ _ _ _ _ _ HS) as (K & cs' & _ & _ & _ & ->); discriminate).
  assert (HU : forall v, In v (map (st_u S) h) -> finite_vec v /\ length v = (2 * length (g_rows g))%nat).
  { intros v Hv. apply in_map_iff in Hv. destruct Hv as (s & <- & Hs). destruct (fin_finite _ _ _ _ _ _ HS NF TOL s Hs (REL s Hs)) as (F1 & _).
    destruct (fin_lengths _ _ _ _ _ _ HS cs Hcs s Hs) as (L1 & _). split; assumption. }
  assert (HF : forall v, In v (map (st_f S) h) -> finite_vec v /\ length v = length (csH cs)).
  { intros v Hv. apply in_map_iff in Hv. destruct Hv as (s & <- & Hs). destruct (fin_finite _ _ _ _ _ _ HS NF TOL s Hs (REL s Hs)) as (_ & F1 & _).
    destruct (fin_lengths _ _ _ _ _ _ HS cs Hcs s Hs) as (_ & _ & L1 & _). split; assumption. }
  assert (NU : map (st_u S) h <> []) by (intros E; apply map_eq_nil in E; congruence).
  assert (NFF : map (st_f S) h <> []) by (intros E; apply map_eq_nil in E; congruence).
  pose proof (end_finite _ _ (size) HU NU SZ) as FU. pose proof (end_finite _ _ (size) HF NFF SZ) as FF.
  pose proof (end_length _ _ (size) HU NU) as LU. pose proof (end_length _ _ (size) HF NFF) as LF.
  pose proof (end_vals _ _ (size) HU NU SZ) as VU. pose proof (end_vals _ _ (size) HF NFF SZ) as VF.
  change (r_u r) with (interp_vec LinearVec (map (st_u S) h) (size)). change (r_f r) with (interp_vec LinearVec (map (st_f S) h) (size)).
  pose proof (pull_finite m g cs Hcs NF _ FF LF) as PF. split; [exact FU|]. split; [exact PF|].
  intros s (k & Hk & Lk). cbv zeta. set (uu := call_vec (interp_vec LinearVec (map (st_u S) h) (size)) 1) in *.
  set (ff := call_vec (interp_vec LinearVec (map (st_f S) h) (size)) 1) in *. set (zz := pull (2 * length (g_rows g)) (csC cs) ff).
  assert (EU : nth (length (map (st_u S) h) - 1) (map (st_u S) h) [] = st_u S s).
  { rewrite map_length, Lk. replace (Datatypes.S k - 1)%nat with k by lia. apply nth_error_nth. rewrite nth_error_map, Hk. reflexivity. }
  assert (EF : nth (length (map (st_f S) h) - 1) (map (st_f S) h) [] = st_f S s).
  { rewrite map_length, Lk. replace (Datatypes.S k - 1)%nat with k by lia. apply nth_error_nth. rewrite nth_error_map, Hk. reflexivity. }
  rewrite EU in VU. rewrite EF in VF.
  assert (LZ : length zz = (2 * length (g_rows g))%nat) by (apply pull_length).
  destruct (every_other_nth 0 (length (g_rows g)) (vals uu)) as (A1 & A2 & A3); [unfold vals; rewrite map_length; exact LU|].
  destruct (every_other_nth 0 (length (g_rows g)) (vals zz)) as (B1 & B2 & B3); [unfold vals; rewrite map_length; exact LZ|].
  split; [exact A1|]. split; [exact A2|]. split; [exact B1|]. split; [exact B2|]. intros i Li. destruct (A3 i) as (-> & ->). destruct (B3 i) as (-> & ->).
  unfold zz. rewrite (pull_vals m g cs Hcs NF _ FF LF) by lia. rewrite (pull_vals m g cs Hcs NF _ FF LF) by lia.
  split; [apply VU|]. split; [apply VU|]. split; [apply transpose_ext; exact VF|apply (no_moment m g cs _ i Hcs)].
Qed.

(** ** The script *)
Section Script.
  Variable R : rng.
  Variables cos sin : Q -> Q.
  Variable linprog : lp -> list Q.
  Variable rcm : nat -> ncoo -> list nat.
  Variable lsolve : ncoo -> list num -> list num.
  Variable cyl : list vec.
  Variable place : qfiber -> vec -> vec.
  Variable near : list Q -> Q -> nat.
  Hypothesis LP : right_linprog linprog.

  (** what the modules before the mechanical model establish *)
  Lemma made_facts m0 per thr t st m g : net_new m0 per None = Ok t -> stack_new linprog m0 t thr = Ok (st, m) -> mesh_new st = Ok g ->
    valid m /\ mesh_ok g /\ spans m g /\ ~ flag_set (g_attrs g) /\ at_n (g_attrs g) = Some (Z.of_nat (length (q_rows m))) /\ same_but_heights m0 m /\
    at_periodic (g_attrs g) = Some per.
  Proof.
    intros Hn Hst Hg. pose proof (LP _ _ _ Hn) as Hs. destruct (stack_ready linprog _ per t thr st m g Hn Hs Hst Hg) as (V & M & SP).
    destruct (built_inv linprog _ per t Hn Hs thr st m Hst) as (p & _ & _ & SB & _ & full & Hfull & Est).
    split; [exact V|]. split; [exact M|]. split; [exact SP|]. split; [exact (stack_noflag linprog _ per t thr st m g Hn Hs Hst Hg)|].
    destruct (new_facts _ _ _ _ Hfull) as (_ & _ & LF & _ & PER). destruct (init_inv st g (mesh_new_inv _ _ Hg)) as (_ & ->). cbn [g_attrs].
    rewrite Est. destruct thr; cbn [filter_net n_attrs]; (split; [exact LF|]; split; [exact SB|exact PER]).
  Qed.
  Lemma same_in m0 m f : same_but_heights m0 m -> In f (q_rows m) -> exists f0, In f0 (q_rows m0) /\ same_but_z f0 f.
  Proof.
    intros (_ & F) Hf. induction F as [|a b l l' H _ IH]; [destruct Hf|]. destruct Hf as [<-|Hf]; [exists a; split; [left; reflexivity|exact H]|].
    destruct (IH Hf) as (f0 & I0 & S0). exists f0. split; [right; exact I0|exact S0].
  Qed.
  Lemma same_len m0 m : same_but_heights m0 m -> length (q_rows m) = length (q_rows m0).
  Proof. intros (_ & F). symmetry. apply (NetZP.Forall2_len _ _ _ F). Qed.
  Lemma last_ex (h : list state) : h <> [] -> exists s, last_state h s.
  Proof.
    intros NE. destruct (nth_error h (length h - 1)) as [s|] eqn:E.
    - exists s, (length h - 1)%nat. split; [exact E|]. destruct h; [congruence|simpl; lia].
    - apply nth_error_None in E. destruct h; [congruence|simpl in E; lia].
  Qed.

  Section Back.
    Variable o : options.
    Hypothesis OK : options_ok o.
    Hypothesis COPE : solver_copes lsolve o.
    Hypothesis NUM : right_numbering rcm.
    Variables (md : mat_df) (s1 ent prior : rng_state R) (t st : net_df) (m : qmat) (g : mesh_df).
    Hypothesis Hmd : mat_new R cos sin (op_mat o) ent prior = Ok (md, s1).
    Hypothesis Hn : net_new (read_mat md) (op_periodic o) None = Ok t.
    Hypothesis Hst : stack_new linprog (read_mat md) t (op_threshold o) = Ok (st, m).
    Hypothesis Hg : mesh_new st = Ok g.
    Lemma back_facts : valid m /\ mesh_ok g /\ spans m g /\ ~ flag_set (g_attrs g) /\ at_n (g_attrs g) = Some (Z.of_nat (length (q_rows m))) /\ same_but_heights (read_mat md) m /\
      at_periodic (g_attrs g) = Some (op_periodic o).
    Proof. apply (made_facts (read_mat md) _ (op_threshold o) t st); auto. Qed.
    Lemma back_asked f : In f (q_rows m) -> as_asked (op_mat o) f /\ exists d, qw f = sin (d * p_psi (op_mat o)).
    Proof.
      intros Hf. destruct back_facts as (_ & _ & _ & _ & _ & SB & _). destruct (same_in _ _ f SB Hf) as (f0 & I0 & (E1 & E2 & E3 & _ & _ & _ & _ & E8 & E9 & E10)).
      destruct (read_asked R cos sin _ ent prior md s1 f0 Hmd I0) as ((A1 & A2 & A3 & A4 & A5) & d & W). split; [repeat split; congruence|]. exists d. congruence.
    Qed.
    Lemma back_count : Z.of_nat (length (q_rows m)) = p_n (op_mat o).
    Proof. destruct back_facts as (_ & _ & _ & _ & _ & SB & _). rewrite (same_len _ _ SB). apply (read_length R cos sin _ ent prior md s1 Hmd). Qed.
    Lemma back_rows : q_rows m <> [].
    Proof. destruct OK as (_ & N1 & _). intros E. pose proof back_count as B. rewrite E in B. simpl in B. lia. Qed.
    Lemma back_elem : exists i j d e, beam_element g i j d e /\ ns d < ns e.
    Proof. destruct back_facts as (V & M & SP & _). exact (span_elem g M m V SP back_rows). Qed.
    Lemma back_tols perm : tolerances_ok (solver_args o perm).
    Proof. destruct OK as (_ & _ & T1 & T2 & _). split; assumption. Qed.
    Lemma back_shear G : p_shear (op_mat o) = Fin G -> finite_shear m.
    Proof. intros E f Hf. destruct (back_asked f Hf) as ((_ & _ & _ & EG & _) & _). exists G. congruence. Qed.
    Lemma back_lengths perm l : op_lmin o = Some l -> 0 < l -> (forall l, op_lmax o = Some l -> 0 < l) -> lengths_ok g (sp_lmin (solver_args o perm)) (sp_lmax (solver_args o perm)).
    Proof.
      intros E1 L1 L2. cbn [sp_lmin sp_lmax solver_args]. split; [rewrite E1; exact L1|]. destruct (op_lmax o) as [l'|]; [exact (L2 _ eq_refl)|exact back_elem].
    Qed.
    Lemma back_reliable cs S h P : constraint m g = Ok cs ->
      let perm := rcm (2 * length (g_rows g) + length (csH cs)) P in solve lsolve m g (solver_args o perm) = Ok (S, h) ->
      forall s, In s h -> reliable lsolve m g (solver_args o perm) S s.
    Proof.
      intros Hcs perm HS s Hs. destruct COPE as (RL & C). split; [exact RL|]. destruct C as [C|(FN & E0 & (l & E1 & L1) & L2 & (G & EG))]; [left; exact C|right].
      split; [exact FN|]. split; [|split; [exact (back_lengths perm l E1 L1 L2)|split; [exact (back_shear G EG)|left]]].
      - destruct (solve_inv _ _ _ _ _ _ HS) as (K & cs' & _ & Hcs' & ES & _). rewrite Hcs in Hcs'. injection Hcs' as <-.
        intros r Hr. rewrite ES in Hr |- *. cbn [sy_dq sy_perm solver_args sp_perm] in *. apply (Permutation_in (l := seq 0 (2 * length (g_rows g) + length (csH cs)))).
        + apply Permutation_sym. apply NUM.
        + apply in_seq. rewrite app_length, repeat_length, (csdH_len m g cs Hcs), <- (csH_len m g cs Hcs) in Hr. lia.
      - destruct (solve_inv _ _ _ _ _ _ HS) as (K & cs' & _ & _ & ES & _). rewrite ES. exact E0.
    Qed.
    (** the fields given to the renderer *)
    Lemma back_fields cs S h P : constraint m g = Ok cs ->
      let perm := rcm (2 * length (g_rows g) + length (csH cs)) P in solve lsolve m g (solver_args o perm) = Ok (S, h) ->
      let r := results_of S h (op_size o) in
      finite_vec (call_vec (r_u r) 1) /\ finite_vec (pull (2 * length (g_rows g)) (csC cs) (call_vec (r_f r) 1)) /\
      forall s, last_state h s -> let y := every_other (vals (call_vec (r_u r) 1)) in
        let z := every_other (vals (pull (2 * length (g_rows g)) (csC cs) (call_vec (r_f r) 1))) in
        fields_of g (csC cs) S s (fst y) (snd y) (fst z) (snd z).
    Proof.
      intros Hcs perm HS. destruct back_facts as (V & M & SP & NF & _). destruct OK as (_ & _ & _ & _ & SZ).
      exact (run_fields lsolve m g cs S h _ (op_size o) Hcs NF HS (back_tols _) SZ (back_reliable cs S h P Hcs HS)).
    Qed.
  End Back.

  (** *** the script returns *)
  Lemma script_total o ent prior : draws_in_range R -> trig_accurate cos sin -> options_ok o -> right_numbering rcm -> solver_copes lsolve o ->
    unit_cylinder cyl -> right_tree near -> exists out, script R cos sin linprog rcm lsolve cyl place near o ent prior = Ok out.
  Proof.
    intros HR HT OK NUM COPE HC HN. destruct (mat_generated R cos sin (op_mat o) ent prior HR HT (proj1 OK)) as (md & s1 & Hmd & _).
    assert (V0 : valid (read_mat md)).
    { destruct (read_back R cos sin _ ent prior md s1 Hmd) as (E & EC). unfold valid. rewrite E. apply mat_check_ok in EC. destruct EC as [F|M]; [|exact M].
      rewrite <- E in F. discriminate F. }
    destruct (net_total (read_mat md) (op_periodic o) None V0) as (t & Hn). { intros l p q H. discriminate H. }
    pose proof (LP _ _ _ Hn) as SL. destruct (new_facts _ _ _ _ Hn) as (_ & NO & LF & NFt & _).
    destruct (stack_total linprog (read_mat md) t (op_threshold o) V0 NO LF NFt SL) as (st & m & Hst).
    destruct (stack_mesh_total linprog _ _ t _ st m Hn SL Hst) as (g & Hg & _).
    destruct (back_facts o md t st m g Hn Hst Hg) as (V & M & SP & NF & AN & SB & _).
    destruct (back_elem o OK md s1 ent prior t st m g Hmd Hn Hst Hg) as (i & j & d & e & HB & _).
    assert (NE : g_rows g <> []). { destruct HB as ((l & H) & _). intros E. rewrite E in H. destruct i; discriminate H. }
    destruct (stiffness_total m g None None 1 V M AN (ex_intro _ i (ex_intro _ j (ex_intro _ d (ex_intro _ e HB))))) as (K & HK).
    destruct (mesh_constraint_total m g V M NE AN) as (cs & Hcs).
    unfold script. rewrite Hmd. cbn [bind fst]. rewrite Hn. cbn [bind]. rewrite Hst. cbn [bind fst snd]. rewrite Hg. cbn [bind]. rewrite HK. cbn [bind].
    rewrite Hcs. cbn [bind]. set (perm := rcm _ _).
    destruct (plot_total lsolve m g None None 1 K cs HK Hcs (repeat (Fin 0) (2 * length (g_rows g))) (repeat (Fin 0) (2 * length (g_rows g)))
      (repeat (Fin 0) (2 * length (g_rows g))) (repeat (Fin 0) (2 * length (g_rows g))) (repeat (Fin 0) (length (csH cs))) (csH cs)
      (repeat (Fin 0) (length (csH cs))) (csdH cs) (Some perm) (1 # 1000000)) as (pic & er & HP).
    { intros v [<- | [<- | [<- | [<- | []]]]]; apply repeat_length. }
    { intros v [<- | [<- | [<- | [<- | []]]]]; try apply repeat_length; [reflexivity|]. rewrite (csdH_len m g cs Hcs), (csH_len m g cs Hcs). reflexivity. }
    rewrite HP. cbn [bind].
    destruct (solve_total lsolve m g (solver_args o perm) V M AN (ex_intro _ i (ex_intro _ j (ex_intro _ d (ex_intro _ e HB))))) as (S & h & HS).
    unfold solve_full. rewrite HS. cbn [bind fst snd].
    destruct (back_fields o OK COPE NUM md s1 ent prior t st m g Hmd Hn Hst Hg cs S h _ Hcs HS) as (F1 & F2 & F3).
    rewrite (finite_arg_ok _ F1). cbn [bind]. rewrite (finite_arg_ok _ F2). cbn [bind].
    destruct (solve_inv _ _ _ _ _ _ HS) as (K' & cs' & _ & _ & _ & Eh).
    destruct (last_ex h) as (s & Hs); [rewrite Eh; discriminate|]. specialize (F3 s Hs). cbv zeta in F3.
    destruct (every_other (vals (call_vec _ 1))) as [dd rr]. destruct (every_other (vals (pull _ _ _))) as [ff tt]. cbn [fst snd] in F3.
    destruct F3 as (N1 & N2 & N3 & N4 & _).
    destruct (api_total cyl place near m g (Some dd) (Some rr) (Some ff) (Some tt)) as (pts & Hp).
    { split; [exact HC|]. split; [exact HN|]. split; [exact V|]. split; [exact M|]. split; [exact SP|].
      split; [intros v H; injection H as <-; exact N1|]. split; [intros _ v H; injection H as <-; exact N2|].
      split; [intros v H; injection H as <-; exact N3|]. intros _ v H; injection H as <-; exact N4. }
    rewrite Hp. cbn [bind]. eauto.
  Qed.

  (** *** and what it returns *)
  Lemma script_inv o ent prior out : script R cos sin linprog rcm lsolve cyl place near o ent prior = Ok out ->
    exists md s1 K cs S h disp rot force moment,
      mat_new R cos sin (op_mat o) ent prior = Ok (md, s1) /\ net_new (read_mat md) (op_periodic o) None = Ok (out_net out) /\
      stack_new linprog (read_mat md) (out_net out) (op_threshold o) = Ok (out_stack out, out_mat out) /\ mesh_new (out_stack out) = Ok (out_mesh out) /\
      let m := out_mat out in let g := out_mesh out in let r := out_results out in let nu := (2 * length (g_rows g))%nat in
      stiffness m g None None 1 = Ok K /\ constraint m g = Ok cs /\
      out_perm out = rcm (nu + length (csH cs))%nat (bmat nu K (csC cs)) /\
      plot_system lsolve nu (length (csH cs)) K (csC cs) (repeat (Fin 0) nu) (repeat (Fin 0) nu) (repeat (Fin 0) nu) (repeat (Fin 0) nu)
        (repeat (Fin 0) (length (csH cs))) (csH cs) (repeat (Fin 0) (length (csH cs))) (csdH cs) (Some (out_perm out)) (1 # 1000000) = Ok (out_picture out, out_error out) /\
      solve lsolve m g (solver_args o (out_perm out)) = Ok (S, h) /\ r = results_of S h (op_size o) /\
      (disp, rot) = every_other (vals (call_vec (r_u r) 1)) /\ (force, moment) = every_other (vals (pull nu (csC cs) (call_vec (r_f r) 1))) /\
      vtk_mesh cyl place near m g (Some disp) (Some rot) (Some force) (Some moment) = Ok (out_points out).
  Proof.
    unfold script. destruct (mat_new R cos sin (op_mat o) ent prior) as [[md s1]|] eqn:Hmd; [|discriminate]. cbn [bind fst].
    destruct (net_new _ _ _) as [t|] eqn:Hn; [|discriminate]. cbn [bind]. destruct (stack_new _ _ _ _) as [[st m]|] eqn:Hst; [|discriminate]. cbn [bind fst snd].
    destruct (mesh_new st) as [g|] eqn:Hg; [|discriminate]. cbn [bind]. destruct (stiffness m g _ _ _) as [K|] eqn:HK; [|discriminate]. cbn [bind].
    destruct (constraint m g) as [cs|] eqn:Hcs; [|discriminate]. cbn [bind]. set (perm := rcm _ _).
    destruct (plot_system _ _ _ _ _ _ _ _ _ _ _ _ _ _ _) as [[pic er]|] eqn:HP; [|discriminate]. cbn [bind].
    unfold solve_full. destruct (solve _ _ _ _) as [[S h]|] eqn:HS; [|discriminate]. cbn [bind fst snd].
    destruct (finite_arg (call_vec _ 1)) as [y|] eqn:E1; [|discriminate]. cbn [bind]. destruct (finite_arg (pull _ _ _)) as [z|] eqn:E2; [|discriminate]. cbn [bind].
    apply finite_arg_inv in E1. destruct E1 as [-> _]. apply finite_arg_inv in E2. destruct E2 as [-> _].
    destruct (every_other (vals (call_vec _ 1))) as [dd rr] eqn:E1. destruct (every_other (vals (pull _ _ _))) as [ff tt] eqn:E2.
    destruct (vtk_mesh _ _ _ _ _ _ _ _ _) as [pts|] eqn:HV; [|discriminate]. cbn [bind]. intros H. injection H as <-.
    cbn [out_mat out_net out_stack out_mesh out_perm out_picture out_error out_results out_points fst snd].
    exists md, s1, K, cs, S, h, dd, rr, ff, tt. cbv zeta. cbn [out_mat out_net out_stack out_mesh out_perm out_picture out_error out_results out_points fst snd].
    split; [reflexivity|]. split; [exact Hn|]. split; [exact Hst|]. split; [exact Hg|]. split; [exact HK|]. split; [exact Hcs|]. split; [reflexivity|].
    split; [exact HP|]. split; [exact HS|]. split; [reflexivity|]. split; [symmetry; exact E1|]. split; [symmetry; exact E2|exact HV].
  Qed.

  (** *** statements *)
  Lemma script_fibers o ent prior out : script R cos sin linprog rcm lsolve cyl place near o ent prior = Ok out ->
    Z.of_nat (length (q_rows (out_mat out))) = p_n (op_mat o) /\ q_size (out_mat out) = p_size (op_mat o) /\
    (forall f, In f (q_rows (out_mat out)) -> as_asked (op_mat o) f) /\ valid (out_mat out) /\
    mesh_ok (out_mesh out) /\ spans (out_mat out) (out_mesh out) /\ at_periodic (g_attrs (out_mesh out)) = Some (op_periodic o).
  Proof.
    intros H. destruct (script_inv o ent prior out H) as (md & s1 & K & cs & S & h & dd & rr & ff & tt & Hmd & Hn & Hst & Hg & _).
    destruct (back_facts o md _ _ _ _ Hn Hst Hg) as (V & M & SP & _ & _ & SB & PER).
    split; [exact (back_count o md s1 ent prior _ _ _ _ Hmd Hn Hst Hg)|]. split.
    { destruct SB as [E _]. rewrite <- E. destruct (new_rows R cos sin _ ent prior md s1 Hmd) as (rows & -> & _). reflexivity. }
    split; [intros f Hf; exact (proj1 (back_asked o md s1 ent prior _ _ _ _ Hmd Hn Hst Hg f Hf))|]. split; [exact V|]. split; [exact M|]. split; [exact SP|exact PER].
  Qed.
  Section Shown.
    Variable o : options.
    Variables ent prior : rng_state R.
    Variable out : outcome.
    Hypothesis OK : options_ok o.
    Hypothesis NUM : right_numbering rcm.
    Hypothesis COPE : solver_copes lsolve o.
    Hypothesis RUN : script R cos sin linprog rcm lsolve cyl place near o ent prior = Ok out.
    Lemma script_shown : exists K cs S s d r f t, solver_run lsolve o out K cs S s /\ fields_of (out_mesh out) (csC cs) S s d r f t /\ exported cyl place near out d r f t.
    Proof.
      destruct (script_inv o ent prior out RUN) as (md & s1 & K0 & cs & S & h & dd & rr & ff & tt & Hmd & Hn & Hst & Hg & W). cbv zeta in W.
      destruct W as (HK0 & Hcs & EP & _ & HS & ER & E1 & E2 & HV). destruct (solve_inv _ _ _ _ _ _ HS) as (K & cs' & HK & _ & _ & Eh).
      destruct (last_ex h) as (s & Hs); [rewrite Eh; discriminate|].
      exists K, cs, S, s, dd, rr, ff, tt. split; [|split; [|exact HV]].
      - split; [exact HK|]. split; [exact Hcs|]. exists h. split; [exact HS|]. split; [exact ER|exact Hs].
      - rewrite EP in HS. destruct (back_fields o OK COPE NUM md s1 ent prior _ _ _ _ Hmd Hn Hst Hg cs S h _ Hcs HS) as (_ & _ & F). specialize (F s Hs). cbv zeta in F.
        rewrite <- ER, <- E1, <- E2 in F. exact F.
    Qed.
    Variables (K : ncoo) (cs : csys) (S : sysdata) (s : state) (d r f t : list Q).
    Hypothesis SR : solver_run lsolve o out K cs S s.
    Hypothesis FO : fields_of (out_mesh out) (csC cs) S s d r f t.
    Lemma shown_reliable : exists h, solve lsolve (out_mat out) (out_mesh out) (solver_args o (out_perm out)) = Ok (S, h) /\ In s h /\
      reliable lsolve (out_mat out) (out_mesh out) (solver_args o (out_perm out)) S s.
    Proof.
      clear FO. destruct (script_inv o ent prior out RUN) as (md & s1 & K0 & cs' & S' & h' & dd & rr & ff & tt & Hmd & Hn & Hst & Hg & W). cbv zeta in W.
      destruct W as (HK0 & Hcs & EP & _). destruct SR as (_ & Hcs' & h & HS & _ & (k & Hk & _)). exists h. split; [exact HS|]. apply nth_error_In in Hk. split; [exact Hk|].
      rewrite EP in HS |- *. exact (back_reliable o OK COPE NUM md s1 ent prior _ _ _ _ Hmd Hn Hst Hg cs' S h _ Hcs HS s Hk).
    Qed.
    Lemma shown_facts : ~ flag_set (g_attrs (out_mesh out)) /\ tolerances_ok (solver_args o (out_perm out)) /\
      (limits_ok o -> lengths_ok (out_mesh out) (op_lmin o) (op_lmax o)) /\ (forall G, p_shear (op_mat o) = Fin G -> finite_shear (out_mat out)) /\
      (forall G E, p_shear (op_mat o) = Fin G -> p_tensile (op_mat o) = Fin E -> finite_moduli (out_mat out)).
    Proof.
      clear SR FO. destruct (script_inv o ent prior out RUN) as (md & s1 & K0 & cs' & S' & h' & dd & rr & ff & tt & Hmd & Hn & Hst & Hg & W). clear W.
      destruct (back_facts o md _ _ _ _ Hn Hst Hg) as (_ & _ & _ & NF & _). split; [exact NF|]. split; [exact (back_tols o OK (out_perm out))|].
      split; [|split; [exact (back_shear o md s1 ent prior _ _ _ _ Hmd Hn Hst Hg)|]].
      - intros ((l & E & L) & L2). exact (back_lengths o OK md s1 ent prior _ _ _ _ Hmd Hn Hst Hg (out_perm out) l E L L2).
      - intros G E EG EE fb Hf. destruct (back_asked o md s1 ent prior _ _ _ _ Hmd Hn Hst Hg fb Hf) as ((_ & _ & _ & A & B) & _). exists G, E. split; congruence.
    Qed.
    Lemma shown_balance : errors_below_tol S s -> limits_ok o -> (exists G, p_shear (op_mat o) = Fin G) -> (exists E, p_tensile (op_mat o) = Fin E) ->
      forall i, (i < length (g_rows (out_mesh out)))%nat -> near0 (op_errtol o * travel S s) (product K (vals (st_u S s)) (2 * i) + nth i f 0).
    Proof.
      intros EB LO (G & EG) (E & EE) i Li. destruct shown_reliable as (h & HS & Hs & REL). destruct shown_facts as (NF & TO & LL & _ & FM).
      destruct SR as (HK & Hcs & _). destruct FO as (_ & _ & _ & _ & FO4). destruct (FO4 i Li) as (_ & _ & FI & _).
      pose proof (fin_equilibrium _ _ _ _ _ _ HS NF TO K cs s HK Hcs Hs REL EB (LL LO) (FM G E EG EE) (2 * i)%nat ltac:(lia)) as B.
      unfold near0 in *. rewrite FI. exact B.
    Qed.
    Lemma shown_fiber fb : errors_below_tol S s -> limits_ok o -> (exists G, p_shear (op_mat o) = Fin G) ->
      near0 (inject_Z (Z.of_nat (length (nodes_of (out_mesh out) fb))) * (op_errtol o * travel S s)) (qsum (map (fun i => nth i f 0) (nodes_of (out_mesh out) fb))).
    Proof.
      intros EB LO (G & EG). destruct shown_reliable as (h & HS & Hs & REL). destruct shown_facts as (NF & TO & LL & FS & _).
      destruct SR as (HK & Hcs & _). destruct FO as (_ & _ & _ & _ & FO4).
      pose proof (fin_fiber _ _ _ _ _ _ HS NF TO cs s fb Hcs Hs REL EB (LL LO) (FS G EG)) as B.
      assert (E : qsum (map (fun i => nth i f 0) (nodes_of (out_mesh out) fb)) == fiber_force (csC cs) (out_mesh out) (vals (st_f S s)) fb).
      { unfold fiber_force. apply qsum_ext. intros i Hi. unfold nodes_of in Hi. apply filter_In in Hi. destruct Hi as [Hi _]. apply in_seq in Hi.
        destruct (FO4 i ltac:(lia)) as (_ & _ & FI & _). exact FI. }
      unfold near0 in *. rewrite E. exact B.
    Qed.
    Lemma shown_admissible : op_errtol o == 0 -> p_psi (op_mat o) == 0 -> (forall x, x == 0 -> sin x == 0) ->
      exists z, st_Z s = Fin z /\ in_slab (out_mat out) (out_mesh out) z (vals (st_u S s)) /\ no_overlap (out_mat out) (out_mesh out) (vals (st_u S s)).
    Proof.
      clear FO. intros E0 EP HSIN. destruct shown_reliable as (h & HS & Hs & REL). destruct shown_facts as (NF & TO & _).
      destruct (script_inv o ent prior out RUN) as (md & s1 & K0 & cs' & S' & h' & dd & rr & ff & tt & Hmd & Hn & Hst & Hg & W). cbv zeta in W. destruct W as (_ & Hcs & _).
      apply (fin_admissible _ _ _ _ _ _ HS NF TO s Hs REL); [|exact E0]. apply (stack_admissible linprog (read_mat md) (op_periodic o) (out_net out) (op_threshold o) (out_stack out) _ _ cs' Hn (LP _ _ _ Hn)); auto.
      intros f0 Hf0. destruct (read_asked R cos sin _ ent prior md s1 f0 Hmd Hf0) as (_ & x & W). unfold in_plane. rewrite W. apply HSIN. rewrite EP. ring.
    Qed.
  End Shown.
  Lemma script_seeded o k ent1 ent2 prior1 prior2 : p_seed (op_mat o) = Some k ->
    script R cos sin linprog rcm lsolve cyl place near o ent1 prior1 = script R cos sin linprog rcm lsolve cyl place near o ent2 prior2.
  Proof. intros H. unfold script. rewrite (mat_reproducible R cos sin (op_mat o) k ent1 ent2 prior1 prior2 H). reflexivity. Qed.
  Lemma stiffness_empty m g lmin lmax c K : q_rows m = [] -> stiffness m g lmin lmax c <> Ok K.
  Proof.
    intros E H. unfold stiffness in H. destruct (mat_check _); [|discriminate]. cbn [bind] in H. destruct (mesh_check g); [|discriminate]. cbn [bind] in H.
    unfold elements, fibers_known, in_range in H. rewrite E in H. destruct (filter _ (g_rows g)) as [|[lab d] rs]; [discriminate H|].
    cbn [map forallb snd length] in H. destruct (Z.leb_spec 0 (nf d)); destruct (Z.ltb_spec (nf d) (Z.of_nat 0)); cbn [andb negb] in H; try discriminate H; lia.
  Qed.
  Lemma script_empty o ent prior out : p_n (op_mat o) = 0%Z -> script R cos sin linprog rcm lsolve cyl place near o ent prior <> Ok out.
  Proof.
    intros E H. destruct (script_inv o ent prior out H) as (md & s1 & K0 & cs & S & h & dd & rr & ff & tt & Hmd & Hn & Hst & Hg & W). cbv zeta in W. destruct W as (HK & _).
    pose proof (back_count o md s1 ent prior _ _ _ _ Hmd Hn Hst Hg) as B. rewrite E in B.
    apply (stiffness_empty _ _ None None 1 K0) in HK; [exact HK|]. destruct (q_rows (out_mat out)); [reflexivity|simpl in B; lia].
  Qed.
End Script.
