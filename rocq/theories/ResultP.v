(** Proofs about the interpolated results of [solve]. *)
From Verif Require Import Num NumP ListX ListP Frames MatM NetM MeshM ModelM SolverM InterpM ResultM Spec SpecNet SpecMesh SpecModel SpecSolver SpecInterp
  InterpP StiffP ConstraintP SolverP SolverRunP SolverSysP SolverApiP SolverFinP.
Open Scope Q_scope.

Lemma mult_le_l c x y : 0 <= c -> x <= y -> c * x <= c * y.
Proof. intros H L. rewrite !(Qmult_comm c). apply Qmult_le_compat_r; auto. Qed.
Lemma seq_error n r : (r < n)%nat -> nth_error (seq 0 n) r = Some r.
Proof. intros L. rewrite (nth_error_nth' _ 0%nat) by (rewrite seq_length; auto). rewrite seq_nth by auto. reflexivity. Qed.

(** ** Weighted means *)
Record mixing (N : nat) (W : (nat -> Q) -> Q) : Prop := mkMixing {
  mix_le : forall F G, (forall k, (k < N)%nat -> F k <= G k) -> W F <= W G;
  mix_lin : forall F G c, W (fun k => F k + c * G k) == W F + c * W G;
  mix_const : forall c, W (fun _ => c) == c
}.
Lemma mix_ext N W F G : mixing N W -> (forall k, (k < N)%nat -> F k == G k) -> W F == W G.
Proof. intros M H. apply Qle_antisym; apply (mix_le N W M); intros k Hk; rewrite (H k Hk); apply Qle_refl. Qed.
Lemma mix_affine N W F c d : mixing N W -> W (fun k => d + c * F k) == d + c * W F.
Proof. intros M. rewrite (mix_lin N W M (fun _ => d) F c), (mix_const N W M). reflexivity. Qed.
Lemma mix_pick N i : (i < N)%nat -> mixing N (fun F => F i).
Proof. intros L. constructor; intros; auto; reflexivity. Qed.
Lemma mix_blend N a W W' : 0 <= a -> a <= 1 -> mixing N W -> mixing N W' -> mixing N (fun F => blend a (W F) (W' F)).
Proof.
  intros A0 A1 M M'. constructor.
  - intros F G H. pose proof (mix_le N W M F G H) as L. pose proof (mix_le N W' M' F G H) as L'. unfold blend.
    assert ((1 - a) * W F <= (1 - a) * W G) by (apply mult_le_l; lra).
    assert (a * W' F <= a * W' G) by (apply mult_le_l; lra). lra.
  - intros F G c. rewrite (mix_lin N W M), (mix_lin N W' M'). unfold blend. ring.
  - intros c. rewrite (mix_const N W M), (mix_const N W' M'). unfold blend. ring.
Qed.
Lemma call_mixing N size t : (2 <= N)%nat -> size_ok size ->
  exists W, mixing N W /\ forall kd y, linear kd -> length y = N -> is_num (interp_call (interp_new kd (map Fin y) size) t) (W (fun k => nth k y 0)).
Proof.
  intros HN HS. assert (H2 : (2 <= match size with None => N | Some k => k end)%nat) by (destruct size; auto).
  assert (D : (0 <= t /\ t <= 1) \/ (t < 0 \/ 1 < t)) by (destruct (Qlt_le_dec t 0); [tauto|]; destruct (Qlt_le_dec 1 t); tauto).
  destruct D as [[T0 T1]|T].
  - destruct (call_shape N size t HN H2 T0 T1) as (a & i & b & i' & b' & A0 & A1 & Hi & B0 & B1 & Hi' & B0' & B1' & HC).
    exists (fun F => blend a (blend b (F i) (F (Datatypes.S i))) (blend b' (F i') (F (Datatypes.S i')))). split.
    + apply (mix_blend N a (fun F => blend b (F i) (F (Datatypes.S i))) (fun F => blend b' (F i') (F (Datatypes.S i')))); auto;
      [apply (mix_blend N b (fun F => F i) (fun F => F (Datatypes.S i)))|apply (mix_blend N b' (fun F => F i') (fun F => F (Datatypes.S i')))]; auto;
      apply mix_pick; lia.
    + intros kd y HK Ly. apply (HC kd y HK Ly).
  - exists (fun F => F (N - 1)%nat). split; [apply mix_pick; lia|]. intros kd y HK Ly.
    rewrite call_outside; auto.
    + exists (nth (N - 1) y 0). split; [|reflexivity]. rewrite <- Ly. destruct y as [|q y]; [simpl in Ly; lia|].
      clear. revert q. induction y as [|z y IH]; intros q; auto. change (last (map Fin (q :: z :: y)) NaN) with (last (map Fin (z :: y)) NaN).
      rewrite IH. simpl length. replace (Datatypes.S (length y) - 1)%nat with (length y) by lia. reflexivity.
    + destruct y; [simpl in Ly; lia|discriminate].
    + destruct size as [[|k]|]; [simpl in HS; lia|discriminate..].
Qed.
Lemma mix_product N W K (us : nat -> list Q) U r : mixing N W -> (forall j, nth j U 0 == W (fun k => nth j (us k) 0)) ->
  product K U r == W (fun k => product K (us k) r).
Proof.
  intros M H. unfold product. induction K as [|[[i c] v] K IH]; cbn [map qsum].
  - symmetry. apply (mix_const N W M).
  - rewrite IH. set (Pk := fun k => qsum (map (fun e => let '(i0, c0, v0) := e in if Nat.eqb i0 r then qof v0 * nth c0 (us k) 0 else 0) K)).
    change (fun k => qsum (map _ K)) with Pk in IH |- *. destruct (Nat.eqb i r).
    + rewrite H. transitivity (W (fun k => Pk k + qof v * nth c (us k) 0)); [rewrite (mix_lin N W M); ring|].
      apply (mix_ext N W _ _ M). intros k _. unfold Pk. ring.
    + transitivity (W Pk); [ring|]. apply (mix_ext N W _ _ M). intros k _. unfold Pk. ring.
Qed.
Lemma mix_transpose N W K (us : nat -> list Q) U r : mixing N W -> (forall j, nth j U 0 == W (fun k => nth j (us k) 0)) ->
  transpose_product K U r == W (fun k => transpose_product K (us k) r).
Proof.
  intros M H. unfold transpose_product. induction K as [|[[i c] v] K IH]; cbn [map qsum].
  - symmetry. apply (mix_const N W M).
  - rewrite IH. set (Pk := fun k => qsum (map (fun e => let '(i0, c0, v0) := e in if Nat.eqb c0 r then qof v0 * nth i0 (us k) 0 else 0) K)).
    change (fun k => qsum (map _ K)) with Pk in IH |- *. destruct (Nat.eqb c r).
    + rewrite H. transitivity (W (fun k => Pk k + qof v * nth i (us k) 0)); [rewrite (mix_lin N W M); ring|].
      apply (mix_ext N W _ _ M). intros k _. unfold Pk. ring.
    + transitivity (W Pk); [ring|]. apply (mix_ext N W _ _ M). intros k _. unfold Pk. ring.
Qed.

(** ** Vectors *)
Lemma nth_vals l j : (j < length l)%nat -> nth j (vals l) 0 = qof (nth j l NaN).
Proof. intros L. unfold vals. rewrite (nth_indep (map qof l) 0 (qof NaN)) by (rewrite map_length; auto). apply map_nth. Qed.
Lemma component_fin vs j : (forall v, In v vs -> finite_vec v /\ (j < length v)%nat) ->
  component vs j = map Fin (map (fun v => nth j (vals v) 0) vs).
Proof.
  intros H. unfold component. rewrite map_map. apply map_ext_in. intros v Hv. destruct (H v Hv) as [F L]. rewrite nth_vals by auto.
  destruct (F (nth j v NaN)) as (q & ->); auto. apply nth_In. auto.
Qed.
Section Vec.
  Variables (vs : list (list num)) (n : nat).
  Hypothesis Hv : forall v, In v vs -> finite_vec v /\ length v = n.
  Hypothesis H2 : (2 <= length vs)%nat.
  Variables (size : option nat) (t : Q) (W : (nat -> Q) -> Q).
  Hypothesis HW : mixing (length vs) W.
  Hypothesis HV : forall kd y, linear kd -> length y = length vs -> is_num (interp_call (interp_new kd (map Fin y) size) t) (W (fun k => nth k y 0)).
  Lemma vec_len : length (hd [] vs) = n.
  Proof. clear - Hv H2. destruct vs as [|v l]; [simpl in H2; lia|]. apply Hv. left. auto. Qed.
  Lemma vec_comp kd j : linear kd -> (j < n)%nat ->
    is_num (interp_call (interp_new kd (component vs j) size) t) (W (fun k => nth j (vals (nth k vs [])) 0)).
  Proof.
    intros HK L. rewrite component_fin; [|intros v H; destruct (Hv v H) as [F E]; split; auto; lia].
    eapply is_num_eqv; [apply HV; [exact HK|apply map_length]|]. apply (mix_ext (length vs) W); auto. intros k Hk.
    destruct (nth_error vs k) as [v|] eqn:E; [|apply nth_error_None in E; lia]. rewrite (nth_error_nth _ _ _ E).
    erewrite nth_error_nth; [reflexivity|]. rewrite nth_error_map, E. reflexivity.
  Qed.
  Lemma vec_finite kd : linear kd -> finite_vec (call_vec (interp_vec kd vs size) t).
  Proof.
    intros HK v H. unfold call_vec, interp_vec in H. rewrite map_map in H. apply in_map_iff in H. destruct H as (j & <- & Hj). apply in_seq in Hj.
    rewrite vec_len in Hj. destruct (vec_comp kd j HK ltac:(lia)) as (q & -> & _). eauto.
  Qed.
  Lemma vec_value kd j : linear kd -> nth j (vals (call_vec (interp_vec kd vs size) t)) 0 == W (fun k => nth j (vals (nth k vs [])) 0).
  Proof.
    intros HK. assert (LC : length (call_vec (interp_vec kd vs size) t) = n) by (unfold call_vec, interp_vec; rewrite !map_length, seq_length; apply vec_len).
    destruct (Nat.lt_ge_cases j n) as [L|L].
    - rewrite nth_vals by (rewrite LC; auto). unfold call_vec, interp_vec. rewrite map_map.
      erewrite nth_error_nth; [|rewrite nth_error_map, seq_error by (rewrite vec_len; auto); reflexivity]. apply is_num_qof. apply vec_comp; auto.
    - rewrite nth_overflow by (unfold vals; rewrite map_length, LC; auto). symmetry.
      rewrite (mix_ext (length vs) W _ (fun _ => 0) HW); [apply (mix_const _ _ HW)|]. intros k Hk. rewrite nth_overflow; [reflexivity|].
      unfold vals. rewrite map_length. destruct (Hv (nth k vs [])) as [_ ->]; auto. apply nth_In. auto.
  Qed.
End Vec.

(** rows with infinite bounds *)
Lemma linear_lost x y t : (forall v, In v y -> v = PInf \/ v = NaN) -> call_linear x y t = NaN.
Proof.
  intros H. unfold call_linear. cbv zeta. set (lo := if Nat.eqb _ 0 then _ else _). set (hi := Nat.min _ _).
  assert (C : forall k, nth k y NaN = PInf \/ nth k y NaN = NaN).
  { intros k. destruct (Nat.lt_ge_cases k (length y)); [apply H, nth_In; auto|right; apply nth_overflow; auto]. }
  destruct (C lo) as [->| ->], (C hi) as [->| ->]; reflexivity.
Qed.
Lemma lost y size t : y <> [] -> size_ok size -> (forall v, In v y -> v = PInf) -> 0 <= t -> t <= 1 -> ((2 <= length y)%nat \/ size <> None \/ t == 0) ->
  interp_call (interp_new LinearVec y size) t = NaN.
Proof.
  intros Hy HS H T0 T1 HT.
  assert (IN : forall n z fill, (1 <= n)%nat -> (n = 1%nat -> t == 0) -> (forall v, In v z -> v = PInf \/ v = NaN) -> eval1d LinearVec (linspace n) z fill t = NaN).
  { intros n z fill Hn H1 Hz. destruct (Nat.eq_dec n 1) as [->|N].
    - unfold linspace, eval1d. simpl map. cbn iota. simpl last. replace (Qltb t 0 || Qltb 0 t) with false.
      + apply linear_lost; auto.
      + symmetry. apply orb_false_intro; apply Qltb_ge; rewrite (H1 eq_refl); apply Qle_refl.
    - rewrite eval_in by (auto; lia). apply linear_lost; auto. }
  unfold interp_call. rewrite new_t. apply IN.
  - destruct size as [k|]; simpl in *; [lia|]. destruct y; [congruence|simpl; lia].
  - intros E. destruct size as [k|]; simpl in *; [lia|]. destruct HT as [?|[?|?]]; auto; [lia|congruence].
  - intros v Hv. rewrite new_y in Hv. apply in_map_iff in Hv. destruct Hv as (x & <- & _). unfold eval1d.
    destruct (linspace (length y)) as [|x0 l] eqn:El; auto. destruct (Qltb x x0 || Qltb (last (x0 :: l) 0) x).
    + left. unfold ylast. apply H. destruct y as [|v y]; [congruence|]. clear. revert v. induction y as [|w y IH]; intros v; [left; reflexivity|right; apply IH].
    + right. apply linear_lost. intros w Hw. left. auto.
Qed.

Section Res.
  Variables (lsolve : ncoo -> list num -> list num) (m : qmat) (g : mesh_df) (p : solve_params) (S : sysdata) (h : list state).
  Hypothesis HS : solve lsolve m g p = Ok (S, h).
  Hypothesis noflag : ~ flag_set (g_attrs g).
  Hypothesis tols : tolerances_ok p.
  Hypothesis HR : forall s, In s h -> reliable lsolve m g p S s.
  Variables (size : option nat) (R : results).
  Hypothesis Hsize : size_ok size.
  Hypothesis HF : solve_full lsolve m g p size = Ok R.

  Lemma res_eq : R = results_of S h size.
  Proof. unfold solve_full in HF. rewrite HS in HF. simpl in HF. congruence. Qed.
  Lemma res_u v : In v (map (st_u S) h) -> finite_vec v /\ length v = (2 * length (g_rows g))%nat.
  Proof.
    intros Hv. apply in_map_iff in Hv. destruct Hv as (s & <- & Hs). destruct (fin_finite _ _ _ _ _ _ HS noflag tols s Hs (HR s Hs)) as (F & _).
    split; auto. destruct (solve_inv _ _ _ _ _ _ HS) as (K & cs & HK & Hcs & _). apply (fin_lengths _ _ _ _ _ _ HS cs Hcs s Hs).
  Qed.
  Lemma res_f cs : constraint m g = Ok cs -> forall v, In v (map (st_f S) h) -> finite_vec v /\ length v = length (csH cs).
  Proof.
    intros Hcs v Hv. apply in_map_iff in Hv. destruct Hv as (s & <- & Hs). destruct (fin_finite _ _ _ _ _ _ HS noflag tols s Hs (HR s Hs)) as (_ & F & _).
    split; auto. apply (fin_lengths _ _ _ _ _ _ HS cs Hcs s Hs).
  Qed.
  Lemma res_Z : map st_Z h = map Fin (map (fun s => qof (st_Z s)) h).
  Proof.
    rewrite map_map. apply map_ext_in. intros s Hs. destruct (fin_finite _ _ _ _ _ _ HS noflag tols s Hs (HR s Hs)) as (_ & _ & z & ->). reflexivity.
  Qed.
  Lemma nth_state k : (k < length h)%nat -> exists s, nth_error h k = Some s /\ In s h /\ nth k (map (st_u S) h) [] = st_u S s /\
    nth k (map (st_f S) h) [] = st_f S s /\ nth k (map (fun s => qof (st_Z s)) h) 0 = qof (st_Z s).
  Proof.
    intros L. destruct (nth_error h k) as [s|] eqn:E; [|apply nth_error_None in E; lia]. exists s. split; auto. split; [eapply nth_error_In; eauto|].
    repeat split; apply nth_error_nth; rewrite nth_error_map, E; reflexivity.
  Qed.

  (** C59 *)
  Lemma res_admissible t : (2 <= length h)%nat -> admissible_start m g -> sp_errtol p == 0 ->
    exists z, interp_call (r_Z R) t = Fin z /\ finite_vec (call_vec (r_u R) t) /\
      in_slab m g z (vals (call_vec (r_u R) t)) /\ no_overlap m g (vals (call_vec (r_u R) t)).
  Proof.
    intros H2 HA E0. destruct (call_mixing (length h) size t H2 Hsize) as (W & M & HV). rewrite res_eq. cbn [r_u r_Z results_of].
    set (vs := map (st_u S) h). assert (LV : length vs = length h) by apply map_length.
    pose proof M as M'. rewrite <- LV in M'. pose proof HV as HV'. rewrite <- LV in HV'. assert (H2' : (2 <= length vs)%nat) by lia.
    rewrite res_Z. destruct (HV LinearScalar (map (fun s => qof (st_Z s)) h) (or_intror eq_refl) ltac:(apply map_length)) as (z & Ez & Qz).
    exists z. split; [exact Ez|].
    pose proof (vec_value vs _ res_u H2' size t W M' HV' LinearVec) as VV.
    split; [apply (vec_finite vs _ res_u H2' size t W M' HV' LinearVec (or_introl eq_refl))|].
    set (U := vals (call_vec (interp_vec LinearVec vs size) t)) in *.
    assert (AD : forall k, (k < length h)%nat -> in_slab m g (nth k (map (fun s => qof (st_Z s)) h) 0) (vals (nth k vs [])) /\ no_overlap m g (vals (nth k vs []))).
    { intros k Hk. unfold vs. destruct (nth_state k Hk) as (s & Es & Hs & -> & _ & ->).
      destruct (fin_admissible _ _ _ _ _ _ HS noflag tols s Hs (HR s Hs) HA E0) as (z' & -> & A & B). auto. }
    split.
    - intros i d hh Hd Hh. unfold disp. rewrite (VV _ (or_introl eq_refl)), Qz. split.
      + rewrite <- (mix_const (length h) W M (hh / 2)).
        setoid_replace (nz d + W (fun k => nth (2 * i) (vals (nth k vs [])) 0)) with (W (fun k => nz d + 1 * nth (2 * i) (vals (nth k vs [])) 0))
          by (rewrite (mix_affine (length h) W) by auto; ring).
        apply (mix_le (length h) W M). intros k Hk. destruct (AD k Hk) as [A _]. destruct (A i d hh Hd Hh) as [A1 _]. unfold disp in A1. lra.
      + setoid_replace (nz d + W (fun k => nth (2 * i) (vals (nth k vs [])) 0)) with (W (fun k => nz d + 1 * nth (2 * i) (vals (nth k vs [])) 0))
          by (rewrite (mix_affine (length h) W) by auto; ring).
        setoid_replace (W (fun k => nth k (map (fun s => qof (st_Z s)) h) 0) - hh / 2) with (W (fun k => - (hh / 2) + 1 * nth k (map (fun s => qof (st_Z s)) h) 0))
          by (rewrite (mix_affine (length h) W) by auto; ring).
        apply (mix_le (length h) W M). intros k Hk. destruct (AD k Hk) as [A _]. destruct (A i d hh Hd Hh) as [_ A2]. unfold disp in A2. lra.
    - intros i j d e hh h' Hd He Lij Hc Hh Hh'. unfold disp. rewrite !(VV _ (or_introl eq_refl)).
      rewrite <- (mix_const (length h) W M ((hh + h') / 2)).
      setoid_replace (nz e + W (fun k => nth (2 * j) (vals (nth k vs [])) 0) - (nz d + W (fun k => nth (2 * i) (vals (nth k vs [])) 0)))
        with (W (fun k => (nz e - nz d + 1 * nth (2 * j) (vals (nth k vs [])) 0) + (-(1)) * nth (2 * i) (vals (nth k vs [])) 0))
        by (rewrite (mix_lin (length h) W M), (mix_affine (length h) W) by auto; ring).
      apply (mix_le (length h) W M). intros k Hk. destruct (AD k Hk) as [_ A]. specialize (A i j d e hh h' Hd He Lij Hc Hh Hh'). unfold disp in A. lra.
  Qed.
  Lemma res_finite t : (2 <= length h)%nat -> finite_vec (call_vec (r_u R) t) /\ finite_vec (call_vec (r_f R) t) /\ exists z, interp_call (r_Z R) t = Fin z.
  Proof.
    intros H2. destruct (call_mixing (length h) size t H2 Hsize) as (W & M & HV). rewrite res_eq. cbn [r_u r_f r_Z results_of]. split; [|split].
    - apply (vec_finite (map (st_u S) h) _ res_u ltac:(rewrite map_length; auto) size t W); [rewrite map_length; auto..|left; auto].
    - destruct (solve_inv _ _ _ _ _ _ HS) as (K & cs & HK & Hcs & _).
      apply (vec_finite (map (st_f S) h) _ (res_f cs Hcs) ltac:(rewrite map_length; auto) size t W); [rewrite map_length; auto..|left; auto].
    - rewrite res_Z. destruct (HV LinearScalar (map (fun s => qof (st_Z s)) h) (or_intror eq_refl) ltac:(apply map_length)) as (z & -> & _). eauto.
  Qed.
  Lemma res_balance t K cs : (2 <= length h)%nat -> stiffness m g (sp_lmin p) (sp_lmax p) (sp_coupling p) = Ok K -> constraint m g = Ok cs ->
    (forall s, In s h -> errors_below_tol S s) -> lengths_ok g (sp_lmin p) (sp_lmax p) -> finite_moduli m ->
    exists z, interp_call (r_Z R) t = Fin z /\ forall r, (r < 2 * length (g_rows g))%nat ->
      near0 (sp_errtol p * (qof (sy_Z0 S) - z)) (product K (vals (call_vec (r_u R) t)) r + transpose_product (csC cs) (vals (call_vec (r_f R) t)) r).
  Proof.
    intros H2 HK Hcs SL HL HG. destruct (call_mixing (length h) size t H2 Hsize) as (W & M & HV). rewrite res_eq. cbn [r_u r_f r_Z results_of].
    set (us := map (st_u S) h). assert (LU : length us = length h) by apply map_length.
    set (fs := map (st_f S) h). assert (LF : length fs = length h) by apply map_length.
    rewrite res_Z. destruct (HV LinearScalar (map (fun s => qof (st_Z s)) h) (or_intror eq_refl) ltac:(apply map_length)) as (z & Ez & Qz).
    exists z. split; [exact Ez|].
    assert (VU : forall j, nth j (vals (call_vec (interp_vec LinearVec us size) t)) 0 == W (fun k => nth j (vals (nth k us [])) 0)).
    { intros j. apply (vec_value us _ res_u ltac:(lia) size t W); [rewrite LU; auto|rewrite LU; auto|left; auto]. }
    assert (VF : forall j, nth j (vals (call_vec (interp_vec LinearVec fs size) t)) 0 == W (fun k => nth j (vals (nth k fs [])) 0)).
    { intros j. apply (vec_value fs _ (res_f cs Hcs) ltac:(lia) size t W); [rewrite LF; auto|rewrite LF; auto|left; auto]. }
    intros r Lr. unfold near0. rewrite (mix_product (length h) W K (fun k => vals (nth k us [])) _ r M VU), (mix_transpose (length h) W (csC cs) (fun k => vals (nth k fs [])) _ r M VF).
    assert (AD : forall k, (k < length h)%nat -> near0 (sp_errtol p * (qof (sy_Z0 S) - nth k (map (fun s => qof (st_Z s)) h) 0))
      (product K (vals (nth k us [])) r + transpose_product (csC cs) (vals (nth k fs [])) r)).
    { intros k Hk. unfold us, fs. destruct (nth_state k Hk) as (s & Es & Hs & -> & -> & ->). apply (fin_equilibrium _ _ _ _ _ _ HS noflag tols K cs s); auto. }
    assert (EP : forall a b : nat -> Q, W a + W b == W (fun k => a k + 1 * b k)) by (intros a b; rewrite (mix_lin (length h) W M); ring).
    rewrite EP. set (E := sp_errtol p) in *. set (z0 := qof (sy_Z0 S)) in *. rewrite Qz.
    assert (EZ : E * (z0 - W (fun k => nth k (map (fun s => qof (st_Z s)) h) 0)) == W (fun k => E * z0 + (- E) * nth k (map (fun s => qof (st_Z s)) h) 0))
      by (rewrite (mix_affine (length h) W) by auto; ring).
    assert (EN : - (E * (z0 - W (fun k => nth k (map (fun s => qof (st_Z s)) h) 0))) == W (fun k => - (E * z0) + E * nth k (map (fun s => qof (st_Z s)) h) 0))
      by (rewrite (mix_affine (length h) W) by auto; ring).
    rewrite EN, EZ. split; apply (mix_le (length h) W M); intros k Hk; destruct (AD k Hk) as [A B]; lra.
  Qed.
  (** C50: the default call, a single recorded state *)
  Lemma res_single v : length h = 1%nat -> size = None -> In v (call_vec (r_u R) 0) -> v = NaN.
  Proof.
    intros H1 Hsz Hv. rewrite res_eq, Hsz in Hv. cbn [r_u results_of] in Hv. unfold call_vec, interp_vec in Hv. rewrite map_map in Hv. apply in_map_iff in Hv.
    destruct Hv as (j & <- & _). clear HR. destruct h as [|s [|s' h']]; try discriminate H1. unfold interp_call, interp_new, component. cbn [map length].
    assert (EL : linspace 1 = [0]) by reflexivity. rewrite EL. cbn [in_kind in_t in_y in_fill map ylast last].
    assert (NS : forall a, ndiv (nsub a a) (Fin (0 - 0)) = NaN).
    { intros a. destruct a as [q| | |]; auto. unfold nsub, nadd, nopp, ndiv. replace (Qeqb (0 - 0) 0) with true by reflexivity.
      unfold qsgn. assert (E : (q + - q ?= 0) = Eq) by (apply Qeq_alt; ring). rewrite E. reflexivity. }
    unfold eval1d. assert (EO : Qltb 0 0 || Qltb (last [0] 0) 0 = false) by reflexivity. rewrite EO. cbn [call]. unfold call_linear.
    assert (EH : Nat.min (Nat.max (search_left [0] 0) 1) (length [0] - 1) = 0%nat) by reflexivity. rewrite EH. cbn [Nat.eqb length Nat.sub nth].
    rewrite !NS. reflexivity.
  Qed.
  Lemma res_lost cs r t : constraint m g = Ok cs -> nth_error (csH cs) r = Some PInf -> 0 <= t -> t <= 1 -> ((2 <= length h)%nat \/ t == 0) ->
    nth_error (call_vec (r_H R) t) r = Some NaN /\ forall s, In s h -> nth_error (st_H S s) r = Some PInf.
  Proof.
    intros Hcs Hr T0 T1 HT.
    assert (HP : forall s, In s h -> nth_error (st_H S s) r = Some PInf) by (intros s Hs; apply (fin_unbounded _ _ _ _ _ _ HS noflag tols cs s r Hcs Hs (HR s Hs) Hr)).
    split; auto. rewrite res_eq. cbn [r_H results_of]. unfold call_vec, interp_vec. rewrite map_map, nth_error_map.
    assert (NE : h <> []) by (destruct (solve_inv _ _ _ _ _ _ HS) as (K & cs' & _ & _ & _ & ->); discriminate).
    assert (L : (r < length (hd [] (map (st_H S) h)))%nat).
    { clear HT. destruct h as [|s l]; [congruence|]. simpl. apply nth_error_Some. rewrite (HP s (or_introl eq_refl)). discriminate. }
    rewrite seq_error by exact L. simpl. f_equal. apply lost; auto.
    - unfold component. destruct h; [congruence|discriminate].
    - intros v Hv. unfold component in Hv. rewrite map_map in Hv. apply in_map_iff in Hv. destruct Hv as (s & <- & Hs).
      apply nth_error_nth, HP, Hs.
    - destruct HT; [left; unfold component; rewrite !map_length|right; right]; auto.
  Qed.
  (** C60 *)
  Lemma res_down k : (Datatypes.S k < length h)%nat -> nth (Datatypes.S k) (map (fun s => qof (st_Z s)) h) 0 < nth k (map (fun s => qof (st_Z s)) h) 0.
  Proof.
    intros L. destruct (nth_state k ltac:(lia)) as (s & Es & Hs & _ & _ & ->). destruct (nth_state (Datatypes.S k) L) as (s' & Es' & Hs' & _ & _ & ->).
    destruct (fin_compacts _ _ _ _ _ _ HS noflag tols k s s' Es Es' (HR s Hs) (HR s' Hs')) as (z & z' & -> & -> & H & _). exact H.
  Qed.
  Lemma res_lid t t' : (2 <= length h)%nat -> 0 <= t -> t <= t' -> t' <= 1 ->
    exists z z', interp_call (r_Z R) t = Fin z /\ interp_call (r_Z R) t' = Fin z' /\ z' <= z.
  Proof.
    intros H2 T0 L T1. rewrite res_eq. cbn [r_Z results_of]. rewrite res_Z.
    set (y := map (fun s => qof (st_Z s)) h). assert (LY : length y = length h) by apply map_length.
    assert (Hm : mono_to (fun k => -(1) * nth k y 0) (length y)).
    { apply mono_step. intros k Hk. pose proof (res_down k ltac:(lia)) as D. fold y in D. lra. }
    assert (Hn' : (2 <= msize (map Fin y) size)%nat) by (destruct size; simpl in *; [lia|rewrite map_length; lia]).
    destruct (call_mono LinearScalar (or_intror eq_refl) y size ltac:(lia) Hn' (-(1)) Hm t t' T0 L T1) as (v & v' & -> & -> & D).
    exists v, v'. repeat split; auto. lra.
  Qed.
  Definition lid_above : Prop := forall s, In s h -> 0 < qof (st_Z s).
  Lemma res_first : exists z0, sy_Z0 S = Fin z0 /\ (lid_above -> 0 < z0).
  Proof.
    destruct (fin_history _ _ _ _ _ _ HS) as (_ & (s0 & E0 & _) & _). pose proof (nth_error_In _ _ E0) as I0.
    destruct (fin_ratio _ _ _ _ _ _ HS noflag tols s0 I0 (HR s0 I0)) as (z0 & z & Z0 & Ez & L & _). exists z0. split; auto. intros P.
    specialize (P s0 I0). rewrite Ez in P. simpl in P. lra.
  Qed.
  Lemma res_rl z0 : sy_Z0 S = Fin z0 -> lid_above -> map st_rl h = map Fin (map (fun s => qof (st_rl s)) h) /\
    forall k, (k < length h)%nat -> nth k (map (fun s => qof (st_rl s)) h) 0 == z0 / nth k (map (fun s => qof (st_Z s)) h) 0.
  Proof.
    intros Z0 P.
    assert (Q : forall s, In s h -> exists r, st_rl s = Fin r /\ r == z0 / qof (st_Z s)).
    { intros s Hs. destruct (fin_ratio _ _ _ _ _ _ HS noflag tols s Hs (HR s Hs)) as (z1 & z & Z1 & Ez & L & H). specialize (P s Hs). rewrite Ez in P |- *.
      assert (z1 = z0) by congruence. subst z1. simpl in *. apply H; auto. }
    split.
    - rewrite map_map. apply map_ext_in. intros s Hs. destruct (Q s Hs) as (r & -> & _). reflexivity.
    - intros k L. destruct (nth_state k L) as (s & Es & Hs & _ & _ & ->). destruct (Q s Hs) as (r & Er & Qr).
      erewrite nth_error_nth; [|rewrite nth_error_map, Es; reflexivity]. rewrite Er. exact Qr.
  Qed.
  Lemma res_z_pos k : lid_above -> (k < length h)%nat -> 0 < nth k (map (fun s => qof (st_Z s)) h) 0.
  Proof. intros P L. destruct (nth_state k L) as (s & Es & Hs & _ & _ & ->). auto. Qed.
  Lemma res_stretch t t' : (2 <= length h)%nat -> lid_above -> 0 <= t -> t <= t' -> t' <= 1 ->
    exists r r', interp_call (r_rl R) t = Fin r /\ interp_call (r_rl R) t' = Fin r' /\ r <= r'.
  Proof.
    intros H2 P T0 L T1. destruct res_first as (z0 & Z0 & P0). specialize (P0 P). destruct (res_rl z0 Z0 P) as [E Q].
    rewrite res_eq. cbn [r_rl results_of]. rewrite E.
    set (y := map (fun s => qof (st_rl s)) h) in *. assert (LY : length y = length h) by apply map_length.
    assert (Hm : mono_to (fun k => 1 * nth k y 0) (length y)).
    { apply mono_step. intros k Hk. rewrite !Q by lia. pose proof (res_down k ltac:(lia)) as D.
      pose proof (res_z_pos k P ltac:(lia)) as P1. pose proof (res_z_pos (Datatypes.S k) P ltac:(lia)) as P2.
      set (a := nth k _ 0) in *. set (b := nth (Datatypes.S k) _ 0) in *. rewrite !Qmult_1_l. apply Qle_shift_div_l; auto.
      assert (EE : z0 / a * b == z0 * b / a) by (field; lra). rewrite EE. apply Qle_shift_div_r; auto. apply mult_le_l; lra. }
    assert (Hn' : (2 <= msize (map Fin y) None)%nat) by (simpl; rewrite map_length; lia).
    destruct (call_mono LinearScalar (or_intror eq_refl) y None ltac:(lia) Hn' 1 Hm t t' T0 L T1) as (v & v' & -> & -> & D).
    exists v, v'. repeat split; auto. lra.
  Qed.
  Lemma res_product k a t z zk z' s s' : size = None -> lid_above -> sy_Z0 S = Fin z -> nth_error h k = Some s -> nth_error h (Datatypes.S k) = Some s' ->
    st_Z s = Fin zk -> st_Z s' = Fin z' -> 0 <= a -> a <= 1 -> t == param (length h) k a ->
    exists zt rt, interp_call (r_Z R) t = Fin zt /\ interp_call (r_rl R) t = Fin rt /\
      rt * zt == z * (1 + a * (1 - a) * ((zk - z') * (zk - z')) / (zk * z')) /\ z <= rt * zt.
  Proof.
    intros Hsz P Z0 Es Es' Ez Ez' A0 A1 Et. destruct res_first as (z0 & Z0' & P0). specialize (P0 P). assert (z0 = z) by congruence. subst z0.
    destruct (res_rl z Z0 P) as [E Q]. rewrite res_eq, Hsz. cbn [r_rl r_Z results_of]. rewrite E, res_Z.
    assert (Lk : (Datatypes.S k < length h)%nat) by (apply nth_error_Some; congruence).
    set (y := map (fun s => qof (st_rl s)) h) in *. set (w := map (fun s => qof (st_Z s)) h) in *.
    assert (LY : length y = length h) by apply map_length. assert (LW : length w = length h) by apply map_length.
    assert (Ety : t == param (length y) k a) by (rewrite LY; exact Et). assert (Etw : t == param (length w) k a) by (rewrite LW; exact Et).
    destruct (call_plain LinearScalar w k a t (or_intror eq_refl) ltac:(lia) Etw A0 A1 ltac:(lia)) as (zt & -> & Qz).
    destruct (call_plain LinearScalar y k a t (or_intror eq_refl) ltac:(lia) Ety A0 A1 ltac:(lia)) as (rt & -> & Qr).
    exists zt, rt. split; auto. split; auto. rewrite (Q k), (Q (Datatypes.S k)) in Qr by lia.
    assert (W1 : nth k w 0 = zk) by (unfold w; apply nth_error_nth; rewrite nth_error_map, Es; simpl; rewrite Ez; reflexivity).
    assert (W2 : nth (Datatypes.S k) w 0 = z') by (unfold w; apply nth_error_nth; rewrite nth_error_map, Es'; simpl; rewrite Ez'; reflexivity).
    pose proof (P s (nth_error_In _ _ Es)) as P1. pose proof (P s' (nth_error_In _ _ Es')) as P2. rewrite Ez in P1. rewrite Ez' in P2. simpl in P1, P2.
    rewrite W1, W2 in Qr, Qz.
    assert (X : rt * zt == z * (1 + a * (1 - a) * ((zk - z') * (zk - z')) / (zk * z'))) by (rewrite Qz, Qr; unfold blend; field; lra).
    split; auto. rewrite X.
    assert (0 <= a * (1 - a) * ((zk - z') * (zk - z')) / (zk * z')).
    { apply Qle_shift_div_l; [apply Qmult_lt_0_compat; auto|]. rewrite Qmult_0_l. apply Qmult_le_0_compat; [apply Qmult_le_0_compat; lra|apply sq_pos]. }
    assert (z * 1 <= z * (1 + a * (1 - a) * ((zk - z') * (zk - z')) / (zk * z'))) by (apply mult_le_l; lra). lra.
  Qed.

  (** C68: values between two states *)
  Lemma res_F v : In v (map (st_F S) h) -> finite_vec v /\ length v = (2 * length (g_rows g))%nat.
  Proof.
    intros Hv. apply in_map_iff in Hv. destruct Hv as (s & <- & Hs). split.
    - intros v Hv. destruct (fin_load _ _ _ _ _ _ HS noflag tols s Hs (HR s Hs) v Hv) as (z & -> & _). eauto.
    - destruct (solve_inv _ _ _ _ _ _ HS) as (K & cs & HK & Hcs & _). apply (fin_lengths _ _ _ _ _ _ HS cs Hcs s Hs).
  Qed.
  Section Between.
    Variables (k : nat) (a t : Q) (s s' : state).
    Hypothesis nosize : size = None.
    Hypothesis Es : nth_error h k = Some s.
    Hypothesis Es' : nth_error h (Datatypes.S k) = Some s'.
    Hypothesis A0 : 0 <= a.
    Hypothesis A1 : a <= 1.
    Hypothesis Et : t == param (length h) k a.
    Lemma between_mix : mixing (length h) (fun F => blend a (F k) (F (Datatypes.S k))) /\
      forall kd y, linear kd -> length y = length h -> is_num (interp_call (interp_new kd (map Fin y) None) t) (blend a (nth k y 0) (nth (Datatypes.S k) y 0)).
    Proof.
      assert (L : (Datatypes.S k < length h)%nat) by (apply nth_error_Some; congruence). split.
      - apply mix_blend; auto; apply mix_pick; lia.
      - intros kd y HK LY. apply call_plain; auto; rewrite LY; auto; lia.
    Qed.
    Lemma between_vec (rec : state -> list num) n : (forall v, In v (map rec h) -> finite_vec v /\ length v = n) ->
      let v := call_vec (interp_vec LinearVec (map rec h) None) t in length v = n /\ finite_vec v /\
      forall j, nth j (vals v) 0 == blend a (nth j (vals (rec s)) 0) (nth j (vals (rec s')) 0).
    Proof.
      intros H v. assert (L : (Datatypes.S k < length h)%nat) by (apply nth_error_Some; congruence). destruct between_mix as [M V].
      assert (ML : length (map rec h) = length h) by apply map_length. rewrite <- ML in M, V.
      assert (L2 : (2 <= length (map rec h))%nat) by lia. split; [|split].
      - unfold v, call_vec, interp_vec. rewrite !map_length, seq_length. apply (vec_len _ n H L2).
      - apply (vec_finite _ n H L2 None t _ M V). left. reflexivity.
      - intros j. unfold v. rewrite (vec_value _ n H L2 None t _ M V LinearVec j (or_introl eq_refl)).
        rewrite (nth_error_nth (map rec h) k [] (x := rec s)) by (rewrite nth_error_map, Es; reflexivity).
        rewrite (nth_error_nth (map rec h) (Datatypes.S k) [] (x := rec s')) by (rewrite nth_error_map, Es'; reflexivity). reflexivity.
    Qed.
    Lemma res_between : exists ut ft Ft, call_vec (r_u R) t = ut /\ call_vec (r_f R) t = ft /\ call_vec (r_F R) t = Ft /\
      finite_vec ut /\ finite_vec ft /\ finite_vec Ft /\ length ut = length (st_u S s) /\ length ft = length (st_f S s) /\ length Ft = length (st_F S s) /\
      (forall j, nth j (vals ut) 0 == blend a (nth j (vals (st_u S s)) 0) (nth j (vals (st_u S s')) 0)) /\
      (forall j, nth j (vals ft) 0 == blend a (nth j (vals (st_f S s)) 0) (nth j (vals (st_f S s')) 0)) /\
      (forall j, nth j (vals Ft) 0 == 0).
    Proof.
      rewrite res_eq, nosize. cbn [r_u r_f r_F results_of]. destruct (solve_inv _ _ _ _ _ _ HS) as (K & cs & HK & Hcs & _).
      destruct (between_vec (st_u S) _ res_u) as (U1 & U2 & U3). destruct (between_vec (st_f S) _ (res_f cs Hcs)) as (F1 & F2 & F3).
      destruct (between_vec (st_F S) _ res_F) as (G1 & G2 & G3). pose proof (nth_error_In _ _ Es) as Hs. pose proof (nth_error_In _ _ Es') as Hs'.
      destruct (fin_lengths _ _ _ _ _ _ HS cs Hcs s Hs) as (L1 & L2 & L3 & _).
      do 3 eexists. repeat (split; [reflexivity|]). rewrite L1, L2, L3. repeat (split; [assumption|]). intros j. rewrite G3.
      assert (Z : forall x, In x h -> nth j (vals (st_F S x)) 0 == 0).
      { intros x Hx. unfold vals. rewrite nth_of, nth_error_map. destruct (nth_error (st_F S x) j) as [v|] eqn:E; [|reflexivity].
        destruct (fin_load _ _ _ _ _ _ HS noflag tols x Hx (HR x Hx) v (nth_error_In _ _ E)) as (z & -> & Q). exact Q. }
      rewrite (Z s Hs), (Z s' Hs'). unfold blend. ring.
    Qed.
    Lemma res_between_H cs r b : constraint m g = Ok cs -> nth_error (csH cs) r = Some (Fin b) ->
      exists v q q', nth_error (call_vec (r_H R) t) r = Some (Fin v) /\ nth_error (st_H S s) r = Some (Fin q) /\ nth_error (st_H S s') r = Some (Fin q') /\ v == blend a q q'.
    Proof.
      intros Hcs Hb. rewrite res_eq, nosize. cbn [r_H results_of]. pose proof (nth_error_In _ _ Es) as Hs. pose proof (nth_error_In _ _ Es') as Hs'.
      assert (C : forall x, In x h -> exists q, nth_error (st_H S x) r = Some (Fin q)).
      { intros x Hx. destruct (fin_bounds _ _ _ _ _ _ HS noflag tols cs x r b Hcs Hx (HR x Hx) Hb) as (_ & q & _ & E & _). eauto. }
      destruct (C s Hs) as (q & Eq). destruct (C s' Hs') as (q' & Eq').
      set (y := map (fun x => qof (nth r (st_H S x) NaN)) h).
      assert (EC : component (map (st_H S) h) r = map Fin y).
      { unfold component, y. rewrite !map_map. apply map_ext_in. intros x Hx. destruct (C x Hx) as (z & Ez). rewrite (nth_error_nth _ _ NaN Ez). reflexivity. }
      destruct between_mix as [_ V]. specialize (V LinearVec y (or_introl eq_refl) (map_length _ _)). rewrite <- EC in V. destruct V as (v & EV & QV).
      assert (Y1 : nth k y 0 = q) by (unfold y; apply nth_error_nth; rewrite nth_error_map, Es; simpl; rewrite (nth_error_nth _ _ NaN Eq); reflexivity).
      assert (Y2 : nth (Datatypes.S k) y 0 = q') by (unfold y; apply nth_error_nth; rewrite nth_error_map, Es'; simpl; rewrite (nth_error_nth _ _ NaN Eq'); reflexivity).
      exists v, q, q'. rewrite Y1, Y2 in QV. split; auto. unfold call_vec, interp_vec. rewrite !nth_error_map, seq_error; [cbn [option_map]; rewrite EV; reflexivity|].
      clear - Hs C. destruct h as [|x l]; [destruct Hs|]. cbn [map hd]. destruct (C x (or_introl eq_refl)) as (z & Ez). apply nth_error_Some. congruence.
    Qed.
    Lemma res_between_Z : exists v z z', interp_call (r_Z R) t = Fin v /\ st_Z s = Fin z /\ st_Z s' = Fin z' /\ v == blend a z z'.
    Proof.
      rewrite res_eq, nosize. cbn [r_Z results_of]. rewrite res_Z. destruct between_mix as [_ V].
      specialize (V LinearScalar (map (fun s => qof (st_Z s)) h) (or_intror eq_refl) (map_length _ _)). destruct V as (v & EV & QV).
      pose proof (nth_error_In _ _ Es) as Hs. pose proof (nth_error_In _ _ Es') as Hs'.
      destruct (fin_finite _ _ _ _ _ _ HS noflag tols s Hs (HR s Hs)) as (_ & _ & z & Ez). destruct (fin_finite _ _ _ _ _ _ HS noflag tols s' Hs' (HR s' Hs')) as (_ & _ & z' & Ez').
      exists v, z, z'. repeat (split; [assumption|]). rewrite QV.
      rewrite (nth_error_nth (map (fun s => qof (st_Z s)) h) k 0 (x := z)) by (rewrite nth_error_map, Es; simpl; rewrite Ez; reflexivity).
      rewrite (nth_error_nth (map (fun s => qof (st_Z s)) h) (Datatypes.S k) 0 (x := z')) by (rewrite nth_error_map, Es'; simpl; rewrite Ez'; reflexivity). reflexivity.
    Qed.
  End Between.
  (** the mask is that of the latest state, whatever the size *)
  Lemma mask_lengths s : In s h -> forall s0, nth_error h 0 = Some s0 -> length (st_mask s) = length (st_mask s0).
  Proof.
    intros Hs s0 E0. destruct (solve_inv _ _ _ _ _ _ HS) as (K & cs & HK & Hcs & _). destruct (fin_mask_start _ _ _ _ _ _ HS noflag cs s0 Hcs E0) as [L0 _].
    apply In_nth_error in Hs. destruct Hs as ([|k] & Hk); [congruence|]. destruct (nth_error h k) as [x|] eqn:Ex.
    - destruct (fin_mask_next _ _ _ _ _ _ HS noflag tols cs k x s Hcs Ex Hk (HR x (nth_error_In _ _ Ex))) as [L _]. congruence.
    - apply nth_error_None in Ex. assert (Datatypes.S k < length h)%nat by (apply nth_error_Some; congruence). lia.
  Qed.
  Lemma bool_back b : as_bool (if b : bool then Fin 1 else Fin 0) = b.
  Proof. destruct b; reflexivity. Qed.
  Lemma mask_from t k s : nth_error h k = Some s ->
    (forall y, length y = length h -> interp_call (interp_new Previous y None) t = nth k y NaN) ->
    map as_bool (call_vec (r_mask R) t) = st_mask s.
  Proof.
    intros Es H. rewrite res_eq. cbn [r_mask results_of]. unfold call_vec, interp_vec. rewrite !map_map.
    destruct (nth_error h 0) as [s0|] eqn:E0; [|apply nth_error_None in E0; assert (k < length h)%nat by (apply nth_error_Some; congruence); lia].
    assert (EL : length (hd [] (map (fun x => mask_num (st_mask x)) h)) = length (st_mask s)).
    { rewrite (mask_lengths s (nth_error_In _ _ Es) s0 E0). clear - E0. destruct h as [|x l]; [discriminate E0|]. injection E0 as ->. cbn [map hd]. unfold mask_num. apply map_length. }
    rewrite EL. apply nth_ext with (d := false) (d' := false); [rewrite map_length, seq_length; reflexivity|]. intros j Lj. rewrite map_length, seq_length in Lj.
    erewrite nth_error_nth; [|rewrite nth_error_map, seq_error by auto; reflexivity]. cbn [option_map].
    rewrite H by (unfold component; rewrite !map_length; reflexivity). unfold component. rewrite map_map.
    rewrite (nth_error_nth (map (fun x => nth j (mask_num (st_mask x)) NaN) h) k NaN (x := nth j (mask_num (st_mask s)) NaN)) by (rewrite nth_error_map, Es; reflexivity).
    unfold mask_num. destruct (nth_error (st_mask s) j) as [bb|] eqn:Eb; [|apply nth_error_None in Eb; lia].
    rewrite (nth_error_nth (map (fun b : bool => if b then Fin 1 else Fin 0) (st_mask s)) j NaN (x := if bb then Fin 1 else Fin 0)) by (rewrite nth_error_map, Eb; reflexivity).
    rewrite bool_back, (nth_error_nth _ _ false Eb). reflexivity.
  Qed.
  Lemma res_mask t s : (2 <= length h)%nat -> 0 <= t -> t <= 1 ->
    nth_error h (Z.to_nat (Qfloor (t * inject_Z (Z.of_nat (length h - 1))))) = Some s -> map as_bool (call_vec (r_mask R) t) = st_mask s.
  Proof. intros H2 T0 T1 Es. apply (mask_from t _ s Es). intros y LY. rewrite <- LY. apply previous_floor; auto; lia. Qed.
  Lemma res_mask_exists t : (2 <= length h)%nat -> 0 <= t -> t <= 1 -> exists s, nth_error h (Z.to_nat (Qfloor (t * inject_Z (Z.of_nat (length h - 1))))) = Some s.
  Proof.
    intros H2 T0 T1. destruct (nth_error h _) as [s|] eqn:E; eauto. apply nth_error_None in E. exfalso.
    set (q := t * inject_Z (Z.of_nat (length h - 1))) in *. assert (U : q <= inject_Z (Z.of_nat (length h - 1))).
    { unfold q. setoid_replace (inject_Z (Z.of_nat (length h - 1))) with (1 * inject_Z (Z.of_nat (length h - 1))) at 2 by ring.
      apply Qmult_le_compat_r; auto. change 0 with (inject_Z 0). rewrite <- Zle_Qle. lia. }
    pose proof (Qfloor_le q) as F. assert (inject_Z (Qfloor q) <= inject_Z (Z.of_nat (length h - 1))) by (eapply Qle_trans; eauto). rewrite <- Zle_Qle in H. lia.
  Qed.
  Lemma res_mask_single t s : h = [s] -> map as_bool (call_vec (r_mask R) t) = st_mask s.
  Proof.
    intros E. apply (mask_from t 0%nat s); [rewrite E; reflexivity|]. intros y LY. rewrite E in LY. destruct y as [|v [|w y]]; try discriminate LY.
    destruct (Qeq_dec t 0) as [Z|N].
    - apply single_scalar; auto.
    - unfold interp_call, interp_new, eval1d, linspace. simpl. assert (D : Qltb t 0 || Qltb 0 t = true); [|rewrite D; reflexivity].
      apply orb_true_iff. destruct (Qlt_le_dec t 0) as [L|L]; [left|right]; qb; auto. destruct (Qle_lt_or_eq _ _ L) as [L'|L']; auto. destruct N. symmetry. exact L'.
  Qed.
  Lemma res_mask_outside t s : t < 0 \/ 1 < t -> nth_error h (length h - 1) = Some s -> map as_bool (call_vec (r_mask R) t) = st_mask s.
  Proof.
    intros HT Es. apply (mask_from t _ s Es). intros y LY. assert (y <> []) by (intros ->; destruct h; [destruct (0 - 1)%nat; discriminate Es|discriminate LY]).
    rewrite call_outside; auto; [|discriminate]. rewrite <- LY. clear - H. induction y as [|v [|w y] IH]; [congruence|reflexivity|].
    change (last (v :: w :: y) NaN) with (last (w :: y) NaN). rewrite IH by discriminate. cbn [length]. replace (Datatypes.S (Datatypes.S (length y)) - 1)%nat with (Datatypes.S (Datatypes.S (length y) - 1)) by lia. reflexivity.
  Qed.
End Res.

Lemma first_Z lsolve m g p S h s0 : solve lsolve m g p = Ok (S, h) -> nth_error h 0 = Some s0 -> sy_Z0 S = st_Z s0.
Proof.
  intros HS E. destruct (solve_inv _ _ _ _ _ _ HS) as (K & cs & _ & _ & ES & Eh). cbv zeta in ES, Eh. rewrite Eh in E. cbn in E. injection E as <-. rewrite ES. reflexivity.
Qed.
