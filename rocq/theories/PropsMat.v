(** Property theorems for Mat (C01 - C04, C64). *)
From Coq Require Import String Permutation.
From Verif Require Import Num NumP ListX Frames MatM NetM Spec SpecDraw CheckP MatP DrawP.
Open Scope Q_scope.

(** ** C01: Mat.check accepts exactly the documented tables *)
Theorem C01_check_accepts : forall m,
  mat_check m = Ok true <-> flag_set (m_attrs m) \/ mat_ok m.
Proof. exact mat_check_ok. Qed.
Theorem C01_check_raises : forall m e,
  mat_check m = Exn e <-> ~ flag_set (m_attrs m) /\ mat_fails m e.
Proof. exact mat_check_raises. Qed.
Theorem C01_check_never_false : forall m b, mat_check m = Ok b -> b = true.
Proof. exact mat_check_true. Qed.

(** cases: an accepted table, and one table per kind of rejection *)
Definition ex_fiber (l x u v : num) : fiber :=
  mkFiber l (Fin 1) (Fin 1) (Fin (-3)) x (Fin 7) u v (Fin 0) (Fin 1) PInf.
Definition ex_mat (lab : Z) (n : Z) (l x u : num) : mat_df :=
  mkMatDf mat_cols
    [(0%Z, ex_fiber (Fin 25) (Fin 2) (Fin 1) (Fin 0)); (lab, ex_fiber l x u (Fin 0.8))]
    (mkAttrs (Some n) (Some (Fin 50)) None None).
Example ex_accepted : mat_check (ex_mat 1 2 (Fin 4) (Fin 25) (Fin 0.6)) = Ok true.
Proof. vm_compute. reflexivity. Qed.
Example ex_accepted_ok : mat_ok (ex_mat 1 2 (Fin 4) (Fin 25) (Fin 0.6)).
Proof.
  destruct (proj1 (C01_check_accepts _) ex_accepted) as [H|H]; [discriminate H | exact H].
Qed.
Example ex_nan : mat_check (ex_mat 1 2 NaN (Fin 25) (Fin 0.6)) = Exn ValueErr.
Proof. vm_compute. reflexivity. Qed.
Example ex_nan_fails : mat_fails (ex_mat 1 2 NaN (Fin 25) (Fin 0.6)) ValueErr.
Proof. apply C01_check_raises. exact ex_nan. Qed.
Example ex_outside : mat_check (ex_mat 1 2 (Fin 4) (Fin 26) (Fin 0.6)) = Exn ValueErr.
Proof. vm_compute. reflexivity. Qed.
Example ex_not_unit : mat_check (ex_mat 1 2 (Fin 4) (Fin 25) (Fin 0.7)) = Exn ValueErr.
Proof. vm_compute. reflexivity. Qed.
Example ex_wrong_n : mat_check (ex_mat 1 3 (Fin 4) (Fin 25) (Fin 0.6)) = Exn ValueErr.
Proof. vm_compute. reflexivity. Qed.
Example ex_wrong_label : mat_check (ex_mat 2 2 (Fin 4) (Fin 25) (Fin 0.6)) = Exn IndexErr.
Proof. vm_compute. reflexivity. Qed.

(** ** C02: generated mats are always valid *)
Theorem C02_generated_valid : forall R cos sin p ent prior,
  draws_in_range R -> trig_accurate cos sin -> params_ok p ->
  exists m s, mat_new R cos sin p ent prior = Ok (m, s) /\ generated p m.
Proof. exact mat_generated. Qed.

(** a generator (linear congruential), rational cos/sin and arguments meeting the hypotheses *)
Definition ex_rng : rng :=
  mkRng Z (fun k => k) (fun s => let s' := ((7 * s + 3) mod 11)%Z in (Qmake (s' - 5)%Z 11, s')).
Definition ex_cos (a : Q) : Q := (1 - a * a) / (1 + a * a).
Definition ex_sin (a : Q) : Q := 2 * a / (1 + a * a).
Definition ex_params : mat_params :=
  mkParams 3 25 1 1 50 np_pi 0 (Fin 1) PInf (Some 0%Z).
Example ex_draws : draws_in_range ex_rng.
Proof.
  intros s. unfold ex_rng, Qle; cbn [rng_draw fst].
  pose proof (Z.mod_pos_bound (7 * s + 3) 11 eq_refl). set (k := (_ mod 11)%Z) in *.
  clearbody k. simpl. lia.
Qed.
Example ex_trig : trig_accurate ex_cos ex_sin.
Proof.
  intros a. unfold ex_cos, ex_sin.
  assert (H : 0 < 1 + a * a) by nra.
  assert (E : (1 - a * a) / (1 + a * a) * ((1 - a * a) / (1 + a * a))
              + 2 * a / (1 + a * a) * (2 * a / (1 + a * a)) == 1) by (field; lra).
  rewrite E. split; unfold Qle; simpl; lia.
Qed.
Example ex_params_ok : params_ok ex_params.
Proof.
  unfold params_ok, ex_params; simpl. repeat split; try lia; try reflexivity; try discriminate;
    injection H; lia.
Qed.
Example ex_generated : exists m s,
  mat_new ex_rng ex_cos ex_sin ex_params 0%Z 4%Z = Ok (m, s) /\ generated ex_params m.
Proof. exact (C02_generated_valid _ _ _ _ _ _ ex_draws ex_trig ex_params_ok). Qed.
Example ex_generated_rows :
  match mat_new ex_rng ex_cos ex_sin ex_params 0%Z 4%Z with
  | Ok (m, _) => length (m_rows m) = 3%nat
  | Exn _ => False
  end.
Proof. vm_compute. reflexivity. Qed.

(** ** C03: Mat is reproducible from its seed *)
Theorem C03_reproducible : forall R cos sin p k ent1 ent2 prior1 prior2,
  p_seed p = Some k ->
  mat_new R cos sin p ent1 prior1 = mat_new R cos sin p ent2 prior2.
Proof. exact mat_reproducible. Qed.
(** the seed matters: two seeds give different tables *)
Example ex_seed_matters :
  mat_new ex_rng ex_cos ex_sin ex_params 0%Z 4%Z
  <> mat_new ex_rng ex_cos ex_sin (mkParams 3 25 1 1 50 np_pi 0 (Fin 1) PInf (Some 1%Z)) 0%Z 4%Z.
Proof. vm_compute. discriminate. Qed.

(** ** C04: what Mat.check guarantees on coordinates *)
Theorem C04_checked_coordinates : forall m s,
  mat_check m = Ok true -> ~ flag_set (m_attrs m) -> at_size (m_attrs m) = Some (Fin s) ->
  every (fun f => is_fin (fx f) = true /\ is_fin (fy f) = true /\ is_fin (fu f) = true
                  /\ is_fin (fv f) = true /\ is_fin (fw f) = true) (m_rows m).
Proof. exact mat_finite. Qed.
Example ex_checked : exists m s,
  mat_check m = Ok true /\ ~ flag_set (m_attrs m) /\ at_size (m_attrs m) = Some (Fin s)
  /\ m_rows m <> [].
Proof.
  exists (ex_mat 1 2 (Fin 4) (Fin 25) (Fin 0.6)), 50. repeat split; try discriminate.
Qed.
(** the height and the dimensions are not guaranteed to be finite *)
Theorem C04_heights_refuted : exists m,
  mat_check m = Ok true /\ ~ flag_set (m_attrs m) /\
  exists k f, In (k, f) (m_rows m) /\ fz f = NaN.
Proof.
  exists (mkMatDf mat_cols
    [(0%Z, mkFiber (Fin 25) (Fin 1) (Fin 1) (Fin 0) (Fin 0) NaN (Fin 1) (Fin 0) (Fin 0) (Fin 1) PInf)]
    (mkAttrs (Some 1%Z) (Some (Fin 50)) None None)).
  split; [vm_compute; reflexivity|]. split; [discriminate|].
  eexists _, _. split; [left; reflexivity|reflexivity].
Qed.
Theorem C04_lengths_refuted : exists m,
  mat_check m = Ok true /\ ~ flag_set (m_attrs m) /\
  exists k f, In (k, f) (m_rows m) /\ fl f = PInf.
Proof.
  exists (mkMatDf mat_cols
    [(0%Z, mkFiber PInf (Fin 1) (Fin 1) (Fin 0) (Fin 0) (Fin 0) (Fin 1) (Fin 0) (Fin 0) (Fin 1) PInf)]
    (mkAttrs (Some 1%Z) (Some (Fin 50)) None None)).
  split; [vm_compute; reflexivity|]. split; [discriminate|].
  eexists _, _. split; [left; reflexivity|reflexivity].
Qed.
(** tables with finite geometry are the [qmat] tables of the other models *)
Theorem finite_mats_representable : forall m s,
  mat_check m = Ok true -> ~ flag_set (m_attrs m) -> at_size (m_attrs m) = Some (Fin s) ->
  every (fun f => is_fin (fl f) = true /\ is_fin (fb f) = true /\ is_fin (fh f) = true
                  /\ is_fin (fz f) = true) (m_rows m) ->
  exists q, m_rows (df_of q) = m_rows m /\ at_n (m_attrs (df_of q)) = at_n (m_attrs m)
            /\ at_size (m_attrs (df_of q)) = at_size (m_attrs m) /\ mat_check (df_of q) = Ok true.
Proof. exact representable. Qed.

(** ** C64: the table is a function of the draws *)
Theorem C64_draws : forall R cos sin p ent prior m s, mat_new R cos sin p ent prior = Ok (m, s) ->
  let n := Z.to_nat (p_n p) in let s0 := match p_seed p with Some k => rng_seed R k | None => ent end in
  length (m_rows m) = n /\ s = after R (5 * n) s0 /\
  (forall i lab f, nth_error (m_rows m) i = Some (lab, f) -> placed R cos sin p n s0 i f) /\
  (exists zs, map (fun r => fz (snd r)) (m_rows m) = map Fin zs /\
    Permutation zs (map (fun i => draw R (2 * n + i) s0 * p_size p) (seq 0 n)) /\
    forall i j, (i <= j < n)%nat -> nth i zs 0 <= nth j zs 0).
Proof. exact mat_draws. Qed.
(** the angles are within half of [theta] and [psi] *)
Theorem C64_angles : forall R cos sin p n s i f, draws_in_range R -> 0 <= p_theta p -> 0 <= p_psi p -> placed R cos sin p n s i f ->
  exists a q, - p_theta p / 2 <= a <= p_theta p / 2 /\ - p_psi p / 2 <= q <= p_psi p / 2 /\
    fu f = Fin (cos a * cos q) /\ fv f = Fin (sin a * cos q) /\ fw f = Fin (sin q).
Proof. exact mat_angles. Qed.
(** no out-of-plane angle (the default): fibers in the plane *)
Theorem C64_flat : forall R cos sin p n s i f, (forall a, a == 0 -> sin a == 0) -> p_psi p == 0 -> placed R cos sin p n s i f ->
  exists w, fw f = Fin w /\ w == 0.
Proof. exact mat_flat. Qed.
Theorem C64_raises : forall R cos sin p ent prior e, mat_init R cos sin p ent prior = Exn e <->
  e = ValueErr /\ ((exists k, p_seed p = Some k /\ ~ (0 <= k < 4294967296)%Z) \/ (p_n p < 0)%Z).
Proof. exact mat_raises. Qed.
Definition ex_tilted : mat_params := mkParams 2 25 1 1 50 np_pi 1 (Fin 1) PInf (Some 0%Z).
Example ex_draw_values : map (fun i => draw ex_rng i 0%Z) (seq 0 10) = [-2 # 11; -3 # 11; 1 # 11; -4 # 11; 5 # 11; 2 # 11; 3 # 11; -1 # 11; 4 # 11; -5 # 11].
Proof. vm_compute. reflexivity. Qed.
Example ex_tilted_made : exists m s, mat_new ex_rng ex_cos ex_sin ex_tilted 0%Z 4%Z = Ok (m, s) /\
  map (fun r => match fz (snd r) with Fin z => Qred z | _ => 0 end) (m_rows m) = [100 # 11; 250 # 11] /\ m_rows m <> [].
Proof.
  destruct (mat_new ex_rng ex_cos ex_sin ex_tilted 0%Z 4%Z) as [[m s]|] eqn:E; [|vm_compute in E; discriminate E].
  exists m, s. split; auto. vm_compute in E. injection E as <- _. split; [vm_compute; reflexivity|discriminate].
Qed.
Example ex_tilted_placed : exists f, placed ex_rng ex_cos ex_sin ex_tilted 2 0%Z 1 f /\ fw f = Fin (ex_sin (-5 # 11)).
Proof.
  destruct ex_tilted_made as (m & s & E & _ & N). destruct (C64_draws _ _ _ ex_tilted _ _ _ _ E) as (L & _ & P & _).
  cbv zeta in *. destruct (nth_error (m_rows m) 1) as [[lab f]|] eqn:E1; [|apply nth_error_None in E1; simpl in L; unfold Pos.to_nat in L; simpl in L; lia].
  exists f. specialize (P _ _ _ E1). split; [exact P|]. destruct P as (_ & _ & a & q & _ & -> & _ & _ & W). rewrite W. vm_compute. reflexivity.
Qed.
Example ex_bad_seed : mat_init ex_rng ex_cos ex_sin (mkParams 2 25 1 1 50 np_pi 1 (Fin 1) PInf (Some (-1)%Z)) 0%Z 4%Z = Exn ValueErr.
Proof. reflexivity. Qed.

Print Assumptions C01_check_accepts.
Print Assumptions C01_check_raises.
Print Assumptions C01_check_never_false.
Print Assumptions C02_generated_valid.
Print Assumptions C03_reproducible.
Print Assumptions C04_checked_coordinates.
Print Assumptions C04_heights_refuted.
Print Assumptions C04_lengths_refuted.
Print Assumptions finite_mats_representable.
Print Assumptions C64_draws.
Print Assumptions C64_angles.
Print Assumptions C64_flat.
Print Assumptions C64_raises.
