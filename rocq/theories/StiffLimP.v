(** The stiffness matrix when the tensile modulus grows (C33). *)
From Coq Require Import String Permutation.
From Verif Require Import Num NumP ListX ListP Frames MatM NetM MeshM ModelM Spec SpecNet SpecMesh SpecModel
  CheckP GroupP MeshCheckP NetP NetZP StackP StackNewP MeshP StiffP.
Open Scope Q_scope.

(** [v E] tends to [w] when [E] grows *)
Definition tends (v : Q -> num) (w : num) : Prop :=
  forall eps, 0 < eps -> exists E0, 0 < E0 /\ forall E, E0 < E -> within eps (v E) w.

Lemma within_eqv eps x x' y y' : neqv x x' -> neqv y y' -> within eps x y -> within eps x' y'.
Proof.
  intros H H' (a & b & -> & -> & L1 & L2). destruct x'; try contradiction. destruct y'; try contradiction.
  simpl in *. exists q, q0. split; auto. split; auto. lra.
Qed.
Lemma tends_const q : tends (fun _ => Fin q) (Fin q).
Proof. intros eps He. exists 1. split; [lra|]. intros E _. exists q, q. split; auto. split; auto. lra. Qed.
Lemma tends_add v w v' w' : tends v w -> tends v' w' -> tends (fun E => nadd (v E) (v' E)) (nadd w w').
Proof.
  intros H H' eps He. destruct (H (eps / 2)) as (E0 & P0 & H0); [qlra|]. destruct (H' (eps / 2)) as (E1 & P1 & H1); [qlra|].
  exists (E0 + E1). split; [lra|]. intros E L. destruct (H0 E) as (a & b & Ea & Eb & A1 & A2); [lra|].
  destruct (H1 E) as (a' & b' & Ea' & Eb' & B1 & B2); [lra|]. rewrite Ea, Eb, Ea', Eb'. exists (a + a'), (b + b').
  split; auto. split; auto. qlra.
Qed.
Lemma tends_scale v w t : tends v w -> tends (fun E => nmul (v E) (Fin t)) (nmul w (Fin t)).
Proof.
  intros H eps He. set (T := Qabs t + 1).
  assert (T0 : 0 < T) by (unfold T; pose proof (Qabs_nonneg t); lra).
  destruct (H (eps / T)) as (E0 & P0 & H0); [apply Qlt_shift_div_l; lra|]. exists E0. split; auto. intros E L.
  destruct (H0 E L) as (a & b & Ea & Eb & A1 & A2). rewrite Ea, Eb. exists (a * t), (b * t). split; auto. split; auto.
  assert (A : Qabs (a - b) < eps / T) by (apply Qabs_Qlt_condition; auto).
  assert (B : Qabs ((a - b) * t) < eps).
  { rewrite Qabs_Qmult. apply Qle_lt_trans with (Qabs (a - b) * T).
    - rewrite (Qmult_comm _ (Qabs t)), (Qmult_comm _ T). apply Qmult_le_compat_r; [unfold T; lra|apply Qabs_nonneg].
    - apply Qlt_le_trans with (eps / T * T); [apply Qmult_lt_r; auto|]. apply Qle_lteq. right. field. lra. }
  apply Qabs_Qlt_condition in B. assert (C : a * t - b * t == (a - b) * t) by ring. rewrite C. auto.
Qed.
Lemma tends_div2 v w : tends v w -> tends (fun E => ndiv (v E) (Fin 2)) (ndiv w (Fin 2)).
Proof.
  intros H. exact (tends_scale _ _ (1 # 2) H).
Qed.
Lemma tends_opp v w : tends v w -> tends (fun E => nopp (v E)) (nopp w).
Proof.
  intros H eps He. destruct (H eps He) as (E0 & P0 & H0). exists E0. split; auto. intros E L.
  destruct (H0 E L) as (a & b & -> & -> & A1 & A2). exists (- a), (- b). split; auto. split; auto. lra.
Qed.
Lemma tends_ext v v' w w' : (forall E, 0 < E -> neqv (v E) (v' E)) -> neqv w w' -> tends v w -> tends v' w'.
Proof.
  intros H H' HT eps He. destruct (HT eps He) as (E0 & P0 & H0). exists E0. split; auto. intros E L.
  eapply within_eqv; [apply H; lra|exact H'|apply H0; auto].
Qed.

(** ** Entries of a row *)
Definition closes (F : Q -> ncoo) (L : ncoo) (r x : nat) : Prop := tends (fun E => entry (F E) r x) (entry L r x).
Lemma closes_nil r x : closes (fun _ => []) [] r x.
Proof. apply tends_const. Qed.
Lemma entry_cons i j v P r x : entry ((i, j, v) :: P) r x =
  if Nat.eqb i r && Nat.eqb j x then nadd v (entry P r x) else entry P r x.
Proof. unfold entry. simpl. destruct (_ && _); reflexivity. Qed.
Lemma closes_cons i j v w F L r x : (i = r -> tends v w) -> closes F L r x ->
  closes (fun E => (i, j, v E) :: F E) ((i, j, w) :: L) r x.
Proof.
  intros H HF. unfold closes. rewrite entry_cons. destruct (Nat.eqb_spec i r) as [->|N]; simpl.
  - destruct (Nat.eqb j x) eqn:Ex.
    + eapply tends_ext; [|reflexivity|apply tends_add; [apply H; auto|exact HF]].
      intros E _. simpl. rewrite entry_cons, Nat.eqb_refl, Ex. reflexivity.
    + eapply tends_ext; [|reflexivity|exact HF]. intros E _. simpl. rewrite entry_cons, Nat.eqb_refl, Ex. reflexivity.
  - eapply tends_ext; [|reflexivity|exact HF]. intros E _. simpl. rewrite entry_cons.
    destruct (Nat.eqb_spec i r); [congruence|]. reflexivity.
Qed.
Lemma entry_app P P' r x : neqv (entry (P ++ P') r x) (nadd (entry P r x) (entry P' r x)).
Proof.
  induction P as [|[[i j] v] P IH].
  - simpl app. change (entry [] r x) with (Fin 0). destruct (entry P' r x); simpl; auto. ring.
  - simpl app. rewrite !entry_cons. destruct (_ && _); [|exact IH]. rewrite IH. apply nadd_assoc.
Qed.
Lemma closes_app F L F' L' r x : closes F L r x -> closes F' L' r x -> closes (fun E => F E ++ F' E) (L ++ L') r x.
Proof.
  intros H H'. unfold closes. eapply tends_ext; [| |apply tends_add; [exact H|exact H']].
  - intros E _. simpl. symmetry. apply entry_app.
  - symmetry. apply entry_app.
Qed.
Lemma closes_flat {A} (B : Q -> A -> ncoo) (C : A -> ncoo) l r x :
  (forall a, In a l -> closes (fun E => B E a) (C a) r x) -> closes (fun E => flat_map (B E) l) (flat_map C l) r x.
Proof.
  induction l as [|a l IH]; intros H; simpl; [apply closes_nil|].
  apply closes_app; [apply H; left; auto|apply IH; intros; apply H; right; auto].
Qed.

(** ** One element *)
Lemma tends_k0 f G l : qG f = Fin G -> 0 < G -> 0 < l -> 0 < qh f -> 0 < qb f ->
  tends (fun E => k0_of (set_E (Fin E) f) l) (k0_of (set_E PInf f) l).
Proof.
  intros EG G0 l0 h0 b0 eps He.
  set (A := np_pi / 4 * (G * qb f * qh f) / l). set (X := l / qh f * (l / qh f)).
  assert (A0 : 0 < A).
  { unfold A. apply Qlt_shift_div_l; [auto|]. rewrite Qmult_0_l. assert (0 < np_pi / 4) by reflexivity.
    apply Qmult_lt_0_compat; auto. apply Qmult_lt_0_compat; auto. apply Qmult_lt_0_compat; auto. }
  assert (X0 : 0 < X). { assert (0 < l / qh f) by (apply Qlt_shift_div_l; lra). unfold X. apply Qmult_lt_0_compat; auto. }
  assert (W0 : 0 < A * (G * X)) by (apply Qmult_lt_0_compat; auto; apply Qmult_lt_0_compat; auto).
  exists (A * (G * X) / eps). split; [apply Qlt_shift_div_l; lra|]. intros E L.
  assert (E0 : 0 < E). { assert (0 < A * (G * X) / eps) by (apply Qlt_shift_div_l; lra). lra. }
  exists (A / (1 + G / E * X)), (A / (1 + 0 * X)). split; [|split].
  - apply (k0_fin (set_E (Fin E) f) G E l); auto.
  - apply (k0_inf (set_E PInf f) G l); auto.
  - assert (D : 0 < E + G * X) by (assert (0 < G * X) by (apply Qmult_lt_0_compat; auto); lra).
    assert (EQ : A / (1 + G / E * X) - A / (1 + 0 * X) == - (A * (G * X) / (E + G * X))) by (field; lra).
    rewrite EQ. assert (P : 0 < A * (G * X) / (E + G * X)) by (apply Qlt_shift_div_l; lra).
    assert (U : A * (G * X) / (E + G * X) < eps).
    { apply Qlt_shift_div_r; auto. assert (Z : A * (G * X) < eps * E).
      { apply Qle_lt_trans with (A * (G * X) / eps * eps); [apply Qle_lteq; right; field; lra|].
        rewrite (Qmult_comm eps). apply Qmult_lt_r; auto. }
      assert (0 < eps * (G * X)) by (apply Qmult_lt_0_compat; auto; apply Qmult_lt_0_compat; auto). lra. }
    lra.
Qed.
Lemma closes_block c i j f G l a x : qG f = Fin G -> 0 < G -> 0 < l -> 0 < qh f -> 0 < qb f ->
  closes (fun E => block c i j (set_E (Fin E) f) l) (block c i j (set_E PInf f) l) (2 * a) x.
Proof.
  intros EG G0 l0 h0 b0. pose proof (tends_k0 f G l EG G0 l0 h0 b0) as T0.
  assert (T1 : tends (fun E => k1_of c (set_E (Fin E) f) l) (k1_of c (set_E PInf f) l)).
  { unfold k1_of. apply tends_scale, tends_div2, tends_scale. exact T0. }
  pose proof (tends_opp _ _ T0) as T2. pose proof (tends_opp _ _ T1) as T3.
  unfold block. cbv zeta.
  repeat (apply closes_cons; [intros H; first [exact T0|exact T1|exact T2|exact T3|exfalso; lia]|]). apply closes_nil.
Qed.

(** ** Assembly *)
Lemma rel_checks (R : qfiber -> qfiber -> Prop) p m m' : (forall f g, R f g -> p (fiber_of f) = p (fiber_of g)) ->
  Forall2 R m m' ->
  forallb p (map snd (enum (map fiber_of m))) = forallb p (map snd (enum (map fiber_of m'))).
Proof.
  intros H F. rewrite !enum_snd. induction F as [|f g l l' Hfg F IH]; simpl; auto.
  rewrite (H _ _ Hfg), IH. auto.
Qed.
Lemma moduli_check m E : 0 < E -> mat_check (df_of (set_tensile (Fin E) m)) = mat_check (df_of (set_tensile PInf m)).
Proof.
  intros HE.
  pose (R := fun f f' => exists b, f = set_E (Fin E) b /\ f' = set_E PInf b).
  assert (F : Forall2 R (q_rows (set_tensile (Fin E) m)) (q_rows (set_tensile PInf m))).
  { unfold R. simpl. induction (q_rows m); simpl; constructor; eauto. }
  unfold mat_check, m_index, df_of. cbn [m_attrs m_cols m_rows at_n at_size skipped at_skip].
  change (q_size (set_tensile (Fin E) m)) with (q_size m). change (q_size (set_tensile PInf m)) with (q_size m).
  rewrite !enum_fst, !enum_length, !map_length.
  rewrite (rel_checks R dims_pos _ _ ltac:(intros f g (b & -> & ->); reflexivity) F).
  rewrite (rel_checks R (in_box (Fin (q_size m))) _ _ ltac:(intros f g (b & -> & ->); reflexivity) F).
  rewrite (rel_checks R unit_norm _ _ ltac:(intros f g (b & -> & ->); reflexivity) F).
  rewrite (rel_checks R moduli_pos _ _ ltac:(intros f g (b & -> & ->); unfold moduli_pos, fiber_of, set_E; simpl;
     rewrite (proj2 (Qltb_lt 0 E) HE); reflexivity) F).
  simpl. rewrite !map_length. reflexivity.
Qed.
Definition set_elem (E : num) (e : elem) : elem := mkElem (ei e) (ej e) (set_E E (ef e)) (el e).
Lemma known_set E m ds : fibers_known (set_tensile E m) ds = fibers_known m ds.
Proof. unfold fibers_known. simpl. rewrite map_length. reflexivity. Qed.
Lemma elements_set E m rs :
  fibers_known m (map snd (filter (fun r => Z.ltb (fst r) (nbeam (snd r))) rs)) = true ->
  elements (set_tensile E m) rs = map (set_elem E) (elements m rs).
Proof.
  intros H. unfold elements. rewrite map_map. apply map_ext_in. intros [lab d] Hr. unfold set_elem. simpl. f_equal.
  unfold fibers_known in H. rewrite forallb_forall in H.
  specialize (H d (in_map snd _ _ Hr)). unfold in_range in H. apply andb_true_iff in H. rewrite Z.leb_le, Z.ltb_lt in H.
  rewrite (nth_indep _ _ (set_E E fiber0)) by (rewrite map_length; apply Nat2Z.inj_lt; rewrite Z2Nat.id; lia).
  apply map_nth.
Qed.
Lemma combine_map_l {A B C} (f : A -> B) (l : list A) (l' : list C) :
  combine (map f l) l' = map (fun p => (f (fst p), snd p)) (combine l l').
Proof. revert l'. induction l as [|a l IH]; intros [|b l']; simpl; auto. rewrite IH. auto. Qed.
Lemma flat_map_map {A B C} (f : A -> B) (g : B -> list C) l : flat_map g (map f l) = flat_map (fun a => g (f a)) l.
Proof. induction l; simpl; congruence. Qed.

Lemma el_set E es : map el (map (set_elem E) es) = map el es.
Proof. rewrite map_map. reflexivity. Qed.
Lemma stiff_set E m g lmin lmax c rs ls : rs = g_rows g ->
  mat_check (df_of (set_tensile E m)) = Ok true -> mesh_check g = Ok true ->
  fibers_known m (map snd (filter (fun r => Z.ltb (fst r) (nbeam (snd r))) rs)) = true ->
  rescale lmin lmax (map el (elements m rs)) = Ok ls ->
  stiffness (set_tensile E m) g lmin lmax c =
    Ok (flat_map (fun p => block c (ei (fst p)) (ej (fst p)) (set_E E (ef (fst p))) (snd p)) (combine (elements m rs) ls)).
Proof.
  intros -> H1 H2 H3 H4. unfold stiffness. rewrite H1, H2. simpl. rewrite known_set, H3, (elements_set E m _ H3). simpl.
  rewrite el_set, H4. simpl. rewrite combine_map_l, flat_map_map. reflexivity.
Qed.
Lemma stiff_limit m g lmin lmax c K : ~ flag_set (g_attrs g) -> finite_shear m -> lengths_ok g lmin lmax ->
  stiffness (set_tensile PInf m) g lmin lmax c = Ok K ->
  exists F, (forall E, 0 < E -> stiffness (set_tensile (Fin E) m) g lmin lmax c = Ok (F E)) /\
    forall i x, closes F K (2 * i) x.
Proof.
  intros Hf HG HS HK.
  assert (HG' : finite_shear (set_tensile PInf m)).
  { intros f Hin. simpl in Hin. apply in_map_iff in Hin. destruct Hin as (b & <- & Hb). apply (HG b Hb). }
  assert (HE : forall f, In f (q_rows (set_tensile PInf m)) -> qE f = PInf).
  { intros f Hin. simpl in Hin. apply in_map_iff in Hin. destruct Hin as (b & <- & Hb). reflexivity. }
  pose proof HK as HK'. unfold stiffness in HK'. revert HK'.
  destruct (mat_check (df_of (set_tensile PInf m))) as [b|] eqn:E1; [|discriminate]. pose proof (mat_check_true _ _ E1). subst b.
  destruct (mesh_check g) as [b|] eqn:E2; [|discriminate]. pose proof (mesh_check_true _ _ E2). subst b. simpl.
  rewrite known_set. destruct (fibers_known m _) eqn:E3; [|discriminate]. simpl.
  rewrite (elements_set PInf m _ E3), el_set. simpl.
  destruct (rescale lmin lmax _) as [ls|] eqn:E4; [|discriminate]. intros _.
  assert (E4' : rescale lmin lmax (map el (elements m (g_rows g))) = Ok ls) by exact E4.
  rewrite (stiff_set PInf m g lmin lmax c _ ls eq_refl E1 E2 E3 E4') in HK.
  eexists. split.
  - intros E E0. apply (stiff_set (Fin E) m g lmin lmax c (g_rows g) ls eq_refl); auto. rewrite moduli_check; auto.
  - assert (HK' : stiffness (set_tensile PInf m) g lmin lmax c = Ok K)
      by (rewrite (stiff_set PInf m g lmin lmax c _ ls eq_refl E1 E2 E3 E4'); exact HK).
    inversion HK. intros i x. apply closes_flat. intros p Hp.
    assert (Hp' : In (set_elem PInf (fst p), snd p) (parts (set_tensile PInf m) g lmin lmax)).
    { unfold parts, lens. rewrite (elements_set PInf m _ E3), el_set, E4', combine_map_l.
      apply in_map_iff. exists p. auto. }
    destruct (part_inf _ _ _ _ _ _ HK' Hf HS HG' HE _ Hp') as (G & EG & _ & G0 & l0 & h0 & b0). simpl in *.
    apply (closes_block _ _ _ _ G); auto.
Qed.
