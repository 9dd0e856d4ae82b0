(** Proofs about the tests of the stacking (C99). *)
From Verif Require Import Num NumP ListX ListP Frames MatM NetM StackM MainM Spec SpecNet SpecStack SpecMain CheckP MatP DrawP NetP NetGeoP NetZP StackP StackNewP MainP ScriptsP TestsM SpecTests.
Open Scope Q_scope.

(** ** the heights of the test *)
Lemma assign_put j x z : assign j x z = put j x z.
Proof. reflexivity. Qed.
Lemma put_eq j x y z z' : x == y -> Forall2 Qeq z z' -> Forall2 Qeq (put j x z) (put j y z').
Proof.
  intros E F. revert j. induction F as [|a b z z' H F IH]; intros j; [destruct j; constructor|].
  destruct j as [|j]; cbn [put]; constructor; auto.
Qed.
Lemma nth_eq i z z' : Forall2 Qeq z z' -> nth i z 0 == nth i z' 0.
Proof. intros F. revert i. induction F as [|a b z z' H F IH]; intros [|i]; cbn [nth]; try reflexivity; auto. Qed.
Lemma higher_eq h z z' i j : Forall2 Qeq z z' -> higher h z i j == Qmax (nth j z' 0) (nth i z' 0 + (nth i h 0 + nth j h 0) / 2).
Proof.
  intros F. unfold higher. pose proof (nth_eq i _ _ F) as Ei. pose proof (nth_eq j _ _ F) as Ej.
  destruct (Qltb _ _) eqn:E; qb; destruct (Q.max_spec (nth j z' 0) (nth i z' 0 + (nth i h 0 + nth j h 0) / 2)) as [[L ->]|[L ->]]; qlra.
Qed.
Lemma expected_rows h l : forall z z', Forall2 Qeq z z' ->
  Forall2 Qeq (fold_left (fun z e => let i := Z.to_nat (fst e) in let j := Z.to_nat (snd e) in assign j (higher h z i j) z)
      (map (fun r : Z * conn => (cA (snd r), cB (snd r))) (filter (fun r => Z.ltb (cA (snd r)) (cB (snd r))) l)) z)
    (fold_left (lift h) (map snd l) z').
Proof.
  induction l as [|[k c] l IH]; intros z z' F; [exact F|]. cbn [filter map fold_left snd fst]. unfold lift at 2.
  destruct (Z.ltb (cA c) (cB c)); [|apply IH; exact F]. cbn [map fold_left fst snd]. apply IH. rewrite assign_put. apply put_eq; [|exact F].
  apply (higher_eq h z z' _ _ F).
Qed.
Lemma expected_sweep m t : Forall2 Qeq (expected m t) (sweep m t).
Proof.
  unfold expected, sweep, upward. apply expected_rows. induction (q_rows m) as [|f l IH]; cbn [map]; constructor; [qlra|exact IH].
Qed.
Lemma expected_same m m' t : same_but_heights m m' -> expected m' t = expected m t.
Proof.
  intros [_ F]. unfold expected. assert (E : map qh (q_rows m') = map qh (q_rows m)); [|rewrite E; reflexivity].
  induction F as [|f g l l' (_ & _ & H & _) F IH]; cbn [map]; congruence.
Qed.
Lemma all_equal_iff l l' : all_equal l l' = true <-> Forall2 Qeq l l'.
Proof.
  split.
  - revert l'. induction l as [|x l IH]; intros [|y l'] H; try discriminate H; [constructor|]. cbn [all_equal] in H.
    apply andb_prop in H. destruct H as [H1 H2]. constructor; [qb; exact H1|apply IH; exact H2].
  - intros F. induction F as [|x y l l' E F IH]; [reflexivity|]. cbn [all_equal]. rewrite IH, andb_true_r. apply Qeq_bool_iff. exact E.
Qed.
Lemma eq_trans2 l1 l2 l3 : Forall2 Qeq l1 l2 -> Forall2 Qeq l2 l3 -> Forall2 Qeq l1 l3.
Proof. intros F. revert l3. induction F as [|a b l l' E F IH]; intros l3 G; inversion G; subst; constructor; [rewrite E; assumption|auto]. Qed.
Lemma eq_sym2 l1 l2 : Forall2 Qeq l1 l2 -> Forall2 Qeq l2 l1.
Proof. intros F. induction F; constructor; auto. symmetry. assumption. Qed.

(** equal heights are admissible and supported together *)
Lemma height_eq z z' i : Forall2 Qeq z z' -> height z i == height z' i.
Proof. intros F. apply nth_eq. exact F. Qed.
Lemma same_admissible m t z z' : Forall2 Qeq z z' -> admissible m t z' -> admissible m t z.
Proof.
  intros F (L & A & B). split; [rewrite (Forall2_len _ _ _ F); exact L|]. split.
  - intros i f Hf. rewrite (height_eq _ _ i F). apply A. exact Hf.
  - intros a b f g C Hf Hg. rewrite (height_eq _ _ a F), (height_eq _ _ b F). apply (B a b); assumption.
Qed.
Lemma same_supported m t z z' : Forall2 Qeq z z' -> supported m t z' -> supported m t z.
Proof.
  intros F S i f Hf. destruct (S i f Hf) as [E|(a & g & C & Hg & E)]; [left; rewrite (height_eq _ _ i F); exact E|].
  right. exists a, g. rewrite (height_eq _ _ i F), (height_eq _ _ a F). auto.
Qed.

(** ** the test *)
Section Test.
  Variable linprog : lp -> list Q.
  Variables (m : qmat) (t : net_df) (p : lp).
  Hypothesis Hnew : net_new m true None = Ok t.
  Hypothesis Hp : stack_constraint m t = Ok p.
  Hypothesis HL : length (linprog p) = length (q_rows m).
  Hypothesis HN : q_rows m <> [].

  Lemma test_form : stacking_test linprog m = if all_equal (linprog p) (expected m t) then Ok tt else Exn ValueErr.
  Proof.
    destruct (new_facts _ _ _ _ Hnew) as (Hv & Hok & Hl & Hf & Hper).
    assert (HS : same_but_heights m (set_z m (linprog p))) by (apply set_z_same; exact HL).
    unfold stacking_test. rewrite Hnew. cbn [bind]. unfold stack_new, stack_solve.
    rewrite (valid_check m Hv), (proj2 (net_check_ok t) (or_intror Hok)), Hp. cbn [bind].
    destruct (q_rows m) as [|f l] eqn:E; [congruence|]. cbn [bind]. rewrite Hper.
    destruct (net_total (set_z m (linprog p)) true None (same_valid _ _ HS Hv)) as (full & Hfull); [intros ? ? ? C; discriminate C|].
    rewrite Hfull. cbn [bind filter_net]. rewrite (new_check _ _ _ _ Hfull). cbn [bind snd].
    change (map qz (q_rows (set_z m (linprog p)))) with (heights (set_z m (linprog p))). rewrite set_z_heights by (rewrite E; exact HL).
    rewrite (expected_same _ _ t HS). reflexivity.
  Qed.
  Lemma test_iff : stacking_test linprog m = Ok tt <-> lp_optimal p (linprog p).
  Proof.
    destruct (new_facts _ _ _ _ Hnew) as (Hv & Hok & Hl & Hf & Hper). pose proof (sweep_optimal m t p Hp Hf (new_by_A _ _ _ _ Hnew)) as O.
    rewrite test_form. split.
    - destruct (all_equal _ _) eqn:E; [|discriminate]. intros _. apply all_equal_iff in E. pose proof (eq_trans2 _ _ _ E (expected_sweep m t)) as F.
      destruct (sweep_adm m t p Hp Hf (new_by_A _ _ _ _ Hnew)) as (A & S).
      apply (supported_optimal m t p Hp Hf); [exact (same_admissible _ _ _ _ F A)|exact (same_supported _ _ _ _ F S)].
    - intros H. pose proof (optimum_unique m t p Hp Hf _ _ H O) as F.
      rewrite (proj2 (all_equal_iff _ _)); [reflexivity|]. eapply eq_trans2; [exact F|]. apply eq_sym2, expected_sweep.
  Qed.
  Lemma test_fails : ~ lp_optimal p (linprog p) <-> stacking_test linprog m = Exn ValueErr.
  Proof.
    rewrite <- test_iff, test_form. destruct (all_equal _ _); split; intros H; try reflexivity; try discriminate H; [destruct H; reflexivity|discriminate].
  Qed.
End Test.

Lemma test_detects linprog m t p : answers linprog -> net_new m true None = Ok t -> stack_constraint m t = Ok p -> q_rows m <> [] ->
  (stacking_test linprog m = Ok tt <-> lp_optimal p (linprog p)) /\ (stacking_test linprog m = Exn ValueErr <-> ~ lp_optimal p (linprog p)) /\
  (stacking_test linprog m = Ok tt <-> admissible m t (linprog p) /\ supported m t (linprog p)).
Proof.
  intros AN Ht Hp NE. destruct (new_facts _ _ _ _ Ht) as (Hv & Hok & Hl & Hf & Hper).
  assert (L : length (linprog p) = length (q_rows m)).
  { rewrite (AN p). destruct (optimum_exists m t p Hp Hf) as (z & [F _] & _). pose proof (proj1 F) as L1. apply (feasible_iff m t p Hp Hf) in F. rewrite <- L1. apply F. }
  pose proof (test_iff linprog m t p Ht Hp L NE) as I1. pose proof (test_fails linprog m t p Ht Hp L NE) as I2. split; [exact I1|]. split; [symmetry; exact I2|].
  rewrite I1. split.
  - intros O. split; [apply (feasible_iff m t p Hp Hf); apply O|apply (optimal_supported m t p Hp Hf); exact O].
  - intros (A & S). apply (supported_optimal m t p Hp Hf); assumption.
Qed.

(** an empty mat passes *)
Lemma test_empty linprog size : stacking_test linprog (mkQmat [] size) = Ok tt.
Proof. reflexivity. Qed.
Lemma test_right linprog m : right_linprog linprog -> valid m -> stacking_test linprog m = Ok tt.
Proof.
  intros RL V. destruct (q_rows m) as [|f l] eqn:E; [destruct m as [rs sz]; cbn [q_rows] in E; subst rs; apply test_empty|].
  destruct (net_total m true None V) as (t & Ht); [intros ? ? ? C; discriminate C|]. destruct (new_facts _ _ _ _ Ht) as (_ & Hok & Hl & Hf & _).
  destruct (constraint_total m t V Hok Hl) as (p & Hp). pose proof (RL m true t Ht p Hp) as O.
  apply (test_iff linprog m t p Ht Hp); [|rewrite E; discriminate|exact O]. exact (solved_length linprog m t p Hf (RL m true t Ht) Hp).
Qed.
Lemma test_invalid linprog m : ~ valid m -> exists e, mat_check (df_of m) = Exn e /\ stacking_test linprog m = Exn e.
Proof.
  intros NV. destruct (mat_check (df_of m)) as [b|e] eqn:E.
  - destruct NV. pose proof (mat_check_true _ _ E). subst b. apply check_valid. exact E.
  - exists e. split; [reflexivity|]. unfold stacking_test, net_new, net_init. rewrite E. reflexivity.
Qed.

(** ** from the draws *)
Lemma redrawn_nth fs : forall ls hs i g, nth_error (redrawn fs ls hs) i = Some g <-> exists f l h, nth_error fs i = Some f /\ nth_error ls i = Some l /\ nth_error hs i = Some h /\
  g = mkQ l (qb f) h (qx f) (qy f) (qz f) (qu f) (qv f) (qw f) (qG f) (qE f).
Proof.
  induction fs as [|f fs IH]; intros ls hs i g.
  - cbn [redrawn]. split; [destruct i; discriminate|]. intros (f & _ & _ & H & _). destruct i; discriminate H.
  - destruct ls as [|l ls]; [cbn [redrawn]; split; [destruct i; discriminate|intros (? & ? & ? & _ & H & _); destruct i; discriminate H]|].
    destruct hs as [|h hs]; [cbn [redrawn]; split; [destruct i; discriminate|intros (? & ? & ? & _ & _ & H & _); destruct i; discriminate H]|].
    cbn [redrawn]. destruct i as [|i]; cbn [nth_error]; [|apply IH]. split.
    + intros H. injection H as <-. exists f, l, h. auto.
    + intros (f' & l' & h' & E1 & E2 & E3 & ->). injection E1 as <-. injection E2 as <-. injection E3 as <-. reflexivity.
Qed.
Lemma redrawn_length fs : forall ls hs, length ls = length fs -> length hs = length fs -> length (redrawn fs ls hs) = length fs.
Proof. induction fs as [|f fs IH]; intros [|l ls] [|h hs] A B; try discriminate; [reflexivity|]. cbn [redrawn length] in *. rewrite IH; lia. Qed.

(** the mat of the test lies in its plane, before and after the new columns *)
Lemma test_flat R cos sin pi ls hs ent prior md s : (forall a, a == 0 -> sin a == 0) -> mat_new R cos sin (test_mat pi) ent prior = Ok (md, s) ->
  all_in_plane (mkQmat (redrawn (q_rows (read_mat md)) ls hs) (q_size (read_mat md))).
Proof.
  intros HS H g Hg. cbn [q_rows] in Hg. apply In_nth_error in Hg. destruct Hg as (i & Hg). apply redrawn_nth in Hg. destruct Hg as (f & l & h & Ef & _ & _ & ->).
  unfold in_plane. cbn [qw]. cbn [read_mat q_rows] in Ef. rewrite nth_error_map in Ef. destruct (nth_error (m_rows md) i) as [[lab f0]|] eqn:E0; [|discriminate Ef].
  injection Ef as <-. cbn [read_fiber qw snd]. destruct (mat_draws R cos sin _ _ _ _ _ H) as (_ & _ & P & _).
  destruct (mat_flat R cos sin (test_mat pi) _ _ _ _ HS (Qeq_refl 0) (P _ _ _ E0)) as (w & -> & W). exact W.
Qed.

Section Draws.
  Variables (R : rng) (cos sin : Q -> Q).
  Hypothesis HR : draws_in_range R.
  Hypothesis HT : trig_accurate cos sin.
  Lemma test_mat_new pi ent prior : exists md s, mat_new R cos sin (test_mat pi) ent prior = Ok (md, s) /\ valid (read_mat md) /\ length (q_rows (read_mat md)) = 100%nat.
  Proof.
    destruct (mat_generated R cos sin (test_mat pi) ent prior HR HT) as (md & s & Hmd & _).
    { split; [cbn; lia|]. cbn [test_mat p_length p_width p_thickness p_size p_shear p_tensile p_seed positive]. do 6 (split; [try exact I; lra|]). intros k C. discriminate C. }
    exists md, s. split; [exact Hmd|]. pose proof (read_length R cos sin _ _ _ _ _ Hmd) as L.
    destruct (read_back R cos sin _ _ _ md s Hmd) as (E0 & EC). split; [|cbn [test_mat p_n] in L; lia].
    unfold valid. rewrite E0. apply mat_check_ok in EC. destruct EC as [F|M]; [|exact M]. rewrite <- E0 in F. discriminate F.
  Qed.
  Lemma redrawn_valid m ls hs : valid m -> positive_draws (length (q_rows m)) ls -> positive_draws (length (q_rows m)) hs -> valid (mkQmat (redrawn (q_rows m) ls hs) (q_size m)).
  Proof.
    intros V (_ & A) (_ & B). apply valid_intro. cbn [q_rows q_size]. intros g Hg. apply In_nth_error in Hg. destruct Hg as (i & Hg). apply redrawn_nth in Hg.
    destruct Hg as (f & l & h & Ef & El & Eh & ->). destruct (valid_fiber m V f (nth_error_In _ _ Ef)) as (_ & Hb & _ & Rest). cbn [ql qb qh qx qy qu qv qw qG qE].
    split; [exact (A l (nth_error_In _ _ El))|]. split; [exact Hb|]. split; [exact (B h (nth_error_In _ _ Eh))|exact Rest].
  Qed.
  Lemma test_passes linprog pi ls hs ent prior : right_linprog linprog -> positive_draws 100 ls -> positive_draws 100 hs ->
    test_stack R cos sin linprog pi ls hs ent prior = Ok tt.
  Proof.
    intros RL A B. destruct (test_mat_new pi ent prior) as (md & s & Hmd & V & L). unfold test_stack. rewrite Hmd. cbn [bind fst].
    apply test_right; [exact RL|]. apply redrawn_valid; [exact V|rewrite L; exact A|rewrite L; exact B].
  Qed.
  Lemma test_raises linprog pi ls hs ent prior : length ls = 100%nat -> length hs = 100%nat -> (exists x, In x (ls ++ hs) /\ x <= 0) ->
    test_stack R cos sin linprog pi ls hs ent prior = Exn ValueErr.
  Proof.
    intros LA LB (x & Hx & Nx). destruct (test_mat_new pi ent prior) as (md & s & Hmd & V & L). unfold test_stack. rewrite Hmd. cbn [bind fst].
    set (m := read_mat md) in *. set (m2 := mkQmat (redrawn (q_rows m) ls hs) (q_size m)).
    assert (LR : length (q_rows m2) = 100%nat) by (cbn [m2 q_rows]; rewrite redrawn_length; lia).
    assert (Bad : exists g, In g (q_rows m2) /\ (ql g <= 0 \/ qh g <= 0)).
    { assert (G : exists i, (i < 100)%nat /\ (nth_error ls i = Some x \/ nth_error hs i = Some x)).
      { apply in_app_or in Hx. destruct Hx as [Hx|Hx]; apply In_nth_error in Hx; destruct Hx as (i & Hx); exists i; (split; [|auto]); match type of Hx with nth_error ?l _ = _ => assert (NN : nth_error l i <> None) by congruence end; apply nth_error_Some in NN; lia. }
      destruct G as (i & Li & Gi). destruct (nth_error (q_rows m2) i) as [g|] eqn:Eg; [|apply nth_error_None in Eg; lia].
      exists g. split; [exact (nth_error_In _ _ Eg)|]. cbn [m2 q_rows] in Eg. apply redrawn_nth in Eg. destruct Eg as (f & l & h & _ & El & Eh & ->). cbn [ql qh].
      destruct Gi as [Gi|Gi]; [left|right]; congruence. }
    assert (NV : ~ valid m2).
    { intros V2. destruct Bad as (g & Hg & Bg). destruct (valid_fiber m2 V2 g Hg) as (Hl & _ & Hh & _). destruct Bg; lra. }
    destruct (test_invalid linprog m2 NV) as (e & Ee & ->). f_equal.
    apply mat_check_raises in Ee. destruct Ee as (_ & Fe).
    assert (IN : labelled_in_order (m_rows (df_of m2))).
    { intros k lab a Hk. cbn [df_of m_rows] in Hk. rewrite enum_nth_error in Hk. destruct (nth_error _ k); [|discriminate Hk]. injection Hk as <- _. reflexivity. }
    destruct Fe as [C|C [D|D]|? ? _ _ _ C|? _ _ _ C|? _ _ _ _ _]; try discriminate D; try reflexivity.
    - destruct C. intros c Hc. exact Hc.
    - destruct C. exact IN.
  Qed.
End Draws.
