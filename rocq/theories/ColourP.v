(** Proofs about the fibers drawn by the scripts of mat.py and net.py and their colours (C91). *)
From Verif Require Import Num NumP ListX ListP Frames MatM NetM StackM ModelM InterpM VtkM PictureM ColourM
  Spec SpecNet SpecStack SpecPicture SpecColour CheckP NetP NetGeoP NetZP StackP StackForceP StackNewP StiffP PictureP.
Open Scope Q_scope.

(** ** lines *)
Lemma line_axis f p : 0 < ql f -> on_line p (fiber_line f) <-> on_fiber_axis p f.
Proof.
  intros L. unfold on_line, on_fiber_axis, fiber_line, ax, ay, az, half. cbn [fst snd vx vy vz]. split.
  - intros (a & A & X & Y & Z). exists ((a - (1 # 2)) * ql f). split; [split; qdiv; nra|]. rewrite X, Y, Z. repeat split; ring.
  - intros (s & A & X & Y & Z). exists (s / ql f + (1 # 2)). assert (E : s == (s / ql f) * ql f) by (field; lra). split.
    + split.
      * assert (- (1 # 2) <= s / ql f); [|lra]. apply Qle_shift_div_l; [exact L|]. qdiv. lra.
      * assert (s / ql f <= 1 # 2); [|lra]. apply Qle_shift_div_r; [exact L|]. qdiv. lra.
    + rewrite X, Y, Z. set (d := s / ql f) in *. repeat split; rewrite E; ring.
Qed.
Lemma mat_picture_nth m k s : nth_error (mat_picture m) k = Some s <-> exists f, nth_error (q_rows m) k = Some f /\ s = fiber_line f.
Proof.
  unfold mat_picture. rewrite nth_error_map. destruct (nth_error (q_rows m) k) as [f|]; cbn; split.
  - intros H. injection H as <-. eauto.
  - intros (f' & E & ->). congruence.
  - discriminate.
  - intros (f & E & _). discriminate.
Qed.
Lemma mat_lines m : valid m -> length (mat_picture m) = length (q_rows m) /\
  forall k f, has_fiber m k f -> exists s, nth_error (mat_picture m) (Z.to_nat k) = Some s /\ forall p, on_line p s <-> on_fiber_axis p f.
Proof.
  intros V. split; [unfold mat_picture; apply map_length|]. intros k f [_ H]. exists (fiber_line f). split; [apply mat_picture_nth; eauto|].
  intros p. apply line_axis. apply (valid_fiber m V f). eapply nth_error_In; exact H.
Qed.
Lemma net_points m per pairs t k c : net_new m per pairs = Ok t -> is_row t k c ->
  exists a b, nth_error (mat_picture m) (Z.to_nat (cA c)) = Some a /\ nth_error (mat_picture m) (Z.to_nat (cB c)) = Some b /\
    on_line (mkVec (cxA c) (cyA c) (czA c)) a /\ on_line (mkVec (cxB c) (cyB c) (czB c)) b.
Proof.
  intros Hn R. destruct (on_axes m per pairs t k c Hn R) as (f & g & Ff & Fg & X & Y & Z & X' & Y' & Z').
  pose proof (new_valid _ _ _ _ Hn) as V. destruct (mat_lines m V) as [_ ML].
  destruct (ML _ _ Ff) as (a & Ea & La). destruct (ML _ _ Fg) as (b & Eb & Lb). exists a, b. split; [exact Ea|]. split; [exact Eb|].
  assert (I : - (ql f / 2) <= csA c <= ql f / 2 /\ - (ql g / 2) <= csB c <= ql g / 2).
  { assert (Pf : 0 < ql f) by (apply (valid_fiber m V f); eapply nth_error_In; apply Ff).
    assert (Pg : 0 < ql g) by (apply (valid_fiber m V g); eapply nth_error_In; apply Fg).
    destruct (Z.eq_dec (cA c) (cB c)) as [E|E].
    - destruct (end_abscissae m per pairs t k c f Hn R E Ff) as [A B].
      assert (g = f) by (destruct Ff, Fg; congruence). subst g. rewrite A, B. repeat split; qlra.
    - assert (Lc : (cA c < cB c)%Z).
      { pose proof (new_ok _ _ _ _ Hn) as O. destruct O as (_ & nn & _ & _ & _ & _ & _ & _ & HO & _). unfold is_row in R. apply nth_error_In in R. assert (cA c <= cB c)%Z by exact (HO _ _ R). lia. }
      destruct (row_inside m per pairs t k c f g Hn R Lc Ff Fg) as [[A A'] [B B']]. repeat split; lra. }
  split; [apply La; exists (csA c)|apply Lb; exists (csB c)]; cbn [vx vy vz]; (split; [apply I|]).
  - rewrite X, Y, Z. repeat split; reflexivity.
  - rewrite X', Y', Z'. repeat split; reflexivity.
Qed.

(** ** colours *)
Lemma qmin_spec l : forall x, In (qmin_list x l) (x :: l) /\ forall y, In y (x :: l) -> qmin_list x l <= y.
Proof.
  induction l as [|a l IH]; intros x; simpl.
  - split; [auto|]. intros y [->|[]]. lra.
  - destruct (IH x) as [I B]. split.
    + destruct (Q.min_spec a (qmin_list x l)) as [[L E]|[L E]].
      * unfold Qmin, GenericMinMax.gmin in *. destruct (a ?= qmin_list x l); auto; simpl in I; tauto.
      * unfold Qmin, GenericMinMax.gmin in *. destruct (a ?= qmin_list x l); auto; simpl in I; tauto.
    + intros y Hy. change (fold_right Qmin x l) with (qmin_list x l). destruct Hy as [->|[->|Hy]].
      * eapply Qle_trans; [apply Q.le_min_r|]. apply B; left; reflexivity.
      * apply Q.le_min_l.
      * eapply Qle_trans; [apply Q.le_min_r|]. apply B; right; exact Hy.
Qed.
Lemma colour_value lo hi x : lo <= x <= hi -> exists c, colour lo hi x = Ok (Fin c) /\
  (lo < hi -> c == (x - lo) / (hi - lo)) /\ (lo == hi -> c == 1).
Proof.
  intros [A B]. unfold colour. assert (E1 : Qltb x lo = false) by (qb; lra). assert (E2 : Qltb hi x = false) by (qb; lra). rewrite E1, E2. cbn [orb].
  unfold call_np, search_right. cbn [filter length]. assert (E3 : Qleb lo x = true) by (qb; lra). rewrite E3.
  destruct (Qleb hi x) eqn:E4; cbn [length Nat.sub nth Nat.leb].
  - exists 1. split; [reflexivity|]. qb. split; [|reflexivity]. intros L. assert (E : x == hi) by lra. rewrite E. field. lra.
  - qb. destruct (Qeqb lo x) eqn:E5.
    + qb. exists 0. split; [reflexivity|]. split; [|lra]. intros L. rewrite E5. unfold Qdiv. ring.
    + cbn [plus nth]. unfold nsub, nopp, nadd at 2, ndiv. assert (D : Qeqb (hi - lo) 0 = false) by (apply not_true_is_false; intros D; qb; lra).
      rewrite D. cbn [nmul nadd]. eexists. split; [reflexivity|]. split; [|lra]. intros L. field. lra.
Qed.
Lemma colours_all lo hi l : (forall x, In x l -> lo <= x <= hi) -> exists cs, colours lo hi l = Ok cs /\ length cs = length l /\
  forall i x, nth_error l i = Some x -> exists c, nth_error cs i = Some (Fin c) /\ (lo < hi -> c == (x - lo) / (hi - lo)) /\ (lo == hi -> c == 1).
Proof.
  induction l as [|a l IH]; intros B.
  - exists []. split; [reflexivity|]. split; [reflexivity|]. intros [|i] x; discriminate.
  - destruct IH as (cs & E & L & V); [intros x Hx; apply B; right; exact Hx|]. destruct (colour_value lo hi a (B a (or_introl eq_refl))) as (c & Ec & Vc).
    exists (Fin c :: cs). cbn [colours]. rewrite Ec, E. cbn [bind]. split; [reflexivity|]. split; [cbn; congruence|].
    intros [|i] x; cbn; [intros H; injection H as <-; eauto|apply V].
Qed.
Lemma mean_total m : (0 < length (q_rows m))%nat -> mean_weight m * inject_Z (Z.of_nat (length (q_rows m))) == total_weight m.
Proof.
  intros N. unfold mean_weight, total_weight. assert (E : qsum (map weight (q_rows m)) == np_pi / 4 * qsum (map (fun f => ql f * qb f * qh f) (q_rows m))).
  { induction (q_rows m) as [|f l IH] in |- *; cbn [map qsum]; [ring|]. rewrite IH. unfold weight. ring. }
  rewrite E. field. intros H. assert (0 < inject_Z (Z.of_nat (length (q_rows m)))); [|lra]. change 0 with (inject_Z 0). rewrite <- Zlt_Qlt. lia.
Qed.
Lemma skipn_weights m i f : valid m -> has_fiber m i f -> 0 < weight f /\ weight_above m i <= total_weight m - weight f.
Proof.
  intros V [Hi H]. assert (P : forall g, In g (q_rows m) -> 0 < weight g).
  { intros g Hg. destruct (valid_fiber m V g Hg) as (A & B & C & _). unfold weight. pose proof np_pi_pos. apply Qmult_lt_0_compat; [qdiv; lra|]. repeat apply Qmult_lt_0_compat; assumption. }
  split; [apply P; eapply nth_error_In; exact H|]. unfold weight_above, total_weight. generalize dependent (Z.to_nat i). revert P. induction (q_rows m) as [|g l IH]; intros P k H; [destruct k; discriminate|].
  destruct k as [|k]; cbn [nth_error] in H.
  - injection H as ->. cbn [skipn map qsum]. lra.
  - cbn [map]. change (skipn (S (S k)) (weight g :: map weight l)) with (skipn (S k) (map weight l)). cbn [qsum].
    pose proof (IH (fun x Hx => P x (or_intror Hx)) k H). pose proof (P g (or_introl eq_refl)). lra.
Qed.
Lemma heaviest_unique m t y M M' : heaviest m t y M -> heaviest m t y M' -> M == M'.
Proof. intros [A (i & f & F & E)] [A' (i' & f' & F' & E')]. pose proof (A _ _ F'). pose proof (A' _ _ F). lra. Qed.

Lemma ratio_value v lo hi F M w : hi == 0 -> v == - F / w -> lo == - M / w -> 0 < M -> 0 < w -> (v - lo) / (hi - lo) == 1 - F / M.
Proof. intros A B C D E. rewrite A, B, C. field. split; lra. Qed.

Lemma col_scaled C y w i : coo_col C (map (fun x => x / w) y) i == coo_col C y i / w.
Proof.
  unfold coo_col. induction C as [|[[r c] v] C IH]; cbn [map qsum]; [unfold Qdiv; ring|]. rewrite IH.
  assert (E : nth r (map (fun x => x / w) y) 0 == nth r y 0 / w).
  { destruct (nth_error y r) as [x|] eqn:Ex.
    - rewrite (nth_error_nth _ _ 0 Ex). erewrite nth_error_nth by (rewrite nth_error_map, Ex; reflexivity). reflexivity.
    - rewrite !nth_overflow; [unfold Qdiv; ring|apply nth_error_None; exact Ex|rewrite map_length; apply nth_error_None; exact Ex]. }
  destruct (Nat.eqb c i); [rewrite E|]; unfold Qdiv; ring.
Qed.
Lemma loads_scaled p y w k v : nth_error (loads p (map (fun x => x / w) y)) k = Some v -> v == nth k (loads p y) 0 / w.
Proof.
  unfold loads. intros E. rewrite nth_error_map in E. destruct (nth_error (seq 0 (length (lph p))) k) as [j|] eqn:Ej; [|discriminate E]. cbn in E. injection E as <-.
  erewrite nth_error_nth by (rewrite nth_error_map, Ej; reflexivity). rewrite !col_scaled. unfold Qdiv. ring.
Qed.

Section Colours.
  Variables (linprog marg : lp -> list Q) (m : qmat) (per : bool) (t st : net_df) (m' : qmat) (thr : option Q).
  Hypothesis Hn : net_new m per None = Ok t.
  Hypothesis Hs : solved linprog m t.
  Hypothesis HM : priced linprog marg m t.
  Hypothesis NE : q_rows m <> [].
  Hypothesis H : stack_new linprog m t thr = Ok (st, m').

  Lemma again : exists p, stack_constraint m t = Ok p /\ stack_constraint m' t = Ok p /\ q_rows m' <> [] /\ same_but_heights m m' /\ ~ flag_set (n_attrs t).
  Proof.
    destruct (built_inv linprog m per t Hn Hs thr st m' H) as (p & Ep & L & HS & EH & full & Hfull & Est).
    destruct (new_facts _ _ _ _ Hn) as (Hv & Hok & Hl & Hf & Hp).
    assert (Em : m' = set_z m (linprog p)).
    { pose proof H as H0. apply stack_inv in H0. destruct H0 as (_ & _ & p' & Ep' & [(E & _)|(_ & -> & _)]); [contradiction|congruence]. }
    exists p. split; [exact Ep|]. split; [|split; [|split; [exact HS|exact Hf]]].
    - pose proof Ep as E0. revert E0. unfold stack_constraint. rewrite (check_same _ _ HS), (proj2 (net_check_ok t) (or_intror Hok)). rewrite Em.
      destruct (set_z_h m (linprog p) L) as (E1 & E2 & E3). rewrite E1, E2, E3. auto.
    - destruct HS as [_ F]. intros E. apply NE. rewrite E in F. inversion F. reflexivity.
  Qed.
  Definition coloured_by (pic : res (list (line * num) * (Q * Q))) : Prop :=
    exists p l lo hi, stack_constraint m t = Ok p /\ pic = Ok (l, (lo, hi)) /\ loads_shown m m' t (map Qopp (marg p)) l lo hi.
  Lemma draws (ratio : lp -> list Q -> list Q) : (forall p, length (ratio p (marg p)) = length (lph p)) ->
    (forall p k v, nth_error (ratio p (marg p)) k = Some v -> v == nth k (loads p (marg p)) 0 / mean_weight m') ->
    coloured_by (with_forces marg m' t (fun p force => draw_loads m' (ratio p force))).
  Proof.
    intros RL RV. unfold coloured_by.
    destruct again as (p & Ep & Ep' & NE' & HS & Hf). destruct (HM p Ep) as (w & MG).
    pose proof (forces m t p Ep Hf _ _ _ (proj1 (Hs p Ep)) MG) as EQ. set (y := marg p) in *. set (push := map Qopp y) in *.
    assert (V : valid m) by (eapply new_valid; exact Hn).
    set (n := length (q_rows m)). assert (N : (0 < n)%nat) by (unfold n; destruct (q_rows m); [contradiction|cbn; lia]).
    assert (LM : length (q_rows m') = n) by (unfold n; destruct HS as [_ F]; clear - F; induction F; cbn; congruence).
    assert (MW : mean_weight m' = mean_weight m).
    { unfold mean_weight. rewrite LM. fold n. f_equal. f_equal. f_equal. destruct HS as [_ F]. clear - F. induction F as [|f g l l' E F IH]; [reflexivity|].
      cbn [map]. rewrite IH. destruct E as (-> & -> & -> & _). reflexivity. }
    assert (W : forall i f, has_fiber m i f -> 0 <= from_above t push i /\ from_above t push i <= total_weight m - weight f /\ 0 < weight f).
    { intros i f F. destruct (skipn_weights m i f V F) as [P1 P2]. destruct (load_bound m t p Ep _ _ _ i EQ (proj1 F)) as [B1 B2]. split; [exact B1|]. split; [lra|exact P1]. }
    assert (TW : 0 < total_weight m).
    { destruct (nth_error (q_rows m) 0) as [f|] eqn:E; [|apply nth_error_None in E; fold n in E; lia].
      destruct (W 0%Z f) as (A & B & C); [split; [lia|exact E]|]. lra. }
    assert (NP : 0 < inject_Z (Z.of_nat n)) by (change 0 with (inject_Z 0); rewrite <- Zlt_Qlt; lia).
    pose proof (mean_total m N) as MT. fold n in MT. set (mw := mean_weight m) in *.
    assert (MP : 0 < mw) by nra.
    assert (LL : length (ratio p y) = n).
    { unfold y. rewrite RL. destruct (p_eq m t p Ep) as (_ & _ & _ & ->). apply map_length. }
    assert (LV : forall k, (k < n)%nat -> exists x, nth_error (ratio p y) k = Some x /\ x == - from_above t push (Z.of_nat k) / mw).
    { intros k K. destruct (nth_error (ratio p y) k) as [x|] eqn:E; [|apply nth_error_None in E; lia]. exists x. split; [reflexivity|].
      rewrite (RV p k x E), MW. fold mw. fold y. pose proof (load_value m t p Ep _ _ _ k MG K) as LVk. fold push in LVk. rewrite LVk. reflexivity. }
    unfold with_forces, draw_loads. rewrite Ep'. cbn [bind]. destruct (q_rows m') as [|f0 r0] eqn:ER; [contradiction|].
    fold y. replace (Nat.eqb (length y) (length (lpH p))) with true by (symmetry; apply Nat.eqb_eq; apply MG). cbn [negb].
    destruct (ratio p y) as [|x l] eqn:EL; [cbn in LL; lia|].
    destruct (qmin_spec l x) as [Imin Bmin]. destruct (qmax_spec l x) as [Imax Bmax]. set (lo := qmin_list x l) in *. set (hi := qmax_list x l) in *.
    destruct (colours_all lo hi (x :: l)) as (cs & Ecs & Lcs & Vcs); [intros v Hv; split; [apply Bmin|apply Bmax]; exact Hv|].
    rewrite Ecs. cbn [bind].
    assert (VAL : forall v, In v (x :: l) -> exists k f, has_fiber m (Z.of_nat k) f /\ v == - from_above t push (Z.of_nat k) / mw).
    { intros v Hv. apply In_nth_error in Hv. destruct Hv as (k & Hk). assert (K : (k < n)%nat) by (rewrite <- LL; apply nth_error_Some; congruence).
      destruct (LV k K) as (v' & Ev' & Vv'). assert (v' = v) by congruence. subst v'. destruct (nth_error (q_rows m) k) as [f|] eqn:Ef; [|apply nth_error_None in Ef; fold n in Ef; lia].
      exists k, f. split; [split; [lia|rewrite Nat2Z.id; exact Ef]|exact Vv']. }
    assert (IN : forall i f, has_fiber m i f -> exists v, nth_error (x :: l) (Z.to_nat i) = Some v /\ v == - from_above t push i / mw).
    { intros i f [I0 I1]. destruct (LV (Z.to_nat i)) as (v & E1 & E2); [apply nth_error_Some; congruence|]. rewrite Z2Nat.id in E2 by exact I0. eauto. }
    assert (DV : forall a b, - a / mw <= - b / mw -> b <= a).
    { intros a b L. apply (Qmult_le_r _ _ mw MP) in L. unfold Qdiv in L. rewrite <- !Qmult_assoc, !(Qmult_comm (/ mw)), !Qmult_inv_r, !Qmult_1_r in L by lra. lra. }
    destruct (VAL lo Imin) as (kl & fl & Fl & El). set (M := from_above t push (Z.of_nat kl)) in *.
    assert (HV : heaviest m t push M).
    { split; [|exists (Z.of_nat kl), fl; split; [exact Fl|reflexivity]]. intros i f F. destruct (IN i f F) as (v & E1 & E2). apply nth_error_In in E1.
      pose proof (Bmin v E1) as B. rewrite El, E2 in B. apply DV. exact B. }
    assert (HI : hi == 0).
    { destruct (VAL hi Imax) as (kh & fh & Fh & Eh). destruct (W _ _ Fh) as (A & _ & _).
      assert (hi <= 0). { rewrite Eh. apply Qle_shift_div_r; [exact MP|]. lra. }
      assert (0 <= hi); [|lra]. destruct (nth_error (q_rows m) (n - 1)) as [f|] eqn:Ef; [|apply nth_error_None in Ef; fold n in Ef; lia].
      assert (F : has_fiber m (Z.of_nat (n - 1)) f) by (split; [lia|rewrite Nat2Z.id; exact Ef]). destruct (IN _ _ F) as (v & E1 & E2). apply nth_error_In in E1.
      pose proof (Bmax v E1) as B. destruct (load_bound m t p Ep _ _ _ (Z.of_nat (n - 1)) EQ (proj1 F)) as [B1 B2].
      unfold weight_above in B2. rewrite skipn_all2 in B2 by (rewrite map_length, Nat2Z.id; fold n; lia). cbn [qsum] in B2.
      fold push in B1, B2. assert (Z0 : from_above t push (Z.of_nat (n - 1)) == 0) by lra. rewrite Z0 in E2. eapply Qle_trans; [|exact B]. rewrite E2. unfold Qdiv. apply Qle_lteq. right. ring. }
    exists p, (combine (mat_picture m') cs), lo, hi. split; [exact Ep|]. split; [reflexivity|]. exists M. split; [exact HV|].
    assert (Lc : length cs = length (mat_picture m')) by (unfold mat_picture; rewrite map_length, ER, LM, Lcs; exact LL).
    split; [clear - Lc; revert cs Lc; induction (mat_picture m') as [|a b IH]; intros [|c cs] Lc; try discriminate Lc; [reflexivity|cbn; f_equal; apply IH; injection Lc; auto]|].
    split; [exact HI|]. split; [|split].
    - fold n. rewrite El, <- MT. fold M. field. lra.
    - fold n. destruct (W _ _ Fl) as (_ & B & P). fold M in B. rewrite El. apply Qlt_shift_div_l; [exact MP|]. nra.
    - intros i f F. destruct (IN i f F) as (v & E1 & E2). destruct (Vcs _ _ E1) as (c & Ec & C1 & C2).
      destruct (nth_error (mat_picture m') (Z.to_nat i)) as [s|] eqn:Es; [|apply nth_error_None in Es; rewrite <- Lc in Es; apply nth_error_None in Es; congruence].
      exists s, c. split; [|split].
      + clear - Es Ec. revert cs i Es Ec. intros cs i. generalize (Z.to_nat i). revert cs. induction (mat_picture m') as [|a b IH]; intros cs k Es Ec; [destruct k; discriminate|].
        destruct cs as [|c0 cs]; [destruct k; discriminate|]. destruct k; cbn in *; [congruence|apply IH; assumption].
      + intros PM. assert (LO : lo < hi). { rewrite HI, El. apply Qlt_shift_div_r; [exact MP|]. lra. } rewrite (C1 LO). apply (ratio_value v lo hi (from_above t push i) M mw HI E2 El PM MP).
      + intros ZM. apply C2. rewrite HI, El, ZM. unfold Qdiv. ring.
  Qed.
  Theorem coloured : coloured_by (load_picture marg m' t).
  Proof.
    apply (draws (fun p force => load_ratio m' (loads p force))).
    - intros p. unfold load_ratio, loads. rewrite !map_length, seq_length. reflexivity.
    - intros p k v E. unfold load_ratio in E. rewrite nth_error_map in E. destruct (nth_error (loads p (marg p)) k) as [x|] eqn:Ex; [|discriminate E]. cbn in E. injection E as <-.
      rewrite (nth_error_nth _ _ 0 Ex). reflexivity.
  Qed.
  Theorem coloured_cell : coloured_by (cell_loads marg m' t).
  Proof.
    apply (draws (fun p force => loads p (load_ratio m' force))).
    - intros p. unfold loads. rewrite map_length, seq_length. reflexivity.
    - intros p k v E. exact (loads_scaled p (marg p) (mean_weight m') k v E).
  Qed.
End Colours.
Lemma empty_raises marg m t st p : stack_constraint m t = Ok p -> q_rows m = [] ->
  stack_picture marg m t st = Exn AttrErr /\ load_picture marg m t = Exn AttrErr /\ cell_loads marg m t = Exn AttrErr.
Proof. intros E R. unfold stack_picture, load_picture, cell_loads, with_forces. rewrite E, R. repeat split; reflexivity. Qed.
