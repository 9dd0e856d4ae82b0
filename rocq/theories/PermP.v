(** The numbering of the unknowns does not change the results. *)
From Coq Require Import Permutation.
From Verif Require Import Num NumP ListX ListP Frames MatM NetM MeshM ModelM SolverM Spec SpecNet SpecMesh SpecModel SpecSolver
  StiffP StackP SolverP SolverSysP SolverApiP SolverFinP SpecPerm.
Open Scope Q_scope.

(** *** equality of values *)
Lemma neqv_refl x : neqv x x.
Proof. destruct x; simpl; auto. reflexivity. Qed.
Lemma neqv_sym x y : neqv x y -> neqv y x.
Proof. destruct x, y; simpl; auto. intros H. symmetry. exact H. Qed.
Lemma sv_refl l : same_vec l l.
Proof. induction l; constructor; auto using neqv_refl. Qed.
Lemma qsgn_eqv a b : a == b -> qsgn a = qsgn b.
Proof. intros H. unfold qsgn. rewrite H. reflexivity. Qed.
Lemma Qltb_eqv a a' b b' : a == a' -> b == b' -> Qltb a b = Qltb a' b'.
Proof. intros H K. destruct (Qltb a b) eqn:E, (Qltb a' b') eqn:E'; auto; qb; lra. Qed.
Lemma Qeqb_eqv a a' b b' : a == a' -> b == b' -> Qeqb a b = Qeqb a' b'.
Proof. intros H K. destruct (Qeqb a b) eqn:E, (Qeqb a' b') eqn:E'; auto; qb; lra. Qed.
Lemma nopp_eqv x x' : neqv x x' -> neqv (nopp x) (nopp x').
Proof. destruct x, x'; simpl; auto. intros ->. reflexivity. Qed.
Lemma nadd_eqv x x' y y' : neqv x x' -> neqv y y' -> neqv (nadd x y) (nadd x' y').
Proof. destruct x, x', y, y'; simpl; auto; try tauto. intros -> ->. reflexivity. Qed.
Lemma nsub_eqv x x' y y' : neqv x x' -> neqv y y' -> neqv (nsub x y) (nsub x' y').
Proof. intros H K. apply nadd_eqv; auto. apply nopp_eqv; auto. Qed.
Lemma inf_refl c : neqv (inf_of c) (inf_of c).
Proof. apply neqv_refl. Qed.
Lemma nmul_eqv x x' y y' : neqv x x' -> neqv y y' -> neqv (nmul x y) (nmul x' y').
Proof.
  destruct x as [a| | |], x' as [a'| | |]; try contradiction; intros H;
  destruct y as [b| | |], y' as [b'| | |]; try contradiction; intros K; cbn [nmul neqv] in *; auto.
  - rewrite H, K. reflexivity.
  - rewrite (qsgn_eqv a a') by auto. apply inf_refl.
  - rewrite (qsgn_eqv (- a) (- a')) by (rewrite H; reflexivity). apply inf_refl.
  - rewrite (qsgn_eqv b b') by auto. apply inf_refl.
  - rewrite (qsgn_eqv (- b) (- b')) by (rewrite K; reflexivity). apply inf_refl.
Qed.
Lemma ndiv_eqv x x' y y' : neqv x x' -> neqv y y' -> neqv (ndiv x y) (ndiv x' y').
Proof.
  destruct x as [a| | |], x' as [a'| | |]; try contradiction; intros H;
  destruct y as [b| | |], y' as [b'| | |]; try contradiction; intros K; cbn [ndiv neqv] in *; auto; try reflexivity.
  - rewrite (Qeqb_eqv b b' 0 0) by (auto; reflexivity). destruct (Qeqb b' 0).
    + rewrite (qsgn_eqv a a') by auto. apply inf_refl.
    + simpl. rewrite H, K. reflexivity.
  - rewrite (Qltb_eqv b b' 0 0) by (auto; reflexivity). destruct (Qltb b' 0); simpl; auto.
  - rewrite (Qltb_eqv b b' 0 0) by (auto; reflexivity). destruct (Qltb b' 0); simpl; auto.
Qed.
Lemma nltb_eqv x x' y y' : neqv x x' -> neqv y y' -> nltb x y = nltb x' y'.
Proof. destruct x, x', y, y'; simpl; try tauto. apply Qltb_eqv. Qed.
Lemma neqb_eqv x x' y y' : neqv x x' -> neqv y y' -> neqb x y = neqb x' y'.
Proof. destruct x, x', y, y'; simpl; try tauto. apply Qeqb_eqv. Qed.
Lemma nleb_eqv x x' y y' : neqv x x' -> neqv y y' -> nleb x y = nleb x' y'.
Proof. intros H K. unfold nleb. rewrite (nltb_eqv x x' y y'), (neqb_eqv x x' y y'); auto. Qed.

(** *** vectors *)
Lemma sv_nth l l' : same_vec l l' -> forall r, neqv (nth r l NaN) (nth r l' NaN).
Proof. induction 1; intros [|r]; simpl; auto. Qed.
Lemma sv_length l l' : same_vec l l' -> length l = length l'.
Proof. induction 1; simpl; auto. Qed.
Lemma nsum_eqv l l' : same_vec l l' -> neqv (nsum l) (nsum l').
Proof. induction 1; simpl; [reflexivity|]. apply nadd_eqv; auto. Qed.
Lemma map_eqv {A} (f f' : A -> num) l : (forall a, In a l -> neqv (f a) (f' a)) -> same_vec (map f l) (map f' l).
Proof. induction l; intros H; constructor; [apply H; left; auto|apply IHl; intros; apply H; right; auto]. Qed.
Lemma matvec_eqv P x x' r : same_vec x x' -> neqv (matvec P x r) (matvec P x' r).
Proof.
  intros H. unfold matvec. apply nsum_eqv, map_eqv. intros [[i c] v] _. destruct (Nat.eqb i r); [|reflexivity].
  apply nmul_eqv; [apply neqv_refl|apply sv_nth; auto].
Qed.
Lemma map2_eqv {A} (f : A -> num -> num) (f' : A -> num -> num) : (forall a x x', neqv x x' -> neqv (f a x) (f' a x')) ->
  forall (l : list A) q q', same_vec q q' -> same_vec (map (fun p => f (fst p) (snd p)) (combine l q)) (map (fun p => f' (fst p) (snd p)) (combine l q')).
Proof. intros H l q q' E. revert l. induction E as [|x x' q q' Hx E IH]; intros [|a l]; constructor; simpl; auto. apply IH. Qed.
Lemma gaps_eqv P x x' q q' : same_vec x x' -> same_vec q q' -> same_vec (gaps P x q) (gaps P x' q').
Proof.
  intros H K. unfold gaps. rewrite (sv_length q q') by auto.
  apply (map2_eqv (fun r b => nsub b (matvec P x r)) (fun r b => nsub b (matvec P x' r))); auto.
  intros a b b' E. apply nsub_eqv; auto. apply matvec_eqv; auto.
Qed.
Lemma min_from_eqv l l' : same_vec l l' -> forall m m', neqv m m' -> neqv (min_from m l) (min_from m' l').
Proof.
  induction 1 as [|y y' l l' H F IH]; intros m m' E; simpl; auto. apply IH.
  rewrite (nltb_eqv y y' m m') by auto. destruct (nltb y' m'); auto.
Qed.
Lemma move_eqv dU dU' : neqv dU dU' -> forall l l', same_vec l l' -> forall d d', same_vec d d' ->
  same_vec (map (fun p => nadd (fst p) (nmul (snd p) dU)) (combine l d)) (map (fun p => nadd (fst p) (nmul (snd p) dU')) (combine l' d')).
Proof.
  intros HU. induction 1 as [|y y' l l' H F IH]; intros d d' E; [constructor|]. destruct E; [constructor|]. simpl. constructor; auto.
  - simpl. apply nadd_eqv; auto. apply nmul_eqv; auto.
  - apply IH; auto.
Qed.
Lemma sv_firstn k l l' : same_vec l l' -> same_vec (firstn k l) (firstn k l').
Proof. intros H. revert k. induction H as [|x x' l l' Hx E IH]; intros [|k]; simpl; try constructor; auto; apply IH. Qed.
Lemma sv_skipn k l l' : same_vec l l' -> same_vec (skipn k l) (skipn k l').
Proof. intros H. revert k. induction H as [|x x' l l' Hx E IH]; intros [|k]; simpl; auto; try solve [constructor; auto]; apply IH. Qed.

(** *** the two numberings of one system *)
Lemma places_one r l a : NoDup l -> nth_error l a = Some r -> places r l = [a].
Proof.
  intros N H.
  assert (U : forall b, In b (places r l) -> b = a).
  { intros b Hb. apply places_in in Hb. apply (NoDup_nth_error l); auto; [apply nth_error_Some|]; congruence. }
  assert (I : In a (places r l)) by (apply places_in; auto).
  assert (NP : NoDup (places r l)).
  { unfold places. apply NoDup_map_inv with (f := fun x => x). rewrite map_id.
    assert (E : map fst (combine (seq 0 (length l)) l) = seq 0 (length l)) by apply combine_fst_seq.
    assert (ND : NoDup (map fst (combine (seq 0 (length l)) l))) by (rewrite E; apply seq_NoDup).
    revert ND. generalize (combine (seq 0 (length l)) l). induction l0 as [|[i j] l0 IH]; simpl; intros ND; [constructor|].
    inversion ND; subst. destruct (Nat.eqb j r); simpl; auto. constructor; auto. intros C. apply H2.
    apply in_map_iff in C. destruct C as (x & Ex & C). apply filter_In in C. apply in_map_iff. exists x. tauto. }
  destruct (places r l) as [|b [|c t]]; [destruct I| |].
  - rewrite (U b) by (left; auto). auto.
  - exfalso. rewrite (U b), (U c) in NP by (simpl; auto). inversion NP; subst. apply H2. left. auto.
Qed.
Lemma places_none r l : ~ In r l -> places r l = [].
Proof.
  intros H. destruct (places r l) as [|a t] eqn:E; auto. exfalso. apply H. apply (nth_error_In l a), places_in. rewrite E. left. auto.
Qed.
(** the vector of all unknowns whose numbered part is [z] *)
Definition spread (n : nat) (ps : list nat) (z : list Q) : list Q :=
  map (fun r => qsum (map (fun b => nth b z 0) (places r ps))) (seq 0 n).
Lemma nth_map_seq (f : nat -> Q) n r : nth r (map f (seq 0 n)) 0 = if Nat.ltb r n then f r else 0.
Proof.
  rewrite nth_of, nth_error_map, seq_nth_eq. destruct (Nat.ltb r n); auto.
Qed.
Lemma spread_in n ps z a r : NoDup ps -> (r < n)%nat -> nth_error ps a = Some r -> nth r (spread n ps z) 0 == nth a z 0.
Proof.
  intros N L H. unfold spread. rewrite nth_map_seq. destruct (Nat.ltb_spec r n); [|lia]. rewrite (places_one r ps a) by auto. simpl. ring.
Qed.
Lemma spread_out n ps z r : ~ In r ps -> nth r (spread n ps z) 0 == 0.
Proof.
  intros H. unfold spread. rewrite nth_map_seq. destruct (Nat.ltb r n); [|reflexivity]. rewrite places_none by auto. reflexivity.
Qed.
Lemma product_app A B y r : product (A ++ B) y r == product A y r + product B y r.
Proof. unfold product. rewrite map_app. apply qsum_app. Qed.
Lemma sub_product n P ps z a r : NoDup ps -> (forall c, In c ps -> (c < n)%nat) -> nth_error ps a = Some r ->
  product (submatrix P ps) z a == product P (spread n ps z) r.
Proof.
  intros N B H. unfold submatrix. induction P as [|[[i c] v] P IH]; [reflexivity|].
  cbn [flat_map]. rewrite product_app, IH. clear IH.
  change (product ((i, c, v) :: P) (spread n ps z) r) with
    ((if Nat.eqb i r then qof v * nth c (spread n ps z) 0 else 0) + product P (spread n ps z) r).
  apply Qplus_comp; [|reflexivity].
  destruct (in_dec Nat.eq_dec i ps) as [Ii|Ii].
  2:{ rewrite (places_none i) by auto. destruct (Nat.eqb_spec i r) as [->|]; [|reflexivity].
      destruct Ii. eapply nth_error_In; eauto. }
  apply In_nth_error in Ii. destruct Ii as (a' & Ha'). rewrite (places_one i ps a') by auto. cbn [flat_map]. rewrite app_nil_r.
  destruct (in_dec Nat.eq_dec c ps) as [Ic|Ic].
  2:{ rewrite (places_none c) by auto. cbn [map]. destruct (Nat.eqb i r); [|reflexivity]. rewrite spread_out by auto.
      unfold product. simpl. ring. }
  pose proof (B c Ic) as Lc. apply In_nth_error in Ic. destruct Ic as (b & Hb). rewrite (places_one c ps b) by auto. cbn [map].
  unfold product. cbn [map qsum]. destruct (Nat.eqb_spec a' a) as [->|NE].
  - rewrite H in Ha'. injection Ha' as <-. rewrite Nat.eqb_refl. rewrite (spread_in n ps z b c) by auto. ring.
  - destruct (Nat.eqb_spec i r) as [->|]; [|ring]. exfalso. apply NE. apply (NoDup_nth_error ps); auto; [apply nth_error_Some|]; congruence.
Qed.

(** *** one increment *)
Section Numbered.
  Variable lsolve : ncoo -> list num -> list num.
  Hypothesis exact : exact_solver lsolve.
  Variable S : sysdata.
  Let n := length (sy_dq S).
  Hypothesis nums : Permutation (sy_perm S) (seq 0 n).
  Hypothesis dqfin : finite_vec (sy_dq S).

  Lemma active_iff s : length (st_q s) = n -> forall r, nth r (active S (gaps (sy_P S) (st_x s) (st_q s))) false = true <-> closed S s r.
  Proof.
    intros L r. unfold active. rewrite nth_of, nth_error_map, gaps_length, <- (gaps_length (sy_P S) (st_x s)), indexed_nth, gaps_nth.
    unfold closed. destruct (nth_error (st_q s) r) as [b|]; simpl.
    - rewrite andb_true_iff. split; [intros [H K]; exists b; auto|]. intros (b' & E & H & K). injection E as <-. auto.
    - split; [discriminate|]. intros (b & E & _). discriminate E.
  Qed.
  Lemma ps_facts s : length (st_q s) = n -> NoDup (ps S s) /\ forall r, In r (ps S s) <-> closed S s r.
  Proof.
    intros L. split.
    - unfold ps. apply NoDup_filter. apply (Permutation_NoDup (Permutation_sym nums)), seq_NoDup.
    - intros r. rewrite ps_act. unfold act. rewrite active_iff by auto. split; [tauto|]. intros H. split; auto.
      apply (Permutation_in r (Permutation_sym nums)). apply in_seq. destruct H as (b & H & _).
      assert (r < length (st_q s))%nat by (apply nth_error_Some; congruence). lia.
  Qed.
  Lemma closed_lt s r : length (st_q s) = n -> closed S s r -> (r < n)%nat.
  Proof. intros L (b & H & _). rewrite <- L. apply nth_error_Some. congruence. Qed.

  Lemma solved s : length (st_q s) = n -> regular S s -> let ps := ps S s in let y := spread n ps (vals (answer lsolve S s)) in
    finite_vec (answer lsolve S s) /\ length (answer lsolve S s) = length ps /\
    (forall r, ~ closed S s r -> nth r y 0 == 0) /\ forall r, closed S s r -> product (sy_P S) y r == qof (nth r (sy_dq S) NaN).
  Proof.
    intros L [RF RY] ps0 y. destruct (ps_facts s L) as [N I]. fold ps0 in N, I.
    set (b := map (fun r => nth r (sy_dq S) NaN) ps0).
    assert (Lb : length b = length ps0) by apply map_length.
    assert (B : forall c, In c ps0 -> (c < n)%nat) by (intros c Hc; apply (closed_lt s); auto; apply I; auto).
    assert (Fb : finite_vec b).
    { intros v Hv. apply in_map_iff in Hv. destruct Hv as (r & <- & Hr). apply dqfin. apply nth_In. apply B. auto. }
    assert (NS : nonsingular (length b) (submatrix (sy_P S) ps0)).
    { split.
      - intros r c v H. unfold submatrix in H. apply in_flat_map in H. destruct H as ([[i j] w] & Hw & H).
        apply in_flat_map in H. destruct H as (a & Ha & H). apply in_map_iff in H. destruct H as (d & E & Hd). injection E as <- <- <-.
        apply places_in in Ha. apply places_in in Hd. rewrite Lb. split; [apply nth_error_Some; congruence|]. split; [apply nth_error_Some; congruence|].
        apply (RF i j w); auto; apply I; eapply nth_error_In; eauto.
      - intros z Hz a La. rewrite Lb in *. destruct (nth_error ps0 a) as [r|] eqn:Er; [|apply nth_error_None in Er; lia].
        assert (Ir : In r ps0) by (eapply nth_error_In; eauto).
        rewrite <- (spread_in n ps0 z a r) by auto. apply RY.
        + intros c Hc. apply spread_out. rewrite I. auto.
        + intros c Hc. apply I, In_nth_error in Hc. destruct Hc as (a' & Ha').
          rewrite <- (sub_product n (sy_P S) ps0 z a' c) by auto. apply Hz. apply nth_error_Some. congruence. }
    destruct (exact _ b Fb NS) as (E1 & E2 & E3).
    change (lsolve (submatrix (sy_P S) ps0) b) with (answer lsolve S s) in E1, E2, E3.
    split; [auto|]. split; [lia|]. split.
    - intros r Hr. apply spread_out. rewrite I. auto.
    - intros r Hr. apply I, In_nth_error in Hr. destruct Hr as (a & Ha). unfold y. rewrite <- (sub_product n (sy_P S) ps0 _ a r) by auto.
      rewrite E3 by (rewrite Lb; apply nth_error_Some; congruence). unfold b.
      rewrite nth_of, nth_error_map, Ha. reflexivity.
  Qed.
  Lemma dx_spread s r : length (st_q s) = n -> length (st_dx s) = n -> regular S s ->
    (closed S s r -> exists q, nth r (dxn lsolve S s) NaN = Fin q /\ q == nth r (spread n (ps S s) (vals (answer lsolve S s))) 0) /\
    (~ closed S s r -> nth r (dxn lsolve S s) NaN = nth r (map (fun v => nmul v (Fin 0)) (st_dx s)) NaN).
  Proof.
    intros L LD R. destruct (ps_facts s L) as [N I]. destruct (solved s L R) as (FA & LA & _).
    rewrite dxn_eq. set (old := map _ (st_dx s)). assert (LO : length old = n) by (unfold old; rewrite map_length; auto).
    split; intros H.
    - pose proof (closed_lt s r L H) as Lr. destruct (nth_error old r) as [o|] eqn:Eo; [|apply nth_error_None in Eo; lia].
      destruct (scatter_case old (ps S s) (answer lsolve S s) r o Eo) as [[_ (a & Ha & E)]|[C _]]; [|destruct C; apply I; auto].
      destruct (FA (nth a (answer lsolve S s) NaN)) as (q & Eq).
      { apply nth_In. rewrite LA. apply nth_error_Some. congruence. }
      exists q. rewrite nth_of, E. split; auto. rewrite (spread_in n (ps S s) _ a r) by auto. unfold vals. rewrite nth_qof, Eq. reflexivity.
    - rewrite nth_of. destruct (nth_error old r) as [o|] eqn:Eo.
      + destruct (scatter_case old (ps S s) (answer lsolve S s) r o Eo) as [[C _]|[_ E]]; [destruct H; apply I; auto|].
        rewrite E. symmetry. apply nth_error_nth. auto.
      + rewrite scatter_nth, Eo. simpl. symmetry. apply nth_overflow, nth_error_None. auto.
  Qed.
End Numbered.

(** *** two runs *)
Lemma sv_of_nth l : forall l', length l = length l' -> (forall r, (r < length l)%nat -> neqv (nth r l NaN) (nth r l' NaN)) -> same_vec l l'.
Proof.
  induction l as [|x l IH]; intros [|x' l'] L H; simpl in L; try discriminate; constructor.
  - apply (H 0%nat). simpl. lia.
  - apply IH; [lia|]. intros r Hr. apply (H (Datatypes.S r)). simpl. lia.
Qed.
(** equal states *)
Definition same_state (s s' : state) : Prop :=
  same_vec (st_x s) (st_x s') /\ same_vec (st_q s) (st_q s') /\ same_vec (st_dx s) (st_dx s') /\
  neqv (st_Z s) (st_Z s') /\ neqv (st_rl s) (st_rl s') /\ st_mask s = st_mask s' /\ neqv (st_err2 s) (st_err2 s').
Definition sized (S : sysdata) (s : state) : Prop :=
  length (st_x s) = length (sy_dq S) /\ length (st_dx s) = length (sy_dq S) /\ length (st_q s) = length (sy_dq S).

Section Two.
  Variable lsolve : ncoo -> list num -> list num.
  Hypothesis exact : exact_solver lsolve.
  Variable S : sysdata.
  Variable perm' : list nat.
  Let S' := mkSys (sy_nu S) (sy_P S) (sy_dq S) perm' (sy_tol S) (sy_errtol S) (sy_packing S) (sy_Z0 S).
  Hypothesis nums : Permutation (sy_perm S) (seq 0 (length (sy_dq S))).
  Hypothesis nums' : Permutation perm' (seq 0 (length (sy_dq S))).
  Hypothesis dqfin : finite_vec (sy_dq S).

  Lemma closed_eqv s s' r : same_state s s' -> closed S s r -> closed S' s' r.
  Proof.
    intros (HX & HQ & _) (b & E & H1 & H2). pose proof (sv_length _ _ HQ) as L.
    assert (Lr : (r < length (st_q s))%nat) by (apply nth_error_Some; congruence).
    destruct (nth_error (st_q s') r) as [b'|] eqn:E'; [|apply nth_error_None in E'; lia].
    exists b'. split; auto. split; auto. cbn [S' sy_P sy_tol]. rewrite <- H1. apply nleb_eqv; [|apply neqv_refl]. apply nsub_eqv.
    - pose proof (sv_nth _ _ HQ r) as K. rewrite (nth_of (st_q s)), (nth_of (st_q s')), E, E' in K. apply neqv_sym. exact K.
    - apply neqv_sym, matvec_eqv. exact HX.
  Qed.
  Lemma ss_sym s s' : same_state s s' -> same_state s' s.
  Proof.
    assert (V : forall l l', same_vec l l' -> same_vec l' l).
    { induction 1; constructor; auto. apply neqv_sym; auto. }
    unfold same_state. intuition auto using neqv_sym.
  Qed.
End Two.

Section Steps.
  Variable lsolve : ncoo -> list num -> list num.
  Hypothesis exact : exact_solver lsolve.
  Variable S : sysdata.
  Variable perm' : list nat.
  Let S' := mkSys (sy_nu S) (sy_P S) (sy_dq S) perm' (sy_tol S) (sy_errtol S) (sy_packing S) (sy_Z0 S).
  Hypothesis nums : Permutation (sy_perm S) (seq 0 (length (sy_dq S))).
  Hypothesis nums' : Permutation perm' (seq 0 (length (sy_dq S))).
  Hypothesis dqfin : finite_vec (sy_dq S).

  Lemma closed_same s s' r : same_state s s' -> (closed S s r <-> closed S' s' r).
  Proof.
    intros H. split; [apply closed_eqv; auto|]. intros C.
    pose proof (closed_eqv S' (sy_perm S) s' s r (ss_sym _ _ H) C) as K. exact K.
  Qed.
  Lemma regular_same s s' : same_state s s' -> regular S s -> regular S' s'.
  Proof.
    intros H [R1 R2]. split.
    - intros r c v Hr Hc Hv. apply (R1 r c v); auto; [apply (closed_same s s' r H)|apply (closed_same s s' c H)]; auto.
    - intros y Y1 Y2. apply R2.
      + intros r Hr. apply Y1. intros C. apply Hr. apply (closed_same s s' r H). auto.
      + intros r Hr. apply Y2. apply (closed_same s s' r H). auto.
  Qed.
  Lemma closed_dec s r : closed S s r \/ ~ closed S s r.
  Proof.
    unfold closed. destruct (nth_error (st_q s) r) as [b|]; [|right; intros (b & E & _); discriminate E].
    destruct (nleb (nsub b (matvec (sy_P S) (st_x s) r)) (Fin (sy_tol S))) eqn:E1, (nltb (Fin 0) (colsum (sy_P S) r)) eqn:E2;
      [left; exists b; auto|right; intros (b' & E & H1 & H2); injection E as <-; congruence ..].
  Qed.
  Lemma increments s s' : same_state s s' -> sized S s -> regular S s -> same_vec (dxn lsolve S s) (dxn lsolve S' s').
  Proof.
    intros H (L1 & L2 & L3) R. pose proof H as (HX & HQ & HD & _).
    assert (L2' : length (st_dx s') = length (sy_dq S')) by (rewrite <- (sv_length _ _ HD); exact L2).
    assert (L3' : length (st_q s') = length (sy_dq S')) by (rewrite <- (sv_length _ _ HQ); exact L3).
    assert (R' : regular S' s') by (eapply regular_same; eauto).
    destruct (solved lsolve exact S nums dqfin s L3 R) as (F1 & F2 & Y1 & Y2).
    destruct (solved lsolve exact S' nums' dqfin s' L3' R') as (F1' & F2' & Y1' & Y2').
    pose proof (dx_spread lsolve exact S nums dqfin s) as DX. pose proof (dx_spread lsolve exact S' nums' dqfin s') as DX'.
    set (y := spread _ (ps S s) _) in *. set (y' := spread _ (ps S' s') _) in *.
    set (n := length (sy_dq S)) in *. change (length (sy_dq S')) with n in *.
    assert (EQ : forall r, nth r y 0 == nth r y' 0).
    { set (d := map (fun r => nth r y 0 - nth r y' 0) (seq 0 n)).
      assert (Nd : forall r, nth r d 0 == nth r y 0 - 1 * nth r y' 0).
      { intros r. unfold d. rewrite nth_map_seq. destruct (Nat.ltb_spec r n) as [Lr|Lr]; [ring|].
        unfold y, y', spread. rewrite !nth_map_seq. fold n. change (length (sy_dq S')) with n.
        destruct (Nat.ltb_spec r n); [lia|]. reflexivity. }
      assert (Z : forall r, nth r d 0 == 0).
      { apply R.
        - intros r Hr. rewrite Nd, Y1 by auto. rewrite Y1'; [ring|]. intros C. apply Hr. apply (closed_same s s' r H). auto.
        - intros r Hr. rewrite (product_linear (sy_P S) y y' d 1 r Nd). rewrite Y2 by auto.
          change (sy_P S) with (sy_P S'). rewrite Y2' by (apply (closed_same s s' r H); auto). cbn [sy_dq S']. ring. }
      intros r. pose proof (Z r) as Zr. rewrite Nd in Zr. lra. }
    apply sv_of_nth.
    - rewrite !dxn_eq, !scatter_length, !map_length. apply sv_length; auto.
    - intros r _. destruct (DX r L3 L2 R) as [A B]. destruct (DX' r L3' L2' R') as [A' B'].
      destruct (closed_dec s r) as [C|C].
      + destruct (A C) as (q & -> & E). destruct (A' (proj1 (closed_same s s' r H) C)) as (q' & -> & E').
        simpl. rewrite E, E'. apply EQ.
      + rewrite (B C), B' by (intros C'; apply C; apply (closed_same s s' r H); auto).
        apply sv_nth. clear - HD. induction HD; constructor; auto. apply nmul_eqv; [auto|apply neqv_refl].
  Qed.
  Lemma active_same s s' : same_state s s' ->
    active S (gaps (sy_P S) (st_x s) (st_q s)) = active S' (gaps (sy_P S') (st_x s') (st_q s')).
  Proof.
    intros (HX & HQ & _). change (sy_P S') with (sy_P S).
    pose proof (gaps_eqv (sy_P S) _ _ _ _ HX HQ) as G. unfold active. rewrite <- (sv_length _ _ G).
    generalize (seq 0 (length (gaps (sy_P S) (st_x s) (st_q s)))).
    induction G as [|d d' l l' Hd G IH]; intros [|a k]; auto. cbn [combine map fst snd sy_P sy_tol S'].
    rewrite (nleb_eqv d d' (Fin (sy_tol S)) (Fin (sy_tol S))) by (auto; apply neqv_refl). f_equal. apply IH.
  Qed.
  Lemma error_same mask dx dx' : same_vec dx dx' -> neqv (error2 S mask dx) (error2 S' mask dx').
  Proof.
    intros H. unfold error2. cbn [sy_P sy_dq S']. apply nsum_eqv, map_eqv. intros r _.
    apply nmul_eqv; (apply nsub_eqv; [apply matvec_eqv; auto|apply neqv_refl]).
  Qed.
  Lemma ratios_same d d' v v' : same_vec d d' -> same_vec v v' -> same_vec (ratios S d v) (ratios S' d' v').
  Proof.
    intros H. revert v v'. unfold ratios. cbn [sy_tol S'].
    induction H as [|x x' d d' Hx H IH]; intros v v' K; [constructor|]. destruct K as [|w w' v v' Hw K]; [constructor|].
    cbn [combine filter fst snd].
    rewrite (nltb_eqv (Fin (sy_tol S)) (Fin (sy_tol S)) x x'), (nltb_eqv (Fin 0) (Fin 0) w w') by (auto; apply neqv_refl).
    destruct (nltb (Fin (sy_tol S)) x' && nltb (Fin 0) w').
    - cbn [map fst snd]. constructor; [apply ndiv_eqv; auto|]. apply IH; auto.
    - apply IH; auto.
  Qed.
  Lemma err_gt_same e e' t : neqv e e' -> err_gt e t = err_gt e' t.
  Proof.
    intros H. unfold err_gt. destruct (Qltb t 0); [destruct e, e'; simpl in *; tauto|]. apply nltb_eqv; auto. apply neqv_refl.
  Qed.
  Lemma step_two s s' : same_state s s' -> sized S s -> regular S s ->
    match step lsolve S s, step lsolve S' s' with
    | None, None => True
    | Some t, Some t' => same_state t t'
    | _, _ => False
    end.
  Proof.
    intros H Z R. pose proof H as (HX & HQ & HD & HZ & HR & HM & HE).
    pose proof (increments s s' H Z R) as I. unfold dxn in I. unfold step.
    rewrite <- (active_same s s' H) in *. set (mask := active S _) in *.
    set (dx := increment lsolve S s mask) in *. set (dx' := increment lsolve S' s' mask) in *. cbn zeta.
    pose proof (gaps_eqv (sy_P S) _ _ _ _ HX HQ) as G. pose proof (gaps_eqv (sy_P S) _ _ _ _ I (sv_refl (sy_dq S))) as G'.
    pose proof (ratios_same _ _ _ _ G G') as RR.
    pose proof (error_same mask _ _ I) as EE. change (sy_P S') with (sy_P S). change (sy_dq S') with (sy_dq S).
    change (sy_errtol S') with (sy_errtol S).
    destruct RR as [|a a' l l' Ha RR]; [simpl; auto|]. cbn [py_min].
    pose proof (min_from_eqv _ _ RR _ _ Ha) as HM'. set (mm := min_from a l) in *. set (mm' := min_from a' l') in *.
    rewrite (err_gt_same _ _ (sy_errtol S) EE). destruct (err_gt _ _); auto.
    pose proof (nopp_eqv _ _ HM') as HU.
    unfold same_state. cbn [st_x st_q st_dx st_Z st_rl st_mask st_err2].
    split; [apply move_eqv; auto|]. split; [apply move_eqv; auto using sv_refl|]. split; [auto|].
    split; [apply nadd_eqv; auto|]. split; [|auto].
    cbn [sy_Z0 S']. apply ndiv_eqv; [apply neqv_refl|]. apply nadd_eqv; auto.
  Qed.
  Lemma sized_step s t : step lsolve S s = Some t -> sized S s -> sized S t.
  Proof. intros E (L1 & L2 & L3). destruct (state_lengths lsolve S s t E L1 L2 L3) as (A & B & C & _). repeat split; auto. Qed.
  Lemma run_two fuel : forall s s', same_state s s' -> sized S s ->
    (forall k t, nth_error (s :: run lsolve S fuel s) k = Some t -> (k < fuel)%nat -> nltb (st_rl t) (sy_packing S) = true -> regular S t) ->
    Forall2 same_state (run lsolve S fuel s) (run lsolve S' fuel s').
  Proof.
    induction fuel as [|fuel IH]; intros s s' H Z R; [constructor|]. cbn [run].
    assert (E : nltb (st_rl s) (sy_packing S) = nltb (st_rl s') (sy_packing S')).
    { apply nltb_eqv; [apply H|apply neqv_refl]. }
    rewrite <- E. destruct (nltb (st_rl s) (sy_packing S)) eqn:B; [|constructor].
    pose proof (step_two s s' H Z (R 0%nat s eq_refl ltac:(lia) B)) as T.
    destruct (step lsolve S s) as [t|] eqn:E1, (step lsolve S' s') as [t'|]; try contradiction; constructor; auto.
    apply IH; auto; [eapply sized_step; eauto|]. intros k u Hk Lk. apply (R (Datatypes.S k) u); [|lia].
    cbn [run]. rewrite B, E1. exact Hk.
  Qed.
End Steps.

Lemma finite_zero nu : finite_vec (repeat (Fin 0) nu).
Proof. intros v H. apply repeat_spec in H. subst. eauto. Qed.
Lemma same_results lsolve m g p p' S h S' h' : exact_solver lsolve -> same_but_perm p p' ->
  solve lsolve m g p = Ok (S, h) -> solve lsolve m g p' = Ok (S', h') ->
  numbering (length (sy_dq S)) (sp_perm p) -> numbering (length (sy_dq S)) (sp_perm p') ->
  (forall k s, nth_error h k = Some s -> (k < sp_itermax p)%nat -> nltb (st_rl s) (sp_packing p) = true -> regular S s) ->
  Forall2 (same_record S S') h h'.
Proof.
  intros X SB H1 H2 N1 N2 R. destruct (solve_inv _ _ _ _ _ _ H1) as (K & cs & HK & HC & ES & EH).
  destruct (solve_inv _ _ _ _ _ _ H2) as (K' & cs' & HK' & HC' & ES' & EH').
  rewrite HC in HC'. injection HC' as <-. rewrite SB in HK', ES', EH'. cbn [sp_lmin sp_lmax sp_coupling sp_tol sp_errtol sp_packing sp_itermax sp_perm] in *.
  rewrite HK in HK'. injection HK' as <-. cbv zeta in *. set (nu := (2 * length (g_rows g))%nat) in *.
  set (P := bmat nu K (csC cs)) in *. set (q0 := repeat (Fin 0) nu ++ csH cs) in *. set (s0 := init_state P q0 (sp_tol p) (Fin (csZ cs))) in *.
  assert (LQ : length q0 = length (sy_dq S)).
  { rewrite ES. cbn [sy_dq]. unfold q0. rewrite !app_length. f_equal. rewrite (csdH_len m g cs HC), (csH_len m g cs HC). reflexivity. }
  assert (FQ : finite_vec (sy_dq S)).
  { rewrite ES. cbn [sy_dq]. intros v Hv. apply in_app_iff in Hv. destruct Hv as [Hv|Hv]; [eapply finite_zero; eauto|].
    rewrite (csdH_eq m g cs HC) in Hv. apply in_flat_map in Hv. destruct Hv as (x & _ & [<-|[<-|[<-|[]]]]); eauto. }
  assert (PM : Permutation (sy_perm S) (seq 0 (length (sy_dq S)))).
  { rewrite ES at 1. cbn [sy_perm]. destruct (sp_perm p) as [l|]; [exact N1|]. rewrite LQ. apply Permutation_refl. }
  assert (PM' : Permutation (sy_perm S') (seq 0 (length (sy_dq S)))).
  { rewrite ES'. cbn [sy_perm]. destruct (sp_perm p') as [l|]; [exact N2|]. rewrite LQ. apply Permutation_refl. }
  assert (E' : S' = mkSys (sy_nu S) (sy_P S) (sy_dq S) (sy_perm S') (sy_tol S) (sy_errtol S) (sy_packing S) (sy_Z0 S)).
  { rewrite ES', ES. reflexivity. }
  assert (S0 : same_state s0 s0).
  { unfold same_state. repeat split; auto using sv_refl, neqv_refl. }
  assert (Z0 : sized S s0).
  { unfold sized, s0, init_state. cbn [st_x st_dx st_q]. rewrite map_length. auto. }
  assert (PK : sy_packing S = sp_packing p) by (rewrite ES; reflexivity).
  assert (RUN : Forall2 same_state h h').
  { rewrite EH, EH'. unfold history. constructor; auto. rewrite E'.
    apply (run_two lsolve X S (sy_perm S') PM PM' FQ); auto. intros k t Hk Lk Ht. apply (R k t); auto; [|congruence].
    rewrite EH. exact Hk. }
  assert (NU : sy_nu S' = sy_nu S) by (rewrite E'; reflexivity).
  clear - RUN NU. induction RUN as [|s s' l l' Hs _ IH]; constructor; auto. destruct Hs as (HX & HQ & HD & HZ & HR & HM & HE).
  unfold same_record, st_u, st_f, st_F, st_H. rewrite NU. auto 10 using sv_firstn, sv_skipn.
Qed.
(** the increment solves the equations of the closed rows whatever the numbering *)
Lemma increment_solves lsolve S s : exact_solver lsolve -> Permutation (sy_perm S) (seq 0 (length (sy_dq S))) -> finite_vec (sy_dq S) ->
  sized S s -> finite_vec (st_dx s) -> regular S s ->
  let dx := dxn lsolve S s in finite_vec dx /\ (forall r, ~ closed S s r -> nth r (vals dx) 0 == 0) /\
  forall r, closed S s r -> product (sy_P S) (vals dx) r == qof (nth r (sy_dq S) NaN).
Proof.
  intros X PM FQ (L1 & L2 & L3) FD R dx. pose proof (dx_spread lsolve X S PM FQ s) as DX.
  destruct (solved lsolve X S PM FQ s L3 R) as (_ & _ & Y1 & Y2). set (y := spread _ _ _) in *.
  assert (O : forall r, exists q, nth r (map (fun v => nmul v (Fin 0)) (st_dx s)) (Fin 0) = Fin q /\ q == 0).
  { intros r. rewrite nth_of, nth_error_map. destruct (nth_error (st_dx s) r) as [v|] eqn:E; simpl; [|exists 0; split; reflexivity].
    destruct (FD v (nth_error_In _ _ E)) as (q & ->). exists (q * 0). split; [reflexivity|ring]. }
  assert (LD : length dx = length (sy_dq S)).
  { unfold dx. rewrite dxn_eq, scatter_length, map_length. exact L2. }
  assert (V : forall r, (r < length (sy_dq S))%nat -> exists q, nth r dx NaN = Fin q /\ q == nth r y 0).
  { intros r Lr. destruct (DX r L3 L2 R) as [A B]. destruct (closed_dec S s r) as [C|C]; [apply A; auto|].
    unfold dx. rewrite (B C). destruct (O r) as (q & E & Z). exists q. rewrite (nth_indep _ NaN (Fin 0)) by (rewrite map_length, L2; auto).
    split; auto. rewrite Z, Y1 by auto. reflexivity. }
  assert (EQ : forall r, nth r (vals dx) 0 == nth r y 0).
  { intros r. unfold vals. rewrite nth_qof. destruct (Nat.lt_ge_cases r (length (sy_dq S))) as [Lr|Lr].
    - destruct (V r Lr) as (q & -> & E). exact E.
    - rewrite (nth_overflow dx) by lia. unfold y, spread. rewrite nth_map_seq. destruct (Nat.ltb_spec r (length (sy_dq S))); [lia|]. reflexivity. }
  split; [|split].
  - intros v Hv. apply In_nth_error in Hv. destruct Hv as (r & Hr). assert (Lr : (r < length dx)%nat) by (apply nth_error_Some; congruence).
    rewrite LD in Lr. destruct (V r Lr) as (q & E & _). rewrite nth_of, Hr in E. eauto.
  - intros r C. rewrite EQ. apply Y1; auto.
  - intros r C. rewrite <- Y2 by auto.
    rewrite (product_linear (sy_P S) y [] (vals dx) 0 r); [ring|]. intros c. rewrite EQ. ring.
Qed.
(** the system is regular as soon as one numbering of it is *)
Lemma regular_from S s : Permutation (sy_perm S) (seq 0 (length (sy_dq S))) -> length (st_q s) = length (sy_dq S) ->
  nonsingular (length (ps S s)) (submatrix (sy_P S) (ps S s)) -> regular S s.
Proof.
  intros PM L [HA HN]. destruct (ps_facts S PM s L) as [N I]. set (l := ps S s) in *. set (n := length (sy_dq S)) in *.
  assert (B : forall c, In c l -> (c < n)%nat) by (intros c Hc; apply (closed_lt S s); auto; apply I; auto).
  split.
  - intros r c v Hr Hc H. apply I, In_nth_error in Hr. apply I, In_nth_error in Hc. destruct Hr as (a & Ha). destruct Hc as (b & Hb).
    destruct (HA a b v) as (_ & _ & Q); auto. unfold submatrix. apply in_flat_map. exists (r, c, v). split; auto.
    apply in_flat_map. exists a. split; [apply places_in; auto|]. apply in_map_iff. exists b. split; [auto|apply places_in; auto].
  - intros y Y1 Y2 r. set (z := map (fun c => nth c y 0) l).
    assert (Nz : forall a c, nth_error l a = Some c -> nth a z 0 = nth c y 0).
    { intros a c H. unfold z. rewrite nth_of, nth_error_map, H. reflexivity. }
    assert (SP : forall c, nth c (spread n l z) 0 == nth c y 0).
    { intros c. destruct (in_dec Nat.eq_dec c l) as [C|C].
      - pose proof (B c C) as Lc. apply In_nth_error in C. destruct C as (a & Ha). rewrite (spread_in n l z a c) by auto. rewrite (Nz a c Ha). reflexivity.
      - rewrite spread_out by auto. rewrite Y1; [reflexivity|]. rewrite <- I. auto. }
    destruct (closed_dec S s r) as [C|C]; [|apply Y1; auto]. apply I, In_nth_error in C. destruct C as (a & Ha).
    rewrite <- (Nz a r Ha). apply HN; [|apply nth_error_Some; congruence]. intros a' La.
    destruct (nth_error l a') as [c|] eqn:Ec; [|apply nth_error_None in Ec; lia].
    rewrite (sub_product n (sy_P S) l z a' c) by auto. rewrite <- (Y2 c) by (apply I; eapply nth_error_In; eauto).
    rewrite (product_linear (sy_P S) y [] (spread n l z) 0 c); [ring|]. intros d. rewrite SP. ring.
Qed.

(** data of a successful call *)
Lemma call_facts lsolve m g p S h : solve lsolve m g p = Ok (S, h) -> numbering (length (sy_dq S)) (sp_perm p) ->
  Permutation (sy_perm S) (seq 0 (length (sy_dq S))) /\ finite_vec (sy_dq S) /\
  exists s0, h = history lsolve S (sp_itermax p) s0 /\ sized S s0 /\ finite_vec (st_dx s0) /\ sy_packing S = sp_packing p.
Proof.
  intros H1 N1. destruct (solve_inv _ _ _ _ _ _ H1) as (K & cs & HK & HC & ES & EH). cbv zeta in *. set (nu := (2 * length (g_rows g))%nat) in *.
  set (P := bmat nu K (csC cs)) in *. set (q0 := repeat (Fin 0) nu ++ csH cs) in *. set (s0 := init_state P q0 (sp_tol p) (Fin (csZ cs))) in *.
  assert (LQ : length q0 = length (sy_dq S)).
  { rewrite ES. cbn [sy_dq]. unfold q0. rewrite !app_length. f_equal. rewrite (csdH_len m g cs HC), (csH_len m g cs HC). reflexivity. }
  split; [|split].
  - rewrite ES at 1. cbn [sy_perm]. destruct (sp_perm p) as [l|]; [exact N1|]. rewrite LQ. apply Permutation_refl.
  - rewrite ES. cbn [sy_dq]. intros v Hv. apply in_app_iff in Hv. destruct Hv as [Hv|Hv]; [eapply finite_zero; eauto|].
    rewrite (csdH_eq m g cs HC) in Hv. apply in_flat_map in Hv. destruct Hv as (x & _ & [<-|[<-|[<-|[]]]]); eauto.
  - exists s0. split; [exact EH|]. split; [|split].
    + unfold sized, s0, init_state. cbn [st_x st_dx st_q]. rewrite map_length. auto.
    + unfold s0, init_state. cbn [st_dx]. intros v Hv. apply in_map_iff in Hv. destruct Hv as (_ & <- & _). eauto.
    + rewrite ES. reflexivity.
Qed.
Lemma step_dx lsolve S s s' : step lsolve S s = Some s' -> st_dx s' = dxn lsolve S s.
Proof.
  unfold step, dxn. destruct (py_min _); [|discriminate]. destruct (err_gt _ _); [discriminate|]. intros E. injection E as <-. reflexivity.
Qed.
Lemma run_increments lsolve S : exact_solver lsolve -> Permutation (sy_perm S) (seq 0 (length (sy_dq S))) -> finite_vec (sy_dq S) ->
  forall fuel s, sized S s -> finite_vec (st_dx s) ->
  (forall k t, nth_error (s :: run lsolve S fuel s) k = Some t -> (k < fuel)%nat -> nltb (st_rl t) (sy_packing S) = true -> regular S t) ->
  forall k t t', nth_error (s :: run lsolve S fuel s) k = Some t -> nth_error (run lsolve S fuel s) k = Some t' ->
  finite_vec (st_dx t') /\ (forall r, ~ closed S t r -> nth r (vals (st_dx t')) 0 == 0) /\
  forall r, closed S t r -> product (sy_P S) (vals (st_dx t')) r == qof (nth r (sy_dq S) NaN).
Proof.
  intros X PM FQ. induction fuel as [|fuel IH]; intros s Z F R k t t' Ht Ht'; [destruct k; discriminate Ht'|].
  cbn [run] in *. destruct (nltb (st_rl s) (sy_packing S)) eqn:B; [|destruct k; discriminate Ht'].
  destruct (step lsolve S s) as [s1|] eqn:E; [|destruct k; discriminate Ht'].
  pose proof (increment_solves lsolve S s X PM FQ Z F (R 0%nat s eq_refl ltac:(lia) B)) as HI. cbv zeta in HI.
  rewrite <- (step_dx lsolve S s s1 E) in HI.
  destruct k as [|k]; cbn [nth_error] in Ht, Ht'.
  - injection Ht as <-. injection Ht' as <-. exact HI.
  - apply (IH s1) with (k := k); auto; [eapply sized_step; eauto|apply HI|].
    intros j u Hj Lj. apply (R (Datatypes.S j) u); [exact Hj|lia].
Qed.
Lemma history_increments lsolve m g p S h : exact_solver lsolve -> solve lsolve m g p = Ok (S, h) -> numbering (length (sy_dq S)) (sp_perm p) ->
  (forall k s, nth_error h k = Some s -> (k < sp_itermax p)%nat -> nltb (st_rl s) (sp_packing p) = true -> regular S s) ->
  forall k s s', nth_error h k = Some s -> nth_error h (Datatypes.S k) = Some s' ->
  finite_vec (st_dx s') /\ (forall r, ~ closed S s r -> nth r (vals (st_dx s')) 0 == 0) /\
  forall r, closed S s r -> product (sy_P S) (vals (st_dx s')) r == qof (nth r (sy_dq S) NaN).
Proof.
  intros X H N R k s s' Hk Hk'. destruct (call_facts _ _ _ _ _ _ H N) as (PM & FQ & s0 & EH & Z & F & PK).
  rewrite EH in Hk, Hk'. unfold history in *. apply (run_increments lsolve S X PM FQ (sp_itermax p) s0 Z F) with (k := k); auto.
  intros j t Hj Lj Ht. apply (R j t); auto; [rewrite EH; exact Hj|congruence].
Qed.
