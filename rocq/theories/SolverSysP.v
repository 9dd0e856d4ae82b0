(** The assembled system satisfies what the runs need. *)
From Coq Require Import String Permutation.
From Verif Require Import Num NumP ListX ListP Frames MatM NetM MeshM ModelM SolverM Spec SpecNet SpecMesh SpecModel
  MeshCheckP NetP StiffP StiffLimP ConstraintP SolverP SolverRunP.
Open Scope Q_scope.

(** ** bmat *)
Definition lower (nu : nat) (C : ncoo) : ncoo := map (fun e => let '(r, c, v) := e in ((nu + r)%nat, c, v)) C.
Definition upper (nu : nat) (C : ncoo) : ncoo := map (fun e => let '(r, c, v) := e in (c, (nu + r)%nat, v)) C.
Lemma bmat_eq nu K C : bmat nu K C = K ++ upper nu C ++ lower nu C.
Proof. reflexivity. Qed.
Lemma upper_swap nu C : upper nu C = map swap (lower nu C).
Proof. unfold upper, lower. rewrite map_map. apply map_ext. intros [[r c] v]. reflexivity. Qed.
Lemma bmat_sym nu K C : (forall r c, neqv (entry K r c) (entry K c r)) ->
  forall r c, neqv (entry (bmat nu K C) r c) (entry (bmat nu K C) c r).
Proof.
  intros H r c. rewrite bmat_eq.
  rewrite (entry_app K _ r c), (entry_app K _ c r), (entry_app (upper nu C) _ r c), (entry_app (upper nu C) _ c r).
  rewrite upper_swap, !entry_swap. rewrite (H r c).
  rewrite (nadd_comm (entry (lower nu C) c r) (entry (lower nu C) r c)). reflexivity.
Qed.
Lemma product_zero P u r : (forall c v, ~ In (r, c, v) P) -> product P u r == 0.
Proof.
  intros H. unfold product. apply qsum_zeros. intros z Hz. apply in_map_iff in Hz. destruct Hz as ([[i c] v] & <- & Hi).
  destruct (Nat.eqb_spec i r) as [->|]; [destruct (H c v Hi)|reflexivity].
Qed.
Lemma lower_product nu C u r : product (lower nu C) u (nu + r) == product C u r.
Proof.
  unfold product, lower. rewrite map_map. apply qsum_ext. intros [[i c] v] _.
  destruct (Nat.eqb_spec (nu + i) (nu + r)) as [E|E]; destruct (Nat.eqb_spec i r) as [E'|E']; try lia; reflexivity.
Qed.
(** the rows below: C u *)
Lemma bmat_below nu K C u r : (forall i c v, In (i, c, v) K -> (i < nu)%nat) -> (forall i c v, In (i, c, v) C -> (c < nu)%nat) ->
  product (bmat nu K C) u (nu + r) == product C u r.
Proof.
  intros HK HC. rewrite bmat_eq, product_app, product_app, lower_product.
  rewrite (product_zero K), (product_zero (upper nu C)); [ring| |].
  - intros c v H. unfold upper in H. apply in_map_iff in H. destruct H as ([[i j] w] & E & H). inversion E; subst.
    specialize (HC _ _ _ H). lia.
  - intros c v H. specialize (HK _ _ _ H). lia.
Qed.
(** the rows above: K u + C^T f *)
Lemma bmat_above nu K C u r : (r < nu)%nat ->
  product (bmat nu K C) u r == product K u r + product (upper nu C) u r.
Proof.
  intros L. rewrite bmat_eq, product_app, product_app. rewrite (product_zero (lower nu C)); [ring|].
  intros c v H. unfold lower in H. apply in_map_iff in H. destruct H as ([[i j] w] & E & H). inversion E. lia.
Qed.

Definition unit_vec (n c : nat) : list Q := map (fun k => if Nat.eqb c k then 1 else 0) (seq 0 n).
Lemma unit_nth n c k : (k < n)%nat -> nth k (unit_vec n c) 0 = if Nat.eqb c k then 1 else 0.
Proof.
  intros L. unfold unit_vec. rewrite nth_of, nth_error_map, seq_nth_eq.
  destruct (Nat.ltb_spec k n); [|lia]. reflexivity.
Qed.
Lemma unit_product P n r c : (forall r c v, In (r, c, v) P -> (r < n /\ c < n)%nat) -> fin_row P r -> (c < n)%nat ->
  product P (unit_vec n c) r == qof (entry P r c).
Proof.
  intros idx HR L. rewrite (product_cols P n idx _ r HR). rewrite <- (qsum_pick (fun k => qof (entry P r k)) c n 0) by lia.
  apply qsum_ext. intros k Hk. apply in_seq in Hk. rewrite unit_nth by lia. destruct (Nat.eqb c k); ring.
Qed.
Lemma col_pos P n r c : (forall r c v, In (r, c, v) P -> (r < n /\ c < n)%nat) ->
  (forall r c, neqv (entry P r c) (entry P c r)) -> fin_row P r -> (c < n)%nat ->
  ~ qof (entry P r c) == 0 -> nltb (Fin 0) (colsum P r) = true.
Proof.
  intros idx sym HR L N. destruct (nltb (Fin 0) (colsum P r)) eqn:E; auto. destruct N.
  rewrite <- (unit_product P n r c idx HR L). apply (zero_col P n idx sym r HR E).
Qed.

(** ** K *)
Lemma nonfin_mul x q : ~ fin x -> ~ fin (nmul x (Fin q)).
Proof.
  intros N (w & E). destruct x; simpl in E; try discriminate; try (destruct N; eexists; reflexivity).
  - destruct (qsgn q); discriminate.
  - destruct (qsgn (- q)); discriminate.
Qed.
Lemma fin_mul_inv x q : fin (nmul x (Fin q)) -> fin x.
Proof. intros H. destruct (fin_dec x) as [F|F]; auto. destruct (nonfin_mul x q F H). Qed.
Lemma fin_div_inv x q : fin (ndiv x (Fin q)) -> fin x.
Proof.
  intros (w & E). destruct x; simpl in E; try discriminate; [eexists; reflexivity| |].
  - destruct (Qltb q 0); discriminate.
  - destruct (Qltb q 0); discriminate.
Qed.
Lemma fin_opp x : fin (nopp x) <-> fin x.
Proof. split; intros (q & E); destruct x; try discriminate; eexists; reflexivity. Qed.
Lemma k2_k0 f l : fin (k2_of f l) -> fin (k0_of f l).
Proof.
  unfold k2_of. intros H. apply nadd_fin_inv in H. destruct H as [H _]. apply fin_div_inv in H. apply fin_mul_inv in H. exact H.
Qed.
Lemma k0_k1 c f l : fin (k0_of f l) -> fin (k1_of c f l).
Proof. intros (q & E). unfold k1_of. rewrite E. eexists. reflexivity. Qed.
Lemma k2_k4 f l : fin (k2_of f l) -> fin (k4_of f l).
Proof.
  intros H. destruct (k2_k0 f l H) as (q & E). destruct H as (q2 & E2). unfold k4_of, k3_of. rewrite E, E2. eexists. reflexivity.
Qed.
Lemma block_rows c i j f l r : fin_row (block c i j f l) r \/ dead (block c i j f l) r.
Proof.
  unfold fin_row, dead.
  destruct (fin_dec (k0_of f l)) as [F0|F0].
  - destruct (fin_dec (k2_of f l)) as [F2|F2].
    + left. intros x v H. pose proof (k0_k1 c f l F0) as F1. pose proof (k2_k4 f l F2) as F4.
      unfold block in H. simpl in H.
      repeat (destruct H as [H|H]; [inversion H; subst; auto; apply fin_opp; auto|]). destruct H.
    + destruct (Nat.eq_dec r (2 * i + 1)) as [->|N1]; [right; exists (k2_of f l); split; auto; unfold block; simpl; tauto|].
      destruct (Nat.eq_dec r (2 * j + 1)) as [->|N2]; [right; exists (k2_of f l); split; auto; unfold block; simpl; tauto|].
      left. intros x v H. pose proof (k0_k1 c f l F0) as F1. unfold block in H. cbv zeta in H.
      repeat (destruct H as [H|H]; [inversion H; subst; try (exfalso; congruence); auto; apply fin_opp; auto|]). destruct H.
  - assert (F2 : ~ fin (k2_of f l)) by (intros H; apply F0, k2_k0; auto).
    destruct (Nat.eq_dec r (2 * i)) as [->|N0]; [right; exists (k0_of f l); split; auto; unfold block; simpl; tauto|].
    destruct (Nat.eq_dec r (2 * i + 1)) as [->|N1]; [right; exists (k2_of f l); split; auto; unfold block; simpl; tauto|].
    destruct (Nat.eq_dec r (2 * j)) as [->|N3]; [right; exists (k0_of f l); split; auto; unfold block; simpl; tauto|].
    destruct (Nat.eq_dec r (2 * j + 1)) as [->|N2]; [right; exists (k2_of f l); split; auto; unfold block; simpl; tauto|].
    left. intros x v H. unfold block in H. cbv zeta in H.
    repeat (destruct H as [H|H]; [inversion H; subst; exfalso; congruence|]). destruct H.
Qed.
Lemma flat_rows {A} (B : A -> ncoo) l r : (forall a, fin_row (B a) r \/ dead (B a) r) ->
  fin_row (flat_map B l) r \/ dead (flat_map B l) r.
Proof.
  intros H. induction l as [|a l IH]; simpl.
  - left. intros c v [].
  - destruct (H a) as [F|(v & Hv & N)].
    + destruct IH as [F'|(v & Hv & N)].
      * left. intros c v Hv. apply in_app_iff in Hv. destruct Hv; [apply (F c)|apply (F' c)]; auto.
      * right. exists v. split; auto. apply in_app_iff. auto.
    + right. exists v. split; auto. apply in_app_iff. auto.
Qed.

(** ** C *)
Lemma c_matrix_in ps r c v : In (r, c, v) (c_matrix ps) -> exists k i j, nth_error ps k = Some (i, j) /\
  ((r = 3 * k /\ c = 2 * i)%nat /\ v = Fin (- (1)) \/ (r = 3 * k + 1 /\ c = 2 * i)%nat /\ v = Fin 1 \/
   (r = 3 * k + 1 /\ c = 2 * j)%nat /\ v = Fin (- (1)) \/ (r = 3 * k + 2 /\ c = 2 * j)%nat /\ v = Fin 1).
Proof.
  assert (HI : forall k p, In (k, p) (combine (seq 0 (length ps)) ps) -> nth_error ps k = Some p).
  { intros k p H. apply In_nth_error in H. destruct H as (a & Ha). rewrite indexed_nth in Ha.
    destruct (nth_error ps a) as [p'|] eqn:E; [|discriminate Ha]. inversion Ha; subst. exact E. }
  unfold c_matrix. rewrite !in_app_iff, !in_map_iff. intros H.
  repeat destruct H as [H|H]; destruct H as ((k & i & j) & E & H); simpl in E; injection E as <- <- <-; exists k, i, j; (split; [apply HI; exact H|]); auto 10.
Qed.
Lemma c_matrix_row ps k i j : nth_error ps k = Some (i, j) ->
  In (3 * k, 2 * i, Fin (- (1)))%nat (c_matrix ps) /\ In (3 * k + 1, 2 * i, Fin 1)%nat (c_matrix ps) /\ In (3 * k + 2, 2 * j, Fin 1)%nat (c_matrix ps).
Proof.
  intros H. assert (HI : In (k, (i, j)) (combine (seq 0 (length ps)) ps)).
  { apply (nth_error_In _ k). rewrite indexed_nth, H. reflexivity. }
  unfold c_matrix. rewrite !in_app_iff, !in_map_iff. repeat split.
  - left. exists (k, (i, j)). auto.
  - right. left. exists (k, (i, j)). auto.
  - right. right. right. exists (k, (i, j)). auto.
Qed.

(** ** The assembled system *)
Lemma asm_inv m g p S s0 : assemble m g p = Ok (S, s0) ->
  exists K cs, stiffness m g (sp_lmin p) (sp_lmax p) (sp_coupling p) = Ok K /\ constraint m g = Ok cs /\
    let nu := (2 * length (g_rows g))%nat in
    S = mkSys nu (bmat nu K (csC cs)) (repeat (Fin 0) nu ++ csdH cs)
              (match sp_perm p with Some l => l | None => seq 0 (length (repeat (Fin 0) nu ++ csH cs)) end)
              (sp_tol p) (sp_errtol p) (sp_packing p) (Fin (csZ cs)) /\
    s0 = init_state (bmat nu K (csC cs)) (repeat (Fin 0) nu ++ csH cs) (sp_tol p) (Fin (csZ cs)).
Proof.
  unfold assemble. destruct (stiffness m g (sp_lmin p) (sp_lmax p) (sp_coupling p)) as [K|e]; [|discriminate].
  destruct (constraint m g) as [cs|e]; [|discriminate]. cbn [bind]. intros H. injection H as <- <-. exists K, cs. auto.
Qed.

Lemma node_lt rows i d : is_node rows i d -> (i < length rows)%nat.
Proof. intros (l & H). apply nth_error_Some. congruence. Qed.
Lemma nth_app_r {A} (l l' : list A) k d : nth (length l + k) (l ++ l') d = nth k l' d.
Proof. rewrite app_nth2 by lia. f_equal. lia. Qed.

Section Assembled.
  Variable m : qmat.
  Variable g : mesh_df.
  Variables lmin lmax : option Q.
  Variable cpl : Q.
  Variable K : ncoo.
  Variable cs : csys.
  Hypothesis HK : stiffness m g lmin lmax cpl = Ok K.
  Hypothesis Hcs : constraint m g = Ok cs.
  Hypothesis noflag : ~ flag_set (g_attrs g).
  Let nu := (2 * length (g_rows g))%nat.
  Let ps := cons_pairs (g_rows g).
  Let P := bmat nu K (csC cs).
  Variable perm : list nat.
  Variables tol errtol : Q.
  Variable packing : num.
  Let dq := repeat (Fin 0) nu ++ csdH cs.
  Let q0 := repeat (Fin 0) nu ++ csH cs.
  Let S := mkSys nu P dq perm tol errtol packing (Fin (csZ cs)).
  Let s0 := init_state P q0 tol (Fin (csZ cs)).
  Let n := (nu + 3 * length ps)%nat.

  Lemma csC_eq : csC cs = c_matrix ps.
  Proof. destruct (cons_inv m g cs Hcs) as (_ & _ & _ & t0 & t & _ & E). rewrite E. reflexivity. Qed.
  Lemma csdH_eq : csdH cs = flat_map (fun _ => [Fin 0; Fin 0; Fin 1]) ps.
  Proof. destruct (cons_inv m g cs Hcs) as (_ & _ & _ & t0 & t & _ & E). rewrite E. reflexivity. Qed.
  Lemma csdH_len : length (csdH cs) = (3 * length ps)%nat.
  Proof. rewrite csdH_eq. apply flat3_len. reflexivity. Qed.
  Lemma csH_len : length (csH cs) = (3 * length ps)%nat.
  Proof. destruct (cons_inv m g cs Hcs) as (_ & _ & _ & t0 & t & _ & E). rewrite E. apply flat3_len. reflexivity. Qed.
  Lemma dq_len : length dq = n.
  Proof. unfold dq, n. rewrite app_length, repeat_length, csdH_len. reflexivity. Qed.
  Lemma q0_len : length q0 = n.
  Proof. unfold q0, n. rewrite app_length, repeat_length, csH_len. reflexivity. Qed.

  Lemma K_lt r c v : In (r, c, v) K -> (r < nu /\ c < nu)%nat.
  Proof.
    intros H. destruct (stiff_local m g lmin lmax cpl K HK noflag r c v H) as (d & e & Hd & He & _).
    apply node_lt in Hd, He. unfold nu. rewrite (Nat.div_mod r 2), (Nat.div_mod c 2) by lia.
    pose proof (Nat.mod_upper_bound r 2). pose proof (Nat.mod_upper_bound c 2). lia.
  Qed.
  Lemma pair_lt k i j : nth_error ps k = Some (i, j) -> (k < length ps /\ i < length (g_rows g) /\ j < length (g_rows g) /\ i <= j)%nat.
  Proof.
    intros H. destruct (pair_inv m g cs Hcs noflag k i j H) as (d & e & Hd & He & _ & _ & L).
    apply node_lt in Hd, He. split; [apply nth_error_Some; congruence|]. auto.
  Qed.
  Lemma C_lt r c v : In (r, c, v) (csC cs) -> (r < 3 * length ps /\ c < nu)%nat /\ fin v.
  Proof.
    rewrite csC_eq. intros H. destruct (c_matrix_in ps r c v H) as (k & i & j & Hk & C). apply pair_lt in Hk. unfold nu.
    split; [|decompose [or and] C; subst; eexists; reflexivity]. decompose [or and] C; lia.
  Qed.
  Lemma P_case r c v : In (r, c, v) P -> In (r, c, v) K \/ (r < nu /\ In (c - nu, r, v) (csC cs) /\ nu <= c)%nat \/
    (nu <= r /\ In (r - nu, c, v) (csC cs))%nat.
  Proof.
    unfold P. rewrite bmat_eq, !in_app_iff. intros [H|[H|H]]; auto.
    - right. left. unfold upper in H. apply in_map_iff in H. destruct H as ([[i j] w] & E & H). inversion E; subst.
      pose proof (C_lt _ _ _ H) as [(_ & L) _]. split; auto. replace (nu + i - nu)%nat with i by lia. split; auto. lia.
    - right. right. unfold lower in H. apply in_map_iff in H. destruct H as ([[i j] w] & E & H). inversion E; subst.
      replace (nu + i - nu)%nat with i by lia. split; auto. lia.
  Qed.
  Lemma P_idx r c v : In (r, c, v) P -> (r < n /\ c < n)%nat.
  Proof.
    intros H. unfold n. destruct (P_case r c v H) as [H'|[(L & H' & L')|(L & H')]].
    - apply K_lt in H'. lia.
    - apply C_lt in H'. lia.
    - apply C_lt in H'. lia.
  Qed.
  Lemma P_sym r c : neqv (entry P r c) (entry P c r).
  Proof. apply bmat_sym. apply (stiff_symmetric m g lmin lmax cpl K HK noflag). Qed.
  Lemma K_rows r : fin_row K r \/ dead K r.
  Proof. rewrite (K_parts m g lmin lmax cpl K HK noflag). apply flat_rows. intros a. apply block_rows. Qed.
  Lemma P_fin_row r : fin_row K r -> fin_row P r.
  Proof.
    intros H c v Hv. destruct (P_case r c v Hv) as [H'|[(_ & H' & _)|(_ & H')]]; [apply (H c); auto| |]; apply C_lt in H'; apply H'.
  Qed.
  Lemma P_rows r : fin_row P r \/ dead P r.
  Proof.
    destruct (K_rows r) as [H|(v & Hv & N)]; [left; apply P_fin_row; auto|]. right. exists v. split; auto.
    unfold P. rewrite bmat_eq. apply in_app_iff. auto.
  Qed.
  Lemma below_fin r : (nu <= r)%nat -> fin_row P r.
  Proof. intros L. apply P_fin_row. intros c v H. apply K_lt in H. lia. Qed.
  Lemma below_product u r : product P u (nu + r) == product (csC cs) u r.
  Proof. apply bmat_below; [intros i c v H; apply (K_lt i c v H)|intros i c v H; apply (C_lt i c v H)]. Qed.

  Lemma dq_above r : (r < nu)%nat -> nth r dq NaN = Fin 0.
  Proof. intros L. unfold dq. rewrite app_nth1 by (rewrite repeat_length; auto). rewrite nth_of. rewrite nth_error_repeat; auto. Qed.
  Lemma q0_above r : (r < nu)%nat -> nth r q0 NaN = Fin 0.
  Proof. intros L. unfold q0. rewrite app_nth1 by (rewrite repeat_length; auto). rewrite nth_of. rewrite nth_error_repeat; auto. Qed.
  Lemma dq_below r : nth (nu + r) dq NaN = nth r (csdH cs) NaN.
  Proof. unfold dq. rewrite <- (repeat_length (Fin 0) nu) at 1. apply nth_app_r. Qed.
  Lemma q0_below r : nth (nu + r) q0 NaN = nth r (csH cs) NaN.
  Proof. unfold q0. rewrite <- (repeat_length (Fin 0) nu) at 1. apply nth_app_r. Qed.
  Lemma below_case r : (nu <= r < n)%nat -> exists k i j t, nth_error ps k = Some (i, j) /\ (t < 3)%nat /\ r = (nu + (3 * k + t))%nat.
  Proof.
    intros [L1 L2]. destruct (split3 (r - nu)) as (k & t & Lt & E). unfold n in L2.
    destruct (nth_error ps k) as [[i j]|] eqn:Ek.
    - exists k, i, j, t. split; auto. split; auto. lia.
    - apply nth_error_None in Ek. lia.
  Qed.
  Lemma dH_at k i j t : nth_error ps k = Some (i, j) -> (t < 3)%nat -> nth (3 * k + t) (csdH cs) NaN = if Nat.eqb t 2 then Fin 1 else Fin 0.
  Proof.
    intros Hk Lt. rewrite nth_of, csdH_eq, flat3_nth by auto. rewrite Hk.
    destruct t as [|[|[|t]]]; try reflexivity. lia.
  Qed.
  Lemma dq_fin r : (r < n)%nat -> fin (nth r dq NaN).
  Proof.
    intros L. destruct (Nat.lt_ge_cases r nu) as [H|H]; [rewrite dq_above; auto; eexists; reflexivity|].
    destruct (below_case r (conj H L)) as (k & i & j & t & Hk & Lt & ->). rewrite dq_below, (dH_at k i j t Hk Lt).
    destruct (Nat.eqb t 2); eexists; reflexivity.
  Qed.
  Lemma disp_unit i k : (k < length (g_rows g))%nat -> disp (unit_vec n (2 * i)) k == if Nat.eqb i k then 1 else 0.
  Proof.
    intros L. unfold disp. rewrite unit_nth by (unfold n, nu; lia).
    destruct (Nat.eqb_spec (2 * i) (2 * k)) as [E|E]; destruct (Nat.eqb_spec i k) as [E'|E']; try lia; reflexivity.
  Qed.
  Lemma zero_dq r : (r < n)%nat -> nltb (Fin 0) (colsum P r) = false -> qof (nth r dq NaN) == 0.
  Proof.
    intros L C. destruct (Nat.lt_ge_cases r nu) as [H|H]; [rewrite dq_above; auto; reflexivity|].
    destruct (below_case r (conj H L)) as (k & i & j & t & Hk & Lt & ->).
    rewrite dq_below, (dH_at k i j t Hk Lt). destruct (Nat.eqb_spec t 2) as [->|]; [exfalso|reflexivity].
    pose proof (zero_col P n P_idx P_sym _ (below_fin _ H) C (unit_vec n (2 * j))) as Z.
    rewrite below_product, csC_eq in Z. destruct (c_rows ps (unit_vec n (2 * j)) k i j Hk) as (_ & _ & E). rewrite E in Z.
    pose proof (pair_lt k i j Hk) as (_ & _ & Lj & _). rewrite disp_unit in Z by auto. rewrite Nat.eqb_refl in Z. discriminate Z.
  Qed.

  (** the initial state *)
  Lemma xs0 r : nth r (xs s0) 0 == 0.
  Proof.
    unfold xs, s0, init_state. cbn [st_x]. rewrite map_map. rewrite nth_of, nth_error_map. destruct (nth_error q0 r); reflexivity.
  Qed.
  Lemma product_null Q y r : (forall k, nth k y 0 == 0) -> product Q y r == 0.
  Proof.
    intros H. unfold product. apply qsum_zeros. intros z Hz. apply in_map_iff in Hz. destruct Hz as ([[i c] v] & <- & _).
    destruct (Nat.eqb i r); [rewrite H; ring|reflexivity].
  Qed.
  Lemma D0 r : D S s0 r == qof (nth r q0 NaN).
  Proof. unfold D. rewrite product_null by apply xs0. simpl. ring. Qed.
  Lemma start_inv : Inv S s0.
  Proof.
    constructor; unfold S, s0, init_state; cbn [sy_dq st_x st_dx st_q st_Z sy_P].
    - rewrite map_length, q0_len, dq_len. reflexivity.
    - rewrite map_length, q0_len, dq_len. reflexivity.
    - rewrite q0_len, dq_len. reflexivity.
    - intros r L. rewrite dq_len in L. rewrite nth_of, nth_error_map. destruct (nth_error q0 r) eqn:E; [eexists; reflexivity|].
      apply nth_error_None in E. rewrite q0_len in E. lia.
    - intros r L. rewrite dq_len in L. rewrite nth_of, nth_error_map. destruct (nth_error q0 r) eqn:E; [eexists; reflexivity|].
      apply nth_error_None in E. rewrite q0_len in E. lia.
    - intros r _. apply xs0.
    - intros r L. rewrite dq_len in L. unfold qfin, free, dqr. cbn [st_q sy_dq sy_P].
      destruct (Nat.lt_ge_cases r nu) as [H|H]; [left; rewrite q0_above; auto; eexists; reflexivity|].
      destruct (below_case r (conj H L)) as (k & i & j & t & Hk & Lt & ->). rewrite q0_below, dq_below, (dH_at k i j t Hk Lt).
      destruct (pair_inv m g cs Hcs noflag k i j Hk) as (d & e & Hd & He & _).
      destruct (thick_ex m g cs Hcs i d Hd) as (hi & Ti & _). destruct (thick_ex m g cs Hcs j e He) as (hj & Tj & _).
      destruct (H_bounds m g cs Hcs) as [_ HB]. destruct (HB k i j d e hi hj Hk Hd He Ti Tj) as ((b0 & B0 & _) & (b1 & B1 & BI & BF) & (b2 & B2 & _)).
      destruct t as [|[|[|t]]]; [| | |lia].
      + left. rewrite nth_of, Nat.add_0_r, B0. eexists; reflexivity.
      + destruct (Nat.eq_dec i j) as [Eij|Nij].
        * right. rewrite nth_of, B1, (BI Eij). split; auto. split; [apply below_fin; auto|]. split; [reflexivity|].
          intros y. rewrite below_product, csC_eq. destruct (c_rows ps y k i j Hk) as (_ & E & _). rewrite E, Eij. ring.
        * left. rewrite nth_of, B1. destruct BF as (x & -> & _); [lia|eexists; reflexivity] || (destruct (BF Nij) as (x & -> & _); eexists; reflexivity).
      + left. rewrite nth_of, B2. eexists; reflexivity.
    - eexists; reflexivity.
  Qed.
End Assembled.
