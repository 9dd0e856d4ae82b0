(** Elastic energy of the recorded states (C80, C81). *)
From Coq Require Import String Permutation.
From Verif Require Import Num NumP ListX ListP Frames MatM NetM MeshM ModelM SolverM Spec SpecNet SpecMesh SpecModel SpecSolver SpecEnergy
  MeshCheckP NetP StackP StiffP StiffLimP StiffLenP ConstraintP SolverP SolverRunP SolverSysP SolverApiP SolverFinP.
Open Scope Q_scope.

(** ** Bilinear forms of sparse matrices *)
Definition bil (P : ncoo) (a b : list Q) : Q :=
  qsum (map (fun e => let '(i, c, v) := e in nth i a 0 * (qof v * nth c b 0)) P).
Lemma bil_quad P u : bil P u u = quadratic P u.
Proof. reflexivity. Qed.
Lemma bil_rows P a b N : (forall r x v, In (r, x, v) P -> (r < N)%nat) ->
  bil P a b == qsum (map (fun r => nth r a 0 * product P b r) (seq 0 N)).
Proof.
  induction P as [|[[i j] v] P IH]; intros H.
  - unfold bil, product. simpl. symmetry. apply qsum_zeros. intros x Hx. apply in_map_iff in Hx.
    destruct Hx as (r & <- & _). ring.
  - assert (E : bil ((i, j, v) :: P) a b == nth i a 0 * (qof v * nth j b 0) + bil P a b) by reflexivity.
    rewrite E, IH by (intros; eapply H; right; eauto). clear E IH.
    rewrite (qsum_ext (fun r => nth r a 0 * product ((i, j, v) :: P) b r)
      (fun r => (if Nat.eqb i r then (fun r => nth r a 0 * (qof v * nth j b 0)) r else 0) + nth r a 0 * product P b r)).
    + rewrite qsum_plus, qsum_pick by (split; [lia|simpl; apply (H i j v); left; auto]). reflexivity.
    + intros r _. unfold product. simpl. destruct (Nat.eqb i r); ring.
Qed.
Lemma bil_cols P a b N : (forall r x v, In (r, x, v) P -> (x < N)%nat) ->
  bil P a b == qsum (map (fun c => nth c b 0 * transpose_product P a c) (seq 0 N)).
Proof.
  induction P as [|[[i j] v] P IH]; intros H.
  - unfold bil, transpose_product. simpl. symmetry. apply qsum_zeros. intros x Hx. apply in_map_iff in Hx.
    destruct Hx as (r & <- & _). ring.
  - assert (E : bil ((i, j, v) :: P) a b == nth i a 0 * (qof v * nth j b 0) + bil P a b) by reflexivity.
    rewrite E, IH by (intros; eapply H; right; eauto). clear E IH.
    rewrite (qsum_ext (fun c => nth c b 0 * transpose_product ((i, j, v) :: P) a c)
      (fun c => (if Nat.eqb j c then (fun c => nth c b 0 * (qof v * nth i a 0)) c else 0) + nth c b 0 * transpose_product P a c)).
    + rewrite qsum_plus, qsum_pick by (split; [lia|simpl; apply (H i j v); left; auto]). ring.
    + intros r _. unfold transpose_product. simpl. destruct (Nat.eqb j r); ring.
Qed.
Lemma qsum_perm l l' : Permutation l l' -> qsum l == qsum l'.
Proof. induction 1; simpl; try reflexivity; [rewrite IHPermutation; reflexivity|ring|etransitivity; eauto]. Qed.
Lemma bil_sym P a b : Permutation (map swap P) P -> bil P a b == bil P b a.
Proof.
  intros H. transitivity (bil (map swap P) b a).
  - unfold bil. rewrite map_map. apply qsum_ext. intros [[i c] v] _. cbn [swap fst snd]. ring.
  - apply qsum_perm, Permutation_map, H.
Qed.
Definition vsub (n : nat) (v u : list Q) : list Q := map (fun r => nth r v 0 - nth r u 0) (seq 0 n).
Lemma vsub_nth n v u r : (r < n)%nat -> nth r (vsub n v u) 0 = nth r v 0 - nth r u 0.
Proof.
  intros L. unfold vsub. rewrite (nth_indep _ 0 (nth 0 v 0 - nth 0 u 0)) by (rewrite map_length, seq_length; exact L).
  rewrite (map_nth (fun r => nth r v 0 - nth r u 0) (seq 0 n) 0%nat r), List.seq_nth by exact L. reflexivity.
Qed.
Lemma bil_vsub P n v u : (forall r x w, In (r, x, w) P -> (r < n /\ x < n)%nat) ->
  quadratic P (vsub n v u) == bil P v v - bil P v u - bil P u v + bil P u u.
Proof.
  unfold quadratic, bil. induction P as [|[[i c] w] P IH]; intros H; [reflexivity|]. cbn [map qsum].
  rewrite IH by (intros; eapply H; right; eauto). destruct (H i c w (or_introl eq_refl)) as [Li Lc]. rewrite !vsub_nth by assumption. ring.
Qed.
Lemma product_vsub P n v u r : (forall r x w, In (r, x, w) P -> (x < n)%nat) -> product P (vsub n v u) r == product P v r - product P u r.
Proof.
  unfold product. induction P as [|[[i c] w] P IH]; intros H; [reflexivity|]. cbn [map qsum].
  rewrite IH by (intros; eapply H; right; eauto). rewrite vsub_nth by (apply (H i c w); left; auto). destruct (Nat.eqb i r); ring.
Qed.
Lemma qsum_scale {A} (f : A -> Q) t l : qsum (map (fun x => t * f x) l) == t * qsum (map f l).
Proof. induction l as [|a l IH]; simpl; [ring|]. rewrite IH. ring. Qed.
Lemma qsum_le {A} (f f' : A -> Q) l : (forall x, In x l -> f x <= f' x) -> qsum (map f l) <= qsum (map f' l).
Proof.
  induction l as [|a l IH]; intros H; simpl; [lra|]. assert (f a <= f' a) by (apply H; left; auto).
  assert (qsum (map f l) <= qsum (map f' l)) by (apply IH; intros; apply H; right; auto). lra.
Qed.
Lemma qsum_seq (l : list Q) : qsum (map (fun r => nth r l 0) (seq 0 (length l))) == qsum l.
Proof.
  induction l as [|a l IH]; [reflexivity|]. cbn [length seq map qsum nth]. rewrite <- seq_shift, map_map. cbn [nth]. rewrite IH. reflexivity.
Qed.
(** sums over the rows of lid bounds *)
Lemma qsum_lid (f : nat -> Q) n : qsum (map (fun r => f r * (if Nat.eqb (Nat.modulo r 3) 2 then 1 else 0)) (seq 0 (3 * n))) ==
  qsum (map (fun k => f (3 * k + 2)%nat) (seq 0 n)).
Proof.
  induction n as [|n IH]; [reflexivity|]. replace (3 * S n)%nat with (3 * n + 3)%nat by lia. rewrite seq_app, map_app, qsum_app, IH.
  rewrite (seq_S n 0), map_app, qsum_app. change (0 + 3 * n)%nat with (3 * n)%nat. change (0 + n)%nat with n.
  assert (M : forall q, (q < 3)%nat -> ((3 * n + q) mod 3 = q)%nat).
  { intros q L. rewrite Nat.add_comm, Nat.mul_comm, Nat.mod_add by lia. apply Nat.mod_small, L. }
  assert (E : seq (3 * n) 3 = [3 * n + 0; 3 * n + 1; 3 * n + 2]%nat) by (rewrite Nat.add_0_r, Nat.add_1_r, (Nat.add_succ_r _ 1), Nat.add_1_r; reflexivity).
  rewrite E. cbn [map qsum]. rewrite (M 0%nat), (M 1%nat), (M 2%nat) by lia. cbn [Nat.eqb]. ring.
Qed.

Section Energy.
  Variable lsolve : ncoo -> list num -> list num.
  Variable m : qmat.
  Variable g : mesh_df.
  Variable p : solve_params.
  Variable S : sysdata.
  Variable h : list state.
  Hypothesis HS : solve lsolve m g p = Ok (S, h).
  Hypothesis noflag : ~ flag_set (g_attrs g).
  Hypothesis tols : tolerances_ok p.
  Variable K : ncoo.
  Variable cs : csys.
  Hypothesis HK : stiffness m g (sp_lmin p) (sp_lmax p) (sp_coupling p) = Ok K.
  Hypothesis Hcs : constraint m g = Ok cs.
  Hypothesis E0 : sp_errtol p == 0.
  Hypothesis HL : lengths_ok g (sp_lmin p) (sp_lmax p).
  Hypothesis HM : finite_moduli m.
  Let nu := (2 * length (g_rows g))%nat.
  Let nc := length (csH cs).

  Lemma sysE0 : sy_errtol S == 0.
  Proof. destruct (solve_inv _ _ _ _ _ _ HS) as (? & ? & _ & _ & ES & _). cbv zeta in ES. rewrite ES. exact E0. Qed.
  Lemma reliable_any s s' : reliable lsolve m g p S s -> reliable lsolve m g p S s'.
  Proof.
    intros (RL & T). split; auto. destruct T as [T|(T & P & L & F & _)]; [left; auto|right]. split; auto.
    split; [exact P|split; [exact L|split; [exact F|left; exact sysE0]]].
  Qed.
  Lemma K_swap : Permutation (map swap K) K.
  Proof. rewrite (K_parts m g _ _ _ K HK noflag). apply swap_flat. intros e _. apply block_swap. Qed.
  Lemma K_range r x v : In (r, x, v) K -> (r < nu /\ x < nu)%nat.
  Proof.
    intros H. destruct (stiff_local m g _ _ _ K HK noflag r x v H) as (d & e & Hd & He & _).
    apply SolverSysP.node_lt in Hd. apply SolverSysP.node_lt in He. unfold nu.
    pose proof (Nat.div_mod r 2 ltac:(lia)). pose proof (Nat.mod_upper_bound r 2 ltac:(lia)).
    pose proof (Nat.div_mod x 2 ltac:(lia)). pose proof (Nat.mod_upper_bound x 2 ltac:(lia)). lia.
  Qed.
  Lemma C_range r x v : In (r, x, v) (csC cs) -> (r < nc /\ x < nu)%nat.
  Proof.
    intros H. unfold nc. rewrite (csH_len m g cs Hcs). rewrite (csC_eq m g cs Hcs) in H.
    destruct (c_matrix_in _ _ _ _ H) as (k & i & j & Hk & D).
    assert (L : (k < length (cons_pairs (g_rows g)))%nat) by (apply nth_error_Some; congruence).
    destruct (pair_inv m g cs Hcs noflag k i j Hk) as (d & e & Hd & He & _).
    apply SolverSysP.node_lt in Hd. apply SolverSysP.node_lt in He. unfold nu. lia.
  Qed.
  Lemma f_length s : In s h -> length (vals (st_f S s)) = nc.
  Proof. intros Hs. unfold vals. rewrite map_length. apply (fin_lengths lsolve m g p S h HS cs Hcs s Hs). Qed.

  (** equilibrium as a form: the work of internal forces is that of contacts *)
  Lemma virtual s : In s h -> reliable lsolve m g p S s -> forall v, bil K v (vals (st_u S s)) == - bil (csC cs) (vals (st_f S s)) v.
  Proof.
    intros Hs R v. rewrite (bil_rows K v (vals (st_u S s)) nu) by (intros r x w Hi; apply (K_range r x w Hi)).
    rewrite (bil_cols (csC cs) (vals (st_f S s)) v nu) by (intros r x w Hi; apply (C_range r x w Hi)).
    rewrite (qsum_ext (fun r => nth r v 0 * product K (vals (st_u S s)) r)
      (fun r => (-1) * (nth r v 0 * transpose_product (csC cs) (vals (st_f S s)) r))).
    - rewrite qsum_scale. ring.
    - intros r Hr. apply in_seq in Hr.
      assert (SL : errors_below_tol S s) by (left; exact sysE0).
      pose proof (fin_equilibrium lsolve m g p S h HS noflag tols K cs s HK Hcs Hs R SL HL HM r ltac:(unfold nu in *; lia)) as [B1 B2].
      assert (Z : sp_errtol p * travel S s == 0) by (rewrite E0; ring). rewrite Z in B1, B2.
      assert (B : product K (vals (st_u S s)) r == - transpose_product (csC cs) (vals (st_f S s)) r) by lra. rewrite B. ring.
  Qed.
  Lemma contact_rows s v : In s h -> bil (csC cs) (vals (st_f S s)) v == contact_work (csC cs) (vals (st_f S s)) v.
  Proof.
    intros Hs. unfold contact_work. rewrite (f_length s Hs). apply bil_rows. intros r x w Hi. apply (C_range r x w Hi).
  Qed.
  Lemma energy_contacts s : In s h -> reliable lsolve m g p S s ->
    quadratic K (vals (st_u S s)) == - contact_work (csC cs) (vals (st_f S s)) (vals (st_u S s)).
  Proof. intros Hs R. rewrite <- contact_rows by auto. rewrite <- (virtual s Hs R). reflexivity. Qed.

  (** the bound of row [r] goes down with the lid when it is a lid row *)
  Lemma dH_row r d : nth_error (csdH cs) r = Some (Fin d) -> d == (if Nat.eqb (Nat.modulo r 3) 2 then 1 else 0).
  Proof.
    rewrite (csdH_eq m g cs Hcs). destruct (split3 r) as (k & q & Lq & ->). rewrite flat3_nth by (auto; lia).
    destruct (nth_error _ k); [|discriminate]. rewrite Nat.add_comm, Nat.mul_comm, Nat.mod_add by lia.
    destruct q as [|[|[|q]]]; [| | |lia]; cbn [nth_error]; intros E; injection E as <-; reflexivity.
  Qed.
  Lemma travel_Z s : travel S s == csZ cs - qof (st_Z s).
  Proof.
    unfold travel. destruct (solve_inv _ _ _ _ _ _ HS) as (? & cs2 & _ & Hcs2 & ES & _). cbv zeta in ES.
    assert (cs2 = cs) by congruence. subst cs2. rewrite ES. reflexivity.
  Qed.
  Lemma gap_bound s r q : In s h -> reliable lsolve m g p S s -> gap_is (csC cs) (st_H S s) (vals (st_u S s)) r q ->
    exists b, nth_error (csH cs) r = Some (Fin b) /\
      product (csC cs) (vals (st_u S s)) r == b - (if Nat.eqb (Nat.modulo r 3) 2 then 1 else 0) * (csZ cs - qof (st_Z s)) - q.
  Proof.
    intros Hs R (b' & Hb' & Eb').
    assert (L : (r < nc)%nat).
    { destruct (fin_lengths lsolve m g p S h HS cs Hcs s Hs) as (_ & _ & _ & LH). unfold nc. rewrite <- LH. apply nth_error_Some. congruence. }
    destruct (nth_error (csH cs) r) as [b|] eqn:Hb; [|apply nth_error_None in Hb; unfold nc in L; lia].
    destruct (H_kind m g cs r Hcs b Hb) as [->|(x & ->)].
    - pose proof (fin_unbounded lsolve m g p S h HS noflag tols cs s r Hcs Hs R Hb). congruence.
    - exists x. split; auto. destruct (fin_bounds lsolve m g p S h HS noflag tols cs s r x Hcs Hs R Hb) as (d & y & Hd & Hy & Ey).
      assert (y = b') by congruence. subst y. rewrite (dH_row r d Hd), travel_Z in Ey. lra.
  Qed.

  (** one step *)
  Lemma energy_step k s s' : nth_error h k = Some s -> nth_error h (Datatypes.S k) = Some s' -> reliable lsolve m g p S s' ->
    quadratic K (vals (st_u S s')) - quadratic K (vals (st_u S s)) ==
    (lid_force (vals (st_f S s)) (length (cons_pairs (g_rows g))) + lid_force (vals (st_f S s')) (length (cons_pairs (g_rows g)))) *
    (qof (st_Z s) - qof (st_Z s')).
  Proof.
    intros Hk Hk' R'. pose proof (reliable_any s' s R') as R. pose proof (nth_error_In _ _ Hk) as Hs. pose proof (nth_error_In _ _ Hk') as Hs'.
    pose proof (virtual s Hs R (vals (st_u S s))) as V1. pose proof (virtual s Hs R (vals (st_u S s'))) as V2.
    pose proof (virtual s' Hs' R' (vals (st_u S s))) as V3. pose proof (virtual s' Hs' R' (vals (st_u S s'))) as V4.
    pose proof (bil_sym K (vals (st_u S s)) (vals (st_u S s')) K_swap) as SY.
    rewrite !contact_rows in V1, V2, V3, V4 by auto. rewrite bil_quad in V1, V4.
    assert (W : contact_work (csC cs) (vals (st_f S s)) (vals (st_u S s')) - contact_work (csC cs) (vals (st_f S s)) (vals (st_u S s)) +
                (contact_work (csC cs) (vals (st_f S s')) (vals (st_u S s')) - contact_work (csC cs) (vals (st_f S s')) (vals (st_u S s))) ==
      - ((lid_force (vals (st_f S s)) (length (cons_pairs (g_rows g))) + lid_force (vals (st_f S s')) (length (cons_pairs (g_rows g)))) *
         (qof (st_Z s) - qof (st_Z s')))).
    { assert (D : forall r, (~ nth r (vals (st_f S s)) 0 == 0 \/ ~ nth r (vals (st_f S s')) 0 == 0) ->
          product (csC cs) (vals (st_u S s')) r - product (csC cs) (vals (st_u S s)) r ==
          - ((if Nat.eqb (Nat.modulo r 3) 2 then 1 else 0) * (qof (st_Z s) - qof (st_Z s')))).
      { intros r N. assert (G : exists q, gap_is (csC cs) (st_H S s) (vals (st_u S s)) r q /\ q <= sp_tol p).
        { destruct N as [N|N].
          - apply (fin_force lsolve m g p S h HS noflag tols cs s Hcs Hs R E0 r N).
          - apply (fin_step_force lsolve m g p S h HS noflag tols cs k s s' Hcs Hk Hk' R' E0 r N). }
        destruct G as (q & G & Lq).
        pose proof (fin_contact lsolve m g p S h HS noflag tols cs k s s' Hcs Hk Hk' R' E0 r q G Lq) as G'.
        destruct (gap_bound s r q Hs R G) as (b & Hb & P1). destruct (gap_bound s' r q Hs' R' G') as (b' & Hb' & P2).
        assert (b' = b) by congruence. subst b'. rewrite P1, P2. ring. }
      assert (Z : forall f, (forall r, nth r f 0 == 0 \/ product (csC cs) (vals (st_u S s')) r - product (csC cs) (vals (st_u S s)) r ==
          - ((if Nat.eqb (Nat.modulo r 3) 2 then 1 else 0) * (qof (st_Z s) - qof (st_Z s')))) -> length f = nc ->
          contact_work (csC cs) f (vals (st_u S s')) - contact_work (csC cs) f (vals (st_u S s)) ==
          - (lid_force f (length (cons_pairs (g_rows g))) * (qof (st_Z s) - qof (st_Z s')))).
      { intros f N EL. unfold contact_work. rewrite EL.
        transitivity (qsum (map (fun r => - (qof (st_Z s) - qof (st_Z s')) * (nth r f 0 * (if Nat.eqb (Nat.modulo r 3) 2 then 1 else 0))) (seq 0 nc))).
        - rewrite <- (Qplus_0_l (qsum (map (fun r => - (qof (st_Z s) - qof (st_Z s')) * (nth r f 0 * (if Nat.eqb (r mod 3) 2 then 1 else 0))) (seq 0 nc)))).
          assert (Q : qsum (map (fun r => nth r f 0 * product (csC cs) (vals (st_u S s')) r) (seq 0 nc)) ==
            qsum (map (fun r => - (qof (st_Z s) - qof (st_Z s')) * (nth r f 0 * (if Nat.eqb (r mod 3) 2 then 1 else 0)) + nth r f 0 * product (csC cs) (vals (st_u S s)) r) (seq 0 nc))).
          { apply qsum_ext. intros r _. destruct (N r) as [N0|N1].
            - rewrite N0. ring.
            - assert (N2 : product (csC cs) (vals (st_u S s')) r == product (csC cs) (vals (st_u S s)) r - (if Nat.eqb (r mod 3) 2 then 1 else 0) * (qof (st_Z s) - qof (st_Z s'))) by lra.
              rewrite N2. ring. }
          rewrite Q, qsum_plus. ring.
        - rewrite (qsum_scale (fun r => nth r f 0 * (if Nat.eqb (Nat.modulo r 3) 2 then 1 else 0))).
          unfold nc. rewrite (csH_len m g cs Hcs), (qsum_lid (fun r => nth r f 0)). unfold lid_force. ring. }
      rewrite (Z (vals (st_f S s))), (Z (vals (st_f S s'))); [ring| | | |]; try (apply f_length; assumption).
      - intros r. destruct (Qeq_dec (nth r (vals (st_f S s')) 0) 0) as [E|E]; [left; exact E|right; apply D; right; exact E].
      - intros r. destruct (Qeq_dec (nth r (vals (st_f S s)) 0) 0) as [E|E]; [left; exact E|right; apply D; left; exact E]. }
    lra.
  Qed.
  (** a state is not the first: the first has no displacement *)
  Lemma energy_first s : nth_error h 0 = Some s -> quadratic K (vals (st_u S s)) == 0.
  Proof.
    intros Hs. destruct (fin_history lsolve m g p S h HS) as (_ & (s0 & Hs0 & U & _) & _).
    assert (s0 = s) by congruence. subst s0. unfold quadratic. apply qsum_zeros. intros x Hx. apply in_map_iff in Hx.
    destruct Hx as ([[i c] v] & <- & _). assert (Z : forall i, nth i (vals (st_u S s)) 0 == 0); [|rewrite Z; ring].
    intros j. destruct (nth_in_or_default j (vals (st_u S s)) 0) as [I|E]; [|rewrite E; reflexivity].
    apply in_map_iff in I. destruct I as (w & Ew & Hw). rewrite <- Ew, (U w Hw). reflexivity.
  Qed.
  Lemma lid_work_snoc n (l : list state) s s' : nth_error l (pred (length l)) = Some s ->
    lid_work S n (l ++ [s']) == lid_work S n l +
      (lid_force (vals (st_f S s)) n + lid_force (vals (st_f S s')) n) / 2 * (qof (st_Z s) - qof (st_Z s')).
  Proof.
    induction l as [|a l IH]; intros H; [destruct (pred (length (@nil state))); discriminate H|].
    destruct l as [|b l]; [cbn [length pred nth_error] in H; injection H as ->; cbn [app lid_work]; ring|].
    specialize (IH H). cbn [app] in IH |- *. cbn [lid_work] in IH |- *. rewrite IH. ring.
  Qed.
  Lemma energy_work k s n : length (csH cs) = (3 * n)%nat -> nth_error h k = Some s -> reliable lsolve m g p S s ->
    stored K (vals (st_u S s)) == lid_work S n (firstn (Datatypes.S k) h).
  Proof.
    intros En Hk R. assert (n = length (cons_pairs (g_rows g))) by (rewrite (csH_len m g cs Hcs) in En; lia). subst n.
    revert s Hk R. induction k as [|k IH]; intros s Hk R.
    - unfold stored. rewrite (energy_first s Hk). destruct h as [|a l]; [discriminate Hk|]. cbn [firstn lid_work]. reflexivity.
    - assert (X : exists a, nth_error h k = Some a).
      { destruct (nth_error h k) eqn:E; eauto. apply nth_error_None in E. assert (Datatypes.S k < length h)%nat by (apply nth_error_Some; congruence). lia. }
      destruct X as (a & Ha). specialize (IH a Ha (reliable_any s a R)).
      assert (EF : firstn (Datatypes.S (Datatypes.S k)) h = firstn (Datatypes.S k) h ++ [s]).
      { clear - Hk. revert Hk. generalize (Datatypes.S k) as j. intros j. revert h. induction j as [|j IH]; intros [|b l] H; try discriminate H.
        - cbn in H. injection H as ->. reflexivity.
        - cbn [nth_error] in H. cbn [firstn] in IH |- *. rewrite (IH l H). reflexivity. }
      rewrite EF, (lid_work_snoc _ _ a), <- IH.
      + unfold stored. pose proof (energy_step k a s Ha Hk R) as ST.
        set (x := quadratic K (vals (st_u S s))) in *. set (y := quadratic K (vals (st_u S a))) in *.
        assert (Ex : x == y + (x - y)) by ring. rewrite Ex, ST. field.
      + assert (LK : (Datatypes.S k < length h)%nat) by (apply nth_error_Some; congruence).
        rewrite firstn_length, Nat.min_l by lia. cbn [pred]. rewrite <- Ha. clear - LK. revert k LK. induction h as [|b l IH]; intros k L; [cbn in L; lia|].
        destruct k as [|k]; [reflexivity|]. cbn [firstn nth_error] in IH |- *. apply IH. cbn in L. lia.
  Qed.

  (** ** minimum *)
  Hypothesis HC : sp_coupling p * sp_coupling p <= 1.
  Lemma force_gap s r : In s h -> reliable lsolve m g p S s -> pushes (vals (st_f S s)) -> forall v, satisfies (csC cs) (st_H S s) v ->
    nth r (vals (st_f S s)) 0 * (product (csC cs) v r - product (csC cs) (vals (st_u S s)) r) <= sp_tol p * nth r (vals (st_f S s)) 0.
  Proof.
    intros Hs R PU v SV. destruct (Qeq_dec (nth r (vals (st_f S s)) 0) 0) as [E|E]; [rewrite E; lra|].
    destruct (fin_force lsolve m g p S h HS noflag tols cs s Hcs Hs R E0 r E) as (q & (b & Hb & Eb) & Lq).
    specialize (SV r _ Hb). apply nleb_fin in SV. pose proof (PU r) as P0.
    rewrite (Qmult_comm (sp_tol p)). apply Qmult_le_l; lra.
  Qed.
  Lemma minimum_gap s : In s h -> reliable lsolve m g p S s -> pushes (vals (st_f S s)) -> forall v, satisfies (csC cs) (st_H S s) v ->
    quadratic K (vals (st_u S s)) + quadratic K (vsub nu v (vals (st_u S s))) <= quadratic K v + 2 * (sp_tol p * qsum (vals (st_f S s))).
  Proof.
    intros Hs R PU v SV. set (u := vals (st_u S s)) in *.
    rewrite (bil_vsub K nu v u K_range).
    pose proof (bil_sym K v u K_swap) as SY. pose proof (virtual s Hs R v) as V1. pose proof (virtual s Hs R u) as V2.
    fold u in V1, V2. rewrite !contact_rows in V1, V2 by auto. rewrite <- (bil_quad K u), <- (bil_quad K v).
    assert (W : contact_work (csC cs) (vals (st_f S s)) v - contact_work (csC cs) (vals (st_f S s)) u <= sp_tol p * qsum (vals (st_f S s))).
    { unfold contact_work. rewrite <- (qsum_seq (vals (st_f S s))), <- qsum_scale.
      assert (L : qsum (map (fun r => nth r (vals (st_f S s)) 0 * product (csC cs) v r) (seq 0 (length (vals (st_f S s))))) <=
        qsum (map (fun r => sp_tol p * nth r (vals (st_f S s)) 0 + nth r (vals (st_f S s)) 0 * product (csC cs) u r) (seq 0 (length (vals (st_f S s)))))).
      { apply qsum_le. intros r _. pose proof (force_gap s r Hs R PU v SV). fold u in H. lra. }
      rewrite qsum_plus in L. lra. }
    lra.
  Qed.
  Lemma minimum s : In s h -> reliable lsolve m g p S s -> pushes (vals (st_f S s)) -> forall z v, st_Z s = Fin z ->
    in_slab m g z v -> no_overlap m g v -> stored K (vals (st_u S s)) <= stored K v + sp_tol p * qsum (vals (st_f S s)).
  Proof.
    intros Hs R PU z v Ez I1 I2.
    pose proof (minimum_gap s Hs R PU v (proj2 (fin_region lsolve m g p S h HS noflag tols cs s z Hcs Hs R Ez v) (conj I1 I2))) as B.
    pose proof (stiff_psd m g _ _ _ K HK noflag HL HM (vsub nu v (vals (st_u S s))) HC). unfold stored. qlra.
  Qed.
  Lemma minimum_unique s : In s h -> reliable lsolve m g p S s -> pushes (vals (st_f S s)) -> sp_tol p == 0 ->
    sp_coupling p * sp_coupling p < 1 -> forall z v, st_Z s = Fin z ->
    in_slab m g z v -> no_overlap m g v -> stored K v <= stored K (vals (st_u S s)) -> differ_by_translations g (vals (st_u S s)) v.
  Proof.
    intros Hs R PU T0 HC' z v Ez I1 I2 LE. set (u := vals (st_u S s)) in *.
    pose proof (minimum_gap s Hs R PU v (proj2 (fin_region lsolve m g p S h HS noflag tols cs s z Hcs Hs R Ez v) (conj I1 I2))) as B. fold u in B.
    pose proof (stiff_psd m g _ _ _ K HK noflag HL HM (vsub nu v u) HC) as P0. rewrite T0 in B. unfold stored in LE.
    assert (Z : quadratic K (vsub nu v u) == 0) by qlra.
    assert (KZ : forall r, product K (vsub nu v u) r == 0).
    { intros r. apply (stiff_product m g _ _ _ K HK noflag HL HM). intros e He.
      exact (zero_energy m g _ _ _ K HK noflag HL HM (vsub nu v u) e HC Z He). }
    pose proof (kernel_translates m g _ _ _ K HK noflag HL HM (vsub nu v u) HC' KZ) as TR.
    intros i j d e Hd He Ef N. destruct (TR i j d e Hd He Ef N) as (R1 & R2 & U).
    apply SolverSysP.node_lt in Hd. apply SolverSysP.node_lt in He. unfold rot, disp in *. unfold nu in *.
    rewrite vsub_nth in R1, R2, U by lia. rewrite vsub_nth in U by lia. split; lra.
  Qed.
  (** later states are admissible for the bounds of earlier ones *)
  Lemma lid_down k : forall j s s', nth_error h k = Some s -> nth_error h (k + j) = Some s' -> reliable lsolve m g p S s' -> qof (st_Z s') <= qof (st_Z s).
  Proof.
    induction j as [|j IH]; intros s s' Hs Hs' R.
    - rewrite Nat.add_0_r in Hs'. assert (s' = s) by congruence. subst. lra.
    - rewrite Nat.add_succ_r in Hs'. assert (X : exists a, nth_error h (k + j) = Some a).
      { destruct (nth_error h (k + j)) eqn:E; eauto. apply nth_error_None in E. assert (Datatypes.S (k + j) < length h)%nat by (apply nth_error_Some; congruence). lia. }
      destruct X as (a & Ha). pose proof (IH s a Hs Ha (reliable_any s' a R)).
      destruct (fin_down lsolve m g p S h HS noflag tols (k + j) a s' Ha Hs' R) as (z0 & z & z' & _ & Ez & Ez' & L & _).
      rewrite Ez, Ez' in *. cbn [qof] in *. lra.
  Qed.
  Lemma energy_grows k j s s' : admissible_start m g -> nth_error h k = Some s -> nth_error h (k + j) = Some s' -> reliable lsolve m g p S s' ->
    pushes (vals (st_f S s)) -> stored K (vals (st_u S s)) <= stored K (vals (st_u S s')) + sp_tol p * qsum (vals (st_f S s)).
  Proof.
    intros HA Hs Hs' R' PU. pose proof (reliable_any s' s R') as R. pose proof (nth_error_In _ _ Hs) as I. pose proof (nth_error_In _ _ Hs') as I'.
    destruct (fin_admissible lsolve m g p S h HS noflag tols s' I' R' HA E0) as (z' & Ez' & A1 & A2).
    destruct (fin_finite lsolve m g p S h HS noflag tols s I R) as (_ & _ & z & Ez).
    pose proof (lid_down k j s s' Hs Hs' R') as L. rewrite Ez, Ez' in L. cbn [qof] in L.
    apply (minimum s I R PU z (vals (st_u S s')) Ez); auto.
    intros i d hh Hd Hh. destruct (A1 i d hh Hd Hh). split; lra.
  Qed.
End Energy.
