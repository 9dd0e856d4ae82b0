(** Property theorems for Stack (C16 - C22, C71). *)
From Coq Require Import String.
From Verif Require Import Num NumP ListX Frames MatM NetM StackM Spec SpecNet SpecStack
  CheckP NetP NetGeoP NetZP StackP StackForceP StackNewP PropsNet.
Open Scope Q_scope.

(** ** C16: the stacking program encodes non-penetration *)
Theorem C16_total : forall m t, valid m -> net_ok t -> labels_fit m t ->
  exists p, stack_constraint m t = Ok p.
Proof. exact constraint_total. Qed.
Theorem C16_feasible : forall m t p, stack_constraint m t = Ok p -> ~ flag_set (n_attrs t) ->
  forall z, lp_feasible p z <-> admissible m t z.
Proof. exact feasible_iff. Qed.
Theorem C16_weights : forall m t p, stack_constraint m t = Ok p ->
  length (lpf p) = length (q_rows m) /\
  forall i, (i < length (q_rows m))%nat -> 0 < nth i (lpf p) 0.
Proof. exact weights. Qed.

(** ** C17: unique optimum, computed by one upward sweep *)
Theorem C17_optimum_exists : forall m t p, stack_constraint m t = Ok p -> ~ flag_set (n_attrs t) ->
  exists z, lp_optimal p z /\ supported m t z.
Proof. exact optimum_exists. Qed.
Theorem C17_optimum_unique : forall m t p, stack_constraint m t = Ok p -> ~ flag_set (n_attrs t) ->
  forall z z', lp_optimal p z -> lp_optimal p z' -> same_heights z z'.
Proof. exact optimum_unique. Qed.
Theorem C17_sweep_optimal : forall m t p, stack_constraint m t = Ok p -> ~ flag_set (n_attrs t) ->
  rows_by_A t -> lp_optimal p (sweep m t).
Proof. exact sweep_optimal. Qed.
Theorem C17_networks_by_A : forall m per pairs t, net_new m per pairs = Ok t ->
  valid m /\ net_ok t /\ labels_fit m t /\ ~ flag_set (n_attrs t) /\ rows_by_A t.
Proof.
  exact (fun m per pairs t H => match new_facts m per pairs t H with
    conj a (conj b (conj c (conj d _))) => conj a (conj b (conj c (conj d (new_by_A m per pairs t H)))) end).
Qed.

(** ** C18: a stack is physically admissible and supported *)
Theorem C18_total : forall linprog m t thr, valid m -> net_ok t -> labels_fit m t ->
  ~ flag_set (n_attrs t) -> solved linprog m t ->
  exists st m', stack_new linprog m t thr = Ok (st, m').
Proof. exact stack_total. Qed.
Theorem C18_heights : forall linprog m per t, net_new m per None = Ok t -> solved linprog m t ->
  forall thr st m', stack_new linprog m t thr = Ok (st, m') ->
  same_but_heights m m' /\ admissible m t (heights m') /\ supported m t (heights m').
Proof. exact built_heights. Qed.
Theorem C18_rows : forall linprog m per t, net_new m per None = Ok t -> solved linprog m t ->
  all_in_plane m -> forall thr st m', stack_new linprog m t thr = Ok (st, m') ->
  forall k c f g, is_row st k c -> (cA c < cB c)%Z -> has_fiber m' (cA c) f -> has_fiber m' (cB c) g ->
    czA c == qz f /\ czB c == qz g /\ connected t (cA c) (cB c) /\ (qh f + qh g) / 2 <= czB c - czA c.
Proof. exact built_rows. Qed.

(** ** C19: the threshold *)
Theorem C19_threshold : forall linprog m t d full m1 st m2, net_ok t -> ~ flag_set (n_attrs t) ->
  stack_new linprog m t None = Ok (full, m1) -> stack_new linprog m t (Some d) = Ok (st, m2) ->
  m1 = m2 /\ exists phi,
    (forall k k', (k < k')%nat -> (k' < length (n_rows st))%nat -> (phi k < phi k')%nat) /\
    (forall k c, is_row st k c -> is_row full (phi k) c /\ close_enough d c) /\
    (forall k c, is_row full k c -> close_enough d c -> exists k', phi k' = k /\ is_row st k' c).
Proof. exact threshold_rows. Qed.

(** ** C20: stacking twice changes nothing *)
Theorem C20_idempotent : forall linprog m per t, net_new m per None = Ok t -> solved linprog m t ->
  all_in_plane m -> forall thr st m' t', stack_new linprog m t thr = Ok (st, m') ->
  (t' = t \/ net_new m' per None = Ok t') -> stack_new linprog m' t' thr = Ok (st, m').
Proof. exact restack. Qed.
(** ... also from the stack itself when there is no threshold *)
Theorem C20_idempotent_stack : forall linprog m per t, net_new m per None = Ok t -> solved linprog m t ->
  all_in_plane m -> forall st m', stack_new linprog m t None = Ok (st, m') ->
  stack_new linprog m' st None = Ok (st, m').
Proof. exact restack_self. Qed.

(** ** C21: height bounds *)
Theorem C21_top : forall m t z i f, valid m -> supported m t z -> has_fiber m i f ->
  height z i + qh f / 2 <= thickness_below m i.
Proof. exact top_bound. Qed.
Theorem C21_uniform : forall m t z h, supported m t z -> (forall f, In f (q_rows m) -> qh f == h) ->
  forall i f, has_fiber m i f -> exists k : nat, height z i == h / 2 + inject_Z (Z.of_nat k) * h.
Proof. exact uniform_levels. Qed.

(** ** C22: a stack without threshold has the connections of the network *)
Theorem C22_same_rows : forall linprog m per t, net_new m per None = Ok t -> solved linprog m t ->
  all_in_plane m -> forall st m', stack_new linprog m t None = Ok (st, m') ->
  length (n_rows st) = length (n_rows t) /\
  forall k c d, is_row t k c -> is_row st k d -> same_from_above c d.
Proof. exact built_same. Qed.

(** cases: the three fibers of [ex_mats], fiber 2 above 0 and 1.  [ex_greedy] reads the pairs off
    the constraint matrix and performs the sweep. *)
Definition ex_greedy (p : lp) : list Q :=
  let n := length (lpH p) in
  let i := map (fun e => snd (fst e)) (firstn n (lpC p)) in
  let j := map (fun e => snd (fst e)) (skipn n (lpC p)) in
  fold_left (fun z e => put (snd e) (Qmax (nth (snd e) z 0)
                 (nth (fst e) z 0 + (nth (fst e) (lph p) 0 + nth (snd e) (lph p) 0) / 2)) z)
    (combine i j) (map (fun h => h / 2) (lph p)).
Definition ex_heights_of (r : res (net_df * qmat)) : list Q :=
  match r with Ok (_, m) => map Qred (heights m) | Exn _ => [] end.
Definition ex_rows_of (r : res (net_df * qmat)) : list (Z * Z) :=
  match r with Ok (st, _) => labels_of (Ok st) | Exn _ => [] end.
Definition ex_stack (pairs : option (list (Z * Z))) (thr : option Q) : res (net_df * qmat) :=
  do t <- net_new (ex_mats 2) true pairs; stack_new ex_greedy (ex_mats 2) t thr.
Example ex_stack_heights : ex_heights_of (ex_stack None None) = [1 # 2; 1 # 2; 3 # 2].
Proof. vm_compute. reflexivity. Qed.
Example ex_stack_rows : ex_rows_of (ex_stack None None) = [(0, 0); (0, 2); (1, 1); (1, 2); (2, 2)]%Z.
Proof. vm_compute. reflexivity. Qed.
Example ex_stack_threshold : ex_rows_of (ex_stack None (Some (1 # 2))) = [(0, 0); (1, 1); (2, 2)]%Z.
Proof. vm_compute. reflexivity. Qed.
Definition ex_t (pairs : option (list (Z * Z))) : net_df :=
  match net_new (ex_mats 2) true pairs with Ok t => t | Exn _ => mkNetDf [] [] (mkAttrs None None None None) true end.
Definition ex_st (pairs : option (list (Z * Z))) (thr : option Q) : net_df * qmat :=
  match stack_new ex_greedy (ex_mats 2) (ex_t pairs) thr with Ok r => r | Exn _ => (ex_t pairs, ex_mats 2) end.
Lemma ex_t_all : net_new (ex_mats 2) true None = Ok (ex_t None).
Proof. vm_compute. reflexivity. Qed.
Lemma ex_t_none : net_new (ex_mats 2) true (Some []) = Ok (ex_t (Some [])).
Proof. vm_compute. reflexivity. Qed.
Lemma greedy_solved m t : net_ok t -> ~ flag_set (n_attrs t) -> rows_by_A t ->
  match stack_constraint m t with Ok p => ex_greedy p = sweep m t | Exn _ => True end ->
  solved ex_greedy m t.
Proof.
  intros _ Hf Hb H p Hp. rewrite Hp in H. rewrite H. apply C17_sweep_optimal; auto.
Qed.
Example ex_solved : solved ex_greedy (ex_mats 2) (ex_t None).
Proof.
  destruct (C17_networks_by_A _ _ _ _ ex_t_all) as (_ & Hok & _ & Hf & Hb).
  apply greedy_solved; auto. vm_compute. reflexivity.
Qed.
Example ex_solved_none : solved ex_greedy (ex_mats 2) (ex_t (Some [])).
Proof.
  destruct (C17_networks_by_A _ _ _ _ ex_t_none) as (_ & Hok & _ & Hf & Hb).
  apply greedy_solved; auto. vm_compute. reflexivity.
Qed.
Example ex_stack_ok : stack_new ex_greedy (ex_mats 2) (ex_t None) (Some (1 # 2))
  = Ok (ex_st None (Some (1 # 2))).
Proof. vm_compute. reflexivity. Qed.
Example ex_supported : supported (ex_mats 2) (ex_t None) (heights (snd (ex_st None (Some (1 # 2))))).
Proof.
  apply (C18_heights ex_greedy (ex_mats 2) true (ex_t None) ex_t_all ex_solved (Some (1 # 2))
           (fst (ex_st None (Some (1 # 2)))) (snd (ex_st None (Some (1 # 2))))).
  rewrite <- surjective_pairing. exact ex_stack_ok.
Qed.

(** C22 and the non-penetration part of C18 fail for a network built with a [pairs] argument: Stack
    honours its (absent) connections when computing heights but rebuilds the full network. *)
Lemma ex_stack_none : stack_new ex_greedy (ex_mats 2) (ex_t (Some [])) None
  = Ok (fst (ex_st (Some []) None), snd (ex_st (Some []) None)).
Proof. vm_compute. reflexivity. Qed.
Theorem C22_pairs_refuted :
  ~ (forall linprog m per pairs t st m', net_new m per pairs = Ok t -> solved linprog m t ->
     all_in_plane m -> stack_new linprog m t None = Ok (st, m') ->
     length (n_rows st) = length (n_rows t)).
Proof.
  intros H. pose proof (H _ _ _ _ _ _ _ ex_t_none ex_solved_none ex_in_plane ex_stack_none) as E.
  vm_compute in E. discriminate E.
Qed.
Theorem C18_pairs_refuted :
  ~ (forall linprog m per pairs t st m', net_new m per pairs = Ok t -> solved linprog m t ->
     all_in_plane m -> stack_new linprog m t None = Ok (st, m') ->
     forall k c f g, is_row st k c -> (cA c < cB c)%Z ->
       has_fiber m' (cA c) f -> has_fiber m' (cB c) g -> (qh f + qh g) / 2 <= czB c - czA c).
Proof.
  intros H.
  pose (c := snd (nth 1 (n_rows (fst (ex_st (Some []) None))) (0%Z, ex_conn 0 0 0 0))).
  pose (f := nth 0 (q_rows (snd (ex_st (Some []) None))) (ex_q 0 0 0 0 0 0)).
  pose (g := nth 2 (q_rows (snd (ex_st (Some []) None))) (ex_q 0 0 0 0 0 0)).
  pose proof (H _ _ _ _ _ _ _ ex_t_none ex_solved_none ex_in_plane ex_stack_none 1%nat c f g) as P.
  assert (E : Qle_bool ((qh f + qh g) / 2) (czB c - czA c) = false) by (vm_compute; reflexivity).
  assert (T : Qle_bool ((qh f + qh g) / 2) (czB c - czA c) = true).
  { apply Qle_bool_iff, P; [vm_compute; reflexivity|vm_compute; reflexivity| |]; split;
      vm_compute; [discriminate|reflexivity|discriminate|reflexivity]. }
  congruence.
Qed.
(** C20 fails when the stack given back was filtered by a threshold. *)
Definition ex_near := ex_st None (Some (1 # 2)).
Lemma ex_near_ok : stack_new ex_greedy (ex_mats 2) (ex_t None) (Some (1 # 2))
  = Ok (fst ex_near, snd ex_near).
Proof. vm_compute. reflexivity. Qed.
Lemma ex_near_solved : solved ex_greedy (snd ex_near) (fst ex_near).
Proof.
  apply greedy_solved.
  - assert (E : net_check (fst ex_near) = Ok true) by (vm_compute; reflexivity).
    apply net_check_ok in E. destruct E as [C|C]; auto. vm_compute in C. discriminate C.
  - intros C. vm_compute in C. discriminate C.
  - intros k l c d L Hc Hd. unfold is_row in Hc, Hd. vm_compute in Hc, Hd.
    destruct k as [|[|[|k]]], l as [|[|[|l]]]; try lia; simpl in Hc, Hd; try discriminate;
      try (injection Hc as <-; injection Hd as <-; discriminate);
      try (destruct k; discriminate); try (destruct l; discriminate).
  - vm_compute. reflexivity.
Qed.
Theorem C20_threshold_refuted :
  ~ (forall linprog m per t thr st m', net_new m per None = Ok t -> solved linprog m t -> solved linprog m' st ->
     all_in_plane m -> stack_new linprog m t thr = Ok (st, m') ->
     stack_new linprog m' st thr = Ok (st, m')).
Proof.
  intros H. pose proof (H _ _ _ _ _ _ _ ex_t_all ex_solved ex_near_solved ex_in_plane ex_near_ok) as E.
  vm_compute in E. discriminate E.
Qed.

(** ** C71: the marginals of the stacking program are contact forces *)
Theorem C71_forces : forall m t p z y w, stack_constraint m t = Ok p -> ~ flag_set (n_attrs t) ->
  lp_feasible p z -> marginals p z y w -> equilibrium m t z (map Qopp y) w.
Proof. intros m t p z y w HC N. exact (forces m t p HC N z y w). Qed.
Theorem C71_certified : forall m t p z push floor, stack_constraint m t = Ok p -> ~ flag_set (n_attrs t) ->
  lp_feasible p z -> equilibrium m t z push floor -> lp_optimal p z /\ marginals p z (map Qopp push) floor.
Proof. intros m t p z push floor HC N. exact (forces_certify m t p HC N z push floor). Qed.
Theorem C71_exists : forall m t p z, stack_constraint m t = Ok p -> ~ flag_set (n_attrs t) ->
  lp_optimal p z -> exists push floor, equilibrium m t z push floor.
Proof. intros m t p z HC N. exact (forces_exist m t p HC N z). Qed.
Theorem C71_floor : forall m t p z push floor, stack_constraint m t = Ok p ->
  equilibrium m t z push floor -> qsum floor == qsum (map weight (q_rows m)).
Proof. intros m t p z push floor HC. exact (floor_carries m t p HC z push floor). Qed.
(** the load of the script at the end of net.py, which is not positive *)
Theorem C71_load : forall m t p z y w i, stack_constraint m t = Ok p -> marginals p z y w ->
  (i < length (q_rows m))%nat -> nth i (loads p y) 0 == - from_above t (map Qopp y) (Z.of_nat i).
Proof. intros m t p z y w i HC. exact (load_value m t p HC z y w i). Qed.
Theorem C71_load_bound : forall m t p z push floor i, stack_constraint m t = Ok p ->
  equilibrium m t z push floor -> (0 <= i)%Z -> 0 <= from_above t push i /\ from_above t push i <= weight_above m i.
Proof. intros m t p z push floor i HC. exact (load_bound m t p HC z push floor i). Qed.

(** cases: fiber 2 lies on the fibers 0 and 1; its weight may be shared between them in any way *)
Definition ex_p : lp := match stack_constraint (ex_mats 2) (ex_t None) with Ok p => p | Exn _ => mkLp [] [] [] [] end.
Definition ex_share (a : Q) : list Q := map (fun v => v * nth 2 (lpf ex_p) 0) [a; 1 - a].
Definition ex_floor (a : Q) : list Q :=
  [nth 0 (lpf ex_p) 0 + a * nth 2 (lpf ex_p) 0; nth 1 (lpf ex_p) 0 + (1 - a) * nth 2 (lpf ex_p) 0; 0].
Example ex_p_ok : stack_constraint (ex_mats 2) (ex_t None) = Ok ex_p.
Proof. vm_compute. reflexivity. Qed.
Example ex_p_optimal : ~ flag_set (n_attrs (ex_t None)) /\ lp_optimal ex_p (ex_greedy ex_p).
Proof. split; [intros C; vm_compute in C; discriminate C|apply ex_solved, ex_p_ok]. Qed.
Lemma ex_equilibrium a : 0 <= a <= 1 -> equilibrium (ex_mats 2) (ex_t None) (ex_greedy ex_p) (ex_share a) (ex_floor a).
Proof.
  intros Ha. assert (F : exists f0 f1 f2, lpf ex_p = [f0; f1; f2] /\ 0 < f0 /\ 0 < f1 /\ 0 < f2 /\
    map weight (q_rows (ex_mats 2)) = [f0; f1; f2]).
  { do 3 eexists. split; [vm_compute; reflexivity|]. split; [reflexivity|]. split; [reflexivity|]. split; [reflexivity|]. vm_compute; reflexivity. }
  destruct F as (f0 & f1 & f2 & F & P0 & P1 & P2 & W).
  assert (C : contacts (ex_t None) = [(0, 2); (1, 2)]%Z) by (vm_compute; reflexivity).
  assert (G : map Qred (ex_greedy ex_p) = [1 # 2; 1 # 2; 3 # 2]) by (vm_compute; reflexivity).
  assert (Z : forall i, height (ex_greedy ex_p) i == nth (Z.to_nat i) [1 # 2; 1 # 2; 3 # 2] 0).
  { intros i. unfold height. rewrite <- G. change 0 with (Qred 0) at 2. rewrite (map_nth Qred). symmetry. apply Qred_correct. }
  assert (H1 : forall i f, has_fiber (ex_mats 2) i f -> qh f = 1 /\ (0 <= i < 3)%Z).
  { intros i f [Hi E]. destruct (Z.to_nat i) as [|[|[|k]]] eqn:Ei; cbn in E; try (destruct k; discriminate E); injection E as <-; (split; [reflexivity|lia]). }
  assert (HW : forall i f, has_fiber (ex_mats 2) i f -> weight f = nth (Z.to_nat i) [f0; f1; f2] 0).
  { intros i f [Hi E]. rewrite <- W. symmetry. apply nth_error_nth. rewrite nth_error_map, E. reflexivity. }
  assert (M0 : 0 <= a * f2) by (apply Qmult_le_0_compat; lra). assert (M1 : 0 <= (1 - a) * f2) by (apply Qmult_le_0_compat; lra).
  unfold ex_share, ex_floor. rewrite F. cbn [map nth].
  split.
  - rewrite C. reflexivity.
  - reflexivity.
  - intros [|[|k]]; cbn [nth]; try assumption. destruct k; lra.
  - intros [|[|[|k]]]; cbn [nth]; try lra. destruct k; lra.
  - intros i f Hf. rewrite (HW i f Hf). unfold from_above, to_below, height. rewrite C. destruct (H1 i f Hf) as [_ [L0 L3]].
    assert (Hi : i = 0%Z \/ i = 1%Z \/ i = 2%Z) by lia. destruct Hi as [->|[->| ->]];
      cbn [total fst snd Z.eqb Pos.eqb Z.to_nat]; change (Pos.to_nat 1) with 1%nat; change (Pos.to_nat 2) with 2%nat; cbn [nth]; ring.
  - intros k A B f g Hk HA HB _. rewrite C in Hk. rewrite !Z. destruct (H1 _ _ HA) as [-> _]. destruct (H1 _ _ HB) as [-> _].
    destruct k as [|[|k]]; cbn in Hk; [injection Hk as <- <-; reflexivity|injection Hk as <- <-; reflexivity|destruct k; discriminate Hk].
  - intros i f Hf N. rewrite Z. destruct (H1 i f Hf) as [-> [L0 L3]]. unfold height in N.
    assert (Hi : i = 0%Z \/ i = 1%Z \/ i = 2%Z) by lia. destruct Hi as [->|[->| ->]]; cbn in N |- *; [reflexivity|reflexivity|destruct N; reflexivity].
Qed.
Example ex_marginals : marginals ex_p (ex_greedy ex_p) (map Qopp (ex_share (1 # 2))) (ex_floor (1 # 2)).
Proof.
  destruct ex_p_optimal as [N O]. apply (C71_certified _ _ _ _ _ _ ex_p_ok N (proj1 O)). apply ex_equilibrium. lra.
Qed.
(** the shares of a fiber lying on several others are not determined *)
Theorem C71_unique_refuted : ~ (forall m t p z push push' floor floor', stack_constraint m t = Ok p ->
  equilibrium m t z push floor -> equilibrium m t z push' floor' -> same_heights push push').
Proof.
  intros H. specialize (H _ _ _ _ _ _ _ _ ex_p_ok (ex_equilibrium 0 ltac:(lra)) (ex_equilibrium 1 ltac:(lra))).
  vm_compute in H. inversion H. discriminate.
Qed.

Print Assumptions C16_total.
Print Assumptions C16_feasible.
Print Assumptions C16_weights.
Print Assumptions C17_optimum_exists.
Print Assumptions C17_optimum_unique.
Print Assumptions C17_sweep_optimal.
Print Assumptions C17_networks_by_A.
Print Assumptions C18_total.
Print Assumptions C18_heights.
Print Assumptions C18_rows.
Print Assumptions C18_pairs_refuted.
Print Assumptions C19_threshold.
Print Assumptions C20_idempotent.
Print Assumptions C20_idempotent_stack.
Print Assumptions C20_threshold_refuted.
Print Assumptions C21_top.
Print Assumptions C21_uniform.
Print Assumptions C22_same_rows.
Print Assumptions C22_pairs_refuted.
Print Assumptions C71_forces.
Print Assumptions C71_certified.
Print Assumptions C71_exists.
Print Assumptions C71_floor.
Print Assumptions C71_load.
Print Assumptions C71_load_bound.
Print Assumptions C71_unique_refuted.
