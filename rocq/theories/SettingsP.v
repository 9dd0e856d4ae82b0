(** Proofs about settings. *)
From Verif Require Import Num NumP SettingsM SpecSettings.
Open Scope Q_scope.

Lemma key_beq_refl k : key_beq k k = true.
Proof. destruct k; reflexivity. Qed.
Lemma key_beq_ne k k' : k <> k' -> key_beq k k' = false.
Proof. intros H. destruct (key_beq k k') eqn:E; auto. apply internal_key_dec_bl in E. contradiction. Qed.
Lemma put_same s k c : put s k c k = c.
Proof. unfold put. now rewrite key_beq_refl. Qed.
Lemma put_other s k c k' : k <> k' -> put s k c k' = s k'.
Proof. intros H. unfold put. now rewrite key_beq_ne. Qed.

Lemma get_item_cell s s' k : s k = s' k -> get_item s k = get_item s' k.
Proof. intros H. unfold get_item. rewrite H. reflexivity. Qed.

(** ** conversions *)
Lemma int_truncates q : truncates q (py_int q).
Proof.
  unfold truncates, py_int. destruct (Qltb q 0) eqn:E; qb.
  - exists (- Qfloor (- q))%Z. split; [reflexivity|]. pose proof (Qfloor_le (- q)). pose proof (Qlt_floor (- q)).
    rewrite inject_Z_plus in H0. change (inject_Z 1) with 1 in H0. split; intros; lra.
  - exists (Qfloor q). split; [reflexivity|]. pose proof (Qfloor_le q). pose proof (Qlt_floor q).
    rewrite inject_Z_plus in H0. change (inject_Z 1) with 1 in H0. split; intros; lra.
Qed.
Lemma py_int_eq x y : x == y -> py_int x = py_int y.
Proof.
  intros H. unfold py_int. rewrite (Qfloor_comp _ _ H). replace (Qltb y 0) with (Qltb x 0).
  - destruct (Qltb x 0); auto. rewrite (Qfloor_comp (- x) (- y)); [reflexivity|now rewrite H].
  - destruct (Qltb x 0) eqn:A, (Qltb y 0) eqn:B; qb; auto; lra.
Qed.
Lemma clamp_clamps lo hi q : lo <= hi -> clamps lo hi (Fin q) (clamp lo hi q).
Proof.
  intros H. unfold clamp, clamps. destruct (Q.max_spec q lo) as [[A B]|[A B]], (Q.min_spec (Qmax q lo) hi) as [[C D]|[C D]];
    rewrite B in C; rewrite D; try rewrite B; try lra.
Qed.
Lemma stands_float v x : stands v x <-> py_float v = Some x.
Proof.
  split.
  - destruct 1; reflexivity.
  - destruct v as [| |y|[|]|]; simpl; intros [= <-]; constructor.
Qed.

(** ** one assignment *)
Definition stored (k : key) (v : sval) (c : cell) : Prop :=
  if is_modulus k && is_np_inf v then c_switch c = false
  else if is_optional k && is_none v then c_switch c = false
  else accept (widget_of k) v = Ret (c_val c) /\ (is_modulus k || is_optional k = true -> c_switch c = true).

Lemma set_other s k v s' e k' : set_item s k v = (s', e) -> k <> k' -> s' k' = s k'.
Proof.
  unfold set_item. intros H N.
  destruct (is_modulus k); [destruct (is_np_inf v)|destruct (is_optional k); [destruct (is_none v)|]];
    try destruct (accept (widget_of k) v); injection H as <- <-; now apply put_other.
Qed.
Lemma set_stored s k v s' : set_item s k v = (s', None) -> stored k v (s' k).
Proof.
  unfold set_item, stored. intros H.
  destruct (is_modulus k) eqn:M; [destruct (is_np_inf v) eqn:I|destruct (is_optional k) eqn:O; [destruct (is_none v) eqn:N|]];
    simpl; try (destruct (accept (widget_of k) v) eqn:A; [|discriminate H]); injection H as <-; rewrite put_same; simpl; auto.
  - replace (is_optional k) with false by (destruct k; discriminate || reflexivity). simpl. auto.
  - split; auto. discriminate.
Qed.

Lemma stored_reads s k v : stored k v (s k) -> reads k v (get_item s k).
Proof.
  unfold stored, get_item. intros H. destruct (s k) as [c sw]. simpl c_val in *. simpl c_switch in *.
  assert (L1 : (1 # 10000000000) <= (1 # 10)) by discriminate. assert (L2 : 0 <= 1) by discriminate. assert (L3 : 1 <= 1000000) by discriminate.
  unfold reads, plain, modulus, optional, flag, integral, ranged.
  split; [|split; [|split]].
  - intros [-> | ->] ->; simpl in H; subst sw; reflexivity.
  - intros [-> |[-> |[-> |[-> | ->]]]] ->; simpl in H; subst sw; reflexivity.
  - intros [-> | ->]; simpl in H; destruct H as [H _]; destruct v; try discriminate H; injection H as <-; reflexivity.
  - intros x St Nm. apply stands_float in St. split; [|split; [|split; [|split]]].
    + intros (N1 & N2 & N3).
      destruct k; try (exfalso; solve [apply N1; auto | apply N2; auto | apply N3; auto]); simpl in *;
        try (destruct (is_np_inf v) eqn:I; [exfalso; destruct v; try discriminate I; solve [apply Nm; auto]|simpl in H]);
        try (destruct (is_none v) eqn:I; [destruct v; try discriminate I; discriminate St|simpl in H]);
        rewrite St in H; destruct H as [[= <-] Hs]; try rewrite Hs by reflexivity; reflexivity.
    + intros Hi q ->. exists (py_int q). split; [apply int_truncates|].
      destruct Hi as [-> |[-> | ->]]; simpl in H;
        try (destruct (is_none v) eqn:I; [destruct v; try discriminate I; discriminate St|simpl in H]);
        rewrite St in H; destruct H as [[= <-] Hs]; try rewrite Hs by reflexivity; reflexivity.
    + intros -> Nx. simpl in H. rewrite St in H. destruct H as [H _].
      destruct x as [q| | |]; injection H as <-; try (exfalso; apply Nx; reflexivity); eexists; (split; [|reflexivity]); simpl; try reflexivity. now apply clamp_clamps.
    + intros -> Nx. simpl in H. rewrite St in H. destruct H as [H _].
      destruct x as [q| | |]; injection H as <-; try (exfalso; apply Nx; reflexivity); eexists; (split; [|eexists; split; [reflexivity|reflexivity]]); simpl; try reflexivity. now apply clamp_clamps.
    + intros -> Nx. simpl in H. rewrite St in H. destruct H as [H _].
      destruct x as [q| | |]; injection H as <-; try (exfalso; apply Nx; reflexivity); eexists; eexists; (split; [|split; [apply int_truncates|reflexivity]]); simpl; try reflexivity. now apply clamp_clamps.
Qed.
Lemma set_reads s k v s' : set_item s k v = (s', None) -> reads k v (get_item s' k).
Proof. intros H. apply stored_reads. eapply set_stored; eauto. Qed.

(** ** sequences *)
Lemma set_all_other l : forall s s' e k, set_all s l = (s', e) -> untouched k l -> s' k = s k.
Proof.
  induction l as [|[k0 v0] l IH]; intros s s' e k H U; simpl in H.
  - injection H as <- <-. reflexivity.
  - assert (N : k0 <> k) by (intros ->; apply (U v0); left; reflexivity).
    destruct (set_item s k0 v0) as [s1 [e1|]] eqn:E.
    + injection H as <- <-. eapply set_other; eauto.
    + rewrite (IH _ _ _ _ H); [eapply set_other; eauto|]. intros v Hv. apply (U v). right. exact Hv.
Qed.
Lemma set_all_untouched s l s' e k : set_all s l = (s', e) -> untouched k l -> get_item s' k = get_item s k.
Proof. intros H U. apply get_item_cell. eapply set_all_other; eauto. Qed.
Lemma set_all_app l1 : forall l2 s s' , set_all s (l1 ++ l2) = (s', None) ->
  exists s1, set_all s l1 = (s1, None) /\ set_all s1 l2 = (s', None).
Proof.
  induction l1 as [|[k v] l1 IH]; intros l2 s s' H; simpl in *; [eauto|].
  destruct (set_item s k v) as [s1 [e1|]]; [discriminate H|]. apply IH. exact H.
Qed.
Lemma set_all_last s l1 k v l2 s' : set_all s (l1 ++ (k, v) :: l2) = (s', None) -> untouched k l2 -> reads k v (get_item s' k).
Proof.
  intros H U. apply set_all_app in H. destruct H as (s1 & _ & H). simpl in H.
  destruct (set_item s1 k v) as [s2 [e|]] eqn:E; [discriminate H|].
  rewrite (set_all_untouched _ _ _ _ _ H U). eapply set_reads; eauto.
Qed.

(** ** accepted values *)
Lemma accept_iff k v : (exists a, accept (widget_of k) v = Ret a) <->
  (flag k /\ exists b, v = VBool b) \/ (integral k /\ exists q, stands v (Fin q)) \/ ((plain k \/ ranged k) /\ exists x, stands v x).
Proof.
  assert (W : match widget_of k with WBool => flag k | WInt => integral k | _ => plain k \/ ranged k end).
  { unfold plain, flag, integral, ranged. destruct k; simpl; auto; left; (split; [|split]); intuition discriminate. }
  assert (X1 : flag k -> integral k -> False) by (unfold flag, integral; intuition (subst; discriminate)).
  assert (X2 : flag k -> plain k \/ ranged k -> False) by (unfold plain, flag, ranged; intuition (subst; discriminate)).
  assert (X3 : integral k -> plain k \/ ranged k -> False) by (unfold plain, integral, ranged; intuition (subst; discriminate)).
  assert (F : forall x, stands v x -> py_float v = Some x) by (intros x; apply stands_float).
  assert (G : forall x, py_float v = Some x -> stands v x) by (intros x; apply stands_float).
  unfold accept. destruct (widget_of k) as [| |lo hi|].
  - split.
    + intros (a & H). destruct (py_float v) as [[q| | |]|] eqn:E; try discriminate H. right. left. split; eauto.
    + intros [[A _]|[[_ (q & H)]|[A _]]]; try tauto. rewrite (F _ H). eauto.
  - split.
    + intros (a & H). destruct (py_float v) as [x|] eqn:E; try discriminate H. right. right. split; eauto.
    + intros [[A _]|[[A _]|[_ (x & H)]]]; try tauto. rewrite (F _ H). eauto.
  - split.
    + intros (a & H). destruct (py_float v) as [x|] eqn:E; try discriminate H. right. right. split; eauto.
    + intros [[A _]|[[A _]|[_ (x & H)]]]; try tauto. rewrite (F _ H). destruct x; eauto.
  - split.
    + intros (a & H). destruct v; try discriminate H. left. eauto.
    + intros [[_ (b & ->)]|[[A _]|[A _]]]; try tauto. eauto.
Qed.
Lemma modulus_iff k : modulus k <-> is_modulus k = true.
Proof. unfold modulus. destruct k; simpl; intuition discriminate. Qed.
Lemma optional_iff k : optional k <-> is_optional k = true.
Proof. unfold optional. destruct k; simpl; intuition discriminate. Qed.
Lemma set_ok_iff s k v : snd (set_item s k v) = None <-> assignable k v.
Proof.
  assert (A : snd (match accept (widget_of k) v with Ret a => (put s k (mkCell a true), None) | Fail e => (put s k (mkCell (c_val (s k)) true), Some e) end) = None
    <-> exists a, accept (widget_of k) v = Ret a).
  { destruct (accept (widget_of k) v) as [a|e]; simpl; split; eauto; intros; try discriminate. destruct H; discriminate. }
  assert (A' : snd (match accept (widget_of k) v with Ret a => (put s k (mkCell a (c_switch (s k))), None) | Fail e => (put s k (mkCell (c_val (s k)) (c_switch (s k))), Some e) end) = None
    <-> exists a, accept (widget_of k) v = Ret a).
  { destruct (accept (widget_of k) v) as [a|e]; simpl; split; eauto; intros; try discriminate. destruct H; discriminate. }
  rewrite accept_iff in A, A'. unfold set_item, assignable. rewrite modulus_iff, optional_iff.
  destruct (is_modulus k) eqn:M; [|destruct (is_optional k) eqn:O].
  - destruct (is_np_inf v) eqn:I; simpl.
    + destruct v; try discriminate I. tauto.
    + rewrite A. split; [tauto|]. intros [[_ ->]|[[O ->]|H]]; try discriminate I; auto. destruct k; discriminate.
  - destruct (is_none v) eqn:I; simpl.
    + destruct v; try discriminate I. tauto.
    + rewrite A. split; [tauto|]. intros [[O' _]|[[_ ->]|H]]; try discriminate; auto.
  - rewrite A'. split; [tauto|]. intros [[O' _]|[[O' _]|H]]; try discriminate; auto.
Qed.
(** a failed assignment: the value of the widget is kept *)
Lemma set_failed s k v s' e : set_item s k v = (s', Some e) ->
  e = TraitErr /\ get_item s' k = (if is_modulus k || is_optional k then get_item (put s k (mkCell (c_val (s k)) true)) k else get_item s k).
Proof.
  unfold set_item. intros H.
  assert (T : forall w, accept w v = Fail e -> e = TraitErr).
  { intros w A. destruct w; simpl in A; destruct v as [| |[]|[]|]; simpl in A; now inversion A. }
  destruct (is_modulus k) eqn:M; [destruct (is_np_inf v)|destruct (is_optional k) eqn:O; [destruct (is_none v)|]];
    try (destruct (accept (widget_of k) v) eqn:A); inversion H; subst; clear H; simpl; split; eauto.
  apply get_item_cell. rewrite put_same. destruct (s k); reflexivity.
Qed.
Lemma failed_keeps s k v s' e : set_item s k v = (s', Some e) ->
  (modulus k -> get_item s k <> VInf) -> (optional k -> get_item s k <> VNone) -> get_item s' k = get_item s k.
Proof.
  intros H M O. apply set_failed in H. destruct H as [_ ->]. rewrite modulus_iff in M. rewrite optional_iff in O.
  destruct (is_modulus k || is_optional k) eqn:E; auto. apply get_item_cell. rewrite put_same.
  assert (S : c_switch (s k) = true); [|destruct (s k); simpl in *; now subst].
  destruct (c_switch (s k)) eqn:S; auto. exfalso. unfold get_item in M, O. rewrite S in M, O.
  destruct k; try discriminate E; simpl in *; first [now apply M | now apply O].
Qed.

(** ** the constructor *)
Lemma init_all_other a l : forall s s' k, init_all a l s = Ret s' -> ~ In k l -> s' k = s k.
Proof.
  induction l as [|k0 l IH]; intros s s' k H N; simpl in *; [now injection H as <-|].
  destruct (init_cell a k0) as [c|e]; [|discriminate H]. rewrite (IH _ _ k H) by tauto. apply put_other. tauto.
Qed.
Lemma init_all_cell a l : forall s s' k, NoDup l -> init_all a l s = Ret s' -> In k l -> init_cell a k = Ret (s' k).
Proof.
  induction l as [|k0 l IH]; intros s s' k D H I; simpl in *; [contradiction|]. inversion D as [|? ? D1 D2]; subst.
  destruct (init_cell a k0) as [c|e] eqn:E; [|discriminate H]. destruct I as [<-|I]; [|eapply IH; eauto].
  rewrite (init_all_other _ _ _ _ _ H D1), put_same. exact E.
Qed.
Lemma keys_nodup : NoDup keys.
Proof. unfold keys. repeat constructor; simpl; intuition discriminate. Qed.
Lemma keys_all k : In k keys.
Proof. destruct k; simpl; tauto. Qed.
Lemma new_cell a s k : settings_new a = Ret s -> init_cell a k = Ret (s k).
Proof. intros H. eapply init_all_cell; [apply keys_nodup|exact H|apply keys_all]. Qed.
Lemma new_reads a s k : settings_new a = Ret s -> (modulus k -> a k <> VNum PInf) -> reads k (a k) (get_item s k).
Proof.
  intros H N. apply (new_cell a s k) in H. apply stored_reads. unfold stored. rewrite modulus_iff in N.
  unfold init_cell in H. destruct (init_value a k) as [v|e] eqn:V; [|discriminate H].
  destruct (accept (widget_of k) v) as [w|e] eqn:A; [|discriminate H]. injection H as H. rewrite <- H. simpl c_val. simpl c_switch. unfold init_switch.
  destruct (is_modulus k) eqn:M.
  - destruct (is_np_inf (a k)) eqn:I; simpl; auto. assert (F : ne_inf (a k) = true).
    { destruct (a k) as [| |[]| |]; simpl in *; try reflexivity; try discriminate I. exfalso. now apply N. }
    destruct k; try discriminate M; simpl in V; rewrite F in V; injection V as ->; simpl; auto.
  - destruct (is_optional k) eqn:O; simpl.
    + destruct (is_none (a k)) eqn:I; simpl; auto.
      destruct k; try discriminate O; simpl in V; rewrite I in V; injection V as ->; auto.
    + split; [|discriminate]. destruct k; try discriminate O; try discriminate M; simpl in V; injection V as ->; auto.
Qed.
Lemma init_all_total a l : forall s, (forall k, In k l -> exists c, init_cell a k = Ret c) -> exists s', init_all a l s = Ret s'.
Proof.
  induction l as [|k l IH]; intros s H; simpl; [eauto|]. destruct (H k) as (c & ->); [left; reflexivity|]. apply IH. intros k' I. apply H. now right.
Qed.
Lemma init_cell_value a k v : init_value a k = Ret v -> (exists x, accept (widget_of k) v = Ret x) -> exists c, init_cell a k = Ret c.
Proof. intros V (x & A). unfold init_cell. rewrite V, A. eauto. Qed.
Lemma new_total a : (forall k, assignable k (a k)) -> a Kthickness <> VBool false -> (forall q, a Kthickness = VNum (Fin q) -> ~ q == 0) ->
  exists s, settings_new a = Ret s.
Proof.
  intros H Z0 Z1. apply init_all_total. intros k _. specialize (H k) as Hk. unfold assignable in Hk. pose proof (proj2 (accept_iff k (a k))) as Ac.
  assert (Fl : forall v, py_float v = None -> forall x, ~ stands v x) by (intros v E x S; apply stands_float in S; congruence).
  assert (Th : neqb (num_of (a Kthickness)) (Fin 0) = false).
  { unfold num_of. destruct (a Kthickness) as [| |x|[|]|]; simpl; auto; [|congruence]. destruct x as [q| | |]; simpl; auto.
    specialize (Z1 q eq_refl). destruct (Qeqb q 0) eqn:E; auto. qb. contradiction. }
  assert (Lg : exists x, accept WFloat (a Klength) = Ret x).
  { apply (accept_iff Klength). specialize (H Klength). unfold assignable in H. rewrite modulus_iff, optional_iff in H. simpl in H. intuition discriminate. }
  rewrite modulus_iff, optional_iff in Hk.
  destruct (is_modulus k) eqn:M.
  { destruct (ne_inf (a k)) eqn:F.
    - apply init_cell_value with (a k); [destruct k; try discriminate M; simpl; rewrite F; reflexivity|]. apply Ac.
      destruct Hk as [[_ E]|[[O _]|Hk]]; [rewrite E in F; discriminate|destruct k; discriminate|auto].
    - destruct k; try discriminate M.
      + apply init_cell_value with (VNum (Fin 1)); [simpl; now rewrite F|simpl; eauto].
      + eapply init_cell_value; [simpl; rewrite F; unfold tensile_default; rewrite Th; reflexivity|simpl; eauto]. }
  destruct (is_optional k) eqn:O.
  { destruct (is_none (a k)) eqn:F.
    - destruct k; try discriminate O; (eapply init_cell_value; [simpl; rewrite F; reflexivity|simpl; eauto]).
    - apply init_cell_value with (a k); [destruct k; try discriminate O; simpl; rewrite F; reflexivity|]. apply Ac.
      destruct Hk as [[O' _]|[[_ E]|Hk]]; [discriminate|rewrite E in F; discriminate|auto]. }
  apply init_cell_value with (a k); [destruct k; try discriminate M; try discriminate O; reflexivity|]. apply Ac.
  destruct Hk as [[? _]|[[? _]|Hk]]; try discriminate; auto.
Qed.

(** ** reachable states hold values that their widgets accept *)
Definition held (w : widget) (v : sval) : Prop :=
  match w with
  | WBool => exists b, v = VBool b
  | WInt => exists z, v = VNum (Fin (inject_Z z))
  | WFloat => exists x, v = VNum x
  | WSlider lo hi => v = VNum NaN \/ exists q, v = VNum (Fin q) /\ lo <= q /\ q <= hi
  end.
Lemma accept_held w v a : match w with WSlider lo hi => lo <= hi | _ => True end -> accept w v = Ret a -> held w a.
Proof.
  intros L H. destruct w as [| |lo hi|]; simpl in *.
  - destruct (py_float v) as [[q| | |]|]; try discriminate H. injection H as <-. destruct (int_truncates q) as (z & E & _). exists z. now rewrite E.
  - destruct (py_float v) as [x|]; [|discriminate H]. injection H as <-. eauto.
  - destruct (py_float v) as [[q| | |]|]; try discriminate H; injection H as <-; auto; right; eexists; (split; [reflexivity|]).
    + pose proof (clamp_clamps lo hi q L) as C. simpl in C. lra.
    + lra.
    + lra.
  - destruct v; try discriminate H. injection H as <-. eauto.
Qed.
Lemma widget_range k : match widget_of k with WSlider lo hi => lo <= hi | _ => True end.
Proof. destruct k; simpl; auto; discriminate. Qed.
Lemma reach_held s k : reachable s -> held (widget_of k) (c_val (s k)).
Proof.
  intros R. revert k. induction R as [a s H|s k v s' e R IH H|s k b R IH]; intros k'.
  - apply (new_cell a s k') in H. unfold init_cell in H. destruct (init_value a k') as [v|]; [|discriminate H].
    destruct (accept (widget_of k') v) as [w|] eqn:A; [|discriminate H]. injection H as <-. simpl. eapply accept_held; [apply widget_range|eauto].
  - destruct (key_eq_dec k k') as [<-|N]; [|rewrite (set_other _ _ _ _ _ _ H N); apply IH].
    unfold set_item in H.
    destruct (is_modulus k); [destruct (is_np_inf v)|destruct (is_optional k); [destruct (is_none v)|]];
      try (destruct (accept (widget_of k) v) eqn:A); injection H as <- <-; rewrite put_same; simpl; try apply IH;
      (eapply accept_held; [apply widget_range|eauto]).
  - unfold tick. destruct (key_eq_dec k k') as [<-|N]; [rewrite put_same|rewrite put_other by exact N]; apply IH.
Qed.

Lemma reassign s k : reachable s -> k <> Ktheta -> get_item s k <> VOther ->
  exists s', set_item s k (get_item s k) = (s', None) /\ veqv (get_item s' k) (get_item s k).
Proof.
  intros R N V. pose proof (reach_held s k R) as H.
  assert (I : forall z, py_int (inject_Z z) = inject_Z z).
  { intros z. unfold py_int. destruct (Qltb (inject_Z z) 0); [|now rewrite Qfloor_Z]. change (- inject_Z z) with (inject_Z (- z)). rewrite Qfloor_Z, <- inject_Z_opp. f_equal. lia. }
  unfold get_item, set_item in *. destruct (s k) as [v sw] eqn:E. simpl c_val in *. simpl c_switch in *.
  destruct k; try congruence; simpl in *;
    try (destruct sw; simpl; [|eexists; split; [reflexivity|]; rewrite put_same; simpl; reflexivity]);
    try (destruct H as (z & ->); simpl; rewrite I; eexists; (split; [reflexivity|]); rewrite put_same; simpl; reflexivity);
    try (destruct H as (x & ->); simpl; eexists; (split; [reflexivity|]); rewrite put_same; simpl; try destruct x; reflexivity).
  - destruct H as [-> |(q & -> & L & U)]; [congruence|]. simpl. eexists; (split; [reflexivity|]); rewrite put_same; simpl.
    destruct (int_truncates q) as (z & Ez & T & _). specialize (T ltac:(lra)). rewrite Ez in *.
    assert (P : (0 < z)%Z) by (rewrite Zlt_Qlt; change (inject_Z 0) with 0; lra).
    assert (P' : 1 <= inject_Z z) by (change 1 with (inject_Z 1); rewrite <- Zle_Qle; lia).
    rewrite (py_int_eq (clamp 1 1000000 (inject_Z z)) (inject_Z z)); [rewrite I; reflexivity|].
    pose proof (clamp_clamps 1 1000000 (inject_Z z) ltac:(discriminate)) as C. simpl in C. lra.
  - destruct H as [-> |(q & -> & L & U)]; simpl; eexists; (split; [reflexivity|]); rewrite put_same; simpl; auto.
    pose proof (clamp_clamps (1 # 10000000000) (1 # 10) q ltac:(discriminate)) as C. simpl in C. lra.
Qed.

(** ** unset parameters *)
Lemma ticked s k : modulus k \/ optional k -> get_item (tick s k true) k = c_val (s k).
Proof.
  intros H. unfold get_item, tick. rewrite put_same. cbn [c_val c_switch].
  destruct H as [[-> | ->]|[-> |[-> |[-> |[-> | ->]]]]]; reflexivity.
Qed.
Lemma unticked s k : (modulus k -> get_item (tick s k false) k = VInf) /\ (optional k -> get_item (tick s k false) k = VNone).
Proof.
  unfold get_item, tick. rewrite put_same. cbn [c_val c_switch].
  split; [intros [-> | ->]|intros [-> |[-> |[-> |[-> | ->]]]]]; reflexivity.
Qed.
Lemma tick_other s k b k' : k' <> k -> get_item (tick s k b) k' = get_item s k'.
Proof. intros N. apply get_item_cell. unfold tick. apply put_other. congruence. Qed.
Lemma tick_back s k b b' : get_item (tick (tick s k b) k b') k = get_item (tick s k b') k.
Proof. apply get_item_cell. unfold tick. rewrite !put_same. reflexivity. Qed.
Lemma new_proposed a s k G l h : settings_new a = Ret s -> unset k (a k) -> (k = Ktensile -> stands (a Kshear) (Fin G)) -> stands (a Klength) (Fin l) -> stands (a Kthickness) (Fin h) ->
  exists q, get_item (tick s k true) k = VNum (Fin q) /\ q == proposed k G l h.
Proof.
  intros H U SG SL ST. assert (MO : modulus k \/ optional k) by (destruct U as [[M _]|[O _]]; auto). rewrite (ticked s k MO).
  apply (new_cell a s k) in H. unfold init_cell in H. apply stands_float in SL, ST.
  assert (NL : num_of (a Klength) = Fin l) by (unfold num_of; rewrite SL; reflexivity). assert (NT : num_of (a Kthickness) = Fin h) by (unfold num_of; rewrite ST; reflexivity).
  destruct U as [[M V]|[O V]].
  - assert (F : ne_inf (a k) = false) by (destruct V as [V|V]; rewrite V; reflexivity). destruct M as [-> | ->]; cbn [init_value] in H; rewrite F in H.
    + cbn in H. injection H as H. rewrite <- H. eexists. split; [reflexivity|]. reflexivity.
    + specialize (SG eq_refl). apply stands_float in SG. assert (NG : num_of (a Kshear) = Fin G) by (unfold num_of; rewrite SG; reflexivity).
      unfold tensile_default in H. rewrite NL, NT, NG in H. cbn [neqb] in H. destruct (Qeqb h 0) eqn:Z; [discriminate H|].
      unfold ndiv in H. rewrite Z in H. cbn [nmul widget_of accept py_float] in H. injection H as H. rewrite <- H. eexists. split; [reflexivity|]. reflexivity.
  - destruct O as [-> |[-> |[-> |[-> | ->]]]]; cbn [init_value] in H; rewrite V in H; cbn [is_none widget_of accept py_float] in H; try rewrite NT in H; try rewrite SL in H;
      cbn [nmul] in H; injection H as H; rewrite <- H; cbn [c_val]; (eexists; split; [reflexivity|]); reflexivity.
Qed.
Lemma documented_all k v : In (k, v) documented <-> defaults k = v.
Proof.
  split.
  - intros H. unfold documented in H. repeat (destruct H as [[= <- <-]|H]; [reflexivity|]). destruct H.
  - intros <-. destruct k; unfold documented; cbn [In defaults]; tauto.
Qed.
Lemma with_args_in kw a k v : NoDup (map fst kw) -> In (k, v) kw -> with_args kw a k = v.
Proof.
  induction kw as [|[k' v'] kw IH]; intros D I; [destruct I|]. cbn [with_args]. inversion D as [|? ? D1 D2]; subst. destruct I as [[= -> ->]|I].
  - now rewrite key_beq_refl.
  - rewrite key_beq_ne; [apply IH; auto|]. intros ->. apply D1. apply in_map_iff. exists (k, v). auto.
Qed.
Lemma with_args_out kw a k : untouched k kw -> with_args kw a k = a k.
Proof.
  induction kw as [|[k' v'] kw IH]; intros U; [reflexivity|]. cbn [with_args]. rewrite key_beq_ne; [apply IH|].
  - intros v Hv. apply (U v). right. exact Hv.
  - intros ->. apply (U v'). left. reflexivity.
Qed.
Lemma call_given kw s k v : NoDup (map fst kw) -> settings_new (with_args kw defaults) = Ret s -> In (k, v) kw -> (modulus k -> v <> VNum PInf) ->
  reads k v (get_item s k).
Proof.
  intros D H I N. pose proof (new_reads _ s k H) as R. rewrite (with_args_in _ _ _ _ D I) in R. exact (R N).
Qed.
Lemma call_default kw s k v : settings_new (with_args kw defaults) = Ret s -> untouched k kw -> In (k, v) documented -> reads k v (get_item s k).
Proof.
  intros H U I. apply documented_all in I. pose proof (new_reads _ s k H) as R. rewrite (with_args_out _ _ _ U), I in R. apply R.
  intros [-> | ->]; rewrite <- I; discriminate.
Qed.
