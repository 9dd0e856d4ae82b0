(** Consequences of the progress of the solver: exactness, end of the runs, independence of the numbering,
    of the solver and of the units (C88, C89). *)
From Coq Require Import String Permutation.
From Verif Require Import Num NumP ListX ListP Frames MatM NetM StackM MeshM ModelM SolverM Spec SpecNet SpecStack SpecMesh SpecModel SpecSolver SpecPerm SpecScale SpecProgress
  MeshCheckP NetP StackP StackNewP MeshP StiffP ConstraintP SolverP SolverRunP SolverSysP SolverApiP SolverFinP PermP ScaleP ProgressP HeldP.
Open Scope Q_scope.

(** the lid over a compressed column *)
Lemma compressed_thin m g cs S s : constraint m g = Ok cs -> 0 <= sy_tol S -> compressed_at m g S s ->
  exists i j d e hi hj, paired g i j d e /\ thick m d hi /\ thick m e hj /\ qof (st_Z s) <= hi + hj + 3 * sy_tol S.
Proof.
  intros Hcs T0 (i & j & d & e & HP & (hi & Ti & F1) & (hj & Tj & F2) & F3). exists i, j, d, e, hi, hj. split; [exact HP|]. split; [exact Ti|]. split; [exact Tj|].
  destruct HP as (Hd & He & _). destruct (thick_ex m g cs Hcs i d Hd) as (hi' & Ti' & Pi). assert (hi' = hi) by (eapply thick_fun; eauto). subst hi'.
  destruct F3 as [F3|(a & b & Ta & Tb & F3)].
  - subst j. assert (e = d) by (destruct Hd as (l1 & Hd), He as (l2 & He); congruence). subst e. assert (hj = hi) by (eapply thick_fun; eauto). subst hj. qlra.
  - assert (a = hi) by (eapply thick_fun; eauto). assert (b = hj) by (eapply thick_fun; eauto). subst a b. qlra.
Qed.
Section Call.
  Variable lsolve : ncoo -> list num -> list num.
  Variable m : qmat.
  Variable g : mesh_df.
  Variable p : solve_params.
  Variable S : sysdata.
  Variable h : list state.
  Hypothesis DS : direct_solver lsolve.
  Hypothesis SD : sound_data m g p.
  Hypothesis NU : numbering (length (sy_dq S)) (sp_perm p).
  Hypothesis H0 : starts_held m g (sp_tol p).
  Hypothesis HS : solve lsolve m g p = Ok (S, h).

  Lemma go_strict : exists S0, solve lsolve m g (strict p) = Ok (S0, h) /\
    S0 = mkSys (sy_nu S) (sy_P S) (sy_dq S) (sy_perm S) (sy_tol S) 0 (sy_packing S) (sy_Z0 S) /\
    forall s, In s h -> reliable lsolve m g (strict p) S0 s /\ exists q, st_err2 s = Fin q /\ q == 0.
  Proof.
    destruct (call_facts2 lsolve m g p S h DS SD NU H0 HS) as (S0 & H1 & H2 & _ & _ & H3 & _). exists S0. split; auto. split; auto.
    intros s Hs. apply In_nth_error in Hs. destruct Hs as (k & Hk). destruct (H3 k s Hk) as (R & _ & E & _). auto.
  Qed.
  Lemma go_regular k s : nth_error h k = Some s -> held_at m g S s /\
    (regular S s <-> ~ compressed_at m g S s) /\ (compressed_at m g S s -> Datatypes.S k = length h).
  Proof.
    intros Hk. destruct (call_facts2 lsolve m g p S h DS SD NU H0 HS) as (S0 & _ & _ & _ & _ & H3 & _). destruct (H3 k s Hk) as (_ & HH & _ & C).
    split; auto. tauto.
  Qed.
  Lemma go_end : exists s, nth_error h (length h - 1) = Some s /\
    (length h = Datatypes.S (sp_itermax p) \/ nltb (st_rl s) (sp_packing p) = false \/ compressed_at m g S s).
  Proof.
    destruct (call_facts2 lsolve m g p S h DS SD NU H0 HS) as (S0 & _ & _ & _ & _ & _ & H3).
    destruct (fin_history lsolve m g p S h HS) as (L & (s0 & Hs0 & _) & _).
    assert (Lh : (0 < length h)%nat) by (destruct h; [discriminate Hs0|cbn [length]; lia]).
    destruct (nth_error h (length h - 1)) as [s|] eqn:E; [|apply nth_error_None in E; lia]. exists s. split; auto.
    destruct (Nat.eq_dec (length h) (Datatypes.S (sp_itermax p))) as [Q|N]; [auto|]. right. apply H3; auto. lia.
  Qed.
  Lemma noflag' : ~ flag_set (g_attrs g). Proof. apply SD. Qed.
  Lemma tols' : tolerances_ok (strict p). Proof. destruct SD as (_ & (T & _) & _). split; [exact T|apply Qle_refl]. Qed.
  Lemma go_steps cs : constraint m g = Ok cs -> (length h <= Datatypes.S (length (csH cs)))%nat.
  Proof.
    intros Hcs. destruct go_strict as (S0 & HS0 & _ & HR).
    apply (fin_terminates lsolve m g (strict p) S0 h HS0 noflag' tols' cs Hcs). intros s Hs. destruct (HR s Hs) as [R _]. split; auto. left. 
    destruct (solve_inv _ _ _ _ _ _ HS0) as (K & cs2 & _ & _ & -> & _). reflexivity.
  Qed.
  Lemma go_admissible s : admissible_start m g -> In s h ->
    exists z, st_Z s = Fin z /\ in_slab m g z (vals (st_u S s)) /\ no_overlap m g (vals (st_u S s)).
  Proof.
    intros HA Hs. destruct go_strict as (S0 & HS0 & ES & HR). destruct (HR s Hs) as [R _].
    pose proof (fin_admissible lsolve m g (strict p) S0 h HS0 noflag' tols' s Hs R HA (Qeq_refl 0)) as F. rewrite ES in F. exact F.
  Qed.
  Lemma go_contacts cs s : constraint m g = Ok cs -> In s h -> forall r, ~ nth r (vals (st_f S s)) 0 == 0 ->
    exists q, gap_is (csC cs) (st_H S s) (vals (st_u S s)) r q /\ q <= sp_tol p.
  Proof.
    intros Hcs Hs. destruct go_strict as (S0 & HS0 & ES & HR). destruct (HR s Hs) as [R _].
    pose proof (fin_force lsolve m g (strict p) S0 h HS0 noflag' tols' cs s Hcs Hs R (Qeq_refl 0)) as F. rewrite ES in F. exact F.
  Qed.
  Lemma go_balance K cs s : stiffness m g (sp_lmin p) (sp_lmax p) (sp_coupling p) = Ok K -> constraint m g = Ok cs -> In s h ->
    forall i, (i < length (g_rows g))%nat -> product K (vals (st_u S s)) (2 * i) + transpose_product (csC cs) (vals (st_f S s)) (2 * i) == 0.
  Proof.
    intros HK Hcs Hs i Li. destruct go_strict as (S0 & HS0 & ES & HR). destruct (HR s Hs) as [R _].
    destruct SD as (_ & _ & _ & _ & HL & HG).
    assert (SL : errors_below_tol S0 s) by (left; destruct (solve_inv _ _ _ _ _ _ HS0) as (K2 & cs2 & _ & _ & -> & _); reflexivity).
    pose proof (fin_displacements lsolve m g (strict p) S0 h HS0 noflag' tols' K cs s HK Hcs Hs R SL HL HG i Li) as F. rewrite ES in F.
    unfold near0 in F. cbn [strict sp_errtol] in F. 
    match type of F with - (0 * ?t) <= ?x /\ _ => change (x == 0); assert (ZZ : 0 * t == 0) by ring; rewrite ZZ in F end. lra.
  Qed.
  (** the packing asked for is reached *)
  Lemma go_reaches cs c : constraint m g = Ok cs -> admissible_start m g -> sp_packing p = Fin c -> 0 <= c -> (length (csH cs) < sp_itermax p)%nat ->
    (forall i j d e hi hj, paired g i j d e -> thick m d hi -> thick m e hj -> c * (hi + hj + 3 * sp_tol p) <= csZ cs) ->
    exists s r, nth_error h (length h - 1) = Some s /\ st_rl s = Fin r /\ c <= r.
  Proof.
    intros Hcs HA EP Hc Hi HB. destruct go_end as (s & Hs & E). exists s. pose proof (nth_error_In _ _ Hs) as Hin.
    destruct go_strict as (S0 & HS0 & ES & HR). destruct (HR s Hin) as [R _].
    destruct (top_spec m g cs Hcs) as [TT (i0 & d0 & h0 & Hd0 & Hh0 & TE)].
    destruct (thick_ex m g cs Hcs i0 d0 Hd0) as (h0' & Hh0' & P0). assert (h0' = h0) by (eapply thick_fun; eauto). subst h0'.
    destruct (fin_packing lsolve m g (strict p) S0 h HS0 noflag' tols' s Hin R HA (Qeq_refl 0) i0 d0 h0 Hd0 Hh0 P0) as (z0 & z & rl & EZ & Ez & Lz & Er & _).
    exists rl. split; [exact Hs|]. split; [exact Er|].
    destruct E as [E|[E|E]].
    - pose proof (go_steps cs Hcs). lia.
    - rewrite Er, EP in E. cbn [nltb] in E. qb. exact E.
    - destruct (fin_ratio lsolve m g (strict p) S0 h HS0 noflag' tols' s Hin R) as (z0' & z' & EZ' & Ez' & _ & RT).
      assert (z' = z) by congruence. assert (z0' = z0) by congruence. subst z' z0'. destruct (RT ltac:(lra)) as (r' & Er' & Qr). assert (r' = rl) by congruence. subst r'.
      assert (Z0 : z0 = csZ cs).
      { destruct (solve_inv _ _ _ _ _ _ HS0) as (K2 & cs2 & _ & Hcs2 & E0 & _). assert (cs2 = cs) by congruence. subst cs2. cbv zeta in E0. rewrite E0 in EZ. cbn [sy_Z0] in EZ. congruence. }
      rewrite Qr, Z0. apply Qle_shift_div_l; [lra|].
      assert (ET : sy_tol S = sp_tol p) by (destruct (solve_inv _ _ _ _ _ _ HS) as (K2 & cs2 & _ & _ & -> & _); reflexivity).
      assert (T0 : 0 <= sy_tol S) by (rewrite ET; destruct SD as (_ & (T & _) & _); exact T).
      destruct (compressed_thin m g cs S s Hcs T0 E) as (i & j & d & e & hi & hj & HP & Ti & Tj & LZ). rewrite Ez, ET in LZ. cbn [qof] in LZ.
      pose proof (HB i j d e hi hj HP Ti Tj) as B.
      assert (0 <= c * (hi + hj + 3 * sp_tol p - z)) by (apply Qmult_le_0_compat; lra). lra.
  Qed.
End Call.

(** ** other units, other numbering, other solver *)
Lemma nth2 {A B} (R : A -> B -> Prop) l : forall l' i x, Forall2 R l l' -> nth_error l i = Some x -> exists y, nth_error l' i = Some y /\ R x y.
Proof. intros l' i x H. revert i. induction H; intros [|i] E; cbn [nth_error] in *; try discriminate; [injection E as <-; eauto|eauto]. Qed.
Lemma nth2' {A B} (R : A -> B -> Prop) l : forall l' i y, Forall2 R l l' -> nth_error l' i = Some y -> exists x, nth_error l i = Some x /\ R x y.
Proof. intros l' i y H. revert i. induction H; intros [|i] E; cbn [nth_error] in *; try discriminate; [injection E as <-; eauto|eauto]. Qed.
Lemma nth_of_firstn {A} (l : list A) : forall n i x, nth_error (firstn n l) i = Some x -> nth_error l i = Some x.
Proof. induction l as [|a l IH]; intros [|n] [|i] x; cbn [firstn nth_error]; try discriminate; auto. apply IH. Qed.
Section Units.
  Variable U : units.
  Hypothesis HU : units_ok U.
  Let lam := un_len U.
  Variables m m' : qmat.
  Variables g g' : mesh_df.
  Hypothesis Hm : mat_seen U m m'.
  Hypothesis Hg : mesh_seen U g g'.
  Lemma un_pos : 0 < lam. Proof. apply HU. Qed.
  Lemma un_node i d : is_node (g_rows g) i d -> exists d', is_node (g_rows g') i d' /\ nf d' = nf d /\ nbeam d' = nbeam d /\ ncons d' = ncons d /\ ns d' == lam * ns d /\ nz d' == lam * nz d.
  Proof.
    intros (lab & E). destruct (nth2 _ _ _ _ _ Hg E) as ([lab' d'] & E' & N). unfold node_seen in N. cbn [fst snd] in N. exists d'. split; [exists lab'; exact E'|].
    destruct N as (_ & A & B & C & D & F). repeat (split; [assumption|]). exact F.
  Qed.
  Lemma un_node' i d' : is_node (g_rows g') i d' -> exists d, is_node (g_rows g) i d /\ nf d' = nf d /\ nbeam d' = nbeam d /\ ncons d' = ncons d /\ ns d' == lam * ns d /\ nz d' == lam * nz d.
  Proof.
    intros (lab & E). destruct (nth2' _ _ _ _ _ Hg E) as ([lab' d] & E' & N). unfold node_seen in N. cbn [fst snd] in N. exists d. split; [exists lab'; exact E'|].
    destruct N as (_ & A & B & C & D & F). repeat (split; [assumption|]). exact F.
  Qed.
  Lemma un_thick d d' h : nf d' = nf d -> thick m d h -> exists h', thick m' d' h' /\ h' == lam * h.
  Proof.
    intros En (f & (F0 & F1) & F2). destruct (nth2 _ _ _ _ _ Hm F1) as (f' & F1' & N). exists (qh f'). split.
    - exists f'. split; [|reflexivity]. unfold has_fiber. rewrite En. split; auto.
    - rewrite <- F2. apply N.
  Qed.
  Lemma un_thick' d d' h' : nf d' = nf d -> thick m' d' h' -> exists h, thick m d h /\ h' == lam * h.
  Proof.
    intros En (f' & (F0 & F1) & F2). rewrite En in F0, F1. destruct (nth2' _ _ _ _ _ Hm F1) as (f & F1' & N). exists (qh f). split.
    - exists f. split; [|reflexivity]. split; auto.
    - rewrite <- F2. apply N.
  Qed.
  Lemma un_paired i j d e : paired g i j d e -> exists d' e', paired g' i j d' e' /\ nf d' = nf d /\ nf e' = nf e /\ nz d' == lam * nz d /\ nz e' == lam * nz e.
  Proof.
    intros (Hd & He & C & L). destruct (un_node i d Hd) as (d' & D1 & D2 & _ & D4 & _ & D6). destruct (un_node j e He) as (e' & E1 & E2 & _ & _ & _ & E6).
    exists d', e'. split; [split; [exact D1|split; [exact E1|split; [congruence|exact L]]]|]. auto.
  Qed.
  Section State.
    Variables tol tol' z z' : Q.
    Variables u u' : list Q.
    Hypothesis Ht : tol' == lam * tol.
    Hypothesis Hz : z' == lam * z.
    Hypothesis Hu : forall i, disp u' i == lam * disp u i.
    Lemma un_le a b a' b' : a' == lam * a -> b' == lam * b -> a <= b -> a' <= b'.
    Proof. intros -> -> H. apply Qmult_le_l; [apply un_pos|exact H]. Qed.
    Lemma un_floor i d d' : nf d' = nf d -> nz d' == lam * nz d -> on_floor m tol u i d -> on_floor m' tol' u' i d'.
    Proof.
      intros En Ez (h & T & H). destruct (un_thick d d' h En T) as (h' & T' & Eh). exists h'. split; auto.
      eapply un_le; [|exact Ht|exact H]. rewrite Ez, (Hu i), Eh. field.
    Qed.
    Lemma un_lid i d d' : nf d' = nf d -> nz d' == lam * nz d -> on_lid m tol u z i d -> on_lid m' tol' u' z' i d'.
    Proof.
      intros En Ez (h & T & H). destruct (un_thick d d' h En T) as (h' & T' & Eh). exists h'. split; auto.
      eapply un_le; [|exact Ht|exact H]. rewrite Ez, (Hu i), Eh, Hz. field.
    Qed.
    Lemma un_touching i j d d' e e' : nf d' = nf d -> nz d' == lam * nz d -> nf e' = nf e -> nz e' == lam * nz e -> touching m tol u i j d e -> touching m' tol' u' i j d' e'.
    Proof.
      intros En Ez En2 Ez2 (h & h2 & T & T2 & H). destruct (un_thick d d' h En T) as (h' & T' & Eh). destruct (un_thick e e' h2 En2 T2) as (h2' & T2' & Eh2).
      exists h', h2'. split; auto. split; auto. eapply un_le; [|exact Ht|exact H]. rewrite Ez, (Hu i), Eh, Ez2, (Hu j), Eh2. field.
    Qed.
    Lemma un_compressed : compressed m g tol u z -> compressed m' g' tol' u' z'.
    Proof.
      intros (i & j & d & e & P & F & L & C). destruct (un_paired i j d e P) as (d' & e' & P' & A & B & Dz & Ez). exists i, j, d', e'.
      split; auto. split; [eapply un_floor; eauto|]. split; [eapply un_lid; eauto|]. destruct C as [C|C]; auto. right. eapply un_touching; eauto.
    Qed.
    Lemma un_held f : held m g tol u z f -> held m' g' tol' u' z' f.
    Proof.
      induction 1 as [i j d e P F|i j d e P F|i j d e P N F _ IH|i j d e P N F _ IH]; destruct (un_paired i j d e P) as (d' & e' & P' & A & B & Dz & Ez).
      - rewrite <- A. eapply held_floor; eauto. eapply un_floor; eauto.
      - rewrite <- B. eapply held_lid; eauto. eapply un_lid; eauto.
      - rewrite <- B. eapply held_below; eauto; [|rewrite A; exact IH]. eapply un_touching; eauto.
      - rewrite <- A. eapply held_above; eauto; [|rewrite B; exact IH]. eapply un_touching; eauto.
    Qed.
    Lemma un_all : all_held m g tol u z -> all_held m' g' tol' u' z'.
    Proof. intros H i d' Hd'. destruct (un_node' i d' Hd') as (d & Hd & En & _). rewrite En. apply un_held. eapply H; eauto. Qed.
  End State.
  Lemma un_shear : finite_shear m -> finite_shear m'.
  Proof.
    intros H f' Hf. apply In_nth_error in Hf. destruct Hf as (i & Hi). destruct (nth2' _ _ _ _ _ Hm Hi) as (f & Hf & N).
    destruct (H f (nth_error_In _ _ Hf)) as (G & EG). destruct N as (_ & _ & N & _). rewrite EG in N.
    destruct (qG f') as [G'| | |]; simpl in N; try contradiction. exists G'. reflexivity.
  Qed.
  Lemma un_beam i j d' e' : beam_element g' i j d' e' -> exists d e, beam_element g i j d e /\ ns d' == lam * ns d /\ ns e' == lam * ns e.
  Proof.
    intros (A & B & C & D). destruct (un_node' i d' A) as (d & Hd & _ & Eb & _ & Es & _). destruct (un_node' j e' B) as (e & He & _ & _ & _ & Es' & _).
    exists d, e. split; [|auto]. split; [exact Hd|split; [exact He|split; [exact C|congruence]]].
  Qed.
  Lemma un_lengths lmin lmin' lmax lmax' : option_in U lmin lmin' -> option_in U lmax lmax' -> lengths_ok g lmin lmax -> lengths_ok g' lmin' lmax'.
  Proof.
    pose proof un_pos as P. intros A B (C & D). split.
    - destruct lmin as [v|], lmin' as [v'|]; simpl in A; try contradiction.
      + rewrite A. apply Qmult_lt_0_compat; [exact P|exact C].
      + intros i j d' e' H. destruct (un_beam i j d' e' H) as (d & e & H' & E1 & E2). rewrite E1, E2. apply Qmult_lt_l; [exact P|]. eapply C; eauto.
    - destruct lmax as [v|], lmax' as [v'|]; simpl in B; try contradiction.
      + rewrite B. apply Qmult_lt_0_compat; [exact P|exact D].
      + destruct D as (i & j & d & e & (D1 & D2 & D3 & D4) & Dl). destruct (un_node i d D1) as (d' & Hd & _ & Eb & _ & Es & _). destruct (un_node j e D2) as (e' & He & _ & _ & _ & Es' & _).
        exists i, j, d', e'. split; [split; [exact Hd|split; [exact He|split; [exact D3|congruence]]]|]. rewrite Es, Es'. apply Qmult_lt_l; [exact P|exact Dl].
  Qed.
  Lemma un_starts tol tol' z : tol' == lam * tol -> highest_top m g z -> starts_held m g tol -> starts_held m' g' tol'.
  Proof.
    intros Ht HT H z' (T1 & i & d' & h' & Hd' & Th & TE).
    assert (Ez : z' == lam * z).
    { pose proof un_pos as P. apply Qle_antisym.
      - destruct (un_node' i d' Hd') as (d & Hd & En & _ & _ & _ & Ez). destruct (un_thick' d d' h' En Th) as (h & Th1 & Eh). rewrite <- TE, Ez, Eh.
        pose proof (proj1 HT i d h Hd Th1) as L. apply (Qmult_le_l _ _ lam P) in L. qlra.
      - destruct HT as (_ & j & e & k & He & Tk & KE). destruct (un_node j e He) as (e' & He' & En & _ & _ & _ & Ez). destruct (un_thick e e' k En Tk) as (k' & Tk' & Ek).
        pose proof (T1 j e' k' He' Tk') as L. rewrite Ez, Ek in L. rewrite <- KE. qlra. }
    apply (un_all tol tol' z z' [] []); auto. intros j. unfold disp. destruct (2 * j)%nat; simpl; ring.
  Qed.
End Units.

Definition cut (n : nat) (p : solve_params) : solve_params :=
  mkSolve (sp_packing p) n (sp_perm p) (sp_tol p) (sp_errtol p) (sp_lmin p) (sp_lmax p) (sp_coupling p).
Lemma cut_ok lsolve m g p S h n : solve lsolve m g p = Ok (S, h) -> (n <= sp_itermax p)%nat -> solve lsolve m g (cut n p) = Ok (S, firstn (Datatypes.S n) h).
Proof.
  intros HS L. destruct (solve_inv _ _ _ _ _ _ HS) as (K & cs & HK & Hcs & ES & EH).
  assert (E : exists h', solve lsolve m g (cut n p) = Ok (S, h')).
  { unfold solve, assemble, cut. cbn [sp_lmin sp_lmax sp_coupling sp_perm sp_tol sp_errtol sp_packing sp_itermax]. rewrite HK, Hcs. cbv zeta in ES. rewrite ES. eexists. reflexivity. }
  destruct E as (h' & E). rewrite E. f_equal. f_equal.
  destruct (fin_more lsolve m g (cut n p) S h' E p S h) as (_ & F & _); auto.
Qed.
Lemma sc_dq U m m' g g' lsolve lsolve' p p' S h S' h' : units_ok U -> mat_seen U m m' -> mesh_seen U g g' -> solve lsolve m g p = Ok (S, h) -> solve lsolve' m' g' p' = Ok (S', h') ->
  sy_dq S' = sy_dq S.
Proof.
  intros HU Hm Hg E E'. destruct (solve_inv _ _ _ _ _ _ E) as (K & cs & HK & HC & ES & _). destruct (solve_inv _ _ _ _ _ _ E') as (K' & cs' & HK' & HC' & ES' & _).
  cbv zeta in *. destruct (sc_constraint U HU m m' Hm g g' Hg cs cs' HC HC') as (_ & C2 & _). rewrite ES, ES'. cbn [sy_dq]. rewrite C2, (same_len U g g' Hg). reflexivity.
Qed.
Theorem seen_calls U lsolve lsolve' m m' g g' p p' S h S' h' : units_ok U -> mat_seen U m m' -> mesh_seen U g g' -> params_in U p p' ->
  direct_solver lsolve -> direct_solver lsolve' -> sound_data m g p -> ~ flag_set (g_attrs g') -> tolerances_ok p' -> 3 * sp_errtol p' < 1 ->
  starts_held m g (sp_tol p) -> solve lsolve m g p = Ok (S, h) -> solve lsolve' m' g' p' = Ok (S', h') ->
  numbering (length (sy_dq S)) (sp_perm p) -> numbering (length (sy_dq S)) (sp_perm p') ->
  Forall2 (record_in U S S') h h'.
Proof.
  intros HU Hm Hg HP D D' SD NF' T' E3' SH E E' N N'.
  pose proof (sc_dq U m m' g g' _ _ _ _ _ _ _ _ HU Hm Hg E E') as EQ.
  pose proof HP as (P1 & P2 & P3 & P4 & P5 & P6). destruct SD as (NF & T & E3 & CP & HL & HG).
  assert (SD : sound_data m g p) by (repeat (split; [assumption|]); assumption).
  assert (SD' : sound_data m' g' p').
  { split; [exact NF'|]. split; [exact T'|]. split; [exact E3'|]. split; [rewrite P6; exact CP|]. split; [exact (un_lengths U HU g g' Hg _ _ _ _ P4 P5 HL)|exact (un_shear U m m' Hm HG)]. }
  assert (N2 : numbering (length (sy_dq S')) (sp_perm p')) by (rewrite EQ; exact N').
  destruct (fin_history lsolve m g p S h E) as (L & (s0 & Hs0 & _ & _ & (z0 & _ & HT) & _) & _).
  assert (SH' : starts_held m' g' (sp_tol p')) by exact (un_starts U HU m m' g g' Hm Hg _ _ z0 P3 HT SH).
  assert (Lh : (0 < length h)%nat) by (destruct h; [discriminate Hs0|cbn [length]; lia]).
  set (n := (length h - 1)%nat). assert (Ln : length h = Datatypes.S n) by (unfold n; lia).
  pose proof (cut_ok lsolve m g p S h n E ltac:(lia)) as Ec. pose proof (cut_ok lsolve' m' g' p' S' h' n E' ltac:(lia)) as Ec'.
  rewrite <- Ln in Ec, Ec'. rewrite firstn_all in Ec.
  assert (F : Forall2 (record_in U S S') h (firstn (length h) h')).
  { apply (seen_solve U lsolve lsolve' m m' g g' (cut n p) (cut n p') S h S' (firstn (length h) h')); auto; try apply D; try apply D'.
    - unfold params_in, cut. cbn [sp_lmin sp_lmax sp_coupling sp_perm sp_tol sp_errtol sp_packing sp_itermax]. repeat (split; [first [assumption|reflexivity]|]). assumption.
    - intros k s Hk Lk _. cbn [cut sp_itermax] in Lk. destruct (go_regular lsolve m g p S h D SD N SH E k s Hk) as (_ & R & C). apply R. intros Q. apply C in Q. lia. }
  assert (LE : (length h' <= length h)%nat); [|rewrite firstn_all2 in F by exact LE; exact F].
  destruct (fin_history lsolve' m' g' p' S' h' E') as (L' & _ & ST).
  destruct (go_end lsolve m g p S h D SD N SH E) as (s & Hs & [Q|[Q|Q]]); [rewrite P2 in L'; lia| |]; fold n in Hs; destruct (nth2 _ _ _ _ _ F Hs) as (s' & Hs' & RI);
    assert (Hs2 : nth_error h' n = Some s') by exact (nth_of_firstn _ _ _ _ Hs').
  - destruct (nth_error h' (Datatypes.S n)) as [s2|] eqn:E2; [|apply nth_error_None in E2; lia].
    destruct (ST n s' s2 Hs2 E2) as [B _]. exfalso. destruct RI as (_ & _ & _ & _ & _ & RR & _).
    pose proof (t_ltb 1 _ _ _ _ ltac:(lra) RR (t_one (sp_packing p))) as B2. rewrite <- P1 in B2 at 1. congruence.
  - assert (C : compressed_at m' g' S' s').
    { unfold compressed_at in *. destruct RI as (R1 & _ & _ & _ & R5 & _). apply (un_compressed U HU m m' g g' Hm Hg (sy_tol S) (sy_tol S') (qof (st_Z s)) (qof (st_Z s')) (vals (st_u S s)) (vals (st_u S' s'))).
      - destruct (solve_inv _ _ _ _ _ _ E) as (K & cs & _ & _ & -> & _). destruct (solve_inv _ _ _ _ _ _ E') as (K' & cs' & _ & _ & -> & _). exact P3.
      - apply t_qof. exact R5.
      - intros i. unfold disp, vals. change 0 with (qof NaN). rewrite !map_nth. apply t_qof. apply R1.
      - exact Q. }
    destruct (go_regular lsolve' m' g' p' S' h' D' SD' N2 SH' E' n s' Hs2) as (_ & _ & C2). specialize (C2 C). lia.
Qed.

Theorem units_calls U lsolve lsolve' m m' g g' p p' S h S' h' : units_ok U -> mat_in U m m' -> mesh_in U g g' -> params_in U p p' ->
  direct_solver lsolve -> direct_solver lsolve' -> sound_data m g p -> ~ flag_set (g_attrs g') -> tolerances_ok p' -> 3 * sp_errtol p' < 1 ->
  starts_held m g (sp_tol p) -> solve lsolve m g p = Ok (S, h) -> solve lsolve' m' g' p' = Ok (S', h') ->
  numbering (length (sy_dq S)) (sp_perm p) -> numbering (length (sy_dq S)) (sp_perm p') ->
  Forall2 (record_in U S S') h h'.
Proof. intros HU Hm Hg. apply seen_calls; [exact HU|exact (in_seen U m m' Hm)|exact (in_seen_mesh U g g' Hg)]. Qed.

(** the same units *)
Lemma no_units_ok : units_ok no_units. Proof. split; reflexivity. Qed.
Lemma one_times x : times 1 x x. Proof. destruct x; simpl; auto. ring. Qed.
Lemma no_mat m : mat_in no_units m m.
Proof.
  split; [|cbn; ring]. induction (q_rows m); constructor; auto. unfold SpecScale.fiber_in. cbn [no_units un_len un_mod].
  do 9 (split; [ring|]). split; apply one_times.
Qed.
Lemma no_mesh g g' : g_rows g' = g_rows g -> mesh_in no_units g g'.
Proof.
  intros E. unfold mesh_in. rewrite E. clear E. induction (g_rows g); constructor; auto. unfold node_in. cbn [no_units un_len un_mod].
  do 4 (split; [reflexivity|]). do 3 (split; [ring|]). ring.
Qed.
Lemma no_params p p' : same_but_perm p p' -> params_in no_units p p'.
Proof.
  intros ->. unfold params_in. cbn [no_units un_len sp_packing sp_itermax sp_tol sp_lmin sp_lmax sp_coupling]. do 2 (split; [reflexivity|]). split; [ring|].
  split; [destruct (sp_lmin p); simpl; auto; ring|]. split; [destruct (sp_lmax p); simpl; auto; ring|]. reflexivity.
Qed.
Theorem numbering_calls lsolve lsolve' m g p p' S h S' h' : direct_solver lsolve -> direct_solver lsolve' -> sound_data m g p -> starts_held m g (sp_tol p) ->
  same_but_perm p p' -> solve lsolve m g p = Ok (S, h) -> solve lsolve' m g p' = Ok (S', h') ->
  numbering (length (sy_dq S)) (sp_perm p) -> numbering (length (sy_dq S)) (sp_perm p') ->
  Forall2 (record_in no_units S S') h h'.
Proof.
  intros D D' SD SH SP E E' N N'. apply (units_calls no_units lsolve lsolve' m m g g p p' S h S' h'); auto.
  - exact no_units_ok.
  - apply no_mat.
  - apply no_mesh; reflexivity.
  - apply no_params; auto.
  - apply SD.
  - rewrite SP. destruct SD as (_ & T & _). exact T.
  - rewrite SP. destruct SD as (_ & _ & T & _). exact T.
Qed.
