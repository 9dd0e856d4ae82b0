(** Proofs about constraint (C34, C35, C56). *)
From Coq Require Import String Permutation.
From Verif Require Import Num NumP ListX ListP Frames MatM NetM StackM MeshM ModelM Spec SpecNet SpecStack SpecMesh SpecModel
  CheckP GroupP MeshCheckP NetP NetGeoP NetZP StackP StackNewP MeshP StiffP.
Open Scope Q_scope.

(** ** Rows of C *)
Lemma product_pick {A} (fr : nat -> nat) (fc : A -> nat) v u (ps : list A) : (forall a b, fr a = fr b -> a = b) ->
  forall a r, product (map (fun e => (fr (fst e), fc (snd e), Fin v)) (combine (seq a (length ps)) ps)) u r ==
    qsum (map (fun e => if Nat.eqb (fr (fst e)) r then v * nth (fc (snd e)) u 0 else 0) (combine (seq a (length ps)) ps)).
Proof. intros _ a r. unfold product. rewrite map_map. simpl. reflexivity. Qed.
Lemma sum_none {A} (fr : nat -> nat) (y : A -> Q) ps : forall a r, (forall k, (a <= k)%nat -> fr k <> r) ->
  qsum (map (fun e => if Nat.eqb (fr (fst e)) r then y (snd e) else 0) (combine (seq a (length ps)) ps)) == 0.
Proof.
  induction ps as [|p ps IH]; intros a r H; simpl; [reflexivity|].
  destruct (Nat.eqb_spec (fr a) r) as [E|E]; [destruct (H a (le_n _) E)|]. rewrite IH by (intros; apply H; lia). ring.
Qed.
Lemma sum_at {A} (fr : nat -> nat) (y : A -> Q) ps : (forall a b, fr a = fr b -> a = b) ->
  forall a k p, nth_error ps k = Some p ->
  qsum (map (fun e => if Nat.eqb (fr (fst e)) (fr (a + k)%nat) then y (snd e) else 0) (combine (seq a (length ps)) ps)) == y p.
Proof.
  intros inj. induction ps as [|q ps IH]; intros a [|k] p H; simpl in H; try discriminate; simpl.
  - inversion H; subst. rewrite Nat.add_0_r, Nat.eqb_refl, sum_none; [ring|]. intros k L E. apply inj in E. lia.
  - destruct (Nat.eqb_spec (fr a) (fr (a + S k)%nat)) as [E|E]; [apply inj in E; lia|].
    replace (a + S k)%nat with (S a + k)%nat by lia. rewrite (IH (S a) k p H). ring.
Qed.

Section Rows.
  Variable ps : list (nat * nat).
  Variable u : list Q.
  Let P (fr : nat -> nat) (fc : nat * nat -> nat) v : ncoo :=
    map (fun e => (fr (fst e), fc (snd e), Fin v)) (combine (seq 0 (length ps)) ps).
  Lemma part_at fr fc v k p : (forall a b, fr a = fr b -> a = b) -> nth_error ps k = Some p ->
    product (P fr fc v) u (fr k) == v * nth (fc p) u 0.
  Proof.
    intros inj H. unfold P. rewrite (product_pick fr fc v u ps inj).
    apply (sum_at fr (fun p => v * nth (fc p) u 0) ps inj 0 k p H).
  Qed.
  Lemma part_none fr fc v r : (forall k, fr k <> r) -> product (P fr fc v) u r == 0.
  Proof.
    intros H. unfold P, product. rewrite map_map. simpl.
    apply (sum_none fr (fun p => v * nth (fc p) u 0) ps 0 r). auto.
  Qed.
  Lemma c_rows k i j : nth_error ps k = Some (i, j) ->
    product (c_matrix ps) u (3 * k) == - disp u i /\
    product (c_matrix ps) u (3 * k + 1) == disp u i - disp u j /\
    product (c_matrix ps) u (3 * k + 2) == disp u j.
  Proof.
    intros H. unfold c_matrix.
    assert (D : forall r, product (c_matrix ps) u r ==
      product (P (fun k => 3 * k)%nat (fun p => 2 * fst p)%nat (- (1))) u r
      + product (P (fun k => 3 * k + 1)%nat (fun p => 2 * fst p)%nat 1) u r
      + product (P (fun k => 3 * k + 1)%nat (fun p => 2 * snd p)%nat (- (1))) u r
      + product (P (fun k => 3 * k + 2)%nat (fun p => 2 * snd p)%nat 1) u r).
    { intros r. unfold c_matrix, P. rewrite !product_app. ring. }
    fold (c_matrix ps). rewrite !D. unfold disp.
    split; [|split].
    - rewrite (part_at (fun k => 3 * k)%nat _ _ k (i, j)) by (auto; intros; lia).
      rewrite !(part_none (fun k => 3 * k + 1)%nat) by (intros; lia).
      rewrite (part_none (fun k => 3 * k + 2)%nat) by (intros; lia). simpl. ring.
    - rewrite (part_none (fun k => 3 * k)%nat) by (intros; lia).
      rewrite !(part_at (fun k => 3 * k + 1)%nat _ _ k (i, j)) by (auto; intros; lia).
      rewrite (part_none (fun k => 3 * k + 2)%nat) by (intros; lia). simpl. ring.
    - rewrite (part_none (fun k => 3 * k)%nat) by (intros; lia).
      rewrite !(part_none (fun k => 3 * k + 1)%nat) by (intros; lia).
      rewrite (part_at (fun k => 3 * k + 2)%nat _ _ k (i, j)) by (auto; intros; lia). simpl. ring.
  Qed.
End Rows.

Lemma flat3_nth {A B} (f : A -> list B) (l : list A) : (forall a, length (f a) = 3%nat) ->
  forall k q, (q < 3)%nat -> nth_error (flat_map f l) (3 * k + q) =
    match nth_error l k with Some a => nth_error (f a) q | None => None end.
Proof.
  intros H. induction l as [|a l IH]; intros k q Hq.
  - simpl flat_map. destruct (3 * k + q)%nat; destruct k; reflexivity.
  - simpl flat_map. destruct k as [|k].
    + rewrite nth_error_app1 by (rewrite H; lia). reflexivity.
    + rewrite nth_error_app2 by (rewrite H; lia). rewrite H. replace (3 * S k + q - 3)%nat with (3 * k + q)%nat by lia.
      rewrite IH; auto.
Qed.
Lemma split3 r : exists k q, (q < 3)%nat /\ r = (3 * k + q)%nat.
Proof.
  exists (Nat.div r 3), (Nat.modulo r 3). split; [apply Nat.mod_upper_bound; lia|]. apply Nat.div_mod. lia.
Qed.

Lemma nleb_fin a b : nleb (Fin a) (Fin b) = true <-> a <= b.
Proof.
  unfold nleb. simpl. rewrite orb_true_iff. split.
  - intros [H|H]; qb; lra.
  - intros H. destruct (Qlt_le_dec a b); [left|right]; qb; lra.
Qed.

Section Constraint.
  Variable m : qmat.
  Variable g : mesh_df.
  Variable s : csys.
  Hypothesis Hs : constraint m g = Ok s.
  Let rows := g_rows g.
  Let ds := map snd rows.

  Lemma cons_inv : mesh_check g = Ok true /\ valid m /\ fibers_known m ds = true /\
    exists t0 t, tops ds (h_column m ds) = t0 :: t /\
    s = mkCsys (c_matrix (cons_pairs rows)) (flat_map (h_rows ds (h_column m ds) (qmax_list t0 t)) (cons_pairs rows))
               (flat_map (fun _ => [Fin 0; Fin 0; Fin 1]) (cons_pairs rows)) (qmax_list t0 t)
               (mkMeshDf (add_col "h" (g_cols g)) rows (g_attrs g) (g_intf g) (g_intl g) (Some (h_column m ds))).
  Proof.
    revert Hs. unfold constraint.
    destruct (mat_check (df_of m)) as [b|] eqn:E1; [|discriminate]. pose proof (mat_check_true _ _ E1). subst b.
    destruct (mesh_check g) as [b|] eqn:E2; [|discriminate]. pose proof (mesh_check_true _ _ E2). subst b. simpl.
    fold rows ds. destruct (fibers_known m ds) eqn:E3; [|discriminate]. simpl.
    destruct (tops ds (h_column m ds)) as [|t0 t] eqn:E4; [discriminate|]. intros H. inversion H.
    split; auto. split; [apply check_valid; auto|]. split; auto. exists t0, t. auto.
  Qed.

  (** *** C56 *)
  Lemma cons_mesh : g_rows (csmesh s) = rows /\ g_attrs (csmesh s) = g_attrs g /\
    (forall c, In c (g_cols g) -> In c (g_cols (csmesh s))) /\
    (forall c, In c (g_cols (csmesh s)) -> In c (g_cols g) \/ c = "h"%string) /\ In "h"%string (g_cols (csmesh s)).
  Proof.
    destruct cons_inv as (_ & _ & _ & t0 & t & _ & ->). simpl. split; auto. split; auto. unfold add_col.
    destruct (existsb _ _) eqn:E.
    - split; auto. split; auto. apply existsb_exists in E. destruct E as (x & Hx & E). apply String.eqb_eq in E. subst. auto.
    - split; [intros; apply in_or_app; auto|]. split; [|apply in_or_app; right; left; auto].
      intros c H. apply in_app_or in H. destruct H as [|[|[]]]; auto.
  Qed.
  Lemma h_at i d : is_node rows i d -> exists f, has_fiber m (nf d) f /\ nth_error (h_column m ds) i = Some (qh f).
  Proof.
    intros (lab & H). destruct cons_inv as (_ & _ & HF & _). unfold fibers_known in HF. rewrite forallb_forall in HF.
    assert (Hd : nth_error ds i = Some d) by (unfold ds; rewrite nth_error_map, H; auto).
    specialize (HF d (nth_error_In _ _ Hd)). unfold in_range in HF. apply andb_true_iff in HF. rewrite Z.leb_le, Z.ltb_lt in HF.
    exists (nth (Z.to_nat (nf d)) (q_rows m) fiber0). split.
    - split; [lia|]. apply nth_error_nth'. apply Nat2Z.inj_lt. rewrite Z2Nat.id; lia.
    - unfold h_column. rewrite nth_error_map, Hd. auto.
  Qed.
  Lemma cons_h : exists hs, g_h (csmesh s) = Some hs /\ length hs = length rows /\
    forall i d h, is_node rows i d -> thick m d h -> nth_error hs i = Some h.
  Proof.
    exists (h_column m ds). destruct cons_inv as (_ & _ & _ & t0 & t & _ & E). split; [rewrite E; auto|].
    split; [unfold h_column, ds; rewrite !map_length; auto|].
    intros i d h Hd (f & Hf & <-). destruct (h_at i d Hd) as (f' & Hf' & E'). rewrite E'.
    destruct Hf as [_ Hf]. destruct Hf' as [_ Hf']. congruence.
  Qed.
  Lemma cons_check : mesh_check (csmesh s) = Ok true.
  Proof.
    destruct cons_inv as (HC & _ & _ & t0 & t & _ & E). destruct cons_mesh as (ER & EA & HI & _ & _).
    assert (EF : g_intf (csmesh s) = g_intf g /\ g_intl (csmesh s) = g_intl g) by (rewrite E; auto).
    apply mesh_check_ok in HC. apply mesh_check_ok. rewrite EA. destruct HC as [HC|HC]; [left; auto|right].
    unfold mesh_ok in *. rewrite ER, EA, (proj1 EF), (proj2 EF). destruct HC as [HC1 HC2]. split; auto.
    intros c Hc. apply HI, HC1, Hc.
  Qed.
  Lemma cons_again : constraint m (csmesh s) = Ok s.
  Proof.
    assert (EA : add_col "h" (add_col "h" (g_cols g)) = add_col "h" (g_cols g)).
    { unfold add_col. destruct (existsb (String.eqb "h") (g_cols g)) eqn:EH; [rewrite EH; auto|].
      rewrite existsb_app, EH. reflexivity. }
    destruct cons_inv as (HC & Hv & HF & t0 & t & ET & E). pose proof cons_check as HC'.
    unfold constraint. rewrite (proj2 (mat_check_ok (df_of m)) (or_intror Hv)), HC'. rewrite E.
    cbn [csmesh g_rows g_cols g_attrs g_intf g_intl]. fold ds. cbv beta iota zeta. rewrite HF. cbn [negb].
    rewrite ET, EA. reflexivity.
  Qed.

  (** *** C34 *)
  Hypothesis noflag : ~ flag_set (g_attrs g).
  Lemma cmok : mesh_ok g.
  Proof. destruct cons_inv as (HC & _). apply mesh_check_ok in HC. destruct HC; [contradiction|auto]. Qed.
  Lemma clabelled : labelled_in_order rows.
  Proof. destruct cmok as (_ & n & _ & _ & _ & HL & _). exact HL. Qed.
  Lemma cinv : cons_involution rows.
  Proof. destruct cmok as (_ & n & _ & _ & _ & _ & _ & _ & _ & _ & _ & HI & _). exact HI. Qed.

  Lemma pair_inv k i j : nth_error (cons_pairs rows) k = Some (i, j) ->
    exists d e, is_node rows i d /\ is_node rows j e /\ ncons d = Z.of_nat j /\ ncons e = Z.of_nat i /\ (i <= j)%nat.
  Proof.
    intros H. apply nth_error_In in H. unfold cons_pairs in H. apply in_map_iff in H. destruct H as ([lab d] & E & H).
    apply filter_In in H. destruct H as [H L]. simpl in L. apply Z.leb_le in L. apply In_nth_error in H. destruct H as (n & H).
    pose proof (clabelled _ _ _ H). subst lab. assert (Hd : is_node rows n d) by (eexists; eauto).
    destruct (cinv n d Hd) as (c & e & Ec & He & Ee). simpl in E. rewrite Ec, !Nat2Z.id in E. inversion E; subst.
    exists d, e. split; auto. split; auto. split; auto. split; auto. lia.
  Qed.
  Lemma pair_ex i d j : is_node rows i d -> ncons d = Z.of_nat j -> (i <= j)%nat ->
    exists k, nth_error (cons_pairs rows) k = Some (i, j).
  Proof.
    intros (lab & Hd) Ej L. apply In_nth_error. pose proof (clabelled _ _ _ Hd). subst lab.
    unfold cons_pairs. apply in_map_iff. exists (Z.of_nat i, d). simpl. rewrite Ej, !Nat2Z.id. split; auto.
    apply filter_In. split; [eapply nth_error_In; eauto|]. simpl. rewrite Ej. apply Z.leb_le. lia.
  Qed.
  Lemma nth_ds i d : is_node rows i d -> nth i ds node0 = d.
  Proof. intros (lab & H). apply nth_error_nth. unfold ds. rewrite nth_error_map, H. auto. Qed.
  Lemma nth_h i d h : is_node rows i d -> thick m d h -> nth i (h_column m ds) 0 = h.
  Proof.
    intros Hd (f & Hf & <-). destruct (h_at i d Hd) as (f' & Hf' & E'). apply nth_error_nth. rewrite E'.
    destruct Hf as [_ Hf]. destruct Hf' as [_ Hf']. congruence.
  Qed.
  Lemma thick_ex i d : is_node rows i d -> exists h, thick m d h /\ 0 < h.
  Proof.
    intros Hd. destruct (h_at i d Hd) as (f & Hf & _). exists (qh f). split; [exists f; auto|].
    destruct cons_inv as (_ & Hv & _). destruct (valid_fiber m Hv f) as (_ & _ & Hh & _); auto. eapply nth_error_In; apply Hf.
  Qed.
  Lemma thick_fun d h h' : thick m d h -> thick m d h' -> h = h'.
  Proof. intros (f & [_ Hf] & <-) (f' & [_ Hf'] & <-). congruence. Qed.

  (** any bounds with the right values *)
  Definition bounds_for (Z : Q) (Hb : list num) : Prop :=
    length Hb = (3 * length (cons_pairs rows))%nat /\
    forall k i j d e hi hj, nth_error (cons_pairs rows) k = Some (i, j) -> is_node rows i d -> is_node rows j e ->
      thick m d hi -> thick m e hj ->
      (exists b, nth_error Hb (3 * k) = Some (Fin b) /\ b == nz d - hi / 2) /\
      (exists b, nth_error Hb (3 * k + 1) = Some b /\ (i = j -> b = PInf) /\
         (i <> j -> exists q, b = Fin q /\ q == nz e - nz d - (hi + hj) / 2)) /\
      (exists b, nth_error Hb (3 * k + 2) = Some (Fin b) /\ b == Z - nz e - hj / 2).
  Lemma admissible_iff Z Hb u : bounds_for Z Hb ->
    satisfies (csC s) Hb u <-> in_slab m g Z u /\ no_overlap m g u.
  Proof.
    intros [HL HB]. assert (EC : csC s = c_matrix (cons_pairs rows)).
    { destruct cons_inv as (_ & _ & _ & t0 & t & _ & ->). auto. }
    rewrite EC. clear EC. unfold in_slab, no_overlap. fold rows. split.
    - intros HS.
      assert (PW : forall k i j d e hi hj, nth_error (cons_pairs rows) k = Some (i, j) -> is_node rows i d -> is_node rows j e ->
        thick m d hi -> thick m e hj -> hi / 2 <= nz d + disp u i /\
          (i <> j -> (hi + hj) / 2 <= (nz e + disp u j) - (nz d + disp u i)) /\ nz e + disp u j <= Z - hj / 2).
      { intros k i j d e hi hj Hk Hd He Hi Hj. destruct (HB k i j d e hi hj Hk Hd He Hi Hj) as ((b0 & N0 & E0) & (b1 & N1 & _ & E1) & (b2 & N2 & E2)).
        destruct (c_rows _ u k i j Hk) as (P0 & P1 & P2). split; [|split].
        - specialize (HS _ _ N0). apply nleb_fin in HS. rewrite P0, E0 in HS. lra.
        - intros NE. destruct (E1 NE) as (q & -> & Eq). specialize (HS _ _ N1). apply nleb_fin in HS. rewrite P1, Eq in HS. lra.
        - specialize (HS _ _ N2). apply nleb_fin in HS. rewrite P2, E2 in HS. lra. }
      assert (NO : forall i j d e h h', is_node rows i d -> is_node rows j e -> (i < j)%nat ->
        ncons d = Z.of_nat j -> thick m d h -> thick m e h' ->
        (h + h') / 2 <= (nz e + disp u j) - (nz d + disp u i)).
      { intros i j d e h h' Hd He L Ec Hh Hh'. destruct (pair_ex i d j Hd Ec ltac:(lia)) as (k & Hk).
        destruct (PW k i j d e h h' Hk Hd He Hh Hh') as (_ & H1 & _). apply H1. lia. }
      split; auto. intros i d h Hd Hh. destruct (cinv i d Hd) as (j & e & Ec & He & Ee).
      destruct (thick_ex j e He) as (h' & Hh' & Ph').
      assert (Ph : 0 < h). { destruct (thick_ex i d Hd) as (h2 & H2 & P2). rewrite (thick_fun d h h2); auto. }
      destruct (Nat.lt_trichotomy i j) as [L|[L|L]].
      + destruct (pair_ex i d j Hd Ec ltac:(lia)) as (k & Hk). destruct (PW k i j d e h h' Hk Hd He Hh Hh') as (H1 & H2 & H3).
        specialize (H2 ltac:(lia)). split; qlra.
      + subst j. destruct (pair_ex i d i Hd Ec ltac:(lia)) as (k & Hk). destruct (PW k i i d d h h Hk Hd Hd Hh Hh) as (H1 & _ & H3).
        split; qlra.
      + destruct (pair_ex j e i He Ee ltac:(lia)) as (k & Hk). destruct (PW k j i e d h' h Hk He Hd Hh' Hh) as (H1 & H2 & H3).
        specialize (H2 ltac:(lia)). split; qlra.
    - intros [IS NO] r b Hr.
      destruct (split3 r) as (k & q & Hq & ->).
      destruct (nth_error (cons_pairs rows) k) as [[i j]|] eqn:Hk.
      + destruct (pair_inv k i j Hk) as (d & e & Hd & He & Ec & Ee & L).
        destruct (thick_ex i d Hd) as (hi & Hi & _). destruct (thick_ex j e He) as (hj & Hj & _).
        destruct (HB k i j d e hi hj Hk Hd He Hi Hj) as ((b0 & N0 & E0) & (b1 & N1 & E1' & E1) & (b2 & N2 & E2)).
        destruct (c_rows _ u k i j Hk) as (P0 & P1 & P2).
        destruct q as [|[|[|q]]]; [| | |lia].
        * rewrite Nat.add_0_r in *. assert (b = Fin b0) by congruence. subst b. apply nleb_fin. rewrite P0, E0.
          destruct (IS i d hi Hd Hi). lra.
        * assert (b = b1) by congruence. subst b. destruct (Nat.eq_dec i j) as [Q|Q].
          -- rewrite (E1' Q). reflexivity.
          -- destruct (E1 Q) as (x & -> & Ex). apply nleb_fin. rewrite P1, Ex.
             pose proof (NO i j d e hi hj Hd He ltac:(lia) Ec Hi Hj). lra.
        * assert (b = Fin b2) by congruence. subst b. apply nleb_fin. rewrite P2, E2.
          destruct (IS j e hj He Hj). lra.
      + exfalso. apply nth_error_None in Hk. assert (3 * k + q < length Hb)%nat by (apply nth_error_Some; congruence). lia.
  Qed.

  Lemma flat3_len {A B} (f : A -> list B) l : (forall a, length (f a) = 3%nat) -> length (flat_map f l) = (3 * length l)%nat.
  Proof. intros H. induction l as [|a l IH]; simpl; auto. rewrite app_length, H, IH. lia. Qed.
  Lemma H_bounds : bounds_for (csZ s) (csH s).
  Proof.
    destruct cons_inv as (_ & _ & _ & t0 & t & _ & E).
    assert (EH : csH s = flat_map (h_rows ds (h_column m ds) (csZ s)) (cons_pairs rows)) by (rewrite E; auto).
    rewrite EH. generalize (csZ s). intros Z. clear E EH. split; [apply flat3_len; reflexivity|].
    intros k i j d e hi hj Hk Hd He Hi Hj. 
    assert (N : forall q, (q < 3)%nat -> nth_error (flat_map (h_rows ds (h_column m ds) Z) (cons_pairs rows)) (3 * k + q)
              = nth_error (h_rows ds (h_column m ds) Z (i, j)) q).
    { intros q Hq. rewrite flat3_nth by (reflexivity || lia). rewrite Hk. auto. }
    unfold h_rows in N at 2. cbn [nth_error fst snd] in N.
    rewrite (nth_ds i d Hd), (nth_ds j e He), (nth_h i d hi Hd Hi), (nth_h j e hj He Hj) in N. unfold half in N.
    split; [|split].
    - eexists. split; [rewrite <- (Nat.add_0_r (3 * k)); apply (N 0%nat); lia|]. qlra.
    - eexists. split; [apply (N 1%nat); lia|]. split.
      + intros ->. rewrite Nat.eqb_refl. auto.
      + intros NE. destruct (Nat.eqb_spec i j); [congruence|]. eexists. split; [reflexivity|]. qlra.
    - eexists. split; [apply (N 2%nat); lia|]. qlra.
  Qed.
  Lemma moved_bounds x : bounds_for (csZ s + x) (bounds_at (csH s) (csdH s) x).
  Proof.
    destruct H_bounds as [HL HB].
    assert (ED : csdH s = flat_map (fun _ => [Fin 0; Fin 0; Fin 1]) (cons_pairs rows)).
    { destruct cons_inv as (_ & _ & _ & t0 & t & _ & ->). auto. }
    assert (LD : length (csdH s) = (3 * length (cons_pairs rows))%nat) by (rewrite ED; apply flat3_len; auto).
    assert (N : forall r b c, nth_error (csH s) r = Some b -> nth_error (csdH s) r = Some c ->
       nth_error (bounds_at (csH s) (csdH s) x) r = Some (nadd b (nmul (Fin x) c))).
    { intros r b c Hb Hc. unfold bounds_at. rewrite nth_error_map, (combine_nth_error _ _ _ _ _ Hb Hc). auto. }
    split; [unfold bounds_at; rewrite map_length, combine_length, HL, LD; lia|].
    intros k i j d e hi hj Hk Hd He Hi Hj.
    destruct (HB k i j d e hi hj Hk Hd He Hi Hj) as ((b0 & N0 & E0) & (b1 & N1 & E1' & E1) & (b2 & N2 & E2)).
    assert (D : forall q, (q < 3)%nat -> nth_error (csdH s) (3 * k + q) = nth_error [Fin 0; Fin 0; Fin 1] q).
    { intros q Hq. rewrite ED, flat3_nth by (auto; lia). rewrite Hk. auto. }
    split; [|split].
    - exists (b0 + x * 0). split; [apply (N _ (Fin b0) (Fin 0)); [exact N0|]|].
      + rewrite <- (Nat.add_0_r (3 * k)). apply (D 0%nat). lia.
      + rewrite <- E0. ring.
    - eexists. split; [apply (N _ b1 (Fin 0)); [exact N1|apply (D 1%nat); lia]|]. split.
      + intros Q. rewrite (E1' Q). reflexivity.
      + intros Q. destruct (E1 Q) as (q & -> & Eq). eexists. split; [reflexivity|]. rewrite <- Eq. ring.
    - exists (b2 + x * 1). split; [apply (N _ (Fin b2) (Fin 1)); [exact N2|apply (D 2%nat); lia]|]. rewrite E2. ring.
  Qed.
  Lemma top_spec : highest_top m g (csZ s).
  Proof.
    destruct cons_inv as (_ & _ & _ & t0 & t & ET & E). rewrite E. simpl. destruct (qmax_spec t t0) as [HI HM].
    assert (TN : forall i d h, is_node rows i d -> thick m d h -> nth_error (tops ds (h_column m ds)) i = Some (nz d + half * h)).
    { intros i d h Hd Hh. unfold tops. rewrite nth_error_map.
      destruct (h_at i d Hd) as (f & Hf & E1). destruct Hh as (f' & Hf' & <-).
      assert (f = f') by (destruct Hf as [_ Hf]; destruct Hf' as [_ Hf']; congruence). subst f'.
      destruct Hd as (lab & Hd). assert (E0 : nth_error ds i = Some d) by (unfold ds; rewrite nth_error_map, Hd; auto).
      rewrite (combine_nth_error _ _ _ _ _ E0 E1). auto. }
    split.
    - intros i d h Hd Hh. pose proof (nth_error_In _ _ (TN i d h Hd Hh)) as HI'. rewrite ET in HI'.
      pose proof (HM _ HI') as L. unfold half in L. qlra.
    - rewrite <- ET in HI. apply In_nth_error in HI. destruct HI as (i & Hi).
      assert (Li : (i < length rows)%nat).
      { assert (i < length (tops ds (h_column m ds)))%nat by (apply nth_error_Some; congruence).
        unfold tops in H. rewrite map_length, combine_length in H. unfold ds in H. rewrite map_length in H. lia. }
      destruct (node_ex rows i Li) as (d & Hd). destruct (thick_ex i d Hd) as (h & Hh & _).
      exists i, d, h. split; auto. split; auto. rewrite (TN i d h Hd Hh) in Hi. inversion Hi as [Q]. unfold half. qlra.
  Qed.
  Lemma cons_admissible u : satisfies (csC s) (csH s) u <-> in_slab m g (csZ s) u /\ no_overlap m g u.
  Proof. apply admissible_iff, H_bounds. Qed.
  Lemma cons_moved x u : satisfies (csC s) (bounds_at (csH s) (csdH s) x) u <-> in_slab m g (csZ s + x) u /\ no_overlap m g u.
  Proof. apply admissible_iff, moved_bounds. Qed.
End Constraint.

(** totality *)
Lemma mesh_constraint_total m g : valid m -> mesh_ok g -> g_rows g <> [] ->
  at_n (g_attrs g) = Some (Z.of_nat (length (q_rows m))) -> exists s, constraint m g = Ok s.
Proof.
  intros Hv HM HN En. unfold constraint. rewrite (proj2 (mat_check_ok (df_of m)) (or_intror Hv)). simpl.
  rewrite (proj2 (mesh_check_ok g) (or_intror HM)). simpl.
  destruct HM as (_ & n & En' & _ & _ & _ & _ & _ & HF & _). rewrite En in En'. inversion En'; subst n.
  assert (E : fibers_known m (map snd (g_rows g)) = true).
  { apply forallb_forall. intros d Hd. apply in_map_iff in Hd. destruct Hd as ([lab d'] & <- & Hd).
    apply In_nth_error in Hd. destruct Hd as (i & Hd). specialize (HF i d' (ex_intro _ lab Hd)).
    unfold in_range. apply andb_true_iff. rewrite Z.leb_le, Z.ltb_lt. auto. }
  rewrite E. simpl. unfold tops, h_column. destruct (g_rows g); [congruence|]. simpl. eauto.
Qed.

(** ** C35: a stacked mat starts admissible *)
Lemma stack_start linprog m per t thr st m' g s : net_new m per None = Ok t -> solved linprog m t -> all_in_plane m ->
  stack_new linprog m t thr = Ok (st, m') -> mesh_new st = Ok g -> constraint m' g = Ok s ->
  forall u, (forall r, nth r u 0 == 0) -> satisfies (csC s) (csH s) u.
Proof.
  intros Hn Hsol HP Hst Hg Hs u HU. destruct (stack_mesh_total linprog m per t thr st m' Hn Hsol Hst) as (g' & Hg' & HM).
  assert (g' = g) by congruence. subst g'. clear Hg'.
  pose proof (mesh_new_inv _ _ Hg) as Hi. destruct (init_numbers st g Hi) as [(N1 & N2 & N3) NL].
  destruct (built_inv linprog m per t Hn Hsol thr st m' Hst) as (p & Ep & _ & HS & EH & full & Hfull & Est).
  destruct (built_heights linprog m per t Hn Hsol thr st m' Hst) as (_ & (_ & HAF & _) & _).
  assert (OK : net_ok st) by (rewrite Est; apply filter_ok; eapply new_ok; eauto).
  assert (RR : forall k c, nth_row st k c -> is_row st k c).
  { intros k c (lab & H). destruct OK as (_ & n & _ & _ & _ & HL & _). rewrite (HL _ _ _ H) in H. exact H. }
  assert (RF : forall k c, is_row st k c -> exists k', is_row full k' c).
  { intros k c Hr. rewrite Est in Hr. destruct thr as [d|]; [|eauto]. apply filter_rows in Hr.
    apply nth_error_In in Hr. apply filter_In in Hr. destruct Hr as [Hr _]. apply In_nth_error in Hr.
    destruct Hr as (k' & Hr). apply (rows_snd full) in Hr; [eauto|eapply new_ok; eauto]. }
  pose proof (same_plane _ _ HS HP) as flat'.
  (* heights of nodes are those of their fibers *)
  assert (ZZ : forall i d f, is_node (g_rows g) i d -> has_fiber m' (nf d) f -> nz d == qz f).
  { intros i d f Hd Hf. destruct (N2 i d Hd) as (k & c & b & Hr & Epl). destruct (N1 k c b Hr) as (d' & Hd' & HC).
    rewrite Epl in Hd'. assert (d' = d). { destruct HM as (_ & n & _ & _ & _ & HL & _). eapply node_fun; eauto. } subst d'.
    destruct HC as (Cf & _ & _ & _ & Cz). destruct (RF k c (RR k c Hr)) as (k' & Hr').
    destruct (NetP.row_facts m' per None full Hfull k' c Hr') as (fa & fb & Hfa & Hfb & _ & _ & _ & EzA & _ & _ & EzB & _).
    rewrite Cz. destruct b; rewrite Cf in Hf.
    - assert (fb = f) by (destruct Hf as [_ Hf]; destruct Hfb as [_ Hfb]; congruence). subst fb. rewrite EzB.
      assert (Pw : qw f == 0) by (apply flat'; eapply nth_error_In; apply Hf). unfold az. rewrite Pw. ring.
    - assert (fa = f) by (destruct Hf as [_ Hf]; destruct Hfa as [_ Hfa]; congruence). subst fa. rewrite EzA.
      assert (Pw : qw f == 0) by (apply flat'; eapply nth_error_In; apply Hf). unfold az. rewrite Pw. ring. }
  assert (NF : ~ flag_set (g_attrs g)).
  { destruct (init_inv st g Hi) as (_ & Eg). rewrite Eg. simpl. rewrite Est.
    destruct (new_facts _ _ _ _ Hfull) as (_ & _ & _ & Hf & _). destruct thr; exact Hf. }
  assert (D0 : forall i, disp u i == 0) by (intros i; apply HU).
  apply (cons_admissible m' g s Hs NF). split.
  - intros i d h Hd Hh. rewrite D0. destruct (top_spec m' g s Hs) as [HT _].
    split; [|pose proof (HT i d h Hd Hh); lra]. destruct Hh as (f & Hf & <-). rewrite (ZZ i d f Hd Hf).
    destruct (same_fiber m' m _ f (same_sym _ _ HS) Hf) as (f0 & Hf0 & (_ & _ & Eh & _)).
    pose proof (HAF _ _ Hf0) as L. rewrite (heights_fiber m' _ f Hf) in L. rewrite Eh. lra.
  - intros i j d e h h' Hd He L Ec (f & Hf & <-) (f' & Hf' & <-). rewrite !D0.
    destruct (N2 i d Hd) as (k & c & b & Hr & Epl).
    rewrite <- Epl in Hd. pose proof (NL k c b d Hr Hd) as NC. rewrite Ec in NC. apply Nat2Z.inj in NC.
    destruct (Z.eqb_spec (cA c) (cB c)) as [Q|Q]; [lia|].
    destruct HM as (_ & n & _ & _ & _ & HL & _ & _ & _ & HO & _).
    destruct (N1 k c b Hr) as (d1 & Hd1 & (Cf & _ & _ & _ & Cz)).
    assert (d1 = d) by (eapply node_fun; eauto). subst d1.
    destruct (N1 k c (negb b) Hr) as (e1 & He1 & (Cf' & _ & _ & _ & Cz')). rewrite <- NC in He1.
    assert (e1 = e) by (eapply node_fun; eauto). subst e1.
    assert (LE : (nf d <= nf e)%Z). { destruct (HO (place (map snd (n_rows st)) k b) j d e) as [|[]]; auto; lia. }
    assert (OR : (cA c <= cB c)%Z).
    { destruct OK as (_ & nn & _ & _ & _ & _ & _ & _ & HOr & _). pose proof (RR k c Hr) as R. unfold is_row in R.
      apply nth_error_In in R. apply (HOr _ _ R). }
    destruct b; simpl in *; [lia|]. rewrite Cf in Hf. rewrite Cf' in Hf'.
    destruct (built_rows linprog m per t Hn Hsol HP thr st m' Hst k c f f' (RR k c Hr) ltac:(lia) Hf Hf') as (_ & _ & _ & B).
    rewrite Cz, Cz'. lra.
Qed.
