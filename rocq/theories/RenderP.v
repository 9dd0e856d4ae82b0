(** Proofs about rendering. *)
From Verif Require Import Num NumP ListX ListP Frames MatM NetM StackM MeshM RenderM Spec SpecNet SpecStack SpecMesh SpecRender NetP MeshP.
Open Scope Q_scope.

(** ** the nodes of a fiber are consecutive *)
Definition fb_sorted (rows : list (Z * node)) : Prop := StronglySorted (fun r r' => (nf (snd r) <= nf (snd r'))%Z) rows.
Lemma group_segment fb rows : fb_sorted rows -> let gr := filter (fun r => Z.eqb (nf (snd r)) fb) rows in
  forall k, (k < length gr)%nat -> nth_error gr k = nth_error rows (length (filter (fun r => Z.ltb (nf (snd r)) fb) rows) + k).
Proof.
  intros H. induction H as [|r rows H IH F]; intros gr k L; [simpl in L; lia|]. unfold gr in *. clear gr. cbn [filter] in *.
  rewrite Forall_forall in F.
  destruct (Z.eqb_spec (nf (snd r)) fb) as [E|E].
  - rewrite (proj2 (Z.ltb_ge _ _)) by lia.
    assert (N : filter (fun r => Z.ltb (nf (snd r)) fb) rows = []).
    { match goal with |- ?u = [] => destruct u as [|q l] eqn:El; [reflexivity|] end. exfalso. assert (I : In q (q :: l)) by (left; auto). rewrite <- El in I. apply filter_In in I.
      destruct I as [I J]. specialize (F q I). apply Z.ltb_lt in J. lia. }
    rewrite N in *. destruct k as [|k]; auto. simpl. simpl in L. apply (IH k). lia.
  - destruct (Z.ltb_spec (nf (snd r)) fb) as [L'|L'].
    + simpl. apply IH. auto.
    + exfalso. destruct (filter _ rows) as [|q l] eqn:El; [simpl in L; lia|]. assert (I : In q (q :: l)) by (left; auto). rewrite <- El in I. apply filter_In in I.
      destruct I as [I J]. specialize (F q I). apply Z.eqb_eq in J. lia.
Qed.
Lemma ordered_sorted rows : nodes_ordered rows -> fb_sorted rows.
Proof.
  intros H. unfold fb_sorted. induction rows as [|r rows IH]; constructor.
  - apply IH. intros i j d e L Hd He. apply (H (S i) (S j) d e); [lia|exact Hd|exact He].
  - apply Forall_forall. intros q Hq. apply In_nth_error in Hq. destruct Hq as (k & Hk).
    destruct (H 0%nat (S k) (snd r) (snd q)) as [?|[? _]]; try lia.
    + exists (fst r). destruct r; reflexivity.
    + exists (fst q). simpl. rewrite Hk. destruct q; reflexivity.
Qed.

(** ** finding the interval *)
Section Locate.
  Variables (s : list Q) (x : Q) (k0 : nat).
  Hypothesis up : forall i j, (i < j)%nat -> (j < length s)%nat -> nth i s 0 < nth j s 0.
  Hypothesis lo : nth 0 s 0 < x.
  Hypothesis hi : x <= nth (length s - 1) s 0.
  Hypothesis near : nearest s x k0.
  Lemma locate : exists k, (S k < length s)%nat /\ nth k s 0 < x /\ x <= nth (S k) s 0 /\
    (if Qltb (nth k0 s 0) x then Z.of_nat k0 else (Z.of_nat k0 - 1)%Z) = Z.of_nat k.
  Proof.
    destruct near as [L N]. destruct (Qltb (nth k0 s 0) x) eqn:E.
    - apply Qltb_lt in E. exists k0. assert (L' : (S k0 < length s)%nat).
      { destruct (Nat.eq_dec k0 (length s - 1)) as [->|]; [lra|lia]. }
      split; auto. split; auto. split; auto. destruct (Qlt_le_dec (nth (S k0) s 0) x) as [C|C]; auto. exfalso.
      specialize (N (S k0) L'). pose proof (up k0 (S k0) ltac:(lia) L') as U.
      rewrite (Qabs_neg (nth k0 s 0 - x)) in N by lra. rewrite (Qabs_neg (nth (S k0) s 0 - x)) in N by lra. lra.
    - apply Qltb_ge in E. destruct k0 as [|k]; [lra|]. exists k. split; auto. split; [|split; auto; lia].
      destruct (Qlt_le_dec (nth k s 0) x) as [C|C]; auto. exfalso.
      specialize (N k ltac:(lia)). pose proof (up k (S k) ltac:(lia) L) as U.
      rewrite (Qabs_pos (nth k s 0 - x)) in N by lra. rewrite (Qabs_pos (nth (S k) s 0 - x)) in N by lra. lra.
  Qed.
End Locate.
Lemma np_get_nat {A} (l : list A) k a : nth_error l k = Some a -> np_get l (Z.of_nat k) = Ok a.
Proof.
  intros H. assert (L : (k < length l)%nat) by (apply nth_error_Some; congruence). unfold np_get.
  rewrite (proj2 (Z.ltb_ge _ _)) by lia. rewrite (proj2 (Z.leb_le _ _)) by lia. rewrite (proj2 (Z.ltb_lt _ _)) by lia. simpl. rewrite Nat2Z.id, H. reflexivity.
Qed.
Lemma nth_error_nthQ (l : list Q) k : (k < length l)%nat -> nth_error l k = Some (nth k l 0).
Proof. intros L. apply nth_error_nth'. auto. Qed.
Lemma coord_value s idx x k0 : (forall i j, (i < j)%nat -> (j < length s)%nat -> nth i s 0 < nth j s 0) ->
  nth 0 s 0 < shrunk x -> shrunk x <= nth (length s - 1) s 0 -> nearest s (shrunk x) k0 -> length idx = length s ->
  exists k i q, (S k < length s)%nat /\ nth k s 0 < shrunk x /\ shrunk x <= nth (S k) s 0 /\ nth_error idx k = Some i /\
    node_coord s idx x k0 = Ok (Fin q) /\ q == inject_Z i + (shrunk x - nth k s 0) / (nth (S k) s 0 - nth k s 0).
Proof.
  intros U L H N E. destruct (locate s (shrunk x) k0 U L H N) as (k & Lk & C1 & C2 & Ek). destruct N as [L0 _].
  destruct (nth_error idx k) as [i|] eqn:Ei; [|apply nth_error_None in Ei; lia]. pose proof (U k (S k) ltac:(lia) Lk) as UK.
  exists k, i. unfold node_coord. fold (shrunk x). rewrite (np_get_nat s k0 (nth k0 s 0)) by (apply nth_error_nthQ; auto). cbn [bind].
  rewrite Ek. rewrite (np_get_nat s k (nth k s 0)) by (apply nth_error_nthQ; lia). cbn [bind].
  replace (Z.of_nat k + 1)%Z with (Z.of_nat (S k)) by lia. rewrite (np_get_nat s (S k) (nth (S k) s 0)) by (apply nth_error_nthQ; lia). cbn [bind].
  unfold ndiv. replace (Qeqb (nth (S k) s 0 - nth k s 0) 0) with false.
  2: { symmetry. apply Bool.not_true_iff_false. intros Z. apply Qeqb_eq in Z. lra. }
  cbn [neqb]. rewrite (np_get_nat idx k i Ei). cbn [bind nadd]. eexists. repeat (split; [eassumption || reflexivity|]). ring.
Qed.

(** ** splines *)
Lemma interval_in n i t : (S i < n)%nat -> 0 <= t -> t < 1 -> interval n (inject_Z (Z.of_nat i) + t) = i.
Proof.
  intros L T0 T1. unfold interval. assert (F : Qfloor (inject_Z (Z.of_nat i) + t) = Z.of_nat i).
  { pose proof (Qfloor_le (inject_Z (Z.of_nat i) + t)) as A. pose proof (Qlt_floor (inject_Z (Z.of_nat i) + t)) as B. set (f := Qfloor _) in *.
    rewrite inject_Z_plus in B. change (inject_Z 1) with 1 in B.
    assert (C : inject_Z f < inject_Z (Z.of_nat i + 1)) by (rewrite inject_Z_plus; change (inject_Z 1) with 1; lra).
    assert (D : inject_Z (Z.of_nat i) < inject_Z (f + 1)) by (rewrite inject_Z_plus; change (inject_Z 1) with 1; lra).
    rewrite <- Zlt_Qlt in C, D. lia. }
  rewrite F, Nat2Z.id. lia.
Qed.
Lemma interval_comp n x x' : x == x' -> interval n x = interval n x'.
Proof. intros E. unfold interval. rewrite (Qfloor_comp x x' E). reflexivity. Qed.
Lemma interval_one n i : (S i < n)%nat -> interval n (inject_Z (Z.of_nat i) + 1) = if Nat.eqb (S (S i)) n then i else S i.
Proof.
  intros L. assert (E : inject_Z (Z.of_nat i) + 1 == inject_Z (Z.of_nat (S i)) + 0).
  { rewrite Nat2Z.inj_succ. unfold Z.succ. rewrite inject_Z_plus. change (inject_Z 1) with 1. ring. }
  rewrite (interval_comp _ _ _ E). destruct (Nat.eqb_spec (S (S i)) n) as [<-|N].
  - unfold interval. rewrite Qfloor_comp with (y := inject_Z (Z.of_nat (S i))) by ring. rewrite Qfloor_Z, Nat2Z.id. lia.
  - apply interval_in; [lia|lra|lra].
Qed.
Lemma S_inject i : inject_Z (Z.of_nat (S i)) == inject_Z (Z.of_nat i) + 1.
Proof. rewrite Nat2Z.inj_succ. unfold Z.succ. rewrite inject_Z_plus. reflexivity. Qed.
Section Spline.
  Variables (y d : list Q) (i : nat) (t x : Q).
  Hypothesis L : (S i < length y)%nat.
  Hypothesis T0 : 0 <= t.
  Hypothesis T1 : t <= 1.
  Hypothesis X : x == inject_Z (Z.of_nat i) + t.
  Lemma hermite_value : hermite y d x == hermite_basis (nth i y 0) (nth (S i) y 0) (nth i d 0) (nth (S i) d 0) t.
  Proof.
    unfold hermite, hermite_basis. rewrite (interval_comp _ _ _ X). cbv zeta. destruct (Qlt_le_dec t 1) as [C|C].
    - rewrite interval_in by auto. rewrite X, Nat.add_1_r. ring.
    - assert (E : t == 1) by lra. assert (EX : inject_Z (Z.of_nat i) + t == inject_Z (Z.of_nat i) + 1) by (rewrite E; reflexivity).
      rewrite (interval_comp _ _ _ EX), interval_one by auto. destruct (Nat.eqb_spec (S (S i)) (length y)).
      + rewrite X, E, Nat.add_1_r. ring.
      + rewrite X, E, S_inject, Nat.add_1_r. ring.
  Qed.
  Lemma hermite_slope : t < 1 -> hermite' y d x ==
    nth i d 0 * ((1 - t) * (1 - 3 * t)) + nth (S i) d 0 * (t * (3 * t - 2)) + 6 * (nth (S i) y 0 - nth i y 0) * (t * (1 - t)).
  Proof. intros C. unfold hermite'. rewrite (interval_comp _ _ _ X), interval_in by auto. rewrite X, Nat.add_1_r. ring. Qed.
  Lemma hermite_slope_end : t == 1 -> hermite' y d x == nth (S i) d 0.
  Proof.
    intros E. unfold hermite'. assert (EX : x == inject_Z (Z.of_nat i) + 1) by (rewrite X, E; reflexivity). rewrite (interval_comp _ _ _ EX), interval_one by auto.
    destruct (Nat.eqb_spec (S (S i)) (length y)).
    - rewrite EX, Nat.add_1_r. ring.
    - rewrite EX, S_inject, Nat.add_1_r. ring.
  Qed.
  Lemma hermite_curvature : t < 1 -> hermite'' y d x ==
    6 * (nth (S i) y 0 - nth i y 0) * (1 - 2 * t) + nth i d 0 * (6 * t - 4) + nth (S i) d 0 * (6 * t - 2).
  Proof. intros C. unfold hermite''. rewrite (interval_comp _ _ _ X), interval_in by auto. rewrite X, Nat.add_1_r. ring. Qed.
End Spline.
Lemma basis_between y0 y1 t lo hi : 0 <= t -> t <= 1 -> lo <= y0 -> lo <= y1 -> y0 <= hi -> y1 <= hi ->
  lo <= hermite_basis y0 y1 0 0 t /\ hermite_basis y0 y1 0 0 t <= hi.
Proof.
  intros T0 T1 L0 L1 H0 H1. set (w := t * t * (3 - 2 * t)).
  assert (E : hermite_basis y0 y1 0 0 t == (1 - w) * y0 + w * y1) by (unfold hermite_basis, w; ring).
  assert (W0 : 0 <= w) by (unfold w; apply Qmult_le_0_compat; [apply sq_pos|lra]).
  assert (W1 : w <= 1). { assert (1 - w == (1 - t) * (1 - t) * (1 + 2 * t)) by (unfold w; ring). assert (0 <= (1 - t) * (1 - t) * (1 + 2 * t)) by (apply Qmult_le_0_compat; [apply sq_pos|lra]). lra. }
  rewrite E. split; nra.
Qed.

(** ** points of a mesh *)
Section Point.
  Variables (g : mesh_df) (fb : Z) (x : Q) (k0 : nat).
  Hypothesis lab : labelled_in_order (g_rows g).
  Hypothesis ord : nodes_ordered (g_rows g).
  Hypothesis dis : distinct_nodes g fb.
  Variables (i0 i1 : nat) (d0 d1 : node).
  Hypothesis F0 : first_node g fb i0 d0.
  Hypothesis F1 : last_node g fb i1 d1.
  Hypothesis lo : ns d0 < shrunk x.
  Hypothesis hi : shrunk x <= ns d1.
  Hypothesis near : nearest (abscissae g fb) (shrunk x) k0.
  Let gr := filter (fun r => Z.eqb (nf (snd r)) fb) (g_rows g).
  Let a := length (filter (fun r => Z.ltb (nf (snd r)) fb) (g_rows g)).
  Lemma gr_node k : (k < length gr)%nat -> exists d, nth_error gr k = Some (Z.of_nat (a + k), d) /\ is_node (g_rows g) (a + k) d /\ nf d = fb /\ nth k (abscissae g fb) 0 = ns d.
  Proof.
    intros L. pose proof (group_segment fb _ (ordered_sorted _ ord) k L) as E. fold gr a in E. destruct (nth_error gr k) as [[l d]|] eqn:En; [|apply nth_error_None in En; lia].
    assert (EL : l = Z.of_nat (a + k)). { symmetry in E. apply lab in E. exact E. }
    exists d. subst l. split; auto. split; [exists (Z.of_nat (a + k)); auto|]. split.
    - apply nth_error_In in En. unfold gr in En. apply filter_In in En. destruct En as [_ En]. apply Z.eqb_eq in En. exact En.
    - unfold abscissae. fold gr. apply nth_error_nth. rewrite nth_error_map, En. reflexivity.
  Qed.
  Lemma gr_place i d : is_node (g_rows g) i d -> nf d = fb -> exists k, (k < length gr)%nat /\ i = (a + k)%nat.
  Proof.
    intros (l & H) E. assert (I : In (l, d) gr) by (unfold gr; apply filter_In; split; [eapply nth_error_In; eauto|apply Z.eqb_eq; exact E]).
    apply In_nth_error in I. destruct I as (k & Hk). assert (L : (k < length gr)%nat) by (apply nth_error_Some; congruence). exists k. split; auto.
    destruct (gr_node k L) as (d' & E' & _). rewrite Hk in E'. injection E' as El _. apply lab in H. lia.
  Qed.
  Lemma gr_pos : (0 < length gr)%nat.
  Proof. destruct F0 as (H & E & _). destruct (gr_place _ _ H E) as (k & L & _). lia. Qed.
  Lemma abs_len : length (abscissae g fb) = length gr.
  Proof. apply map_length. Qed.
  Lemma node_same i d e : is_node (g_rows g) i d -> is_node (g_rows g) i e -> d = e.
  Proof. intros (l & H) (l' & H'). congruence. Qed.
  Lemma abs_first : nth 0 (abscissae g fb) 0 = ns d0.
  Proof.
    destruct F0 as (H & E & M). destruct (gr_place _ _ H E) as (k & L & Ei). destruct (gr_node 0 gr_pos) as (d & _ & N & Nf & ->). rewrite Nat.add_0_r in N.
    destruct (Nat.eq_dec k 0) as [->|Nk]; [rewrite Nat.add_0_r in Ei; subst i0; f_equal; eapply node_same; eauto|].
    exfalso. apply (M a d); auto. lia.
  Qed.
  Lemma abs_last : nth (length (abscissae g fb) - 1) (abscissae g fb) 0 = ns d1.
  Proof.
    destruct F1 as (H & E & M). destruct (gr_place _ _ H E) as (k & L & Ei). rewrite abs_len. pose proof gr_pos as P.
    destruct (gr_node (length gr - 1) ltac:(lia)) as (d & _ & N & Nf & ->).
    destruct (Nat.eq_dec k (length gr - 1)) as [->|Nk]; [subst i1; f_equal; eapply node_same; eauto|].
    exfalso. apply (M (a + (length gr - 1))%nat d); auto. lia.
  Qed.
  Lemma abs_up i j : (i < j)%nat -> (j < length (abscissae g fb))%nat -> nth i (abscissae g fb) 0 < nth j (abscissae g fb) 0.
  Proof.
    intros L Lj. rewrite abs_len in Lj. destruct (gr_node i ltac:(lia)) as (d & _ & N & Nf & ->). destruct (gr_node j Lj) as (e & _ & N' & Nf' & ->).
    apply (dis (a + i)%nat (a + j)%nat d e); auto. lia.
  Qed.
  Lemma point_located : exists i d e t q, lies_between g fb (shrunk x) i d e t /\ point_coord g fb x k0 = Ok (Fin q) /\ q == inject_Z (Z.of_nat i) + t.
  Proof.
    assert (EG : get_group g fb = Ok gr). { unfold get_group. fold gr. pose proof gr_pos as P. destruct gr; [simpl in P; lia|reflexivity]. }
    pose proof lo as Lo. rewrite <- abs_first in Lo. pose proof hi as Hi. rewrite <- abs_last in Hi.
    destruct (coord_value (abscissae g fb) (map fst gr) x k0 abs_up Lo Hi near ltac:(rewrite abs_len; apply map_length)) as (k & i & q & Lk & C1 & C2 & Ei & Ec & Eq).
    rewrite abs_len in Lk. destruct (gr_node k ltac:(lia)) as (d & En & N & Nf & Ad). destruct (gr_node (S k) Lk) as (e & En' & N' & Nf' & Ae).
    rewrite Ad, Ae in *. rewrite nth_error_map, En in Ei. injection Ei as <-.
    assert (P : 0 < ns e - ns d) by lra.
    exists (a + k)%nat, d, e, ((shrunk x - ns d) / (ns e - ns d)), q. split; [|split; auto].
    - rewrite Nat.add_succ_r in N'. repeat (split; [assumption|]). split; [field; lra|]. split; [apply Qlt_shift_div_l; lra|apply Qle_shift_div_r; lra].
    - unfold point_coord. rewrite EG. exact Ec.
  Qed.
End Point.

(** ** nodes that may coincide *)
Lemma sgn_pos q : 0 < q -> inf_of (qsgn q) = PInf.
Proof. intros H. unfold qsgn. rewrite (proj1 (Qgt_alt q 0) H). reflexivity. Qed.
Lemma sgn_neg q : q < 0 -> inf_of (qsgn q) = NInf.
Proof. intros H. unfold qsgn. rewrite (proj1 (Qlt_alt q 0) H). reflexivity. Qed.
Lemma sgn_zero q : q == 0 -> inf_of (qsgn q) = NaN.
Proof. intros H. unfold qsgn. rewrite (proj1 (Qeq_alt q 0) H). reflexivity. Qed.
Section Merged.
  Variables (g : mesh_df) (fb : Z) (x : Q).
  Hypothesis lab : labelled_in_order (g_rows g).
  Hypothesis ord : nodes_ordered (g_rows g).
  Variables (i0 i1 : nat) (d0 d1 : node).
  Hypothesis F0 : first_node g fb i0 d0.
  Hypothesis F1 : last_node g fb i1 d1.
  Let gr := filter (fun r => Z.eqb (nf (snd r)) fb) (g_rows g).
  Let a := length (filter (fun r => Z.ltb (nf (snd r)) fb) (g_rows g)).
  Lemma merged_start : i0 = a.
  Proof.
    destruct F0 as (H & E & M). destruct (gr_place g fb lab ord _ _ H E) as (k & L & Ei). fold a in Ei.
    destruct (gr_node g fb lab ord 0 ltac:(lia)) as (d & _ & N & Nf & _). fold a in N. rewrite Nat.add_0_r in N.
    destruct (Nat.eq_dec k 0) as [->|Nk]; [lia|]. exfalso. apply (M a d); auto. lia.
  Qed.
  Lemma merged_group : get_group g fb = Ok gr.
  Proof. unfold get_group. fold gr. pose proof (gr_pos g fb lab ord i0 d0 F0) as P. fold gr in P. destruct gr; [simpl in P; lia|reflexivity]. Qed.
  Lemma merged_near k0 : nearest (abscissae g fb) (shrunk x) k0 -> (k0 < length gr)%nat.
  Proof. intros near. destruct near as [L _]. rewrite abs_len in L. exact L. Qed.
  Lemma merged_up i j d e : (i <= j)%nat -> is_node (g_rows g) i d -> is_node (g_rows g) j e -> nf d = fb -> nf e = fb -> ns d <= ns e.
  Proof.
    intros L Hd He Fd Fe. destruct (Nat.eq_dec i j) as [->|N]; [assert (d = e) by (eapply node_same; eauto); subst; lra|].
    destruct (ord i j d e ltac:(lia) Hd He) as [C|[_ C]]; [lia|exact C].
  Qed.
  Lemma get_s k d : (k < length gr)%nat -> is_node (g_rows g) (a + k) d -> np_get (map (fun r => ns (snd r)) gr) (Z.of_nat k) = Ok (ns d) /\ np_get (map fst gr) (Z.of_nat k) = Ok (Z.of_nat (a + k)).
  Proof.
    intros L N. destruct (gr_node g fb lab ord k L) as (e & En & N' & _). fold gr a in En, N'. assert (d = e) by (eapply node_same; eauto). subst e.
    split; apply np_get_nat; rewrite nth_error_map, En; reflexivity.
  Qed.
  Lemma merged_cases k0 : nearest (abscissae g fb) (shrunk x) k0 -> ns d0 < shrunk x -> shrunk x <= ns d1 -> exists d, is_node (g_rows g) (i0 + k0) d /\ nf d = fb /\
    ((exists i d e t q, lies_between g fb (shrunk x) i d e t /\ (i = i0 + k0 \/ S i = i0 + k0)%nat /\ point_coord g fb x k0 = Ok (Fin q) /\ q == inject_Z (Z.of_nat i) + t) \/
     (ns d < shrunk x /\ (exists e, is_node (g_rows g) (S (i0 + k0)) e /\ nf e = fb /\ ns e == ns d) /\
       exists q, point_coord g fb x k0 = Ok (Fin q) /\ q == inject_Z (Z.of_nat (i0 + k0))) \/
     (shrunk x <= ns d /\ (exists j e, is_node (g_rows g) j e /\ S j = (i0 + k0)%nat /\ nf e = fb /\ ns e == ns d) /\
       (shrunk x < ns d -> point_coord g fb x k0 = Ok NInf) /\ (shrunk x == ns d -> point_coord g fb x k0 = Ok NaN))).
  Proof.
    intros near lo hi. pose proof (merged_near k0 near) as L0. pose proof merged_start as ES. pose proof near as [_ NN]. rewrite abs_len in NN. fold gr in NN.
    assert (F0' := F0). destruct F0' as (N0 & E0 & _). assert (F1' := F1). destruct F1' as (N1 & E1 & _).
    destruct (gr_node g fb lab ord k0 L0) as (d & En & N & Nf & Ad). fold gr a in En, N. rewrite ES. exists d. split; [exact N|]. split; [exact Nf|].
    destruct (get_s k0 d L0 N) as [S0 I0].
    assert (PC : forall q, node_coord (map (fun r => ns (snd r)) gr) (map fst gr) x k0 = q -> point_coord g fb x k0 = q) by (intros q <-; unfold point_coord; rewrite merged_group; reflexivity).
    unfold node_coord in PC. fold (shrunk x) in PC. rewrite S0 in PC. cbn [bind] in PC. cbv zeta in PC.
    destruct (Qltb (ns d) (shrunk x)) eqn:C.
    - rewrite S0, I0 in PC. cbn [bind] in PC. apply Qltb_lt in C.
      assert (L1 : (S k0 < length gr)%nat).
      { destruct (gr_place g fb lab ord _ _ N1 E1) as (k1 & Lk1 & Ek1). fold gr a in Lk1, Ek1. destruct (Nat.le_gt_cases k1 k0) as [LL|LL]; [|lia].
        exfalso. pose proof (merged_up i1 (a + k0) d1 d ltac:(lia) N1 N E1 Nf). lra. }
      destruct (gr_node g fb lab ord (S k0) L1) as (e & En' & N' & Nf' & Ae). fold gr a in En', N'. destruct (get_s (S k0) e L1 N') as [S1 _].
      replace (Z.of_nat k0 + 1)%Z with (Z.of_nat (S k0)) in PC by lia. rewrite S1 in PC. cbn [bind] in PC. rewrite Nat.add_succ_r in N'.
      pose proof (merged_up _ _ _ _ (Nat.le_succ_diag_r (a + k0)) N N' Nf Nf') as U.
      destruct (Qeqb (ns e - ns d) 0) eqn:Z.
      + apply Qeqb_eq in Z. right. left. split; auto. split; [exists e; repeat split; auto; lra|].
        unfold ndiv in PC. rewrite (proj2 (Qeqb_eq _ _) Z) in PC. rewrite sgn_pos in PC by lra. cbn [neqb] in PC.
        eexists. split; [apply PC; reflexivity|]. ring.
      + left. assert (Z' : ~ ns e - ns d == 0) by (intros W; apply Qeqb_eq in W; congruence).
        assert (C2 : shrunk x <= ns e).
        { destruct (Qlt_le_dec (ns e) (shrunk x)) as [W|W]; auto. exfalso. specialize (NN (S k0) L1). rewrite Ad, Ae in NN.
          rewrite (Qabs_neg (ns d - shrunk x)) in NN by lra. rewrite (Qabs_neg (ns e - shrunk x)) in NN by lra. lra. }
        unfold ndiv in PC. rewrite Z in PC. cbn [neqb] in PC.
        exists (a + k0)%nat, d, e, ((shrunk x - ns d) / (ns e - ns d)). eexists. assert (P : 0 < ns e - ns d) by lra.
        split; [|split; [left; reflexivity|split; [apply PC; reflexivity|ring]]].
        repeat (split; [assumption|]). split; [field; lra|]. split; [apply Qlt_shift_div_l; lra|apply Qle_shift_div_r; lra].
    - apply Qltb_ge in C. destruct k0 as [|k].
      { exfalso. rewrite Nat.add_0_r in N. rewrite <- ES in N. assert (d = d0) by (eapply node_same; eauto). subst d. lra. }
      replace (Z.of_nat (S k) - 1)%Z with (Z.of_nat k) in PC by lia. assert (L1 : (k < length gr)%nat) by lia.
      destruct (gr_node g fb lab ord k L1) as (e & En' & N' & Nf' & Ae). fold gr a in En', N'. destruct (get_s k e L1 N') as [S1 I1].
      rewrite S1, I1 in PC. cbn [bind] in PC. replace (Z.of_nat k + 1)%Z with (Z.of_nat (S k)) in PC by lia. rewrite S0 in PC. cbn [bind] in PC.
      pose proof (merged_up (a + k) (a + S k) _ _ ltac:(lia) N' N Nf' Nf) as U.
      destruct (Qlt_le_dec (ns e) (shrunk x)) as [W|W].
      + left. unfold ndiv in PC. replace (Qeqb (ns d - ns e) 0) with false in PC.
        2: { symmetry. apply Bool.not_true_iff_false. intros V. apply Qeqb_eq in V. lra. }
        cbn [neqb] in PC. assert (P : 0 < ns d - ns e) by lra. rewrite Nat.add_succ_r in N.
        exists (a + k)%nat, e, d, ((shrunk x - ns e) / (ns d - ns e)). eexists.
        split; [|split; [right; lia|split; [apply PC; reflexivity|ring]]].
        repeat (split; [assumption|]). split; [field; lra|]. split; [apply Qlt_shift_div_l; lra|apply Qle_shift_div_r; lra].
      + right. right. split; auto. assert (EE : ns e == ns d).
        { specialize (NN k L1). rewrite Ad, Ae in NN. rewrite (Qabs_pos (ns d - shrunk x)) in NN by lra. rewrite (Qabs_pos (ns e - shrunk x)) in NN by lra. lra. }
        split; [exists (a + k)%nat, e; repeat split; auto; lia|].
        unfold ndiv in PC. replace (Qeqb (ns d - ns e) 0) with true in PC by (symmetry; apply Qeqb_eq; lra). split; intros V.
        * rewrite sgn_neg in PC by lra. apply PC. reflexivity.
        * rewrite sgn_zero in PC by lra. apply PC. reflexivity.
  Qed.
  (** beyond the last node *)
  Lemma merged_after k0 : nearest (abscissae g fb) (shrunk x) k0 -> ns d1 < shrunk x -> k0 = (length (abscissae g fb) - 1)%nat -> point_coord g fb x k0 = Exn IndexErr.
  Proof.
    intros near hi E. rewrite abs_len in E. fold gr in E. pose proof (merged_near k0 near) as L0. destruct (gr_node g fb lab ord k0 L0) as (d & En & N & Nf & Ad). fold gr a in En, N.
    destruct (get_s k0 d L0 N) as [S0 I0]. unfold point_coord. rewrite merged_group. cbn [bind]. unfold node_coord. fold (shrunk x). rewrite S0. cbn [bind]. cbv zeta.
    assert (F1' := F1). destruct F1' as (N1 & E1 & M1). assert (D : ns d <= ns d1).
    { destruct (Nat.le_gt_cases (a + k0) i1) as [LL|LL]; [apply (merged_up _ _ _ _ LL N N1 Nf E1)|]. exfalso. apply (M1 _ d LL N Nf). }
    replace (Qltb (ns d) (shrunk x)) with true by (symmetry; apply Qltb_lt; lra). rewrite S0. cbn [bind].
    unfold np_get at 1. rewrite map_length. replace ((Z.of_nat k0 + 1 <? 0)%Z) with false by (symmetry; apply Z.ltb_ge; lia).
    replace ((Z.of_nat k0 + 1 <? Z.of_nat (length gr))%Z) with false by (symmetry; apply Z.ltb_ge; lia). rewrite Bool.andb_false_r. reflexivity.
  Qed.
End Merged.
Lemma group_unknown g fb : get_group g fb = Exn KeyErr <-> forall i d, is_node (g_rows g) i d -> nf d <> fb.
Proof.
  unfold get_group. split.
  - intros H i d (l & Hd) E. destruct (filter (fun r => Z.eqb (nf (snd r)) fb) (g_rows g)) as [|q l'] eqn:El; [|discriminate H].
    assert (I : In (l, d) []) by (rewrite <- El; apply filter_In; split; [eapply nth_error_In; eauto|apply Z.eqb_eq; exact E]). destruct I.
  - intros H. destruct (filter (fun r => Z.eqb (nf (snd r)) fb) (g_rows g)) as [|q l'] eqn:El; [reflexivity|].
    assert (I : In q (q :: l')) by (left; reflexivity). rewrite <- El in I. apply filter_In in I. destruct I as [I J]. apply In_nth_error in I. destruct I as (k & Hk).
    apply Z.eqb_eq in J. destruct (H k (snd q)); auto. exists (fst q). rewrite Hk. destruct q; reflexivity.
Qed.
Lemma np_get_err {A} (l : list A) k e : np_get l k = Exn e -> e = IndexErr.
Proof. unfold np_get. destruct (_ && _); [destruct (nth_error l _)|]; congruence. Qed.
Lemma node_coord_err s idx x k0 e : node_coord s idx x k0 = Exn e -> e = IndexErr.
Proof.
  unfold node_coord. destruct (np_get s (Z.of_nat k0)) as [v|] eqn:E1; cbn [bind]; [|intros H; apply (np_get_err _ _ _ E1) || (injection H as <-; eapply np_get_err; eauto)].
  cbv zeta. destruct (np_get s (if Qltb v _ then _ else _)) as [w|] eqn:E2; cbn [bind]; [|intros H; injection H as <-; eapply np_get_err; eauto].
  destruct (np_get s (_ + 1)) as [w'|] eqn:E3; cbn [bind]; [|intros H; injection H as <-; eapply np_get_err; eauto].
  destruct (np_get idx _) as [i|] eqn:E4; cbn [bind]; [discriminate|intros H; injection H as <-; eapply np_get_err; eauto].
Qed.
Lemma point_unknown g fb x k0 : point_coord g fb x k0 = Exn KeyErr <-> forall i d, is_node (g_rows g) i d -> nf d <> fb.
Proof.
  rewrite <- group_unknown. unfold point_coord. destruct (get_group g fb) as [gr|e] eqn:E; cbn [bind]; [|split; intros H; injection H as ->; reflexivity].
  split; [intros H; apply node_coord_err in H; discriminate H|discriminate].
Qed.

(** ** rendered fields *)
Section Field.
  Variables (g : mesh_df) (fb : Z) (x : Q) (k0 : nat).
  Hypothesis lab : labelled_in_order (g_rows g).
  Hypothesis ord : nodes_ordered (g_rows g).
  Hypothesis dis : distinct_nodes g fb.
  Variables (i0 i1 : nat) (d0 d1 : node).
  Hypothesis F0 : first_node g fb i0 d0.
  Hypothesis F1 : last_node g fb i1 d1.
  Hypothesis lo : ns d0 < shrunk x.
  Hypothesis hi : shrunk x <= ns d1.
  Hypothesis near : nearest (abscissae g fb) (shrunk x) k0.
  Variables (y dy : list Q).
  Hypothesis Hy : length y = length (g_rows g).
  Hypothesis Hd : length dy = length (g_rows g).
  Lemma node_lt i d : is_node (g_rows g) i d -> (i < length (g_rows g))%nat.
  Proof. intros (l & H). apply nth_error_Some. congruence. Qed.
  (** a node of the fiber not before x is at or after the end of the interval *)
  Lemma between_node i d e t j f : lies_between g fb (shrunk x) i d e t -> is_node (g_rows g) j f -> nf f = fb -> shrunk x == ns f -> j = S i /\ t == 1.
  Proof.
    intros (Hi & Hi' & Fi & Fi' & C1 & C2 & Et & T0 & T1) Hj Ff E.
    assert (J : j = S i).
    { destruct (Nat.lt_trichotomy j (S i)) as [C|[C|C]]; auto; exfalso.
      - destruct (Nat.eq_dec j i) as [->|N]; [assert (f = d) by (eapply node_same; eauto); subst f; lra|]. pose proof (dis j i f d Hj Hi Ff Fi ltac:(lia)). lra.
      - pose proof (dis (S i) j e f Hi' Hj Fi' Ff C). lra. }
    split; auto. subst j. assert (f = e) by (eapply node_same; eauto). subst f.
    assert (P : 0 < ns e - ns d) by (pose proof (dis i (S i) d e Hi Hi' Fi Fi' ltac:(lia)); lra).
    assert (Z : (1 - t) * (ns e - ns d) == 0) by lra. apply Qmult_integral in Z. destruct Z; lra.
  Qed.
  Lemma field_value : exists i d e t v, lies_between g fb (shrunk x) i d e t /\ render_value g y dy fb x k0 = Ok (Fin v) /\
    v == hermite_basis (nth i y 0) (nth (S i) y 0) (nth i dy 0) (nth (S i) dy 0) t.
  Proof.
    destruct (point_located g fb x k0 lab ord dis i0 i1 d0 d1 F0 F1 lo hi near) as (i & d & e & t & q & B & Ec & Eq). pose proof B as (_ & N' & _ & _ & _ & _ & _ & T0 & T1).
    exists i, d, e, t, (hermite y dy q). split; auto. split; [unfold render_value; rewrite Ec; reflexivity|].
    apply hermite_value; auto; [rewrite Hy; eapply node_lt; eauto|lra].
  Qed.
  Lemma field_slope : exists i d e t v, lies_between g fb (shrunk x) i d e t /\ render_slope g y dy fb x k0 = Ok (Fin v) /\
    v == hermite_rate (nth i y 0) (nth (S i) y 0) (nth i dy 0) (nth (S i) dy 0) t.
  Proof.
    destruct (point_located g fb x k0 lab ord dis i0 i1 d0 d1 F0 F1 lo hi near) as (i & d & e & t & q & B & Ec & Eq). pose proof B as (_ & N' & _ & _ & _ & _ & _ & T0 & T1).
    pose proof (node_lt _ _ N') as L. rewrite <- Hy in L.
    exists i, d, e, t, (hermite' y dy q). split; auto. split; [unfold render_slope; rewrite Ec; reflexivity|]. unfold hermite_rate.
    destruct (Qlt_le_dec t 1) as [C|C].
    - rewrite (hermite_slope y dy i t q L ltac:(lra) Eq C). ring.
    - assert (T : t == 1) by lra. rewrite (hermite_slope_end y dy i t q L Eq T), T. ring.
  Qed.
  Lemma field_node j f : is_node (g_rows g) j f -> nf f = fb -> shrunk x == ns f ->
    exists v w, render_value g y dy fb x k0 = Ok (Fin v) /\ render_slope g y dy fb x k0 = Ok (Fin w) /\ v == nth j y 0 /\ w == nth j dy 0.
  Proof.
    intros Hj Ff E. destruct (point_located g fb x k0 lab ord dis i0 i1 d0 d1 F0 F1 lo hi near) as (i & d & e & t & q & B & Ec & Eq).
    destruct (between_node i d e t j f B Hj Ff E) as [-> T]. pose proof B as (_ & N' & _ & _ & _ & _ & _ & T0 & T1). pose proof (node_lt _ _ N') as L. rewrite <- Hy in L.
    exists (hermite y dy q), (hermite' y dy q). unfold render_value, render_slope. rewrite Ec. split; auto. split; auto. split.
    - rewrite (hermite_value y dy i t q L ltac:(lra) T1 Eq). unfold hermite_basis. rewrite T. ring.
    - apply (hermite_slope_end y dy i t q L Eq T).
  Qed.
  Lemma field_between lo' hi' : dy = no_slope y -> (forall i d, is_node (g_rows g) i d -> nf d = fb -> lo' <= nth i y 0 /\ nth i y 0 <= hi') ->
    exists v, render_value g y dy fb x k0 = Ok (Fin v) /\ lo' <= v /\ v <= hi'.
  Proof.
    intros E H. destruct field_value as (i & d & e & t & v & B & Ev & Qv). pose proof B as (N & N' & Fd & Fe & _ & _ & _ & T0 & T1). exists v. split; auto.
    assert (Z : forall k, nth k dy 0 == 0).
    { intros k. rewrite E. unfold no_slope. destruct (nth_error y k) as [w|] eqn:Ek.
      - erewrite nth_error_nth; [|rewrite nth_error_map, Ek; reflexivity]. ring.
      - rewrite nth_overflow; [reflexivity|]. rewrite map_length. apply nth_error_None. exact Ek. }
    assert (Eb : v == hermite_basis (nth i y 0) (nth (S i) y 0) 0 0 t) by (rewrite Qv; unfold hermite_basis; rewrite !Z; reflexivity).
    rewrite Eb. destruct (H i d N Fd), (H (S i) e N' Fe). apply basis_between; auto. lra.
  Qed.
  Lemma field_rotation phi c : (forall i d, is_node (g_rows g) i d -> nf d = fb -> nth i y 0 == c + phi * ns d /\ nth i dy 0 == phi) ->
    exists i d e t v, lies_between g fb (shrunk x) i d e t /\ render_value g y dy fb x k0 = Ok (Fin v) /\
      v == c + phi * shrunk x + phi * ((1 - (ns e - ns d)) * (t * (1 - t) * (1 - 2 * t))).
  Proof.
    intros H. destruct field_value as (i & d & e & t & v & B & Ev & Qv). exists i, d, e, t, v. split; auto. split; auto.
    pose proof B as (N & N' & Fd & Fe & _ & _ & Et & T0 & T1). destruct (H i d N Fd) as [Y0 D0], (H (S i) e N' Fe) as [Y1 D1].
    rewrite Qv, Et. unfold hermite_basis. rewrite Y0, Y1, D0, D1. ring.
  Qed.
  Lemma field_curvature kappa : (forall i d, is_node (g_rows g) i d -> nf d = fb -> nth i y 0 == kappa * (ns d * ns d) / 2 /\ nth i dy 0 == kappa * ns d) ->
    (forall j f, is_node (g_rows g) j f -> nf f = fb -> ~ shrunk x == ns f) ->
    exists i d e t v, lies_between g fb (shrunk x) i d e t /\ render_curvature g y dy fb x k0 = Ok (Fin v) /\
      let l := ns e - ns d in v == kappa * (l * (6 * t - 2) + 3 * (l * l) * (1 - 2 * t) + 6 * ns d * (l - 1) * (1 - 2 * t)).
  Proof.
    intros H NN. destruct (point_located g fb x k0 lab ord dis i0 i1 d0 d1 F0 F1 lo hi near) as (i & d & e & t & q & B & Ec & Eq).
    pose proof B as (N & N' & Fd & Fe & _ & _ & Et & T0 & T1). pose proof (node_lt _ _ N') as L. rewrite <- Hy in L.
    assert (T2 : t < 1). { destruct (Qlt_le_dec t 1); auto. exfalso. apply (NN (S i) e N' Fe). assert (E1 : t == 1) by lra. rewrite Et, E1. ring. }
    exists i, d, e, t, (hermite'' y dy q). split; auto. split; [unfold render_curvature; rewrite Ec; reflexivity|]. cbv zeta.
    rewrite (hermite_curvature y dy i t q L ltac:(lra) Eq T2). destruct (H i d N Fd) as [Y0 D0], (H (S i) e N' Fe) as [Y1 D1].
    rewrite Y0, Y1, D0, D1. field.
  Qed.
End Field.
(** inside a fiber *)
Lemma shrunk_inside l x : 0 < l -> - (l / 2) <= x -> x <= l / 2 -> - (l / 2) < shrunk x /\ shrunk x <= l / 2.
Proof. intros L A B. assert (H : 0 < l / 2) by qlra. set (k := l / 2) in *. unfold shrunk. split; lra. Qed.

(** ** statements about meshes *)
Lemma mesh_orders g : mesh_ok g -> labelled_in_order (g_rows g) /\ nodes_ordered (g_rows g).
Proof. intros (_ & n & _ & _ & _ & L & _ & _ & _ & O & _). auto. Qed.
Lemma api_located g fb x k0 : mesh_ok g -> distinct_nodes g fb -> inside g fb x k0 ->
  exists i d e t q, lies_between g fb (shrunk x) i d e t /\ point_coord g fb x k0 = Ok (Fin q) /\ q == inject_Z (Z.of_nat i) + t.
Proof.
  intros M D ((i & d & j & e & F0 & F1 & L & H) & N). destruct (mesh_orders g M) as [La O].
  exact (point_located g fb x k0 La O D i j d e F0 F1 L H N).
Qed.
Lemma api_value g fb x k0 y dy : mesh_ok g -> distinct_nodes g fb -> inside g fb x k0 -> nodal g y ->
  exists i d e t v, lies_between g fb (shrunk x) i d e t /\ render_value g y dy fb x k0 = Ok (Fin v) /\
    v == hermite_basis (nth i y 0) (nth (S i) y 0) (nth i dy 0) (nth (S i) dy 0) t.
Proof.
  intros M D ((i & d & j & e & F0 & F1 & L & H) & N) Hy. destruct (mesh_orders g M) as [La O].
  exact (field_value g fb x k0 La O D i j d e F0 F1 L H N y dy Hy).
Qed.
Lemma api_slope g fb x k0 y dy : mesh_ok g -> distinct_nodes g fb -> inside g fb x k0 -> nodal g y ->
  exists i d e t v, lies_between g fb (shrunk x) i d e t /\ render_slope g y dy fb x k0 = Ok (Fin v) /\
    v == hermite_rate (nth i y 0) (nth (S i) y 0) (nth i dy 0) (nth (S i) dy 0) t.
Proof.
  intros M D ((i & d & j & e & F0 & F1 & L & H) & N) Hy. destruct (mesh_orders g M) as [La O].
  exact (field_slope g fb x k0 La O D i j d e F0 F1 L H N y dy Hy).
Qed.
(** without the hypothesis that nodes are distinct *)
Lemma api_cases g fb x k0 i0 d0 : mesh_ok g -> inside g fb x k0 -> first_node g fb i0 d0 ->
  exists d, is_node (g_rows g) (i0 + k0) d /\ nf d = fb /\
    ((exists i d e t q, lies_between g fb (shrunk x) i d e t /\ (i = i0 + k0 \/ S i = i0 + k0)%nat /\ point_coord g fb x k0 = Ok (Fin q) /\ q == inject_Z (Z.of_nat i) + t) \/
     (ns d < shrunk x /\ (exists e, is_node (g_rows g) (S (i0 + k0)) e /\ nf e = fb /\ ns e == ns d) /\
       exists q, point_coord g fb x k0 = Ok (Fin q) /\ q == inject_Z (Z.of_nat (i0 + k0))) \/
     (shrunk x <= ns d /\ (exists j e, is_node (g_rows g) j e /\ S j = (i0 + k0)%nat /\ nf e = fb /\ ns e == ns d) /\
       (shrunk x < ns d -> point_coord g fb x k0 = Ok NInf) /\ (shrunk x == ns d -> point_coord g fb x k0 = Ok NaN))).
Proof.
  intros M ((i & d & j & e & F0 & F1 & L & H) & N) F0'. destruct (mesh_orders g M) as [La O].
  assert (ED : d = d0).
  { destruct F0 as (A & B & C), F0' as (A' & B' & C'). destruct (Nat.lt_trichotomy i i0) as [W|[W|W]]; [exfalso; apply (C' i d); auto| |exfalso; apply (C i0 d0); auto].
    subst i0. eapply node_same; eauto. }
  subst d0. exact (merged_cases g fb x La O i0 j d e F0' F1 k0 N L H).
Qed.
Lemma api_merged_value g fb x k0 i0 d0 d y dy e : mesh_ok g -> inside g fb x k0 -> first_node g fb i0 d0 -> nodal g y ->
  is_node (g_rows g) (i0 + k0) d -> nf d = fb -> ns d < shrunk x -> is_node (g_rows g) (S (i0 + k0)) e -> nf e = fb -> ns e == ns d ->
  exists v, render_value g y dy fb x k0 = Ok (Fin v) /\ v == nth (i0 + k0) y 0.
Proof.
  intros M I F Hy Hd Fd Lt He Fe Ee. destruct (api_cases g fb x k0 i0 d0 M I F) as (d' & Hd' & _ & H). assert (d' = d) by (eapply node_same; eauto). subst d'.
  pose proof (node_lt g _ _ He) as LL. rewrite <- Hy in LL.
  destruct H as [(i & a & b & t & q & (A1 & A2 & A3 & A4 & A5 & A6 & A7 & A8 & A9) & [E|E] & _)|[(_ & _ & q & Ec & Eq)|(C & _)]]; [exfalso|exfalso| |exfalso; lra].
  - subst i. assert (b = e) by (eapply node_same; eauto). subst b. assert (a = d) by (eapply node_same; eauto). subst a. lra.
  - rewrite <- E in Hd. assert (b = d) by (eapply node_same; eauto). subst b. lra.
  - exists (hermite y dy q). unfold render_value. rewrite Ec. split; [reflexivity|].
    rewrite (hermite_value y dy (i0 + k0) 0 q LL ltac:(lra) ltac:(lra)) by (rewrite Eq; ring). unfold hermite_basis. ring.
Qed.
Lemma api_after g fb x k0 j e : mesh_ok g -> last_node g fb j e -> ns e < shrunk x -> nearest (abscissae g fb) (shrunk x) k0 ->
  k0 = (length (abscissae g fb) - 1)%nat -> point_coord g fb x k0 = Exn IndexErr.
Proof.
  intros M F1 L N E. destruct (mesh_orders g M) as [La O].
  assert (FF : exists i d, first_node g fb i d).
  { destruct F1 as (H & B & _). clear - H B. revert e H B. induction j as [j IH] using lt_wf_ind. intros e H B.
    destruct (existsb (fun i => match nth_error (g_rows g) i with Some (_, d) => Z.eqb (nf d) fb | None => false end) (seq 0 j)) eqn:X.
    - apply existsb_exists in X. destruct X as (i & Li & X). apply in_seq in Li. destruct (nth_error (g_rows g) i) as [[l d]|] eqn:En; [|discriminate X].
      apply (IH i ltac:(lia) d); [exists l; exact En|apply Z.eqb_eq; exact X].
    - exists j, e. split; auto. split; auto. intros i d Li (l & Hd) Fd. assert (Y := existsb_nth). clear Y.
      assert (T : existsb (fun i => match nth_error (g_rows g) i with Some (_, d) => Z.eqb (nf d) fb | None => false end) (seq 0 j) = true).
      { apply existsb_exists. exists i. split; [apply in_seq; lia|]. rewrite Hd. apply Z.eqb_eq. exact Fd. }
      congruence. }
  destruct FF as (i & d & F0). exact (merged_after g fb x La O i j d e F0 F1 k0 N L E).
Qed.
Lemma api_node g fb x k0 y dy j f : mesh_ok g -> distinct_nodes g fb -> inside g fb x k0 -> nodal g y -> nodal g dy ->
  is_node (g_rows g) j f -> nf f = fb -> shrunk x == ns f ->
  exists v w, render_value g y dy fb x k0 = Ok (Fin v) /\ render_slope g y dy fb x k0 = Ok (Fin w) /\ v == nth j y 0 /\ w == nth j dy 0.
Proof.
  intros M D ((i & d & j' & e & F0 & F1 & L & H) & N) Hy Hd. destruct (mesh_orders g M) as [La O].
  exact (field_node g fb x k0 La O D i j' d e F0 F1 L H N y dy Hy Hd j f).
Qed.
Lemma api_between g fb x k0 y lo hi : mesh_ok g -> distinct_nodes g fb -> inside g fb x k0 -> nodal g y ->
  (forall i d, is_node (g_rows g) i d -> nf d = fb -> lo <= nth i y 0 /\ nth i y 0 <= hi) ->
  exists v, render_value g y (no_slope y) fb x k0 = Ok (Fin v) /\ lo <= v /\ v <= hi.
Proof.
  intros M D ((i & d & j' & e & F0 & F1 & L & H) & N) Hy. destruct (mesh_orders g M) as [La O].
  exact (field_between g fb x k0 La O D i j' d e F0 F1 L H N y (no_slope y) Hy lo hi eq_refl).
Qed.
Lemma api_rotation g fb x k0 y dy phi c : mesh_ok g -> distinct_nodes g fb -> inside g fb x k0 -> nodal g y ->
  (forall i d, is_node (g_rows g) i d -> nf d = fb -> nth i y 0 == c + phi * ns d /\ nth i dy 0 == phi) ->
  exists i d e t v, lies_between g fb (shrunk x) i d e t /\ render_value g y dy fb x k0 = Ok (Fin v) /\
    v == c + phi * shrunk x + phi * ((1 - (ns e - ns d)) * (t * (1 - t) * (1 - 2 * t))).
Proof.
  intros M D ((i & d & j' & e & F0 & F1 & L & H) & N) Hy. destruct (mesh_orders g M) as [La O].
  exact (field_rotation g fb x k0 La O D i j' d e F0 F1 L H N y dy Hy phi c).
Qed.
Lemma api_rotation_unit g fb x k0 y dy phi c : mesh_ok g -> distinct_nodes g fb -> inside g fb x k0 -> nodal g y ->
  (forall i d, is_node (g_rows g) i d -> nf d = fb -> nth i y 0 == c + phi * ns d /\ nth i dy 0 == phi) ->
  (forall i d e, is_node (g_rows g) i d -> is_node (g_rows g) (S i) e -> nf d = fb -> nf e = fb -> ns e - ns d == 1) ->
  exists v, render_value g y dy fb x k0 = Ok (Fin v) /\ v == c + phi * shrunk x.
Proof.
  intros M D I Hy HF HU. destruct (api_rotation g fb x k0 y dy phi c M D I Hy HF) as (i & d & e & t & v & B & Ev & Qv). exists v. split; auto.
  destruct B as (N & N' & Fd & Fe & _). rewrite Qv, (HU i d e N N' Fd Fe). ring.
Qed.
Lemma api_curvature g fb x k0 y dy kappa : mesh_ok g -> distinct_nodes g fb -> inside g fb x k0 -> nodal g y ->
  (forall i d, is_node (g_rows g) i d -> nf d = fb -> nth i y 0 == kappa * (ns d * ns d) / 2 /\ nth i dy 0 == kappa * ns d) ->
  (forall j f, is_node (g_rows g) j f -> nf f = fb -> ~ shrunk x == ns f) ->
  exists i d e t v, lies_between g fb (shrunk x) i d e t /\ render_curvature g y dy fb x k0 = Ok (Fin v) /\
    let l := ns e - ns d in v == kappa * (l * (6 * t - 2) + 3 * (l * l) * (1 - 2 * t) + 6 * ns d * (l - 1) * (1 - 2 * t)).
Proof.
  intros M D ((i & d & j' & e & F0 & F1 & L & H) & N) Hy. destruct (mesh_orders g M) as [La O].
  exact (field_curvature g fb x k0 La O D i j' d e F0 F1 L H N y dy Hy kappa).
Qed.
Lemma api_curvature_unit g fb x k0 y dy kappa : mesh_ok g -> distinct_nodes g fb -> inside g fb x k0 -> nodal g y ->
  (forall i d, is_node (g_rows g) i d -> nf d = fb -> nth i y 0 == kappa * (ns d * ns d) / 2 /\ nth i dy 0 == kappa * ns d) ->
  (forall j f, is_node (g_rows g) j f -> nf f = fb -> ~ shrunk x == ns f) ->
  (forall i d e, is_node (g_rows g) i d -> is_node (g_rows g) (S i) e -> nf d = fb -> nf e = fb -> ns e - ns d == 1) ->
  exists v, render_curvature g y dy fb x k0 = Ok (Fin v) /\ v == kappa.
Proof.
  intros M D I Hy HF HN HU. destruct (api_curvature g fb x k0 y dy kappa M D I Hy HF HN) as (i & d & e & t & v & B & Ev & Qv). exists v. split; auto.
  destruct B as (N & N' & Fd & Fe & _). cbv zeta in Qv. rewrite Qv, (HU i d e N N' Fd Fe). ring.
Qed.
Lemma inside_of g fb l x k0 : (exists i d j e, first_node g fb i d /\ last_node g fb j e /\ (i < j)%nat /\ ns d == - (l / 2) /\ ns e == l / 2) ->
  0 < l -> - (l / 2) <= x -> x <= l / 2 -> nearest (abscissae g fb) (shrunk x) k0 -> inside g fb x k0.
Proof.
  intros (i & d & j & e & F0 & F1 & _ & S0 & S1) L A B N. split; auto. exists i, d, j, e. split; auto. split; auto. rewrite S0, S1. apply shrunk_inside; auto.
Qed.
(** some node is nearest *)
Lemma nearest_exists s x : s <> [] -> exists k, nearest s x k.
Proof.
  induction s as [|a s IH]; [congruence|]. intros _. destruct s as [|b s].
  - exists 0%nat. split; [simpl; lia|]. intros [|k] L; [apply Qle_refl|simpl in L; lia].
  - destruct IH as (k & L & H); [discriminate|]. destruct (Qlt_le_dec (Qabs (a - x)) (Qabs (nth k (b :: s) 0 - x))) as [C|C].
    + exists 0%nat. split; [simpl; lia|]. intros [|j] Lj; [apply Qle_refl|]. cbn [nth]. specialize (H j ltac:(simpl in *; lia)). eapply Qle_trans; [apply Qlt_le_weak; exact C|exact H].
    + exists (S k). split; [simpl in *; lia|]. intros [|j] Lj; [exact C|]. apply H. simpl in *. lia.
Qed.
Lemma net_inside m per t g fb h x k0 : net_new m per None = Ok t -> mesh_init t = Ok g ->
  has_fiber m fb h -> - (ql h / 2) <= x -> x <= ql h / 2 -> nearest (abscissae g fb) (shrunk x) k0 -> inside g fb x k0.
Proof.
  intros Hn Hi Hf A B N. destruct (net_tiles m per t g fb h Hn Hi Hf) as (i & d & j & e & F0 & F1 & L & S0 & S1 & _).
  apply inside_of with (ql h); auto. { exists i, d, j, e. auto. }
  apply (valid_fiber m (new_valid m per None t Hn) h). eapply nth_error_In. apply Hf.
Qed.
Lemma stack_inside linprog m per t thr st m' g fb h x k0 : net_new m per None = Ok t ->
  solved linprog m t -> stack_new linprog m t thr = Ok (st, m') -> mesh_init st = Ok g ->
  has_fiber m fb h -> - (ql h / 2) <= x -> x <= ql h / 2 -> nearest (abscissae g fb) (shrunk x) k0 -> inside g fb x k0.
Proof.
  intros Hn Hs Ht Hi Hf A B N. destruct (stack_tiles linprog m per t thr st m' g fb h Hn Hs Ht Hi Hf) as (i & d & j & e & F0 & F1 & L & S0 & S1 & _).
  apply inside_of with (ql h); auto. { exists i, d, j, e. auto. }
  apply (valid_fiber m (new_valid m per None t Hn) h). eapply nth_error_In. apply Hf.
Qed.
Lemma nodes_in (rows : list (Z * node)) i d : is_node rows i d -> In (i, d) (combine (seq 0 (length rows)) (map snd rows)).
Proof.
  intros H. assert (G : forall l a j, is_node l j d -> In ((a + j)%nat, d) (combine (seq a (length l)) (map snd l))).
  { clear. induction l as [|[z e] l IH]; intros a j H; [destruct j; destruct H; discriminate|]. destruct j.
    - left. destruct H as (z' & H). injection H as -> ->. simpl. now rewrite Nat.add_0_r.
    - right. rewrite <- Nat.add_succ_comm. apply IH. exact H. }
  exact (G rows 0%nat i H).
Qed.
Lemma nearest_red s x k : nearest (map Qred s) x k -> nearest s x k.
Proof.
  intros (L & H). rewrite map_length in L, H. split; auto. intros j Lj. specialize (H j Lj).
  change 0 with (Qred 0) in H. rewrite !map_nth, !Qred_correct in H. exact H.
Qed.
