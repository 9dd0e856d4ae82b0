(** Property theorems for Net (C05 - C15). *)
From Coq Require Import String.
From Verif Require Import Num NumP ListX Frames MatM NetM Spec SpecNet CheckP NetP NetGeoP NetZP.
Open Scope Q_scope.

(** ** C15: Net.check accepts exactly the documented networks *)
Theorem C15_check_accepts : forall t,
  net_check t = Ok true <-> flag_set (n_attrs t) \/ net_ok t.
Proof. exact net_check_ok. Qed.
Theorem C15_check_raises : forall t e,
  net_check t = Exn e <-> ~ flag_set (n_attrs t) /\ net_fails t e.
Proof. exact net_check_raises. Qed.
Theorem C15_check_never_false : forall t b, net_check t = Ok b -> b = true.
Proof. exact net_check_true. Qed.

(** cases: accepted and rejected networks *)
Definition ex_conn (a b : Z) (sa sb : Q) : conn := mkConn a b sa sb 0 0 0 0 0 0.
Definition ex_net (l1 l2 : Z) (b : Z) (sa : Q) (isint : bool) : net_df :=
  mkNetDf net_cols
    [(0%Z, ex_conn 0 0 1 (-1)); (l1, ex_conn 0 b sa 0); (l2, ex_conn 1 1 2 (-2))]
    (mkAttrs (Some 2%Z) (Some (Fin 50)) (Some true) None) isint.
Example ex_net_accepted : net_check (ex_net 1 2 1 (1 # 2) true) = Ok true.
Proof. vm_compute. reflexivity. Qed.
Example ex_net_accepted_ok : net_ok (ex_net 1 2 1 (1 # 2) true).
Proof.
  destruct (proj1 (C15_check_accepts _) ex_net_accepted) as [H|H]; [discriminate H | exact H].
Qed.
Example ex_net_swapped : net_check (ex_net 2 1 1 (1 # 2) true) = Exn IndexErr.
Proof. vm_compute. reflexivity. Qed.
Example ex_net_repeated_label : net_check (ex_net 1 1 1 (1 # 2) true) = Exn BroadcastErr.
Proof. vm_compute. reflexivity. Qed.
Example ex_net_float_labels : net_check (ex_net 1 2 1 (1 # 2) false) = Exn TypeErr.
Proof. vm_compute. reflexivity. Qed.
Example ex_net_label_range : net_check (ex_net 1 2 2 (1 # 2) true) = Exn ValueErr.
Proof. vm_compute. reflexivity. Qed.
Example ex_net_repeat : net_fails
  (mkNetDf net_cols [(0%Z, ex_conn 0 1 (1 # 2) 0); (1%Z, ex_conn 0 1 (2 # 4) 0)]
    (mkAttrs (Some 2%Z) (Some (Fin 50)) (Some true) None) true) ValueErr.
Proof. apply C15_check_raises. vm_compute. reflexivity. Qed.

Print Assumptions C15_check_accepts.
Print Assumptions C15_check_raises.
Print Assumptions C15_check_never_false.

(** ** C05: Net(mat) always yields a valid network *)
Theorem C05_total : forall m per pairs,
  valid m -> pairs_in_range (length (q_rows m)) pairs -> exists t, net_new m per pairs = Ok t.
Proof. exact net_total. Qed.
Theorem C05_only_failures : forall m per pairs e, net_new m per pairs = Exn e ->
  mat_fails (df_of m) e \/
  (valid m /\ e = IndexErr /\ exists l p q n, pairs = Some l /\ In (p, q) l /\
     (length (q_rows m) <= n)%nat /\ (per = false -> n = length (q_rows m)) /\
     (~ (- Z.of_nat n <= p < Z.of_nat n)%Z \/ ~ (- Z.of_nat n <= q < Z.of_nat n)%Z)).
Proof. exact net_raises. Qed.
Theorem C05_valid : forall m per pairs t, net_new m per pairs = Ok t ->
  net_ok t /\ net_check t = Ok true /\ valid m.
Proof.
  exact (fun m per pairs t H =>
    conj (new_ok m per pairs t H) (conj (new_check m per pairs t H) (new_valid m per pairs t H))).
Qed.
Theorem C05_rows_numbered : forall m per pairs t k r, net_new m per pairs = Ok t ->
  nth_error (n_rows t) k = Some r -> exists c, r = (Z.of_nat k, c) /\ is_row t k c.
Proof. exact numbered. Qed.
Theorem C05_rows_increasing : forall m per pairs t, net_new m per pairs = Ok t ->
  forall k l c d, (k < l)%nat -> is_row t k c -> is_row t l d ->
    (cA c < cA d)%Z \/ (cA c = cA d /\ (cB c < cB d)%Z).
Proof. exact rows_increasing. Qed.
Theorem C05_attributes : forall m per pairs t, net_new m per pairs = Ok t ->
  at_n (n_attrs t) = Some (Z.of_nat (length (q_rows m))) /\
  at_size (n_attrs t) = Some (Fin (q_size m)) /\ at_periodic (n_attrs t) = Some per.
Proof. exact attributes. Qed.

(** ** C06: every fiber has exactly one pair of end nodes *)
Theorem C06_end_nodes : forall m per t i f, net_new m per None = Ok t -> has_fiber m i f ->
  exists k c, is_row t k c /\ cA c = i /\ cB c = i /\
    csA c == ql f / 2 /\ csB c == - (ql f / 2) /\
    forall k' c', is_row t k' c' -> cA c' = i -> cB c' = i -> k' = k.
Proof. exact end_nodes. Qed.
(** with a [pairs] argument end nodes, if any, are still at +-l/2 *)
Theorem C06_end_abscissae : forall m per pairs t k c f, net_new m per pairs = Ok t ->
  is_row t k c -> cA c = cB c -> has_fiber m (cA c) f ->
  csA c == ql f / 2 /\ csB c == - (ql f / 2).
Proof. exact end_abscissae. Qed.

(** ** C07: connection nodes lie strictly inside both fibers *)
Theorem C07_inside : forall m per pairs t k c f g, net_new m per pairs = Ok t ->
  is_row t k c -> (cA c < cB c)%Z -> has_fiber m (cA c) f -> has_fiber m (cB c) g ->
  inside f (csA c) /\ inside g (csB c).
Proof. exact row_inside. Qed.

(** ** C08: node coordinates are on the fiber axes *)
Theorem C08_on_axes : forall m per pairs t k c, net_new m per pairs = Ok t -> is_row t k c ->
  exists f g, has_fiber m (cA c) f /\ has_fiber m (cB c) g /\
    cxA c = ax f (csA c) /\ cyA c = ay f (csA c) /\ czA c = az f (csA c) /\
    cxB c = ax g (csB c) /\ cyB c = ay g (csB c) /\ czB c = az g (csB c).
Proof. exact on_axes. Qed.

(** ** C09: connection nodes are the nearest points of the two axes *)
Theorem C09_nearest : forall m per pairs t k c f g, net_new m per pairs = Ok t ->
  is_row t k c -> (cA c < cB c)%Z -> has_fiber m (cA c) f -> has_fiber m (cB c) g ->
  exists a b, allowed per a b /\ forall s s',
    let d := dist2 (q_size m) f g a b in
    d (csA c) (csB c) <= d s s' /\
    (d s s' == d (csA c) (csB c) -> s == csA c /\ s' == csB c).
Proof. exact row_nearest. Qed.

(** ** C10: nodes of in-plane fibers coincide modulo the period *)
Theorem C10_coincide : forall m per pairs t k c f g, net_new m per pairs = Ok t ->
  is_row t k c -> (cA c < cB c)%Z -> has_fiber m (cA c) f -> has_fiber m (cB c) g ->
  in_plane f -> in_plane g ->
  exists a b, allowed per a b /\
    cxA c == cxB c + inject_Z a * q_size m /\ cyA c == cyB c + inject_Z b * q_size m /\
    czA c == qz f /\ czB c == qz g.
Proof. exact row_coincide. Qed.

(** ** C11: non periodic networks contain exactly the crossings *)
Theorem C11_crossings : forall m t i j f g, net_new m false None = Ok t ->
  all_in_plane m -> all_at_most_unit m -> has_fiber m i f -> has_fiber m j g -> (i < j)%Z ->
  ((exists k c, is_row t k c /\ cA c = i /\ cB c = j) <->
   (exists s s', crosses_at (q_size m) f g 0 0 s s')).
Proof. exact flat_iff. Qed.
(** parallel fibers are never connected, in any mode *)
Theorem C11_parallel : forall m per pairs t k c f g, net_new m per pairs = Ok t ->
  is_row t k c -> (cA c < cB c)%Z -> has_fiber m (cA c) f -> has_fiber m (cB c) g ->
  in_plane f -> in_plane g -> ~ qu f * qv g - qv f * qu g == 0.
Proof. exact not_parallel. Qed.

(** ** C12: periodic networks contain exactly the periodic crossings *)
Theorem C12_periodic_crossings : forall m t i j f g, net_new m true None = Ok t ->
  all_in_plane m -> all_at_most_unit m -> lengths_le m (q_size m) ->
  has_fiber m i f -> has_fiber m j g -> (i < j)%Z ->
  ((exists k c, is_row t k c /\ cA c = i /\ cB c = j) <->
   (exists a b s s', crosses_at (q_size m) f g a b s s')).
Proof. exact periodic_iff. Qed.

(** ** C13: no periodic crossing is lost by removing duplicates (short fibers) *)
Theorem C13_no_loss : forall m t i j f g a b s s', net_new m true None = Ok t ->
  all_in_plane m -> all_at_most_unit m -> (forall f, In f (q_rows m) -> 2 * ql f <= q_size m) ->
  has_fiber m i f -> has_fiber m j g -> (i < j)%Z -> crosses_at (q_size m) f g a b s s' ->
  exists k c, is_row t k c /\ cA c = i /\ cB c = j /\ csA c == s /\ csB c == s'.
Proof. exact short_crossing_kept. Qed.
Theorem C13_one_image : forall S f g a b s t a' b' s' t', 0 < ql f -> 0 < ql g ->
  at_most_unit f -> at_most_unit g -> 2 * ql f <= S -> 2 * ql g <= S ->
  crosses_at S f g a b s t -> crosses_at S f g a' b' s' t' -> a = a' /\ b = b'.
Proof. exact image_unique'. Qed.

(** ** C14: in-plane networks do not depend on heights *)
Theorem C14_heights : forall per pairs m m' t t', all_in_plane m -> same_but_heights m m' ->
  net_new m per pairs = Ok t -> net_new m' per pairs = Ok t' ->
  length (n_rows t) = length (n_rows t') /\
  forall k c d, is_row t k c -> is_row t' k d -> same_from_above c d.
Proof. exact net_same. Qed.

(** cases: three fibers of length 4 in a box of side 10; fiber 2 crosses fiber 0 inside the
    box and fiber 1 through the left/right border *)
Definition ex_q (l x y z u v : Q) : qfiber := mkQ l 1 1 x y z u v 0 (Fin 1) PInf.
Definition ex_mats (z : Q) : qmat :=
  mkQmat [ex_q 4 4.5 4 (-3) 1 0; ex_q 5 (-4.5) (-4) 0 0.6 0.8; ex_q 3 4.5 4 z 0 1] 10.
Definition labels_of (r : res net_df) : list (Z * Z) :=
  match r with Ok t => map (fun p => (cA (snd p), cB (snd p))) (n_rows t) | Exn _ => [] end.
Example ex_mats_valid : valid (ex_mats 2).
Proof.
  destruct (proj1 (mat_check_ok (df_of (ex_mats 2))) eq_refl) as [H|H]; [discriminate H|exact H].
Qed.
Example ex_pairs : pairs_in_range 3 (Some [(0, 2); (-1, 1)]%Z).
Proof.
  intros l p q E. injection E as <-. simpl. intros [H|[H|[]]]; injection H as <- <-; lia.
Qed.
Example ex_periodic_rows : labels_of (net_new (ex_mats 2) true None)
  = [(0, 0); (0, 2); (1, 1); (1, 2); (2, 2)]%Z.
Proof. vm_compute. reflexivity. Qed.
Example ex_flat_rows : labels_of (net_new (ex_mats 2) false None)
  = [(0, 0); (0, 2); (1, 1); (2, 2)]%Z.
Proof. vm_compute. reflexivity. Qed.
Example ex_pairs_rows : labels_of (net_new (ex_mats 2) false (Some [(0, 2); (-1, 1)]%Z)) = [(0, 2)]%Z.
Proof. vm_compute. reflexivity. Qed.
Example ex_pairs_out : net_new (ex_mats 2) false (Some [(0, 3)]%Z) = Exn IndexErr.
Proof. vm_compute. reflexivity. Qed.
Example ex_net_new : exists t, net_new (ex_mats 2) true None = Ok t.
Proof. apply C05_total; [exact ex_mats_valid|]. intros l p q E; discriminate E. Qed.
Example ex_has_fiber : has_fiber (ex_mats 2) 1 (ex_q 5 (-4.5) (-4) 0 0.6 0.8)
                    /\ has_fiber (ex_mats 2) 2 (ex_q 3 4.5 4 2 0 1).
Proof. repeat split; discriminate. Qed.
Example ex_in_plane : all_in_plane (ex_mats 2).
Proof. intros f H. simpl in H. intuition subst; reflexivity. Qed.
Example ex_unit : all_at_most_unit (ex_mats 2).
Proof. intros f H. simpl in H. intuition subst; unfold at_most_unit; simpl; discriminate. Qed.
Example ex_short : forall f, In f (q_rows (ex_mats 2)) -> 2 * ql f <= q_size (ex_mats 2).
Proof. intros f H. simpl in H. intuition subst; simpl; discriminate. Qed.
Example ex_crossing : crosses_at 10 (ex_q 5 (-4.5) (-4) 0 0.6 0.8) (ex_q 3 4.5 4 2 0 1) (-1) (-1) (-5 # 3) (2 # 3).
Proof.
  unfold crosses_at, inside; simpl. repeat split; try reflexivity; discriminate.
Qed.
Example ex_heights : same_but_heights (ex_mats 2) (ex_mats (-7)) /\ valid (ex_mats (-7)).
Proof.
  split.
  - split; [reflexivity|]. repeat constructor.
  - destruct (proj1 (mat_check_ok (df_of (ex_mats (-7)))) eq_refl) as [H|H]; [discriminate H|exact H].
Qed.

(** The hypothesis [all_at_most_unit] of C11 cannot be dropped: Mat.check tolerates vectors longer
    than 1 by 1e-5, and the pre-filter then drops crossings near the tips. *)
Definition ex_slack : qmat :=
  mkQmat [ex_q 2 (-1.000005) 0 0 1.000009 0; ex_q 2 1.000005 0.000999996 0 1.000009 0.001] 50.
Theorem C11_slack_norm_refuted :
  ~ (forall m t i j f g, net_new m false None = Ok t ->
     all_in_plane m -> has_fiber m i f -> has_fiber m j g -> (i < j)%Z ->
     (exists s s', crosses_at (q_size m) f g 0 0 s s') ->
     exists k c, is_row t k c /\ cA c = i /\ cB c = j).
Proof.
  intros H.
  assert (Hv : valid ex_slack).
  { destruct (proj1 (mat_check_ok (df_of ex_slack)) eq_refl) as [C|C]; [discriminate C|exact C]. }
  destruct (C05_total ex_slack false None Hv) as (t & Ht); [intros l p q C; discriminate C|].
  destruct (H ex_slack t 0%Z 1%Z (ex_q 2 (-1.000005) 0 0 1.000009 0)
              (ex_q 2 1.000005 0.000999996 0 1.000009 0.001)) as (k & c & Hr & EA & EB); auto.
  - intros f Hf. simpl in Hf. intuition subst; reflexivity.
  - split; [lia|reflexivity].
  - split; [lia|reflexivity].
  - reflexivity.
  - exists (2.00001 / 1.000009 - 0.999996), (- 0.999996).
    unfold crosses_at, inside; simpl. repeat split; try reflexivity; discriminate.
  - revert Ht. vm_compute. intros Ht. injection Ht as <-. unfold is_row in Hr. simpl in Hr.
    destruct k as [|[|[|k]]]; try discriminate Hr; injection Hr as <-; discriminate.
Qed.

(** For longer fibers a crossing can be lost: these two cross in two images. *)
Definition ex_long : qmat := mkQmat [ex_q 10 (-2.5) 0 0 0.8 0.6; ex_q 10 2.5 0 0 0.8 (-0.6)] 10.
Theorem C13_long_fibers_refuted :
  ~ (forall m t i j f g a b s s', net_new m true None = Ok t ->
     all_in_plane m -> all_at_most_unit m -> lengths_le m (q_size m) ->
     has_fiber m i f -> has_fiber m j g -> (i < j)%Z -> crosses_at (q_size m) f g a b s s' ->
     exists k c, is_row t k c /\ cA c = i /\ cB c = j /\ csA c == s /\ csB c == s').
Proof.
  intros H.
  assert (Hv : valid ex_long).
  { destruct (proj1 (mat_check_ok (df_of ex_long)) eq_refl) as [C|C]; [discriminate C|exact C]. }
  destruct (C05_total ex_long true None Hv) as (t & Ht); [intros l p q C; discriminate C|].
  pose proof (H ex_long t 0%Z 1%Z (ex_q 10 (-2.5) 0 0 0.8 0.6) (ex_q 10 2.5 0 0 0.8 (-0.6))) as H0.
  assert (G1 : exists k c, is_row t k c /\ cA c = 0%Z /\ cB c = 1%Z /\ csA c == 3.125 /\ csB c == -3.125).
  { apply (H0 0%Z 0%Z); auto.
    - intros f Hf. simpl in Hf. intuition subst; reflexivity.
    - intros f Hf. simpl in Hf. intuition subst; unfold at_most_unit; simpl; discriminate.
    - intros f Hf. simpl in Hf. intuition subst; simpl; discriminate.
    - split; [lia|reflexivity].
    - split; [lia|reflexivity].
    - lia.
    - unfold crosses_at, inside; simpl. repeat split; try reflexivity; discriminate. }
  assert (G2 : exists k c, is_row t k c /\ cA c = 0%Z /\ cB c = 1%Z /\ csA c == -3.125 /\ csB c == 3.125).
  { apply (H0 (-1)%Z 0%Z); auto.
    - intros f Hf. simpl in Hf. intuition subst; reflexivity.
    - intros f Hf. simpl in Hf. intuition subst; unfold at_most_unit; simpl; discriminate.
    - intros f Hf. simpl in Hf. intuition subst; simpl; discriminate.
    - split; [lia|reflexivity].
    - split; [lia|reflexivity].
    - lia.
    - unfold crosses_at, inside; simpl. repeat split; try reflexivity; discriminate. }
  destruct G1 as (k1 & c1 & R1 & A1 & B1 & S1 & _). destruct G2 as (k2 & c2 & R2 & A2 & B2 & S2 & _).
  assert (k1 = k2).
  { destruct (Nat.lt_trichotomy k1 k2) as [L|[L|L]]; auto; exfalso.
    - destruct (C05_rows_increasing _ _ _ _ Ht _ _ _ _ L R1 R2); lia.
    - destruct (C05_rows_increasing _ _ _ _ Ht _ _ _ _ L R2 R1); lia. }
  subst k2. unfold is_row in R1, R2. rewrite R1 in R2. injection R2 as <-.
  rewrite S1 in S2. discriminate S2.
Qed.

Print Assumptions C05_total.
Print Assumptions C05_only_failures.
Print Assumptions C05_valid.
Print Assumptions C05_rows_numbered.
Print Assumptions C05_rows_increasing.
Print Assumptions C05_attributes.
Print Assumptions C06_end_nodes.
Print Assumptions C06_end_abscissae.
Print Assumptions C07_inside.
Print Assumptions C08_on_axes.
Print Assumptions C09_nearest.
Print Assumptions C10_coincide.
Print Assumptions C11_crossings.
Print Assumptions C11_parallel.
Print Assumptions C12_periodic_crossings.
Print Assumptions C13_no_loss.
Print Assumptions C13_one_image.
Print Assumptions C14_heights.
Print Assumptions C11_slack_norm_refuted.
Print Assumptions C13_long_fibers_refuted.

(** ** C65: networks of fibers of any orientation *)
(** two fibers are connected exactly when, in some image, their centres are closer seen from above than
    the mean of their lengths and the common perpendicular of their axes has both feet strictly inside *)
Theorem C65_connections : forall m per t i j f g, net_new m per None = Ok t ->
  (per = true -> lengths_le m (q_size m)) -> has_fiber m i f -> has_fiber m j g -> (i < j)%Z ->
  ((exists k c, is_row t k c /\ cA c = i /\ cB c = j) <->
   (exists a b s s', allowed per a b /\ close (q_size m) f g a b /\
      facing (q_size m) f g a b s s' /\ inside f s /\ inside g s')).
Proof. exact facing_iff. Qed.
(** the abscissae of a row are the feet of that perpendicular *)
Theorem C65_feet : forall m per pairs t k c f g, net_new m per pairs = Ok t -> is_row t k c ->
  (cA c < cB c)%Z -> has_fiber m (cA c) f -> has_fiber m (cB c) g ->
  exists a b, allowed per a b /\ close (q_size m) f g a b /\ facing (q_size m) f g a b (csA c) (csB c).
Proof. exact row_facing. Qed.

(** cases: two inclined fibers, side by side, and a horizontal one under the first *)
Definition ex_i (l x y z u v w : Q) : qfiber := mkQ l 1 1 x y z u v w (Fin 1) PInf.
Definition ex_tilt : qmat :=
  mkQmat [ex_i 25 (-10) 0 0 0 0.6 0.8; ex_i 25 10 0 0 0 (-0.6) 0.8; ex_i 20 (-5) 0 (-3) 1 0 0] 50.
Example ex_tilt_valid : valid ex_tilt.
Proof. destruct (proj1 (mat_check_ok (df_of ex_tilt)) eq_refl) as [C|C]; [discriminate C|exact C]. Qed.
Example ex_tilt_lengths : lengths_le ex_tilt (q_size ex_tilt).
Proof. intros f Hf. simpl in Hf. intuition subst; simpl; discriminate. Qed.
Example ex_tilt_rows : labels_of (net_new ex_tilt true None) = [(0, 0); (0, 1); (0, 2); (1, 1); (2, 2)]%Z
  /\ labels_of (net_new ex_tilt false None) = [(0, 0); (0, 1); (0, 2); (1, 1); (2, 2)]%Z.
Proof. split; vm_compute; reflexivity. Qed.
Example ex_tilt_facing : let f := ex_i 25 (-10) 0 0 0 0.6 0.8 in let g := ex_i 20 (-5) 0 (-3) 1 0 0 in
  close 50 f g 0 0 /\ facing 50 f g 0 0 (-2.4) (-5) /\ inside f (-2.4) /\ inside g (-5).
Proof.
  unfold close, facing, inside, ax, ay, az; simpl. repeat split; try reflexivity.
  intros (_ & H & _). discriminate H.
Qed.

(** Connected fibers need not cross seen from above: the first two are 20 apart. *)
Theorem C65_cross_from_above_refuted :
  ~ (forall m t k c, net_new m false None = Ok t -> is_row t k c -> (cA c < cB c)%Z ->
     exists f g s s', has_fiber m (cA c) f /\ has_fiber m (cB c) g /\ inside f s /\ inside g s' /\
       ax f s == ax g s' /\ ay f s == ay g s').
Proof.
  intros H.
  destruct (C05_total ex_tilt false None ex_tilt_valid) as (t & Ht); [intros l p q C; discriminate C|].
  assert (R : exists k c, is_row t k c /\ cA c = 0%Z /\ cB c = 1%Z).
  { apply (C65_connections ex_tilt false t 0 1 (ex_i 25 (-10) 0 0 0 0.6 0.8) (ex_i 25 10 0 0 0 (-0.6) 0.8) Ht).
    - discriminate.
    - split; [lia|reflexivity].
    - split; [lia|reflexivity].
    - lia.
    - exists 0%Z, 0%Z, 0, 0. unfold allowed, close, facing, inside, ax, ay, az; simpl.
      repeat split; try reflexivity. intros (C & _). discriminate C. }
  destruct R as (k & c & Hr & EA & EB).
  destruct (H _ _ _ _ Ht Hr) as (f & g & s & s' & [_ Hf] & [_ Hg] & _ & _ & Hx & _); [lia|].
  rewrite EA in Hf. rewrite EB in Hg. injection Hf as <-. injection Hg as <-.
  unfold ax in Hx. simpl in Hx. lra.
Qed.

Print Assumptions C65_connections.
Print Assumptions C65_feet.
Print Assumptions C65_cross_from_above_refuted.
