(** Proofs about the VTK mesh. *)
From Coq Require Import Permutation.
From Verif Require Import Num NumP ListX ListP Frames MatM NetM StackM MeshM RenderM VtkM Spec SpecNet SpecStack SpecMesh SpecRender SpecVtk
  CheckP MeshCheckP NetP StackNewP MeshP RenderP.
Open Scope Q_scope.

(** ** Lists *)
Lemma flat_block {A B} (F : A -> list B) (T : nat) (l : list A) : (forall a, In a l -> length (F a) = T) ->
  length (flat_map F l) = (length l * T)%nat /\
  forall i j a, nth_error l i = Some a -> (j < T)%nat -> nth_error (flat_map F l) (i * T + j) = nth_error (F a) j.
Proof.
  induction l as [|a l IH]; intros H.
  - split; [reflexivity|]. intros [|i] j x E; discriminate E.
  - destruct IH as [L N]. { intros b Hb. apply H. now right. }
    assert (LA : length (F a) = T) by (apply H; now left).
    split. { cbn [flat_map length]. rewrite app_length, L, LA. lia. }
    intros [|i] j x E Hj; cbn [nth_error flat_map] in *.
    + inversion E; subst. rewrite nth_error_app1 by lia. reflexivity.
    + rewrite nth_error_app2 by lia. rewrite <- (N i j x E Hj). f_equal. lia.
Qed.
Lemma map_flat_map {A B C} (f : B -> C) (F : A -> list B) l : map f (flat_map F l) = flat_map (fun a => map f (F a)) l.
Proof. induction l as [|a l IH]; [reflexivity|]. cbn. rewrite map_app, IH. reflexivity. Qed.

(** ** The points of a mesh that is not periodic *)
Section Points.
  Variables (cyl : list vec) (place : qfiber -> vec -> vec) (near : list Q -> Q -> nat).
  Variables (m : qmat) (g : mesh_df).
  Hypothesis Hcyl : unit_cylinder cyl.
  Hypothesis Hnear : right_tree near.
  Hypothesis Hv : valid m.
  Hypothesis Hg : mesh_ok g.
  Hypothesis Hs : spans m g.

  (** the nearest node used for a point *)
  Definition kk (i : Z) (x : Q) : nat := near (abscissae g i) (shrunk x).

  Lemma fiber_inside i f c : has_fiber m i f -> In c cyl -> inside g i (vx c * ql f) (kk i (vx c * ql f)).
  Proof.
    intros Hf Hc. destruct (Hs i f Hf) as (a & d & b & e & F0 & F1 & L & S0 & S1).
    assert (L0 : 0 < ql f) by (apply (valid_fiber m Hv f); eapply nth_error_In; apply Hf).
    destruct (Hcyl c Hc) as [C1 C2].
    apply inside_of with (ql f).
    - exists a, d, b, e; auto.
    - exact L0.
    - setoid_replace (- (ql f / 2)) with (- (1 # 2) * ql f) by qlra. apply Qmult_le_compat_r; [exact C1|lra].
    - setoid_replace (ql f / 2) with ((1 # 2) * ql f) by qlra. apply Qmult_le_compat_r; [exact C2|lra].
    - apply Hnear. intros E. destruct F0 as (A & B & _). unfold abscissae in E.
      assert (HI : In (Z.of_nat a, d) (filter (fun r => Z.eqb (nf (snd r)) i) (g_rows g))).
      { destruct A as (lab & A). apply filter_In. split; [|simpl; apply Z.eqb_eq; auto].
        destruct (mesh_orders g Hg) as [La _]. pose proof (La _ _ _ A). subst lab. eapply nth_error_In; eauto. }
      destruct (filter _ _); [exact HI|discriminate E].
  Qed.
  Lemma fiber_coord i f c : has_fiber m i f -> In c cyl -> exists v, point_coord g i (vx c * ql f) (kk i (vx c * ql f)) = Ok v.
  Proof.
    intros Hf Hc. pose proof (fiber_inside i f c Hf Hc) as I. destruct (Hs i f Hf) as (a & d & b & e & F0 & _).
    destruct (api_cases g i _ _ a d Hg I F0) as (d' & _ & _ & [(? & ? & ? & ? & q & _ & _ & E & _)|[(_ & _ & q & E & _)|(H & _ & E1 & E2)]]); eauto.
    destruct (Qlt_le_dec (shrunk (vx c * ql f)) (ns d')) as [C|C]; [eauto|]. exists NaN. apply E2. apply Qle_antisym; auto.
  Qed.
  (** the coordinate, when there is one *)
  Definition coord (i : Z) (p : vpoint) : num :=
    match point_coord g i (vx (v_xyz p)) (kk i (vx (v_xyz p))) with Ok c => c | Exn _ => NaN end.
  Definition with_node (i : Z) (p : vpoint) : vpoint :=
    mkVp (v_x p) (v_y p) (v_z p) (v_fiber p) (v_lbh p) (v_xyz p) (v_uvw p) (v_G p) (v_E p)
         (coord i p) (v_disp p) (v_rot p) (v_curv p) (v_force p).
  Lemma all_points_ok F (G : vpoint -> vpoint) l : (forall p, In p l -> F p = Ok (G p)) -> all_points F l = Ok (map G l).
  Proof.
    induction l as [|p l IH]; intros H; [reflexivity|]. cbn [all_points map]. rewrite H by now left. cbn [bind].
    rewrite IH by (intros q Hq; apply H; now right). reflexivity.
  Qed.
  Lemma field_ok i f : has_fiber m i f -> interpolation_field near g (vtk_fiber cyl place f i) i = Ok (map (with_node i) (vtk_fiber cyl place f i)).
  Proof.
    intros Hf. unfold interpolation_field. destruct (get_group g i) as [gr|e] eqn:E.
    2:{ exfalso. destruct (Hs i f Hf) as (a & d & _ & _ & (A & B & _) & _).
        assert (e = KeyErr) by (unfold get_group in E; destruct (filter _ _); congruence). subst e.
        apply (proj1 (group_unknown g i) E a d A B). }
    cbn [bind]. apply all_points_ok. intros p Hp. unfold vtk_fiber in Hp. apply in_map_iff in Hp. destruct Hp as (c & <- & Hc).
    cbn [v_xyz vx v_x v_y v_z v_fiber v_lbh v_uvw v_G v_E v_disp v_rot v_curv v_force].
    destruct (fiber_coord i f c Hf Hc) as (v & Ev). unfold with_node, coord. cbn [v_xyz vx v_x v_y v_z v_fiber v_lbh v_uvw v_G v_E v_disp v_rot v_curv v_force].
    rewrite Ev. unfold point_coord in Ev. rewrite E in Ev. cbn [bind] in Ev.
    assert (EA : abscissae g i = map (fun r => ns (snd r)) gr). { unfold abscissae. unfold get_group in E. destruct (filter _ _); [discriminate E|]. inversion E. reflexivity. }
    unfold kk, shrunk in Ev. rewrite EA in Ev. rewrite Ev. reflexivity.
  Qed.
  Definition located : list vpoint := flat_map (fun r => map (with_node (fst r)) (vtk_fiber cyl place (snd r) (fst r))) (enum (q_rows m)).
  Lemma each_ok rows : (forall r, In r rows -> has_fiber m (fst r) (snd r)) ->
    each_fiber cyl place (interpolation_field near g) rows = Ok (flat_map (fun r => map (with_node (fst r)) (vtk_fiber cyl place (snd r) (fst r))) rows).
  Proof.
    induction rows as [|[i f] rows IH]; intros H; [reflexivity|]. cbn [each_fiber]. rewrite (field_ok i f) by (apply (H (i, f)); now left).
    cbn [bind]. rewrite IH by (intros r Hr; apply H; now right). reflexivity.
  Qed.
  Lemma enum_has r : In r (enum (q_rows m)) -> has_fiber m (fst r) (snd r).
  Proof.
    intros H. apply In_nth_error in H. destruct H as (k & H). rewrite enum_nth_error in H.
    destruct (nth_error (q_rows m) k) as [f|] eqn:E; [|discriminate H]. cbn in H. inversion H; subst r. cbn. split; [lia|]. rewrite Nat2Z.id. exact E.
  Qed.
  Lemma vtk_mat_ok : vtk_mat cyl place m (interpolation_field near g) = Ok located.
  Proof. unfold vtk_mat. rewrite (valid_check m Hv). cbn [bind]. apply each_ok. exact enum_has. Qed.

  Variables disp rot force moment : option (list Q).
  Hypothesis Hd : nodal_arg g disp.
  Hypothesis Hr : disp <> None -> nodal_arg g rot.
  Hypothesis Hf : nodal_arg g force.
  Hypothesis Hm : force <> None -> nodal_arg g moment.

  Lemma two_nodes : q_rows m <> [] -> (2 <= length (g_rows g))%nat.
  Proof.
    intros H. destruct (q_rows m) as [|f l] eqn:E; [congruence|].
    destruct (Hs 0%Z f) as (i & d & j & e & (A & _) & (B & _) & L & _). { split; [lia|]. rewrite E. reflexivity. }
    apply node_lt in B. lia.
  Qed.
  Lemma spline_ok y d : q_rows m <> [] -> nodal g y -> nodal_arg g d -> spline_args (length (g_rows g)) y (slopes y d) = true.
  Proof.
    intros H Hy Hdd. unfold spline_args. pose proof (two_nodes H) as L. apply Nat.leb_le in L. rewrite L. unfold nodal in Hy. rewrite Hy, Nat.eqb_refl.
    destruct d as [d|]; cbn [slopes]. { rewrite (Hdd d eq_refl), Nat.eqb_refl. reflexivity. }
    unfold no_slope. rewrite map_length, Hy, Nat.eqb_refl. reflexivity.
  Qed.
  Definition D (p : vpoint) : vpoint :=
    match disp with
    | None => p
    | Some y => let d := slopes y rot in let w := at_coord (hermite y d) (v_node p) in
       mkVp (v_x p) (v_y p) (nadd (v_z p) w) (v_fiber p) (v_lbh p) (v_xyz p) (v_uvw p) (v_G p) (v_E p) (v_node p)
            (Some w) (Some (at_coord (hermite' y d) (v_node p))) (Some (at_coord (hermite'' y d) (v_node p))) (v_force p)
    end.
  Definition L (p : vpoint) : vpoint :=
    match force with
    | None => p
    | Some y => let d := slopes y moment in
       mkVp (v_x p) (v_y p) (v_z p) (v_fiber p) (v_lbh p) (v_xyz p) (v_uvw p) (v_G p) (v_E p) (v_node p)
            (v_disp p) (v_rot p) (v_curv p) (Some (at_coord (hermite y d) (v_node p)))
    end.
  Lemma displace_ok l : q_rows m <> [] -> displace (length (g_rows g)) disp rot l = Ok (map D l).
  Proof.
    intros H. unfold displace, D. destruct disp as [y|]; [|rewrite map_id; reflexivity].
    cbv zeta. rewrite spline_ok; [reflexivity|exact H|apply Hd; reflexivity|apply Hr; discriminate].
  Qed.
  Lemma load_ok l : q_rows m <> [] -> load (length (g_rows g)) force moment l = Ok (map L l).
  Proof.
    intros H. unfold load, L. destruct force as [y|]; [|rewrite map_id; reflexivity].
    cbv zeta. rewrite spline_ok; [reflexivity|exact H|apply Hf; reflexivity|apply Hm; discriminate].
  Qed.
  Definition base : list vpoint := map L (map D located).
  Lemma vtk_eq : vtk_mesh cyl place near m g disp rot force moment =
    if Nat.eqb (length (q_rows m)) 0 then Ok [] else
    match at_periodic (g_attrs g) with None => Exn KeyErr | Some true => Ok (periodic_copies (q_size m) base) | Some false => Ok base end.
  Proof.
    unfold vtk_mesh. rewrite (valid_check m Hv). cbn [bind]. rewrite (proj2 (mesh_check_ok g) (or_intror Hg)). cbn [bind]. rewrite vtk_mat_ok. cbn [bind].
    destruct (q_rows m) as [|f l] eqn:E; cbn [length Nat.eqb].
    { unfold located. rewrite E. reflexivity. }
    rewrite displace_ok by congruence. cbn [bind]. rewrite load_ok by congruence. reflexivity.
  Qed.

  Lemma total : (exists b, at_periodic (g_attrs g) = Some b) -> exists pts, vtk_mesh cyl place near m g disp rot force moment = Ok pts.
  Proof. intros (b & E). rewrite vtk_eq, E. destruct (Nat.eqb _ _); [eauto|]. destruct b; eauto. Qed.
  Definition point (i : Z) (f : qfiber) (c : vec) : vpoint :=
    let p := place f c in
    L (D (with_node i (mkVp (vx p) (vy p) (Fin (vz p)) i (mkVec (ql f) (qb f) (qh f))
      (mkVec (vx c * ql f) (vy c * qb f) (vz c * qh f)) (mkVec (qu f) (qv f) (qw f)) (qG f) (qE f) NaN None None None None))).
  Lemma base_eq : base = flat_map (fun r => map (point (fst r) (snd r)) cyl) (enum (q_rows m)).
  Proof.
    unfold base, located. rewrite map_flat_map, map_flat_map. apply flat_map_ext. intros [i f]. unfold vtk_fiber. rewrite !map_map. reflexivity.
  Qed.
  Lemma base_nth : length base = (length (q_rows m) * length cyl)%nat /\
    forall i f j c, has_fiber m i f -> nth_error cyl j = Some c -> nth_error base (Z.to_nat i * length cyl + j) = Some (point i f c).
  Proof.
    rewrite base_eq. destruct (flat_block (fun r => map (point (fst r) (snd r)) cyl) (length cyl) (enum (q_rows m))) as [EL EN].
    { intros a _. apply map_length. }
    split. { rewrite EL, enum_length. reflexivity. }
    intros i f j c [H0 Hi] Hj.
    rewrite (EN (Z.to_nat i) j (i, f)).
    - rewrite nth_error_map. cbn [fst snd]. rewrite Hj. reflexivity.
    - rewrite enum_nth_error, Hi. cbn. rewrite Z2Nat.id by exact H0. reflexivity.
    - apply nth_error_Some. congruence.
  Qed.
  Lemma base_in p : In p base -> exists i f c, has_fiber m i f /\ In c cyl /\ p = point i f c.
  Proof.
    rewrite base_eq. intros H. apply in_flat_map in H. destruct H as (r & Hr' & H). apply in_map_iff in H. destruct H as (c & <- & Hc).
    exists (fst r), (snd r), c. split; auto. apply enum_has; auto.
  Qed.
  Lemma point_describes i f c : describes f i c (point i f c) /\ v_x (point i f c) = vx (place f c) /\ v_y (point i f c) = vy (place f c).
  Proof. clear Hd Hr Hf Hm. unfold point, L, D. destruct disp, force; cbn; repeat split. Qed.
  Lemma nth_slopes y d k : y <> None -> nth k (slopes (match y with Some v => v | None => [] end) d) 0 == nth k (slopes_used y d) 0.
  Proof.
    intros H. destruct y as [y|]; [|congruence]. destruct d as [d|]; cbn; [reflexivity|]. unfold no_slope. clear.
    revert k. induction y as [|a y IH]; intros [|k]; cbn [map nth]; try reflexivity; apply IH.
  Qed.
  Lemma point_fields i f c : has_fiber m i f -> In c cyl -> distinct_nodes g i ->
    exists k d e t, lies_between g i (shrunk (vx c * ql f)) k d e t /\ displaced disp rot k t (vz (place f c)) (point i f c) /\
      loaded force moment k t (point i f c).
  Proof.
    intros Hi Hc DN. pose proof (fiber_inside i f c Hi Hc) as I.
    destruct (api_located g i _ _ Hg DN I) as (k & d & e & t & q & B & Ec & Eq).
    exists k, d, e, t. split; [exact B|]. pose proof B as (_ & N' & _ & _ & _ & _ & _ & T0 & T1). pose proof (node_lt g _ _ N') as LT.
    assert (EN : coord i (mkVp (vx (place f c)) (vy (place f c)) (Fin (vz (place f c))) i (mkVec (ql f) (qb f) (qh f))
      (mkVec (vx c * ql f) (vy c * qb f) (vz c * qh f)) (mkVec (qu f) (qv f) (qw f)) (qG f) (qE f) NaN None None None None) = Fin q).
    { unfold coord. cbn [v_xyz vx]. rewrite Ec. reflexivity. }
    unfold point, with_node. rewrite EN. clear EN. split.
    - unfold displaced, L, D. destruct disp as [y|] eqn:ED; [|destruct force; cbn; repeat split].
      pose proof (Hd y eq_refl) as Hy. pose proof LT as LY. rewrite <- Hy in LY.
      assert (ES : forall k, nth k (slopes y rot) 0 == nth k (slopes_used (Some y) rot) 0) by (intros k'; apply (nth_slopes (Some y)); discriminate).
      set (dy := slopes y rot) in *. set (du := slopes_used (Some y) rot) in *.
      assert (V : hermite y dy q == from_nodes hermite_basis y du k t).
      { rewrite (hermite_value y dy k t q LY ltac:(lra) T1 Eq). unfold from_nodes, hermite_basis. rewrite (ES k), (ES (S k)). reflexivity. }
      cbv zeta.
      assert (G1 : holds (Some (Fin (hermite y dy q))) (from_nodes hermite_basis y du k t)) by (eexists; split; [reflexivity|exact V]).
      assert (G2 : holds (Some (Fin (hermite' y dy q))) (from_nodes hermite_rate y du k t)).
      { eexists; split; [reflexivity|]. unfold from_nodes, hermite_rate. destruct (Qlt_le_dec t 1) as [C|C].
        - rewrite (hermite_slope y dy k t q LY ltac:(lra) Eq C), (ES k), (ES (S k)). ring.
        - assert (T : t == 1) by lra. rewrite (hermite_slope_end y dy k t q LY Eq T), T, (ES (S k)). ring. }
      assert (G3 : t < 1 -> holds (Some (Fin (hermite'' y dy q))) (from_nodes hermite_bend y du k t)).
      { intros C. eexists; split; [reflexivity|]. unfold from_nodes, hermite_bend. rewrite (hermite_curvature y dy k t q LY ltac:(lra) Eq C), (ES k), (ES (S k)). ring. }
      assert (G4 : exists z, nadd (Fin (vz (place f c))) (Fin (hermite y dy q)) = Fin z /\ z == vz (place f c) + from_nodes hermite_basis y du k t).
      { eexists; split; [reflexivity|]. rewrite V. reflexivity. }
      destruct force; cbn [v_disp v_rot v_curv v_z v_node at_coord]; auto.
    - unfold loaded, L, D. destruct force as [y|] eqn:EF; [|destruct disp; cbn; reflexivity].
      pose proof (Hf y eq_refl) as Hy. pose proof LT as LY. rewrite <- Hy in LY.
      assert (ES : forall k, nth k (slopes y moment) 0 == nth k (slopes_used (Some y) moment) 0) by (intros k'; apply (nth_slopes (Some y)); discriminate).
      assert (V : hermite y (slopes y moment) q == from_nodes hermite_basis y (slopes_used (Some y) moment) k t).
      { rewrite (hermite_value y _ k t q LY ltac:(lra) T1 Eq). unfold from_nodes, hermite_basis. rewrite (ES k), (ES (S k)). reflexivity. }
      destruct disp; cbn [v_force v_node at_coord]; eexists; (split; [reflexivity|exact V]).
  Qed.
End Points.

(** ** Networks and stacks *)
Lemma net_spans m per t g : net_new m per None = Ok t -> mesh_init t = Ok g -> spans m g.
Proof.
  intros Hn Hi fb f Hf. destruct (net_tiles m per t g fb f Hn Hi Hf) as (i & d & j & e & F0 & F1 & L & S0 & S1 & _).
  exists i, d, j, e; auto 10.
Qed.
Lemma same_spans m m' g : same_but_heights m m' -> spans m g -> spans m' g.
Proof.
  intros HS H fb f' [H0 Hf']. destruct HS as [_ HS]. destruct (nth_error (q_rows m) (Z.to_nat fb)) as [f|] eqn:E.
  - destruct (H fb f (conj H0 E)) as (i & d & j & e & F0 & F1 & L & S0 & S1).
    assert (EL : ql f = ql f').
    { clear - HS E Hf'. revert HS E Hf'. generalize (Z.to_nat fb). generalize (q_rows m'). induction (q_rows m) as [|a l IH]; intros l' n F E E'.
      - destruct n; discriminate E.
      - inversion F; subst. destruct n; cbn in *; [|eapply IH; eauto]. inversion E; inversion E'; subst. apply H1. }
    rewrite EL in *. exists i, d, j, e; auto 10.
  - exfalso. assert (LL : length (q_rows m) = length (q_rows m')). { clear - HS. induction HS; cbn; congruence. }
    apply nth_error_None in E. assert (W : nth_error (q_rows m') (Z.to_nat fb) <> None) by congruence. apply nth_error_Some in W. lia.
Qed.
Lemma stack_spans linprog m per t thr st m' g : net_new m per None = Ok t -> solved linprog m t ->
  stack_new linprog m t thr = Ok (st, m') -> mesh_init st = Ok g -> spans m' g.
Proof.
  intros Hn Hs Ht Hi. apply (same_spans m). { destruct (built_inv linprog m per t Hn Hs thr st m' Ht) as (_ & _ & _ & HS & _). exact HS. }
  intros fb f Hf. destruct (stack_tiles linprog m per t thr st m' g fb f Hn Hs Ht Hi Hf) as (i & d & j & e & F0 & F1 & L & S0 & S1 & _).
  exists i, d, j, e; auto 10.
Qed.

(** ** The nine copies *)
Lemma Qleb_comp a b c d : a == b -> c == d -> Qleb a c = Qleb b d.
Proof. intros E F. destruct (Qleb a c) eqn:H, (Qleb b d) eqn:H'; qb; try reflexivity; lra. Qed.
Lemma nleb_fin a b : a <= b -> nleb (Fin a) (Fin b) = true.
Proof. intros H. unfold nleb. cbn [nltb neqb]. destruct (Qltb a b) eqn:E; [reflexivity|]. cbn. qb. apply Qle_antisym; auto. Qed.
Lemma filter_flat_map {A B} (W : B -> bool) (F : A -> list B) l : filter W (flat_map F l) = flat_map (fun a => filter W (F a)) l.
Proof. induction l as [|a l IH]; [reflexivity|]. cbn [flat_map]. rewrite filter_app, IH. reflexivity. Qed.
Lemma filter_map_comm {A B} (W : B -> bool) (f : A -> B) l : filter W (map f l) = map f (filter (fun a => W (f a)) l).
Proof. induction l as [|a l IH]; [reflexivity|]. cbn [map filter]. destruct (W (f a)); cbn [map]; rewrite IH; reflexivity. Qed.
Lemma flat_map_perm {A B} (F G : A -> list B) l : (forall a, In a l -> Permutation (F a) (G a)) -> Permutation (flat_map F l) (flat_map G l).
Proof.
  induction l as [|a l IH]; intros H; [constructor|]. cbn [flat_map]. apply Permutation_app; [apply H; now left|apply IH; intros b Hb; apply H; now right].
Qed.
Lemma flat_map_cons {A B} (F : A -> list B) (f : A -> B) l : Permutation (flat_map (fun a => f a :: F a) l) (map f l ++ flat_map F l).
Proof.
  induction l as [|a l IH]; [constructor|]. cbn [flat_map map app]. constructor. rewrite IH.
  rewrite !app_assoc. apply Permutation_app_tail. apply Permutation_app_comm.
Qed.
Lemma flat_swap {A B C} (f : A -> B -> C) (l : list A) (k : list B) :
  Permutation (flat_map (fun a => map (f a) k) l) (flat_map (fun b => map (fun a => f a b) l) k).
Proof.
  induction l as [|a l IH].
  - cbn. induction k as [|b k IHk]; [constructor|exact IHk].
  - cbn [flat_map]. rewrite IH. symmetry. apply (flat_map_cons (fun b => map (fun a0 => f a0 b) l) (f a)).
Qed.
Lemma filter_split {A} (P : A -> bool) l : Permutation l (filter P l ++ filter (fun a => negb (P a)) l).
Proof.
  induction l as [|a l IH]; [constructor|]. cbn [filter]. destruct (P a); cbn [negb app].
  - now constructor.
  - rewrite IH at 1. apply Permutation_middle.
Qed.
Lemma filter_none {A} (P : A -> bool) l : (forall a, In a l -> P a = false) -> filter P l = [].
Proof. induction l as [|a l IH]; intros H; [reflexivity|]. cbn [filter]. rewrite H by now left. apply IH. intros b Hb. apply H. now right. Qed.
Lemma Permutation_filter' {A} (P : A -> bool) l l' : Permutation l l' -> Permutation (filter P l) (filter P l').
Proof.
  induction 1 as [|x l l' H IH|x y l|l l' l'' H1 IH1 H2 IH2]; cbn [filter].
  - constructor.
  - destruct (P x); [now constructor|exact IH].
  - destruct (P x), (P y); try reflexivity. apply perm_swap.
  - etransitivity; eauto.
Qed.
Lemma NoDup_cat {A} (l k : list A) : NoDup l -> NoDup k -> (forall x, In x l -> ~ In x k) -> NoDup (l ++ k).
Proof.
  intros Hl Hk. induction Hl as [|a l N Hl IH]; intros H; [exact Hk|]. cbn [app]. constructor.
  - rewrite in_app_iff. intros [H1|H1]; [auto|]. apply (H a); [now left|auto].
  - apply IH. intros x Hx. apply H. now right.
Qed.
Lemma NoDup_prod {A B} (l : list A) (k : list B) : NoDup l -> NoDup k -> NoDup (flat_map (fun a => map (pair a) k) l).
Proof.
  intros Hl Hk. induction Hl as [|a l N Hl IH]; [constructor|]. cbn [flat_map]. apply NoDup_cat; auto.
  - clear - Hk. induction Hk; cbn [map]; constructor; auto. intros H1. apply in_map_iff in H1. destruct H1 as (b & E & H1). congruence.
  - intros x Hx Hx'. apply in_map_iff in Hx. destruct Hx as (b & <- & _). apply in_flat_map in Hx'. destruct Hx' as (a' & Ha & Hx).
    apply in_map_iff in Hx. destruct Hx as (b' & E & _). inversion E; subst. auto.
Qed.
Lemma around_in K a : In a (around K) <-> (- Z.of_nat K <= a <= Z.of_nat K)%Z.
Proof.
  unfold around. rewrite in_map_iff. split.
  - intros (k & <- & H). apply in_seq in H. lia.
  - intros H. exists (Z.to_nat (a + Z.of_nat K)). split; [lia|]. apply in_seq. lia.
Qed.
Lemma around_nodup K : NoDup (around K).
Proof.
  unfold around. generalize (seq_NoDup (2 * K + 1) 0). generalize (seq 0 (2 * K + 1)). induction 1 as [|k l N H IH]; cbn [map]; constructor; auto.
  intros H1. apply in_map_iff in H1. destruct H1 as (j & E & H1). assert (j = k) by lia. subst. auto.
Qed.

(** the moves of the copies, in the order of the code *)
Definition nine : list (Z * Z) := [(0, 0); (-1, 0); (1, 0); (0, -1); (0, 1); (-1, -1); (-1, 1); (1, -1); (1, 1)]%Z.
Definition grid (K : nat) : list (Z * Z) := flat_map (fun a => map (pair a) (around K)) (around K).
Definition small (ab : Z * Z) : bool := (Z.abs (fst ab) <=? 1)%Z && (Z.abs (snd ab) <=? 1)%Z.
Lemma grid_in K a b : In (a, b) (grid K) <-> In a (around K) /\ In b (around K).
Proof.
  unfold grid. rewrite in_flat_map. split.
  - intros (x & Hx & H). apply in_map_iff in H. destruct H as (y & E & Hy). inversion E; subst. auto.
  - intros [Ha Hb]. exists a. split; auto. apply in_map. auto.
Qed.
Lemma nine_small K : (1 <= K)%nat -> Permutation nine (filter small (grid K)).
Proof.
  intros HK. apply NoDup_Permutation.
  - unfold nine. repeat constructor; cbn [In]; intuition congruence.
  - apply NoDup_filter. apply NoDup_prod; apply around_nodup.
  - intros [a b]. rewrite filter_In, grid_in, !around_in. unfold small. cbn [fst snd]. rewrite andb_true_iff, !Z.leb_le. split.
    + unfold nine. cbn [In]. intros H. repeat (destruct H as [H|H]; [inversion H; subst; lia|]). destruct H.
    + intros (_ & Ha & Hb). assert (Ca : a = 0%Z \/ a = (-1)%Z \/ a = 1%Z) by lia. assert (Cb : b = 0%Z \/ b = (-1)%Z \/ b = 1%Z) by lia.
      unfold nine. cbn [In]. destruct Ca as [-> | [-> | ->]], Cb as [-> | [-> | ->]]; auto 12.
Qed.
Definition mv (size : Q) (ab : Z * Z) (p : vpoint) : vpoint := period_image size (fst ab) (snd ab) p.
Lemma tiling_eq size K base : tiling size K base = flat_map (fun p => map (fun ab => mv size ab p) (grid K)) base.
Proof.
  unfold tiling. apply flat_map_ext. intros p. unfold grid. rewrite map_flat_map. apply flat_map_ext. intros a. rewrite map_map. reflexivity.
Qed.
Lemma window_far size ab p : within_period size p -> small ab = false -> in_window size (mv size ab p) = false.
Proof.
  intros (X1 & X2 & Y1 & Y2 & _) H. destruct ab as [a b]. unfold small in H. cbn [fst snd] in H. unfold in_window, mv, period_image. cbn [fst snd v_x v_y].
  assert (S : 0 < size) by lra.
  assert (far : forall (c : Z) (x : Q), - size < x -> x < size -> (Z.abs c <=? 1)%Z = false -> Qleb (- size) (x + inject_Z c * size) && Qleb (x + inject_Z c * size) size = false).
  { intros c x L1 L2 E. apply Z.leb_gt in E. destruct (Z.le_gt_cases c 0) as [C|C].
    - assert (C2 : (c <= -2)%Z) by lia. apply andb_false_iff. left. apply not_true_is_false. intros Q. qb.
      assert (inject_Z c * size <= inject_Z (-2) * size) by (apply Qmult_le_compat_r; [rewrite <- Zle_Qle; exact C2|lra]).
      assert (E2 : inject_Z (-2) == -2) by reflexivity. rewrite E2 in *. lra.
    - assert (C2 : (2 <= c)%Z) by lia. apply andb_false_iff. right. apply not_true_is_false. intros Q. qb.
      assert (inject_Z 2 * size <= inject_Z c * size) by (apply Qmult_le_compat_r; [rewrite <- Zle_Qle; exact C2|lra]).
      assert (E2 : inject_Z 2 == 2) by reflexivity. rewrite E2 in *. lra. }
  apply andb_false_iff in H. destruct H as [H|H].
  - pose proof (far a (v_x p) X1 X2 H) as E. rewrite E. reflexivity.
  - pose proof (far b (v_y p) Y1 Y2 H) as E. rewrite <- !andb_assoc. rewrite E. rewrite !andb_false_r. reflexivity.
Qed.
Lemma window_nine size K base : (1 <= K)%nat -> (forall p, In p base -> within_period size p) ->
  Permutation (filter (in_window size) (flat_map (fun ab => map (mv size ab) base) nine)) (filter (in_window size) (tiling size K base)).
Proof.
  intros HK HB. rewrite tiling_eq.
  etransitivity. { apply Permutation_filter'. apply flat_swap. }
  rewrite !filter_flat_map. apply flat_map_perm. intros p Hp. rewrite !filter_map_comm. apply Permutation_map.
  etransitivity; [apply Permutation_filter'; exact (nine_small K HK)|]. symmetry.
  etransitivity; [apply Permutation_filter'; apply (filter_split small)|]. rewrite filter_app.
  rewrite (filter_none _ (filter (fun a => negb (small a)) (grid K))); [rewrite app_nil_r; reflexivity|].
  intros ab H. apply filter_In in H. destruct H as [_ H]. apply negb_true_iff in H. apply window_far; auto.
Qed.

(** *** heights are never clipped *)
Lemma pick_low l : (forall v, In v l -> exists q, v = Fin q) -> l <> [] ->
  exists a, pick nltb l = Fin a /\ forall q, In (Fin q) l -> a <= q.
Proof.
  destruct l as [|x l]; [congruence|]. intros H _. cbn [pick]. destruct (H x (or_introl eq_refl)) as (a & ->).
  assert (H' : forall v, In v l -> exists q, v = Fin q) by (intros v Hv; apply H; now right). clear H.
  assert (G : forall l a, (forall v, In v l -> exists q, v = Fin q) ->
    exists b, fold_left (fun m y => match m, y with NaN, _ => NaN | _, NaN => NaN | _, _ => if nltb y m then y else m end) l (Fin a) = Fin b /\ b <= a /\ forall q, In (Fin q) l -> b <= q).
  { clear. induction l as [|v l IH]; intros a H; [exists a; split; [reflexivity|split; [apply Qle_refl|intros q []]]|]. cbn [fold_left].
    destruct (H v (or_introl eq_refl)) as (c & ->). cbn [nltb]. destruct (Qltb c a) eqn:E; qb.
    - destruct (IH c (fun v Hv => H v (or_intror Hv))) as (b & Eb & L & N). exists b. split; auto. split; [lra|]. intros q [Hq|Hq]; [inversion Hq; subst; auto|auto].
    - destruct (IH a (fun v Hv => H v (or_intror Hv))) as (b & Eb & L & N). exists b. split; auto. split; [lra|]. intros q [Hq|Hq]; [inversion Hq; subst; lra|auto]. }
  destruct (G l a H') as (b & Eb & L & N). exists b. split; auto. intros q [Hq|Hq]; [inversion Hq; subst; auto|auto].
Qed.
Lemma pick_high l : (forall v, In v l -> exists q, v = Fin q) -> l <> [] ->
  exists a, pick (fun x y => nltb y x) l = Fin a /\ forall q, In (Fin q) l -> q <= a.
Proof.
  destruct l as [|x l]; [congruence|]. intros H _. cbn [pick]. destruct (H x (or_introl eq_refl)) as (a & ->).
  assert (H' : forall v, In v l -> exists q, v = Fin q) by (intros v Hv; apply H; now right). clear H.
  assert (G : forall l a, (forall v, In v l -> exists q, v = Fin q) ->
    exists b, fold_left (fun m y => match m, y with NaN, _ => NaN | _, NaN => NaN | _, _ => if nltb m y then y else m end) l (Fin a) = Fin b /\ a <= b /\ forall q, In (Fin q) l -> q <= b).
  { clear. induction l as [|v l IH]; intros a H; [exists a; split; [reflexivity|split; [apply Qle_refl|intros q []]]|]. cbn [fold_left].
    destruct (H v (or_introl eq_refl)) as (c & ->). cbn [nltb]. destruct (Qltb a c) eqn:E; qb.
    - destruct (IH c (fun v Hv => H v (or_intror Hv))) as (b & Eb & L & N). exists b. split; auto. split; [lra|]. intros q [Hq|Hq]; [inversion Hq; subst; auto|auto].
    - destruct (IH a (fun v Hv => H v (or_intror Hv))) as (b & Eb & L & N). exists b. split; auto. split; [lra|]. intros q [Hq|Hq]; [inversion Hq; subst; lra|auto]. }
  destruct (G l a H') as (b & Eb & L & N). exists b. split; auto. intros q [Hq|Hq]; [inversion Hq; subst; auto|auto].
Qed.
Lemma Forall2_filter {A B} (R : A -> B -> Prop) (P : A -> bool) (P' : B -> bool) l l' :
  Forall2 (fun a b => R a b /\ P a = P' b) l l' -> Forall2 R (filter P l) (filter P' l').
Proof. induction 1 as [|a b l l' [H E] H2 IH]; [constructor|]. cbn [filter]. rewrite E. destruct (P' b); [constructor|]; auto. Qed.
Lemma Forall2_cat {A B} (R : A -> B -> Prop) l1 l2 k1 k2 : Forall2 R l1 k1 -> Forall2 R l2 k2 -> Forall2 R (l1 ++ l2) (k1 ++ k2).
Proof. induction 1; cbn; auto. Qed.
Lemma copies_window size base : (forall p, In p base -> within_period size p) ->
  Forall2 same_point (periodic_copies size base) (filter (in_window size) (flat_map (fun ab => map (mv size ab) base) nine)).
Proof.
  intros HB. destruct base as [|p0 base0] eqn:EB; [unfold periodic_copies; cbn; constructor|]. rewrite <- EB in *.
  assert (NE : coords base <> []) by (rewrite EB; cbn; discriminate).
  assert (FIN : forall v, In v (coords base) -> exists q, v = Fin q).
  { intros v Hv. apply in_flat_map in Hv. destruct Hv as (p & Hp & Hv). destruct (HB p Hp) as (_ & _ & _ & _ & z & Ez). cbn [In] in Hv.
    destruct Hv as [<-|[<-|[<-|[]]]]; eauto. }
  destruct (pick_low _ FIN NE) as (z1 & E1 & L1). destruct (pick_high _ FIN NE) as (z2 & E2 & L2).
  unfold periodic_copies. cbv zeta. rewrite E1, E2. clear E1 E2. apply Forall2_filter.
  assert (part : forall dx dy a b, dx == inject_Z a * size -> dy == inject_Z b * size ->
    Forall2 (fun p q => same_point p q /\ in_clip size size (Fin z1) (Fin z2) p = in_window size q) (map (translate dx dy) base) (map (mv size (a, b)) base)).
  { intros dx dy a b Ex Ey.
    assert (G : forall l, incl l base -> Forall2 (fun p q => same_point p q /\ in_clip size size (Fin z1) (Fin z2) p = in_window size q) (map (translate dx dy) l) (map (mv size (a, b)) l)); [|apply G; apply incl_refl].
    induction l as [|p l IH]; intros HI; [constructor|]. cbn [map]. constructor; [|apply IH; intros x Hx; apply HI; now right].
    assert (Hp : In p base) by (apply HI; now left). destruct (HB p Hp) as (_ & _ & _ & _ & z & Ez). split.
    - unfold same_point, translate, mv, period_image. cbn. rewrite Ex, Ey. repeat split; reflexivity.
    - unfold in_clip, in_window, translate, mv, period_image. cbn [v_x v_y v_z fst snd]. rewrite Ez.
      assert (IZ : In (Fin z) (coords base)). { apply in_flat_map. exists p. split; auto. rewrite <- Ez. cbn. auto. }
      specialize (L1 z IZ). specialize (L2 z IZ).
      rewrite (nleb_fin z1 z L1), (nleb_fin z z2 L2).
      rewrite !andb_true_r. f_equal; [f_equal; [f_equal|]|]; apply Qleb_comp; try reflexivity; rewrite ?Ex, ?Ey; reflexivity. }
  unfold nine. cbn [flat_map].
  assert (P0 : Forall2 (fun p q => same_point p q /\ in_clip size size (Fin z1) (Fin z2) p = in_window size q) base (map (mv size (0, 0)%Z) base)).
  { pose proof (part 0 0 0%Z 0%Z ltac:(ring) ltac:(ring)) as G. revert G. generalize (map (mv size (0, 0)%Z) base). clear. induction base as [|p l IH]; intros k G; [inversion G; constructor|].
    cbn [map] in G. inversion G as [|? q ? k' [Hs He] Hr]; subst. constructor; [|apply IH; auto]. split.
    - unfold same_point in *. cbn in Hs. rewrite !Qplus_0_r in Hs. exact Hs.
    - rewrite <- He. unfold in_clip, translate. cbn [v_x v_y v_z]. f_equal. f_equal. f_equal; [f_equal; [f_equal|]|]; apply Qleb_comp; try reflexivity; ring. }
  rewrite app_nil_r.
  repeat (apply Forall2_cat; [first [exact P0 | apply part; cbn; ring]|]). apply part; cbn; ring.
Qed.
Lemma copies_tiling size K base : (1 <= K)%nat -> (forall p, In p base -> within_period size p) -> shows_tiling size K base (periodic_copies size base).
Proof.
  intros HK HB. exists (filter (in_window size) (flat_map (fun ab => map (mv size ab) base) nine)). split; [apply window_nine; auto|apply copies_window; auto].
Qed.
Lemma Forall2_long {A B} (R : A -> B -> Prop) l k : Forall2 R l k -> length l = length k.
Proof. induction 1; cbn; congruence. Qed.
(** a point off the axes is shown four times *)
Lemma window_four size p : within_period size p -> off_axes p -> length (filter (fun ab => in_window size (mv size ab p)) nine) = 4%nat.
Proof.
  intros (X1 & X2 & Y1 & Y2 & _) [NX NY].
  assert (tests : forall x, - size < x -> x < size -> ~ x == 0 ->
    (Qleb (- size) (x + inject_Z 0 * size) = true /\ Qleb (x + inject_Z 0 * size) size = true) /\
    ((Qleb (- size) (x + inject_Z (-1) * size) = true /\ Qleb (x + inject_Z (-1) * size) size = true /\ Qleb (- size) (x + inject_Z 1 * size) = true /\ Qleb (x + inject_Z 1 * size) size = false) \/
     (Qleb (- size) (x + inject_Z (-1) * size) = false /\ Qleb (x + inject_Z (-1) * size) size = true /\ Qleb (- size) (x + inject_Z 1 * size) = true /\ Qleb (x + inject_Z 1 * size) size = true))).
  { intros x A B C. assert (E0 : inject_Z 0 == 0) by reflexivity. assert (E1 : inject_Z 1 == 1) by reflexivity. assert (E2 : inject_Z (-1) == -1) by reflexivity.
    assert (T : forall a b, a <= b -> Qleb a b = true) by (intros; qb; auto). assert (F : forall a b, b < a -> Qleb a b = false) by (intros; qb; auto).
    split; [split; apply T; rewrite E0; lra|]. destruct (Qlt_le_dec 0 x) as [P|P]; [left|right].
    - repeat split; [apply T|apply T|apply T|apply F]; rewrite ?E1, ?E2; lra.
    - assert (x < 0). { destruct (Qlt_le_dec x 0); auto. exfalso. apply C. lra. }
      repeat split; [apply F|apply T|apply T|apply T]; rewrite ?E1, ?E2; lra. }
  destruct (tests (v_x p) X1 X2 NX) as [[A1 A2] AX]. destruct (tests (v_y p) Y1 Y2 NY) as [[B1 B2] BY].
  unfold nine, in_window, mv, period_image. cbn [filter fst snd v_x v_y].
  destruct AX as [(-> & -> & -> & ->)|(-> & -> & -> & ->)], BY as [(-> & -> & -> & ->)|(-> & -> & -> & ->)]; rewrite A1, A2, B1, B2; reflexivity.
Qed.
Lemma copies_four size base : (forall p, In p base -> within_period size p) -> (forall p, In p base -> off_axes p) ->
  length (periodic_copies size base) = (4 * length base)%nat.
Proof.
  intros HB HO. rewrite (Forall2_long _ _ _ (copies_window size base HB)).
  rewrite (Permutation_length (Permutation_filter' (in_window size) _ _ (flat_swap (mv size) nine base))), filter_flat_map.
  induction base as [|p l IH]; [reflexivity|]. cbn [flat_map length]. rewrite app_length, filter_map_comm, map_length, window_four; auto using in_eq.
  rewrite IH; [lia| |]; intros q Hq; [apply HB|apply HO]; now right.
Qed.

(** ** Statements *)
Lemma set_ok b g : mesh_ok g -> mesh_ok (set_periodic b g).
Proof.
  intros (C & n & A & B & _ & H). split; [exact C|]. exists n. split; [exact A|]. split; [exact B|]. split; [cbn; discriminate|exact H].
Qed.
Lemma ok_periodic g : mesh_ok g -> exists b, at_periodic (g_attrs g) = Some b.
Proof. intros (_ & n & _ & _ & H & _). destruct (at_periodic (g_attrs g)) as [b|]; [eauto|congruence]. Qed.
Section Statements.
  Variables (cyl : list vec) (place : qfiber -> vec -> vec) (near : list Q -> Q -> nat).
  Variables (m : qmat) (g : mesh_df) (disp rot force moment : option (list Q)).
  Hypothesis R : render_ready cyl near m g disp rot force moment.
  Lemma api_total : exists pts, vtk_mesh cyl place near m g disp rot force moment = Ok pts.
  Proof. destruct R as (H1 & H2 & H3 & H4 & H5 & H6 & H7 & H8 & H9). apply total; auto. apply ok_periodic; auto. Qed.
  Lemma flat_base pts : at_periodic (g_attrs g) = Some false -> vtk_mesh cyl place near m g disp rot force moment = Ok pts ->
    pts = base cyl place near m g disp rot force moment.
  Proof.
    destruct R as (H1 & H2 & H3 & H4 & H5 & H6 & H7 & H8 & H9). intros E. rewrite (vtk_eq cyl place near m g H1 H2 H3 H4 H5 disp rot force moment H6 H7 H8 H9), E.
    destruct (Nat.eqb_spec (length (q_rows m)) 0) as [Z|Z]; intros W; inversion W; [|reflexivity].
    unfold base, located. destruct (q_rows m); [reflexivity|discriminate Z].
  Qed.
  Lemma api_points pts : at_periodic (g_attrs g) = Some false -> vtk_mesh cyl place near m g disp rot force moment = Ok pts ->
    length pts = (length (q_rows m) * length cyl)%nat /\
    forall i f j c, has_fiber m i f -> nth_error cyl j = Some c ->
      exists p, nth_error pts (Z.to_nat i * length cyl + j) = Some p /\ describes f i c p /\ v_x p = vx (place f c) /\ v_y p = vy (place f c) /\
        (distinct_nodes g i -> exists k d e t, lies_between g i (shrunk (vx c * ql f)) k d e t /\
           displaced disp rot k t (vz (place f c)) p /\ loaded force moment k t p).
  Proof.
    intros E W. rewrite (flat_base pts E W). destruct R as (H1 & H2 & H3 & H4 & H5 & H6 & H7 & H8 & H9).
    destruct (base_nth cyl place near m g disp rot force moment) as [EL EN]. split; [exact EL|]. intros i f j c Hf Hc.
    exists (point place near g disp rot force moment i f c). split; [apply EN; auto|].
    destruct (point_describes place near g disp rot force moment i f c) as (D1 & D2 & D3). split; [exact D1|]. split; [exact D2|]. split; [exact D3|].
    intros DN. apply (point_fields cyl place near m g); auto. eapply nth_error_In; eauto.
  Qed.
  Lemma api_error y : q_rows m <> [] -> force = None -> length y <> length (g_rows g) ->
    vtk_mesh cyl place near m g (Some y) rot force moment = Exn ValueErr.
  Proof.
    intros NE _ LN. destruct R as (H1 & H2 & H3 & H4 & H5 & _). unfold vtk_mesh. rewrite (valid_check m H3). cbn [bind].
    rewrite (proj2 (mesh_check_ok g) (or_intror H4)). cbn [bind]. rewrite (vtk_mat_ok cyl place near m g); auto. cbn [bind].
    destruct (q_rows m) as [|f l] eqn:E; [congruence|]. cbn [length Nat.eqb]. unfold displace, spline_args.
    apply Nat.eqb_neq in LN. cbv zeta. rewrite LN, andb_false_r. reflexivity.
  Qed.
  Lemma api_tiling bs : q_rows m <> [] -> vtk_mesh cyl place near m (set_periodic false g) disp rot force moment = Ok bs ->
    (forall p, In p bs -> within_period (q_size m) p) ->
    exists pts, vtk_mesh cyl place near m (set_periodic true g) disp rot force moment = Ok pts /\
      (forall K, (1 <= K)%nat -> shows_tiling (q_size m) K bs pts) /\
      ((forall p, In p bs -> off_axes p) -> length pts = (4 * length bs)%nat).
  Proof.
    intros NE. destruct R as (H1 & H2 & H3 & H4 & H5 & H6 & H7 & H8 & H9).
    rewrite (vtk_eq cyl place near m (set_periodic false g) H1 H2 H3 (set_ok false g H4) H5 disp rot force moment H6 H7 H8 H9).
    rewrite (vtk_eq cyl place near m (set_periodic true g) H1 H2 H3 (set_ok true g H4) H5 disp rot force moment H6 H7 H8 H9).
    destruct (q_rows m) as [|f l] eqn:EQ; [congruence|]. cbn [length Nat.eqb set_periodic g_attrs at_periodic].
    intros W. inversion W; subst bs. clear W. intros HB. eexists. split; [reflexivity|]. split.
    - intros K HK. apply copies_tiling; auto.
    - intros HO. apply copies_four; auto.
  Qed.
  Lemma api_reach bs : vtk_mesh cyl place near m (set_periodic false g) disp rot force moment = Ok bs ->
    short_reach m cyl place -> (forall i, distinct_nodes g i) -> forall p, In p bs -> within_period (q_size m) p.
  Proof.
    intros W SR DN p Hp. pose proof R as R'. destruct R as (H1 & H2 & H3 & H4 & H5 & H6 & H7 & H8 & H9).
    rewrite (vtk_eq cyl place near m (set_periodic false g) H1 H2 H3 (set_ok false g H4) H5 disp rot force moment H6 H7 H8 H9) in W.
    destruct (Nat.eqb_spec (length (q_rows m)) 0) as [Z|Z]; inversion W; subst bs; [destruct Hp|].
    apply base_in in Hp. destruct Hp as (i & f & c & Hf & Hc & ->).
    destruct (point_describes place near (set_periodic false g) disp rot force moment i f c) as (_ & EX & EY).
    assert (HI : In f (q_rows m)) by (eapply nth_error_In; apply Hf).
    destruct (valid_fiber m H3 f HI) as (_ & _ & _ & BX & BY & _). destruct (SR f c HI Hc) as [SX SY].
    unfold within_period. rewrite EX, EY. apply Qabs_Qlt_condition in SX. apply Qabs_Qlt_condition in SY.
    assert (HF : exists z, v_z (point place near (set_periodic false g) disp rot force moment i f c) = Fin z).
    { destruct (point_fields cyl place near m (set_periodic false g) H1 H2 H3 (set_ok false g H4) H5 disp rot force moment H6 H7 H8 H9 i f c Hf Hc (DN i)) as (k & d & e & t & _ & HD & _).
      unfold displaced in HD. destruct disp; [destruct HD as (_ & _ & _ & z & Ez & _); eauto|destruct HD as (_ & _ & _ & Ez); eauto]. }
    repeat split; try exact HF; qlra.
  Qed.
End Statements.
Lemma net_ready m per t g : net_new m per None = Ok t -> mesh_new t = Ok g -> valid m /\ mesh_ok g /\ spans m g.
Proof.
  intros Hn Hg. split; [exact (new_valid _ _ _ _ Hn)|]. destruct (net_mesh_total m per t Hn) as (g' & E & OKg). rewrite E in Hg. inversion Hg; subst g'.
  split; [exact OKg|]. apply (net_spans m per t g Hn). apply mesh_new_inv. exact E.
Qed.
Lemma stack_ready linprog m per t thr st m' g : net_new m per None = Ok t -> solved linprog m t ->
  stack_new linprog m t thr = Ok (st, m') -> mesh_new st = Ok g -> valid m' /\ mesh_ok g /\ spans m' g.
Proof.
  intros Hn Hs Ht Hg. destruct (stack_mesh_total linprog m per t thr st m' Hn Hs Ht) as (g' & E & OKg). rewrite E in Hg. inversion Hg; subst g'.
  destruct (built_inv linprog m per t Hn Hs thr st m' Ht) as (_ & _ & _ & _ & _ & full & Hfull & _).
  split; [exact (new_valid _ _ _ _ Hfull)|]. split; [exact OKg|]. apply (stack_spans linprog m per t thr st m' g Hn Hs Ht). apply mesh_new_inv. exact E.
Qed.
