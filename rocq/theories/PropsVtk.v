(** Property theorems for the VTK mesh (C76, C77). *)
From Coq Require Import Permutation.
From Verif Require Import Num NumP ListX Frames MatM NetM StackM MeshM RenderM VtkM Spec SpecNet SpecStack SpecMesh SpecRender SpecVtk
  CheckP NetP StackNewP MeshP RenderP VtkP PropsMesh PropsRender.
Open Scope Q_scope.

(** ** C76: the points of the VTK mesh and their fields *)
(** meshes of networks and of stacks fit the mat *)
Theorem C76_net : forall m per t g, net_new m per None = Ok t -> mesh_new t = Ok g -> valid m /\ mesh_ok g /\ spans m g.
Proof. exact net_ready. Qed.
Theorem C76_stack : forall linprog m per t thr st m' g, net_new m per None = Ok t -> solved linprog m t ->
  stack_new linprog m t thr = Ok (st, m') -> mesh_new st = Ok g -> valid m' /\ mesh_ok g /\ spans m' g.
Proof. exact stack_ready. Qed.
Theorem C76_total : forall cyl place near m g disp rot force moment, render_ready cyl near m g disp rot force moment ->
  exists pts, vtk_mesh cyl place near m g disp rot force moment = Ok pts.
Proof. exact api_total. Qed.
(** fiber by fiber in the order of the mat, point by point in the order of the cylinder *)
Theorem C76_points : forall cyl place near m g disp rot force moment, render_ready cyl near m g disp rot force moment ->
  forall pts, at_periodic (g_attrs g) = Some false -> vtk_mesh cyl place near m g disp rot force moment = Ok pts ->
    length pts = (length (q_rows m) * length cyl)%nat /\
    forall i f j c, has_fiber m i f -> nth_error cyl j = Some c ->
      exists p, nth_error pts (Z.to_nat i * length cyl + j) = Some p /\ describes f i c p /\ v_x p = vx (place f c) /\ v_y p = vy (place f c) /\
        (distinct_nodes g i -> exists k d e t, lies_between g i (shrunk (vx c * ql f)) k d e t /\
           displaced disp rot k t (vz (place f c)) p /\ loaded force moment k t p).
Proof. exact api_points. Qed.
(** a displacement that has not one value per node is refused *)
Theorem C76_lengths : forall cyl place near m g disp rot force moment, render_ready cyl near m g disp rot force moment ->
  forall y, q_rows m <> [] -> force = None -> length y <> length (g_rows g) ->
  vtk_mesh cyl place near m g (Some y) rot force moment = Exn ValueErr.
Proof. exact api_error. Qed.

(** ** C77: periodic pictures *)
(** every image of a point in the window is shown once, whatever its height; [bs] are the points without copies *)
Theorem C77_tiling : forall cyl place near m g disp rot force moment, render_ready cyl near m g disp rot force moment ->
  forall bs, q_rows m <> [] -> vtk_mesh cyl place near m (set_periodic false g) disp rot force moment = Ok bs ->
    (forall p, In p bs -> within_period (q_size m) p) ->
    exists pts, vtk_mesh cyl place near m (set_periodic true g) disp rot force moment = Ok pts /\
      (forall K, (1 <= K)%nat -> shows_tiling (q_size m) K bs pts) /\
      ((forall p, In p bs -> off_axes p) -> length pts = (4 * length bs)%nat).
Proof. exact api_tiling. Qed.
(** when the fibers reach less than half a period from their centres, all points are within a period *)
Theorem C77_reach : forall cyl place near m g disp rot force moment, render_ready cyl near m g disp rot force moment ->
  forall bs, vtk_mesh cyl place near m (set_periodic false g) disp rot force moment = Ok bs ->
    short_reach m cyl place -> (forall i, distinct_nodes g i) -> forall p, In p bs -> within_period (q_size m) p.
Proof. exact api_reach. Qed.

(** cases *)
(** a nearest element by exhaustive search *)
Fixpoint ex_near (s : list Q) (x : Q) : nat :=
  match s with
  | [] => 0%nat
  | a :: t => match t with
              | [] => 0%nat
              | _ => if Qleb (Qabs (a - x)) (Qabs (nth (ex_near t x) t 0 - x)) then 0%nat else S (ex_near t x)
              end
  end.
Example ex_near_right : right_tree ex_near.
Proof.
  intros s x. induction s as [|a t IH]; [congruence|]. intros _. cbn [ex_near]. destruct t as [|b t].
  - split; [simpl; lia|]. intros [|k] L; [apply Qle_refl|simpl in L; lia].
  - destruct IH as [L H]; [discriminate|]. set (k0 := ex_near (b :: t) x) in *.
    destruct (Qleb (Qabs (a - x)) (Qabs (nth k0 (b :: t) 0 - x))) eqn:E; qb.
    + split; [simpl; lia|]. intros [|k] Lk; [apply Qle_refl|]. cbn [nth]. specialize (H k ltac:(simpl in *; lia)). eapply Qle_trans; [exact E|exact H].
    + split; [simpl in *; lia|]. intros [|k] Lk; [apply Qlt_le_weak; exact E|]. apply H. simpl in *. lia.
Qed.
(** a straight bar: three points of the cylinder, and the rotation about the vertical axis *)
Definition ex_cyl : list vec := [mkVec (-1 # 2) 0 (1 # 2); mkVec 0 (1 # 2) 0; mkVec (1 # 2) 0 (-1 # 2)].
Definition ex_place (f : qfiber) (c : vec) : vec :=
  mkVec (qx f + vx c * ql f * qu f - vy c * qb f * qv f) (qy f + vx c * ql f * qv f + vy c * qb f * qu f) (qz f + vz c * qh f).
Example ex_cyl_unit : unit_cylinder ex_cyl.
Proof. intros c [<-|[<-|[<-|[]]]]; cbn; lra. Qed.
(** two crossing fibers *)
Definition ex_vm : qmat := mkQmat [mkQ 4 1 1 1 3 0 1 0 0 (Fin 1) (Fin 1); mkQ 4 1 1 1 3 1 0 1 0 (Fin 1) (Fin 1)] 10.
Definition ex_vt : net_df := match net_new ex_vm true None with Ok t => t | Exn _ => mkNetDf [] [] (mkAttrs None None None None) true end.
Definition ex_vg : mesh_df := ex_g ex_vt.
Example ex_v_made : net_new ex_vm true None = Ok ex_vt /\ mesh_new ex_vt = Ok ex_vg /\ map Qred (abscissae ex_vg 0) = [-2; 0; 2].
Proof. repeat split; vm_compute; reflexivity. Qed.
Definition ex_vy : list Q := [0; 1; 0; 3; -1; 3].
Example ex_v_ready : render_ready ex_cyl ex_near ex_vm ex_vg (Some ex_vy) None (Some ex_vy) (Some ex_vy).
Proof.
  destruct ex_v_made as (E1 & E2 & _). destruct (C76_net _ _ _ _ E1 E2) as (H1 & H2 & H3).
  assert (EL : length ex_vy = length (g_rows ex_vg)) by (vm_compute; reflexivity).
  split; [exact ex_cyl_unit|]. split; [exact ex_near_right|]. split; [exact H1|]. split; [exact H2|]. split; [exact H3|].
  split; [intros v [= <-]; exact EL|]. split; [intros _ v [=]|]. split; [intros v [= <-]; exact EL|intros _ v [= <-]; exact EL].
Qed.
(** the middle of fiber 1 comes down by its node's displacement; its force is the value of the node *)
Example ex_v_values : match vtk_mesh ex_cyl ex_place ex_near ex_vm (set_periodic false ex_vg) (Some ex_vy) None (Some ex_vy) (Some ex_vy) with
  | Ok pts => map (fun p => (Qred (v_x p), Qred (v_y p), match v_z p with Fin z => Fin (Qred z) | v => v end, v_fiber p)) [nth 1 pts (nth 0 pts (mkVp 0 0 NaN 0 (mkVec 0 0 0) (mkVec 0 0 0) (mkVec 0 0 0) NaN NaN NaN None None None None)); nth 4 pts (mkVp 0 0 NaN 0 (mkVec 0 0 0) (mkVec 0 0 0) (mkVec 0 0 0) NaN NaN NaN None None None None)]
  | Exn _ => [] end = [(1, 7 # 2, Fin 1, 0%Z); (1 # 2, 3, Fin 0, 1%Z)].
Proof. vm_compute. reflexivity. Qed.
Example ex_v_reach : short_reach ex_vm ex_cyl ex_place.
Proof. intros f c [<-|[<-|[]]] [<-|[<-|[<-|[]]]]; split; reflexivity. Qed.
Example ex_v_distinct i : distinct_nodes ex_vg i.
Proof.
  intros a b d e Ha Hb Fa Fb L. unfold ex_vg in *.
  assert (E : forallb (fun r => forallb (fun r' => if Nat.ltb (fst r) (fst r') && Z.eqb (nf (snd r)) (nf (snd r')) then Qltb (ns (snd r)) (ns (snd r')) else true)
    (combine (seq 0 6) (map snd (g_rows (ex_g ex_vt))))) (combine (seq 0 6) (map snd (g_rows (ex_g ex_vt)))) = true) by (vm_compute; reflexivity).
  assert (EL : length (g_rows (ex_g ex_vt)) = 6%nat) by (vm_compute; reflexivity).
  apply nodes_in in Ha. apply nodes_in in Hb. rewrite EL in Ha, Hb. rewrite forallb_forall in E. specialize (E _ Ha). rewrite forallb_forall in E. specialize (E _ Hb).
  cbn [fst snd] in E. apply Nat.ltb_lt in L. rewrite L in E. assert (EQ : Z.eqb (nf d) (nf e) = true) by (apply Z.eqb_eq; congruence). rewrite EQ in E. cbn in E. qb. exact E.
Qed.
Example ex_v_shown : match vtk_mesh ex_cyl ex_place ex_near ex_vm ex_vg (Some ex_vy) None (Some ex_vy) (Some ex_vy) with
  | Ok pts => length pts | Exn _ => 0%nat end = 24%nat.
Proof. vm_compute. reflexivity. Qed.

(** ** refutation: a fiber of three periods *)
Definition ex_lm : qmat := mkQmat [mkQ 30 1 1 1 2 0 1 0 0 (Fin 1) (Fin 1)] 10.
Definition ex_lt : net_df := match net_new ex_lm true None with Ok t => t | Exn _ => mkNetDf [] [] (mkAttrs None None None None) true end.
Theorem C77_refuted : ~ (forall cyl place near m g disp rot force moment, render_ready cyl near m g disp rot force moment ->
  forall bs pts, q_rows m <> [] -> vtk_mesh cyl place near m (set_periodic false g) disp rot force moment = Ok bs ->
    vtk_mesh cyl place near m (set_periodic true g) disp rot force moment = Ok pts -> shows_tiling (q_size m) 2 bs pts).
Proof.
  intros H. set (bs := match vtk_mesh ex_cyl ex_place ex_near ex_lm (set_periodic false (ex_g ex_lt)) None None None None with Ok l => l | Exn _ => [] end).
  set (pts := match vtk_mesh ex_cyl ex_place ex_near ex_lm (set_periodic true (ex_g ex_lt)) None None None None with Ok l => l | Exn _ => [] end).
  assert (E1 : net_new ex_lm true None = Ok ex_lt) by (vm_compute; reflexivity).
  assert (E2 : mesh_new ex_lt = Ok (ex_g ex_lt)) by (vm_compute; reflexivity).
  assert (R : render_ready ex_cyl ex_near ex_lm (ex_g ex_lt) None None None None).
  { destruct (C76_net _ _ _ _ E1 E2) as (H1 & H2 & H3). split; [exact ex_cyl_unit|]. split; [exact ex_near_right|]. split; [exact H1|]. split; [exact H2|]. split; [exact H3|].
    split; [intros v [=]|]. split; [intros _ v [=]|]. split; [intros v [=]|intros _ v [=]]. }
  assert (EB : vtk_mesh ex_cyl ex_place ex_near ex_lm (set_periodic false (ex_g ex_lt)) None None None None = Ok bs) by (vm_compute; reflexivity).
  assert (EP : vtk_mesh ex_cyl ex_place ex_near ex_lm (set_periodic true (ex_g ex_lt)) None None None None = Ok pts) by (vm_compute; reflexivity).
  destruct (H ex_cyl ex_place ex_near ex_lm (ex_g ex_lt) None None None None R bs pts ltac:(discriminate) EB EP) as (l & P & F).
  apply Forall2_long in F. apply Permutation_length in P. rewrite P in F. clear - F.
  assert (N : Nat.eqb (length pts) (length (filter (in_window (q_size ex_lm)) (tiling (q_size ex_lm) 2 bs))) = false) by (vm_compute; reflexivity).
  rewrite <- F in N. rewrite Nat.eqb_refl in N. exact (Bool.diff_true_false N).
Qed.

Print Assumptions C76_net.
Print Assumptions C76_stack.
Print Assumptions C76_total.
Print Assumptions C76_points.
Print Assumptions C76_lengths.
Print Assumptions C77_tiling.
Print Assumptions C77_reach.
Print Assumptions C77_refuted.
