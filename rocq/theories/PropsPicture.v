(** Property theorems: the pictures drawn by the scripts at the end of mesh.py, solver.py and net.py (C82, C83). *)
From Verif Require Import Num NumP ListX ListP Frames MatM NetM StackM MeshM ModelM SolverM InterpM ResultM VtkM PictureM
  Spec SpecNet SpecStack SpecMesh SpecModel SpecSolver SpecInterp SpecPicture
  CheckP NetP NetGeoP NetZP StackP StackForceP StackNewP MeshP GaussX PictureP PropsNet PropsStack PropsMesh PropsModel PropsSolver PropsInterp.
Open Scope Q_scope.

(** ** C82: the picture of a mesh, at rest and deformed *)
Theorem C82_total : forall g, mesh_ok g -> exists l, mesh_picture g = Ok l /\ NoDup l.
Proof. intros g mok. destruct (picture_total g mok) as (l & E). exists l. split; [exact E|exact (picture_once g mok l E)]. Qed.
(** the lines of a fiber join its consecutive nodes, in the colour of the fiber *)
Theorem C82_beams : forall g, mesh_ok g -> forall l, mesh_picture g = Ok l -> forall k col, sk_style k = Along col ->
  In k l <-> exists i j d e, part g i j d e /\ joins g k i j /\ col = (nf d mod 10)%Z.
Proof. exact picture_beams. Qed.
(** they cover it *)
Theorem C82_length : forall linprog m per t thr st m' g l f h, net_new m per None = Ok t -> solved linprog m t ->
  stack_new linprog m t thr = Ok (st, m') -> mesh_new st = Ok g -> mesh_picture g = Ok l -> has_fiber m f h ->
  drawn_length g l f == ql h.
Proof.
  intros linprog m per t thr st m' g l f h Hn Hs H G P Hf. destruct (C27_stack _ _ _ _ _ _ _ Hn Hs H) as (g' & G' & mok). assert (g' = g) by congruence. subst g'.
  rewrite (picture_length g mok l f P). destruct (C28_stack _ _ _ _ _ _ _ _ _ _ Hn Hs H (C27_new_is_init _ _ G) Hf) as (i & d & j & e & _ & _ & _ & _ & _ & L). exact L.
Qed.
(** a line between fibers stands for a connection, from the lower side to the upper one *)
Theorem C82_contacts : forall g, mesh_ok g -> forall t place, numbers t g place -> links t g place ->
  forall l, mesh_picture g = Ok l -> forall k, sk_style k = Between ->
  In k l <-> exists r c b, nth_row t r c /\ cA c <> cB c /\ side_z c b < side_z c (negb b) /\ joins g k (place r b) (place r (negb b)).
Proof. exact picture_contacts. Qed.
(** in a stack each connection is drawn *)
Theorem C82_stack : forall linprog m per t thr st m' g l, net_new m per None = Ok t -> solved linprog m t -> all_in_plane m ->
  stack_new linprog m t thr = Ok (st, m') -> mesh_new st = Ok g -> mesh_picture g = Ok l ->
  exists place, numbers st g place /\ forall k, sk_style k = Between ->
    In k l <-> exists r c, nth_row st r c /\ (cA c < cB c)%Z /\ joins g k (place r false) (place r true).
Proof. exact stack_contacts. Qed.
(** the ends of the fibers are marked *)
Theorem C82_marks : forall g, mesh_ok g -> forall t place, numbers t g place -> links t g place ->
  forall l, mesh_picture g = Ok l -> forall k, sk_style k = Mark ->
  In k l <-> exists r c b, nth_row t r c /\ cA c = cB c /\ joins g k (place r b) (place r b).
Proof. exact picture_marks. Qed.
(** the picture of a recorded state has the same lines, moved vertically between the floor and the lid *)
Theorem C82_recorded : forall lsolve m g p S h, solve lsolve m g p = Ok (S, h) -> ~ flag_set (g_attrs g) -> tolerances_ok p ->
  forall s, In s h -> reliable lsolve m g p S s -> admissible_start m g -> sp_errtol p == 0 ->
  exists z l g' l', st_Z s = Fin z /\ mesh_picture g = Ok l /\ deform g (vals (st_u S s)) = Ok g' /\ mesh_picture g' = Ok l' /\
    Forall2 same_strokes l l' /\
    forall k, In k l' -> 0 < vz (fst (sk_line k)) /\ vz (fst (sk_line k)) < z /\ 0 < vz (snd (sk_line k)) < z.
Proof. exact pictures_recorded. Qed.
(** so do those of the interpolated states *)
Theorem C82_between : forall lsolve m g p S h, solve lsolve m g p = Ok (S, h) -> ~ flag_set (g_attrs g) -> tolerances_ok p ->
  (forall s, In s h -> reliable lsolve m g p S s) -> forall size R, size_ok size -> solve_full lsolve m g p size = Ok R -> forall t, (2 <= length h)%nat ->
  admissible_start m g -> sp_errtol p == 0 ->
  exists z l g' l', interp_call (r_Z R) t = Fin z /\ mesh_picture g = Ok l /\ deform g (vals (call_vec (r_u R) t)) = Ok g' /\ mesh_picture g' = Ok l' /\
    Forall2 same_strokes l l' /\
    forall k, In k l' -> 0 < vz (fst (sk_line k)) /\ vz (fst (sk_line k)) < z /\ 0 < vz (snd (sk_line k)) < z.
Proof. exact pictures_between. Qed.
(** a displacement of another length cannot be drawn *)
Theorem C82_sizes : forall g u, length u <> (2 * length (g_rows g))%nat -> (length u + 1)%nat <> (2 * length (g_rows g))%nat ->
  deform g u = Exn ValueErr.
Proof. exact deform_sizes. Qed.
(** nodes counted from the end (negative positions) are the same nodes *)
Theorem C82_positions : forall g g' l, Forall2 (same_row (length (g_rows g))) (g_rows g) (g_rows g') -> mesh_picture g = Ok l ->
  exists l', mesh_picture g' = Ok l' /\ Forall2 same_line l l'.
Proof. exact picture_positions. Qed.

(** ** C83: the contacts drawn with a stack *)
(** those whose force counts, each where one fiber lies on the other *)
Theorem C83_drawn : forall linprog marg m per t st m', net_new m per None = Ok t -> solved linprog m t -> all_in_plane m ->
  priced linprog marg m t -> q_rows m <> [] -> stack_new linprog m t None = Ok (st, m') ->
  exists p l, stack_constraint m t = Ok p /\ stack_picture marg m' t st = Ok l /\
    shows l (contacts st) (force_counts (marg p)) (contact_line m' per).
Proof. exact stack_shows. Qed.

(** ** examples: three point bending *)
Definition ex_tag (k : stroke) : Z * Z * Z :=
  (match sk_style k with Along c => c | Between => 100 | Mark => 200 end, sk_from k, sk_to k)%Z.
Definition ex_tags (r : res (list stroke)) : list (Z * Z * Z) := match r with Ok l => map ex_tag l | Exn _ => [] end.
Example ex_bend_picture : ex_tags (mesh_picture (ex_bendg (Fin 1))) =
  [(0, 0, 1); (200, 0, 0); (0, 1, 2); (100, 1, 7); (200, 2, 2); (1, 3, 4); (200, 3, 3); (1, 4, 5); (100, 4, 9); (200, 5, 5);
   (2, 6, 7); (200, 6, 6); (2, 7, 8); (2, 8, 9); (100, 8, 12); (2, 9, 10); (200, 10, 10); (3, 11, 12); (200, 11, 11); (3, 12, 13); (200, 13, 13)]%Z.
Proof. vm_compute. reflexivity. Qed.
Example ex_bend_drawn : exists l, mesh_picture (ex_bendg (Fin 1)) = Ok l /\ (forall f h, has_fiber (ex_bend0 (Fin 1)) f h -> drawn_length (ex_bendg (Fin 1)) l f == 4) /\
  all_in_plane (ex_bend0 (Fin 1)) /\ exists place, numbers (fst (ex_bends (Fin 1))) (ex_bendg (Fin 1)) place /\ links (fst (ex_bends (Fin 1))) (ex_bendg (Fin 1)) place.
Proof.
  destruct (ex_bend_total (Fin 1) (or_intror eq_refl)) as (_ & M & _). destruct (C82_total _ M) as (l & E & _). exists l. split; [exact E|]. split; [|split].
  - intros f h Hf. rewrite (C82_length _ _ _ _ _ _ _ _ _ _ _ (proj2 ex_bend_net) (proj2 ex_bend_solved) (proj2 ex_bend_stack) (proj2 ex_bend_mesh) E Hf).
    destruct Hf as [_ Hf]. apply nth_error_In in Hf. cbn in Hf. destruct Hf as [<-|[<-|[<-|[<-|[]]]]]; reflexivity.
  - intros f Hf. cbn in Hf. destruct Hf as [<-|[<-|[<-|[<-|[]]]]]; reflexivity.
  - apply C25_constraints. apply C27_new_is_init. exact (proj2 ex_bend_mesh).
Qed.
Example ex_bent_picture s : In s (snd ex_bent) -> exists z l g' l', st_Z s = Fin z /\ mesh_picture (ex_bendg (Fin 1)) = Ok l /\
  deform (ex_bendg (Fin 1)) (vals (st_u (fst ex_bent) s)) = Ok g' /\ mesh_picture g' = Ok l' /\ Forall2 same_strokes l l' /\
  forall k, In k l' -> 0 < vz (fst (sk_line k)) /\ vz (fst (sk_line k)) < z /\ 0 < vz (snd (sk_line k)) < z.
Proof.
  intros Hs. exact (C82_recorded _ _ _ _ _ _ ex_bent_ok (ex_bend_noflag _ (or_intror eq_refl)) (proj1 ex_tols) s Hs (ex_bent_reliable s Hs) (ex_bend_start _ (or_intror eq_refl)) ltac:(reflexivity)).
Qed.
Example ex_bent_picture_between t : exists z l g' l', interp_call (r_Z (results_of (fst ex_bent) (snd ex_bent) None)) t = Fin z /\ mesh_picture (ex_bendg (Fin 1)) = Ok l /\
  deform (ex_bendg (Fin 1)) (vals (call_vec (r_u (results_of (fst ex_bent) (snd ex_bent) None)) t)) = Ok g' /\ mesh_picture g' = Ok l' /\ Forall2 same_strokes l l' /\
  forall k, In k l' -> 0 < vz (fst (sk_line k)) /\ vz (fst (sk_line k)) < z /\ 0 < vz (snd (sk_line k)) < z.
Proof.
  destruct ex_full_bent as [L F]. exact (C82_between _ _ _ _ _ _ ex_bent_ok (ex_bend_noflag _ (or_intror eq_refl)) (proj1 ex_tols) ex_bent_reliable None _ I F t L
    (ex_bend_start _ (or_intror eq_refl)) ltac:(reflexivity)).
Qed.
Example ex_deform_short : deform (ex_bendg (Fin 1)) (repeat 0 26) = Exn ValueErr /\ exists g', deform (ex_bendg (Fin 1)) (repeat 0 28) = Ok g'.
Proof.
  split; [apply C82_sizes; vm_compute; discriminate|]. eexists. apply deform_ok. vm_compute. reflexivity.
Qed.
(** the same picture with the last node counted from the end *)
Definition ex_two_nodes (b : Z) : mesh_df :=
  let d := mkNode 0 0 0 0 1 b 0 in let e := mkNode 0 1 1 0 1 b b in
  mkMeshDf mesh_columns [(0%Z, d); (1%Z, e)] (mkAttrs (Some 1%Z) None None None) true true None.
Example ex_last_node : Forall2 (same_row 2) (g_rows (ex_two_nodes (-1))) (g_rows (ex_two_nodes 1)) /\ exists l, mesh_picture (ex_two_nodes (-1)) = Ok l /\ length l = 3%nat.
Proof. split; [|eexists; split; vm_compute; reflexivity]. repeat constructor; cbn; try (left; reflexivity); right; split; reflexivity. Qed.
(** a connection between two sides of equal height is not drawn *)
Definition ex_level : qmat := mkQmat [ex_q 4 0 0 1 1 0; ex_q 4 0 0 1 0 1] 10.
Definition ex_levelt : net_df := match net_new ex_level false None with Ok t => t | Exn _ => ex_t None end.
Theorem C82_connections_refuted : ~ (forall m t g l r c, net_new m false None = Ok t -> mesh_new t = Ok g -> mesh_picture g = Ok l ->
  nth_row t r c -> cA c <> cB c -> exists k, In k l /\ sk_style k = Between).
Proof.
  intros H. assert (E1 : net_new ex_level false None = Ok ex_levelt) by (vm_compute; reflexivity).
  assert (E2 : mesh_new ex_levelt = Ok (ex_g ex_levelt)) by (vm_compute; reflexivity).
  destruct (C27_net _ _ _ E1) as (g & G & M). assert (g = ex_g ex_levelt) by congruence. subst g. destruct (C82_total _ M) as (l & P & _).
  assert (T : ex_tags (mesh_picture (ex_g ex_levelt)) = [(0, 0, 1); (200, 0, 0); (0, 1, 2); (200, 2, 2); (1, 3, 4); (200, 3, 3); (1, 4, 5); (200, 5, 5)]%Z)
    by (vm_compute; reflexivity).
  destruct (nth_error (n_rows ex_levelt) 1) as [[lab c]|] eqn:R; [|vm_compute in R; discriminate R].
  assert (C : option_map (fun r => (cA (snd r), cB (snd r))) (nth_error (n_rows ex_levelt) 1) = Some (0, 1)%Z) by (vm_compute; reflexivity).
  rewrite R in C. cbn in C. injection C as CA CB.
  destruct (H _ _ _ l 1%nat c E1 E2 P (ex_intro _ lab R)) as (k & Ik & Ek); [rewrite CA, CB; discriminate|].
  rewrite P in T. cbn in T. apply (in_map ex_tag) in Ik. rewrite T in Ik. unfold ex_tag in Ik. rewrite Ek in Ik.
  cbn in Ik. repeat (destruct Ik as [Ik|Ik]; [discriminate Ik|]). exact Ik.
Qed.

(** the stack of [ex_mats]: fiber 2 carried by fiber 0 alone, or by both *)
Definition ex_marg (a : Q) (p : lp) : list Q := map Qopp (ex_share a).
Example ex_priced a : 0 <= a <= 1 -> priced ex_greedy (ex_marg a) (ex_mats 2) (ex_t None).
Proof.
  intros Ha p Ep. assert (p = PropsStack.ex_p) by (rewrite ex_p_ok in Ep; congruence). subst p. destruct ex_p_optimal as [N O]. exists (ex_floor a).
  apply (C71_certified _ _ _ _ _ _ ex_p_ok N (proj1 O)). apply ex_equilibrium. exact Ha.
Qed.
Example ex_stack_drawn a : 0 <= a <= 1 -> exists l, stack_picture (ex_marg a) ex_stm (ex_t None) (fst (ex_st None None)) = Ok l /\
  shows l [(0, 2); (1, 2)]%Z (force_counts (ex_marg a PropsStack.ex_p)) (contact_line ex_stm true).
Proof.
  intros Ha. assert (E : stack_new ex_greedy (ex_mats 2) (ex_t None) None = Ok (fst (ex_st None None), ex_stm)) by (vm_compute; reflexivity).
  destruct (C83_drawn _ _ _ _ _ _ _ ex_t_all ex_solved (proj2 ex_cs_stacked) (ex_priced a Ha) ltac:(discriminate) E) as (p & l & Ep & P & S).
  assert (p = PropsStack.ex_p) by (rewrite ex_p_ok in Ep; congruence). subst p. exists l. split; [exact P|].
  assert (C : contacts (fst (ex_st None None)) = [(0, 2); (1, 2)]%Z) by (vm_compute; reflexivity). rewrite C in S. exact S.
Qed.
Definition ex_seg (s : line) : list Q := map Qred [vx (fst s); vy (fst s); vz (fst s); vx (snd s); vy (snd s); vz (snd s)].
Example ex_stack_lines : map (fun a => match stack_picture (ex_marg a) ex_stm (ex_t None) (fst (ex_st None None)) with Ok l => map ex_seg l | Exn _ => [] end) [1; 0; 1 # 2] =
  [[[9 # 2; 4; 1 # 2; 9 # 2; 4; 3 # 2]]; [[-11 # 2; -16 # 3; 1 # 2; 9 # 2; 14 # 3; 3 # 2]];
   [[9 # 2; 4; 1 # 2; 9 # 2; 4; 3 # 2]; [-11 # 2; -16 # 3; 1 # 2; 9 # 2; 14 # 3; 3 # 2]]].
Proof. vm_compute. reflexivity. Qed.

(** with fibers out of the plane the forces may be more than the connections left *)
Definition ex_tilt : qmat := mkQmat [mkQ 12 (1 # 10) (1 # 10) 0 0 0 1 0 0 (Fin 1) (Fin 1); mkQ 12 (1 # 10) (1 # 10) 0 0 1 0 1 0 (Fin 1) (Fin 1);
  mkQ 12 (1 # 10) (1 # 10) 1 (-11) 5 0 (3 # 5) (4 # 5) (Fin 1) (Fin 1)] 30.
Definition ex_tiltt : net_df := match net_new ex_tilt false None with Ok t => t | Exn _ => ex_t None end.
Definition ex_tilts : net_df * qmat := match stack_new ex_greedy ex_tilt ex_tiltt None with Ok r => r | Exn _ => (ex_tiltt, ex_tilt) end.
Example ex_tilt_rows : contacts ex_tiltt = [(0, 1); (0, 2)]%Z /\ contacts (fst ex_tilts) = [(0, 1)]%Z.
Proof. split; vm_compute; reflexivity. Qed.
Theorem C83_plane_refuted : ~ (forall linprog marg m t st m', net_new m false None = Ok t -> solved linprog m t ->
  priced linprog marg m t -> q_rows m <> [] -> stack_new linprog m t None = Ok (st, m') -> exists l, stack_picture marg m' t st = Ok l).
Proof.
  intros H. assert (E1 : net_new ex_tilt false None = Ok ex_tiltt) by (vm_compute; reflexivity).
  assert (S : solved ex_greedy ex_tilt ex_tiltt).
  { destruct (C17_networks_by_A _ _ _ _ E1) as (_ & K & _ & F & B). apply greedy_solved; auto. vm_compute. reflexivity. }
  assert (E2 : stack_new ex_greedy ex_tilt ex_tiltt None = Ok ex_tilts) by (vm_compute; reflexivity).
  rewrite (surjective_pairing ex_tilts) in E2.
  destruct (stack_constraint ex_tilt ex_tiltt) as [p|] eqn:Ep; [|vm_compute in Ep; discriminate Ep].
  assert (F : ~ flag_set (n_attrs ex_tiltt)) by (apply (C17_networks_by_A _ _ _ _ E1)).
  destruct (C71_exists _ _ _ _ Ep F (S p Ep)) as (push & floor & Q).
  destruct (C71_certified _ _ _ _ _ _ Ep F (proj1 (S p Ep)) Q) as [_ M].
  assert (R : priced ex_greedy (fun _ => map Qopp push) ex_tilt ex_tiltt).
  { intros p' Ep'. assert (p' = p) by congruence. subst p'. exists floor. exact M. }
  destruct (H ex_greedy (fun _ => map Qopp push) _ _ _ _ E1 S R ltac:(discriminate) E2) as (l & P).
  unfold stack_picture in P. destruct (stack_constraint (snd ex_tilts) ex_tiltt) as [p'|]; cbn [bind] in P; [|discriminate P].
  assert (N : q_rows (snd ex_tilts) <> []) by (vm_compute; discriminate). destruct (q_rows (snd ex_tilts)); [contradiction|].
  rewrite points_length, map_length, (eq_contacts _ _ _ _ _ Q), (proj1 ex_tilt_rows), (proj2 ex_tilt_rows) in P. cbn [length Nat.eqb negb] in P. discriminate P.
Qed.

Print Assumptions C82_total.
Print Assumptions C82_beams.
Print Assumptions C82_length.
Print Assumptions C82_contacts.
Print Assumptions C82_stack.
Print Assumptions C82_marks.
Print Assumptions C82_recorded.
Print Assumptions C82_between.
Print Assumptions C82_sizes.
Print Assumptions C82_positions.
Print Assumptions C83_drawn.
Print Assumptions C82_connections_refuted.
Print Assumptions C83_plane_refuted.
