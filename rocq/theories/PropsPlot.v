(** Property theorems: the picture of the system and the error printed with it (C78, model.py 303-395). *)
From Verif Require Import Num NumP ListX ListP Frames MatM NetM StackM MeshM ModelM SolverM PlotM Spec SpecNet SpecMesh SpecModel SpecSolver SpecPerm SpecPlot
  CheckP SolverFinP GaussX PlotP PropsMesh PropsModel PropsSolver.
Open Scope Q_scope.

(** ** C78: plot_system *)
Theorem C78_total : forall lsolve m g lmin lmax cpl K cs, stiffness m g lmin lmax cpl = Ok K -> constraint m g = Ok cs ->
  forall u F du dF f H df dH perm tol, sized_vecs (2 * length (g_rows g)) [u; F; du; dF] -> sized_vecs (length (csH cs)) [f; H; df; dH] ->
  exists pic e, plot_system lsolve (2 * length (g_rows g)) (length (csH cs)) K (csC cs) u F du dF f H df dH perm tol = Ok (pic, e).
Proof. exact plot_total. Qed.
(** each place of the matrix that is not zero is drawn in one colour, which tells what it belongs to *)
Theorem C78_colours : forall lsolve m g lmin lmax cpl K cs, stiffness m g lmin lmax cpl = Ok K -> constraint m g = Ok cs -> ~ flag_set (g_attrs g) ->
  let nu := (2 * length (g_rows g))%nat in let nc := length (csH cs) in
  forall u F du dF f H df dH perm tol pic e, plot_system lsolve nu nc K (csC cs) u F du dF f H df dH perm tol = Ok (pic, e) -> finite_vec u ->
  forall a b r c, nth_error (drawn_order (nu + nc) perm) a = Some r -> nth_error (drawn_order (nu + nc) perm) b = Some c ->
    (forall col, In (a, b) (pic col) <-> shows_up (system_at nu K (csC cs) r c) /\ coloured nu (csC cs) u H r c col) /\
    (shows_up (system_at nu K (csC cs) r c) -> exists col, In (a, b) (pic col) /\ forall col', In (a, b) (pic col') -> col' = col).
Proof. exact plot_colours. Qed.
(** for the vectors recorded at a state, the error printed is the one that solve records with the next state,
    whatever du and df *)
Theorem C78_error : forall lsolve m g p S h K cs, solve lsolve m g p = Ok (S, h) ->
  stiffness m g (sp_lmin p) (sp_lmax p) (sp_coupling p) = Ok K -> constraint m g = Ok cs -> numbering (length (sy_dq S)) (sp_perm p) ->
  let nu := (2 * length (g_rows g))%nat in let nc := length (csH cs) in
  forall k s s' du df, nth_error h k = Some s -> nth_error h (Datatypes.S k) = Some s' -> length du = nu -> length df = nc ->
  exists pic, plot_system lsolve nu nc K (csC cs) (st_u S s) (st_F S s) du (repeat (Fin 0) nu) (st_f S s) (st_H S s) df (csdH cs) (sp_perm p) (sp_tol p) = Ok (pic, st_err2 s').
Proof. exact plot_error. Qed.
(** the contacts drawn as closed are those of the next step, unless a gap is between the tolerances *)
Theorem C78_contacts : forall lsolve m g p S h, solve lsolve m g p = Ok (S, h) -> ~ flag_set (g_attrs g) -> tolerances_ok p ->
  forall cs k s s', constraint m g = Ok cs -> nth_error h k = Some s -> nth_error h (Datatypes.S k) = Some s' -> reliable lsolve m g p S s ->
  clear_cut (sp_tol p) (csC cs) (st_u S s) (st_H S s) ->
  forall r, nth (2 * length (g_rows g) + r) (st_mask s') false = true <-> touches (csC cs) (st_u S s) (st_H S s) r.
Proof. exact plot_contacts. Qed.

(** ** examples: two fibers side by side under the lid, at heights [a] and [b] *)
(** an exact solver that answers zero where elimination fails *)
Definition ex_fin (A : ncoo) (b : list num) : list num := map (fun v => if is_fin v then v else Fin 0) (gauss A b).
Example ex_fin_length : right_length ex_fin.
Proof. intros A b. unfold ex_fin. rewrite map_length. apply gauss_length. Qed.
Example ex_fin_finite : finite_answers ex_fin.
Proof. intros A b v Hv. unfold ex_fin in Hv. apply in_map_iff in Hv. destruct Hv as (w & <- & _). destruct w; cbn; eauto. Qed.
Definition ex_pair (a b : Q) : qmat := mkQmat [mkQ 1 1 1 0 0 a 1 0 0 (Fin 1) (Fin 1); mkQ 1 1 1 0 3 b 1 0 0 (Fin 1) (Fin 1)] 10.
Definition ex_pairg (a b : Q) : mesh_df := ex_g (match net_new (ex_pair a b) false None with Ok t => t | Exn _ => ex_bendt (Fin 1) end).
(** default tolerances *)
Definition ex_dp : solve_params := mkSolve (Fin 200) 2 None (1 # 1000000) (1 # 1000000) None None 1.
Definition ex_pairr (a b : Q) : sysdata * list state := ex_run ex_fin (ex_pair a b) (ex_pairg a b) ex_dp.
Definition ex_pairc (a b : Q) : csys := ex_cs (ex_pair a b) (ex_pairg a b).
Definition ex_pair_plot (a b : Q) (s : state) : res ((colour -> list (nat * nat)) * num) :=
  plot_system ex_fin 8 12 (ex_K (ex_pair a b) (ex_pairg a b) None None 1) (csC (ex_pairc a b)) (st_u (fst (ex_pairr a b)) s) (st_F (fst (ex_pairr a b)) s)
    (repeat (Fin 7) 8) (repeat (Fin 0) 8) (st_f (fst (ex_pairr a b)) s) (st_H (fst (ex_pairr a b)) s) (repeat (Fin 9) 12) (csdH (ex_pairc a b)) None (1 # 1000000).
Definition ex_pair_state (a b : Q) (k : nat) : state := nth k (snd (ex_pairr a b)) (mkState [] [] [] NaN NaN [] NaN).
(** the lower fiber is on the floor, the upper one under the lid, free to go down *)
Example ex_pair_runs : map (fun s => ex_show (st_Z s)) (snd (ex_pairr (1 # 2) 2)) = [Fin (5 # 2); Fin 1] /\
  map (fun s => ex_show (st_Z s)) (snd (ex_pairr (5000001 # 10000000) 2)) = [Fin (5 # 2); Fin (10000001 # 10000000)].
Proof. split; vm_compute; reflexivity. Qed.
Example ex_pair_picture : match ex_pair_plot (1 # 2) 2 (ex_pair_state (1 # 2) 2 0) with
  | Ok (pic, e) => pic Lower = [(0, 8); (2, 11); (8, 0); (11, 2)]%nat /\ pic Inner = [] /\ pic Upper = [(4, 16); (6, 19); (16, 4); (19, 6)]%nat /\
      pic Inactive = [(0, 10); (2, 13); (4, 14); (6, 17); (10, 0); (13, 2); (14, 4); (17, 6)]%nat /\ length (pic Stiffness) = 32%nat /\ neqv e (Fin 0)
  | Exn _ => False end.
Proof. vm_compute. repeat split. Qed.


Example ex_pair_call a b : In (a, b) [(1 # 2, 2); (5000001 # 10000000, 2)] ->
  solve ex_fin (ex_pair a b) (ex_pairg a b) ex_dp = Ok (fst (ex_pairr a b), snd (ex_pairr a b)) /\ constraint (ex_pair a b) (ex_pairg a b) = Ok (ex_pairc a b) /\
  stiffness (ex_pair a b) (ex_pairg a b) None None 1 = Ok (ex_K (ex_pair a b) (ex_pairg a b) None None 1) /\ ~ flag_set (g_attrs (ex_pairg a b)) /\
  nth_error (snd (ex_pairr a b)) 0 = Some (ex_pair_state a b 0) /\ nth_error (snd (ex_pairr a b)) 1 = Some (ex_pair_state a b 1).
Proof.
  intros [E|[E|[]]]; injection E as <- <-; (split; [vm_compute; reflexivity|]); (split; [vm_compute; reflexivity|]); (split; [vm_compute; reflexivity|]);
    (split; [vm_compute; discriminate|]); split; vm_compute; reflexivity.
Qed.
Example ex_dp_ok m g S s : tolerances_ok ex_dp /\ reliable ex_fin m g ex_dp S s.
Proof. split; [split; cbn; lra|]. split; [exact ex_fin_length|]. left. exact ex_fin_finite. Qed.
(** the hypotheses of the theorems hold for this run *)
Example ex_pair_error : exists pic, ex_pair_plot (1 # 2) 2 (ex_pair_state (1 # 2) 2 0) = Ok (pic, st_err2 (ex_pair_state (1 # 2) 2 1)).
Proof.
  destruct (ex_pair_call (1 # 2) 2 (or_introl eq_refl)) as (S & C & K & _ & A & B).
  exact (C78_error ex_fin _ _ ex_dp _ _ _ _ S K C I 0%nat _ _ (repeat (Fin 7) 8) (repeat (Fin 9) 12) A B eq_refl eq_refl).
Qed.
Definition ex_clear (tol : Q) (C : ncoo) (u H : list num) : bool :=
  forallb (fun p => match snd p with Fin y => let q := y - product C (vals u) (fst p) in Qeqb q 0 || (Qltb tol q && Qltb ((1 # 100000000) + (1 # 100000) * Qabs y) q) | _ => true end)
    (combine (seq 0 (length H)) H).
Lemma ex_clear_ok tol C u H : ex_clear tol C u H = true -> clear_cut tol C u H.
Proof.
  intros F k y q Hk (y' & Hk' & E). rewrite Hk in Hk'. injection Hk' as <-. unfold ex_clear in F. rewrite forallb_forall in F.
  assert (I : In (k, Fin y) (combine (seq 0 (length H)) H)) by (apply nth_error_In with (n := k); rewrite SolverP.indexed_nth, Hk; reflexivity).
  specialize (F _ I). cbn [fst snd] in F. cbv zeta in F. apply orb_true_iff in F. destruct F as [F|F]; [left; qb; lra|].
  apply andb_true_iff in F. destruct F as [F1 F2]. qb. right. split; lra.
Qed.
Example ex_pair_contacts : forall r, nth (8 + r) (st_mask (ex_pair_state (1 # 2) 2 1)) false = true <->
  touches (csC (ex_pairc (1 # 2) 2)) (st_u (fst (ex_pairr (1 # 2) 2)) (ex_pair_state (1 # 2) 2 0)) (st_H (fst (ex_pairr (1 # 2) 2)) (ex_pair_state (1 # 2) 2 0)) r.
Proof.
  destruct (ex_pair_call (1 # 2) 2 (or_introl eq_refl)) as (S & C & K & F & A & B).
  apply (C78_contacts ex_fin (ex_pair (1 # 2) 2) (ex_pairg (1 # 2) 2) ex_dp _ _ S F (proj1 (ex_dp_ok (ex_pair 0 0) (ex_pairg 0 0) (fst (ex_pairr (1 # 2) 2)) (ex_pair_state (1 # 2) 2 0))) _ 0%nat _ _ C A B).
  - apply ex_dp_ok.
  - apply ex_clear_ok. vm_compute. reflexivity.
Qed.

(** ** without this hypothesis the picture and the solver disagree *)
(** a gap of 1e-7 takes part in the step but is drawn as inactive: the tolerances are the default ones *)
Theorem C78_undrawn_refuted : ~ (forall lsolve m g p S h, solve lsolve m g p = Ok (S, h) -> ~ flag_set (g_attrs g) -> tolerances_ok p ->
  forall cs k s s', constraint m g = Ok cs -> nth_error h k = Some s -> nth_error h (Datatypes.S k) = Some s' -> reliable lsolve m g p S s ->
  sp_tol p == 1 # 1000000 ->
  forall r, nth (2 * length (g_rows g) + r) (st_mask s') false = true -> touches (csC cs) (st_u S s) (st_H S s) r).
Proof.
  intros X. destruct (ex_pair_call (5000001 # 10000000) 2 (or_intror (or_introl eq_refl))) as (S & C & K & F & A & B).
  assert (T : touches (csC (ex_pairc (5000001 # 10000000) 2)) (st_u (fst (ex_pairr (5000001 # 10000000) 2)) (ex_pair_state (5000001 # 10000000) 2 0))
    (st_H (fst (ex_pairr (5000001 # 10000000) 2)) (ex_pair_state (5000001 # 10000000) 2 0)) 0).
  { apply (X ex_fin (ex_pair (5000001 # 10000000) 2) (ex_pairg (5000001 # 10000000) 2) ex_dp _ _ S F
      (proj1 (ex_dp_ok (ex_pair 0 0) (ex_pairg 0 0) (fst (ex_pairr (1 # 2) 2)) (ex_pair_state (1 # 2) 2 0))) _ 0%nat _ _ C A B).
    - apply ex_dp_ok.
    - reflexivity.
    - vm_compute. reflexivity. }
  destruct T as (y & Hy & L).
  assert (G : (match nth_error (st_H (fst (ex_pairr (5000001 # 10000000) 2)) (ex_pair_state (5000001 # 10000000) 2 0)) 0 with
    | Some (Fin z) => Qltb ((1 # 100000000) + (1 # 100000) * Qabs z)
       (Qabs (product (csC (ex_pairc (5000001 # 10000000) 2)) (vals (st_u (fst (ex_pairr (5000001 # 10000000) 2)) (ex_pair_state (5000001 # 10000000) 2 0))) 0 - z))
    | _ => false end) = true) by (vm_compute; reflexivity).
  rewrite Hy in G. qb. exact (Qlt_not_le _ _ G L).
Qed.
(** with a smaller tolerance, gaps are drawn as closed that are open *)
Definition ex_low : qmat := mkQmat [mkQ 1 1 1 0 0 (100000001 # 200000000) 1 0 0 (Fin 1) (Fin 1)] 10.
Definition ex_lowg : mesh_df := ex_g (match net_new ex_low false None with Ok t => t | Exn _ => ex_bendt (Fin 1) end).
Definition ex_lowp : solve_params := mkSolve (Fin 200) 2 None (1 # 1000000000) (1 # 1000000) None None 1.
Definition ex_lowr : sysdata * list state := ex_run ex_fin ex_low ex_lowg ex_lowp.
Theorem C78_open_refuted : ~ (forall lsolve m g p S h, solve lsolve m g p = Ok (S, h) -> ~ flag_set (g_attrs g) -> tolerances_ok p ->
  forall cs k s s', constraint m g = Ok cs -> nth_error h k = Some s -> nth_error h (Datatypes.S k) = Some s' -> reliable lsolve m g p S s ->
  forall r, touches (csC cs) (st_u S s) (st_H S s) r -> nth (2 * length (g_rows g) + r) (st_mask s') false = true).
Proof.
  intros X. set (d := mkState [] [] [] NaN NaN [] NaN).
  assert (M : nth (2 * length (g_rows ex_lowg) + 0) (st_mask (nth 1 (snd ex_lowr) d)) false = true).
  { apply (X ex_fin ex_low ex_lowg ex_lowp (fst ex_lowr) (snd ex_lowr)) with (cs := ex_cs ex_low ex_lowg) (k := 0%nat) (s := nth 0 (snd ex_lowr) d).
    - vm_compute. reflexivity.
    - vm_compute. discriminate.
    - split; cbn; lra.
    - vm_compute. reflexivity.
    - vm_compute. reflexivity.
    - vm_compute. reflexivity.
    - split; [exact ex_fin_length|]. left. exact ex_fin_finite.
    - eexists. split; [vm_compute; reflexivity|]. vm_compute. discriminate. }
  assert (N : nth (2 * length (g_rows ex_lowg) + 0) (st_mask (nth 1 (snd ex_lowr) d)) false = false) by (vm_compute; reflexivity).
  rewrite M in N. discriminate N.
Qed.
Print Assumptions C78_total.
Print Assumptions C78_colours.
Print Assumptions C78_error.
Print Assumptions C78_contacts.
Print Assumptions C78_undrawn_refuted.
Print Assumptions C78_open_refuted.
