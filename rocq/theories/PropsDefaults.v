(** Property theorems: missing arguments (C101). *)
From Verif Require Import Num NumP ListX Frames MatM NetM StackM MeshM ModelM SolverM VtkM MainM Spec SpecNet SpecStack SpecMain
  DefaultsM SpecDefaults DefaultsP PropsMat PropsNet PropsStack PropsMain.
Open Scope Q_scope.

(** ** C101 *)
(** a call answers as the same call with empty objects in place of those left out, in any state of the generator *)
Theorem C101_filled : forall R cos sin linprog lsolve cyl place near c s s',
  fst (run_call R cos sin linprog lsolve cyl place near c s) = fst (run_call R cos sin linprog lsolve cyl place near (fill c) s').
Proof. exact call_filled. Qed.
(** with everything given it answers as the function, and leaves the generator as it was; otherwise it seeds the generator with 0, also when it raises *)
Theorem C101_given : forall R cos sin linprog lsolve cyl place near s,
  (forall m per pairs, run_call R cos sin linprog lsolve cyl place near (KNet (Some m) per pairs) s = (wrap ANet (net_new m per pairs), s)) /\
  (forall m t thr, run_call R cos sin linprog lsolve cyl place near (KStack (Some m) (Some t) thr) s = (wrap (fun r => AStack (fst r) (snd r)) (stack_new linprog m t thr), s)) /\
  (forall t, run_call R cos sin linprog lsolve cyl place near (KMesh (Some t)) s = (wrap AMesh (mesh_new t), s)) /\
  (forall m t, run_call R cos sin linprog lsolve cyl place near (KHeights (Some m) (Some t)) s = (wrap AHeights (stack_solve linprog m t), s)) /\
  (forall m t, run_call R cos sin linprog lsolve cyl place near (KProgram (Some m) (Some t)) s = (wrap AProgram (stack_constraint m t), s)) /\
  (forall m g a b k, run_call R cos sin linprog lsolve cyl place near (KStiffness (Some m) (Some g) a b k) s = (wrap AMatrix (stiffness m g a b k), s)) /\
  (forall m g, run_call R cos sin linprog lsolve cyl place near (KConstraint (Some m) (Some g)) s = (wrap ABounds (constraint m g), s)) /\
  (forall m g p, run_call R cos sin linprog lsolve cyl place near (KSolve (Some m) (Some g) p) s = (wrap (fun r => AHistory (fst r) (snd r)) (solve lsolve m g p), s)) /\
  (forall m, run_call R cos sin linprog lsolve cyl place near (KMatCheck (Some m)) s = (wrap ABool (mat_check m), s)) /\
  (forall t, run_call R cos sin linprog lsolve cyl place near (KNetCheck (Some t)) s = (wrap ABool (net_check t), s)) /\
  (forall t, run_call R cos sin linprog lsolve cyl place near (KStackCheck (Some t)) s = (wrap ABool (net_check t), s)) /\
  (forall g, run_call R cos sin linprog lsolve cyl place near (KMeshCheck (Some g)) s = (wrap ABool (mesh_check g), s)) /\
  (forall m, run_call R cos sin linprog lsolve cyl place near (KVtkMat (Some m)) s = (wrap APoints (vtk_mat cyl place m (fun l _ => Ok l)), s)) /\
  (forall m g a b f k, run_call R cos sin linprog lsolve cyl place near (KVtkMesh (Some m) (Some g) a b f k) s = (wrap APoints (vtk_mesh cyl place near m g a b f k), s)).
Proof. exact given_calls. Qed.
Theorem C101_generator : forall R cos sin linprog lsolve cyl place near c s,
  snd (run_call R cos sin linprog lsolve cyl place near c s) = if complete c then s else rng_seed R 0.
Proof. exact call_seed. Qed.
(** in a session the answers do not depend on the generator, and the numbers drawn afterwards are those that follow the seed 0 as soon as one call
    left something out, whatever was drawn before *)
Theorem C101_session : forall R cos sin linprog lsolve cyl place near l s s',
  fst (run_calls R cos sin linprog lsolve cyl place near l s) = map (fun c => fst (run_call R cos sin linprog lsolve cyl place near (fill c) s')) l /\
  snd (run_calls R cos sin linprog lsolve cyl place near l s) = if forallb complete l then s else rng_seed R 0.
Proof. exact (fun R cos sin linprog lsolve cyl place near l s s' => conj (session_answers R cos sin linprog lsolve cyl place near l s s') (session_state R cos sin linprog lsolve cyl place near l s)). Qed.
Theorem C101_draws : forall R cos sin linprog lsolve cyl place near l s n, (exists c, In c l /\ complete c = false) ->
  draws R n (snd (run_calls R cos sin linprog lsolve cyl place near l s)) = draws R n (rng_seed R 0).
Proof. exact session_draws. Qed.
(** without any argument: empty objects that pass their checks; the matrices and the solver raise ValueError *)
Theorem C101_empty : forall R cos sin linprog lsolve cyl place near s,
  let ask c := fst (run_call R cos sin linprog lsolve cyl place near c s) in
  ask KMat = Ok (AMat empty_mat) /\ (forall per, ask (KNet None per None) = Ok (ANet (mkNetDf net_columns [] (mkAttrs (Some 0%Z) (Some (Fin 50)) (Some per) None) true))) /\
  (forall thr, ask (KStack None None thr) = Ok (AStack empty_net empty_mat)) /\ ask (KMesh None) = Ok (AMesh empty_mesh) /\
  ask (KMatCheck None) = Ok (ABool true) /\ ask (KNetCheck None) = Ok (ABool true) /\ ask (KStackCheck None) = Ok (ABool true) /\ ask (KMeshCheck None) = Ok (ABool true) /\
  ask (KHeights None None) = Ok (AHeights None) /\ ask (KProgram None None) = Ok (AProgram (mkLp [] [] [] [])) /\
  (forall a b k, ask (KStiffness None None a b k) = Exn ValueErr) /\ ask (KConstraint None None) = Exn ValueErr /\ (forall p, ask (KSolve None None p) = Exn ValueErr) /\
  ask (KVtkMat None) = Ok (APoints []) /\ (forall a b f k, ask (KVtkMesh None None a b f k) = Ok (APoints [])).
Proof. exact empty_calls. Qed.
(** the matrices and the solver raise as soon as the mat or the mesh is left out *)
Theorem C101_solve : forall R cos sin linprog lsolve cyl place near m g s, given m && given g = false ->
  (forall p, raises (fst (run_call R cos sin linprog lsolve cyl place near (KSolve m g p) s))) /\
  (forall a b k, raises (fst (run_call R cos sin linprog lsolve cyl place near (KStiffness m g a b k) s))) /\
  raises (fst (run_call R cos sin linprog lsolve cyl place near (KConstraint m g) s)).
Proof.
  exact (fun R cos sin linprog lsolve cyl place near m g s H => conj (fun p => solve_raises R cos sin linprog lsolve cyl place near m g p s H)
    (conj (fun a b k => stiffness_raises R cos sin linprog lsolve cyl place near m g a b k s H) (constraint_raises R cos sin linprog lsolve cyl place near m g s H))).
Qed.
(** a stack without a network puts every fiber on the floor, through one another *)
Theorem C101_floor : forall R cos sin linprog lsolve cyl place near m s, valid m -> q_rows m <> [] -> solved linprog m empty_net ->
  exists st m', run_call R cos sin linprog lsolve cyl place near (KStack (Some m) None None) s = (Ok (AStack st m'), rng_seed R 0) /\
    same_but_heights m m' /\ (forall f, In f (q_rows m') -> qz f == qh f / 2) /\ net_new m' true None = Ok st.
Proof. exact floor_call. Qed.

(** ** cases *)
Example ex_floor_solved : forall m, solved ex_greedy m empty_net.
Proof. intros m p Hp. rewrite (greedy_reads m empty_net p Hp). exact (C17_sweep_optimal m empty_net p Hp empty_noflag empty_by_A). Qed.
Example ex_floor : exists st m', run_call ex_rng ex_cos ex_sin ex_greedy (fun _ b => b) [] (fun _ v => v) (fun _ _ => 0%nat) (KStack (Some (ex_mats 2)) None None) 7%Z = (Ok (AStack st m'), rng_seed ex_rng 0) /\
  same_but_heights (ex_mats 2) m' /\ (forall f, In f (q_rows m') -> qz f == qh f / 2) /\ net_new m' true None = Ok st.
Proof. apply C101_floor; [exact ex_mats_valid|discriminate|apply ex_floor_solved]. Qed.
Example ex_left_out : exists c, In c [KNet (Some (ex_mats 2)) true None; KMesh None; KMatCheck (Some (df_of (ex_mats 2)))] /\ complete c = false.
Proof. exists (KMesh None). split; [right; left; reflexivity|reflexivity]. Qed.

Lemma answered t t' m m' : Ok (AStack t m) = Ok (AStack t' m') -> m = m'.
Proof. intros H. injection H as _ H. exact H. Qed.
(** reading a default is not harmless: it changes the numbers drawn afterwards *)
Theorem C101_seed_refuted : ~ (forall R cos sin linprog lsolve cyl place near c s, snd (run_call R cos sin linprog lsolve cyl place near c s) = s).
Proof.
  intros H. pose proof (H (mkRng bool (fun _ => true) (fun b => (0, b))) ex_cos ex_sin ex_greedy (fun _ b => b) [] (fun _ v => v) (fun _ _ => 0%nat) (KMatCheck None) false) as E.
  discriminate E.
Qed.
(** the network that is left out is not the network of the mat *)
Theorem C101_network_refuted : ~ (forall R cos sin linprog lsolve cyl place near m t s, right_linprog linprog -> solved linprog m empty_net -> net_new m true None = Ok t ->
  fst (run_call R cos sin linprog lsolve cyl place near (KStack (Some m) None None) s) = fst (run_call R cos sin linprog lsolve cyl place near (KStack (Some m) (Some t) None) s)).
Proof.
  intros H. destruct ex_floor as (st & m' & E & _ & FL & _).
  pose proof ex_t_all as E1.
  pose proof (H ex_rng ex_cos ex_sin ex_greedy (fun _ b => b) [] (fun _ v => v) (fun _ _ => 0%nat) (ex_mats 2) (ex_t None) 7%Z ex_greedy_right (ex_floor_solved _) E1) as S.
  rewrite E in S. destruct (C101_given ex_rng ex_cos ex_sin ex_greedy (fun _ b => b) [] (fun _ v => v) (fun _ _ => 0%nat) 7%Z) as (_ & G & _). rewrite G in S.
  assert (E2 : stack_new ex_greedy (ex_mats 2) (ex_t None) None = Ok (fst (ex_st None None), snd (ex_st None None))) by (vm_compute; reflexivity).
  rewrite E2 in S. cbn [wrap bind fst snd] in S. pose proof (answered _ _ _ _ S) as Em. rewrite Em in FL.
  assert (X : forallb (fun f => Qeqb (qz f) (qh f / 2)) (q_rows (snd (ex_st None None))) = false) by (vm_compute; reflexivity).
  assert (Y : forallb (fun f => Qeqb (qz f) (qh f / 2)) (q_rows (snd (ex_st None None))) = true).
  { apply forallb_forall. intros f Hf. apply Qeqb_eq. exact (FL f Hf). }
  rewrite X in Y. discriminate Y.
Qed.

Print Assumptions C101_filled.
Print Assumptions C101_given.
Print Assumptions C101_generator.
Print Assumptions C101_session.
Print Assumptions C101_draws.
Print Assumptions C101_empty.
Print Assumptions C101_solve.
Print Assumptions C101_floor.
Print Assumptions C101_seed_refuted.
Print Assumptions C101_network_refuted.
