(** Proofs for C101. *)
From Verif Require Import Num NumP ListX ListP Frames MatM NetM StackM MeshM ModelM SolverM VtkM MainM Spec SpecNet SpecStack
  CheckP NetP NetGeoP NetZP StackP StackNewP DefaultsM SpecDefaults.
Open Scope Q_scope.

Section D.
  Variable R : rng.
  Variables cos sin : Q -> Q.
  Variable linprog : lp -> list Q.
  Variable lsolve : ncoo -> list num -> list num.
  Variable cyl : list vec.
  Variable place : qfiber -> vec -> vec.
  Variable near : list Q -> Q -> nat.
  Notation run := (run_call R cos sin linprog lsolve cyl place near).
  Notation runs := (run_calls R cos sin linprog lsolve cyl place near).

  Lemma new_mat_eq s : new_mat R cos sin s = (Ok empty_mat, rng_seed R 0).
  Proof. reflexivity. Qed.
  Lemma net_empty : net_new empty_mat true None = Ok empty_net.
  Proof. vm_compute. reflexivity. Qed.
  Lemma mesh_empty : mesh_new empty_net = Ok empty_mesh.
  Proof. vm_compute. reflexivity. Qed.
  Lemma stack_empty thr : stack_new linprog empty_mat empty_net thr = Ok (empty_net, empty_mat).
  Proof. vm_compute. reflexivity. Qed.
  Lemma new_net_eq s : new_net R cos sin None true None s = (Ok empty_net, rng_seed R 0).
  Proof. unfold new_net, next, mat_or. rewrite new_mat_eq. unfold pure. rewrite net_empty. reflexivity. Qed.
  Lemma new_mesh_eq s : new_mesh R cos sin None s = (Ok empty_mesh, rng_seed R 0).
  Proof. unfold new_mesh, next, net_or. rewrite new_net_eq. unfold pure. rewrite mesh_empty. reflexivity. Qed.
  Lemma mat_or_eq m s : mat_or R cos sin m s = (Ok (match m with Some m => m | None => empty_mat end), if given m then s else rng_seed R 0).
  Proof. destruct m; [reflexivity|apply new_mat_eq]. Qed.
  Lemma net_or_eq t s : net_or R cos sin t s = (Ok (match t with Some t => t | None => empty_net end), if given t then s else rng_seed R 0).
  Proof. destruct t; [reflexivity|apply new_net_eq]. Qed.
  Lemma mesh_or_eq g s : mesh_or R cos sin g s = (Ok (match g with Some g => g | None => empty_mesh end), if given g then s else rng_seed R 0).
  Proof. destruct g; [reflexivity|apply new_mesh_eq]. Qed.

  (** *** stiffness and constraint without a mat or a mesh *)
  Lemma stiffness_no_mesh m lmin lmax c : raises (stiffness m empty_mesh lmin lmax c).
  Proof.
    unfold stiffness. destruct (mat_check (df_of m)) as [b|e]; [|exists e; reflexivity].
    exists ValueErr. reflexivity.
  Qed.
  Lemma stiffness_no_mat g lmin lmax c : raises (stiffness empty_mat g lmin lmax c).
  Proof.
    unfold stiffness. destruct (mat_check (df_of empty_mat)) as [b|e]; [|exists e; reflexivity]. cbn [bind].
    destruct (mesh_check g) as [b'|e]; [|exists e; reflexivity]. cbn [bind].
    unfold elements, fibers_known. destruct (filter _ (g_rows g)) as [|r l].
    - exists ValueErr. reflexivity.
    - exists KeyErr. cbn [map snd forallb empty_mat q_rows length]. unfold in_range.
      replace ((0 <=? nf (snd r))%Z && (nf (snd r) <? Z.of_nat 0)%Z) with false; [reflexivity|].
      symmetry. apply Bool.andb_false_iff. destruct (0 <=? nf (snd r))%Z eqn:E; [right|left; reflexivity].
      apply Z.leb_le in E. apply Z.ltb_ge. exact E.
  Qed.
  Lemma constraint_no_mesh m : raises (constraint m empty_mesh).
  Proof.
    unfold constraint. destruct (mat_check (df_of m)) as [b|e]; [|exists e; reflexivity].
    exists ValueErr. reflexivity.
  Qed.
  Lemma constraint_no_mat g : raises (constraint empty_mat g).
  Proof.
    unfold constraint. destruct (mat_check (df_of empty_mat)) as [b|e]; [|exists e; reflexivity]. cbn [bind].
    destruct (mesh_check g) as [b'|e]; [|exists e; reflexivity]. cbn [bind].
    unfold fibers_known, h_column, tops. destruct (g_rows g) as [|r l].
    - exists ValueErr. reflexivity.
    - exists KeyErr. cbn [map snd forallb empty_mat q_rows length]. unfold in_range.
      replace ((0 <=? nf (snd r))%Z && (nf (snd r) <? Z.of_nat 0)%Z) with false; [reflexivity|].
      symmetry. apply Bool.andb_false_iff. destruct (0 <=? nf (snd r))%Z eqn:E; [right|left; reflexivity].
      apply Z.leb_le in E. apply Z.ltb_ge. exact E.
  Qed.
  Lemma stiffness_missing m g lmin lmax c : given m && given g = false ->
    raises (stiffness (match m with Some m => m | None => empty_mat end) (match g with Some g => g | None => empty_mesh end) lmin lmax c).
  Proof.
    destruct m as [m|]; [|intros _; apply stiffness_no_mat]. destruct g as [g|]; [intros H; discriminate H|].
    intros _. apply stiffness_no_mesh.
  Qed.

  Ltac go := unfold new_net, new_stack, new_mesh, new_stiffness, new_constraint, next; repeat (rewrite ?mat_or_eq, ?net_or_eq, ?mesh_or_eq, ?new_mat_eq; unfold pure; cbn [fst snd]).

  Lemma step_eq m g lmin lmax c s : new_stiffness R cos sin m g lmin lmax c s =
    (stiffness (match m with Some m => m | None => empty_mat end) (match g with Some g => g | None => empty_mesh end) lmin lmax c,
     if given m && given g then s else rng_seed R 0).
  Proof. go. destruct m, g; reflexivity. Qed.
  Lemma step_eq' m g s : new_constraint R cos sin m g s =
    (constraint (match m with Some m => m | None => empty_mat end) (match g with Some g => g | None => empty_mesh end),
     if given m && given g then s else rng_seed R 0).
  Proof. go. destruct m, g; reflexivity. Qed.
  Lemma stack_eq m t thr s : new_stack R cos sin linprog m t thr s =
    (stack_new linprog (match m with Some m => m | None => empty_mat end) (match t with Some t => t | None => empty_net end) thr,
     if given m && given t then s else rng_seed R 0).
  Proof. go. destruct m, t; reflexivity. Qed.

  (** the answer, as a function of the arguments alone, and the state afterwards *)
  Definition said (c : call) : res answer := fst (run (fill c) (rng_seed R 0)).

  Ltac fin := first [reflexivity | match goal with |- context [match ?x with Ok _ => _ | Exn _ => _ end] => destruct x; reflexivity end].
  Lemma run_eq c s : run c s = (said c, if complete c then s else rng_seed R 0).
  Proof.
    unfold said. destruct c as [|m|m per pairs|t|m t thr|t|m t|m t|t|g|m g lmin lmax k|m g|m g p|m|m g disp rot force moment];
      cbn [run_call fill complete].
    - reflexivity.
    - destruct m; reflexivity.
    - unfold new_net, next. rewrite !mat_or_eq. unfold pure.
      destruct m as [m|]; cbn [default given]; [destruct (net_new m per pairs); reflexivity|].
      destruct (net_new empty_mat per pairs); reflexivity.
    - unfold next. rewrite !net_or_eq. unfold pure. destruct t; reflexivity.
    - unfold next. rewrite !stack_eq. unfold pure. destruct m as [m|], t as [t|]; cbn [default given andb]; destruct (stack_new _ _ _ _); reflexivity.
    - destruct t as [t|]; [reflexivity|]. unfold next. rewrite !stack_eq, stack_empty. reflexivity.
    - unfold next. rewrite !mat_or_eq, !net_or_eq. unfold pure. destruct m, t; reflexivity.
    - unfold next. rewrite !mat_or_eq, !net_or_eq. unfold pure. destruct m, t; reflexivity.
    - unfold new_mesh, next. rewrite !net_or_eq. unfold pure. destruct t as [t|]; cbn [default given]; destruct (mesh_new _); reflexivity.
    - unfold next. rewrite !mesh_or_eq. unfold pure. destruct g; reflexivity.
    - unfold next. rewrite !step_eq. unfold pure. destruct m as [m|], g as [g|]; cbn [default given andb]; destruct (stiffness _ _ _ _ _); reflexivity.
    - unfold next. rewrite !step_eq'. unfold pure. destruct m as [m|], g as [g|]; cbn [default given andb]; destruct (constraint _ _); reflexivity.
    - unfold next. rewrite !step_eq. destruct (given m && given g) eqn:Eg.
      + destruct m as [m|]; [|discriminate Eg]. destruct g as [g|]; [|discriminate Eg]. cbn [default given andb].
        destruct (stiffness m g _ _ _); [|reflexivity]. rewrite !step_eq'. cbn [given andb]. destruct (constraint m g); reflexivity.
      + destruct (stiffness_missing m g (sp_lmin p) (sp_lmax p) (sp_coupling p) Eg) as (e & He). rewrite He.
        assert (E : stiffness match default empty_mat m with Some m => m | None => empty_mat end
                              match default empty_mesh g with Some g => g | None => empty_mesh end (sp_lmin p) (sp_lmax p) (sp_coupling p) = Exn e)
          by (destruct m, g; exact He). rewrite E. reflexivity.
    - unfold next. rewrite !mat_or_eq. unfold pure. destruct m; reflexivity.
    - unfold next. rewrite !mat_or_eq, !mesh_or_eq. unfold pure. destruct m, g; reflexivity.
  Qed.

  Lemma fill_complete c : c <> KMat -> complete (fill c) = true.
  Proof. intros H. destruct c; try reflexivity; try (destruct m; reflexivity); try (destruct t; reflexivity); try (destruct g; reflexivity); try congruence;
    try (destruct m, t; reflexivity); destruct m, g; reflexivity. Qed.
  Lemma fill_id c : complete c = true -> fill c = c.
  Proof. destruct c; cbn [complete fill]; intros H; try discriminate H;
    try (destruct m; [|discriminate H]); try (destruct t; [|discriminate H]); try (destruct g; [|discriminate H]); reflexivity. Qed.
  Lemma fill_fill c : fill (fill c) = fill c.
  Proof. destruct c; try reflexivity; try (destruct m; reflexivity); try (destruct t; reflexivity); try (destruct g; reflexivity); try (destruct m, t; reflexivity); destruct m, g; reflexivity. Qed.

  Lemma call_filled c s s' : fst (run c s) = fst (run (fill c) s').
  Proof. rewrite !run_eq. cbn [fst]. unfold said. rewrite fill_fill. reflexivity. Qed.
  Lemma call_seed c s : snd (run c s) = if complete c then s else rng_seed R 0.
  Proof. rewrite run_eq. reflexivity. Qed.
  Lemma session_eq l s : runs l s = (map said l, if forallb complete l then s else rng_seed R 0).
  Proof.
    revert s. induction l as [|c l IH]; intros s; [reflexivity|]. cbn [run_calls map forallb]. rewrite run_eq, IH.
    destruct (complete c), (forallb complete l); reflexivity.
  Qed.
  Lemma session_answers l s s0 : fst (runs l s) = map (fun c => fst (run (fill c) s0)) l.
  Proof.
    rewrite session_eq. cbn [fst]. apply map_ext. intros c. unfold said. rewrite !run_eq. reflexivity.
  Qed.
  Lemma session_state l s : snd (runs l s) = if forallb complete l then s else rng_seed R 0.
  Proof. rewrite session_eq. reflexivity. Qed.
  Lemma solve_raises m g p s : given m && given g = false -> raises (fst (run (KSolve m g p) s)).
  Proof.
    intros H. cbn [run_call]. unfold next. rewrite step_eq.
    destruct (stiffness_missing m g (sp_lmin p) (sp_lmax p) (sp_coupling p) H) as (e & He). rewrite He. exists e. reflexivity.
  Qed.
  Lemma stiffness_raises m g lmin lmax k s : given m && given g = false -> raises (fst (run (KStiffness m g lmin lmax k) s)).
  Proof.
    intros H. cbn [run_call]. unfold next. rewrite step_eq.
    destruct (stiffness_missing m g lmin lmax k H) as (e & He). rewrite He. exists e. reflexivity.
  Qed.
  Lemma constraint_raises m g s : given m && given g = false -> raises (fst (run (KConstraint m g) s)).
  Proof.
    intros H. cbn [run_call]. unfold next. rewrite step_eq'.
    destruct m as [m|]; [destruct g as [g|]; [discriminate H|]; destruct (constraint_no_mesh m) as (e & He)|
      destruct (constraint_no_mat (match g with Some g => g | None => empty_mesh end)) as (e & He)]; rewrite He; exists e; reflexivity.
  Qed.
End D.

(** *** a stack without a network: every fiber lies on the floor *)
Lemma empty_noflag : ~ flag_set (n_attrs empty_net).
Proof. intros C. discriminate C. Qed.
Lemma empty_by_A : rows_by_A empty_net.
Proof. exact (new_by_A empty_mat true None empty_net net_empty). Qed.
Lemma empty_program m : valid m -> exists p, stack_constraint m empty_net = Ok p.
Proof. intros V. unfold stack_constraint. rewrite (valid_check m V). eexists. reflexivity. Qed.
Lemma floor_stack linprog m thr : valid m -> q_rows m <> [] -> solved linprog m empty_net ->
  exists full st m', stack_new linprog m empty_net thr = Ok (st, m') /\ same_but_heights m m' /\
    (forall f, In f (q_rows m') -> qz f == qh f / 2) /\ net_new m' true None = Ok full /\ st = filter_net thr full.
Proof.
  intros V NE S. destruct (empty_program m V) as (p & Hp).
  pose proof (solved_length linprog m empty_net p empty_noflag S Hp) as L.
  assert (SB : same_but_heights m (set_z m (linprog p))) by (apply set_z_same; exact L).
  assert (V' : valid (set_z m (linprog p))) by (eapply same_valid; [exact SB|exact V]).
  destruct (net_total (set_z m (linprog p)) true None V') as (full & Hfull); [intros ? ? ? C; discriminate C|].
  exists full, (filter_net thr full), (set_z m (linprog p)).
  assert (EQ : same_heights (linprog p) (sweep m empty_net)).
  { apply (optimum_unique m empty_net p Hp empty_noflag); [exact (S p Hp)|]. apply (sweep_optimal m empty_net p Hp empty_noflag empty_by_A). }
  split.
  { unfold stack_new, stack_solve. rewrite (valid_check m V), Hp. destruct (q_rows m) eqn:E; [congruence|]. cbn -[net_new set_z filter_net net_check].
    rewrite Hfull. cbn [bind].
    pose proof (filter_ok thr full (new_ok _ _ _ _ Hfull)) as HF.
    rewrite (proj2 (net_check_ok _) (or_intror HF)). reflexivity. }
  split; [exact SB|]. split; [|split; [exact Hfull|reflexivity]].
  unfold sweep in EQ. cbn [empty_net n_rows map fold_left] in EQ. unfold set_z. cbn [q_rows]. clear - EQ.
  unfold same_heights in EQ. revert EQ. generalize (linprog p). induction (q_rows m) as [|a l IH]; intros z EQ f Hin.
  - destruct z; destruct Hin.
  - cbn [map] in EQ. inversion EQ as [|x y z' l' Exy EQ' E1 E2]; subst. cbn [combine map] in Hin. destruct Hin as [<-|Hin].
    + exact Exy.
    + exact (IH z' EQ' f Hin).
Qed.
Lemma given_calls R cos sin linprog lsolve cyl place near s :
  (forall m per pairs, run_call R cos sin linprog lsolve cyl place near (KNet (Some m) per pairs) s = (wrap ANet (net_new m per pairs), s)) /\
  (forall m t thr, run_call R cos sin linprog lsolve cyl place near (KStack (Some m) (Some t) thr) s = (wrap (fun r => AStack (fst r) (snd r)) (stack_new linprog m t thr), s)) /\
  (forall t, run_call R cos sin linprog lsolve cyl place near (KMesh (Some t)) s = (wrap AMesh (mesh_new t), s)) /\
  (forall m t, run_call R cos sin linprog lsolve cyl place near (KHeights (Some m) (Some t)) s = (wrap AHeights (stack_solve linprog m t), s)) /\
  (forall m t, run_call R cos sin linprog lsolve cyl place near (KProgram (Some m) (Some t)) s = (wrap AProgram (stack_constraint m t), s)) /\
  (forall m g a b k, run_call R cos sin linprog lsolve cyl place near (KStiffness (Some m) (Some g) a b k) s = (wrap AMatrix (stiffness m g a b k), s)) /\
  (forall m g, run_call R cos sin linprog lsolve cyl place near (KConstraint (Some m) (Some g)) s = (wrap ABounds (constraint m g), s)) /\
  (forall m g p, run_call R cos sin linprog lsolve cyl place near (KSolve (Some m) (Some g) p) s = (wrap (fun r => AHistory (fst r) (snd r)) (solve lsolve m g p), s)) /\
  (forall m, run_call R cos sin linprog lsolve cyl place near (KMatCheck (Some m)) s = (wrap ABool (mat_check m), s)) /\
  (forall t, run_call R cos sin linprog lsolve cyl place near (KNetCheck (Some t)) s = (wrap ABool (net_check t), s)) /\
  (forall t, run_call R cos sin linprog lsolve cyl place near (KStackCheck (Some t)) s = (wrap ABool (net_check t), s)) /\
  (forall g, run_call R cos sin linprog lsolve cyl place near (KMeshCheck (Some g)) s = (wrap ABool (mesh_check g), s)) /\
  (forall m, run_call R cos sin linprog lsolve cyl place near (KVtkMat (Some m)) s = (wrap APoints (vtk_mat cyl place m (fun l _ => Ok l)), s)) /\
  (forall m g a b f k, run_call R cos sin linprog lsolve cyl place near (KVtkMesh (Some m) (Some g) a b f k) s = (wrap APoints (vtk_mesh cyl place near m g a b f k), s)).
Proof.
  repeat split; intros; cbn [run_call]; unfold new_net, new_stack, new_mesh, new_stiffness, new_constraint, next, mat_or, net_or, mesh_or, pure, wrap; try reflexivity.
  - destruct (net_new m per pairs); reflexivity.
  - destruct (stack_new linprog m t thr); reflexivity.
  - destruct (mesh_new t); reflexivity.
  - destruct (stiffness m g a b k); reflexivity.
  - destruct (constraint m g); reflexivity.
  - unfold solve, assemble. destruct (stiffness m g _ _ _); [|reflexivity]. destruct (constraint m g); reflexivity.
Qed.
Lemma session_draws R cos sin linprog lsolve cyl place near l s n : (exists c, In c l /\ complete c = false) ->
  draws R n (snd (run_calls R cos sin linprog lsolve cyl place near l s)) = draws R n (rng_seed R 0).
Proof.
  intros (c & Hc & Ec). rewrite session_state. destruct (forallb complete l) eqn:E; [|reflexivity].
  rewrite forallb_forall in E. rewrite (E c Hc) in Ec. discriminate Ec.
Qed.
Lemma empty_calls R cos sin linprog lsolve cyl place near s :
  let ask c := fst (run_call R cos sin linprog lsolve cyl place near c s) in
  ask KMat = Ok (AMat empty_mat) /\ (forall per, ask (KNet None per None) = Ok (ANet (mkNetDf net_columns [] (mkAttrs (Some 0%Z) (Some (Fin 50)) (Some per) None) true))) /\
  (forall thr, ask (KStack None None thr) = Ok (AStack empty_net empty_mat)) /\ ask (KMesh None) = Ok (AMesh empty_mesh) /\
  ask (KMatCheck None) = Ok (ABool true) /\ ask (KNetCheck None) = Ok (ABool true) /\ ask (KStackCheck None) = Ok (ABool true) /\ ask (KMeshCheck None) = Ok (ABool true) /\
  ask (KHeights None None) = Ok (AHeights None) /\ ask (KProgram None None) = Ok (AProgram (mkLp [] [] [] [])) /\
  (forall a b k, ask (KStiffness None None a b k) = Exn ValueErr) /\ ask (KConstraint None None) = Exn ValueErr /\ (forall p, ask (KSolve None None p) = Exn ValueErr) /\
  ask (KVtkMat None) = Ok (APoints []) /\ (forall a b f k, ask (KVtkMesh None None a b f k) = Ok (APoints [])).
Proof.
  cbv zeta. repeat split; intros; try (destruct per); rewrite (call_filled _ _ _ _ _ _ _ _ _ s s); vm_compute; reflexivity.
Qed.
Lemma floor_call R cos sin linprog lsolve cyl place near m s : valid m -> q_rows m <> [] -> solved linprog m empty_net ->
  exists st m', run_call R cos sin linprog lsolve cyl place near (KStack (Some m) None None) s = (Ok (AStack st m'), rng_seed R 0) /\
    same_but_heights m m' /\ (forall f, In f (q_rows m') -> qz f == qh f / 2) /\ net_new m' true None = Ok st.
Proof.
  intros V NE S. destruct (floor_stack linprog m None V NE S) as (full & st & m' & E & SB & FL & Hf & ->).
  exists full, m'. split; [|auto]. cbn [run_call]. unfold next. rewrite stack_eq. cbn [given andb]. rewrite E. reflexivity.
Qed.
