(** Property theorems: the numbering of the unknowns (C43, solver.py 117-118, 146-150). *)
From Coq Require Import Permutation.
From Verif Require Import Num NumP ListX ListP Frames MatM NetM StackM MeshM ModelM SolverM Spec SpecNet SpecModel SpecSolver SpecPerm
  CheckP SolverP SolverRunP GaussX GaussP PermP PropsSolver.
Open Scope Q_scope.

(** ** C43: renumbering does not change the solution *)
Theorem C43_same_results : forall lsolve m g p p' S h S' h', exact_solver lsolve -> same_but_perm p p' ->
  solve lsolve m g p = Ok (S, h) -> solve lsolve m g p' = Ok (S', h') ->
  numbering (length (sy_dq S)) (sp_perm p) -> numbering (length (sy_dq S)) (sp_perm p') ->
  (forall k s, nth_error h k = Some s -> (k < sp_itermax p)%nat -> nltb (st_rl s) (sp_packing p) = true -> regular S s) ->
  Forall2 (same_record S S') h h'.
Proof. exact same_results. Qed.
(** each increment is the solution of the linear system restricted to the closed rows *)
Theorem C43_increment : forall lsolve m g p S h, exact_solver lsolve -> solve lsolve m g p = Ok (S, h) ->
  numbering (length (sy_dq S)) (sp_perm p) ->
  (forall k s, nth_error h k = Some s -> (k < sp_itermax p)%nat -> nltb (st_rl s) (sp_packing p) = true -> regular S s) ->
  forall k s s', nth_error h k = Some s -> nth_error h (Datatypes.S k) = Some s' ->
  finite_vec (st_dx s') /\ (forall r, ~ closed S s r -> nth r (vals (st_dx s')) 0 == 0) /\
  forall r, closed S s r -> product (sy_P S) (vals (st_dx s')) r == qof (nth r (sy_dq S) NaN).
Proof. exact history_increments. Qed.
Print Assumptions C43_same_results.
Print Assumptions C43_increment.

(** ** example: three point bending, the unknowns numbered backwards, one step *)
Definition ex_tol : Q := 1 # 1000000.
Definition ex_par (perm : option (list nat)) : solve_params := mkSolve (Fin 3) 1 perm ex_tol ex_tol None None 1.
Definition ex_num (perm : option (list nat)) : sysdata * list state := ex_run gauss (ex_bend (Fin 1)) (ex_bendg (Fin 1)) (ex_par perm).
Definition ex_back : option (list nat) := Some (rev (seq 0 61)).
Example ex_num_ok perm : solve gauss (ex_bend (Fin 1)) (ex_bendg (Fin 1)) (ex_par perm) = Ok (fst (ex_num perm), snd (ex_num perm)).
Proof.
  unfold ex_num, ex_run. destruct (ex_bend_total (Fin 1) (or_intror eq_refl)) as (V & M & N & i & j & d & e & B & _).
  destruct (C36_total gauss _ _ (ex_par perm) V M N (ex_intro _ i (ex_intro _ j (ex_intro _ d (ex_intro _ e B))))) as (S & h & E). rewrite E. reflexivity.
Qed.
Example ex_num_size : length (sy_dq (fst (ex_num None))) = 61%nat /\ length (snd (ex_num None)) = 2%nat.
Proof.
  assert (E : (let r := ex_num None in Nat.eqb (length (sy_dq (fst r))) 61 && Nat.eqb (length (snd r)) 2) = true) by (vm_compute; reflexivity).
  cbv zeta in E. apply andb_true_iff in E. destruct E as [E1 E2]. split; apply Nat.eqb_eq; assumption.
Qed.
Example ex_back_numbering : numbering (length (sy_dq (fst (ex_num None)))) ex_back.
Proof. rewrite (proj1 ex_num_size). apply Permutation_sym, Permutation_rev. Qed.
(** the first system has 40 closed rows and one solution *)
Definition ex_check (S : sysdata) (s : state) : bool :=
  Nat.eqb (length (st_q s)) (length (sy_dq S)) && (let l := ps S s in Nat.eqb (length l) 40 && solvable (length l) (submatrix (sy_P S) l)).
Example ex_num_checked : (let r := ex_num None in match snd r with s :: _ => ex_check (fst r) s | [] => false end) = true.
Proof. vm_compute. reflexivity. Qed.
Example ex_num_regular : forall k s, nth_error (snd (ex_num None)) k = Some s -> (k < 1)%nat -> nltb (st_rl s) (Fin 3) = true -> regular (fst (ex_num None)) s.
Proof.
  intros k s Hk L _. assert (k = 0%nat) by lia. subst k. pose proof ex_num_checked as C. cbv zeta in C.
  destruct (snd (ex_num None)) as [|s0 h]; [discriminate Hk|]. injection Hk as ->.
  unfold ex_check in C. apply andb_true_iff in C. destruct C as [C1 C2]. cbv zeta in C2. apply andb_true_iff in C2. destruct C2 as [_ C2]. apply Nat.eqb_eq in C1.
  apply regular_from; [apply (call_facts _ _ _ _ _ _ (ex_num_ok None) I)|exact C1|apply solvable_nonsingular; exact C2].
Qed.
Example ex_num_same : Forall2 (same_record (fst (ex_num None)) (fst (ex_num ex_back))) (snd (ex_num None)) (snd (ex_num ex_back)).
Proof.
  apply (C43_same_results gauss (ex_bend (Fin 1)) (ex_bendg (Fin 1)) (ex_par None) (ex_par ex_back)).
  - exact gauss_exact.
  - reflexivity.
  - apply ex_num_ok.
  - apply ex_num_ok.
  - exact I.
  - exact ex_back_numbering.
  - exact ex_num_regular.
Qed.
