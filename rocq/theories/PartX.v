(** A test of two meshes for the examples of C107: it succeeds only if the second contains the first, not joined to the rest. *)
From Coq Require Import Lia Lqa.
From Verif Require Import Num NumP ListX ListP Frames MatM NetM MeshM ModelM SolverM Spec SpecNet SpecModel SpecSolver SpecScale SpecProgress SpecRename SpecPart SolverP RenameX.
Open Scope Q_scope.

Definition found_test (rho : nat -> nat) (n i' : nat) : bool := existsb (fun i => Nat.eqb i' (rho i)) (seq 0 n).
Definition within_test (rho : nat -> nat) (m m' : qmat) (g g' : mesh_df) : bool :=
  let n := length (g_rows g) in
  let n' := length (g_rows g') in
  each n (fun i => Nat.ltb (rho i) n' && Qeqb (nz (node_of g' (rho i))) (nz (node_of g i)) &&
                   same_fiber (fiber_of m (node_of g i)) (fiber_of m' (node_of g' (rho i)))) &&
  each n (fun i => each n (fun j => implb (Nat.eqb (rho i) (rho j)) (Nat.eqb i j) &&
    Bool.eqb (contact_test g i j) (contact_test g' (rho i) (rho j)) &&
    (Bool.eqb (beam_test g i j) (beam_test g' (rho i) (rho j)) && implb (beam_test g i j) (Qeqb (span g' (rho i) (rho j)) (span g i j))))) &&
  each n' (fun i => each n' (fun j => implb (beam_test g' i j || contact_test g' i j) (Bool.eqb (found_test rho n i) (found_test rho n j)))).
Definition span_test (g g' : mesh_df) : bool :=
  let n := length (g_rows g) in
  let n' := length (g_rows g') in
  each n' (fun i => each n' (fun j => implb (beam_test g' i j)
    (existsb (fun a => existsb (fun b => beam_test g a b && Qleb (span g a b) (span g' i j)) (seq 0 n)) (seq 0 n) &&
     existsb (fun a => existsb (fun b => beam_test g a b && Qleb (span g' i j) (span g a b)) (seq 0 n)) (seq 0 n)))).

Lemma found_of rho g i' : found_test rho (length (g_rows g)) i' = true <-> found rho g i'.
Proof.
  unfold found_test, found. rewrite existsb_exists. split; intros (i & A & B); exists i.
  - apply in_seq in A. apply Nat.eqb_eq in B. split; [lia|exact B].
  - split; [apply in_seq; lia|apply Nat.eqb_eq; exact B].
Qed.
Lemma within_tested rho m m' g g' : (forall i' j', contact g' i' j' -> (j' < length (g_rows g'))%nat) -> within_test rho m m' g g' = true -> mesh_within rho m m' g g'.
Proof.
  intros CJ H. unfold within_test in H. cbv zeta in H. set (n := length (g_rows g)) in *. set (n' := length (g_rows g')) in *.
  apply andb_true_iff in H. destruct H as [H H3]. apply andb_true_iff in H. destruct H as [H1 H2].
  pose proof (each_at _ _ H1) as N1. pose proof (each_at _ _ H2) as N2. pose proof (each_at _ _ H3) as N3. clear H1 H2 H3.
  assert (RL : forall i, (i < n)%nat -> (rho i < n')%nat).
  { intros i L. pose proof (N1 i L) as A. rewrite !andb_true_iff in A. apply Nat.ltb_lt. apply A. }
  assert (PW : forall i j, (i < n)%nat -> (j < n)%nat -> implb (Nat.eqb (rho i) (rho j)) (Nat.eqb i j) = true /\
    contact_test g i j = contact_test g' (rho i) (rho j) /\
    beam_test g i j = beam_test g' (rho i) (rho j) /\ implb (beam_test g i j) (Qeqb (span g' (rho i) (rho j)) (span g i j)) = true).
  { intros i j Li Lj. pose proof (each_at _ _ (N2 i Li) j Lj) as A. cbv beta in A. rewrite !andb_true_iff in A. destruct A as [[A B] [C E]].
    split; [exact A|]. split; [apply Bool.eqb_prop; exact B|]. split; [apply Bool.eqb_prop; exact C|exact E]. }
  assert (AP : forall i j, (i < n')%nat -> (j < n')%nat -> beam_test g' i j = true \/ contact_test g' i j = true -> found rho g i <-> found rho g j).
  { intros i j Li Lj O. pose proof (each_at _ _ (N3 i Li) j Lj) as A. cbv beta in A. apply orb_true_iff in O. rewrite O in A. cbn in A. apply Bool.eqb_prop in A.
    rewrite <- !found_of. fold n. rewrite A. tauto. }
  split; [exact RL|]. split; [|split; [|split; [|split; [|split]]]].
  - intros i j Li Lj E. destruct (PW i j Li Lj) as [A _]. rewrite E, Nat.eqb_refl in A. cbn in A. apply Nat.eqb_eq. exact A.
  - intros i d d' Hd Hd'. destruct (node_at _ _ _ Hd) as [Li ->]. destruct (node_at _ _ _ Hd') as [_ ->]. pose proof (N1 i Li) as A. rewrite !andb_true_iff in A.
    destruct A as [[_ B] C]. apply Qeqb_eq in B. split; [exact B|].
    intros f f' (_ & Hf) (_ & Hf'). unfold fiber_of in C. rewrite (nth_of (q_rows m)), (nth_of (q_rows m')), Hf, Hf' in C.
    unfold same_fiber in C. rewrite !andb_true_iff in C. destruct C as [[[C1 C2] C3] C4]. apply Qeqb_eq in C1. apply Qeqb_eq in C2.
    unfold fiber_seen. cbn [no_units un_len un_mod]. split; [rewrite C1; ring|]. split; [rewrite C2; ring|]. split; apply same_num_times; assumption.
  - intros i j d e d' e' Hd He Hd' He'. destruct (node_at _ _ _ Hd) as [Li ->]. destruct (node_at _ _ _ He) as [Lj ->]. destruct (node_at _ _ _ Hd') as [Li' ->]. destruct (node_at _ _ _ He') as [Lj' ->].
    destruct (PW i j Li Lj) as (_ & _ & A & B).
    split; [rewrite <- !beam_of by assumption; rewrite A; tauto|]. intros C. apply beam_of in C; [|assumption|assumption]. rewrite C in B. cbn in B. apply Qeqb_eq in B. exact B.
  - intros i j Li Lj. rewrite <- !contact_of; [|apply RL; exact Li|exact Li]. destruct (PW i j Li Lj) as (_ & A & _). rewrite A. tauto.
  - intros i j d e B. pose proof B as (Hd & He & _). destruct (node_at _ _ _ Hd) as [Li ->]. destruct (node_at _ _ _ He) as [Lj ->].
    apply AP; auto. left. apply beam_of; assumption.
  - intros i j C. pose proof C as (d & Hd & _). destruct (node_at _ _ _ Hd) as [Li _]. apply AP; auto; [apply (CJ i j C)|]. right. apply contact_of; assumption.
Qed.
Lemma span_tested g g' : span_test g g' = true -> same_span g g'.
Proof.
  intros H i j d e B. pose proof B as (Hd & He & _). destruct (node_at _ _ _ Hd) as [Li ->]. destruct (node_at _ _ _ He) as [Lj ->].
  unfold span_test in H. cbv zeta in H. pose proof (each_at _ _ (each_at _ _ H i Li) j Lj) as A. cbv beta in A. apply beam_of in B; auto. rewrite B in A. cbn [implb] in A.
  apply andb_true_iff in A. destruct A as [A1 A2]. apply existsb_exists in A1, A2. destruct A1 as (a & Ia & A1), A2 as (c & Ic & A2). apply existsb_exists in A1, A2. destruct A1 as (b & Ib & A1), A2 as (f & If & A2).
  apply in_seq in Ia, Ib, Ic, If. apply andb_true_iff in A1, A2. destruct A1 as [A1 A3], A2 as [A2 A4]. apply Qleb_le in A3, A4.
  split; [exists a, b, (node_of g a), (node_of g b)|exists c, f, (node_of g c), (node_of g f)]; (split; [apply beam_of; auto; lia|assumption]).
Qed.
