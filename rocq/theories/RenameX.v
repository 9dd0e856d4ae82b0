(** A test of two meshes for the examples of C104: it succeeds only if the second is the first under other names. *)
From Coq Require Import Lia Lqa.
From Verif Require Import Num NumP ListX ListP Frames MatM NetM MeshM ModelM SolverM Spec SpecNet SpecModel SpecSolver SpecScale SpecProgress SpecRename SolverP.
Open Scope Q_scope.

Definition node_of (g : mesh_df) (i : nat) : node := nth i (map snd (g_rows g)) node0.
Definition fiber_of (m : qmat) (d : node) : qfiber := nth (Z.to_nat (nf d)) (q_rows m) fiber0.
Definition same_num (x y : num) : bool := match x, y with Fin a, Fin b => Qeqb b a | PInf, PInf => true | _, _ => false end.
Definition same_fiber (f f' : qfiber) : bool := Qeqb (qb f') (qb f) && Qeqb (qh f') (qh f) && same_num (qG f) (qG f') && same_num (qE f) (qE f').
Definition beam_test (g : mesh_df) (i j : nat) : bool := Nat.ltb i j && Z.eqb (nbeam (node_of g i)) (Z.of_nat j).
Definition contact_test (g : mesh_df) (i j : nat) : bool := Nat.leb i j && Z.eqb (ncons (node_of g i)) (Z.of_nat j).
Definition span (g : mesh_df) (i j : nat) : Q := ns (node_of g j) - ns (node_of g i).
Definition each (n : nat) (f : nat -> bool) : bool := forallb f (seq 0 n).
Definition renamed_test (R : renaming) (m m' : qmat) (g g' : mesh_df) : bool :=
  let n := length (g_rows g) in
  Nat.eqb (length (g_rows g')) n &&
  each n (fun i => Nat.ltb (rn_node R i) n && Z.eqb (nf (node_of g' (rn_node R i))) (rn_fiber R (nf (node_of g i))) &&
                   Qeqb (nz (node_of g' (rn_node R i))) (nz (node_of g i)) &&
                   same_fiber (fiber_of m (node_of g i)) (fiber_of m' (node_of g' (rn_node R i)))) &&
  each n (fun i => each n (fun j => implb (Nat.eqb (rn_node R i) (rn_node R j)) (Nat.eqb i j) &&
    Bool.eqb (contact_test g i j) (contact_test g' (rn_node R i) (rn_node R j)) &&
    (if rn_back R (nf (node_of g i))
     then Bool.eqb (beam_test g i j) (beam_test g' (rn_node R j) (rn_node R i)) && implb (beam_test g i j) (Qeqb (span g' (rn_node R j) (rn_node R i)) (span g i j))
     else Bool.eqb (beam_test g i j) (beam_test g' (rn_node R i) (rn_node R j)) && implb (beam_test g i j) (Qeqb (span g' (rn_node R i) (rn_node R j)) (span g i j))))).

Lemma each_at n f : each n f = true -> forall i, (i < n)%nat -> f i = true.
Proof. intros H i L. unfold each in H. rewrite forallb_forall in H. apply H. apply in_seq. lia. Qed.
Lemma node_at g i d : is_node (g_rows g) i d -> (i < length (g_rows g))%nat /\ d = node_of g i.
Proof.
  intros (l & H). split; [apply nth_error_Some; congruence|]. unfold node_of. rewrite (nth_of (map snd _)), nth_error_map, H. reflexivity.
Qed.
Lemma node_of_at g i : (i < length (g_rows g))%nat -> is_node (g_rows g) i (node_of g i).
Proof.
  intros L. destruct (nth_error (g_rows g) i) as [[l d]|] eqn:E; [|apply nth_error_None in E; lia]. exists l. rewrite E. unfold node_of. rewrite (nth_of (map snd _)), nth_error_map, E. reflexivity.
Qed.
Lemma same_num_times x y : same_num x y = true -> times 1 x y.
Proof. destruct x, y; cbn; intros H; try discriminate H; [|exact I]. apply Qeqb_eq in H. rewrite H. ring. Qed.
Lemma beam_of g i j : (i < length (g_rows g))%nat -> (j < length (g_rows g))%nat -> beam_test g i j = true <-> beam_element g i j (node_of g i) (node_of g j).
Proof.
  intros Li Lj. unfold beam_test. rewrite andb_true_iff, Nat.ltb_lt, Z.eqb_eq. split.
  - intros [A B]. split; [apply node_of_at; exact Li|]. split; [apply node_of_at; exact Lj|]. split; assumption.
  - intros (_ & _ & A & B). split; assumption.
Qed.
Lemma contact_of g i j : (i < length (g_rows g))%nat -> contact_test g i j = true <-> contact g i j.
Proof.
  intros Li. unfold contact_test. rewrite andb_true_iff, Nat.leb_le, Z.eqb_eq. split.
  - intros [A B]. exists (node_of g i). split; [apply node_of_at; exact Li|]. split; assumption.
  - intros (d & Hd & A & B). destruct (node_at g i d Hd) as [_ ->]. split; assumption.
Qed.
Lemma renamed_tested R m m' g g' : (forall f f', rn_fiber R f = rn_fiber R f' -> f = f') -> renamed_test R m m' g g' = true -> mesh_renamed R m m' g g'.
Proof.
  intros HI H. unfold renamed_test in H. cbv zeta in H. set (n := length (g_rows g)) in *. apply andb_true_iff in H. destruct H as [H H3]. apply andb_true_iff in H. destruct H as [H1 H2].
  apply Nat.eqb_eq in H1. pose proof (each_at _ _ H2) as N1. pose proof (each_at _ _ H3) as N2. clear H2 H3.
  assert (RL : forall i, (i < n)%nat -> (rn_node R i < n)%nat).
  { intros i L. pose proof (N1 i L) as A. rewrite !andb_true_iff in A. apply Nat.ltb_lt. apply A. }
  assert (PW : forall i j, (i < n)%nat -> (j < n)%nat -> implb (Nat.eqb (rn_node R i) (rn_node R j)) (Nat.eqb i j) = true /\
    contact_test g i j = contact_test g' (rn_node R i) (rn_node R j) /\
    (if rn_back R (nf (node_of g i))
     then Bool.eqb (beam_test g i j) (beam_test g' (rn_node R j) (rn_node R i)) && implb (beam_test g i j) (Qeqb (span g' (rn_node R j) (rn_node R i)) (span g i j))
     else Bool.eqb (beam_test g i j) (beam_test g' (rn_node R i) (rn_node R j)) && implb (beam_test g i j) (Qeqb (span g' (rn_node R i) (rn_node R j)) (span g i j))) = true).
  { intros i j Li Lj. pose proof (each_at _ _ (N2 i Li) j Lj) as A. cbv beta in A. rewrite !andb_true_iff in A. destruct A as [[A B] C].
    split; [exact A|]. split; [apply Bool.eqb_prop; exact B|exact C]. }
  split; [exact H1|]. split; [split; [exact RL|]|].
  { intros i j Li Lj E. destruct (PW i j Li Lj) as [A _]. rewrite E, Nat.eqb_refl in A. cbn in A. apply Nat.eqb_eq. exact A. }
  split; [exact HI|]. split; [|split].
  - intros i d d' Hd Hd'. destruct (node_at _ _ _ Hd) as [Li ->]. destruct (node_at _ _ _ Hd') as [_ ->]. pose proof (N1 i Li) as A. rewrite !andb_true_iff in A.
    destruct A as [[[_ A] B] C]. apply Z.eqb_eq in A. apply Qeqb_eq in B. split; [exact A|]. split; [exact B|].
    intros f f' (_ & Hf) (_ & Hf'). unfold fiber_of in C. rewrite (nth_of (q_rows m)), (nth_of (q_rows m')), Hf, Hf' in C.
    unfold same_fiber in C. rewrite !andb_true_iff in C. destruct C as [[[C1 C2] C3] C4]. apply Qeqb_eq in C1. apply Qeqb_eq in C2.
    unfold fiber_seen. cbn [no_units un_len un_mod]. split; [rewrite C1; ring|]. split; [rewrite C2; ring|]. split; apply same_num_times; assumption.
  - intros i j d e d' e' Hd He Hd' He'. destruct (node_at _ _ _ Hd) as [Li ->]. destruct (node_at _ _ _ He) as [Lj ->]. destruct (node_at _ _ _ Hd') as [Li' ->]. destruct (node_at _ _ _ He') as [Lj' ->].
    destruct (PW i j Li Lj) as (_ & _ & A). destruct (rn_back R (nf (node_of g i))); apply andb_true_iff in A; destruct A as [A B]; apply Bool.eqb_prop in A.
    + split; [rewrite <- !beam_of by assumption; rewrite A; tauto|]. intros C. apply beam_of in C; [|assumption|assumption]. rewrite C in B. cbn in B. apply Qeqb_eq in B. exact B.
    + split; [rewrite <- !beam_of by assumption; rewrite A; tauto|]. intros C. apply beam_of in C; [|assumption|assumption]. rewrite C in B. cbn in B. apply Qeqb_eq in B. exact B.
  - intros i j Li Lj. rewrite <- !contact_of; [|rewrite H1; apply RL; exact Li|exact Li]. destruct (PW i j Li Lj) as (_ & A & _). rewrite A. tauto.
Qed.
