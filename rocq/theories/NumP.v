(** Basic facts about the numbers of the model. *)
From Verif Require Import Num.
From Coq Require Export Setoid Morphisms.

Lemma Qltb_lt x y : Qltb x y = true <-> x < y.
Proof.
  unfold Qltb. rewrite negb_true_iff. split; intro H.
  - apply Qnot_le_lt. intro C. apply Qle_bool_iff in C. congruence.
  - destruct (Qle_bool y x) eqn:E; auto. apply Qle_bool_iff in E. lra.
Qed.
Lemma Qltb_ge x y : Qltb x y = false <-> y <= x.
Proof.
  unfold Qltb. rewrite negb_false_iff. apply Qle_bool_iff.
Qed.
Lemma Qleb_le x y : Qleb x y = true <-> x <= y.
Proof. apply Qle_bool_iff. Qed.
Lemma Qleb_gt x y : Qleb x y = false <-> y < x.
Proof.
  unfold Qleb. split; intro H.
  - apply Qnot_le_lt. intro C. apply Qle_bool_iff in C. congruence.
  - destruct (Qle_bool x y) eqn:E; auto. apply Qle_bool_iff in E. lra.
Qed.
Lemma Qeqb_eq x y : Qeqb x y = true <-> x == y.
Proof. apply Qeq_bool_iff. Qed.
Lemma Qeqb_neq x y : Qeqb x y = false <-> ~ x == y.
Proof.
  unfold Qeqb. split; intro H.
  - intro C. apply Qeq_bool_iff in C. congruence.
  - destruct (Qeq_bool x y) eqn:E; auto. apply Qeq_bool_iff in E. contradiction.
Qed.

#[export] Instance Qltb_proper : Proper (Qeq ==> Qeq ==> eq) Qltb.
Proof.
  intros a b H c d H'. destruct (Qltb a c) eqn:E; symmetry.
  - apply Qltb_lt in E. apply Qltb_lt. lra.
  - apply Qltb_ge in E. apply Qltb_ge. lra.
Qed.
#[export] Instance Qleb_proper : Proper (Qeq ==> Qeq ==> eq) Qleb.
Proof.
  intros a b H c d H'. destruct (Qleb a c) eqn:E; symmetry.
  - apply Qleb_le in E. apply Qleb_le. lra.
  - apply Qleb_gt in E. apply Qleb_gt. lra.
Qed.
#[export] Instance Qeqb_proper : Proper (Qeq ==> Qeq ==> eq) Qeqb.
Proof.
  intros a b H c d H'. destruct (Qeqb a c) eqn:E; symmetry.
  - apply Qeqb_eq in E. apply Qeqb_eq. lra.
  - apply Qeqb_neq in E. apply Qeqb_neq. intro; apply E; lra.
Qed.

(** turn boolean comparisons on rationals in hypotheses and goal into Props *)
Ltac qb :=
  repeat match goal with
  | H : Qltb _ _ = true |- _ => apply Qltb_lt in H
  | H : Qltb _ _ = false |- _ => apply Qltb_ge in H
  | H : Qleb _ _ = true |- _ => apply Qleb_le in H
  | H : Qleb _ _ = false |- _ => apply Qleb_gt in H
  | H : Qeqb _ _ = true |- _ => apply Qeqb_eq in H
  | H : Qeqb _ _ = false |- _ => apply Qeqb_neq in H
  | |- Qltb _ _ = true => apply Qltb_lt
  | |- Qltb _ _ = false => apply Qltb_ge
  | |- Qleb _ _ = true => apply Qleb_le
  | |- Qleb _ _ = false => apply Qleb_gt
  | |- Qeqb _ _ = true => apply Qeqb_eq
  | |- Qeqb _ _ = false => apply Qeqb_neq
  end.

#[export] Instance neqv_equiv : Equivalence neqv.
Proof.
  split.
  - intros []; simpl; auto. reflexivity.
  - intros [] []; simpl; auto; intros; symmetry; auto.
  - intros [] [] []; simpl; intros; try tauto; lra.
Qed.

Lemma sq_pos x : 0 <= x * x.
Proof. nra. Qed.

Lemma np_pi_pos : 0 < np_pi.
Proof. reflexivity. Qed.

(** [lra] with division by small constants *)
Ltac qdiv := unfold Qdiv in *; change (/ 2) with (1 # 2) in *; change (/ 3) with (1 # 3) in *;
             change (/ 4) with (1 # 4) in *.
Ltac qlra := qdiv; lra.
