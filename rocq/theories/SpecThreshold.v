(** Notions used in the statements that compare thresholds (C111); the threshold is read in src/fibermat/net.py:576-585. *)
From Verif Require Import Num ListX Frames MatM NetM StackM MeshM Spec SpecNet SpecStack.
Open Scope Q_scope.

(** the rows of [t] are rows of [t'], in the same order, none twice; the others are more than [d] apart *)
Definition kept_of (d : Q) (t t' : net_df) : Prop := exists phi,
  (forall k k', (k < k')%nat -> (k' < length (n_rows t))%nat -> (phi k < phi k')%nat) /\
  (forall k c, is_row t k c -> is_row t' (phi k) c) /\
  (forall k c, is_row t' k c -> (exists k', phi k' = k /\ is_row t k' c) \/ d < Qabs (czB c - czA c)).
(** the same rows at the same places *)
Definition same_rows (t t' : net_df) : Prop := forall k c, is_row t k c <-> is_row t' k c.

(** the nodes of the mesh [g] are nodes of [g'], none twice: on the same fiber, at the same abscissa and place, facing the same nodes *)
Definition nodes_of (g g' : mesh_df) : Prop := exists psi : nat -> nat,
  (forall i d, is_node (g_rows g) i d -> exists d', is_node (g_rows g') (psi i) d' /\
     nf d' = nf d /\ ns d' = ns d /\ nx d' = nx d /\ ny d' = ny d /\ nz d' = nz d /\ ncons d' = Z.of_nat (psi (Z.to_nat (ncons d)))) /\
  (forall i d j e, is_node (g_rows g) i d -> is_node (g_rows g) j e -> psi i = psi j -> i = j).
