(** Notions used in the statements about stacks (C16 - C22). *)
From Verif Require Import Num Frames MatM NetM StackM Spec SpecNet.
Open Scope Q_scope.

(** height of fiber number [i] in a vector of heights *)
Definition height (z : list Q) (i : Z) : Q := nth (Z.to_nat i) z 0.

(** fiber [A] is connected to the fiber [B] of larger label in the network *)
Definition connected (t : net_df) (A B : Z) : Prop :=
  (A < B)%Z /\ exists k c, is_row t k c /\ cA c = A /\ cB c = B.

(** every fiber is above the floor *)
Definition above_floor (m : qmat) (z : list Q) : Prop :=
  forall i f, has_fiber m i f -> qh f / 2 <= height z i.
(** connected fibers do not penetrate, in label order *)
Definition no_penetration (m : qmat) (t : net_df) (z : list Q) : Prop :=
  forall A B f g, connected t A B -> has_fiber m A f -> has_fiber m B g ->
    (qh f + qh g) / 2 <= height z B - height z A.
(** one height per fiber, above the floor, without penetration *)
Definition admissible (m : qmat) (t : net_df) (z : list Q) : Prop :=
  length z = length (q_rows m) /\ above_floor m z /\ no_penetration m t z.
(** every fiber lies on the floor or touches a connected lower fiber *)
Definition supported (m : qmat) (t : net_df) (z : list Q) : Prop :=
  forall i f, has_fiber m i f ->
    height z i == qh f / 2 \/
    exists A g, connected t A i /\ has_fiber m A g /\ height z i == height z A + (qh g + qh f) / 2.

(** a linear program: minimise f.z subject to C z <= H and z >= h/2 *)
Definition lp_feasible (p : lp) (z : list Q) : Prop :=
  length z = length (lph p) /\
  (forall k, (k < length (lpH p))%nat -> coo_row (lpC p) z k <= nth k (lpH p) 0) /\
  (forall i, (i < length (lph p))%nat -> nth i (lph p) 0 / 2 <= nth i z 0).
Fixpoint dotp (f z : list Q) : Q :=
  match f, z with a :: f', b :: z' => a * b + dotp f' z' | _, _ => 0 end.
Definition lp_optimal (p : lp) (z : list Q) : Prop :=
  lp_feasible p z /\ forall z', lp_feasible p z' -> dotp (lpf p) z <= dotp (lpf p) z'.

(** equal heights *)
Definition same_heights (z z' : list Q) : Prop := Forall2 Qeq z z'.

(** replace entry [i] of a vector *)
Fixpoint put (i : nat) (x : Q) (z : list Q) : list Q :=
  match z, i with
  | [], _ => []
  | _ :: t, O => x :: t
  | a :: t, S i' => a :: put i' x t
  end.
(** one upward sweep over the rows of the network in order:
    z[B] = max(z[B], z[A] + (hA + hB)/2), starting from h/2 *)
Definition lift (h : list Q) (z : list Q) (c : conn) : list Q :=
  let hA := nth (Z.to_nat (cA c)) h 0 in
  let hB := nth (Z.to_nat (cB c)) h 0 in
  if Z.ltb (cA c) (cB c)
  then put (Z.to_nat (cB c)) (Qmax (height z (cB c)) (height z (cA c) + (hA + hB) / 2)) z
  else z.
Definition sweep (m : qmat) (t : net_df) : list Q :=
  fold_left (lift (map qh (q_rows m))) (map snd (n_rows t)) (map (fun f => qh f / 2) (q_rows m)).

(** rows of the network by non-decreasing first label *)
Definition rows_by_A (t : net_df) : Prop :=
  forall k l c d, (k < l)%nat -> is_row t k c -> is_row t l d -> (cA c <= cA d)%Z.

(** heights of the fibers of a mat *)
Definition heights (m : qmat) : list Q := map qz (q_rows m).

(** sum of the thicknesses of the fibers of label at most [i] *)
Definition thickness_below (m : qmat) (i : Z) : Q :=
  qsum (firstn (S (Z.to_nat i)) (map qh (q_rows m))).

(** the linear solver found an optimum of the stacking program of this mat and network *)
Definition solved (linprog : lp -> list Q) (m : qmat) (t : net_df) : Prop :=
  forall p, stack_constraint m t = Ok p -> lp_optimal p (linprog p).

(** all labels of the network are fibers of the mat *)
Definition labels_fit (m : qmat) (t : net_df) : Prop :=
  at_n (n_attrs t) = Some (Z.of_nat (length (q_rows m))).

(** rows that the threshold keeps *)
Definition close_enough (d : Q) (c : conn) : Prop :=
  cA c = cB c \/ Qabs (czB c - czA c) <= d.

(** ** forces in a stack *)
(** what the linear solver returns besides [x]: [y] the marginals of the inequalities and [w] those of
    the lower bounds (scipy's [ineqlin.marginals], [lower.marginals]): an optimum of the dual program *)
Record marginals (p : lp) (z y w : list Q) : Prop := {
  mg_rows : length y = length (lpH p);
  mg_cols : length w = length (lph p);
  mg_neg : forall k, nth k y 0 <= 0;
  mg_pos : forall i, 0 <= nth i w 0;
  mg_dual : forall i, (i < length (lph p))%nat -> nth i (lpf p) 0 == coo_col (lpC p) y i + nth i w 0;
  mg_gap : dotp (lpf p) z == dotp (lpH p) y + dotp (map (fun h => h / 2) (lph p)) w
}.
(** the contacts of a network in the order of its rows: the lower and the upper fiber *)
Definition contacts (t : net_df) : list (Z * Z) :=
  filter (fun e => Z.ltb (fst e) (snd e)) (map (fun r => (cA (snd r), cB (snd r))) (n_rows t)).
(** sum of the forces at the selected contacts *)
Fixpoint total {E} (cs : list E) (x : list Q) (sel : E -> bool) : Q :=
  match cs, x with
  | c :: cs', v :: x' => (if sel c then v else 0) + total cs' x' sel
  | _, _ => 0
  end.
(** force that fiber [i] receives from the fibers lying on it, and that it exerts on the fibers below *)
Definition from_above (t : net_df) (push : list Q) (i : Z) : Q := total (contacts t) push (fun e => Z.eqb (fst e) i).
Definition to_below (t : net_df) (push : list Q) (i : Z) : Q := total (contacts t) push (fun e => Z.eqb (snd e) i).
Definition weight (f : qfiber) : Q := np_pi / 4 * (ql f * qb f * qh f).
(** forces between touching fibers and under the fibers lying on the floor that carry all weights *)
Record equilibrium (m : qmat) (t : net_df) (z push floor : list Q) : Prop := {
  eq_contacts : length push = length (contacts t);
  eq_fibers : length floor = length (q_rows m);
  eq_push : forall k, 0 <= nth k push 0;
  eq_floor : forall i, 0 <= nth i floor 0;
  eq_balance : forall i f, has_fiber m i f -> weight f + from_above t push i == to_below t push i + height floor i;
  eq_touch : forall k A B f g, nth_error (contacts t) k = Some (A, B) -> has_fiber m A f -> has_fiber m B g ->
    ~ nth k push 0 == 0 -> height z B - height z A == (qh f + qh g) / 2;
  eq_rest : forall i f, has_fiber m i f -> ~ height floor i == 0 -> height z i == qh f / 2
}.
(** weight of the fibers of label above [i] *)
Definition weight_above (m : qmat) (i : Z) : Q := qsum (skipn (S (Z.to_nat i)) (map weight (q_rows m))).
