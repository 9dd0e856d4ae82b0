(** Property theorems: the tests of the stacking (C99). *)
From Verif Require Import Num NumP ListX Frames MatM NetM StackM MainM Spec SpecNet SpecStack SpecMain TestsM SpecTests TestsP PropsMat PropsStack PropsMain.
Open Scope Q_scope.

(** ** C99 *)
(** the test passes whatever is drawn, as long as the lengths and the thicknesses are positive *)
Theorem C99_passes : forall R cos sin linprog pi ls hs ent prior, draws_in_range R -> trig_accurate cos sin -> right_linprog linprog ->
  positive_draws 100 ls -> positive_draws 100 hs -> test_stack R cos sin linprog pi ls hs ent prior = Ok tt.
Proof. intros R cos sin linprog pi ls hs ent prior HR HT RL. exact (test_passes R cos sin HR HT linprog pi ls hs ent prior RL). Qed.
(** a length or a thickness that is not positive stops it, whatever the solver answers *)
Theorem C99_raises : forall R cos sin linprog pi ls hs ent prior, draws_in_range R -> trig_accurate cos sin ->
  length ls = 100%nat -> length hs = 100%nat -> (exists x, In x (ls ++ hs) /\ x <= 0) -> test_stack R cos sin linprog pi ls hs ent prior = Exn ValueErr.
Proof. intros R cos sin linprog pi ls hs ent prior HR HT. exact (test_raises R cos sin HR HT linprog pi ls hs ent prior). Qed.
(** the same check passes on every mat, of any number of fibers in any orientation *)
Theorem C99_any : forall linprog m, right_linprog linprog -> valid m -> stacking_test linprog m = Ok tt.
Proof. exact test_right. Qed.
(** it passes for no other answer of the solver than an optimum of the program of the stack: the heights of fibers that do not overlap, each
    on the floor or on another one *)
Theorem C99_detects : forall linprog m t p, answers linprog -> net_new m true None = Ok t -> stack_constraint m t = Ok p -> q_rows m <> [] ->
  (stacking_test linprog m = Ok tt <-> lp_optimal p (linprog p)) /\ (stacking_test linprog m = Exn ValueErr <-> ~ lp_optimal p (linprog p)) /\
  (stacking_test linprog m = Ok tt <-> admissible m t (linprog p) /\ supported m t (linprog p)).
Proof. exact test_detects. Qed.
(** its fibers lie in the plane, so that the network it looks at is the one of the stack *)
Theorem C99_flat : forall R cos sin pi ls hs ent prior md s, (forall a, a == 0 -> sin a == 0) -> mat_new R cos sin (test_mat pi) ent prior = Ok (md, s) ->
  let m := mkQmat (redrawn (q_rows (read_mat md)) ls hs) (q_size (read_mat md)) in all_in_plane m /\
  forall linprog t st m2, net_new m true None = Ok t -> solved linprog m t -> stack_new linprog m t None = Ok (st, m2) ->
    length (n_rows st) = length (n_rows t) /\ forall k c d, is_row t k c -> is_row st k d -> same_from_above c d.
Proof.
  intros R cos sin pi ls hs ent prior md s HS H. pose proof (test_flat R cos sin pi ls hs ent prior md s HS H) as F. split; [exact F|].
  intros linprog t st m2 Ht So Hs. exact (C22_same_rows linprog _ true t Ht So F st m2 Hs).
Qed.

(** ** cases *)
Example ex_test_flat : exists md s, mat_new ex_rng ex_cos ex_sin (test_mat np_pi) 0%Z 0%Z = Ok (md, s) /\ length (q_rows (read_mat md)) = 100%nat /\ forall a, a == 0 -> ex_sin a == 0.
Proof.
  destruct (test_mat_new ex_rng ex_cos ex_sin ex_draws ex_trig np_pi 0%Z 0%Z) as (md & s & E & _ & L). exists md, s. split; [exact E|]. split; [exact L|].
  intros a Ha. unfold ex_sin. rewrite Ha. reflexivity.
Qed.
Example ex_test_draws : positive_draws 100 (repeat 25 100) /\ positive_draws 100 (repeat (1 # 10) 100).
Proof. split; (split; [reflexivity|]; intros x Hx; apply repeat_spec in Hx; subst x; reflexivity). Qed.
Example ex_test : test_stack ex_rng ex_cos ex_sin ex_greedy np_pi (repeat 25 100) (repeat (1 # 10) 100) 0%Z 0%Z = Ok tt.
Proof. apply C99_passes; [exact ex_draws|exact ex_trig|exact ex_greedy_right|apply ex_test_draws|apply ex_test_draws]. Qed.
(** the solver answers heights that are all too large by one: the test sees it on every mat *)
Definition ex_raised (p : lp) : list Q := map (fun i => 1 + nth i (ex_greedy p) 0) (seq 0 (length (lph p))).
Example ex_raised_answers : answers ex_raised.
Proof. intros p. unfold ex_raised. rewrite map_length, seq_length. reflexivity. Qed.
Example ex_raised_seen : forall m, valid m -> q_rows m <> [] -> stacking_test ex_raised m = Exn ValueErr.
Proof.
  intros m V NE. destruct (PropsNet.C05_total m true None V) as (t & Ht); [intros ? ? ? C; discriminate C|].
  destruct (C17_networks_by_A _ _ _ _ Ht) as (_ & OK & LF & NF & _). destruct (C16_total m t V OK LF) as (p & Hp).
  apply (C99_detects ex_raised m t p ex_raised_answers Ht Hp NE). intros O.
  pose proof (ex_greedy_right m true t Ht p Hp) as G. pose proof (C17_optimum_unique m t p Hp NF _ _ O G) as S.
  destruct (proj1 (C16_feasible m t p Hp NF _) (proj1 O)) as (L & _). destruct (q_rows m) as [|f l] eqn:E; [congruence|].
  assert (E0 : nth 0 (ex_raised p) 0 == nth 0 (ex_greedy p) 0) by (apply nth_eq; exact S).
  unfold ex_raised in E0, L. rewrite map_length, seq_length in L. cbn [length] in L. rewrite L in E0. cbn [seq map nth] in E0. lra.
Qed.

(** it does not pass with every draw *)
Theorem C99_draws_refuted : ~ (forall R cos sin linprog pi ls hs ent prior, draws_in_range R -> trig_accurate cos sin -> right_linprog linprog ->
  length ls = 100%nat -> length hs = 100%nat -> test_stack R cos sin linprog pi ls hs ent prior = Ok tt).
Proof.
  intros H. pose proof (H ex_rng ex_cos ex_sin ex_greedy np_pi (repeat 25 100) (repeat (- (1 # 10)) 100) 0%Z 0%Z ex_draws ex_trig ex_greedy_right eq_refl eq_refl) as E.
  rewrite (C99_raises ex_rng ex_cos ex_sin ex_greedy np_pi (repeat 25 100) (repeat (- (1 # 10)) 100) 0%Z 0%Z ex_draws ex_trig eq_refl eq_refl) in E; [discriminate E|].
  exists (- (1 # 10)). split; [apply in_or_app; right; apply (in_eq (- (1 # 10)))|discriminate].
Qed.

Print Assumptions C99_passes.
Print Assumptions C99_raises.
Print Assumptions C99_any.
Print Assumptions C99_detects.
Print Assumptions C99_flat.
Print Assumptions C99_draws_refuted.
