(** Proofs about the functions returned by [solve] in two systems of units (C75, C100). *)
From Verif Require Import Num NumP ListX ListP Frames MatM NetM MeshM ModelM SolverM InterpM ResultM Spec SpecModel SpecSolver SpecInterp SpecScale SpecMove
  NetZP InterpP ResultP ScaleP.
Open Scope Q_scope.

Section Times.
  Variable a : Q.
  Hypothesis Ha : 0 < a.
  Notation sim := (Forall2 (times a)).
  Lemma i_nth y y' k : sim y y' -> times a (nth k y NaN) (nth k y' NaN).
  Proof. intros F. apply Forall2_nth'; [exact I|exact F]. Qed.
  Lemma i_last y y' : sim y y' -> times a (ylast y) (ylast y').
  Proof.
    intros F. unfold ylast. induction F as [|x x' l l' X F IH]; [exact I|]. destruct F; [exact X|exact IH].
  Qed.
  Lemma i_slope u u' v v' d e : times a u u' -> times a v v' -> times a (nadd (nmul (ndiv (nsub u v) (Fin d)) (Fin e)) v) (nadd (nmul (ndiv (nsub u' v') (Fin d)) (Fin e)) v').
  Proof.
    intros A B. apply t_add; [|exact B]. apply (t_ext (a / 1 * 1)); [field|].
    apply t_mul; [|reflexivity| |apply t_one].
    - setoid_replace (a / 1) with a by field. exact Ha.
    - apply t_div; [exact Ha|reflexivity| |apply t_one]. apply t_sub; assumption.
  Qed.
  Lemma i_call k x y y' t : sim y y' -> times a (call k x y t) (call k x y' t).
  Proof.
    intros F. destruct k; cbn [call].
    - unfold call_linear. apply i_slope; apply i_nth, F.
    - unfold call_np. destruct (Nat.leb _ _); [apply i_nth, F|]. destruct (Qeqb _ _); [apply i_nth, F|]. apply i_slope; apply i_nth, F.
    - unfold call_previous. apply i_nth, F.
  Qed.
  Lemma i_eval k x y y' f f' t : sim y y' -> times a f f' -> times a (eval1d k x y f t) (eval1d k x y' f' t).
  Proof. intros F G. unfold eval1d. destruct x as [|x0 x]; [exact I|]. destruct (_ || _)%bool; [exact G|apply i_call, F]. Qed.
  Lemma i_new k y y' size t : sim y y' -> times a (interp_call (interp_new k y size) t) (interp_call (interp_new k y' size) t).
  Proof.
    intros F. unfold interp_call, interp_new. cbn [in_kind in_t in_y in_fill]. rewrite <- (Forall2_len _ _ _ F). apply i_eval; [|apply i_last, F].
    generalize (match size with None => linspace (length y) | Some n => linspace n end) as l.
    induction l as [|x l IH]; cbn [map]; constructor; [apply i_eval; [exact F|apply i_last, F]|exact IH].
  Qed.
  Lemma i_component vs vs' j : Forall2 (fun v v' => times a (nth j v NaN) (nth j v' NaN)) vs vs' -> sim (component vs j) (component vs' j).
  Proof. intros F. unfold component. apply t_map. exact F. Qed.
  Lemma nth_call k vs size t j : vs <> [] -> nth j (call_vec (interp_vec k vs size) t) NaN = interp_call (interp_new k (component vs j) size) t \/
    (length (hd [] vs) <= j)%nat.
  Proof.
    intros N. destruct (Nat.lt_ge_cases j (length (hd [] vs))) as [L|L]; [left|right; exact L].
    unfold call_vec, interp_vec. rewrite map_map. rewrite nth_indep with (d' := interp_call (interp_new k (component vs 0) size) t).
    2: rewrite map_length, seq_length; exact L.
    rewrite (map_nth (fun i => interp_call (interp_new k (component vs i) size) t)). rewrite seq_nth; [reflexivity|exact L].
  Qed.
  Lemma i_vec k vs vs' size t : Forall2 sim vs vs' -> Forall2 (times a) (call_vec (interp_vec k vs size) t) (call_vec (interp_vec k vs' size) t).
  Proof.
    intros F. unfold call_vec, interp_vec.
    assert (L : length (hd [] vs') = length (hd [] vs)) by (destruct F as [|v v' l l' X F]; [reflexivity|symmetry; apply (Forall2_len _ _ _ X)]).
    rewrite L. generalize (seq 0 (length (hd [] vs))) as l. induction l as [|j l IH]; cbn [map]; constructor; [|exact IH].
    apply i_new, i_component. clear -F. induction F; constructor; [apply i_nth; assumption|assumption].
  Qed.
End Times.

(** one component of vectors of the same length *)
Lemma i_comp a k vs vs' size t j : 0 < a -> Forall2 (fun v v' => length v' = length v /\ times a (nth j v NaN) (nth j v' NaN)) vs vs' ->
  times a (nth j (call_vec (interp_vec k vs size) t) NaN) (nth j (call_vec (interp_vec k vs' size) t) NaN).
Proof.
  intros Ha F. assert (L : length (hd [] vs') = length (hd [] vs)) by (destruct F as [|v v' l l' X F]; [reflexivity|apply X]).
  destruct (Nat.lt_ge_cases j (length (hd [] vs))) as [B|B].
  - assert (N : vs <> []) by (intros ->; cbn in B; lia). assert (N' : vs' <> []) by (intros ->; cbn in L; lia).
    destruct (nth_call k vs size t j N) as [E|E]; [|lia]. destruct (nth_call k vs' size t j N') as [E'|E']; [|lia]. rewrite E, E'.
    apply i_new; [exact Ha|]. apply i_component. clear -F. induction F as [|? ? ? ? X F IH]; constructor; [apply X|exact IH].
  - rewrite !nth_overflow; [exact I| |]; unfold call_vec, interp_vec; rewrite !map_length, seq_length; lia.
Qed.

Lemma results_seen U S S' h h' size : units_ok U -> Forall2 (record_in U S S') h h' ->
  (forall s s', In s h -> In s' h' -> length (st_u S' s') = length (st_u S s)) -> results_in U (results_of S h size) (results_of S' h' size).
Proof.
  intros (HL & HM) F LU t.
  assert (LF : Forall2 (fun s s' => length (st_u S' s') = length (st_u S s)) h h').
  { clear -F LU. induction F as [|s s' h h' X F IH]; constructor; [apply LU; left; reflexivity|]. apply IH. intros a b A B. apply LU; right; assumption. }
  assert (HF : 0 < un_mod U * un_len U * un_len U) by (apply Qmult_lt_0_compat; [apply Qmult_lt_0_compat|]; assumption).
  assert (FM : forall (P : list num -> list num -> Prop) (f : state -> list num) f', (forall s s', record_in U S S' s s' -> P (f s) (f' s')) -> Forall2 P (map f h) (map f' h')).
  { intros P f f' H. clear -F H. induction F; cbn [map]; constructor; auto. }
  assert (FU : forall (P : list num -> list num -> Prop), (forall s s', record_in U S S' s s' -> P (st_u S s) (st_u S' s')) ->
     Forall2 (fun v v' => length v' = length v /\ P v v') (map (st_u S) h) (map (st_u S') h')).
  { intros P H. clear -F LF H. induction F; inversion LF; subst; cbn [map]; constructor; auto. }
  unfold results_of. cbn [r_u r_f r_F r_H r_Z r_rl r_mask]. repeat split.
  - intros i. apply i_comp; [exact HL|]. apply FU. intros s s' R. apply R.
  - intros i. apply i_comp; [reflexivity|]. apply FU. intros s s' R. apply R.
  - apply i_vec; [exact HF|]. apply FM. intros s s' R. apply R.
  - apply i_vec; [exact HL|]. apply FM. intros s s' R. apply R.
  - apply i_new; [exact HL|]. clear -F. induction F as [|s s' h h' R F IH]; cbn [map]; constructor; [apply R|exact IH].
  - apply i_new; [reflexivity|]. clear -F. induction F as [|s s' h h' R F IH]; cbn [map]; constructor; [apply R|exact IH].
  - assert (E : map (fun s => mask_num (st_mask s)) h' = map (fun s => mask_num (st_mask s)) h).
    { clear -F. induction F as [|s s' h h' R F IH]; cbn [map]; [reflexivity|]. destruct R as (_ & _ & _ & _ & _ & _ & ->). rewrite IH. reflexivity. }
    rewrite E. reflexivity.
Qed.
