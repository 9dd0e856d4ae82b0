(** An exact linear solver used to run the model on examples.  It stands for the default value
    [scipy.sparse.linalg.spsolve] of the argument [solve] (/repo/src/fibermat/solver.py 14, 147): the
    theorems hold for the solvers their hypotheses describe, not for this one only. *)
From Verif Require Import Num ListX Frames MatM NetM MeshM ModelM SolverM SpecSolver.
Open Scope Q_scope.

(** row reduction: [done] rows are solved for the unknowns seen so far, [todo] rows remain; a row is
    its coefficients from the current unknown on, ended by the right-hand side (solver.py 147) *)
Definition row_sub (r p : list Q) (c : Q) : list Q := map (fun xy => Qred (fst xy - c * snd xy)) (combine r p).
(** removes the first row whose leading coefficient is not zero (solver.py 147) *)
Fixpoint pivot (l : list (list Q)) : option (list Q * list (list Q)) :=
  match l with
  | [] => None
  | r :: t => if Qeqb (hd 0 r) 0
              then match pivot t with Some (p, o) => Some (p, r :: o) | None => None end
              else Some (r, t)
  end.
(** Gauss-Jordan elimination (solver.py 147) *)
Fixpoint gauss_jordan (k : nat) (done todo : list (list Q)) : option (list Q) :=
  match k with
  | O => Some (map (fun r => hd 0 r) done)
  | S k' =>
    match pivot todo with
    | None => None
    | Some (p, rest) =>
      let a := hd 0 p in
      let p' := map (fun x => Qred (x / a)) (tl p) in
      let red r := row_sub (tl r) p' (hd 0 r) in
      gauss_jordan k' (map red done ++ [p']) (map red rest)
    end
  end.
(** row [r] of a sparse matrix (solver.py 147) *)
Definition sparse_row (A : ncoo) (r : nat) : ncoo := filter (fun e => Nat.eqb (fst (fst e)) r) A.
(** dense rows of a finite system (solver.py 147) *)
Definition dense_rows (A : ncoo) (b : list num) : list (list Q) :=
  map (fun r => let R := sparse_row A r in map (fun c => Qred (qof (entry R r c))) (seq 0 (length b)) ++ [Qred (qof (nth r b (Fin 0)))]) (seq 0 (length b)).
(** exact answer, or NaN everywhere for a singular or non finite system, as spsolve (solver.py 147) *)
Definition gauss (A : ncoo) (b : list num) : list num :=
  if forallb (fun e => is_fin (snd e)) A then
    match gauss_jordan (length b) [] (dense_rows A b) with
    | Some x => map (fun i => Fin (nth i x 0)) (seq 0 (length b))
    | None => repeat NaN (length b)
    end
  else repeat NaN (length b).

Lemma row_entry A r c : entry (sparse_row A r) r c = entry A r c.
Proof.
  unfold entry, sparse_row. f_equal. f_equal. induction A as [|[[i j] v] A IH]; [reflexivity|]. cbn [filter fst snd].
  destruct (Nat.eqb i r) eqn:E; cbn [filter fst snd andb]; [rewrite E; cbn [andb]; rewrite IH; reflexivity|exact IH].
Qed.
Lemma dense_rows_eq A b : dense_rows A b =
  map (fun r => map (fun c => Qred (qof (entry A r c))) (seq 0 (length b)) ++ [Qred (qof (nth r b (Fin 0)))]) (seq 0 (length b)).
Proof. unfold dense_rows. apply map_ext. intros r. cbv zeta. f_equal. apply map_ext. intros c. rewrite row_entry. reflexivity. Qed.

Lemma gauss_length : right_length gauss.
Proof.
  intros A b. unfold gauss. destruct (forallb _ A); [|apply repeat_length].
  destruct (gauss_jordan _ _ _); [rewrite map_length; apply seq_length|apply repeat_length].
Qed.
Lemma gauss_finite : finite_or_nan gauss.
Proof.
  intros A b. unfold gauss. destruct (forallb _ A); [|right; intros v Hv; apply (repeat_spec _ _ _ Hv)].
  destruct (gauss_jordan _ _ _); [|right; intros v Hv; apply (repeat_spec _ _ _ Hv)].
  left. intros v Hv. apply in_map_iff in Hv. destruct Hv as (i & <- & _). eauto.
Qed.
