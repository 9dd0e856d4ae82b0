(** Model of class Stack in src/fibermat/net.py. *)
From Verif Require Import Num ListX Frames MatM NetM.
Open Scope Q_scope.

(** sparse matrix in coordinate form: (row, column, value) (net.py 767) *)
Definition coo : Type := list (nat * nat * Q).
(** row [k] of the product with a vector; repeated entries are summed
    (scipy's coo_matrix, net.py 767) *)
Definition coo_row (C : coo) (x : list Q) (k : nat) : Q :=
  qsum (map (fun e => let '(r, c, v) := e in if Nat.eqb r k then v * nth c x 0 else 0) C).

(** linear program data: C, f, H, h (net.py 776) *)
Record lp : Type := mkLp { lpC : coo; lpf : list Q; lpH : list Q; lph : list Q }.

(** pairs (A, B) of the rows with A < B (net.py 751-753) *)
Definition strict_pairs (t : net_df) : list (Z * Z) :=
  map (fun c => (cA c, cB c)) (filter (fun c => (cA c <? cB c)%Z) (map snd (n_rows t))).

(** [Stack.constraint] (net.py 708-776).  scipy rejects column indices out of
    the matrix with ValueError (net.py 767). *)
Definition stack_constraint (m : qmat) (t : net_df) : res lp :=
  do _ <- mat_check (df_of m);
  do _ <- net_check t;
  let len := length (q_rows m) in
  let ps := strict_pairs t in
  if negb (forallb (fun p => (0 <=? fst p)%Z && (fst p <? Z.of_nat len)%Z
                             && (0 <=? snd p)%Z && (snd p <? Z.of_nat len)%Z) ps)
  then Exn ValueErr else
  let ij := map (fun p => (Z.to_nat (fst p), Z.to_nat (snd p))) ps in
  let k := combine (seq 0 (length ij)) ij in
  let h := map qh (q_rows m) in
  Ok (mkLp
        (map (fun e => (fst e, fst (snd e), 1)) k ++ map (fun e => (fst e, snd (snd e), - (1))) k)
        (map (fun f => np_pi / 4 * (ql f * qb f * qh f)) (q_rows m))
        (map (fun p => 0 - half * (nth (fst p) h 0 + nth (snd p) h 0)) ij)
        h).

(** [mat.z = linsol.x] (net.py 573) *)
Definition with_z (f : qfiber) (z : Q) : qfiber :=
  mkQ (ql f) (qb f) (qh f) (qx f) (qy f) z (qu f) (qv f) (qw f) (qG f) (qE f).
(** the whole column (net.py 573) *)
Definition set_z (m : qmat) (z : list Q) : qmat :=
  mkQmat (map (fun p => with_z (fst p) (snd p)) (combine (q_rows m) z)) (q_size m).

(** threshold filter (net.py 576-585) *)
Definition kept (threshold : Q) (c : conn) : bool :=
  Qleb (Qabs (czB c - czA c)) threshold || Z.eqb (cA c) (cB c).

(** [net[mask > 0]] and [reset_index] (net.py 581-585) *)
Definition filter_net (threshold : option Q) (t : net_df) : net_df :=
  match threshold with
  | None => t
  | Some d => mkNetDf (n_cols t) (enum (filter (kept d) (map snd (n_rows t)))) (n_attrs t) (n_int t)
  end.

(** [force @ C] at column [i] for a vector [force] over the rows (net.py 800) *)
Definition coo_col (C : coo) (y : list Q) (i : nat) : Q :=
  qsum (map (fun e => let '(r, c, v) := e in if Nat.eqb c i then nth r y 0 * v else 0) C).
(** [np.abs(C)] (net.py 800); no two entries of C are at the same place *)
Definition coo_abs (C : coo) : coo := map (fun e => let '(r, c, v) := e in (r, c, Qabs v)) C.
(** [load = 0.5 * force @ np.abs(C) + 0.5 * force @ C] (net.py 798-800), one entry per column *)
Definition loads (p : lp) (force : list Q) : list Q :=
  map (fun i => half * coo_col (coo_abs (lpC p)) force i + half * coo_col (lpC p) force i) (seq 0 (length (lph p))).

Section Stack.
  (** the answer [linsol.x] of [scipy.optimize.linprog(f, C, H, bounds)]
      (net.py 701), an oracle *)
  Variable linprog : lp -> list Q.

  (** [Stack.solve] (net.py 655-705): [None] for an empty mat *)
  Definition stack_solve (m : qmat) (t : net_df) : res (option (list Q)) :=
    do p <- stack_constraint m t;
    match q_rows m with
    | [] => Ok None
    | _ => Ok (Some (linprog p))
    end.

  (** [Stack(mat, net, threshold=...)] (net.py 515-591): returns the stack and
      the mat, whose z column is modified in place. *)
  Definition stack_new (m : qmat) (t : net_df) (threshold : option Q)
    : res (net_df * qmat) :=
    do _ <- mat_check (df_of m);
    do _ <- net_check t;
    do sol <- stack_solve m t;
    match sol with
    | None => do _ <- net_check t; Ok (t, m)
    | Some z =>
      let m' := set_z m z in
      let p := match at_periodic (n_attrs t) with Some b => b | None => true end in
      do t' <- net_new m' p None;
      let t'' := filter_net threshold t' in
      do _ <- net_check t'';
      Ok (t'', m')
    end.
End Stack.
