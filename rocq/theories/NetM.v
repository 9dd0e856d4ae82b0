(** Model of class Net in src/fibermat/net.py. *)
From Coq Require Import String.
From Verif Require Import Num ListX Frames MatM.
Open Scope Q_scope.

(** A fiber whose geometry is finite (mat.py 222-225; the moduli are not used here).  Tables
    with infinite or NaN geometry are only modelled for [Mat.check]. *)
Record qfiber : Type := mkQ {
  ql : Q; qb : Q; qh : Q;
  qx : Q; qy : Q; qz : Q;
  qu : Q; qv : Q; qw : Q;
  qG : num; qE : num
}.

(** A mat with finite geometry and box size; labels are positions and
    attrs["n"] is the number of rows, as [Mat.check] requires (mat.py 311-320). *)
Record qmat : Type := mkQmat { q_rows : list qfiber; q_size : Q }.

(** the same fiber as a row of a raw table (mat.py 222-225) *)
Definition fiber_of (f : qfiber) : fiber :=
  mkFiber (Fin (ql f)) (Fin (qb f)) (Fin (qh f)) (Fin (qx f)) (Fin (qy f)) (Fin (qz f))
          (Fin (qu f)) (Fin (qv f)) (Fin (qw f)) (qG f) (qE f).

(** the DataFrame that a [qmat] stands for (mat.py 222-229) *)
Definition df_of (m : qmat) : mat_df :=
  mkMatDf mat_columns (enum (map fiber_of (q_rows m)))
    (mkAttrs (Some (Z.of_nat (length (q_rows m)))) (Some (Fin (q_size m))) None None).

(** placeholder fiber for total lookups, never reached on in-range labels (no counterpart in the code) *)
Definition fiber0 : qfiber := mkQ 0 0 0 0 0 0 0 0 0 (Fin 0) (Fin 0).

(** One row of a net: A B sA sB xA yA zA xB yB zB (net.py 258-263). *)
Record conn : Type := mkConn {
  cA : Z; cB : Z; csA : Q; csB : Q;
  cxA : Q; cyA : Q; czA : Q;
  cxB : Q; cyB : Q; czB : Q
}.

(** A DataFrame seen by [Net.check] (net.py 128-140).  [n_int]: columns A, B
    have an integer dtype.  Abscissae and coordinates are finite. *)
Record net_df : Type := mkNetDf {
  n_cols : list string;
  n_rows : list (Z * conn);
  n_attrs : attrs;
  n_int : bool
}.
(** [net.index] (net.py 356) *)
Definition n_index (t : net_df) : list Z := map fst (n_rows t).

(** columns of a net (net.py 262, 343) *)
Definition net_columns : list string :=
  ["A"; "B"; "sA"; "sB"; "xA"; "yA"; "zA"; "xB"; "yB"; "zB"]%string.

(** equality on columns A, B, sA, sB used by [drop_duplicates] (net.py 371-373) *)
Definition conn_dup (c d : conn) : bool :=
  Z.eqb (cA c) (cA d) && Z.eqb (cB c) (cB d)
  && Qeqb (csA c) (csA d) && Qeqb (csB c) (csB d).

(** [Net.check] (net.py 296-379) *)
Definition net_check (t : net_df) : res bool :=
  if skipped (n_attrs t) then Ok true else
  raise_if (negb (has_cols net_columns (n_cols t))) KeyErr (
  match at_n (n_attrs t) with
  | None => Exn AttrErr
  | Some n =>
  raise_if (negb (is_some (at_size (n_attrs t)))) AttrErr (
  raise_if (negb (is_some (at_periodic (n_attrs t)))) AttrErr (
  let rs := map snd (n_rows t) in
  do u <- unique_test (n_index t);
  raise_if (negb u) IndexErr (
  raise_if (negb (eqlZ (n_index t) (arange (length rs)))) IndexErr (
  raise_if (negb (n_int t)) TypeErr (
  raise_if (negb (forallb (fun c => (0 <=? cA c)%Z && (0 <=? cB c)%Z
                                    && (cA c <? n)%Z && (cB c <? n)%Z) rs)) ValueErr (
  raise_if (negb (Nat.eqb (length rs) (length (dedup conn_dup rs)))) ValueErr (
  raise_if (negb (forallb (fun c => (cA c <=? cB c)%Z) rs)) ValueErr (
  Ok true))))))))
  end).

(** ** Net.init *)

(** [mat.l.max()] (net.py 179); the value for an empty mat is irrelevant *)
Definition lmax_of (rows : list qfiber) : Q :=
  fold_right (fun f m => Qmax (ql f) m) 0 rows.

(** a periodic copy (net.py 186-197) *)
Definition shift (dx dy : Q) (f : qfiber) : qfiber :=
  mkQ (ql f) (qb f) (qh f) (qx f + dx) (qy f + dy) (qz f)
      (qu f) (qv f) (qw f) (qG f) (qE f).

(** rows with their labels (mat.index; net.py 233) *)
Definition labelled (rows : list qfiber) : list (nat * qfiber) :=
  combine (seq 0 (length rows)) rows.

(** the duplicated mat [mat_] (net.py 175-201) *)
Definition images (periodic : bool) (m : qmat) : list (nat * qfiber) :=
  let base := labelled (q_rows m) in
  if periodic then
    let s := q_size m in
    let l := lmax_of (q_rows m) in
    let x1 := (- half) * s in let x2 := half * s in
    let y1 := (- half) * s in let y2 := half * s in
    let cp (mask : qfiber -> bool) dx dy :=
      map (fun p => (fst p, shift dx dy (snd p))) (filter (fun p => mask (snd p)) base) in
    base
    ++ cp (fun f => Qltb (qx f) (x1 + l)) s 0
    ++ cp (fun f => Qltb (qy f) (y1 + l)) 0 s
    ++ cp (fun f => Qltb (x2 - l) (qx f) && Qltb (y2 - l) (qy f)) (- s) (- s)
  else base.

(** neighbourhood test [distances < diameters] (net.py 207-214), on squares *)
Definition near (f g : qfiber) : bool :=
  let d := half * (ql f + ql g) in
  Qltb 0 d && Qltb (sq (qx f - qx g) + sq (qy f - qy g)) (sq d).

(** scalar product of two rows of U (net.py 225-226) *)
Definition dot (a b c a' b' c' : Q) : Q := a * a' + b * b' + c * c'.

(** normal equations of the two axes (net.py 216-230): abscissae of the
    nearest points, or half lengths when the determinant vanishes; then
    [abscissa = R * [[1], [-1]]] (net.py 234). *)
Definition abscissae (f g : qfiber) : Q * Q :=
  let uu := dot (qu f) (qv f) (qw f) (qu f) (qv f) (qw f) in
  let uv := dot (qu f) (qv f) (qw f) (qu g) (qv g) (qw g) in
  let vv := dot (qu g) (qv g) (qw g) (qu g) (qv g) (qw g) in
  let rx := qx g - qx f in let ry := qy g - qy f in let rz := qz g - qz f in
  let ur := dot (qu f) (qv f) (qw f) rx ry rz in
  let vr := dot (qu g) (qv g) (qw g) rx ry rz in
  let det := uu * vv - uv * uv in
  if Qeqb det 0 then (half * ql f, - (half * ql g))
  else ((ur * vv - uv * vr) / det, - ((uu * vr - uv * ur) / det)).

(** a candidate connection: labels and abscissae (net.py 233-234) *)
Record cand : Type := mkCand { kA : nat; kB : nat; ksA : Q; ksB : Q }.

(** a candidate from two labelled fibers of [mat_] (net.py 233-234) *)
Definition cand_of (p q : nat * qfiber) : cand :=
  let '(a, b) := abscissae (snd p) (snd q) in mkCand (fst p) (fst q) a b.

(** fiber of [mat_] at position = label (net.py 238, 254-255) *)
Definition by_label (im : list (nat * qfiber)) (i : nat) : qfiber :=
  nth i (map snd im) fiber0.

(** finite-line filter (net.py 237-240) *)
Definition keep (im : list (nat * qfiber)) (c : cand) : bool :=
  (Qltb (Qabs (ksA c)) (half * ql (by_label im (kA c)))
   && Qltb (Qabs (ksB c)) (half * ql (by_label im (kB c))))
  || Nat.eqb (kA c) (kB c).

(** [np.argsort(pairs, axis=1)] and [take_along_axis] (net.py 246-248) *)
Definition orient (c : cand) : cand :=
  if Nat.leb (kA c) (kB c) then c else mkCand (kB c) (kA c) (ksB c) (ksA c).

(** [sort_values(by=[0, 1])] (net.py 250) *)
Definition cand_leb (c d : cand) : bool :=
  Nat.ltb (kA c) (kA d) || (Nat.eqb (kA c) (kA d) && Nat.leb (kB c) (kB d)).
(** [drop_duplicates([0, 1])] (net.py 251) *)
Definition cand_dup (c d : cand) : bool :=
  Nat.eqb (kA c) (kA d) && Nat.eqb (kB c) (kB d).

(** coordinates of the two nodes (net.py 254-263) *)
Definition conn_of (im : list (nat * qfiber)) (c : cand) : conn :=
  let f := by_label im (kA c) in
  let g := by_label im (kB c) in
  mkConn (Z.of_nat (kA c)) (Z.of_nat (kB c)) (ksA c) (ksB c)
    (qx f + ksA c * qu f) (qy f + ksA c * qv f) (qz f + ksA c * qw f)
    (qx g + ksB c * qu g) (qy g + ksB c * qv g) (qz g + ksB c * qw g).

(** numpy position: negative positions count from the end ([values[pairs]], net.py 208-209) *)
Definition position (len : nat) (p : Z) : option nat :=
  if (0 <=? p)%Z && (p <? Z.of_nat len)%Z then Some (Z.to_nat p)
  else if (- Z.of_nat len <=? p)%Z && (p <? 0)%Z then Some (Z.to_nat (p + Z.of_nat len))
  else None.

(** a whole [pairs] array (net.py 208-209): IndexError if any entry is out of range *)
Fixpoint positions (len : nat) (ps : list (Z * Z)) : res (list (nat * nat)) :=
  match ps with
  | [] => Ok []
  | (p, q) :: t =>
    match position len p, position len q with
    | Some i, Some j => do r <- positions len t; Ok ((i, j) :: r)
    | _, _ => Exn IndexErr
    end
  end.

(** candidate pairs (net.py 203-205); a [pairs] argument holds positions in
    [mat_] and raises IndexError when out of range (net.py 208) *)
Definition pair_list (im : list (nat * qfiber)) (pairs : option (list (Z * Z)))
  : res (list (nat * nat)) :=
  match pairs with
  | None => Ok (triu (length im))
  | Some ps => positions (length im) ps
  end.

(** row of [mat_] at a position (net.py 208-219) *)
Definition nth_image (im : list (nat * qfiber)) (i : nat) : nat * qfiber :=
  nth i im (0%nat, fiber0).

(** from positions to the list of kept candidates (net.py 207-243) *)
Definition candidates (im : list (nat * qfiber)) (ps : list (nat * nat)) : list cand :=
  let prs := map (fun ij => (nth_image im (fst ij), nth_image im (snd ij))) ps in
  let nr := filter (fun pq => near (snd (fst pq)) (snd (snd pq))) prs in
  filter (keep im) (map (fun pq => cand_of (fst pq) (snd pq)) nr).

(** rows of the network (net.py 245-263) *)
Definition net_conns (im : list (nat * qfiber)) (ps : list (nat * nat)) : list conn :=
  map (conn_of im)
    (dedup cand_dup (isort cand_leb (map orient (candidates im ps)))).

(** [Net.init] (net.py 145-272) *)
Definition net_init (m : qmat) (periodic : bool) (pairs : option (list (Z * Z))) : res net_df :=
  do _ <- mat_check (df_of m);
  let im := images periodic m in
  do ps <- pair_list im pairs;
  Ok (mkNetDf net_columns (enum (net_conns im ps))
        (mkAttrs (at_n (m_attrs (df_of m))) (at_size (m_attrs (df_of m)))
                 (Some periodic) (at_skip (m_attrs (df_of m))))
        true).

(** [Net(mat, ...)] (net.py 135-140): build, wrap, check *)
Definition net_new (m : qmat) (periodic : bool) (pairs : option (list (Z * Z))) : res net_df :=
  do t <- net_init m periodic pairs;
  do _ <- net_check t;
  Ok t.
