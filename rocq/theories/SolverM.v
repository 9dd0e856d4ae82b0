(** Model of src/fibermat/solver.py. *)
From Verif Require Import Num ListX Frames MatM NetM MeshM ModelM.
Open Scope Q_scope.

(** row [r] of [P @ x] (solver.py 142, 155, 156); missing positions cannot occur *)
Definition matvec (P : ncoo) (x : list num) (r : nat) : num :=
  nsum (map (fun e => let '(i, c, v) := e in
                      if Nat.eqb i r then nmul v (nth c x NaN) else Fin 0) P).

(** [np.sum(np.abs(P), axis=0)] (solver.py 143): P is stored with duplicates
    summed (csc), so each stored place of the column counts once. *)
Definition colsum (P : ncoo) (c : nat) : num :=
  let rows := dedup Nat.eqb (map (fun e => fst (fst e)) (filter (fun e => Nat.eqb (snd (fst e)) c) P)) in
  nsum (map (fun r => nabs (entry P r c)) rows).

(** [P = bmat([[K, C.T], [C, None]])] (solver.py 111), K of size nu *)
Definition bmat (nu : nat) (K C : ncoo) : ncoo :=
  K
  ++ map (fun e => let '(r, c, v) := e in (c, (nu + r)%nat, v)) C
  ++ map (fun e => let '(r, c, v) := e in ((nu + r)%nat, c, v)) C.

(** [err > errtol] where err is the square root of [e2] (solver.py 153, 163) *)
Definition err_gt (e2 : num) (errtol : Q) : bool :=
  if Qltb errtol 0 then match e2 with NaN => false | _ => true end
  else nltb (Fin (sq errtol)) e2.

(** Python's [min] of a sequence: the first element unless a later one is
    strictly smaller (solver.py 160); [None]: ValueError on an empty sequence *)
Fixpoint min_from (m : num) (l : list num) : num :=
  match l with
  | [] => m
  | y :: t => min_from (if nltb y m then y else m) t
  end.
(** [min(l)] (solver.py 160) *)
Definition py_min (l : list num) : option num :=
  match l with [] => None | x :: t => Some (min_from x t) end.

(** positions of a value in a list (indexing by an index array, solver.py 146-150) *)
Definition places (r : nat) (l : list nat) : list nat :=
  map fst (filter (fun p => Nat.eqb (snd p) r) (combine (seq 0 (length l)) l)).

(** [P[np.ix_(ps, ps)]] (solver.py 148) *)
Definition submatrix (P : ncoo) (ps : list nat) : ncoo :=
  flat_map (fun e => let '(r, c, v) := e in
    flat_map (fun a => map (fun b => (a, b, v)) (places c ps)) (places r ps)) P.

(** [dx[ps] = sol] (solver.py 146): the last assignment to a position wins *)
Definition scatter (dx : list num) (ps : list nat) (sol : list num) : list num :=
  map (fun p => let '(r, old) := p in
         match rev (places r ps) with
         | a :: _ => nth a sol NaN
         | [] => old
         end) (combine (seq 0 (length dx)) dx).

(** the fixed data of a run (solver.py 107-118) *)
Record sysdata : Type := mkSys {
  sy_nu : nat;          (* K.shape[0] *)
  sy_P : ncoo;
  sy_dq : list num;
  sy_perm : list nat;
  sy_tol : Q;
  sy_errtol : Q;
  sy_packing : num;
  sy_Z0 : num
}.

(** loop variables and what is recorded (solver.py 112-132, 174-184);
    [st_err2] is the square of the recorded error. *)
Record state : Type := mkState {
  st_x : list num; st_q : list num; st_dx : list num;
  st_Z : num; st_rl : num; st_mask : list bool; st_err2 : num
}.
(** the recorded vector u (solver.py 120, 177) *)
Definition st_u (S : sysdata) (s : state) : list num := firstn (sy_nu S) (st_x s).
(** the recorded vector f (solver.py 120, 178) *)
Definition st_f (S : sysdata) (s : state) : list num := skipn (sy_nu S) (st_x s).
(** the recorded vector F (solver.py 121, 179) *)
Definition st_F (S : sysdata) (s : state) : list num := firstn (sy_nu S) (st_q s).
(** the recorded vector H (solver.py 121, 180) *)
Definition st_H (S : sysdata) (s : state) : list num := skipn (sy_nu S) (st_q s).

(** [q - P @ x] (solver.py 142, 155) *)
Definition gaps (P : ncoo) (x q : list num) : list num :=
  map (fun p => nsub (snd p) (matvec P x (fst p))) (combine (seq 0 (length q)) q).

Section Loop.
  (** the linear solver passed as [solve] (solver.py 147), an oracle *)
  Variable lsolve : ncoo -> list num -> list num.
  Variable S : sysdata.

  (** active rows (solver.py 142-143) *)
  Definition active (d : list num) : list bool :=
    map (fun p => nleb (snd p) (Fin (sy_tol S)) && nltb (Fin 0) (colsum (sy_P S) (fst p)))
        (combine (seq 0 (length d)) d).

  (** the increment dx (solver.py 140-151) *)
  Definition increment (s : state) (mask : list bool) : list num :=
    let ps := filter (fun r => nth r mask false) (sy_perm S) in
    scatter (map (fun v => nmul v (Fin 0)) (st_dx s)) ps
            (lsolve (submatrix (sy_P S) ps) (map (fun r => nth r (sy_dq S) NaN) ps)).

  (** squared error of the linear solve (solver.py 153) *)
  Definition error2 (mask : list bool) (dx : list num) : num :=
    let PM := filter (fun e => nth (fst (fst e)) mask false && nth (snd (fst e)) mask false) (sy_P S) in
    nsum (map (fun r => let e := nsub (matvec PM dx r) (nth r (sy_dq S) NaN) in nmul e e)
              (filter (fun r => nth r mask false) (seq 0 (length mask)))).

  (** the ratios d / v on the rows with d > tol and v > 0 (solver.py 160) *)
  Definition ratios (d v : list num) : list num :=
    map (fun p => ndiv (fst p) (snd p))
        (filter (fun p => nltb (Fin (sy_tol S)) (fst p) && nltb (Fin 0) (snd p)) (combine d v)).

  (** one pass of the loop body (solver.py 139-184); [None]: break *)
  Definition step (s : state) : option state :=
    let d := gaps (sy_P S) (st_x s) (st_q s) in
    let mask := active d in
    let dx := increment s mask in
    let e2 := error2 mask dx in
    let v := gaps (sy_P S) dx (sy_dq S) in
    match py_min (ratios d v) with
    | None => None
    | Some m =>
      if err_gt e2 (sy_errtol S) then None else
      let dU := nopp m in
      let move l dl := map (fun p => nadd (fst p) (nmul (snd p) dU)) (combine l dl) in
      let Z := nadd (st_Z s) dU in
      Some (mkState (move (st_x s) dx) (move (st_q s) (sy_dq S)) dx
                    Z (ndiv (sy_Z0 S) Z) mask e2)
    end.

  (** the while loop (solver.py 137-189): states recorded after [s] *)
  Fixpoint run (fuel : nat) (s : state) : list state :=
    match fuel with
    | O => []
    | Datatypes.S fuel' =>
      if nltb (st_rl s) (sy_packing S) then
        match step s with
        | None => []
        | Some s' => s' :: run fuel' s'
        end
      else []
    end.

  (** the full history (solver.py 125-189) *)
  Definition history (itermax : nat) (s0 : state) : list state := s0 :: run itermax s0.
End Loop.

(** initial state (solver.py 112-132) *)
Definition init_state (P : ncoo) (q : list num) (tol : Q) (Z0 : num) : state :=
  let x := map (fun _ => Fin 0) q in
  mkState x q x Z0 (Fin 1)
          (map (fun d => nleb d (Fin tol)) (gaps P x q)) (Fin 0).

(** keyword arguments of [solve] (solver.py 13-15) *)
Record solve_params : Type := mkSolve {
  sp_packing : num; sp_itermax : nat; sp_perm : option (list nat);
  sp_tol : Q; sp_errtol : Q; sp_lmin : option Q; sp_lmax : option Q; sp_coupling : Q
}.

(** assembly (solver.py 107-132): the fixed data and the initial state *)
Definition assemble (m : qmat) (g : mesh_df) (p : solve_params) : res (sysdata * state) :=
  do K <- stiffness m g (sp_lmin p) (sp_lmax p) (sp_coupling p);
  do cs <- constraint m g;
  let nu := (2 * length (g_rows g))%nat in
  let P := bmat nu K (csC cs) in
  let q := repeat (Fin 0) nu ++ csH cs in
  let dq := repeat (Fin 0) nu ++ csdH cs in
  let perm := match sp_perm p with Some l => l | None => seq 0 (length q) end in
  Ok (mkSys nu P dq perm (sp_tol p) (sp_errtol p) (sp_packing p) (Fin (csZ cs)),
      init_state P q (sp_tol p) (Fin (csZ cs))).

(** [solve] up to the interpolation of the results (solver.py 13-189) *)
Definition solve (lsolve : ncoo -> list num -> list num) (m : qmat) (g : mesh_df) (p : solve_params)
  : res (sysdata * list state) :=
  do ss <- assemble m g p;
  Ok (fst ss, history lsolve (fst ss) (sp_itermax p) (snd ss)).
