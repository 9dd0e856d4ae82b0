(** Model of [plot_system] (src/fibermat/model.py 303-395): what is drawn, and the error that is printed. *)
From Verif Require Import Num ListX Frames MatM NetM MeshM ModelM SolverM.
Open Scope Q_scope.

(** [np.isclose(a, b)] with its default tolerances (model.py 357-363) *)
Definition isclose (a b : num) : bool :=
  match a, b with
  | Fin x, Fin y => Qleb (Qabs (x - y)) ((1 # 100000000) + (1 # 100000) * Qabs y)
  | PInf, PInf | NInf, NInf => true
  | _, _ => false
  end.

(** the five pictures, in the order of the legend (model.py 372-377) *)
Inductive colour : Type := Stiffness | Inner | Lower | Upper | Inactive.

(** [D @ A] and [A @ D] for the diagonal matrix D of a mask (model.py 356-364, 372-376); the zeros of D are not stored *)
Definition keep_rows (mask : list bool) (A : ncoo) : ncoo := filter (fun e => nth (fst (fst e)) mask false) A.
(** see above (model.py 356-364, 372-376) *)
Definition keep_cols (mask : list bool) (A : ncoo) : ncoo := filter (fun e => nth (snd (fst e)) mask false) A.

(** [ax.spy(A[np.ix_(perm, perm)])] (model.py 372-376): the places whose value is not zero ([abs(v) > 0], so not NaN) *)
Definition spy (A : ncoo) (perm : list nat) : list (nat * nat) :=
  filter (fun ab => nltb (Fin 0) (nabs (entry A (nth (fst ab) perm 0%nat) (nth (snd ab) perm 0%nat))))
         (list_prod (seq 0 (length perm)) (seq 0 (length perm))).

Section Plot.
  (** the linear solver passed as [solve] (model.py 384-389), an oracle *)
  Variable lsolve : ncoo -> list num -> list num.
  (** K.shape[0], C.shape[0], K, C (model.py 303) *)
  Variables nu nc : nat.
  Variables (K C : ncoo).

  (** [np.isclose(C @ u, H)] (model.py 357-363) *)
  Definition touching (u H : list num) : list bool :=
    map (fun k => isclose (matvec C u k) (nth k H NaN)) (seq 0 nc).
  (** mask0 (model.py 355) *)
  Definition mask_K : list bool := repeat true nu ++ repeat false nc.
  (** mask1, mask2, mask3 (model.py 357-362): touching rows of the place [j] in the triples *)
  Definition mask_C (j : nat) (u H : list num) : list bool :=
    repeat false nu ++ map (fun p => snd p && Nat.eqb (Nat.modulo (fst p) 3) j) (combine (seq 0 nc) (touching u H)).
  (** mask4 (model.py 363) *)
  Definition mask_off (u H : list num) : list bool := repeat false nu ++ map negb (touching u H).

  (** one of the matrices drawn (model.py 372-376) *)
  Definition drawn (u H : list num) (c : colour) : ncoo :=
    let P := bmat nu K C in
    let cross mask := keep_rows mask P ++ keep_cols mask P in
    match c with
    | Stiffness => keep_cols mask_K (keep_rows mask_K P)
    | Inner => cross (mask_C 1 u H)
    | Lower => cross (mask_C 0 u H)
    | Upper => cross (mask_C 2 u H)
    | Inactive => cross (mask_off u H)
    end.

  (** the masks need triples of rows (the [&] of model.py 357-361), and the vectors must fit; arrays of one element,
      which numpy would repeat, are not considered *)
  Definition shapes_fit (u F du dF f H df dH : list num) : bool :=
    Nat.eqb (Nat.modulo nc 3) 0 &&
    forallb (fun v => Nat.eqb (length v) nu) [u; F; du; dF] && forallb (fun v => Nat.eqb (length v) nc) [f; H; df; dH].

  (** [plot_system] (model.py 303-395): the pictures by colour and the square of the printed error (a Euclidean norm) *)
  Definition plot_system (u F du dF f H df dH : list num) (perm : option (list nat)) (tol : Q) : res ((colour -> list (nat * nat)) * num) :=
    if negb (shapes_fit u F du dF f H df dH) then Exn ValueErr else
    let P := bmat nu K C in
    let x := u ++ f in
    let q := F ++ H in
    let dx := du ++ df in
    let dq := dF ++ dH in
    let perm := match perm with Some l => l | None => seq 0 (nu + nc) end in
    let mask := map (fun p => nleb (snd p) (Fin tol) && nltb (Fin 0) (colsum P (fst p)))
                    (combine (seq 0 (length q)) (gaps P x q)) in                          (* model.py 380-381 *)
    let ps := filter (fun r => nth r mask false) perm in
    let sol := lsolve (submatrix P ps) (map (fun r => nth r dq NaN) ps) in
    let dx' := scatter dx ps sol in                                                       (* model.py 384-389 *)
    let PM := filter (fun e => nth (fst (fst e)) mask false && nth (snd (fst e)) mask false) P in
    let err2 := nsum (map (fun r => let e := nsub (matvec PM dx' r) (nth r dq NaN) in nmul e e)
                          (filter (fun r => nth r mask false) (seq 0 (length mask)))) in  (* model.py 392 *)
    Ok (fun c => spy (drawn u H c) perm, err2).
End Plot.
