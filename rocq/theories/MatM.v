(** Model of src/fibermat/mat.py. *)
From Coq Require Import String.
From Verif Require Import Num ListX Frames.
Open Scope Q_scope.

(** One row of a mat: columns l b h x y z u v w G E (mat.py 222-225). *)
Record fiber : Type := mkFiber {
  fl : num; fb : num; fh : num;
  fx : num; fy : num; fz : num;
  fu : num; fv : num; fw : num;
  fG : num; fE : num
}.

(** A DataFrame seen by [Mat.check]: column names, labelled rows, attributes
    (mat.py 124-154).  Entries of the eleven columns are floats. *)
Record mat_df : Type := mkMatDf {
  m_cols : list string;
  m_rows : list (Z * fiber);
  m_attrs : attrs
}.
(** [mat.index] (mat.py 315) *)
Definition m_index (m : mat_df) : list Z := map fst (m_rows m).

(** [[*"lbhxyzuvwGE"]] (mat.py 224, 300) *)
Definition mat_columns : list string :=
  ["l"; "b"; "h"; "x"; "y"; "z"; "u"; "v"; "w"; "G"; "E"]%string.

(** [np.all(mat[[*"lbh"]] > 0)] (mat.py 323), one row *)
Definition dims_pos (f : fiber) : bool :=
  nltb (Fin 0) (fl f) && nltb (Fin 0) (fb f) && nltb (Fin 0) (fh f).

(** [(-0.5 * size <= xy) & (xy <= 0.5 * size)] (mat.py 325-326), one row *)
Definition in_box (size : num) (f : fiber) : bool :=
  let lo := nmul (Fin (-1 # 2)) size in
  let hi := nmul (Fin (1 # 2)) size in
  nleb lo (fx f) && nleb (fx f) hi && (nleb lo (fy f) && nleb (fy f) hi).

(** default tolerance of [np.allclose(norm, 1)]: atol + rtol * 1 (mat.py 332) *)
Definition close_tol : Q := (1 # 100000000) + (1 # 100000).

(** [np.allclose(np.linalg.norm(uvw, axis=1), 1)] (mat.py 332), one row;
    |norm - 1| <= tol is compared on squares. *)
Definition unit_norm (f : fiber) : bool :=
  match nadd (nmul (fu f) (fu f)) (nadd (nmul (fv f) (fv f)) (nmul (fw f) (fw f))) with
  | Fin s => Qleb (sq (1 - close_tol)) s && Qleb s (sq (1 + close_tol))
  | _ => false
  end.

(** [np.all(mat[[*"GE"]] > 0)] (mat.py 334), one row *)
Definition moduli_pos (f : fiber) : bool :=
  nltb (Fin 0) (fG f) && nltb (Fin 0) (fE f).

(** [Mat.check] (mat.py 254-338); the [self is None] shortcut (287-290)
    checks the empty mat: see DefaultsM. *)
Definition mat_check (m : mat_df) : res bool :=
  if skipped (m_attrs m) then Ok true else
  raise_if (negb (has_cols mat_columns (m_cols m))) KeyErr (
  match at_n (m_attrs m) with
  | None => Exn AttrErr
  | Some n =>
  match at_size (m_attrs m) with
  | None => Exn AttrErr
  | Some size =>
  let len := length (m_rows m) in
  let u := uniqueZ (m_index m) in
  let fs := map snd (m_rows m) in
  raise_if (negb (Z.eqb (Z.of_nat len) n)) ValueErr (
  raise_if (negb (Nat.eqb (length u) len) || negb (eqlZ u (arange len))) IndexErr (
  raise_if (negb (eqlZ (m_index m) (arange len))) IndexErr (
  raise_if (negb (forallb dims_pos fs)) ValueErr (
  raise_if (negb (forallb (in_box size) fs)) ValueErr (
  raise_if (negb (forallb unit_norm fs)) ValueErr (
  raise_if (negb (forallb moduli_pos fs)) ValueErr (
  Ok true)))))))
  end
  end).

(** The global numpy generator (mat.py 199, 206-212): seeding with an integer
    forgets the past; each draw of [uniform(-0.5, 0.5)] updates the state. *)
Record rng : Type := mkRng {
  rng_state : Type;
  rng_seed : Z -> rng_state;
  rng_draw : rng_state -> Q * rng_state
}.

Section Init.
  Variable R : rng.
  Variables cos sin : Q -> Q.

  (** [np.random.uniform(-0.5, 0.5, n)] (mat.py 206-212) *)
  Fixpoint draws (n : nat) (s : rng_state R) : list Q * rng_state R :=
    match n with
    | O => ([], s)
    | S n' =>
      let '(x, s1) := rng_draw R s in
      let '(t, s2) := draws n' s1 in
      (x :: t, s2)
    end.

  (** Keyword parameters of [Mat.init] (mat.py 159-160).  Dimensions and
      angles are finite; the moduli may be infinite. *)
  Record mat_params : Type := mkParams {
    p_n : Z; p_length : Q; p_width : Q; p_thickness : Q; p_size : Q;
    p_theta : Q; p_psi : Q; p_shear : num; p_tensile : num; p_seed : option Z
  }.

  (** one row of [np.c_[l, b, h, x, y, z, u, v, w, G, E]] (mat.py 201-225) *)
  Definition make_fiber (p : mat_params) (x y z a q : Q) : fiber :=
    mkFiber (Fin (p_length p)) (Fin (p_width p)) (Fin (p_thickness p))
            (Fin x) (Fin y) (Fin z)
            (Fin (cos a * cos q)) (Fin (sin a * cos q)) (Fin (sin q))
            (p_shear p) (p_tensile p).

  (** zip of the five coordinate columns into rows (mat.py 222-225) *)
  Fixpoint make_rows (p : mat_params) (xs ys zs ps qs : list Q) : list fiber :=
    match xs, ys, zs, ps, qs with
    | x :: xs', y :: ys', z :: zs', a :: ps', q :: qs' =>
      make_fiber p x y z a q :: make_rows p xs' ys' zs' ps' qs'
    | _, _, _, _, _ => []
    end.

  (** [np.random.seed(seed)] (mat.py 199): integers must fit in 32 bits;
      [seed=None] takes a state [ent] from the operating system. *)
  Definition reseed (seed : option Z) (ent : rng_state R) : res (rng_state R) :=
    match seed with
    | None => Ok ent
    | Some k => if (0 <=? k)%Z && (k <? 4294967296)%Z then Ok (rng_seed R k) else Exn ValueErr
    end.

  (** [Mat.init] (mat.py 158-232).  Takes the prior state of the global
      generator (and the entropy used for [seed=None]); returns the table and
      the new state.  A negative n makes [np.full] raise ValueError. *)
  Definition mat_init (p : mat_params) (ent prior : rng_state R)
    : res (mat_df * rng_state R) :=
    do s0 <- reseed (p_seed p) ent;
    if (p_n p <? 0)%Z then Exn ValueErr else
    let n := Z.to_nat (p_n p) in
    let scale c l := map (fun d => d * c) l in
    let '(dx, s1) := draws n s0 in
    let '(dy, s2) := draws n s1 in
    let '(dz, s3) := draws n s2 in
    let '(dp, s4) := draws n s3 in
    let '(dq, s5) := draws n s4 in
    let x := scale (p_size p) dx in
    let y := scale (p_size p) dy in
    let z := isort Qleb (scale (p_size p) dz) in
    let a := scale (p_theta p) dp in
    let q := scale (p_psi p) dq in
    Ok (mkMatDf mat_columns (enum (make_rows p x y z a q))
          (mkAttrs (Some (p_n p)) (Some (Fin (p_size p))) None None), s5).

  (** [Mat(...)] from parameters (mat.py 149-154): build, wrap, check. *)
  Definition mat_new (p : mat_params) (ent prior : rng_state R)
    : res (mat_df * rng_state R) :=
    do ms <- mat_init p ent prior;
    do _ <- mat_check (fst ms);
    Ok ms.
End Init.
