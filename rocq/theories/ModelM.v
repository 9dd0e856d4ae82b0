(** Model of src/fibermat/model.py: stiffness and constraint. *)
From Coq Require Import String.
From Verif Require Import Num ListX Frames MatM NetM MeshM.
Open Scope Q_scope.

(** sparse matrix in coordinate form over IEEE values: (row, column, value);
    entries at the same place are summed (model.py 174, 282) *)
Definition ncoo : Type := list (nat * nat * num).

(** value stored at a place once duplicates are summed (model.py 174, 282) *)
Definition entry (P : ncoo) (r c : nat) : num :=
  nsum (map snd (filter (fun e => Nat.eqb (fst (fst e)) r && Nat.eqb (snd (fst e)) c) P)).

(** [mesh.s.loc[j]] and the like (model.py 134, 267-270): labels are positions in a checked mesh *)
Definition node0 : node := mkNode 0 0 0 0 0 0 0.
(** row of a node label (model.py 134) *)
Definition node_at (ds : list node) (i : Z) : node := nth (Z.to_nat i) ds node0.

(** [np.min], [np.max] of a non-empty array (model.py 136-139) *)
Definition qmin_list (x : Q) (l : list Q) : Q := fold_right Qmin x l.
(** see above (model.py 136-139, 271) *)
Definition qmax_list (x : Q) (l : list Q) : Q := fold_right Qmax x l.

(** [interp1d([a, b], [lo, hi])(x)] on a <= x <= b (model.py 139): one
    dimensional linear data goes through [np.interp], which returns the last
    ordinate at the last abscissa. *)
Definition interp2 (a b lo hi x : Q) : Q :=
  if Qleb b x then hi else (hi - lo) / (b - a) * (x - a) + lo.

(** one beam element: its two nodes, its fiber, its length (model.py 127-134) *)
Record elem : Type := mkElem { ei : nat; ej : nat; ef : qfiber; el : Q }.

(** elements: rows with index < beam (model.py 127-134) *)
Definition elements (m : qmat) (rs : list (Z * node)) : list elem :=
  let ds := map snd rs in
  map (fun r => mkElem (Z.to_nat (fst r)) (Z.to_nat (nbeam (snd r)))
                       (nth (Z.to_nat (nf (snd r))) (q_rows m) fiber0)
                       (ns (node_at ds (nbeam (snd r))) - ns (node_at ds (fst r))))
      (filter (fun r => Z.ltb (fst r) (nbeam (snd r))) rs).

(** rescaling of the beam lengths (model.py 135-139) *)
Definition rescale (lmin lmax : option Q) (ls : list Q) : res (list Q) :=
  match ls with
  | [] => Exn ValueErr   (* np.min of an empty array *)
  | l0 :: t =>
    let mn := qmin_list l0 t in
    let mx := qmax_list l0 t in
    let lo := match lmin with Some v => v | None => mn end in
    let hi := match lmax with Some v => v | None => mx end in
    Ok (map (interp2 (Qmin mn lo) (Qmax mx hi) lo hi) ls)
  end.

(** element coefficient k0 (model.py 142-143) *)
Definition k0_of (f : qfiber) (l : Q) : num :=
  ndiv (ndiv (nmul (Fin (np_pi / 4)) (nmul (nmul (qG f) (Fin (qb f))) (Fin (qh f)))) (Fin l))
       (nadd (Fin 1) (nmul (ndiv (qG f) (qE f))
                           (nmul (ndiv (Fin l) (Fin (qh f))) (ndiv (Fin l) (Fin (qh f)))))).
(** model.py 144-145 *)
Definition k1_of (coupling : Q) (f : qfiber) (l : Q) : num :=
  nmul (ndiv (nmul (k0_of f l) (Fin l)) (Fin 2)) (Fin coupling).
(** model.py 146-147 *)
Definition k2_of (f : qfiber) (l : Q) : num :=
  nadd (ndiv (nmul (k0_of f l) (Fin (l * l))) (Fin 3))
       (nmul (nmul (k0_of f l) (ndiv (qE f) (qG f))) (Fin (qh f * qh f))).
(** model.py 148 *)
Definition k3_of (f : qfiber) (l : Q) : num :=
  ndiv (nmul (k0_of f l) (Fin (l * l))) (Fin 2).
(** model.py 149 *)
Definition k4_of (f : qfiber) (l : Q) : num := nsub (k2_of f l) (k3_of f l).

(** the sixteen entries of one element, as (row, column, value) of the 4x4
    block on the degrees of freedom (2i, 2i+1, 2j, 2j+1) (model.py 153-171) *)
Definition block (coupling : Q) (i j : nat) (f : qfiber) (l : Q) : ncoo :=
  let k0 := k0_of f l in
  let k1 := k1_of coupling f l in
  let k2 := k2_of f l in
  let k4 := k4_of f l in
  let a := (2 * i)%nat in let b := (2 * i + 1)%nat in
  let c := (2 * j)%nat in let d := (2 * j + 1)%nat in
  [ (a, a, k0); (a, b, k1); (a, c, nopp k0); (a, d, k1);
    (b, a, k1); (b, b, k2); (b, c, nopp k1); (b, d, nopp k4);
    (c, a, nopp k0); (c, b, nopp k1); (c, c, k0); (c, d, nopp k1);
    (d, a, k1); (d, b, nopp k4); (d, c, nopp k1); (d, d, k2) ].

(** all fibers of the mesh exist in the mat ([mat.loc[fiber]], model.py 133, 266) *)
Definition fibers_known (m : qmat) (ds : list node) : bool :=
  forallb (fun d => in_range (Z.of_nat (length (q_rows m))) (nf d)) ds.

(** the matrix K of [stiffness] (model.py 12-183).  The vectors u, F, du, dF
    (178-181) are zero vectors of length 2 * len(mesh).  The entries are listed
    element by element instead of place by place. *)
Definition stiffness (m : qmat) (g : mesh_df) (lmin lmax : option Q) (coupling : Q) : res ncoo :=
  do _ <- mat_check (df_of m);
  do _ <- mesh_check g;
  let rs := g_rows g in
  let els := elements m rs in
  if negb (fibers_known m (map snd (filter (fun r => Z.ltb (fst r) (nbeam (snd r))) rs)))
  then Exn KeyErr else
  do ls <- rescale lmin lmax (map el els);
  Ok (flat_map (fun e => block coupling (ei (fst e)) (ej (fst e)) (ef (fst e)) (snd e))
               (combine els ls)).

(** pairs of nodes with index <= constraint (model.py 258-260) *)
Definition cons_pairs (rs : list (Z * node)) : list (nat * nat) :=
  map (fun r => (Z.to_nat (fst r), Z.to_nat (ncons (snd r))))
      (filter (fun r => Z.leb (fst r) (ncons (snd r))) rs).

(** [mesh["h"] = mat.h.loc[mesh.fiber].values] (model.py 266) *)
Definition h_column (m : qmat) (ds : list node) : list Q :=
  map (fun d => qh (nth (Z.to_nat (nf d)) (q_rows m) fiber0)) ds.

(** result of [constraint]: C, H, dH, the upper boundary Z used for H, and the
    updated mesh (model.py 257-300); f and df are zero vectors. *)
Record csys : Type := mkCsys {
  csC : ncoo; csH : list num; csdH : list num; csZ : Q; csmesh : mesh_df
}.

(** C, block by block as in (model.py 277-283) *)
Definition c_matrix (ps : list (nat * nat)) : ncoo :=
  let k := combine (seq 0 (length ps)) ps in
  map (fun e => ((3 * fst e)%nat, (2 * fst (snd e))%nat, Fin (- (1)))) k
  ++ map (fun e => ((3 * fst e + 1)%nat, (2 * fst (snd e))%nat, Fin 1)) k
  ++ map (fun e => ((3 * fst e + 1)%nat, (2 * snd (snd e))%nat, Fin (- (1)))) k
  ++ map (fun e => ((3 * fst e + 2)%nat, (2 * snd (snd e))%nat, Fin 1)) k.

(** the three bounds of one pair (model.py 290-298) *)
Definition h_rows (ds : list node) (h : list Q) (Z : Q) (p : nat * nat) : list num :=
  let zi := nz (nth (fst p) ds node0) in
  let zj := nz (nth (snd p) ds node0) in
  let hi := nth (fst p) h 0 in
  let hj := nth (snd p) h 0 in
  [ Fin (zi - half * hi);
    (if Nat.eqb (fst p) (snd p) then PInf else Fin (zj - zi - half * (hi + hj)));
    Fin (Z - zj - half * hj) ].

(** tops of the nodes, z + h/2 (model.py 271, solver.py 129) *)
Definition tops (ds : list node) (h : list Q) : list Q :=
  map (fun p => nz (fst p) + half * snd p) (combine ds h).

(** column names after [mesh["h"] = ...] (model.py 266) *)
Definition add_col (c : string) (cols : list string) : list string :=
  if existsb (String.eqb c) cols then cols else cols ++ [c].

(** [constraint] (model.py 186-300); an empty mesh makes [.max()] raise
    ValueError (271). *)
Definition constraint (m : qmat) (g : mesh_df) : res csys :=
  do _ <- mat_check (df_of m);
  do _ <- mesh_check g;
  let rs := g_rows g in
  let ds := map snd rs in
  if negb (fibers_known m ds) then Exn KeyErr else
  let h := h_column m ds in
  match tops ds h with
  | [] => Exn ValueErr
  | t0 :: t =>
    let Z := qmax_list t0 t in
    let ps := cons_pairs rs in
    Ok (mkCsys (c_matrix ps)
               (flat_map (h_rows ds h Z) ps)
               (flat_map (fun _ => [Fin 0; Fin 0; Fin 1]) ps)
               Z
               (mkMeshDf (add_col "h" (g_cols g)) rs (g_attrs g) (g_intf g) (g_intl g) (Some h)))
  end.
