(** Model of src/fibermat/mesh.py. *)
From Coq Require Import String.
From Verif Require Import Num ListX Frames MatM NetM.
Open Scope Q_scope.

(** One row of a mesh: fiber s x y z beam constraint (mesh.py 167-172). *)
Record node : Type := mkNode {
  nf : Z; ns : Q; nx : Q; ny : Q; nz : Q; nbeam : Z; ncons : Z
}.

(** A DataFrame seen by [Mesh.check] (mesh.py 118-130); [g_intf], [g_intl]:
    fiber labels, beam/constraint labels have an integer dtype.  Abscissae
    and coordinates are finite.  [g_h]: the column "h" that model.constraint
    adds (model.py 266), if present. *)
Record mesh_df : Type := mkMeshDf {
  g_cols : list string;
  g_rows : list (Z * node);
  g_attrs : attrs;
  g_intf : bool;
  g_intl : bool;
  g_h : option (list Q)
}.
(** [mesh.index] (mesh.py 280) *)
Definition g_index (g : mesh_df) : list Z := map fst (g_rows g).

(** columns of a mesh (mesh.py 267) *)
Definition mesh_columns : list string :=
  ["fiber"; "s"; "x"; "y"; "z"; "beam"; "constraint"]%string.

(** [sort_values(by=["fiber", "s"])] (mesh.py 183, 307) *)
Definition fs_leb (f f' : Z) (s s' : Q) : bool :=
  (f <? f')%Z || ((f =? f')%Z && Qleb s s').

(** a node before numbering: label, constraint label, data (mesh.py 162-181) *)
Record pnode : Type := mkP {
  plab : nat; pcons : nat; pf : Z; ps : Q; px : Q; py : Q; pz : Q
}.

(** the two nodes of row [k] (mesh.py 162-169, 181) *)
Definition two_nodes (k : nat) (c : conn) : list pnode :=
  [ mkP (2 * k) (2 * k + 1) (cA c) (csA c) (cxA c) (cyA c) (czA c);
    mkP (2 * k + 1) (2 * k) (cB c) (csB c) (cxB c) (cyB c) (czB c) ].

(** all nodes before sorting (mesh.py 161-172) *)
Definition raw_nodes (rs : list conn) : list pnode :=
  flat_map (fun kc => two_nodes (fst kc) (snd kc)) (combine (seq 0 (length rs)) rs).

(** nodes sorted along fibers (mesh.py 183) *)
Definition sorted_nodes (rs : list conn) : list pnode :=
  isort (fun p q => fs_leb (pf p) (pf q) (ps p) (ps q)) (raw_nodes rs).

(** the numbering part of [Mesh.init] (mesh.py 179-196) *)
Definition mesh_nodes (rs : list conn) : list (Z * node) :=
  let sn := sorted_nodes rs in
  let beam := groupcat pf (fun g => roll (map plab g)) sn in
  let indices := argsortZ (map (fun p => Z.of_nat (plab p)) sn) in
  let ind i := nth i indices 0%nat in
  let index' := map (fun p => ind (plab p)) sn in
  let beam' := map ind beam in
  let cons' := map (fun p => ind (pcons p)) sn in
  (* mesh.fiber.loc[label]: fiber of the first row with that label *)
  let fiber_loc c :=
    match find (fun ip => Nat.eqb (fst ip) c) (combine index' sn) with
    | Some ip => pf (snd ip)
    | None => (-1)%Z
    end in
  map (fun q =>
         let '(p, (i, (b, c))) := q in
         let c' := if Z.eqb (pf p) (fiber_loc c) then i else c in
         (Z.of_nat i, mkNode (pf p) (ps p) (px p) (py p) (pz p) (Z.of_nat b) (Z.of_nat c')))
      (combine sn (combine index' (combine beam' cons'))).

(** [Mesh.init] (mesh.py 134-199) *)
Definition mesh_init (t : net_df) : res mesh_df :=
  do _ <- net_check t;
  Ok (mkMeshDf mesh_columns (mesh_nodes (map snd (n_rows t))) (n_attrs t) true true None).

(** fiber labels of the groups, in order ([groupby], mesh.py 311, 316) *)
Definition fibers_of (rs : list (Z * node)) : list Z := uniqueZ (map (fun r => nf (snd r)) rs).
(** rows of one group (mesh.py 311, 316) *)
Definition group (rs : list (Z * node)) (f : Z) : list (Z * node) :=
  filter (fun r => Z.eqb (nf (snd r)) f) rs.

(** row with a given label ([mesh.loc], mesh.py 314-319) *)
Definition row_loc (rs : list (Z * node)) (i : Z) : option node :=
  match find (fun r => Z.eqb (fst r) i) rs with Some r => Some (snd r) | None => None end.

(** the end-node test for one label (mesh.py 316-321) *)
Definition self_cons (rs : list (Z * node)) (r : Z * node) : bool :=
  Z.eqb (ncons (snd r)) (fst r).

(** label in [0, hi) (mesh.py 294-304) *)
Definition in_range (hi : Z) (i : Z) : bool := (0 <=? i)%Z && (i <? hi)%Z.

(** [Mesh.check] (mesh.py 223-326) *)
Definition mesh_check (g : mesh_df) : res bool :=
  if skipped (g_attrs g) then Ok true else
  raise_if (negb (has_cols mesh_columns (g_cols g))) KeyErr (
  match at_n (g_attrs g) with
  | None => Exn AttrErr
  | Some n =>
  raise_if (negb (is_some (at_size (g_attrs g)))) AttrErr (
  raise_if (negb (is_some (at_periodic (g_attrs g)))) AttrErr (
  let rs := g_rows g in
  let len := length rs in
  let nodes := map snd rs in
  do u <- unique_test (g_index g);
  raise_if (negb u) IndexErr (
  raise_if (negb (eqlZ (g_index g) (arange len))) IndexErr (
  raise_if (negb (g_intf g)) TypeErr (
  raise_if (negb (g_intl g)) TypeErr (
  if Nat.eqb len 0 then Ok true else
  raise_if (negb (forallb (fun d => in_range n (nf d)) nodes)) ValueErr (
  raise_if (negb (forallb (fun d => in_range (Z.of_nat len) (nbeam d)) nodes)) ValueErr (
  raise_if (negb (forallb (fun d => in_range (Z.of_nat len) (ncons d)) nodes)) ValueErr (
  raise_if (negb (eqlZ (isort Z.leb (map nf nodes)) (map nf nodes))) ValueErr (
  raise_if (negb (eqlZ (map fst (isort (fun r r' => fs_leb (nf (snd r)) (nf (snd r'))
                                                          (ns (snd r)) (ns (snd r'))) rs))
                       (g_index g))) ValueErr (
  raise_if (negb (eqlZ (map nbeam nodes)
                       (groupcat (fun r => nf (snd r)) (fun l => roll (map fst l)) rs))) ValueErr (
  raise_if (negb (eqlZ (map (fun d => match row_loc rs (ncons d) with
                                      | Some e => ncons e | None => (-1)%Z end) nodes)
                       (g_index g))) ValueErr (
  raise_if (negb (forallb (fun f =>
        match group rs f with
        | [] => true
        | r :: _ => self_cons rs r && self_cons rs (last (group rs f) r)
        end) (fibers_of rs))) ValueErr (
  Ok true))))))))))))))
  end).

(** [Mesh(net)] (mesh.py 118-130) *)
Definition mesh_new (t : net_df) : res mesh_df :=
  do g <- mesh_init t;
  do _ <- mesh_check g;
  Ok g.
