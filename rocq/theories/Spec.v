(** Specifications used in the property statements.  They speak about tables
    and rows; no function of the models is used, only the record types. *)
From Coq Require Import String.
From Verif Require Import Num Frames MatM NetM MeshM.
Open Scope Q_scope.

(** ** Numbers *)
(** a positive value, possibly infinite; NaN is not positive *)
Definition positive (x : num) : Prop :=
  match x with Fin q => 0 < q | PInf => True | _ => False end.

(** ** Mat (C01, C02) *)
(** both coordinates inside the box of the given size *)
Definition inside_box (size x y : num) : Prop :=
  match size with
  | Fin s => exists a b, x = Fin a /\ y = Fin b /\
               - s / 2 <= a <= s / 2 /\ - s / 2 <= b <= s / 2
  | PInf => x <> NaN /\ y <> NaN
  | _ => False
  end.
(** norm within 1.001e-5 of 1 (compared on squares) *)
Definition near_unit (u v w : num) : Prop :=
  exists a b c, u = Fin a /\ v = Fin b /\ w = Fin c /\
    (1 - 0.00001001) * (1 - 0.00001001) <= a * a + b * b + c * c
    <= (1 + 0.00001001) * (1 + 0.00001001).

Definition columns_present (req cols : list string) : Prop :=
  forall c, In c req -> In c cols.
(** labels are 0, 1, 2, ... in order *)
Definition labelled_in_order {A} (rows : list (Z * A)) : Prop :=
  forall k lab a, nth_error rows k = Some (lab, a) -> lab = Z.of_nat k.

Definition dims_ok (f : fiber) : Prop := positive (fl f) /\ positive (fb f) /\ positive (fh f).
Definition moduli_ok (f : fiber) : Prop := positive (fG f) /\ positive (fE f).

Definition every {A} (P : A -> Prop) (rows : list (Z * A)) : Prop :=
  forall lab a, In (lab, a) rows -> P a.

Definition flag_set (a : attrs) : Prop := at_skip a = Some true.

Definition mat_cols : list string :=
  ["l"; "b"; "h"; "x"; "y"; "z"; "u"; "v"; "w"; "G"; "E"]%string.

Definition mat_ok (m : mat_df) : Prop :=
  columns_present mat_cols (m_cols m) /\
  exists size,
    at_n (m_attrs m) = Some (Z.of_nat (length (m_rows m))) /\
    at_size (m_attrs m) = Some size /\
    labelled_in_order (m_rows m) /\
    every dims_ok (m_rows m) /\
    every (fun f => inside_box size (fx f) (fy f)) (m_rows m) /\
    every (fun f => near_unit (fu f) (fv f) (fw f)) (m_rows m) /\
    every moduli_ok (m_rows m).

(** the exception documented for the first violated condition *)
Inductive mat_fails (m : mat_df) : exn -> Prop :=
| MF_key : ~ columns_present mat_cols (m_cols m) -> mat_fails m KeyErr
| MF_attr : columns_present mat_cols (m_cols m) ->
    (at_n (m_attrs m) = None \/ at_size (m_attrs m) = None) -> mat_fails m AttrErr
| MF_n : forall n size, columns_present mat_cols (m_cols m) ->
    at_n (m_attrs m) = Some n -> at_size (m_attrs m) = Some size ->
    n <> Z.of_nat (length (m_rows m)) -> mat_fails m ValueErr
| MF_label : forall size, columns_present mat_cols (m_cols m) ->
    at_n (m_attrs m) = Some (Z.of_nat (length (m_rows m))) ->
    at_size (m_attrs m) = Some size ->
    ~ labelled_in_order (m_rows m) -> mat_fails m IndexErr
| MF_value : forall size, columns_present mat_cols (m_cols m) ->
    at_n (m_attrs m) = Some (Z.of_nat (length (m_rows m))) ->
    at_size (m_attrs m) = Some size ->
    labelled_in_order (m_rows m) ->
    (~ every dims_ok (m_rows m)
     \/ ~ every (fun f => inside_box size (fx f) (fy f)) (m_rows m)
     \/ ~ every (fun f => near_unit (fu f) (fv f) (fw f)) (m_rows m)
     \/ ~ every moduli_ok (m_rows m)) -> mat_fails m ValueErr.

(** *** Mat.init (C02) *)
(** draws of uniform(-0.5, 0.5) *)
Definition draws_in_range (R : rng) : Prop :=
  forall s, - (1 # 2) <= fst (rng_draw R s) <= 1 # 2.
(** cos^2 + sin^2 = 1 within 1e-6 *)
Definition trig_accurate (cos sin : Q -> Q) : Prop :=
  forall a, 1 - 0.000001 <= cos a * cos a + sin a * sin a <= 1 + 0.000001.

(** admissible arguments of Mat(...) (C02) *)
Definition params_ok (p : mat_params) : Prop :=
  (0 <= p_n p)%Z /\ 0 < p_length p /\ 0 < p_width p /\ 0 < p_thickness p /\ 0 <= p_size p
  /\ positive (p_shear p) /\ positive (p_tensile p)
  /\ (forall k, p_seed p = Some k -> (0 <= k < 4294967296)%Z).

(** what a generated table must look like *)
Definition generated (p : mat_params) (m : mat_df) : Prop :=
  length (m_rows m) = Z.to_nat (p_n p) /\
  labelled_in_order (m_rows m) /\
  every (fun f => fl f = Fin (p_length p) /\ fb f = Fin (p_width p) /\ fh f = Fin (p_thickness p)
                  /\ fG f = p_shear p /\ fE f = p_tensile p) (m_rows m) /\
  every (fun f => inside_box (Fin (p_size p)) (fx f) (fy f)
                  /\ inside_box (Fin (p_size p)) (fz f) (fz f)) (m_rows m) /\
  (forall i j li lj f g, (i < j)%nat -> nth_error (m_rows m) i = Some (li, f) ->
     nth_error (m_rows m) j = Some (lj, g) -> exists a b, fz f = Fin a /\ fz g = Fin b /\ a <= b) /\
  mat_ok m.

(** ** Net (C05, C15) *)
Definition net_cols : list string :=
  ["A"; "B"; "sA"; "sB"; "xA"; "yA"; "zA"; "xB"; "yB"; "zB"]%string.

Definition labels_in (n : Z) (c : conn) : Prop := (0 <= cA c < n)%Z /\ (0 <= cB c < n)%Z.
Definition ordered (c : conn) : Prop := (cA c <= cB c)%Z.
Definition same_conn (c d : conn) : Prop :=
  cA c = cA d /\ cB c = cB d /\ csA c == csA d /\ csB c == csB d.
(** no two rows agree on (A, B, sA, sB) *)
Definition no_repeat (rows : list (Z * conn)) : Prop :=
  forall i j li lj c d, (i < j)%nat ->
    nth_error rows i = Some (li, c) -> nth_error rows j = Some (lj, d) -> ~ same_conn c d.

Definition net_attrs_present (a : attrs) : Prop :=
  at_n a <> None /\ at_size a <> None /\ at_periodic a <> None.

Definition net_ok (t : net_df) : Prop :=
  columns_present net_cols (n_cols t) /\
  exists n, at_n (n_attrs t) = Some n /\
    at_size (n_attrs t) <> None /\ at_periodic (n_attrs t) <> None /\
    labelled_in_order (n_rows t) /\
    n_int t = true /\
    every (labels_in n) (n_rows t) /\
    every ordered (n_rows t) /\
    no_repeat (n_rows t).

(** the exception raised for the first violated condition; wrong labels give an
    IndexError, or a broadcasting error when there are at least two distinct
    labels, fewer than rows *)
Definition labels_broadcast_fail {A} (rows : list (Z * A)) : Prop :=
  ~ NoDup (map fst rows) /\ exists a b, In a (map fst rows) /\ In b (map fst rows) /\ a <> b.
Inductive net_fails (t : net_df) : exn -> Prop :=
| NF_key : ~ columns_present net_cols (n_cols t) -> net_fails t KeyErr
| NF_attr : columns_present net_cols (n_cols t) ->
    ~ net_attrs_present (n_attrs t) -> net_fails t AttrErr
| NF_broadcast : columns_present net_cols (n_cols t) ->
    net_attrs_present (n_attrs t) ->
    labels_broadcast_fail (n_rows t) -> net_fails t BroadcastErr
| NF_label : columns_present net_cols (n_cols t) ->
    net_attrs_present (n_attrs t) ->
    ~ labels_broadcast_fail (n_rows t) ->
    ~ labelled_in_order (n_rows t) -> net_fails t IndexErr
| NF_type : columns_present net_cols (n_cols t) ->
    net_attrs_present (n_attrs t) ->
    labelled_in_order (n_rows t) ->
    n_int t = false -> net_fails t TypeErr
| NF_value : forall n, columns_present net_cols (n_cols t) ->
    net_attrs_present (n_attrs t) -> at_n (n_attrs t) = Some n ->
    labelled_in_order (n_rows t) -> n_int t = true ->
    (~ every (labels_in n) (n_rows t) \/ ~ no_repeat (n_rows t) \/ ~ every ordered (n_rows t)) ->
    net_fails t ValueErr.

(** ** Mesh (C24, C25, C26) *)
Definition mesh_cols : list string :=
  ["fiber"; "s"; "x"; "y"; "z"; "beam"; "constraint"]%string.

(** node [i] of a mesh *)
Definition is_node (rows : list (Z * node)) (i : nat) (d : node) : Prop :=
  exists lab, nth_error rows i = Some (lab, d).

(** nodes are in (fiber, s) order *)
Definition nodes_ordered (rows : list (Z * node)) : Prop :=
  forall i j d e, (i < j)%nat -> is_node rows i d -> is_node rows j e ->
    (nf d < nf e)%Z \/ (nf d = nf e /\ ns d <= ns e).

(** [b] is the next node of the fiber of node [i], cyclically *)
Definition next_on_fiber (rows : list (Z * node)) (i b : nat) : Prop :=
  exists d e, is_node rows i d /\ is_node rows b e /\ nf d = nf e /\
    (((i < b)%nat /\ forall j f, (i < j < b)%nat -> is_node rows j f -> nf f <> nf d)
     \/ ((b <= i)%nat /\ (forall j f, (i < j)%nat -> is_node rows j f -> nf f <> nf d)
         /\ (forall j f, (j < b)%nat -> is_node rows j f -> nf f <> nf d))).

Definition beams_ok (rows : list (Z * node)) : Prop :=
  forall i d, is_node rows i d ->
    exists b, nbeam d = Z.of_nat b /\ next_on_fiber rows i b.

(** the constraint of the constraint is the node itself *)
Definition cons_involution (rows : list (Z * node)) : Prop :=
  forall i d, is_node rows i d ->
    exists c e, ncons d = Z.of_nat c /\ is_node rows c e /\ ncons e = Z.of_nat i.

(** first and last nodes of each fiber are constrained to themselves *)
Definition ends_free (rows : list (Z * node)) : Prop :=
  forall i d, is_node rows i d ->
    ((forall j e, (j < i)%nat -> is_node rows j e -> nf e <> nf d)
     \/ (forall j e, (i < j)%nat -> is_node rows j e -> nf e <> nf d)) ->
    ncons d = Z.of_nat i.

Definition fibers_in (n : Z) (rows : list (Z * node)) : Prop :=
  forall i d, is_node rows i d -> (0 <= nf d < n)%Z.

Definition mesh_ok (g : mesh_df) : Prop :=
  columns_present mesh_cols (g_cols g) /\
  exists n, at_n (g_attrs g) = Some n /\
    at_size (g_attrs g) <> None /\ at_periodic (g_attrs g) <> None /\
    labelled_in_order (g_rows g) /\
    g_intf g = true /\ g_intl g = true /\
    fibers_in n (g_rows g) /\
    nodes_ordered (g_rows g) /\
    beams_ok (g_rows g) /\
    cons_involution (g_rows g) /\
    ends_free (g_rows g).

(** the exception raised for the first violated condition *)
Inductive mesh_fails (g : mesh_df) : exn -> Prop :=
| GF_key : ~ columns_present mesh_cols (g_cols g) -> mesh_fails g KeyErr
| GF_attr : columns_present mesh_cols (g_cols g) ->
    ~ net_attrs_present (g_attrs g) -> mesh_fails g AttrErr
| GF_broadcast : columns_present mesh_cols (g_cols g) ->
    net_attrs_present (g_attrs g) ->
    labels_broadcast_fail (g_rows g) -> mesh_fails g BroadcastErr
| GF_label : columns_present mesh_cols (g_cols g) ->
    net_attrs_present (g_attrs g) ->
    ~ labels_broadcast_fail (g_rows g) ->
    ~ labelled_in_order (g_rows g) -> mesh_fails g IndexErr
| GF_type : columns_present mesh_cols (g_cols g) ->
    net_attrs_present (g_attrs g) ->
    labelled_in_order (g_rows g) ->
    (g_intf g = false \/ g_intl g = false) -> mesh_fails g TypeErr
| GF_value : forall n, columns_present mesh_cols (g_cols g) ->
    net_attrs_present (g_attrs g) -> at_n (g_attrs g) = Some n ->
    labelled_in_order (g_rows g) -> g_intf g = true -> g_intl g = true ->
    (~ fibers_in n (g_rows g) \/ ~ nodes_ordered (g_rows g) \/ ~ beams_ok (g_rows g)
     \/ ~ cons_involution (g_rows g) \/ ~ ends_free (g_rows g)) ->
    mesh_fails g ValueErr.
