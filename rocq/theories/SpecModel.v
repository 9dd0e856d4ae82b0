(** Notions used in the statements about the mechanical model (C29 - C35, C56). *)
From Verif Require Import Num ListX Frames MatM NetM MeshM ModelM Spec SpecNet SpecMesh.
Open Scope Q_scope.

(** *** sparse matrices *)
Definition all_finite (P : ncoo) : Prop := forall r c v, In (r, c, v) P -> exists q, v = Fin q.
(** row [r] of the product of a finite matrix by a vector *)
Definition product (P : ncoo) (u : list Q) (r : nat) : Q :=
  qsum (map (fun e => let '(i, c, v) := e in if Nat.eqb i r then qof v * nth c u 0 else 0) P).
(** the quadratic form u . P u *)
Definition quadratic (P : ncoo) (u : list Q) : Q :=
  qsum (map (fun e => let '(i, c, v) := e in nth i u 0 * (qof v * nth c u 0)) P).

(** *** degrees of freedom: displacement and rotation of node [i] *)
Definition disp (u : list Q) (i : nat) : Q := nth (2 * i) u 0.
Definition rot (u : list Q) (i : nat) : Q := nth (2 * i + 1) u 0.

Definition finite_moduli (m : qmat) : Prop :=
  forall f, In f (q_rows m) -> exists G E, qG f = Fin G /\ qE f = Fin E.
Definition finite_shear (m : qmat) : Prop :=
  forall f, In f (q_rows m) -> exists G, qG f = Fin G.

(** the same mat with another tensile modulus *)
Definition set_E (E : num) (f : qfiber) : qfiber :=
  mkQ (ql f) (qb f) (qh f) (qx f) (qy f) (qz f) (qu f) (qv f) (qw f) (qG f) E.
Definition set_tensile (E : num) (m : qmat) : qmat := mkQmat (map (set_E E) (q_rows m)) (q_size m).
(** both finite and less than [eps] apart *)
Definition within (eps : Q) (x y : num) : Prop := exists a b, x = Fin a /\ y = Fin b /\ - eps < a - b /\ a - b < eps.

(** [j] follows [i] on its fiber: they are the nodes of one beam element *)
Definition beam_element (g : mesh_df) (i j : nat) (d e : node) : Prop :=
  is_node (g_rows g) i d /\ is_node (g_rows g) j e /\ (i < j)%nat /\ nbeam d = Z.of_nat j.
(** consecutive nodes of a fiber are distinct points *)
Definition no_short_element (g : mesh_df) : Prop :=
  forall i j d e, beam_element g i j d e -> ns d < ns e.
(** the lengths used for the elements are positive: the smallest is the given lower bound or that of a
    mesh without coinciding neighbours; the largest is the given upper bound or that of some element *)
Definition lengths_ok (g : mesh_df) (lmin lmax : option Q) : Prop :=
  match lmin with Some v => 0 < v | None => no_short_element g end /\
  match lmax with Some v => 0 < v | None => exists i j d e, beam_element g i j d e /\ ns d < ns e end.

(** coefficient k0 of a Timoshenko beam of length [l]: pi/4 G b h / l / (1 + G/E (l/h)^2) *)
Definition beam_stiffness (f : qfiber) (G E l : Q) : Q :=
  np_pi / 4 * (G * qb f * qh f) / l / (1 + G / E * (l / qh f * (l / qh f))).
(** the bounds in force: those given, else the extreme lengths of the elements *)
Definition lower_bound (g : mesh_df) (lmin : option Q) (lo : Q) : Prop :=
  match lmin with
  | Some v => lo = v
  | None => (forall i j d e, beam_element g i j d e -> lo <= ns e - ns d) /\
            exists i j d e, beam_element g i j d e /\ lo == ns e - ns d
  end.
Definition upper_bound (g : mesh_df) (lmax : option Q) (hi : Q) : Prop :=
  match lmax with
  | Some v => hi = v
  | None => (forall i j d e, beam_element g i j d e -> ns e - ns d <= hi) /\
            exists i j d e, beam_element g i j d e /\ hi == ns e - ns d
  end.

(** *** motions *)
(** nodes of one fiber are displaced equally and do not rotate *)
Definition translates (g : mesh_df) (u : list Q) : Prop :=
  exists t : Z -> Q, forall i d, is_node (g_rows g) i d -> disp u i == t (nf d) /\ rot u i == 0.
(** nodes of one fiber turn equally and follow the rotation *)
Definition rigid (g : mesh_df) (u : list Q) : Prop :=
  forall i j d e, is_node (g_rows g) i d -> is_node (g_rows g) j e -> nf d = nf e ->
    rot u i == rot u j /\ disp u j - disp u i == rot u i * (ns e - ns d).
(** nodes of one fiber are displaced equally and, if there are several, do not rotate *)
Definition translates_only (g : mesh_df) (u : list Q) : Prop :=
  forall i j d e, is_node (g_rows g) i d -> is_node (g_rows g) j e -> nf d = nf e -> i <> j ->
    rot u i == 0 /\ rot u j == 0 /\ disp u i == disp u j.

(** dofs of the same node or of the two nodes of one element *)
Definition neighbours (g : mesh_df) (i j : nat) : Prop :=
  exists d e, is_node (g_rows g) i d /\ is_node (g_rows g) j e /\ nf d = nf e /\
    (i = j \/ ((i < j)%nat /\ nbeam d = Z.of_nat j) \/ ((j < i)%nat /\ nbeam e = Z.of_nat i)).

(** *** admissibility in the slab *)
(** thickness of the fiber of a node *)
Definition thick (m : qmat) (d : node) (h : Q) : Prop := exists f, has_fiber m (nf d) f /\ qh f = h.
(** the deformed mesh lies between the floor and a lid at height [Z] *)
Definition in_slab (m : qmat) (g : mesh_df) (Z : Q) (u : list Q) : Prop :=
  forall i d h, is_node (g_rows g) i d -> thick m d h ->
    h / 2 <= nz d + disp u i /\ nz d + disp u i <= Z - h / 2.
(** connected nodes do not penetrate, in node order *)
Definition no_overlap (m : qmat) (g : mesh_df) (u : list Q) : Prop :=
  forall i j d e h h', is_node (g_rows g) i d -> is_node (g_rows g) j e -> (i < j)%nat ->
    ncons d = Z.of_nat j -> thick m d h -> thick m e h' ->
    (h + h') / 2 <= (nz e + disp u j) - (nz d + disp u i).
(** C u <= H, row by row *)
Definition satisfies (C : ncoo) (H : list num) (u : list Q) : Prop :=
  forall r b, nth_error H r = Some b -> nleb (Fin (product C u r)) b = true.
(** H + t dH: the bounds when the lid moves by [t] *)
Definition bounds_at (H dH : list num) (t : Q) : list num :=
  map (fun p => nadd (fst p) (nmul (Fin t) (snd p))) (combine H dH).
(** [Z] is the height of the highest top of a node *)
Definition highest_top (m : qmat) (g : mesh_df) (Z : Q) : Prop :=
  (forall i d h, is_node (g_rows g) i d -> thick m d h -> nz d + h / 2 <= Z) /\
  exists i d h, is_node (g_rows g) i d /\ thick m d h /\ nz d + h / 2 == Z.

(** *** the assembled matrix *)
(** beam matrix of the documentation, the displacement-rotation terms scaled by [c] *)
Definition beam_matrix (f : qfiber) (G E l c : Q) : list (list Q) :=
  let k := beam_stiffness f G E l in
  let a := k * (c * (l / 2)) in
  let b := k * (l * l / 3 + E / G * (qh f * qh f)) in
  let d := k * (l * l / 6 - E / G * (qh f * qh f)) in
  [ [ k; a; - k; a]; [ a; b; - a; d]; [- k; - a; k; - a]; [ a; d; - a; b] ].
(** positions of a degree of freedom among those of the nodes [i], [j] *)
Definition local (i j r : nat) : option nat :=
  if Nat.eqb r (2 * i) then Some 0%nat else if Nat.eqb r (2 * i + 1) then Some 1%nat else
  if Nat.eqb r (2 * j) then Some 2%nat else if Nat.eqb r (2 * j + 1) then Some 3%nat else None.
(** term (r, x) of the element that starts at node [i], of length [len i]; 0 if there is none *)
Definition element_term (m : qmat) (g : mesh_df) (c : Q) (len : nat -> Q) (r x i : nat) : Q :=
  match nth_error (g_rows g) i with
  | Some (_, d) =>
    if Z.ltb (Z.of_nat i) (nbeam d) then
      match nth_error (q_rows m) (Z.to_nat (nf d)) with
      | Some f =>
        match qG f, qE f, local i (Z.to_nat (nbeam d)) r, local i (Z.to_nat (nbeam d)) x with
        | Fin G, Fin E, Some a, Some b => nth b (nth a (beam_matrix f G E (len i) c) []) 0
        | _, _, _, _ => 0
        end
      | None => 0
      end
    else 0
  | None => 0
  end.
Definition assembled (m : qmat) (g : mesh_df) (c : Q) (len : nat -> Q) (r x : nat) : Q :=
  qsum (map (element_term m g c len r x) (seq 0 (length (g_rows g)))).
