(** Notions used in the statements about the pictures of the scripts (C82, C83). *)
From Verif Require Import Num Frames MatM NetM StackM MeshM VtkM PictureM Spec SpecNet SpecStack SpecMesh.
Open Scope Q_scope.

(** *** meshes *)
(** the line goes from the node [i] to the node [j] of the mesh *)
Definition joins (g : mesh_df) (k : stroke) (i j : nat) : Prop :=
  sk_from k = Z.of_nat i /\ sk_to k = Z.of_nat j /\
  exists d e, is_node (g_rows g) i d /\ is_node (g_rows g) j e /\
    sk_line k = (mkVec (nx d) (ny d) (nz d), mkVec (nx e) (ny e) (nz e)).
(** consecutive nodes of one fiber at different places on it *)
Definition part (g : mesh_df) (i j : nat) (d e : node) : Prop :=
  is_node (g_rows g) i d /\ is_node (g_rows g) j e /\ j = S i /\ nf d = nf e /\ ns d < ns e.
(** height of a side of a connection *)
Definition side_z (c : conn) (b : bool) : Q := if b then czB c else czA c.
(** the line shows the fiber [f] *)
Definition on_fiber (g : mesh_df) (f : Z) (k : stroke) : bool :=
  match sk_style k with Along _ => match nth_error (g_rows g) (Z.to_nat (sk_from k)) with Some r => Z.eqb (nf (snd r)) f | None => false end | _ => false end.
(** length of the lines that show a fiber, along it *)
Definition drawn_length (g : mesh_df) (l : list stroke) (f : Z) : Q :=
  qsum (map (fun k => if on_fiber g f k then abscissa g (sk_to k) - abscissa g (sk_from k) else 0) l).
(** the same lines, possibly moved vertically *)
Definition same_strokes (k k' : stroke) : Prop :=
  sk_style k = sk_style k' /\ sk_from k = sk_from k' /\ sk_to k = sk_to k' /\
  vx (fst (sk_line k)) = vx (fst (sk_line k')) /\ vy (fst (sk_line k)) = vy (fst (sk_line k')) /\
  vx (snd (sk_line k)) = vx (snd (sk_line k')) /\ vy (snd (sk_line k)) = vy (snd (sk_line k')).
(** the same node of a mesh with [n] rows, possibly counted from the end *)
Definition same_position (n : nat) (i j : Z) : Prop := j = i \/ ((i < 0)%Z /\ j = (i + Z.of_nat n)%Z).
(** the same row, with nodes possibly counted from the end *)
Definition same_row (n : nat) (r r' : Z * node) : Prop :=
  let d := snd r in let e := snd r' in
  same_position n (fst r) (fst r') /\ same_position n (nbeam d) (nbeam e) /\ same_position n (ncons d) (ncons e) /\
  nf e = nf d /\ ns e = ns d /\ nx e = nx d /\ ny e = ny d /\ nz e = nz d.
(** the same line between the same points, whatever the names of the nodes *)
Definition same_line (k k' : stroke) : Prop := sk_style k' = sk_style k /\ sk_line k' = sk_line k.

(** *** stacks *)
(** the lines are drawn for the contacts selected, each once and in their order *)
Definition shows {A B} (l : list A) (contacts : list B) (sel : nat -> Prop) (is : A -> B -> Prop) : Prop :=
  exists phi : nat -> nat,
    (forall k k', (k < k')%nat -> (k' < length l)%nat -> (phi k < phi k')%nat) /\
    (forall k a, nth_error l k = Some a -> exists b, nth_error contacts (phi k) = Some b /\ sel (phi k) /\ is a b) /\
    (forall r b, nth_error contacts r = Some b -> sel r -> exists k, (k < length l)%nat /\ phi k = r).
(** the marginals returned with the heights are an optimum of the dual program *)
Definition priced (linprog marg : lp -> list Q) (m : qmat) (t : net_df) : Prop :=
  forall p, stack_constraint m t = Ok p -> exists w, marginals p (linprog p) (marg p) w.
(** the force of the contact number [r] counts: beyond numpy's tolerance *)
Definition force_counts (y : list Q) (r : nat) : Prop := 1 # 100000000 < Qabs (nth r y 0).
(** a segment between the axes of two fibers, at one place up to periods, where one lies on the other *)
Definition contact_line (m : qmat) (per : bool) (s : line) (e : Z * Z) : Prop :=
  exists f g a b, has_fiber m (fst e) f /\ has_fiber m (snd e) g /\ allowed per a b /\
    vx (fst s) == vx (snd s) + inject_Z a * q_size m /\ vy (fst s) == vy (snd s) + inject_Z b * q_size m /\
    vz (fst s) == qz f /\ vz (snd s) == qz g /\ qz g - qz f == (qh f + qh g) / 2.
