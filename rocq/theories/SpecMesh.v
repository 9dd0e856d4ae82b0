(** Notions used in the statements about meshes (C23 - C28). *)
From Verif Require Import Num Frames NetM MeshM Spec SpecNet.
Open Scope Q_scope.

(** row number [k] of a network, whatever its label *)
Definition nth_row (t : net_df) (k : nat) (c : conn) : Prop :=
  exists lab, nth_error (n_rows t) k = Some (lab, c).

(** the node [d] carries the data of side A ([b] = false) or B ([b] = true) of the row [c] *)
Definition carries (c : conn) (b : bool) (d : node) : Prop :=
  nf d = (if b then cB c else cA c) /\ ns d = (if b then csB c else csA c) /\
  nx d = (if b then cxB c else cxA c) /\ ny d = (if b then cyB c else cyA c) /\
  nz d = (if b then czB c else czA c).

(** [place] numbers the sides of the rows of the network by the nodes of the mesh, one to one *)
Definition numbers (t : net_df) (g : mesh_df) (place : nat -> bool -> nat) : Prop :=
  (forall k c b, nth_row t k c -> exists d, is_node (g_rows g) (place k b) d /\ carries c b d) /\
  (forall i d, is_node (g_rows g) i d -> exists k c b, nth_row t k c /\ place k b = i) /\
  (forall k c b k' c' b', nth_row t k c -> nth_row t k' c' -> place k b = place k' b' -> k = k' /\ b = b').

(** the constraint of a node is the other side of its row, or itself if both sides are on one fiber *)
Definition links (t : net_df) (g : mesh_df) (place : nat -> bool -> nat) : Prop :=
  forall k c b d, nth_row t k c -> is_node (g_rows g) (place k b) d ->
    ncons d = Z.of_nat (if Z.eqb (cA c) (cB c) then place k b else place k (negb b)).

(** every node of a connection between two fibers is strictly between the end nodes of its fiber *)
Definition framed (t : net_df) : Prop :=
  forall k c (b : bool), nth_row t k c -> cA c <> cB c ->
    let i := if b then cB c else cA c in
    let s := if b then csB c else csA c in
    exists k' e, nth_row t k' e /\ cA e = i /\ cB e = i /\ csB e < s /\ s < csA e.

(** first / last node of a fiber *)
Definition first_node (g : mesh_df) (f : Z) (i : nat) (d : node) : Prop :=
  is_node (g_rows g) i d /\ nf d = f /\
  forall j e, (j < i)%nat -> is_node (g_rows g) j e -> nf e <> f.
Definition last_node (g : mesh_df) (f : Z) (i : nat) (d : node) : Prop :=
  is_node (g_rows g) i d /\ nf d = f /\
  forall j e, (i < j)%nat -> is_node (g_rows g) j e -> nf e <> f.

(** total length of the beam elements of fiber [f]: nodes [i] whose beam [j] comes after *)
Definition abscissa (g : mesh_df) (i : Z) : Q :=
  match nth_error (g_rows g) (Z.to_nat i) with Some r => ns (snd r) | None => 0 end.
Definition beam_length (g : mesh_df) (f : Z) : Q :=
  qsum (map (fun r => if Z.eqb (nf (snd r)) f && Z.ltb (fst r) (nbeam (snd r))
                      then abscissa g (nbeam (snd r)) - ns (snd r) else 0) (g_rows g)).
