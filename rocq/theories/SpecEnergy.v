(** Notions used in the statements about the elastic energy of the recorded states (C80, C81). *)
From Verif Require Import Num ListX Frames MatM NetM MeshM ModelM SolverM Spec SpecNet SpecMesh SpecModel SpecSolver.
Open Scope Q_scope.

(** energy stored in the fibers, u . K u / 2 *)
Definition stored (K : ncoo) (u : list Q) : Q := quadratic K u / 2.
(** work done by the lid between recorded states, its force being linear in its height from one to the next; [n] contacts *)
Fixpoint lid_work (S : sysdata) (n : nat) (h : list state) : Q :=
  match h with
  | s :: ((s' :: _) as t) =>
      (lid_force (vals (st_f S s)) n + lid_force (vals (st_f S s')) n) / 2 * (qof (st_Z s) - qof (st_Z s')) + lid_work S n t
  | _ => 0
  end.
(** no contact pulls *)
Definition pushes (f : list Q) : Prop := forall r, 0 <= nth r f 0.
(** work of the contact forces over a displacement *)
Definition contact_work (C : ncoo) (f u : list Q) : Q := qsum (map (fun r => nth r f 0 * product C u r) (seq 0 (length f))).
(** the displacements [u] and [v] differ by translations of fibers; fibers of one node may also turn *)
Definition differ_by_translations (g : mesh_df) (u v : list Q) : Prop :=
  forall i j d e, is_node (g_rows g) i d -> is_node (g_rows g) j e -> nf d = nf e -> i <> j ->
    rot v i == rot u i /\ disp v i - disp u i == disp v j - disp u j.
