(** Notions used in the statements about missing arguments (C101). *)
From Verif Require Import Num Frames MatM NetM StackM MeshM ModelM SolverM VtkM DefaultsM.
Open Scope Q_scope.

(** no fibers, connections, nodes, in a periodic box of 50 mm *)
Definition empty_mat : qmat := mkQmat [] 50.
Definition empty_attrs : attrs := mkAttrs (Some 0%Z) (Some (Fin 50)) (Some true) None.
Definition empty_net : net_df := mkNetDf net_columns [] empty_attrs true.
Definition empty_mesh : mesh_df := mkMeshDf mesh_columns [] empty_attrs true true None.

Definition given {A} (o : option A) : bool := match o with Some _ => true | None => false end.
Definition default {A} (a : A) (o : option A) : option A := match o with Some _ => o | None => Some a end.

(** the mat, the network and the mesh of the call are all given *)
Definition complete (c : call) : bool :=
  match c with
  | KMat => false
  | KMatCheck m => given m
  | KNet m _ _ => given m
  | KNetCheck t | KStackCheck t | KMesh t => given t
  | KStack m t _ => given m && given t
  | KHeights m t | KProgram m t => given m && given t
  | KMeshCheck g => given g
  | KStiffness m g _ _ _ => given m && given g
  | KConstraint m g => given m && given g
  | KSolve m g _ => given m && given g
  | KVtkMat m => given m
  | KVtkMesh m g _ _ _ _ => given m && given g
  end.
(** the same call with empty objects for those left out *)
Definition fill (c : call) : call :=
  let M := default empty_mat in let T := default empty_net in let G := default empty_mesh in
  match c with
  | KMat => KMat
  | KMatCheck m => KMatCheck (default (df_of empty_mat) m)
  | KNet m per pairs => KNet (M m) per pairs
  | KNetCheck t => KNetCheck (T t)
  | KStack m t thr => KStack (M m) (T t) thr
  | KStackCheck t => KStackCheck (T t)
  | KHeights m t => KHeights (M m) (T t)
  | KProgram m t => KProgram (M m) (T t)
  | KMesh t => KMesh (T t)
  | KMeshCheck g => KMeshCheck (G g)
  | KStiffness m g lmin lmax c => KStiffness (M m) (G g) lmin lmax c
  | KConstraint m g => KConstraint (M m) (G g)
  | KSolve m g p => KSolve (M m) (G g) p
  | KVtkMat m => KVtkMat (M m)
  | KVtkMesh m g disp rot force moment => KVtkMesh (M m) (G g) disp rot force moment
  end.
(** functions of the interface that return no system without a mat and a mesh *)
Definition raises {A} (r : res A) : Prop := exists e, r = Exn e.
