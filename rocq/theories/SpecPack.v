(** Notions used in the statements about packing with a direct solver (C95). *)
From Verif Require Import Num ListX Frames MatM NetM StackM MeshM ModelM SolverM InterpM ResultM MainM ScriptsM NotebookM
  Spec SpecNet SpecStack SpecMesh SpecModel SpecSolver SpecInterp SpecMain SpecProgress SpecStiffen.
Open Scope Q_scope.

(** flat fibers that resist bending, a threshold that does not cut contacts, and arguments for the solver *)
Definition ready (m : qmat) (thr : option Q) (p : solve_params) (size : option nat) : Prop :=
  valid m /\ q_rows m <> [] /\ all_in_plane m /\ finite_shear m /\ wide m thr /\
  tolerances_ok p /\ 3 * sp_errtol p < 1 /\ sp_coupling p * sp_coupling p < 1 /\
  (exists l, sp_lmin p = Some l /\ 0 < l) /\ (forall l, sp_lmax p = Some l -> 0 < l) /\ sp_perm p = None /\ samples_ok size.

(** the force on the lid, as given back by [solve], pushes up, does not decrease and grows faster and faster
    ([n] contacts of each kind) *)
Definition stiffening (R : results) (n : nat) : Prop :=
  forall t1 t2 t3, 0 <= t1 -> t1 <= t2 -> t2 <= t3 -> t3 <= 1 ->
  0 <= load_at R n t1 /\ load_at R n t1 <= load_at R n t2 /\
  (load_at R n t2 - load_at R n t1) * (height_at R t2 - height_at R t3) <= (load_at R n t3 - load_at R n t2) * (height_at R t1 - height_at R t2).

(** what the last state [s] of a run of the solver and its results [R] are like: fibers between floor and lid that do not overlap;
    as packed as asked for, or with a column without void (as packed as asked for when two fibers fit in the height);
    and a force on the lid as above *)
Definition packs (m : qmat) (g : mesh_df) (p : solve_params) (cs : csys) (S : sysdata) (s : state) (R : results) : Prop :=
  (exists z, st_Z s = Fin z /\ in_slab m g z (vals (st_u S s)) /\ no_overlap m g (vals (st_u S s))) /\
  ((length (csH cs) < sp_itermax p)%nat -> nltb (st_rl s) (sp_packing p) = false \/ compressed_at m g S s) /\
  (forall c b, (length (csH cs) < sp_itermax p)%nat -> sp_packing p = Fin c -> 0 <= c -> (forall f, In f (q_rows m) -> qh f <= b) ->
     c * (2 * b + 3 * sp_tol p) <= csZ cs -> exists r, st_rl s = Fin r /\ c <= r) /\
  (finite_moduli m -> height s < csZ cs -> exists n, length (csH cs) = (3 * n)%nat /\ stiffening R n).
