(** Model of the computations of jupyter-notebook.ipynb (cells 7, 24, 28, 36, 40 and 43), driven by a
    [Settings] object.  Display is not modelled; the lines drawn are (PictureM). *)
From Verif Require Import Num ListX Frames MatM NetM StackM MeshM ModelM SolverM InterpM ResultM RenderM VtkM PlotM MainM PictureM SettingsM.
Open Scope Q_scope.

(** *** [**inputs] (widgets.py 128-174): the values of the settings as arguments *)
(** a float argument that is a finite number (jupyter-notebook.ipynb cell 17: [Mat( **inputs)]) *)
Definition arg_q (v : sval) : option Q := match v with VNum (Fin q) => Some q | _ => None end.
(** a float argument (widgets.py 162-165, 173-174) *)
Definition arg_num (v : sval) : option num := match v with VNum x => Some x | VInf => Some PInf | _ => None end.
(** an integer argument (widgets.py 171-174) *)
Definition arg_z (v : sval) : option Z :=
  match v with VNum (Fin q) => if Qeqb q (inject_Z (Qfloor q)) then Some (Qfloor q) else None | _ => None end.
(** an integer that is not negative (solver.py 137, interpolation.py 60) *)
Definition arg_nat (v : sval) : option nat :=
  match arg_z v with Some z => if (z <? 0)%Z then None else Some (Z.to_nat z) | None => None end.
(** a flag (widgets.py 173-174) *)
Definition arg_bool (v : sval) : option bool := match v with VBool b => Some b | _ => None end.
(** None or an argument (widgets.py 166-169) *)
Definition arg_opt {A} (get : sval -> option A) (v : sval) : option (option A) :=
  match v with VNone => Some None | _ => option_map Some (get v) end.
(** apply to an optional argument (no counterpart in the code) *)
Definition with_arg {A B} (a : option A) (f : A -> option B) : option B := match a with Some x => f x | None => None end.
(** the arguments taken from the settings by [Mat], [Net], [Stack], [stiffness] and [solve]
    (mat.py 159-160, net.py 145, 532, model.py 12, solver.py 13-15); psi and errtol keep their defaults.
    None when an argument is not of the kind modelled (for example an infinite length). *)
Definition options_of (s : settings) : option options :=
  let v := get_item s in
  with_arg (arg_z (v Kn)) (fun n => with_arg (arg_q (v Klength)) (fun l => with_arg (arg_q (v Kwidth)) (fun b =>
  with_arg (arg_q (v Kthickness)) (fun h => with_arg (arg_q (v Ksize)) (fun size => with_arg (arg_q (v Ktheta)) (fun theta =>
  with_arg (arg_num (v Kshear)) (fun G => with_arg (arg_num (v Ktensile)) (fun E => with_arg (arg_opt arg_z (v Kseed)) (fun seed =>
  with_arg (arg_bool (v Kperiodic)) (fun per => with_arg (arg_opt arg_q (v Kthreshold)) (fun thr => with_arg (arg_num (v Kpacking)) (fun packing =>
  with_arg (arg_nat (v Kitermax)) (fun itermax => with_arg (arg_q (v Ktol)) (fun tol => with_arg (arg_opt arg_q (v Klmin)) (fun lmin =>
  with_arg (arg_opt arg_q (v Klmax)) (fun lmax => with_arg (arg_q (v Kcoupling)) (fun cpl => with_arg (arg_opt arg_nat (v Kinterp_size)) (fun isize =>
  Some (mkOptions (mkParams n l b h size theta 0 G E seed) per thr packing itermax tol (1 # 1000000) lmin lmax cpl isize))))))))))))))))))).

(** the arguments of [solve] (cell 40; perm is not given) *)
Definition book_args (o : options) : solve_params :=
  mkSolve (op_packing o) (op_itermax o) None (op_tol o) (op_errtol o) (op_lmin o) (op_lmax o) (op_coupling o).

(** *** cells *)
Section Notebook.
  Variable R : rng.
  Variables cos sin : Q -> Q.
  (** linprog and its marginals (net.py 701, cell 24) *)
  Variables linprog marg : lp -> list Q.
  (** [spsolve] (model.py 304, solver.py 14) *)
  Variable lsolve : ncoo -> list num -> list num.
  (** pyvista and KDTree (render.py 74-93, 224) *)
  Variable cyl : list vec.
  Variable place : qfiber -> vec -> vec.
  Variable near : list Q -> Q -> nat.

  (** the mat and its network, the first lines of the cells 21 to 40; [ent]: the entropy used when there is no seed *)
  Definition cell_net (o : options) (ent prior : rng_state R) : res (qmat * net_df) :=
    do ms <- mat_new R cos sin (op_mat o) ent prior;
    let m := read_mat (fst ms) in
    do t <- net_new m (op_periodic o) None;
    Ok (m, t).
  (** mean of [np.pi / 4 * mat[[*"lbh"]].prod(axis=1)] (cell 24) *)
  Definition mean_weight (m : qmat) : Q :=
    np_pi / 4 * (qsum (map (fun f => ql f * qb f * qh f) (q_rows m)) / inject_Z (Z.of_nat (length (q_rows m)))).
  (** cell 24: the misspelt argument [thresold] is ignored; the contacts drawn *)
  Definition cell24 (o : options) (ent prior : rng_state R) : res (qmat * net_df * list line) :=
    do mt <- cell_net o ent prior;
    let t := snd mt in
    do sm <- stack_new linprog (fst mt) t None;
    let m := snd sm in
    do p <- stack_constraint m t;
    match q_rows m with
    | [] => Exn AttrErr
    | _ =>
      let force := map (fun x => x / mean_weight m) (marg p) in
      let points := stack_points (fst sm) in
      if negb (Nat.eqb (length force) (length points)) then Exn IndexErr
      else Ok (m, fst sm, select (map loaded force) points)
    end.
  (** the first lines of the cells 28, 36 and 40 *)
  Definition cell_mesh (o : options) (ent prior : rng_state R) : res (qmat * net_df * net_df * mesh_df) :=
    do mt <- cell_net o ent prior;
    do sm <- stack_new linprog (fst mt) (snd mt) (op_threshold o);
    do g <- mesh_new (fst sm);
    Ok (snd sm, snd mt, fst sm, g).
  (** cell 28: the lines drawn *)
  Definition cell28 (o : options) (ent prior : rng_state R) : res (mesh_df * list stroke) :=
    do q <- cell_mesh o ent prior;
    do l <- mesh_picture (snd q);
    Ok (snd q, l).
  (** cell 36 *)
  Definition cell36 (o : options) (ent prior : rng_state R) : res ((colour -> list (nat * nat)) * num) :=
    do q <- cell_mesh o ent prior;
    let '(m, t, st, g) := q in
    do K <- stiffness m g (op_lmin o) (op_lmax o) (op_coupling o);
    do cs <- constraint m g;
    let nu := (2 * length (g_rows g))%nat in
    let nc := length (csH cs) in
    plot_system lsolve nu nc K (csC cs) (repeat (Fin 0) nu) (repeat (Fin 0) nu) (repeat (Fin 0) nu) (repeat (Fin 0) nu)
      (repeat (Fin 0) nc) (csH cs) (repeat (Fin 0) nc) (csdH cs) None (1 # 1000000).
  (** what the cells 40 and 43 leave (cells 40, 43) *)
  Record book : Type := mkBook {
    bk_mat : qmat; bk_net : net_df; bk_stack : net_df; bk_mesh : mesh_df; bk_results : results;
    bk_first : (colour -> list (nat * nat)) * num; bk_last : (colour -> list (nat * nat)) * num; bk_points : list vpoint
  }.
  (** cells 40 and 43 *)
  Definition cell40 (o : options) (ent prior : rng_state R) : res book :=
    do q <- cell_mesh o ent prior;
    let '(m, t, st, g) := q in
    do K <- stiffness m g (op_lmin o) (op_lmax o) (op_coupling o);
    do cs <- constraint m g;
    let nu := (2 * length (g_rows g))%nat in
    let nc := length (csH cs) in
    do r <- solve_full lsolve m g (book_args o) (op_size o);
    let plot t := plot_system lsolve nu nc K (csC cs) (call_vec (r_u r) t) (call_vec (r_F r) t) (repeat (Fin 0) nu) (repeat (Fin 0) nu)
      (call_vec (r_f r) t) (call_vec (r_H r) t) (repeat (Fin 0) nc) (csdH cs) None (1 # 1000000) in
    do p0 <- plot 0;
    do p1 <- plot 1;
    do y <- finite_arg (call_vec (r_u r) 1);
    do z <- finite_arg (pull nu (csC cs) (call_vec (r_f r) 1));
    let '(disp, rot) := every_other y in
    let '(force, moment) := every_other z in
    do pts <- vtk_mesh cyl place near m g (Some disp) (Some rot) (Some force) (Some moment);
    Ok (mkBook m t st g r p0 p1 pts).
  (** the notebook from cell 21 on, with the entropy met by each cell *)
  Definition notebook (o : options) (ent : nat -> rng_state R) (prior : rng_state R) : res (list line * list stroke * book) :=
    do _ <- cell_net o (ent 21%nat) prior;
    do a <- cell24 o (ent 24%nat) prior;
    do b <- cell28 o (ent 28%nat) prior;
    do _ <- cell36 o (ent 36%nat) prior;
    do c <- cell40 o (ent 40%nat) prior;
    Ok (snd a, snd b, c).
End Notebook.
