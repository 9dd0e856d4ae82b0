(** Model of the colours of the picture at the end of net.py: the load of each fiber relative to the
    mean weight, the scale and the colour bar (net.py 795-814, 819-827, 836-840).  The colour map itself
    ([plt.cm.viridis]) is not modelled: a colour is the number given to it. *)
From Verif Require Import Num ListX Frames MatM NetM StackM ModelM InterpM VtkM PictureM.
Open Scope Q_scope.

(** [np.pi / 4 * mat[[*"lbh"]].prod(axis=1).mean()] (net.py 807) *)
Definition mean_weight (m : qmat) : Q :=
  np_pi / 4 * (qsum (map (fun f => ql f * qb f * qh f) (q_rows m)) / inject_Z (Z.of_nat (length (q_rows m)))).
(** [load /= ...] (net.py 807) *)
Definition load_ratio (m : qmat) (load : list Q) : list Q := map (fun x => x / mean_weight m) load.
(** [interp1d([lo, hi], [0, 1])] called at [x] (net.py 813, 827): numpy.interp on the two knots; outside
    them ValueError, for [bounds_error] is not given *)
Definition colour (lo hi x : Q) : res num :=
  if Qltb x lo || Qltb hi x then Exn ValueErr else Ok (call_np [lo; hi] [Fin 0; Fin 1] x).
(** the loop over the fibers (net.py 821-827) *)
Fixpoint colours (lo hi : Q) (load : list Q) : res (list num) :=
  match load with
  | [] => Ok []
  | x :: l => do a <- colour lo hi x; do b <- colours lo hi l; Ok (a :: b)
  end.
(** the fibers with their colours and the ends of the colour bar (net.py 812-814, 819-827, 836); the minimum of
    an empty array raises ValueError *)
Definition draw_loads (m : qmat) (load : list Q) : res (list (line * num) * (Q * Q)) :=
  match load with
  | [] => Exn ValueErr
  | x :: l =>
    let lo := qmin_list x l in
    let hi := qmax_list x l in
    do c <- colours lo hi (x :: l);
    Ok (combine (mat_picture m) c, (lo, hi))
  end.
(** the forces returned with the heights, for a mat with fibers (net.py 795-800); the product with a
    vector of forces of another length raises ValueError (net.py 800) *)
Definition with_forces {A} (marg : lp -> list Q) (m : qmat) (t : net_df) (k : lp -> list Q -> res A) : res A :=
  do p <- stack_constraint m t;
  match q_rows m with
  | [] => Exn AttrErr
  | _ => if negb (Nat.eqb (length (marg p)) (length (lpH p))) then Exn ValueErr else k p (marg p)
  end.
(** what the script draws for the fibers (net.py 795-814, 819-827, 836); [m] is the mat moved by
    [Stack] and [t] the network it was built from, as for [stack_picture] *)
Definition load_picture (marg : lp -> list Q) (m : qmat) (t : net_df) : res (list (line * num) * (Q * Q)) :=
  with_forces marg m t (fun p force => draw_loads m (load_ratio m (loads p force))).
(** what the cell 24 of jupyter-notebook.ipynb draws: the forces are divided before they are summed *)
Definition cell_loads (marg : lp -> list Q) (m : qmat) (t : net_df) : res (list (line * num) * (Q * Q)) :=
  with_forces marg m t (fun p force => draw_loads m (loads p (load_ratio m force))).
