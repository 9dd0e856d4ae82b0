(** Model of the tests of the stacking, test/test_net.py 137-180.  The other tests of the project compare tables with literals; they
    are run on the model in Conform.v. *)
From Verif Require Import Num ListX Frames MatM NetM StackM MainM.
Open Scope Q_scope.

(** [mat.l = ...; mat.h = ...] (test_net.py 143-144, 166-167): new columns, in the order of the rows.  The values drawn by
    [np.random.normal] are arguments; their mean and deviation are not modelled *)
Fixpoint redrawn (fs : list qfiber) (ls hs : list Q) : list qfiber :=
  match fs, ls, hs with
  | f :: fs', l :: ls', h :: hs' =>
    mkQ l (qb f) h (qx f) (qy f) (qz f) (qu f) (qv f) (qw f) (qG f) (qE f) :: redrawn fs' ls' hs'
  | _, _, _ => []
  end.
(** assignment [z[j] = x] (test_net.py 154, 177) *)
Fixpoint assign (j : nat) (x : Q) (z : list Q) : list Q :=
  match z, j with
  | [], _ => []
  | _ :: t, O => x :: t
  | a :: t, S j' => a :: assign j' x t
  end.
(** [max(z[i] + 0.5 * (h[i] + h[j]), z[j])] (test_net.py 154, 177): the first one unless the second one is greater *)
Definition higher (h z : list Q) (i j : nat) : Q :=
  let a := nth i z 0 + (1 # 2) * (nth i h 0 + nth j h 0) in
  let b := nth j z 0 in
  if Qltb a b then b else a.
(** [net[[*"AB"]][net.A < net.B].values] (test_net.py 153, 176) *)
Definition upward (t : net_df) : list (Z * Z) :=
  map (fun r => (cA (snd r), cB (snd r))) (filter (fun r => Z.ltb (cA (snd r)) (cB (snd r))) (n_rows t)).
(** the heights the test expects (test_net.py 149-154, 172-177) *)
Definition expected (m : qmat) (t : net_df) : list Q :=
  let h := map qh (q_rows m) in
  fold_left (fun z e => let i := Z.to_nat (fst e) in let j := Z.to_nat (snd e) in assign j (higher h z i j) z)
    (upward t) (map (fun x => (1 # 2) * x) h).
(** [np.all(mat.z == z)] (test_net.py 156, 179) *)
Fixpoint all_equal (l l' : list Q) : bool :=
  match l, l' with
  | [], [] => true
  | x :: t, y :: t' => Qeqb x y && all_equal t t'
  | _, _ => false
  end.
(** [Mat(100, thickness=0.1, psi=0, seed=None)] with the other defaults of mat.py 159-160 (test_net.py 142, 165); [pi] is [np.pi] *)
Definition test_mat (pi : Q) : mat_params := mkParams 100 25 1 (1 # 10) 50 pi 0 (Fin 1) PInf None.
(** from the network on, for the mat with its new columns (test_net.py 145-157, 168-180) *)
Definition stacking_test (linprog : lp -> list Q) (m : qmat) : res unit :=
  do t <- net_new m true None;
  do sm <- stack_new linprog m t None;
  if all_equal (map qz (q_rows (snd sm))) (expected (snd sm) t) then Ok tt else Exn ValueErr.
(** [test_stack_finite] and [test_stack_periodic] (test_net.py 137-157, 160-180), which are the same *)
Definition test_stack (R : rng) (cos sin : Q -> Q) (linprog : lp -> list Q) (pi : Q) (ls hs : list Q) (ent prior : rng_state R) : res unit :=
  do ms <- mat_new R cos sin (test_mat pi) ent prior;
  let m := read_mat (fst ms) in
  stacking_test linprog (mkQmat (redrawn (q_rows m) ls hs) (q_size m)).
