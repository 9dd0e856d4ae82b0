(** Property theorems: the fibers drawn by the scripts at the end of mat.py and net.py, and their colours (C91). *)
From Verif Require Import Num NumP ListX ListP Frames MatM NetM StackM ModelM InterpM VtkM PictureM ColourM
  Spec SpecNet SpecStack SpecPicture SpecColour CheckP NetP StackP StackForceP StackNewP PictureP ColourP PropsNet PropsStack PropsModel PropsPicture.
Open Scope Q_scope.

(** ** C91: the fibers drawn, and the colours that show what they carry *)
(** one line per fiber, in their order, that covers the axis of the fiber *)
Theorem C91_lines : forall m, valid m -> length (mat_picture m) = length (q_rows m) /\
  forall k f, has_fiber m k f -> exists s, nth_error (mat_picture m) (Z.to_nat k) = Some s /\ forall p, on_line p s <-> on_fiber_axis p f.
Proof. exact mat_lines. Qed.
(** the nodes of a network are on the lines of their fibers *)
Theorem C91_nodes : forall m per pairs t k c, net_new m per pairs = Ok t -> is_row t k c ->
  exists a b, nth_error (mat_picture m) (Z.to_nat (cA c)) = Some a /\ nth_error (mat_picture m) (Z.to_nat (cB c)) = Some b /\
    on_line (mkVec (cxA c) (cyA c) (czA c)) a /\ on_line (mkVec (cxB c) (cyB c) (czB c)) b.
Proof. exact net_points. Qed.
(** each fiber of a stack has a colour: 0 for the most loaded, 1 for those that carry nothing, linear in
    between; the colour bar goes from minus the largest load, relative to the mean weight, to 0 *)
Theorem C91_colours : forall linprog marg m per t st m' thr, net_new m per None = Ok t -> solved linprog m t ->
  priced linprog marg m t -> q_rows m <> [] -> stack_new linprog m t thr = Ok (st, m') ->
  exists p l lo hi, stack_constraint m t = Ok p /\ load_picture marg m' t = Ok (l, (lo, hi)) /\ loads_shown m m' t (map Qopp (marg p)) l lo hi.
Proof. exact coloured. Qed.
(** the cell of the notebook, which divides the forces first, does the same *)
Theorem C91_notebook : forall linprog marg m per t st m' thr, net_new m per None = Ok t -> solved linprog m t ->
  priced linprog marg m t -> q_rows m <> [] -> stack_new linprog m t thr = Ok (st, m') ->
  exists p l lo hi, stack_constraint m t = Ok p /\ cell_loads marg m' t = Ok (l, (lo, hi)) /\ loads_shown m m' t (map Qopp (marg p)) l lo hi.
Proof. exact coloured_cell. Qed.
(** without fibers the script stops *)
Theorem C91_empty : forall marg m t p, stack_constraint m t = Ok p -> q_rows m = [] -> load_picture marg m t = Exn AttrErr /\ cell_loads marg m t = Exn AttrErr.
Proof. intros marg m t p E R. exact (proj2 (empty_raises marg m t t p E R)). Qed.
Theorem C83_empty : forall marg m t st p, stack_constraint m t = Ok p -> q_rows m = [] -> stack_picture marg m t st = Exn AttrErr.
Proof. intros marg m t st p E R. exact (proj1 (empty_raises marg m t st p E R)). Qed.

(** ** cases *)
(** the three fibers of [ex_mats] *)
Example ex_mat_lines : map ex_seg (mat_picture (ex_mats 2)) =
  [[5 # 2; 4; -3; 13 # 2; 4; -3]; [-6; -6; 0; -3; -2; 0]; [9 # 2; 5 # 2; 2; 9 # 2; 11 # 2; 2]].
Proof. vm_compute. reflexivity. Qed.
(** fiber 2 carried by fiber 0 alone, by fiber 1 alone, or by both *)
Definition ex_colours (a : Q) : list num := match load_picture (ex_marg a) ex_stm (ex_t None) with
  Ok (l, _) => map (fun e => match snd e with Fin q => Fin (Qred q) | x => x end) l | Exn _ => [] end.
Example ex_coloured : ex_colours 1 = [Fin 0; Fin 1; Fin 1] /\ ex_colours 0 = [Fin 1; Fin 0; Fin 1] /\ ex_colours (1 # 4) = [Fin (2 # 3); Fin 0; Fin 1].
Proof. vm_compute. repeat split; reflexivity. Qed.
Example ex_colours_meet : exists l lo hi l' lo' hi', load_picture (ex_marg (1 # 4)) ex_stm (ex_t None) = Ok (l, (lo, hi)) /\ cell_loads (ex_marg (1 # 4)) ex_stm (ex_t None) = Ok (l', (lo', hi')) /\
  hi == 0 /\ - (3) < lo /\ hi' == 0 /\ - (3) < lo'.
Proof.
  assert (E : stack_new ex_greedy (ex_mats 2) (ex_t None) None = Ok (fst (ex_st None None), ex_stm)) by (vm_compute; reflexivity).
  destruct (C91_colours _ _ _ _ _ _ _ _ ex_t_all ex_solved (ex_priced (1 # 4) ltac:(lra)) ltac:(discriminate) E) as (p & l & lo & hi & _ & A & (M & _ & _ & B & _ & C & _)).
  destruct (C91_notebook _ _ _ _ _ _ _ _ ex_t_all ex_solved (ex_priced (1 # 4) ltac:(lra)) ltac:(discriminate) E) as (p' & l' & lo' & hi' & _ & A' & (M' & _ & _ & B' & _ & C' & _)).
  exists l, lo, hi, l', lo', hi'. repeat (split; [assumption|]). exact C'.
Qed.
Definition ex_none : qmat := mkQmat [] 10.
Example ex_empty : exists t p, net_new ex_none true None = Ok t /\ stack_constraint ex_none t = Ok p /\ q_rows ex_none = [].
Proof. eexists. eexists. split; [vm_compute; reflexivity|]. split; [vm_compute; reflexivity|reflexivity]. Qed.

(** the colours depend on the forces that the solver returns, which are not unique *)
Theorem C91_unique_refuted : ~ (forall linprog marg marg' m per t st m' l b l' b', net_new m per None = Ok t -> solved linprog m t ->
  priced linprog marg m t -> priced linprog marg' m t -> stack_new linprog m t None = Ok (st, m') ->
  load_picture marg m' t = Ok (l, b) -> load_picture marg' m' t = Ok (l', b') -> map snd l = map snd l').
Proof.
  intros H. assert (E : stack_new ex_greedy (ex_mats 2) (ex_t None) None = Ok (fst (ex_st None None), ex_stm)) by (vm_compute; reflexivity).
  pose proof (fun l b l' b' => H _ _ _ _ _ _ _ _ l b l' b' ex_t_all ex_solved (ex_priced 1 ltac:(lra)) (ex_priced 0 ltac:(lra)) E) as K.
  destruct ex_coloured as (C1 & C2 & _). unfold ex_colours in C1, C2.
  destruct (load_picture (ex_marg 1) ex_stm (ex_t None)) as [[l b]|]; [|discriminate C1].
  destruct (load_picture (ex_marg 0) ex_stm (ex_t None)) as [[l' b']|]; [|discriminate C2].
  specialize (K l b l' b' eq_refl eq_refl).
  assert (G : forall l : list (line * num), map (fun e => match snd e with Fin q => Fin (Qred q) | x => x end) l = map (fun x => match x with Fin q => Fin (Qred q) | x => x end) (map snd l))
    by (intros; rewrite map_map; apply map_ext; intros [? []]; reflexivity).
  rewrite (G l), K, <- (G l'), C2 in C1. discriminate C1.
Qed.

Print Assumptions C91_lines.
Print Assumptions C91_nodes.
Print Assumptions C91_colours.
Print Assumptions C91_notebook.
Print Assumptions C91_empty.
Print Assumptions C83_empty.
Print Assumptions C91_unique_refuted.
