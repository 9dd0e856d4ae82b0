(** Property theorems: packing with a direct solver, from any mat, in the scripts and in the notebook (C95). *)
From Coq Require Import String.
From Verif Require Import Num NumP ListX ListP Frames MatM NetM StackM MeshM ModelM SolverM InterpM ResultM RenderM VtkM PlotM MainM PictureM ScriptsM SettingsM NotebookM
  Spec SpecNet SpecStack SpecMesh SpecModel SpecSolver SpecInterp SpecRender SpecVtk SpecPerm SpecScale SpecMain SpecDraw SpecScripts SpecSettings SpecPicture SpecNotebook
  SpecProgress SpecStiffen SpecPack
  ScriptsP PackP PackEndP PropsMat PropsStack PropsSolver PropsVtk PropsPlot PropsMain PropsScripts PropsSettings PropsNotebook PropsProgress GaussX.
Open Scope Q_scope.

(** ** C95: packing with a direct solver *)
(** from any valid mat of flat fibers, nothing raises, and the error tolerance has no effect *)
Theorem C95_total : forall linprog lsolve cyl place near, right_linprog linprog -> direct_solver lsolve -> forall m per thr p size, ready m thr p size ->
  unit_cylinder cyl -> right_tree near -> exists k, pack linprog lsolve cyl place near "solve" m per thr p size = Ok k.
Proof. exact pack_ends. Qed.
Theorem C95_errtol : forall linprog lsolve cyl place near, right_linprog linprog -> direct_solver lsolve -> forall m per thr p size, ready m thr p size ->
  pack linprog lsolve cyl place near "solve" m per thr p size = pack linprog lsolve cyl place near "solve" m per thr (strict p) size.
Proof. exact pack_strict. Qed.
(** the fibers end packed, and the mat has stiffened *)
Theorem C95_packs : forall linprog lsolve cyl place near, right_linprog linprog -> direct_solver lsolve -> forall m per thr p size, ready m thr p size ->
  forall k, pack linprog lsolve cyl place near "solve" m per thr p size = Ok k -> forall K cs S s, packed_run lsolve p size k K cs S s ->
  packs (pk_mat k) (pk_mesh k) p cs S s (pk_results k).
Proof. exact pack_packs. Qed.
(** so do those of main.py, of square.py and logo.py (with the name of the function), and of the notebook *)
Theorem C95_main : forall R cos sin linprog rcm lsolve cyl place near, right_linprog linprog -> direct_solver lsolve -> right_numbering rcm ->
  forall o, options_ok o -> bending sin o -> forall ent prior out, script R cos sin linprog rcm lsolve cyl place near o ent prior = Ok out ->
  forall K cs S s, solver_run lsolve o out K cs S s -> packs (out_mat out) (out_mesh out) (solver_args o (out_perm out)) cs S s (out_results out).
Proof. exact main_packs. Qed.
Theorem C95_square : forall R cos sin linprog lsolve cyl place near, right_linprog linprog -> direct_solver lsolve -> draws_in_range R -> trig_accurate cos sin -> flat_sin sin ->
  unit_cylinder cyl -> right_tree near -> forall n ent prior, (1 <= n)%Z -> exists k p K cs S s, square R cos sin linprog lsolve cyl place near "solve" n ent prior = Ok k /\
    Z.of_nat (length (q_rows (pk_mat k))) = n /\ usual_args p /\ packed_run lsolve p (Some 100%nat) k K cs S s /\ packs (pk_mat k) (pk_mesh k) p cs S s (pk_results k).
Proof. exact square_packs. Qed.
Theorem C95_logo : forall R cos sin linprog lsolve cyl place near, right_linprog linprog -> direct_solver lsolve -> draws_in_range R -> trig_accurate cos sin -> flat_sin sin ->
  unit_cylinder cyl -> right_tree near -> forall n ent prior, (exists p, In p (drawn R n) /\ on_letter p) ->
  exists k p K cs S s xy, logo R cos sin linprog lsolve cyl place near "solve" n ent prior = Ok k /\
    those on_letter (drawn R n) xy /\ Forall2 lies_at xy (q_rows (pk_mat k)) /\ usual_args p /\ packed_run lsolve p (Some 100%nat) k K cs S s /\
    packs (pk_mat k) (pk_mesh k) p cs S s (pk_results k).
Proof. exact logo_packs. Qed.
Theorem C95_book : forall R cos sin linprog lsolve cyl place near, right_linprog linprog -> direct_solver lsolve -> draws_in_range R -> trig_accurate cos sin -> flat_sin sin ->
  unit_cylinder cyl -> right_tree near -> forall marg, right_marginals linprog marg -> forall o, options_ok o -> bending sin o -> forall ent prior,
  exists l k b, notebook R cos sin linprog marg lsolve cyl place near o ent prior = Ok (l, k, b).
Proof. exact book_ends. Qed.
Theorem C95_book_packs : forall R cos sin linprog lsolve cyl place near, right_linprog linprog -> direct_solver lsolve -> draws_in_range R -> trig_accurate cos sin ->
  unit_cylinder cyl -> right_tree near -> forall marg o, options_ok o -> bending sin o -> forall ent prior l k b,
  notebook R cos sin linprog marg lsolve cyl place near o ent prior = Ok (l, k, b) ->
  exists K cs S h s, stiffness (bk_mat b) (bk_mesh b) (op_lmin o) (op_lmax o) (op_coupling o) = Ok K /\ constraint (bk_mat b) (bk_mesh b) = Ok cs /\
    solve lsolve (bk_mat b) (bk_mesh b) (book_args o) = Ok (S, h) /\ bk_results b = results_of S h (op_size o) /\ last_state h s /\
    packs (bk_mat b) (bk_mesh b) (book_args o) cs S s (bk_results b).
Proof. exact book_packs. Qed.
(** the settings after cell 7 of the notebook are such options, when the fibers are at most 10 thick *)
Theorem C95_cell7 : forall s, reachable s -> (forall k, untouched k cell7 -> ~ modulus k -> finite_setting s k) -> get_item s Kitermax <> VOther ->
  (forall k q, k = Klength \/ k = Kwidth \/ k = Kthickness -> get_item s k = VNum (Fin q) -> 0 < q) ->
  (forall x, stands (get_item s Kshear) x -> exists G, x = Fin G /\ 0 < G) ->
  (forall q, get_item s Kthickness = VNum (Fin q) -> q <= 10) -> (forall q, get_item s Klmax = VNum (Fin q) -> 0 < q) ->
  exists s' o, set_all s cell7 = (s', None) /\ options_of s' = Some o /\ asks s' o /\ options_ok o /\ forall sin, flat_sin sin -> bending sin o.
Proof. exact cell7_bending. Qed.

(** ** examples *)
(** three fibers laid by hand *)
Example ex_hand_ready : ready ex_hand (Some 2) (ex_args (1 # 1000000)) None.
Proof.
  destruct (ex_hand_ok (1 # 1000000) ltac:(lra)) as (V & NE & T & SZ & _). split; [exact V|]. split; [exact NE|].
  split; [intros f Hf; repeat (destruct Hf as [<-|Hf]; [reflexivity|]); destruct Hf|].
  split; [intros f Hf; repeat (destruct Hf as [<-|Hf]; [eexists; reflexivity|]); destruct Hf|].
  split; [intros f f' Hf Hf'; repeat (destruct Hf as [<-|Hf]; [repeat (destruct Hf' as [<-|Hf']; [discriminate|]); destruct Hf'|]); destruct Hf|].
  split; [exact T|]. split; [cbn; lra|]. split; [cbn; lra|]. split; [eexists; split; [reflexivity|lra]|]. split; [intros l E; discriminate E|]. split; [reflexivity|exact SZ].
Qed.
Example ex_hand_packs : exists k K cs S s, pack ex_greedy gauss ex_cyl ex_place ex_near "solve" ex_hand true (Some 2) (ex_args (1 # 1000000)) None = Ok k /\
  packed_run gauss (ex_args (1 # 1000000)) None k K cs S s /\ packs (pk_mat k) (pk_mesh k) (ex_args (1 # 1000000)) cs S s (pk_results k).
Proof.
  destruct (C95_total ex_greedy gauss ex_cyl ex_place ex_near ex_greedy_right ex_gauss_direct _ true _ _ _ ex_hand_ready ex_cyl_unit ex_near_right) as (k & RUN).
  destruct (pack_inv _ _ _ _ _ _ _ _ _ _ _ RUN) as (cs & S & h & dd & rr & ff & tt & _ & _ & _ & HS & ER & Hcs & _).
  destruct (SolverFinP.solve_inv _ _ _ _ _ _ HS) as (K & cs' & HK & _ & _ & Eh). destruct (MainP.last_ex h) as (s & Hs); [rewrite Eh; discriminate|].
  assert (PR : packed_run gauss (ex_args (1 # 1000000)) None k K cs S s). { split; [exact HK|]. split; [exact Hcs|]. exists h. auto. }
  exists k, K, cs, S, s. split; [exact RUN|]. split; [exact PR|].
  exact (C95_packs _ _ _ _ _ ex_greedy_right ex_gauss_direct _ _ _ _ _ ex_hand_ready k RUN K cs S s PR).
Qed.
(** the scripts as they were meant, and the notebook as published *)
Example ex_meant_packs ent prior : exists k p K cs S s, square ex_rng ex_cos ex_sin ex_greedy gauss ex_cyl ex_place ex_near "solve" 3000 ent prior = Ok k /\
  usual_args p /\ packed_run gauss p (Some 100%nat) k K cs S s /\ packs (pk_mat k) (pk_mesh k) p cs S s (pk_results k).
Proof.
  destruct (C95_square ex_rng ex_cos ex_sin ex_greedy gauss ex_cyl ex_place ex_near ex_greedy_right ex_gauss_direct ex_draws ex_trig ex_flat ex_cyl_unit ex_near_right 3000%Z ent prior ltac:(lia))
    as (k & p & K & cs & S & s & A & _ & B & C & D). exists k, p, K, cs, S, s. auto.
Qed.
Example ex_logo_packs ent prior : exists k p K cs S s, logo ex_rng ex_cos ex_sin ex_greedy gauss ex_cyl ex_place ex_near "solve" 12 ent prior = Ok k /\
  packed_run gauss p (Some 100%nat) k K cs S s /\ packs (pk_mat k) (pk_mesh k) p cs S s (pk_results k).
Proof.
  destruct ex_twelve as ([|x xy] & T & L); [discriminate L|].
  destruct (C95_logo ex_rng ex_cos ex_sin ex_greedy gauss ex_cyl ex_place ex_near ex_greedy_right ex_gauss_direct ex_draws ex_trig ex_flat ex_cyl_unit ex_near_right 12%nat ent prior)
    as (k & p & K & cs & S & s & xy' & A & _ & _ & _ & C & D); [exists x; exact (those_in _ _ _ x T (or_introl eq_refl))|]. exists k, p, K, cs, S, s. auto.
Qed.
Example ex_book_packs : exists s s' o, settings_new defaults = Ret s /\ set_all s cell7 = (s', None) /\ options_of s' = Some o /\
  forall ent prior, exists l k b K cs S h u, notebook ex_rng ex_cos ex_sin ex_greedy ex_marg gauss ex_cyl ex_place ex_near o ent prior = Ok (l, k, b) /\
    stiffness (bk_mat b) (bk_mesh b) (op_lmin o) (op_lmax o) (op_coupling o) = Ok K /\
    solve gauss (bk_mat b) (bk_mesh b) (book_args o) = Ok (S, h) /\ last_state h u /\ packs (bk_mat b) (bk_mesh b) (book_args o) cs S u (bk_results b).
Proof.
  destruct ex_cell5 as (s & E & R & F & IT & P & G & _).
  destruct (C95_cell7 s R F IT P) as (s' & o & E1 & E2 & A & OK & BO).
  { injection E as <-. intros x H. vm_compute in H. inversion H. eexists. split; reflexivity. }
  { injection E as <-. intros q H. vm_compute in H. injection H as <-. discriminate. }
  { injection E as <-. intros q H. vm_compute in H. discriminate H. }
  exists s, s', o. split; [exact E|]. split; [exact E1|]. split; [exact E2|]. intros ent prior. specialize (BO ex_sin ex_flat).
  destruct (C95_book ex_rng ex_cos ex_sin ex_greedy gauss ex_cyl ex_place ex_near ex_greedy_right ex_gauss_direct ex_draws ex_trig ex_flat ex_cyl_unit ex_near_right
    ex_marg ex_marg_right o OK BO ent prior) as (l & k & b & RUN).
  destruct (C95_book_packs ex_rng ex_cos ex_sin ex_greedy gauss ex_cyl ex_place ex_near ex_greedy_right ex_gauss_direct ex_draws ex_trig ex_cyl_unit ex_near_right
    ex_marg o OK BO ent prior l k b RUN) as (K & cs & S & h & u & H1 & H2 & H3 & H4 & H5 & H6). exists l, k, b, K, cs, S, h, u. auto 8.
Qed.

Print Assumptions C95_total.
Print Assumptions C95_packs.
Print Assumptions C95_main.
Print Assumptions C95_square.
Print Assumptions C95_logo.
Print Assumptions C95_book.
Print Assumptions C95_book_packs.
Print Assumptions C95_cell7.
