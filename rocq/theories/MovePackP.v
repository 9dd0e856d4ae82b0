(** Proofs about packing a mat moved in its plane (C100). *)
From Coq Require Import String.
From Verif Require Import Num NumP ListX ListP Frames MatM NetM StackM MeshM ModelM SolverM InterpM ResultM RenderM VtkM MainM PictureM ScriptsM
  Spec SpecNet SpecStack SpecMesh SpecModel SpecSolver SpecInterp SpecPerm SpecScale SpecMain SpecScripts SpecProgress SpecPack SpecMeta SpecTorus SpecMove
  NetP NetZP StackNewP MainP SolverFinP ScaleP ScriptsP ProgressFinP PackP UnitsP MoveP.
Open Scope Q_scope.

(** lengths of the recorded vectors *)
Lemma seen_results U lsolve lsolve' m m' g g' p p' S h S' h' size : units_ok U -> mesh_seen U g g' ->
  solve lsolve m g p = Ok (S, h) -> solve lsolve' m' g' p' = Ok (S', h') -> Forall2 (record_in U S S') h h' ->
  results_in U (results_of S h size) (results_of S' h' size).
Proof.
  intros HU HG E E' F. apply results_seen; [exact HU|exact F|]. intros s s' Hs Hs'.
  destruct (solve_inv _ _ _ _ _ _ E) as (_ & cs & _ & Hcs & _). destruct (solve_inv _ _ _ _ _ _ E') as (_ & cs' & _ & Hcs' & _).
  destruct (fin_lengths _ _ _ _ _ _ E cs Hcs s Hs) as (L & _). destruct (fin_lengths _ _ _ _ _ _ E' cs' Hcs' s' Hs') as (L' & _).
  rewrite L, L', (Forall2_len _ _ _ HG). reflexivity.
Qed.

(** the moved mat is ready as well *)
Lemma move_ready M U per m m' thr thr' p p' size : carried M U per m m' -> 0 < un_mod U -> valid m' -> option_in U thr thr' -> params_in U p p' ->
  tolerances_ok p' -> 3 * sp_errtol p' < 1 -> sp_perm p' = None -> ready m thr p size -> ready m' thr' p' size.
Proof.
  intros HC HU V' HT (P1 & P2 & P3 & P4 & P5 & P6) T' E3' N' (V & NE & FL & FS & W & T & E3 & CP & (l & L1 & L2) & LM & N & SZ).
  pose proof HC as ((KP & _) & HK & F & _). assert (L : 0 < un_len U) by (rewrite <- HK; exact KP).
  split; [exact V'|]. split; [intros E; rewrite E in F; inversion F as [X|]; exact (NE (eq_sym X))|].
  split; [exact (carried_flat M U per m m' HC FL)|]. split.
  { intros f' Hf'. destruct (carried_in M U per m m' HC f' Hf') as (f & Hf & (_ & (_ & _ & EG & _))). destruct (FS f Hf) as (G & E). rewrite E in EG.
    destruct (t_fin_r _ _ _ EG) as (q & -> & _). exists q. reflexivity. }
  split.
  { unfold wide in *. destruct thr as [d|], thr' as [d'|]; cbn [option_in] in HT; try contradiction; [|exact I]. intros f' g' Hf' Hg'.
    destruct (carried_in M U per m m' HC f' Hf') as (f & Hf & (_ & (_ & EF & _))). destruct (carried_in M U per m m' HC g' Hg') as (g & Hg & (_ & (_ & EG & _))).
    specialize (W f g Hf Hg). rewrite EF, EG, HT. setoid_replace ((un_len U * qh f + un_len U * qh g) / 2) with (un_len U * ((qh f + qh g) / 2)) by field.
    apply Qmult_le_l; assumption. }
  split; [exact T'|]. split; [exact E3'|]. split; [rewrite P6; exact CP|]. split.
  { rewrite L1 in P4. destruct (sp_lmin p') as [l'|]; cbn [option_in] in P4; [|contradiction]. exists l'. split; [reflexivity|]. rewrite P4. apply Qmult_lt_0_compat; assumption. }
  split; [|split; [exact N'|exact SZ]].
  intros l' E. rewrite E in P5. destruct (sp_lmax p) as [l0|]; cbn [option_in] in P5; [|contradiction]. rewrite P5. apply Qmult_lt_0_compat; [exact L|]. exact (LM _ eq_refl).
Qed.

Theorem move_solve linprog linprog' lsolve lsolve' M U per m m' t t' : right_linprog linprog -> right_linprog linprog' -> direct_solver lsolve -> direct_solver lsolve' ->
  carried M U per m m' -> 0 < un_mod U -> net_new m per None = Ok t -> net_new m' per None = Ok t' ->
  forall thr thr' p p' size, ready m thr p size -> option_in U thr thr' -> params_in U p p' -> tolerances_ok p' -> 3 * sp_errtol p' < 1 -> sp_perm p' = None ->
  forall st st' n n' g g' S h S' h', stack_new linprog m t thr = Ok (st, n) -> stack_new linprog' m' t' thr' = Ok (st', n') ->
  mesh_new st = Ok g -> mesh_new st' = Ok g' -> solve lsolve n g p = Ok (S, h) -> solve lsolve' n' g' p' = Ok (S', h') ->
  Forall2 (record_in U S S') h h' /\ results_in U (results_of S h size) (results_of S' h' size).
Proof.
  intros LP LP' DS DS' HC HU Ht Ht' thr thr' p p' size RD HT HP T' E3' N' st st' n n' g g' S h S' h' R1 R2 Hg Hg' E E'.
  assert (UO : units_ok U) by (split; [destruct HC as ((KP & _) & HK & _); rewrite <- HK; exact KP|exact HU]).
  assert (FL : all_in_plane m) by (destruct RD as (_ & _ & FL & _); exact FL). pose proof RD as RD'.
  pose proof (mv_mat linprog linprog' M U per m m' t t' HC Ht Ht' (LP _ _ _ Ht) (LP' _ _ _ Ht') thr thr' st st' n n' R1 R2) as HM.
  pose proof (mv_mesh linprog linprog' M U per m m' t t' HC FL Ht Ht' (LP _ _ _ Ht) (LP' _ _ _ Ht') thr thr' st st' n n' HT R1 R2 g g' Hg Hg') as HG.
  assert (F : Forall2 (record_in U S S') h h').
  { destruct (made_facts linprog' LP' m' per thr' t' st' n' g' Ht' R2 Hg') as (_ & _ & _ & NF' & _).
    apply (seen_calls U lsolve lsolve' n n' g g' p p' S h S' h' UO HM HG HP DS DS'); auto.
    - exact (pk_sound linprog lsolve LP DS m per thr p size RD' t st n g Ht R1 Hg).
    - exact (pk_held linprog LP m per thr p size RD' t st n g Ht R1 Hg).
    - exact (pk_numbering m thr p size RD' S).
    - rewrite N'. exact I. }
  split; [exact F|]. exact (seen_results U lsolve lsolve' n n' g g' p p' S h S' h' size UO HG E E' F).
Qed.

Theorem move_pack linprog linprog' lsolve lsolve' cyl cyl' place place' near near' M U per m m' : right_linprog linprog -> right_linprog linprog' ->
  direct_solver lsolve -> direct_solver lsolve' -> carried M U per m m' -> 0 < un_mod U ->
  forall thr thr' p p' size, ready m thr p size -> option_in U thr thr' -> params_in U p p' -> tolerances_ok p' -> 3 * sp_errtol p' < 1 -> sp_perm p' = None ->
  forall k k', pack linprog lsolve cyl place near "solve" m per thr p size = Ok k -> pack linprog' lsolve' cyl' place' near' "solve" m' per thr' p' size = Ok k' ->
  mesh_seen U (pk_mesh k) (pk_mesh k') /\ results_in U (pk_results k) (pk_results k').
Proof.
  intros LP LP' DS DS' HC HU thr thr' p p' size RD HT HP T' E3' N' k k' H H'.
  destruct (pack_inv linprog lsolve cyl place near _ _ _ _ _ _ H) as (cs & S & h & dd & rr & ff & tt & Hn & Hst & Hg & HS & ER & _).
  destruct (pack_inv linprog' lsolve' cyl' place' near' _ _ _ _ _ _ H') as (cs' & S' & h' & dd' & rr' & ff' & tt' & Hn' & Hst' & Hg' & HS' & ER' & _).
  split.
  - destruct RD as (_ & _ & FL & _).
    exact (mv_mesh linprog linprog' M U per m m' _ _ HC FL Hn Hn' (LP _ _ _ Hn) (LP' _ _ _ Hn') thr thr' _ _ _ _ HT Hst Hst' _ _ Hg Hg').
  - rewrite ER, ER'. refine (proj2 (move_solve linprog linprog' lsolve lsolve' M U per m m' _ _ LP LP' DS DS' HC HU Hn Hn' thr thr' p p' size RD HT HP T' E3' N' _ _ _ _ _ _ S h S' h' Hst Hst' Hg Hg' HS HS')).
Qed.
