(** Property theorems for the mechanical model (C29 - C35, C56, C57). *)
From Coq Require Import String.
From Verif Require Import Num NumP ListX ListP Frames MatM NetM StackM MeshM ModelM Spec SpecNet SpecStack SpecMesh SpecModel
  CheckP MeshCheckP NetP StackP StackNewP MeshP StiffP StiffLimP StiffLenP ConstraintP PropsNet PropsStack PropsMesh.
Open Scope Q_scope.

(** ** C29: K is symmetric and couples only neighbours on one fiber *)
Theorem C29_total : forall m g lmin lmax c, valid m -> mesh_ok g ->
  at_n (g_attrs g) = Some (Z.of_nat (length (q_rows m))) -> (exists i j d e, beam_element g i j d e) ->
  exists K, stiffness m g lmin lmax c = Ok K.
Proof. exact stiffness_total. Qed.
Theorem C29_symmetric : forall m g lmin lmax c K, stiffness m g lmin lmax c = Ok K -> ~ flag_set (g_attrs g) ->
  forall r x, neqv (entry K r x) (entry K x r).
Proof. exact stiff_symmetric. Qed.
Theorem C29_local : forall m g lmin lmax c K, stiffness m g lmin lmax c = Ok K -> ~ flag_set (g_attrs g) ->
  forall r x v, In (r, x, v) K -> neighbours g (Nat.div r 2) (Nat.div x 2).
Proof. exact stiff_local. Qed.

(** ** C57: K is the sum of the documented beam matrices *)
Theorem C57_assembly : forall m g lmin lmax c K, stiffness m g lmin lmax c = Ok K -> ~ flag_set (g_attrs g) ->
  lengths_ok g lmin lmax -> finite_moduli m ->
  exists len : nat -> Q,
    (forall r x, neqv (entry K r x) (Fin (assembled m g c len r x))) /\
    (lmin = None -> lmax = None -> forall i j d e, beam_element g i j d e -> len i == ns e - ns d).
Proof.
  exact (fun m g lmin lmax c K HK Hf HL HF => match stiff_lengths m g lmin lmax c K HK Hf HL HF with
    ex_intro _ len (conj a (conj _ (conj _ d))) => ex_intro _ len (conj a d) end).
Qed.

(** ** C30: K is positive semi-definite *)
Theorem C30_finite : forall m g lmin lmax c K, stiffness m g lmin lmax c = Ok K -> ~ flag_set (g_attrs g) ->
  lengths_ok g lmin lmax -> finite_moduli m -> all_finite K.
Proof. exact stiff_finite. Qed.
Theorem C30_psd : forall m g lmin lmax c K, stiffness m g lmin lmax c = Ok K -> ~ flag_set (g_attrs g) ->
  lengths_ok g lmin lmax -> finite_moduli m -> forall u, c * c <= 1 -> 0 <= quadratic K u.
Proof. exact stiff_psd. Qed.

(** ** C31: kernel of K *)
Theorem C31_translations : forall m g lmin lmax c K, stiffness m g lmin lmax c = Ok K -> ~ flag_set (g_attrs g) ->
  lengths_ok g lmin lmax -> finite_moduli m -> forall u r, translates g u -> product K u r == 0.
Proof. exact translation_kernel. Qed.
Theorem C31_kernel : forall m g c K, stiffness m g None None c = Ok K -> ~ flag_set (g_attrs g) ->
  lengths_ok g None None -> finite_moduli m -> c == 1 ->
  forall u, (forall r, product K u r == 0) <-> rigid g u.
Proof.
  exact (fun m g c K HK Hf HL HF Hc u => conj
    (kernel_rigid m g None None c K HK Hf HL HF eq_refl eq_refl u Hc)
    (fun H r => rigid_kernel m g None None c K HK Hf HL HF eq_refl eq_refl u r Hc H)).
Qed.
Theorem C31_kernel_coupled : forall m g lmin lmax c K, stiffness m g lmin lmax c = Ok K -> ~ flag_set (g_attrs g) ->
  lengths_ok g lmin lmax -> finite_moduli m -> c * c < 1 ->
  forall u, (forall r, product K u r == 0) <-> translates_only g u.
Proof.
  exact (fun m g lmin lmax c K HK Hf HL HF Hc u => conj
    (kernel_translates m g lmin lmax c K HK Hf HL HF u Hc)
    (fun H r => translates_only_kernel m g lmin lmax c K HK Hf HL HF u r H)).
Qed.

(** ** C32: lengths used by the elements *)
Theorem C32_lengths : forall m g lmin lmax c K, stiffness m g lmin lmax c = Ok K -> ~ flag_set (g_attrs g) ->
  lengths_ok g lmin lmax -> finite_moduli m ->
  exists len : nat -> Q,
    (forall i j d e f G E, beam_element g i j d e -> has_fiber m (nf d) f -> qG f = Fin G -> qE f = Fin E ->
       neqv (entry K (2 * i) (2 * j)) (Fin (- beam_stiffness f G E (len i)))) /\
    (forall lo hi, lower_bound g lmin lo -> upper_bound g lmax hi -> lo <= hi ->
       (forall i j d e, beam_element g i j d e -> lo <= len i <= hi) /\
       (forall i j d e i' j' d' e', beam_element g i j d e -> beam_element g i' j' d' e' ->
          ns e - ns d <= ns e' - ns d' -> len i <= len i')) /\
    (lmin = None -> lmax = None -> forall i j d e, beam_element g i j d e -> len i == ns e - ns d).
Proof.
  exact (fun m g lmin lmax c K HK Hf HL HF => match stiff_lengths m g lmin lmax c K HK Hf HL HF with
    ex_intro _ len (conj _ a) => ex_intro _ len a end).
Qed.

(** ** C33: infinite tensile modulus *)
Theorem C33_displacements : forall m g lmin lmax c K, stiffness m g lmin lmax c = Ok K -> ~ flag_set (g_attrs g) ->
  lengths_ok g lmin lmax -> finite_shear m -> (forall f, In f (q_rows m) -> qE f = PInf) ->
  forall i x, (exists q, entry K (2 * i) x = Fin q) /\ (exists q, entry K x (2 * i) = Fin q).
Proof. exact inf_disp. Qed.
Theorem C33_rotations : forall m g lmin lmax c K, stiffness m g lmin lmax c = Ok K -> ~ flag_set (g_attrs g) ->
  lengths_ok g lmin lmax -> finite_shear m -> (forall f, In f (q_rows m) -> qE f = PInf) ->
  forall i j d e, beam_element g i j d e ->
    entry K (2 * i + 1) (2 * i + 1) = PInf /\ entry K (2 * j + 1) (2 * j + 1) = PInf.
Proof. exact inf_rot. Qed.
Theorem C33_limit : forall m g lmin lmax c K, ~ flag_set (g_attrs g) -> finite_shear m -> lengths_ok g lmin lmax ->
  stiffness (set_tensile PInf m) g lmin lmax c = Ok K ->
  exists F : Q -> ncoo, (forall E, 0 < E -> stiffness (set_tensile (Fin E) m) g lmin lmax c = Ok (F E)) /\
    forall i x eps, 0 < eps -> exists E0, 0 < E0 /\
      forall E, E0 < E -> within eps (entry (F E) (2 * i) x) (entry K (2 * i) x).
Proof. exact stiff_limit. Qed.

(** ** C34: C u <= H iff the deformed mesh is admissible *)
Theorem C34_total : forall m g, valid m -> mesh_ok g -> g_rows g <> [] ->
  at_n (g_attrs g) = Some (Z.of_nat (length (q_rows m))) -> exists s, constraint m g = Ok s.
Proof. exact mesh_constraint_total. Qed.
Theorem C34_admissible : forall m g s, constraint m g = Ok s -> ~ flag_set (g_attrs g) ->
  forall u, satisfies (csC s) (csH s) u <-> in_slab m g (csZ s) u /\ no_overlap m g u.
Proof. exact cons_admissible. Qed.
Theorem C34_moved_lid : forall m g s, constraint m g = Ok s -> ~ flag_set (g_attrs g) ->
  forall t u, satisfies (csC s) (bounds_at (csH s) (csdH s) t) u <-> in_slab m g (csZ s + t) u /\ no_overlap m g u.
Proof. exact cons_moved. Qed.
Theorem C34_top : forall m g s, constraint m g = Ok s -> highest_top m g (csZ s).
Proof. exact top_spec. Qed.

(** ** C35: a stacked mesh starts admissible *)
Theorem C35_start : forall linprog m per t thr st m' g s,
  net_new m per None = Ok t -> solved linprog m t -> all_in_plane m ->
  stack_new linprog m t thr = Ok (st, m') -> mesh_new st = Ok g -> constraint m' g = Ok s ->
  forall u, (forall r, nth r u 0 == 0) -> satisfies (csC s) (csH s) u.
Proof. exact stack_start. Qed.

(** ** C56: constraint only adds the thickness column *)
Theorem C56_rows_kept : forall m g s, constraint m g = Ok s ->
  g_rows (csmesh s) = g_rows g /\ g_attrs (csmesh s) = g_attrs g /\
  (forall c, In c (g_cols g) -> In c (g_cols (csmesh s))) /\
  (forall c, In c (g_cols (csmesh s)) -> In c (g_cols g) \/ c = "h"%string) /\ In "h"%string (g_cols (csmesh s)).
Proof. exact cons_mesh. Qed.
Theorem C56_thickness : forall m g s, constraint m g = Ok s ->
  exists hs, g_h (csmesh s) = Some hs /\ length hs = length (g_rows g) /\
    forall i d h, is_node (g_rows g) i d -> thick m d h -> nth_error hs i = Some h.
Proof. exact cons_h. Qed.
Theorem C56_still_valid : forall m g s, constraint m g = Ok s -> mesh_check (csmesh s) = Ok true.
Proof. exact cons_check. Qed.
Theorem C56_twice : forall m g s, constraint m g = Ok s -> constraint m (csmesh s) = Ok s.
Proof. exact cons_again. Qed.

(** ** cases *)
Lemma ex_long m g lmin lmax c K : stiffness m g lmin lmax c = Ok K -> ~ flag_set (g_attrs g) ->
  forallb (fun e => Qltb 0 (el e)) (elements m (g_rows g)) = true -> no_short_element g.
Proof.
  intros HK Hf HA i j d e HB. destruct (part_of m g lmin lmax c K HK Hf i j d e HB) as (k & x & Hx & _ & _ & _ & _ & _ & El).
  rewrite forallb_forall in HA. specialize (HA x (nth_error_In _ _ Hx)). cbv beta in HA. rewrite El in HA. qb. lra.
Qed.
Definition ex_mi : qmat := mkQmat [ex_q 4 0 0 (1 # 2) 1 0; ex_q 4 0 0 (3 # 2) 0 1] 50.
Definition ex_mf : qmat := set_tensile (Fin 2) ex_mi.
Definition ex_gm : mesh_df := ex_mesh 0 4 1 0.
Definition ex_K (m : qmat) (g : mesh_df) (lmin lmax : option Q) (c : Q) : ncoo :=
  match stiffness m g lmin lmax c with Ok K => K | Exn _ => [] end.
Example ex_noflag : ~ flag_set (g_attrs ex_gm).
Proof. vm_compute. discriminate. Qed.
Example ex_K_ok : stiffness ex_mf ex_gm None None 1 = Ok (ex_K ex_mf ex_gm None None 1).
Proof. vm_compute. reflexivity. Qed.
Example ex_K_size : length (ex_K ex_mf ex_gm None None 1) = 64%nat.
Proof. vm_compute. reflexivity. Qed.
Example ex_moduli : finite_moduli ex_mf.
Proof. intros f Hf. simpl in Hf. intuition subst; repeat eexists. Qed.
Example ex_element : exists d e, beam_element ex_gm 1 2 d e /\ ns d < ns e.
Proof.
  eexists. eexists. split; [split; [eexists; vm_compute; reflexivity|split; [eexists; vm_compute; reflexivity|]]|];
  vm_compute; auto.
Qed.
Example ex_short : no_short_element ex_gm.
Proof. apply (ex_long _ _ _ _ _ _ ex_K_ok ex_noflag). vm_compute. reflexivity. Qed.
Example ex_lengths_ok : lengths_ok ex_gm None None /\ lengths_ok ex_gm (Some 1) (Some 3).
Proof.
  destruct ex_element as (d & e & HB & L). split; split; try reflexivity; [exact ex_short|]. exists 1%nat, 2%nat, d, e. auto.
Qed.
Example ex_bounds : lower_bound ex_gm (Some 1) 1 /\ upper_bound ex_gm (Some 3) 3.
Proof. split; reflexivity. Qed.
Example ex_total : valid ex_mf /\ mesh_ok ex_gm /\ at_n (g_attrs ex_gm) = Some (Z.of_nat (length (q_rows ex_mf))).
Proof.
  split; [|split].
  - destruct (proj1 (mat_check_ok (df_of ex_mf)) eq_refl) as [H|H]; [discriminate H|exact H].
  - assert (E : mesh_check ex_gm = Ok true) by (vm_compute; reflexivity).
    apply mesh_check_ok in E. destruct E as [C|H]; [destruct (ex_noflag C)|exact H].
  - vm_compute. reflexivity.
Qed.
Example ex_rigid : rigid ex_gm [-(2); 1; 0; 1; 2; 1; 3; 2; 9; 2; 11; 2].
Proof.
  intros i j d e [lab Hd] [lab' He] Ef.
  do 6 (destruct i as [|i]; [vm_compute in Hd; inversion Hd; subst; clear Hd;
    do 6 (destruct j as [|j]; [vm_compute in He; inversion He; subst; clear He; simpl in Ef;
      try discriminate Ef; split; vm_compute; reflexivity|]);
    exfalso; destruct j; discriminate He|]).
  exfalso; destruct i; discriminate Hd.
Qed.
Example ex_translates : translates ex_gm [1; 0; 1; 0; 1; 0; 7; 0; 7; 0; 7; 0].
Proof.
  exists (fun f => if Z.eqb f 0 then 1 else 7).
  intros i d [lab Hd].
  do 6 (destruct i as [|i]; [vm_compute in Hd; inversion Hd; subst; split; vm_compute; reflexivity|]).
  destruct i; discriminate Hd.
Qed.
(** an energy that is not zero *)
Example ex_energy : Qltb 0 (quadratic (ex_K ex_mf ex_gm None None 1) [0; 0; 1; 0]) = true.
Proof. vm_compute. reflexivity. Qed.
Example ex_K_inf : stiffness ex_mi ex_gm None None 1 = Ok (ex_K ex_mi ex_gm None None 1).
Proof. vm_compute. reflexivity. Qed.
Example ex_inf : finite_shear ex_mi /\ forall f, In f (q_rows ex_mi) -> qE f = PInf.
Proof. split; intros f Hf; simpl in Hf; intuition subst; eexists; reflexivity. Qed.
Example ex_set_inf : set_tensile PInf ex_mi = ex_mi.
Proof. reflexivity. Qed.

(** the example of the documentation, E = G = 2 (model.py 93-101) *)
Definition ex_doc (G E : num) : qmat := mkQmat [mkQ 1 1 1 0 0 (1 # 2) 1 0 0 G E] 50.
Definition ex_docg (G E : num) : mesh_df :=
  match (do t <- net_new (ex_doc G E) true None; mesh_new t) with Ok g => g | Exn _ => ex_mesh 0 0 0 0 end.
Definition dense (P : ncoo) (n : nat) : list (list num) :=
  map (fun r => map (fun c => match nmul (Fin (4 / np_pi)) (entry P r c) with Fin q => Fin (Qred q) | v => v end)
                    (seq 0 n)) (seq 0 n).
Example ex_doc_timoshenko : dense (ex_K (ex_doc (Fin 2) (Fin 2)) (ex_docg (Fin 2) (Fin 2)) None None 1) 4 =
  [[Fin 1; Fin (1 # 2); Fin (-1); Fin (1 # 2)];
   [Fin (1 # 2); Fin (4 # 3); Fin (-1 # 2); Fin (-5 # 6)];
   [Fin (-1); Fin (-1 # 2); Fin 1; Fin (-1 # 2)];
   [Fin (1 # 2); Fin (-5 # 6); Fin (-1 # 2); Fin (4 # 3)]].
Proof. vm_compute. reflexivity. Qed.
(** E = inf (model.py 80-90) *)
Example ex_doc_linear : dense (ex_K (ex_doc (Fin 1) PInf) (ex_docg (Fin 1) PInf) None None 1) 4 =
  [[Fin 1; Fin (1 # 2); Fin (-1); Fin (1 # 2)];
   [Fin (1 # 2); PInf; Fin (-1 # 2); NInf];
   [Fin (-1); Fin (-1 # 2); Fin 1; Fin (-1 # 2)];
   [Fin (1 # 2); NInf; Fin (-1 # 2); PInf]].
Proof. vm_compute. reflexivity. Qed.

(** constraint systems *)
Definition ex_stm : qmat := snd (ex_st None None).
Definition ex_stg : mesh_df := ex_g (fst (ex_st None None)).
Definition ex_cs (m : qmat) (g : mesh_df) : csys :=
  match constraint m g with Ok s => s | Exn _ => mkCsys [] [] [] 0 g end.
Example ex_cs_ok : constraint ex_stm ex_stg = Ok (ex_cs ex_stm ex_stg).
Proof. vm_compute. reflexivity. Qed.
Example ex_cs_noflag : ~ flag_set (g_attrs ex_stg).
Proof. vm_compute. discriminate. Qed.
Example ex_cs_values : map (fun v => match v with Fin q => Fin (Qred q) | w => w end) (csH (ex_cs ex_stm ex_stg)) =
  [Fin 0; PInf; Fin 1; Fin 0; Fin 0; Fin 0; Fin 0; PInf; Fin 1; Fin 0; PInf; Fin 1;
   Fin 0; Fin 0; Fin 0; Fin 0; PInf; Fin 1; Fin 1; PInf; Fin 0; Fin 1; PInf; Fin 0].
Proof. vm_compute. reflexivity. Qed.
Example ex_cs_stacked : mesh_new (fst (ex_st None None)) = Ok ex_stg /\ all_in_plane (ex_mats 2).
Proof. split; [vm_compute; reflexivity|]. intros f Hf. simpl in Hf. intuition subst; reflexivity. Qed.
(** C35 without the stack: the heights of the mat overlap *)
Example ex_cs_unstacked : exists r, nth_error (csH (ex_cs (ex_mats 2) (ex_g (ex_t None)))) r = Some (Fin (-14 # 4)).
Proof. exists 0%nat. vm_compute. reflexivity. Qed.

(** ** refutations *)
(** three fibers through one point: two nodes of each fiber coincide *)
Definition ex_conc : qmat :=
  mkQmat [mkQ 4 1 1 0 0 (1 # 2) 1 0 0 (Fin 1) (Fin 1); mkQ 4 1 1 0 0 (1 # 2) 0 1 0 (Fin 1) (Fin 1);
          mkQ 4 1 1 0 0 (1 # 2) (3 # 5) (4 # 5) 0 (Fin 1) (Fin 1)] 50.
Definition ex_conct : net_df :=
  match net_new ex_conc false None with Ok t => t | Exn _ => mkNetDf [] [] (mkAttrs None None None None) true end.
Theorem C30_concurrent_refuted :
  ~ (forall m t g c K, net_new m false None = Ok t -> mesh_new t = Ok g -> finite_moduli m ->
     stiffness m g None None c = Ok K -> all_finite K).
Proof.
  intros H.
  assert (E1 : net_new ex_conc false None = Ok ex_conct) by (vm_compute; reflexivity).
  assert (E2 : mesh_new ex_conct = Ok (ex_g ex_conct)) by (vm_compute; reflexivity).
  assert (E3 : stiffness ex_conc (ex_g ex_conct) None None 1 = Ok (ex_K ex_conc (ex_g ex_conct) None None 1))
    by (vm_compute; reflexivity).
  assert (E4 : finite_moduli ex_conc) by (intros f Hf; simpl in Hf; intuition subst; repeat eexists).
  specialize (H _ _ _ _ _ E1 E2 E4 E3).
  assert (E5 : existsb (fun e => match snd e with NaN => true | _ => false end) (ex_K ex_conc (ex_g ex_conct) None None 1) = true)
    by (vm_compute; reflexivity).
  apply existsb_exists in E5. destruct E5 as ([[r x] v] & Hi & Hv). destruct (H r x v Hi) as (q & ->). discriminate Hv.
Qed.

(** a coupling larger than 1 *)
Theorem C30_coupling_refuted :
  ~ (forall m g c K, stiffness m g None None c = Ok K -> ~ flag_set (g_attrs g) ->
     lengths_ok g None None -> finite_moduli m -> forall u, 0 <= quadratic K u).
Proof.
  intros H. set (m := ex_doc (Fin 2) (Fin 2)). set (g := ex_docg (Fin 2) (Fin 2)).
  assert (E : stiffness m g None None 2 = Ok (ex_K m g None None 2)) by (vm_compute; reflexivity).
  assert (N : ~ flag_set (g_attrs g)) by (vm_compute; discriminate).
  assert (S : no_short_element g) by (apply (ex_long _ _ _ _ _ _ E N); vm_compute; reflexivity).
  assert (L : lengths_ok g None None).
  { split; [exact S|]. exists 0%nat, 1%nat. eexists. eexists.
    split; [split; [eexists; vm_compute; reflexivity|split; [eexists; vm_compute; reflexivity|]]|]; vm_compute; auto. }
  assert (F : finite_moduli m) by (intros f Hf; simpl in Hf; intuition subst; repeat eexists).
  specialize (H m g 2 _ E N L F [0; 1; 2; 1]).
  assert (C : Qltb (quadratic (ex_K m g None None 2) [0; 1; 2; 1]) 0 = true) by (vm_compute; reflexivity).
  qb. lra.
Qed.

(** lmin above every length has no effect when all lengths are equal *)
Theorem C32_lmin_refuted :
  ~ (forall m g v c K, 0 < v -> stiffness m g (Some v) None c = Ok K -> ~ flag_set (g_attrs g) ->
     lengths_ok g (Some v) None -> finite_moduli m ->
     forall i j d e f G E, beam_element g i j d e -> has_fiber m (nf d) f -> qG f = Fin G -> qE f = Fin E ->
     exists l, v <= l /\ neqv (entry K (2 * i) (2 * j)) (Fin (- beam_stiffness f G E l))).
Proof.
  intros H. set (m := ex_doc (Fin 2) (Fin 2)). set (g := ex_docg (Fin 2) (Fin 2)).
  assert (E : stiffness m g (Some 2) None 1 = Ok (ex_K m g (Some 2) None 1)) by (vm_compute; reflexivity).
  assert (N : ~ flag_set (g_attrs g)) by (vm_compute; discriminate).
  assert (L : exists d e, beam_element g 0 1 d e /\ ns d < ns e /\ nf d = 0%Z).
  { eexists. eexists. split; [split; [eexists; vm_compute; reflexivity|split; [eexists; vm_compute; reflexivity|]]|];
    vm_compute; auto. }
  destruct L as (d & e & HB & L & Ed).
  assert (F : finite_moduli m) by (intros f Hf; simpl in Hf; intuition subst; repeat eexists).
  assert (U : lengths_ok g (Some 2) None) by (split; [reflexivity|]; exists 0%nat, 1%nat, d, e; auto).
  assert (P2 : 0 < 2) by reflexivity.
  assert (HF : has_fiber m (nf d) (mkQ 1 1 1 0 0 (1 # 2) 1 0 0 (Fin 2) (Fin 2))) by (rewrite Ed; split; [lia|reflexivity]).
  destruct (H m g 2 1 _ P2 E N U F 0%nat 1%nat d e _ 2 2 HB HF eq_refl eq_refl) as (l & Hl & Hk).
    assert (EK : exists q, entry (ex_K m g (Some 2) None 1) (2 * 0) (2 * 1) = Fin q /\ q == - (np_pi / 4)).
    { eexists. split; [vm_compute; reflexivity|vm_compute; reflexivity]. }
    destruct EK as (q & EK & Eq). rewrite EK in Hk. simpl in Hk. unfold beam_stiffness in Hk. cbn [qb qh] in Hk.
    assert (P : 0 < np_pi) by reflexivity. revert P Eq Hk. generalize np_pi. intros p P Eq Hk.
    assert (X : p / 4 * (2 * 1 * 1) / l / (1 + 2 / 2 * (l / 1 * (l / 1))) == p / 2 / (l * (1 + l * l))).
    { field. split; nra. }
    rewrite X in Hk. assert (D : 0 < l * (1 + l * l)) by nra.
    assert (Y : p / 4 * (l * (1 + l * l)) == p / 2).
    { assert (Z : p / 4 == p / 2 / (l * (1 + l * l))) by lra. rewrite Z. field. split; nra. }
    assert (p / 4 * (l * (1 + l * l) - 2) == 0).
    { assert (p / 4 * (l * (1 + l * l) - 2) == p / 4 * (l * (1 + l * l)) - p / 2) as -> by field. rewrite Y. ring. }
    assert (0 < l * (1 + l * l) - 2) by nra. assert (0 < p / 4) by (apply Qlt_shift_div_l; lra).
    assert (0 < p / 4 * (l * (1 + l * l) - 2)) by (apply Qmult_lt_0_compat; auto). lra.
Qed.

Print Assumptions C29_total.
Print Assumptions C29_symmetric.
Print Assumptions C29_local.
Print Assumptions C57_assembly.
Print Assumptions C30_finite.
Print Assumptions C30_psd.
Print Assumptions C31_translations.
Print Assumptions C31_kernel.
Print Assumptions C31_kernel_coupled.
Print Assumptions C32_lengths.
Print Assumptions C33_displacements.
Print Assumptions C33_rotations.
Print Assumptions C33_limit.
Print Assumptions C34_total.
Print Assumptions C34_admissible.
Print Assumptions C34_moved_lid.
Print Assumptions C34_top.
Print Assumptions C35_start.
Print Assumptions C56_rows_kept.
Print Assumptions C56_thickness.
Print Assumptions C56_still_valid.
Print Assumptions C56_twice.
Print Assumptions C30_concurrent_refuted.
Print Assumptions C30_coupling_refuted.
Print Assumptions C32_lmin_refuted.
