(** Proofs about the pictures of the scripts (C82, C83). *)
From Verif Require Import Num NumP ListX ListP Frames MatM NetM StackM MeshM ModelM SolverM InterpM ResultM VtkM PictureM
  Spec SpecNet SpecStack SpecMesh SpecModel SpecSolver SpecInterp SpecPicture CheckP MeshCheckP NetP NetGeoP NetZP StackP StackForceP StackNewP MeshP StiffLenP ConstraintP SolverP SolverRunP SolverSysP SolverApiP SolverFinP InterpP ResultP.
Open Scope Q_scope.

(** ** meshes *)
Lemma NoDup_app_intro {A} (a b : list A) : NoDup a -> NoDup b -> (forall x, In x a -> In x b -> False) -> NoDup (a ++ b).
Proof.
  intros Na Nb H. induction a as [|x a IH]; [exact Nb|]. inversion Na; subst. cbn. constructor.
  - rewrite in_app_iff. intros [I|I]; [contradiction|]. apply (H x); [left; reflexivity|exact I].
  - apply IH; [assumption|]. intros y Y1 Y2. apply (H y); [right; exact Y1|exact Y2].
Qed.
Lemma iloc_node rows i d : is_node rows i d -> iloc rows (Z.of_nat i) = Ok d.
Proof.
  intros (lab & H). unfold iloc. replace (Z.of_nat i <? 0)%Z with false by (symmetry; apply Z.ltb_ge; lia).
  cbv zeta iota. replace (Z.of_nat i <? 0)%Z with false by (symmetry; apply Z.ltb_ge; lia). rewrite Nat2Z.id, H. reflexivity.
Qed.
Lemma each_in rows l L : each_node rows l = Ok L -> forall k, In k L <-> exists r S, In r l /\ node_strokes rows r = Ok S /\ In k S.
Proof.
  revert L. induction l as [|r l IH]; intros L H k.
  - injection H as <-. split; [intros []|intros (r & S & [] & _)].
  - cbn [each_node] in H. destruct (node_strokes rows r) as [a|] eqn:Ea; [|discriminate]. cbn [bind] in H.
    destruct (each_node rows l) as [b|] eqn:Eb; [|discriminate]. injection H as <-. rewrite in_app_iff, (IH b eq_refl k). split.
    + intros [H|(r' & S & H1 & H2)]; [exists r, a; split; [left|]; auto|exists r', S; split; [right|]; auto].
    + intros (r' & S & [<-|H1] & H2 & H3); [left; congruence|right; eauto].
Qed.
Lemma strokes_from rows r S k : node_strokes rows r = Ok S -> In k S -> sk_from k = fst r.
Proof.
  unfold node_strokes. destruct (iloc rows (fst r)) as [a|]; [|discriminate]. cbn [bind]. destruct (iloc rows (nbeam (snd r))) as [b|]; [|discriminate]. cbn [bind].
  destruct (iloc rows (ncons (snd r))) as [c|]; [|discriminate]. cbn [bind]. intros H. injection H as <-. rewrite !in_app_iff.
  destruct (Qltb _ _), (Qltb _ _), (Z.eqb _ _); cbn [In]; intuition subst; reflexivity.
Qed.
Lemma strokes_nodup rows r S : node_strokes rows r = Ok S -> NoDup S.
Proof.
  unfold node_strokes. destruct (iloc rows (fst r)) as [a|]; [|discriminate]. cbn [bind]. destruct (iloc rows (nbeam (snd r))) as [b|]; [|discriminate]. cbn [bind].
  destruct (iloc rows (ncons (snd r))) as [c|]; [|discriminate]. cbn [bind]. intros H. injection H as <-.
  destruct (Qltb _ _), (Qltb _ _), (Z.eqb _ _); cbn [app]; repeat constructor; cbn [In]; intuition discriminate.
Qed.

Section Mesh.
  Variable g : mesh_df.
  Hypothesis mok : mesh_ok g.
  Let rows := g_rows g.
  Lemma plab : labelled_in_order rows.
  Proof. destruct mok as (_ & n & _ & _ & _ & H & _). exact H. Qed.
  Lemma pord : nodes_ordered rows.
  Proof. destruct mok as (_ & n & _ & _ & _ & _ & _ & _ & _ & H & _). exact H. Qed.
  Lemma pbeams : beams_ok rows.
  Proof. destruct mok as (_ & n & _ & _ & _ & _ & _ & _ & _ & _ & H & _). exact H. Qed.
  Lemma pcinv : cons_involution rows.
  Proof. destruct mok as (_ & n & _ & _ & _ & _ & _ & _ & _ & _ & _ & H & _). exact H. Qed.

  Lemma row_node r : In r rows -> exists i, fst r = Z.of_nat i /\ is_node rows i (snd r).
  Proof. intros H. apply In_nth_error in H. destruct H as (i & H). destruct r as [lab d]. exists i. split; [exact (plab _ _ _ H)|exists lab; exact H]. Qed.
  Lemma node_row i d : is_node rows i d -> In (Z.of_nat i, d) rows.
  Proof. intros (lab & H). rewrite <- (plab _ _ _ H). exact (nth_error_In _ _ H). Qed.
  Lemma node_fun i d e : is_node rows i d -> is_node rows i e -> d = e.
  Proof. intros (l & H) (l' & H'). congruence. Qed.

  (** what is drawn for one node *)
  Lemma strokes_eq i d b e c f : is_node rows i d -> nbeam d = Z.of_nat b -> is_node rows b e -> ncons d = Z.of_nat c -> is_node rows c f ->
    node_strokes rows (Z.of_nat i, d) = Ok
      ((if Qltb (ns d) (ns e) then [mkStroke (Along (nf d mod 10)) (Z.of_nat i) (Z.of_nat b) (node_point d, node_point e)] else [])
       ++ (if Qltb (nz d) (nz f) then [mkStroke Between (Z.of_nat i) (Z.of_nat c) (node_point d, node_point f)] else [])
       ++ (if Z.eqb (nf d) (nf f) then [mkStroke Mark (Z.of_nat i) (Z.of_nat c) (node_point d, node_point f)] else [])).
  Proof.
    intros Hd Eb He Ec Hf. unfold node_strokes. cbn [fst snd]. rewrite Eb, Ec, (iloc_node _ _ _ Hd), (iloc_node _ _ _ He), (iloc_node _ _ _ Hf). reflexivity.
  Qed.
  Lemma node_links i d : is_node rows i d -> exists b e c f, nbeam d = Z.of_nat b /\ is_node rows b e /\ ncons d = Z.of_nat c /\ is_node rows c f.
  Proof.
    intros Hd. destruct (pbeams i d Hd) as (b & Eb & d' & e & _ & He & _). destruct (pcinv i d Hd) as (c & f & Ec & Hf & _). exists b, e, c, f. auto.
  Qed.
  Lemma picture_total : exists l, mesh_picture g = Ok l.
  Proof.
    unfold mesh_picture. fold rows. assert (H : forall l, (forall r, In r l -> In r rows) -> exists L, each_node rows l = Ok L).
    { induction l as [|r l IH]; intros H; [eexists; reflexivity|]. cbn [each_node]. destruct (row_node r (H r (or_introl eq_refl))) as (i & E & Hd).
      destruct (node_links _ _ Hd) as (b & e & c & f & Eb & He & Ec & Hf). destruct r as [lab d]. cbn [fst snd] in *. subst lab.
      rewrite (strokes_eq _ _ _ _ _ _ Hd Eb He Ec Hf). cbn [bind]. destruct IH as (L & ->); [intros r Hr; apply H; right; exact Hr|]. eexists. reflexivity. }
    apply H. auto.
  Qed.
  Lemma picture_once l : mesh_picture g = Ok l -> NoDup l.
  Proof.
    unfold mesh_picture. fold rows.
    assert (H : forall rs L, NoDup (map fst rs) -> each_node rows rs = Ok L -> NoDup L).
    { induction rs as [|r rs IH]; intros L N H; [injection H as <-; constructor|]. cbn [each_node] in H.
      destruct (node_strokes rows r) as [a|] eqn:Ea; [|discriminate]. cbn [bind] in H.
      destruct (each_node rows rs) as [b|] eqn:Eb; [|discriminate]. injection H as <-. inversion N as [|x l' N1 N2]; subst.
      apply NoDup_app_intro; [exact (strokes_nodup _ _ _ Ea)|exact (IH b N2 eq_refl)|].
      intros k K1 K2. apply (each_in _ _ _ Eb) in K2. destruct K2 as (r' & S & R1 & R2 & R3).
      apply N1. rewrite <- (strokes_from _ _ _ _ Ea K1), (strokes_from _ _ _ _ R2 R3). apply in_map. exact R1. }
    apply H. assert (E : map fst rows = map Z.of_nat (seq 0 (length rows))).
    { apply nth_ext with (d := 0%Z) (d' := 0%Z); [rewrite !map_length, seq_length; reflexivity|]. rewrite map_length. intros n L.
      destruct (nth_error rows n) as [[lab d]|] eqn:En; [|apply nth_error_None in En; lia].
      rewrite (nth_error_nth (map fst rows) n 0%Z (x := lab)) by (rewrite nth_error_map, En; reflexivity).
      rewrite (nth_error_nth (map Z.of_nat (seq 0 (length rows))) n 0%Z (x := Z.of_nat n)); [exact (plab _ _ _ En)|].
      rewrite nth_error_map, StiffLenP.seq_nth_error by exact L. reflexivity. }
    rewrite E. apply FinFun.Injective_map_NoDup; [intros a b; apply Nat2Z.inj|apply seq_NoDup].
  Qed.
  Lemma in_picture l k : mesh_picture g = Ok l -> In k l <->
    exists i d b e c f, is_node rows i d /\ nbeam d = Z.of_nat b /\ is_node rows b e /\ ncons d = Z.of_nat c /\ is_node rows c f /\
      ((k = mkStroke (Along (nf d mod 10)) (Z.of_nat i) (Z.of_nat b) (node_point d, node_point e) /\ ns d < ns e) \/
       (k = mkStroke Between (Z.of_nat i) (Z.of_nat c) (node_point d, node_point f) /\ nz d < nz f) \/
       (k = mkStroke Mark (Z.of_nat i) (Z.of_nat c) (node_point d, node_point f) /\ nf d = nf f)).
  Proof.
    intros H. change (each_node rows rows = Ok l) in H. rewrite (each_in _ _ _ H). split.
    - intros (r & S & R1 & R2 & R3). destruct (row_node r R1) as (i & E & Hd). destruct (node_links _ _ Hd) as (b & e & c & f & Eb & He & Ec & Hf).
      destruct r as [lab d]. cbn [fst snd] in *. subst lab. rewrite (strokes_eq _ _ _ _ _ _ Hd Eb He Ec Hf) in R2. injection R2 as <-.
      exists i, d, b, e, c, f. do 5 (split; [assumption|]). rewrite !in_app_iff in R3. destruct R3 as [R|[R|R]].
      + left. destruct (Qltb (ns d) (ns e)) eqn:L; [|destruct R]. destruct R as [<-|[]]. split; [reflexivity|]. apply Qltb_lt. exact L.
      + right. left. destruct (Qltb (nz d) (nz f)) eqn:L; [|destruct R]. destruct R as [<-|[]]. split; [reflexivity|]. apply Qltb_lt. exact L.
      + right. right. destruct (Z.eqb (nf d) (nf f)) eqn:L; [|destruct R]. destruct R as [<-|[]]. split; [reflexivity|]. apply Z.eqb_eq. exact L.
    - intros (i & d & b & e & c & f & Hd & Eb & He & Ec & Hf & C). exists (Z.of_nat i, d). eexists. split; [exact (node_row _ _ Hd)|].
      split; [exact (strokes_eq _ _ _ _ _ _ Hd Eb He Ec Hf)|]. rewrite !in_app_iff. destruct C as [[-> L]|[[-> L]|[-> L]]].
      + left. rewrite (proj2 (Qltb_lt _ _) L). left. reflexivity.
      + right. left. rewrite (proj2 (Qltb_lt _ _) L). left. reflexivity.
      + right. right. rewrite (proj2 (Z.eqb_eq _ _) L). left. reflexivity.
  Qed.

  (** the beam of a node drawn is the next node *)
  Lemma beam_next i d b e : is_node rows i d -> nbeam d = Z.of_nat b -> is_node rows b e -> ns d < ns e -> b = S i /\ nf d = nf e.
  Proof.
    intros Hd Eb He L. destruct (pbeams i d Hd) as (b' & Eb' & d' & e' & Hd' & He' & F & C).
    assert (b' = b) by lia. subst b'. rewrite <- (node_fun _ _ _ Hd Hd') in F. rewrite <- (node_fun _ _ _ Hd Hd') in C.
    rewrite <- (node_fun _ _ _ He He') in F. split; [|exact F]. destruct C as [[L1 N]|[L1 _]].
    - destruct (Nat.eq_dec b (S i)) as [|NE]; [assumption|exfalso]. assert (LB := SolverSysP.node_lt _ _ _ He).
      destruct (nth_error rows (S i)) as [[lab q]|] eqn:Eq1; [|apply nth_error_None in Eq1; lia].
      assert (Hq : is_node rows (S i) q) by (exists lab; exact Eq1). apply (N (S i) q ltac:(lia) Hq).
      destruct (pord i (S i) d q ltac:(lia) Hd Hq) as [A|[A _]], (pord (S i) b q e ltac:(lia) Hq He) as [B|[B _]]; lia.
    - exfalso. destruct (Nat.eq_dec b i) as [->|NE]; [rewrite (node_fun _ _ _ Hd He) in L; exact (Qlt_irrefl _ L)|].
      destruct (pord b i e d ltac:(lia) He Hd) as [A|[_ A]]; [lia|]. exact (Qlt_irrefl _ (Qlt_le_trans _ _ _ L A)).
  Qed.
  Lemma next_beam i d e : is_node rows i d -> is_node rows (S i) e -> nf d = nf e -> nbeam d = Z.of_nat (S i).
  Proof.
    intros Hd He F. destruct (pbeams i d Hd) as (b & Eb & d' & e' & Hd' & He' & F' & C). rewrite <- (node_fun _ _ _ Hd Hd') in C.
    destruct C as [[L1 N]|[L1 [N _]]].
    - destruct (Nat.eq_dec b (S i)) as [->|NE]; [exact Eb|exfalso]. exact (N (S i) e ltac:(lia) He (eq_sym F)).
    - exfalso. exact (N (S i) e ltac:(lia) He (eq_sym F)).
  Qed.
  Lemma picture_beams l : mesh_picture g = Ok l -> forall k col, sk_style k = Along col ->
    In k l <-> exists i j d e, part g i j d e /\ joins g k i j /\ col = (nf d mod 10)%Z.
  Proof.
    intros H k col Ek. rewrite (in_picture l k H). split.
    - intros (i & d & b & e & c & f & Hd & Eb & He & Ec & Hf & C). destruct C as [[-> L]|[[-> L]|[-> L]]]; try discriminate Ek.
      injection Ek as <-. destruct (beam_next _ _ _ _ Hd Eb He L) as [-> F]. exists i, (S i), d, e. split; [split; [assumption|split; [assumption|auto]]|].
      split; [|reflexivity]. split; [reflexivity|]. split; [reflexivity|]. exists d, e. split; [assumption|]. split; [assumption|reflexivity].
    - intros (i & j & d & e & (Hd & He & -> & F & L) & (J1 & J2 & d' & e' & Hd' & He' & J3) & ->).
      rewrite <- (node_fun _ _ _ Hd Hd') in J3. rewrite <- (node_fun _ _ _ He He') in J3.
      destruct (node_links _ _ Hd) as (b & e2 & c & f & _ & _ & Ec & Hf). exists i, d, (S i), e, c, f. split; [exact Hd|].
      split; [exact (next_beam _ _ _ Hd He F)|]. split; [exact He|]. split; [exact Ec|]. split; [exact Hf|]. left. split; [|exact L].
      destruct k as [st fr to li]. cbn [sk_style sk_from sk_to sk_line] in *. subst. reflexivity.
  Qed.

  (** *** the length drawn is that of the elements *)
  Lemma abscissa_node i d : is_node rows i d -> abscissa g (Z.of_nat i) = ns d.
  Proof. intros (lab & H). unfold abscissa. rewrite Nat2Z.id. fold rows. rewrite H. reflexivity. Qed.
  Lemma picture_length l f : mesh_picture g = Ok l -> drawn_length g l f == beam_length g f.
  Proof.
    unfold mesh_picture, drawn_length, beam_length. fold rows.
    assert (H : forall rs L, (forall r, In r rs -> In r rows) -> each_node rows rs = Ok L ->
      qsum (map (fun k => if on_fiber g f k then abscissa g (sk_to k) - abscissa g (sk_from k) else 0) L) ==
      qsum (map (fun r => if Z.eqb (nf (snd r)) f && Z.ltb (fst r) (nbeam (snd r)) then abscissa g (nbeam (snd r)) - ns (snd r) else 0) rs)).
    { induction rs as [|r rs IH]; intros L HR H; [injection H as <-; reflexivity|]. cbn [each_node] in H.
      destruct (row_node r (HR r (or_introl eq_refl))) as (i & E & Hd). destruct (node_links _ _ Hd) as (b & e & c & q & Eb & He & Ec & Hq).
      destruct r as [lab d]. cbn [fst snd] in *. subst lab. rewrite (strokes_eq _ _ _ _ _ _ Hd Eb He Ec Hq) in H. cbn [bind] in H.
      destruct (each_node rows rs) as [L'|] eqn:EL; [|discriminate]. injection H as <-.
      rewrite map_app, qsum_app, (IH L' (fun r Hr => HR r (or_intror Hr)) eq_refl). cbn [map qsum fst snd]. apply Qplus_inj_r.
      rewrite map_app, qsum_app.
      assert (Z0 : forall X, (forall k, In k X -> sk_style k = Between \/ sk_style k = Mark) ->
        qsum (map (fun k => if on_fiber g f k then abscissa g (sk_to k) - abscissa g (sk_from k) else 0) X) == 0).
      { induction X as [|k X IX]; intros HX; [reflexivity|]. cbn [map qsum]. rewrite IX by (intros k' Hk'; apply HX; right; exact Hk').
        unfold on_fiber. destruct (HX k (or_introl eq_refl)) as [-> | ->]; ring. }
      rewrite (Z0 (_ ++ _)).
      2:{ intros k. rewrite in_app_iff. destruct (Qltb (nz d) (nz q)), (Z.eqb (nf d) (nf q)); cbn [In]; intuition subst; auto. }
      rewrite Eb, (abscissa_node _ _ He). destruct (Qltb (ns d) (ns e)) eqn:EQ.
      - apply Qltb_lt in EQ. destruct (beam_next _ _ _ _ Hd Eb He EQ) as [EB F]. cbn [map qsum sk_to sk_from]. unfold on_fiber. cbn [sk_style sk_from].
        rewrite Nat2Z.id. fold rows. rewrite (abscissa_node _ _ Hd), (abscissa_node _ _ He).
        replace (Z.of_nat i <? Z.of_nat b)%Z with true by (symmetry; apply Z.ltb_lt; lia). rewrite andb_true_r.
        destruct Hd as (lab & Hd). rewrite Hd. cbn [snd]. destruct (Z.eqb (nf d) f); ring.
      - cbn [map qsum]. destruct (Z.eqb (nf d) f && Z.ltb (Z.of_nat i) (Z.of_nat b)) eqn:C; [|ring]. apply andb_true_iff in C. destruct C as [_ C]. apply Z.ltb_lt in C.
        assert (LE : ns e <= ns d) by (destruct (Qlt_le_dec (ns d) (ns e)) as [L|L]; [rewrite (proj2 (Qltb_lt _ _) L) in EQ; discriminate|exact L]).
        destruct (pbeams i d Hd) as (b' & Eb' & d' & e' & Hd' & He' & F & _). assert (b' = b) by lia. subst b'.
        rewrite <- (node_fun _ _ _ Hd Hd'), <- (node_fun _ _ _ He He') in F.
        destruct (pord i b d e ltac:(lia) Hd He) as [A|[_ A]]; [lia|]. lra. }
    intros HL. apply (H rows l (fun r Hr => Hr) HL).
  Qed.

  (** *** in terms of the network *)
  Variables (t : net_df) (place : nat -> bool -> nat).
  Hypothesis num : numbers t g place.
  Hypothesis lnk : links t g place.
  Lemma side_node r c b d : nth_row t r c -> is_node rows (place r b) d -> nf d = (if b then cB c else cA c) /\ nz d = side_z c b.
  Proof.
    intros Hr Hd. destruct num as (N1 & _). destruct (N1 r c b Hr) as (d' & Hd' & C1 & _ & _ & _ & C5). rewrite (node_fun _ _ _ Hd Hd'). split; assumption.
  Qed.
  Lemma side_ex r c b : nth_row t r c -> exists d, is_node rows (place r b) d.
  Proof. intros Hr. destruct num as (N1 & _). destruct (N1 r c b Hr) as (d & Hd & _). exists d. exact Hd. Qed.
  Lemma picture_contacts l : mesh_picture g = Ok l -> forall k, sk_style k = Between ->
    In k l <-> exists r c b, nth_row t r c /\ cA c <> cB c /\ side_z c b < side_z c (negb b) /\ joins g k (place r b) (place r (negb b)).
  Proof.
    intros H k Ek. rewrite (in_picture l k H). split.
    - intros (i & d & b & e & c & f & Hd & Eb & He & Ec & Hf & C). destruct C as [[-> L]|[[-> L]|[-> L]]]; try discriminate Ek.
      destruct num as (_ & N2 & _). destruct (N2 i d Hd) as (r & cn & s & Hr & EP). subst i. pose proof (lnk r cn s d Hr Hd) as EL.
      destruct (Z.eqb (cA cn) (cB cn)) eqn:EAB.
      + exfalso. assert (c = place r s) by lia. subst c. rewrite (node_fun _ _ _ Hd Hf) in L. exact (Qlt_irrefl _ L).
      + assert (c = place r (negb s)) by lia. subst c. exists r, cn, s. split; [exact Hr|]. split; [apply Z.eqb_neq; exact EAB|].
        split; [rewrite <- (proj2 (side_node _ _ _ _ Hr Hd)), <- (proj2 (side_node _ _ _ _ Hr Hf)); exact L|].
        split; [reflexivity|]. split; [reflexivity|]. exists d, f. split; [exact Hd|]. split; [exact Hf|reflexivity].
    - intros (r & cn & s & Hr & NE & L & J1 & J2 & d & f & Hd & Hf & J3). pose proof (lnk r cn s d Hr Hd) as EL.
      apply Z.eqb_neq in NE. rewrite NE in EL. destruct (node_links _ _ Hd) as (b & e & c & f' & Eb & He & Ec & Hf').
      assert (c = place r (negb s)) by lia. subst c. rewrite (node_fun _ _ _ Hf Hf') in J3.
      exists (place r s), d, b, e, (place r (negb s)), f'. do 5 (split; [assumption|]). right. left. split.
      + destruct k as [st fr to li]. cbn [sk_style sk_from sk_to sk_line] in *. subst. reflexivity.
      + rewrite (proj2 (side_node _ _ _ _ Hr Hd)), (proj2 (side_node _ _ _ _ Hr Hf')). exact L.
  Qed.
  Lemma picture_marks l : mesh_picture g = Ok l -> forall k, sk_style k = Mark ->
    In k l <-> exists r c b, nth_row t r c /\ cA c = cB c /\ joins g k (place r b) (place r b).
  Proof.
    intros H k Ek. rewrite (in_picture l k H). split.
    - intros (i & d & b & e & c & f & Hd & Eb & He & Ec & Hf & C). destruct C as [[-> L]|[[-> L]|[-> L]]]; try discriminate Ek.
      destruct num as (_ & N2 & _). destruct (N2 i d Hd) as (r & cn & s & Hr & EP). subst i. pose proof (lnk r cn s d Hr Hd) as EL.
      destruct (Z.eqb (cA cn) (cB cn)) eqn:EAB.
      + assert (c = place r s) by lia. subst c. exists r, cn, s. split; [exact Hr|]. split; [apply Z.eqb_eq; exact EAB|].
        split; [reflexivity|]. split; [reflexivity|]. exists d, f. split; [exact Hd|]. split; [exact Hf|reflexivity].
      + exfalso. assert (c = place r (negb s)) by lia. subst c. apply Z.eqb_neq in EAB.
        rewrite (proj1 (side_node _ _ _ _ Hr Hd)), (proj1 (side_node _ _ _ _ Hr Hf)) in L. destruct s; cbn [negb] in L; congruence.
    - intros (r & cn & s & Hr & EQ & J1 & J2 & d & f & Hd & Hf & J3). pose proof (lnk r cn s d Hr Hd) as EL.
      apply Z.eqb_eq in EQ. rewrite EQ in EL. destruct (node_links _ _ Hd) as (b & e & c & f' & Eb & He & Ec & Hf').
      assert (c = place r s) by lia. subst c. rewrite (node_fun _ _ _ Hf Hf') in J3.
      exists (place r s), d, b, e, (place r s), f'. do 5 (split; [assumption|]). right. right. split.
      + destruct k as [st fr to li]. cbn [sk_style sk_from sk_to sk_line] in *. subst. reflexivity.
      + rewrite (node_fun _ _ _ Hd Hf'). reflexivity.
  Qed.
End Mesh.

(** ** deformed meshes *)
Section Deformed.
  Variables (g : mesh_df) (u : list Q).
  Hypothesis mok : mesh_ok g.
  Hypothesis LU : length u = (2 * length (g_rows g))%nat.
  (** connected nodes keep their order *)
  Hypothesis keep : forall i d c f, is_node (g_rows g) i d -> is_node (g_rows g) c f -> ncons d = Z.of_nat c ->
    (nz d < nz f <-> nz d + disp u i < nz f + disp u c).
  Let rows := g_rows g.
  Let rows' := map (fun p : nat * (Z * node) => (fst (snd p), raise_node (snd (snd p)) (nth (2 * fst p) u 0))) (combine (seq 0 (length rows)) rows).
  Definition deformed : mesh_df := mkMeshDf (g_cols g) rows' (g_attrs g) (g_intf g) (g_intl g) (g_h g).
  Lemma deform_ok : deform g u = Ok deformed.
  Proof.
    unfold deform. rewrite LU. replace ((2 * length (g_rows g) + 1) / 2)%nat with (length (g_rows g)); [rewrite Nat.eqb_refl; reflexivity|].
    apply (Nat.div_unique _ 2 _ 1); lia.
  Qed.
  Lemma nth_rows' i lab d : nth_error rows i = Some (lab, d) -> nth_error rows' i = Some (lab, raise_node d (disp u i)).
  Proof.
    intros H. unfold rows'. rewrite nth_error_map. assert (L : (i < length rows)%nat) by (apply nth_error_Some; congruence).
    rewrite (combine_nth_error (seq 0 (length rows)) rows i i (lab, d) (StiffLenP.seq_nth_error (length rows) 0 i L) H). reflexivity.
  Qed.
  Lemma node' i d : is_node rows i d -> is_node rows' i (raise_node d (disp u i)).
  Proof. intros (lab & H). exists lab. apply nth_rows'. exact H. Qed.
  Lemma strokes' i d b e c f : is_node rows i d -> nbeam d = Z.of_nat b -> is_node rows b e -> ncons d = Z.of_nat c -> is_node rows c f ->
    exists S S', node_strokes rows (Z.of_nat i, d) = Ok S /\ node_strokes rows' (Z.of_nat i, raise_node d (disp u i)) = Ok S' /\ Forall2 same_strokes S S'.
  Proof.
    intros Hd Eb He Ec Hf. eexists. eexists. split; [exact (strokes_eq g i d b e c f Hd Eb He Ec Hf)|]. split.
    - unfold node_strokes. cbn [fst snd raise_node nbeam ncons]. rewrite Eb, Ec, (iloc_node _ _ _ (node' _ _ Hd)), (iloc_node _ _ _ (node' _ _ He)), (iloc_node _ _ _ (node' _ _ Hf)).
      cbn [bind raise_node ns nf nz]. reflexivity.
    - cbn [raise_node ns nf nz]. apply Forall2_app; [|apply Forall2_app].
      + destruct (Qltb (ns d) (ns e)); [constructor; [repeat split; reflexivity|constructor]|constructor].
      + assert (E : Qltb (nz d) (nz f) = Qltb (nz d + disp u i) (nz f + disp u c)).
        { pose proof (keep i d c f Hd Hf Ec) as K. destruct (Qltb (nz d) (nz f)) eqn:A, (Qltb (nz d + disp u i) (nz f + disp u c)) eqn:B; auto; qb; exfalso.
          - apply K in A. exact (Qlt_irrefl _ (Qlt_le_trans _ _ _ A B)).
          - apply K in B. exact (Qlt_irrefl _ (Qlt_le_trans _ _ _ B A)). }
        rewrite <- E. destruct (Qltb (nz d) (nz f)); [constructor; [repeat split; reflexivity|constructor]|constructor].
      + destruct (Z.eqb (nf d) (nf f)); [constructor; [repeat split; reflexivity|constructor]|constructor].
  Qed.
  Lemma picture_deformed : exists l l', mesh_picture g = Ok l /\ mesh_picture deformed = Ok l' /\ Forall2 same_strokes l l'.
  Proof.
    unfold mesh_picture. cbn [deformed g_rows]. fold rows.
    assert (H : forall a, (a <= length rows)%nat -> exists l l', each_node rows (skipn a rows) = Ok l /\ each_node rows' (skipn a rows') = Ok l' /\ Forall2 same_strokes l l').
    { assert (LR : length rows' = length rows) by (unfold rows'; rewrite map_length, combine_length, seq_length; lia).
      intros a LA. remember (length rows - a)%nat as n eqn:En. revert a LA En. induction n as [|n IH]; intros a LA En.
      - rewrite !skipn_all2 by lia. exists [], []. repeat split. constructor.
      - destruct (nth_error rows a) as [[lab d]|] eqn:Ea; [|apply nth_error_None in Ea; lia].
        assert (lab = Z.of_nat a) by exact (plab g mok _ _ _ Ea). subst lab. pose proof (nth_rows' _ _ _ Ea) as Ea'.
        assert (SK : forall A (l : list A) x, nth_error l a = Some x -> skipn a l = x :: skipn (S a) l).
        { intros A l x. clear. revert l. induction a as [|a IH]; intros [|y l] E; try discriminate E; [injection E as <-; reflexivity|]. cbn [skipn]. apply IH. exact E. }
        rewrite (SK _ _ _ Ea), (SK _ _ _ Ea'). cbn [each_node]. assert (Hd : is_node rows a d) by (exists (Z.of_nat a); exact Ea).
        destruct (node_links g mok a d Hd) as (b & e & c & f & Eb & He & Ec & Hf).
        destruct (strokes' a d b e c f Hd Eb He Ec Hf) as (S1 & S2 & -> & -> & FS). destruct (IH (S a) ltac:(lia) ltac:(lia)) as (l & l' & -> & -> & FL).
        cbn [bind]. exists (S1 ++ l), (S2 ++ l'). split; [reflexivity|]. split; [reflexivity|]. apply Forall2_app; assumption. }
    exact (H 0%nat ltac:(lia)).
  Qed.
  (** every end of a line is a node *)
  Lemma strokes_ends l' k : mesh_picture deformed = Ok l' -> In k l' ->
    exists i d j e, is_node rows i d /\ is_node rows j e /\ sk_line k = (node_point (raise_node d (disp u i)), node_point (raise_node e (disp u j))).
  Proof.
    intros H Hk. change (each_node rows' rows' = Ok l') in H. apply (each_in _ _ _ H) in Hk. destruct Hk as (r & S & R1 & R2 & R3).
    apply In_nth_error in R1. destruct R1 as (i & R1). assert (LR : (i < length rows')%nat) by (apply nth_error_Some; congruence).
    unfold rows' in LR. rewrite map_length, combine_length, seq_length, Nat.min_id in LR.
    destruct (nth_error rows i) as [[lab d]|] eqn:Ei; [|apply nth_error_None in Ei; lia]. rewrite (nth_rows' _ _ _ Ei) in R1. injection R1 as <-.
    assert (lab = Z.of_nat i) by exact (plab g mok _ _ _ Ei). subst lab. assert (Hd : is_node rows i d) by (exists (Z.of_nat i); exact Ei).
    destruct (node_links g mok i d Hd) as (b & e & c & f & Eb & He & Ec & Hf).
    unfold node_strokes in R2. cbn [fst snd raise_node nbeam ncons] in R2. rewrite Eb, Ec, (iloc_node _ _ _ (node' _ _ Hd)), (iloc_node _ _ _ (node' _ _ He)), (iloc_node _ _ _ (node' _ _ Hf)) in R2.
    cbn [bind] in R2. injection R2 as <-. rewrite !in_app_iff in R3. destruct R3 as [R|[R|R]].
    - exists i, d, b, e. split; [exact Hd|]. split; [exact He|]. destruct (Qltb _ _); [|destruct R]. destruct R as [<-|[]]. reflexivity.
    - exists i, d, c, f. split; [exact Hd|]. split; [exact Hf|]. destruct (Qltb _ _); [|destruct R]. destruct R as [<-|[]]. reflexivity.
    - exists i, d, c, f. split; [exact Hd|]. split; [exact Hf|]. destruct (Z.eqb _ _); [|destruct R]. destruct R as [<-|[]]. reflexivity.
  Qed.
End Deformed.

(** connected nodes that do not overlap keep their order *)
Lemma order_kept m g cs u : constraint m g = Ok cs -> ~ flag_set (g_attrs g) -> no_overlap m g [] -> no_overlap m g u ->
  forall i d c f, is_node (g_rows g) i d -> is_node (g_rows g) c f -> ncons d = Z.of_nat c -> (nz d < nz f <-> nz d + disp u i < nz f + disp u c).
Proof.
  intros Hcs NF N0 N1 i d c f Hd Hf Ec.
  assert (D0 : forall k, disp [] k = 0) by (intros k; unfold disp; destruct (2 * k)%nat; reflexivity).
  destruct (thick_ex _ _ _ Hcs i d Hd) as (h & T & P). destruct (thick_ex _ _ _ Hcs c f Hf) as (h' & T' & P').
  destruct (Nat.lt_trichotomy i c) as [L|[->|L]].
  - pose proof (N0 i c d f h h' Hd Hf L Ec T T') as A. pose proof (N1 i c d f h h' Hd Hf L Ec T T') as B. rewrite !D0 in A. split; intros _; qlra.
  - assert (d = f) by (destruct Hd as (l1 & H1), Hf as (l2 & H2); congruence). subst f. split; intros X; exfalso; exact (Qlt_irrefl _ X).
  - assert (Ef : ncons f = Z.of_nat i).
    { destruct (cinv _ _ _ Hcs NF i d Hd) as (c' & f' & E1 & H1 & E2). assert (c' = c) by lia. subst c'.
      assert (f' = f) by (destruct H1 as (l1 & H1), Hf as (l2 & H2); congruence). subst f'. exact E2. }
    pose proof (N0 c i f d h' h Hf Hd L Ef T' T) as A. pose proof (N1 c i f d h' h Hf Hd L Ef T' T) as B. rewrite !D0 in A. split; intros X; exfalso; qlra.
Qed.
Lemma pictures_slab m g cs u z : constraint m g = Ok cs -> ~ flag_set (g_attrs g) -> no_overlap m g [] -> no_overlap m g u -> in_slab m g z u ->
  length u = (2 * length (g_rows g))%nat ->
  exists l g' l', mesh_picture g = Ok l /\ deform g u = Ok g' /\ mesh_picture g' = Ok l' /\ Forall2 same_strokes l l' /\
    forall k, In k l' -> 0 < vz (fst (sk_line k)) /\ vz (fst (sk_line k)) < z /\ 0 < vz (snd (sk_line k)) /\ vz (snd (sk_line k)) < z.
Proof.
  intros Hcs NF N0 N1 SL LU. pose proof (cmok _ _ _ Hcs NF) as mok. pose proof (order_kept _ _ _ _ Hcs NF N0 N1) as K.
  destruct (picture_deformed g u mok LU K) as (l & l' & E1 & E2 & F). exists l, (deformed g u), l'. split; [exact E1|]. split; [exact (deform_ok g u LU)|].
  split; [exact E2|]. split; [exact F|]. intros k Hk. destruct (strokes_ends g u mok LU l' k E2 Hk) as (i & d & j & e & Hd & He & ->).
  destruct (thick_ex _ _ _ Hcs i d Hd) as (h & T & P). destruct (thick_ex _ _ _ Hcs j e He) as (h' & T' & P').
  destruct (SL i d h Hd T) as [A B]. destruct (SL j e h' He T') as [C D]. cbn [fst snd node_point raise_node nz vz]. repeat split; qlra.
Qed.
Lemma pictures_recorded lsolve m g p S h : solve lsolve m g p = Ok (S, h) -> ~ flag_set (g_attrs g) -> tolerances_ok p ->
  forall s, In s h -> reliable lsolve m g p S s -> admissible_start m g -> sp_errtol p == 0 ->
  exists z l g' l', st_Z s = Fin z /\ mesh_picture g = Ok l /\ deform g (vals (st_u S s)) = Ok g' /\ mesh_picture g' = Ok l' /\ Forall2 same_strokes l l' /\
    forall k, In k l' -> 0 < vz (fst (sk_line k)) /\ vz (fst (sk_line k)) < z /\ 0 < vz (snd (sk_line k)) /\ vz (snd (sk_line k)) < z.
Proof.
  intros HS NF T s Hs R A E0. destruct (fin_admissible _ _ _ _ _ _ HS NF T s Hs R A E0) as (z & Ez & SL & NO).
  destruct (solve_inv _ _ _ _ _ _ HS) as (K & cs & _ & Hcs & _).
  destruct (pictures_slab m g cs _ z Hcs NF (proj2 A) NO SL) as (l & g' & l' & H); [|exists z, l, g', l'; split; [exact Ez|exact H]].
  unfold vals. rewrite map_length. exact (proj1 (fin_lengths _ _ _ _ _ _ HS _ Hcs s Hs)).
Qed.
Lemma pictures_between lsolve m g p S h : solve lsolve m g p = Ok (S, h) -> ~ flag_set (g_attrs g) -> tolerances_ok p ->
  (forall s, In s h -> reliable lsolve m g p S s) -> forall size R, size_ok size -> solve_full lsolve m g p size = Ok R -> forall t, (2 <= length h)%nat ->
  admissible_start m g -> sp_errtol p == 0 ->
  exists z l g' l', interp_call (r_Z R) t = Fin z /\ mesh_picture g = Ok l /\ deform g (vals (call_vec (r_u R) t)) = Ok g' /\ mesh_picture g' = Ok l' /\
    Forall2 same_strokes l l' /\
    forall k, In k l' -> 0 < vz (fst (sk_line k)) /\ vz (fst (sk_line k)) < z /\ 0 < vz (snd (sk_line k)) /\ vz (snd (sk_line k)) < z.
Proof.
  intros HS NF T HR size R SZ HF t L2 A E0. destruct (res_admissible _ _ _ _ _ _ HS NF T HR size R SZ HF t L2 A E0) as (z & Ez & _ & SL & NO).
  destruct (solve_inv _ _ _ _ _ _ HS) as (K & cs & _ & Hcs & _).
  destruct (pictures_slab m g cs _ z Hcs NF (proj2 A) NO SL) as (l & g' & l' & H); [|exists z, l, g', l'; split; [exact Ez|exact H]].
  unfold solve_full in HF. rewrite HS in HF. cbn [bind fst snd] in HF. injection HF as <-. unfold vals, call_vec. cbn [r_u results_of]. unfold interp_vec.
  rewrite !map_length, seq_length. destruct h as [|s h]; [cbn in L2; lia|]. cbn [map hd]. exact (proj1 (fin_lengths _ _ _ _ _ _ HS _ Hcs s (or_introl eq_refl))).
Qed.

Lemma deform_sizes g u : length u <> (2 * length (g_rows g))%nat -> (length u + 1)%nat <> (2 * length (g_rows g))%nat -> deform g u = Exn ValueErr.
Proof.
  intros H1 H2. unfold deform. destruct (Nat.eqb_spec ((length u + 1) / 2) (length (g_rows g))) as [E|E]; [|reflexivity]. exfalso.
  pose proof (Nat.div_mod (length u + 1) 2 ltac:(lia)) as D. pose proof (Nat.mod_upper_bound (length u + 1) 2 ltac:(lia)). lia.
Qed.

(** ** stacks *)
Lemma select_embed {A} (mask : list bool) : forall l : list A, length mask = length l -> exists phi,
  (forall k k', (k < k')%nat -> (k' < length (select mask l))%nat -> (phi k < phi k')%nat) /\
  (forall k x, nth_error (select mask l) k = Some x -> nth_error l (phi k) = Some x /\ nth_error mask (phi k) = Some true) /\
  (forall k x, nth_error l k = Some x -> nth_error mask k = Some true -> exists k', (k' < length (select mask l))%nat /\ phi k' = k).
Proof.
  induction mask as [|b mask IH]; intros [|a l] L; try discriminate L.
  - exists (fun k => k). split; [intros; simpl in *; lia|]. split; intros [|k] x; discriminate.
  - destruct (IH l) as (phi & H1 & H2 & H3); [injection L; auto|]. cbn [select]. destruct b.
    + exists (fun k => match k with O => O | S k' => S (phi k') end). split; [|split].
      * intros [|k] [|k'] K K'; cbn in *; try lia. pose proof (H1 k k'). lia.
      * intros [|k] x H; cbn in *; [split; [exact H|reflexivity]|apply H2; exact H].
      * intros [|k] x H Hx; cbn in *; [exists 0%nat; split; [lia|reflexivity]|].
        destruct (H3 k x H Hx) as (k' & K & <-). exists (S k'). split; [lia|reflexivity].
    + exists (fun k => S (phi k)). split; [|split].
      * intros k k' K K'. pose proof (H1 k k' K K'). lia.
      * intros k x H. cbn. apply H2; exact H.
      * intros [|k] x H Hx; cbn in *; [discriminate Hx|].
        destruct (H3 k x H Hx) as (k' & K & <-). exists k'. split; [exact K|reflexivity].
Qed.
Lemma loaded_iff x : loaded x = true <-> 1 # 100000000 < Qabs x.
Proof. unfold loaded. rewrite negb_true_iff. split; intros H; qb; lra. Qed.
Lemma force_counts_iff y r : nth_error (map loaded y) r = Some true <-> force_counts y r.
Proof.
  unfold force_counts. rewrite nth_error_map. destruct (nth_error y r) as [x|] eqn:E; cbn.
  - rewrite (nth_error_nth y r 0 E), <- loaded_iff. split; [intros H; injection H; auto|intros ->; reflexivity].
  - rewrite nth_overflow by (apply nth_error_None; exact E). split; [discriminate|]. intros H. exfalso. cbn in H. unfold Qlt in H. cbn in H. lia.
Qed.
Lemma points_contact st k s : nth_error (stack_points st) k = Some s ->
  exists c, In c (map snd (n_rows st)) /\ (cA c < cB c)%Z /\ s = conn_line c /\ nth_error (contacts st) k = Some (cA c, cB c).
Proof.
  unfold stack_points. rewrite nth_error_map, contacts_strict. unfold strict_pairs. rewrite nth_error_map.
  destruct (nth_error (filter _ (map snd (n_rows st))) k) as [c|] eqn:E; cbn; [|discriminate]. intros H. injection H as <-.
  pose proof (nth_error_In _ _ E) as I. apply filter_In in I. destruct I as [I L]. apply Z.ltb_lt in L. eauto 6.
Qed.
Lemma points_length st : length (stack_points st) = length (contacts st).
Proof. rewrite contacts_strict. unfold stack_points, strict_pairs. rewrite !map_length. reflexivity. Qed.

Section StackPicture.
  Variables (linprog marg : lp -> list Q) (m : qmat) (per : bool) (t st : net_df) (m' : qmat).
  Hypothesis Hn : net_new m per None = Ok t.
  Hypothesis Hs : solved linprog m t.
  Hypothesis HP : all_in_plane m.
  Hypothesis HM : priced linprog marg m t.
  Hypothesis NE : q_rows m <> [].
  Hypothesis H : stack_new linprog m t None = Ok (st, m').

  Lemma stack_again : exists p, stack_constraint m t = Ok p /\ stack_constraint m' t = Ok p /\ q_rows m' <> [] /\
    length (marg p) = length (stack_points st).
  Proof.
    destruct (built_inv linprog m per t Hn Hs None st m' H) as (p & Ep & L & HS & EH & full & Hfull & Est).
    cbn in Est. destruct (new_facts _ _ _ _ Hn) as (Hv & Hok & Hl & Hf & Hp).
    assert (Em : m' = set_z m (linprog p)).
    { pose proof H as H0. apply stack_inv in H0. destruct H0 as (_ & _ & p' & Ep' & [(E & _)|(_ & -> & _)]); [contradiction|congruence]. }
    exists p. split; [exact Ep|]. split; [|split].
    - pose proof Ep as E0. revert E0. unfold stack_constraint. rewrite (check_same _ _ HS), (proj2 (net_check_ok t) (or_intror Hok)). rewrite Em.
      destruct (set_z_h m (linprog p) L) as (E1 & E2 & E3). rewrite E1, E2, E3. auto.
    - destruct HS as [_ F]. intros E. apply NE. rewrite E in F. inversion F. reflexivity.
    - destruct (HM p Ep) as (w & MG). pose proof (forces m t p Ep Hf _ _ _ (proj1 (Hs p Ep)) MG) as EQ.
      rewrite points_length, contacts_strict, Est, <- (strict_same per None m m' t full HP HS Hn Hfull), <- contacts_strict.
      pose proof (eq_contacts _ _ _ _ _ EQ) as X. rewrite map_length in X. exact X.
  Qed.
  Lemma stack_lines p y : stack_constraint m t = Ok p -> length y = length (stack_points st) ->
    (forall k, ~ nth k y 0 == 0 -> ~ nth k (marg p) 0 == 0) ->
    shows (select (map loaded y) (stack_points st)) (contacts st) (force_counts y) (contact_line m' per).
  Proof.
    intros Ep0 LY HY. destruct (built_inv linprog m per t Hn Hs None st m' H) as (p' & Ep & L & HS & EH & full & Hfull & Est).
    assert (p' = p) by congruence. subst p'. cbn in Est. subst st. destruct (new_facts _ _ _ _ Hn) as (Hv & Hok & Hl & Hf & Hp).
    destruct (HM p Ep) as (w & MG). pose proof (forces m t p Ep Hf _ _ _ (proj1 (Hs p Ep)) MG) as EQ.
    assert (EC : contacts full = contacts t) by (rewrite !contacts_strict; symmetry; apply (strict_same per None m m'); assumption).
    destruct (select_embed (map loaded y) (stack_points full)) as (phi & H1 & H2 & H3); [rewrite map_length; exact LY|].
    exists phi. split; [exact H1|]. split.
    - intros k s E. destruct (H2 k s E) as [E1 E2]. apply force_counts_iff in E2.
      destruct (points_contact _ _ _ E1) as (c & Ic & Lc & -> & E3). exists (cA c, cB c). split; [exact E3|]. split; [exact E2|].
      apply In_nth_error in Ic. destruct Ic as (i & Ic). apply (rows_snd full) in Ic; [|eapply new_ok; eauto].
      destruct (on_axes m' per None full i c Hfull Ic) as (f & g & Ff & Fg & _).
      pose proof (same_plane _ _ HS HP) as flat'.
      assert (Pf : in_plane f) by (apply flat'; eapply nth_error_In; apply Ff).
      assert (Pg : in_plane g) by (apply flat'; eapply nth_error_In; apply Fg).
      destruct (row_coincide m' per None full i c f g Hfull Ic Lc Ff Fg Pf Pg) as (a & b & AB & X & Y & ZA & ZB).
      exists f, g, a, b. cbn [fst snd conn_line vx vy vz]. split; [exact Ff|]. split; [exact Fg|]. split; [exact AB|].
      split; [exact X|]. split; [exact Y|]. split; [exact ZA|]. split; [exact ZB|].
      destruct (same_fiber m' m _ f (same_sym _ _ HS) Ff) as (f1 & Hf1 & (_ & _ & Ef & _)).
      destruct (same_fiber m' m _ g (same_sym _ _ HS) Fg) as (g1 & Hg1 & (_ & _ & Eg & _)).
      rewrite <- (heights_fiber m' _ f Ff), <- (heights_fiber m' _ g Fg), EH, Ef, Eg.
      rewrite EC in E3. apply (eq_touch _ _ _ _ _ EQ (phi k) (cA c) (cB c) f1 g1 E3 Hf1 Hg1).
      assert (NY : ~ nth (phi k) y 0 == 0). { intros C. unfold force_counts in E2. rewrite C in E2. cbn in E2. unfold Qlt in E2. cbn in E2. lia. }
      apply HY in NY. intros C. apply NY. change 0 with (- 0) in C. rewrite (map_nth Qopp) in C. lra.
    - intros r b E Pr. apply force_counts_iff in Pr. destruct (nth_error (stack_points full) r) as [s|] eqn:Es.
      + apply (H3 r s Es Pr).
      + exfalso. apply nth_error_None in Es. rewrite points_length in Es. apply nth_error_None in Es. congruence.
  Qed.
  Theorem stack_shows : exists p l, stack_constraint m t = Ok p /\ stack_picture marg m' t st = Ok l /\
    shows l (contacts st) (force_counts (marg p)) (contact_line m' per).
  Proof.
    destruct stack_again as (p & Ep & Ep' & NE' & LY). pose proof (stack_lines p (marg p) Ep LY (fun _ h => h)) as SH.
    exists p, (select (map loaded (marg p)) (stack_points st)). split; [exact Ep|]. split; [|exact SH].
    unfold stack_picture. rewrite Ep'. cbn [bind]. destruct (q_rows m') as [|f0 r0]; [contradiction|].
    destruct (Nat.eqb_spec (length (stack_points st)) 0) as [Z|Z].
    - rewrite Z in LY. destruct (marg p); [|discriminate LY]. reflexivity.
    - rewrite LY, Nat.eqb_refl. reflexivity.
  Qed.
End StackPicture.
(** in the mesh of a stack each contact is drawn once, upwards *)
Theorem stack_contacts linprog m per t thr st m' g l : net_new m per None = Ok t -> solved linprog m t -> all_in_plane m ->
  stack_new linprog m t thr = Ok (st, m') -> mesh_new st = Ok g -> mesh_picture g = Ok l ->
  exists place, numbers st g place /\ forall k, sk_style k = Between ->
    In k l <-> exists r c, nth_row st r c /\ (cA c < cB c)%Z /\ joins g k (place r false) (place r true).
Proof.
  intros Hn Hs HP H G P. destruct (stack_mesh_total linprog m per t thr st m' Hn Hs H) as (g' & G' & mok). assert (g' = g) by congruence. subst g'.
  destruct (init_numbers st g (mesh_new_inv _ _ G)) as [num lnk]. eexists. split; [exact num|]. intros k Ek.
  rewrite (picture_contacts g mok st _ num lnk l P k Ek).
  destruct (built_inv linprog m per t Hn Hs thr st m' H) as (p & Ep & L & HS & EH & full & Hfull & Est).
  assert (O : net_ok st) by (rewrite Est; apply filter_ok; eapply new_ok; eauto).
  assert (K : forall r c, nth_row st r c -> is_row st r c /\ (cA c <= cB c)%Z).
  { intros r c (lab & R). assert (X : nth_error (map snd (n_rows st)) r = Some c) by (rewrite nth_error_map, R; reflexivity).
    apply (rows_snd st) in X; [|exact O]. split; [exact X|]. destruct O as (_ & nn & _ & _ & _ & _ & _ & _ & HO & _).
    unfold is_row in X. apply nth_error_In in X. exact (HO _ _ X). }
  assert (Z : forall r c, nth_row st r c -> (cA c < cB c)%Z -> czA c < czB c).
  { intros r c R Lc. destruct (K r c R) as [Ir _].
    assert (exists r', is_row full r' c) as (r' & Ir').
    { rewrite Est in Ir. destruct thr as [d|]; [|eauto]. apply filter_rows in Ir. apply nth_error_In in Ir. apply filter_In in Ir. destruct Ir as [Ir _].
      apply In_nth_error in Ir. destruct Ir as (k' & Ir). apply (rows_snd full) in Ir; [eauto|eapply new_ok; eauto]. }
    destruct (on_axes m' per None full r' c Hfull Ir') as (f & f' & Ff & Fg & _).
    destruct (built_rows linprog m per t Hn Hs HP thr st m' H r c f f' Ir Lc Ff Fg) as (_ & _ & _ & D).
    pose proof (new_valid _ _ _ _ Hfull) as V. assert (Hf : 0 < qh f) by (apply (valid_fiber m' V f); eapply nth_error_In; apply Ff).
    assert (Hg : 0 < qh f') by (apply (valid_fiber m' V f'); eapply nth_error_In; apply Fg). qlra. }
  split.
  - intros (r & c & b & R & N & S & J). destruct (K r c R) as [_ Le]. assert (Lc : (cA c < cB c)%Z) by lia. pose proof (Z r c R Lc) as Zc.
    exists r, c. split; [exact R|]. split; [exact Lc|]. destruct b; cbn in S; [lra|exact J].
  - intros (r & c & R & Lc & J). exists r, c, false. split; [exact R|]. split; [lia|]. split; [exact (Z r c R Lc)|exact J].
Qed.

(** ** nodes counted from the end *)
Definition same_place (d e : node) : Prop := nf e = nf d /\ ns e = ns d /\ nx e = nx d /\ ny e = ny d /\ nz e = nz d.
Lemma iloc_same n rows rows' i j d : n = length rows -> Forall2 (same_row n) rows rows' -> same_position n i j -> iloc rows i = Ok d -> exists e, iloc rows' j = Ok e /\ same_place d e.
Proof.
  intros N F P H. assert (L : length rows = length rows') by (clear - F; induction F; cbn; congruence). unfold iloc in *. rewrite <- L, <- N in *.
  set (a := if (i <? 0)%Z then (i + Z.of_nat n)%Z else i) in *. destruct (a <? 0)%Z eqn:A; [discriminate|]. apply Z.ltb_ge in A.
  assert (E : (if (j <? 0)%Z then (j + Z.of_nat n)%Z else j) = a).
  { unfold a in *. destruct P as [->|(P & ->)]; [reflexivity|]. replace (i <? 0)%Z with true in * by (symmetry; apply Z.ltb_lt; exact P).
    replace (i + Z.of_nat n <? 0)%Z with false by (symmetry; apply Z.ltb_ge; exact A). reflexivity. }
  rewrite E. replace (a <? 0)%Z with false by (symmetry; apply Z.ltb_ge; exact A).
  destruct (nth_error rows (Z.to_nat a)) as [r|] eqn:X; [|discriminate]. injection H as <-.
  clear - F X. revert rows' F X. generalize (Z.to_nat a). intros k. revert rows. induction k; intros rows rows' F X; destruct F; try discriminate X.
  - injection X as ->. exists (snd y). split; [reflexivity|]. unfold same_row, same_place in *. tauto.
  - exact (IHk _ _ F X).
Qed.
Lemma strokes_same n rows rows' r r' S : n = length rows -> Forall2 (same_row n) rows rows' -> same_row n r r' -> node_strokes rows r = Ok S ->
  exists S', node_strokes rows' r' = Ok S' /\ Forall2 same_line S S'.
Proof.
  intros N F P H. unfold node_strokes in *. cbv zeta in *. destruct P as (P1 & P2 & P3 & _).
  destruct (iloc rows (fst r)) as [a|] eqn:Ea; [|discriminate]. cbn [bind] in H. destruct (iloc rows (nbeam (snd r))) as [b|] eqn:Eb; [|discriminate]. cbn [bind] in H.
  destruct (iloc rows (ncons (snd r))) as [c|] eqn:Ec; [|discriminate]. cbn [bind] in H. injection H as <-.
  destruct (iloc_same n rows rows' _ _ a N F P1 Ea) as (a' & -> & A). destruct (iloc_same n rows rows' _ _ b N F P2 Eb) as (b' & -> & B). destruct (iloc_same n rows rows' _ _ c N F P3 Ec) as (c' & -> & C).
  cbn [bind]. eexists. split; [reflexivity|]. destruct A as (A1 & A2 & A3 & A4 & A5), B as (B1 & B2 & B3 & B4 & B5), C as (C1 & C2 & C3 & C4 & C5).
  unfold node_point. rewrite A1, A2, A3, A4, A5, B2, B3, B4, B5, C1, C3, C4, C5.
  destruct (Qltb (ns a) (ns b)), (Qltb (nz a) (nz c)), (Z.eqb (nf a) (nf c)); cbn [app]; repeat constructor.
Qed.
Lemma picture_positions g g' l : Forall2 (same_row (length (g_rows g))) (g_rows g) (g_rows g') -> mesh_picture g = Ok l ->
  exists l', mesh_picture g' = Ok l' /\ Forall2 same_line l l'.
Proof.
  intros F. unfold mesh_picture. set (n := length (g_rows g)) in *.
  assert (G : forall rs rs' l, Forall2 (same_row n) rs rs' -> each_node (g_rows g) rs = Ok l -> exists l', each_node (g_rows g') rs' = Ok l' /\ Forall2 same_line l l').
  { clear l. intros rs rs' l K. revert l. induction K as [|r r' rs rs' P Q IH]; intros l H.
    - injection H as <-. exists []. split; [reflexivity|constructor].
    - cbn [each_node] in *. destruct (node_strokes (g_rows g) r) as [a|] eqn:Ea; [|discriminate]. cbn [bind] in H. destruct (each_node (g_rows g) rs) as [b|] eqn:Eb; [|discriminate]. injection H as <-.
      destruct (strokes_same n _ _ r r' a eq_refl F P Ea) as (a' & -> & A). destruct (IH b eq_refl) as (b' & -> & B). cbn [bind]. exists (a' ++ b'). split; [reflexivity|]. apply Forall2_app; assumption. }
  intros H. exact (G _ _ l F H).
Qed.
