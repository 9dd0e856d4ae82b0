(** The force on the lid during compression (C94). *)
From Coq Require Import String Permutation.
From Verif Require Import Num NumP ListX ListP Frames MatM NetM MeshM ModelM SolverM Spec SpecNet SpecMesh SpecModel SpecSolver SpecEnergy SpecStiffen
  MeshCheckP NetP StackP StiffP StiffLimP StiffLenP ConstraintP SolverP SolverRunP SolverSysP SolverApiP SolverFinP EnergyP.
Open Scope Q_scope.

(** ** sums of three vectors *)
Definition comb (n : nat) (a b c : Q) (u v w : list Q) : list Q := map (fun r => a * nth r u 0 + b * nth r v 0 + c * nth r w 0) (seq 0 n).
Lemma comb_nth n a b c u v w r : (r < n)%nat -> nth r (comb n a b c u v w) 0 = a * nth r u 0 + b * nth r v 0 + c * nth r w 0.
Proof.
  intros L. unfold comb. set (f := fun r => a * nth r u 0 + b * nth r v 0 + c * nth r w 0).
  rewrite (nth_indep _ 0 (f 0%nat)) by (rewrite map_length, seq_length; exact L).
  rewrite (map_nth f (seq 0 n) 0%nat r), List.seq_nth by exact L. reflexivity.
Qed.
Lemma bil_comb P n a b c u v w : (forall r x y, In (r, x, y) P -> (r < n /\ x < n)%nat) ->
  quadratic P (comb n a b c u v w) == a * a * bil P u u + b * b * bil P v v + c * c * bil P w w +
    a * b * (bil P u v + bil P v u) + a * c * (bil P u w + bil P w u) + b * c * (bil P v w + bil P w v).
Proof.
  unfold quadratic, bil. induction P as [|[[i j] y] P IH]; intros H; [cbn [map qsum]; ring|]. cbn [map qsum].
  rewrite IH by (intros; eapply H; right; eauto). destruct (H i j y (or_introl eq_refl)) as [Li Lj]. rewrite !comb_nth by assumption. ring.
Qed.

(** ** slopes of decreasing sequences *)
Lemma slopes (F Z : nat -> Q) N : (forall k, (k < N)%nat -> Z (Datatypes.S k) < Z k) ->
  (forall k, (Datatypes.S k < N)%nat ->
     (F (Datatypes.S k) - F k) * (Z (Datatypes.S k) - Z (2 + k)%nat) <= (F (2 + k)%nat - F (Datatypes.S k)) * (Z k - Z (Datatypes.S k))) ->
  forall i j k, (i < j)%nat -> (j < k)%nat -> (k <= N)%nat -> (F j - F i) * (Z j - Z k) <= (F k - F j) * (Z i - Z j).
Proof.
  intros D C.
  assert (DD : forall j i, (i + j <= N)%nat -> (0 < j)%nat -> Z (i + j)%nat < Z i).
  { induction j as [|j IH]; intros i L P; [lia|]. destruct j as [|j].
    - rewrite Nat.add_1_r. apply D. lia.
    - rewrite Nat.add_succ_r. apply Qlt_trans with (Z (i + Datatypes.S j)%nat); [apply D; lia|apply IH; lia]. }
  (* one step, then many *)
  assert (A : forall b i, (i + 1 + b <= N)%nat -> (0 < b)%nat ->
     (F (i + 1)%nat - F i) * (Z (i + b)%nat - Z (i + b + 1)%nat) <= (F (i + b + 1)%nat - F (i + b)%nat) * (Z i - Z (i + 1)%nat)).
  { induction b as [|b IH]; intros i L P; [lia|]. destruct b as [|b].
    - pose proof (C i ltac:(lia)) as H. replace (2 + i)%nat with (i + 1 + 1)%nat in H by lia. replace (Datatypes.S i) with (i + 1)%nat in H by lia. exact H.
    - pose proof (IH i ltac:(lia) ltac:(lia)) as H1. pose proof (C (i + Datatypes.S b)%nat ltac:(lia)) as H2.
      replace (2 + (i + Datatypes.S b))%nat with (i + Datatypes.S (Datatypes.S b) + 1)%nat in H2 by lia.
      replace (Datatypes.S (i + Datatypes.S b)) with (i + Datatypes.S (Datatypes.S b))%nat in H2 by lia.
      replace (i + Datatypes.S b + 1)%nat with (i + Datatypes.S (Datatypes.S b))%nat in H1 by lia.
      set (x := (i + Datatypes.S b)%nat) in *. set (y := (i + Datatypes.S (Datatypes.S b))%nat) in *.
      pose proof (D x ltac:(unfold x; lia)) as D1. replace (Datatypes.S x) with y in D1 by (unfold x, y; lia).
      pose proof (D i ltac:(lia)) as D2. replace (Datatypes.S i) with (i + 1)%nat in D2 by lia.
      pose proof (D y ltac:(unfold y; lia)) as D3. replace (Datatypes.S y) with (y + 1)%nat in D3 by lia.
      (* eliminate the middle slope *)
      assert (M : (Z x - Z y) * ((F (i + 1)%nat - F i) * (Z y - Z (y + 1)%nat)) <= (Z x - Z y) * ((F (y + 1)%nat - F y) * (Z i - Z (i + 1)%nat))).
      { assert (M1 : (F (i + 1)%nat - F i) * (Z x - Z y) * (Z y - Z (y + 1)%nat) <= (F y - F x) * (Z i - Z (i + 1)%nat) * (Z y - Z (y + 1)%nat)).
        { apply Qmult_le_compat_r; [exact H1|lra]. }
        assert (M2 : (F y - F x) * (Z y - Z (y + 1)%nat) * (Z i - Z (i + 1)%nat) <= (F (y + 1)%nat - F y) * (Z x - Z y) * (Z i - Z (i + 1)%nat)).
        { apply Qmult_le_compat_r; [exact H2|lra]. }
        lra. }
      apply (proj1 (Qmult_le_l _ _ (Z x - Z y) ltac:(lra)) M). }
  (* one step of either side: sum over the last *)
  assert (B : forall c i b, (i + b + c <= N)%nat -> (0 < b)%nat ->
     (F (i + 1)%nat - F i) * (Z (i + b)%nat - Z (i + b + c)%nat) <= (F (i + b + c)%nat - F (i + b)%nat) * (Z i - Z (i + 1)%nat)).
  { induction c as [|c IH]; intros i b L P; [rewrite Nat.add_0_r; lra|].
    pose proof (IH i b ltac:(lia) P) as H1. pose proof (A (b + c)%nat i ltac:(lia) ltac:(lia)) as H2.
    replace (i + (b + c))%nat with (i + b + c)%nat in H2 by lia. replace (i + b + c + 1)%nat with (i + b + Datatypes.S c)%nat in H2 by lia. lra. }
  assert (E : forall a i c, (i + a + c <= N)%nat ->
     (F (i + a)%nat - F i) * (Z (i + a)%nat - Z (i + a + c)%nat) <= (F (i + a + c)%nat - F (i + a)%nat) * (Z i - Z (i + a)%nat)).
  { induction a as [|a IH]; intros i c L; [rewrite Nat.add_0_r; lra|].
    pose proof (IH (i + 1)%nat c ltac:(lia)) as H1. pose proof (B c i (Datatypes.S a) ltac:(lia) ltac:(lia)) as H2.
    replace (i + 1 + a)%nat with (i + Datatypes.S a)%nat in H1 by lia. lra. }
  intros i j k L1 L2 L3. pose proof (E (j - i)%nat i (k - j)%nat ltac:(lia)) as H.
  replace (i + (j - i))%nat with j in H by lia. replace (j + (k - j))%nat with k in H by lia. exact H.
Qed.

Section Stiffen.
  Variable lsolve : ncoo -> list num -> list num.
  Variable m : qmat.
  Variable g : mesh_df.
  Variable p : solve_params.
  Variable S : sysdata.
  Variable h : list state.
  Hypothesis HS : solve lsolve m g p = Ok (S, h).
  Hypothesis noflag : ~ flag_set (g_attrs g).
  Hypothesis tols : tolerances_ok p.
  Variable K : ncoo.
  Variable cs : csys.
  Hypothesis HK : stiffness m g (sp_lmin p) (sp_lmax p) (sp_coupling p) = Ok K.
  Hypothesis Hcs : constraint m g = Ok cs.
  Hypothesis E0 : sp_errtol p == 0.
  Hypothesis HL : lengths_ok g (sp_lmin p) (sp_lmax p).
  Hypothesis HM : finite_moduli m.
  Hypothesis HC : sp_coupling p * sp_coupling p <= 1.
  Variable n : nat.
  Hypothesis Hn : length (csH cs) = (3 * n)%nat.
  Let nu := (2 * length (g_rows g))%nat.

  Lemma any s s' : reliable lsolve m g p S s -> reliable lsolve m g p S s'.
  Proof. exact (reliable_any lsolve m g p S h HS E0 s s'). Qed.
  (** the work of forces of closed contacts over one step is done at the lid *)
  Lemma closed_work k s s' f : nth_error h k = Some s -> nth_error h (Datatypes.S k) = Some s' -> reliable lsolve m g p S s' -> length f = (3 * n)%nat ->
    (forall r, ~ nth r f 0 == 0 -> exists q, gap_is (csC cs) (st_H S s) (vals (st_u S s)) r q /\ q <= sp_tol p) ->
    contact_work (csC cs) f (vals (st_u S s')) - contact_work (csC cs) f (vals (st_u S s)) == - (lid_force f n * (height s - height s')).
  Proof.
    intros Hk Hk' R' EL G0. pose proof (any s' s R') as R. pose proof (nth_error_In _ _ Hk) as Hs. pose proof (nth_error_In _ _ Hk') as Hs'.
    assert (D : forall r, nth r f 0 == 0 \/ product (csC cs) (vals (st_u S s')) r ==
        product (csC cs) (vals (st_u S s)) r - (if Nat.eqb (Nat.modulo r 3) 2 then 1 else 0) * (height s - height s')).
    { intros r. destruct (Qeq_dec (nth r f 0) 0) as [E|N]; [left; exact E|right]. destruct (G0 r N) as (q & G & Lq).
      pose proof (fin_contact lsolve m g p S h HS noflag tols cs k s s' Hcs Hk Hk' R' E0 r q G Lq) as G'.
      destruct (gap_bound lsolve m g p S h HS noflag tols cs Hcs s r q Hs R G) as (b & Hb & P1).
      destruct (gap_bound lsolve m g p S h HS noflag tols cs Hcs s' r q Hs' R' G') as (b' & Hb' & P2).
      assert (b' = b) by congruence. subst b'. rewrite P1, P2. unfold height. ring. }
    unfold contact_work. rewrite EL.
    assert (Q : qsum (map (fun r => nth r f 0 * product (csC cs) (vals (st_u S s')) r) (seq 0 (3 * n))) ==
      qsum (map (fun r => - (height s - height s') * (nth r f 0 * (if Nat.eqb (r mod 3) 2 then 1 else 0)) + nth r f 0 * product (csC cs) (vals (st_u S s)) r) (seq 0 (3 * n)))).
    { apply qsum_ext. intros r _. destruct (D r) as [N0|N1]; [rewrite N0; ring|rewrite N1; ring]. }
    rewrite Q, qsum_plus, (qsum_scale (fun r => nth r f 0 * (if Nat.eqb (Nat.modulo r 3) 2 then 1 else 0))), (qsum_lid (fun r => nth r f 0)).
    unfold lid_force. ring.
  Qed.
  Lemma f_len s : In s h -> length (vals (st_f S s)) = (3 * n)%nat.
  Proof. intros Hs. rewrite (f_length lsolve m g p S h HS cs Hcs s Hs). exact Hn. Qed.
  (** work against the internal forces of one state over a step in which its contacts are closed *)
  Lemma step_work k s s' a : nth_error h k = Some s -> nth_error h (Datatypes.S k) = Some s' -> reliable lsolve m g p S s' -> In a h ->
    (forall r, ~ nth r (vals (st_f S a)) 0 == 0 -> exists q, gap_is (csC cs) (st_H S s) (vals (st_u S s)) r q /\ q <= sp_tol p) ->
    bil K (vals (st_u S s')) (vals (st_u S a)) - bil K (vals (st_u S s)) (vals (st_u S a)) == load S n a * (height s - height s').
  Proof.
    intros Hk Hk' R' Ha G. pose proof (any s' a R') as Ra.
    pose proof (virtual lsolve m g p S h HS noflag tols K cs HK Hcs E0 HL HM a Ha Ra) as V.
    rewrite (V (vals (st_u S s'))), (V (vals (st_u S s))).
    rewrite !(contact_rows lsolve m g p S h HS noflag cs Hcs a _ Ha).
    pose proof (closed_work k s s' (vals (st_f S a)) Hk Hk' R' (f_len a Ha) G) as W. unfold load. lra.
  Qed.
  Lemma psd u : 0 <= quadratic K u.
  Proof. exact (stiff_psd m g _ _ _ K HK noflag HL HM u HC). Qed.
  Lemma down k s s' : nth_error h k = Some s -> nth_error h (Datatypes.S k) = Some s' -> reliable lsolve m g p S s' -> height s' < height s.
  Proof.
    intros Hk Hk' R'. destruct (fin_compacts lsolve m g p S h HS noflag tols k s s' Hk Hk' (any s' s R') R') as (z & z' & Ez & Ez' & L & _).
    unfold height. rewrite Ez, Ez'. exact L.
  Qed.
  Lemma own s r : In s h -> reliable lsolve m g p S s -> ~ nth r (vals (st_f S s)) 0 == 0 ->
    exists q, gap_is (csC cs) (st_H S s) (vals (st_u S s)) r q /\ q <= sp_tol p.
  Proof. intros Hs R. exact (fin_force lsolve m g p S h HS noflag tols cs s Hcs Hs R E0 r). Qed.
  Lemma before k s s' r : nth_error h k = Some s -> nth_error h (Datatypes.S k) = Some s' -> reliable lsolve m g p S s' ->
    ~ nth r (vals (st_f S s')) 0 == 0 -> exists q, gap_is (csC cs) (st_H S s) (vals (st_u S s)) r q /\ q <= sp_tol p.
  Proof. intros Hk Hk' R'. exact (fin_step_force lsolve m g p S h HS noflag tols cs k s s' Hcs Hk Hk' R' E0 r). Qed.
  Lemma stays k s s' r : nth_error h k = Some s -> nth_error h (Datatypes.S k) = Some s' -> reliable lsolve m g p S s' ->
    (exists q, gap_is (csC cs) (st_H S s) (vals (st_u S s)) r q /\ q <= sp_tol p) ->
    exists q, gap_is (csC cs) (st_H S s') (vals (st_u S s')) r q /\ q <= sp_tol p.
  Proof. intros Hk Hk' R' (q & G & L). exists q. split; [|exact L]. exact (fin_contact lsolve m g p S h HS noflag tols cs k s s' Hcs Hk Hk' R' E0 r q G L). Qed.

  Lemma load_first s : nth_error h 0 = Some s -> load S n s == 0.
  Proof.
    intros Hs. destruct (fin_history lsolve m g p S h HS) as (_ & (s0 & Hs0 & _ & U & _) & _).
    assert (s0 = s) by congruence. subst s0. unfold load, lid_force. apply qsum_zeros. intros x Hx. apply in_map_iff in Hx.
    destruct Hx as (j & <- & _). destruct (nth_in_or_default (3 * j + 2) (vals (st_f S s)) 0) as [I|E]; [|rewrite E; reflexivity].
    apply in_map_iff in I. destruct I as (w & Ew & Hw). rewrite <- Ew, (U w Hw). reflexivity.
  Qed.
  (** the lid force grows by the energy of the increment *)
  Lemma load_step k s s' : nth_error h k = Some s -> nth_error h (Datatypes.S k) = Some s' -> reliable lsolve m g p S s' -> load S n s <= load S n s'.
  Proof.
    intros Hk Hk' R'. pose proof (nth_error_In _ _ Hk) as Hs. pose proof (nth_error_In _ _ Hk') as Hs'. pose proof (any s' s R') as R.
    pose proof (step_work k s s' s Hk Hk' R' Hs (fun r => own s r Hs R)) as W0.
    pose proof (step_work k s s' s' Hk Hk' R' Hs' (fun r => before k s s' r Hk Hk' R')) as W1.
    pose proof (bil_sym K (vals (st_u S s)) (vals (st_u S s')) (K_swap m g p noflag K HK)) as SY.
    pose proof (psd (vsub nu (vals (st_u S s')) (vals (st_u S s)))) as P. rewrite (bil_vsub K nu _ _ (K_range m g p noflag K cs HK)) in P.
    pose proof (down k s s' Hk Hk' R') as D.
    assert (X : 0 <= (height s - height s') * (load S n s' - load S n s)) by lra.
    assert (Y : (height s - height s') * 0 <= (height s - height s') * (load S n s' - load S n s)) by lra.
    apply (proj1 (Qmult_le_l _ _ (height s - height s') ltac:(lra))) in Y. lra.
  Qed.
  Lemma stiffens_step k a b c : nth_error h k = Some a -> nth_error h (Datatypes.S k) = Some b -> nth_error h (Datatypes.S (Datatypes.S k)) = Some c ->
    reliable lsolve m g p S c -> no_softer S n a b c.
  Proof.
    intros Ha Hb Hc Rc. pose proof (nth_error_In _ _ Ha) as Ia. pose proof (nth_error_In _ _ Hb) as Ib. pose proof (nth_error_In _ _ Hc) as Ic.
    pose proof (any c b Rc) as Rb. pose proof (any c a Rc) as Ra.
    pose proof (step_work k a b a Ha Hb Rb Ia (fun r => own a r Ia Ra)) as W1.
    pose proof (step_work k a b b Ha Hb Rb Ib (fun r => before k a b r Ha Hb Rb)) as W2.
    pose proof (step_work _ b c a Hb Hc Rc Ia (fun r N => stays k a b r Ha Hb Rb (own a r Ia Ra N))) as W3.
    pose proof (step_work _ b c b Hb Hc Rc Ib (fun r => own b r Ib Rb)) as W4.
    pose proof (step_work _ b c c Hb Hc Rc Ic (fun r => before _ b c r Hb Hc Rc)) as W5.
    pose proof (down k a b Ha Hb Rb) as D1. pose proof (down _ b c Hb Hc Rc) as D2.
    pose proof (fun u v => bil_sym K u v (K_swap m g p noflag K HK)) as SY.
    set (ua := vals (st_u S a)) in *. set (ub := vals (st_u S b)) in *. set (uc := vals (st_u S c)) in *.
    set (d1 := height a - height b) in *. set (d2 := height b - height c) in *.
    pose proof (psd (comb nu d2 (- (d1 + d2)) d1 ua ub uc)) as P. rewrite (bil_comb K nu _ _ _ _ _ _ (K_range m g p noflag K cs HK)) in P.
    pose proof (SY ua ub) as S1. pose proof (SY ua uc) as S2. pose proof (SY ub uc) as S3.
    unfold no_softer. fold d1 d2. set (Fa := load S n a) in *. set (Fb := load S n b) in *. set (Fc := load S n c) in *.
    set (aa := bil K ua ua) in *. set (bb := bil K ub ub) in *. set (cc := bil K uc uc) in *.
    set (ba := bil K ub ua) in *. set (ca := bil K uc ua) in *. set (cb := bil K uc ub) in *.
    set (ab := bil K ua ub) in *. set (ac := bil K ua uc) in *. set (bc := bil K ub uc) in *.
    assert (D1' : 0 < d1) by (unfold d1; lra). assert (D2' : 0 < d2) by (unfold d2; lra).
    clearbody d1 d2 Fa Fb Fc aa bb cc ba ca cb ab ac bc. clear - W1 W2 W3 W4 W5 S1 S2 S3 P D1' D2'.
    assert (E1 : ba == aa + Fa * d1) by lra. assert (E2 : bb == ba + Fb * d1) by lra.
    assert (E3 : ca == ba + Fa * d2) by lra. assert (E4 : cb == bb + Fb * d2) by lra. assert (E5 : cc == cb + Fc * d2) by lra.
    assert (X : 0 <= (d1 * d2) * ((Fc - Fb) * d1 - (Fb - Fa) * d2)).
    { eapply Qle_trans; [exact P|]. rewrite S1, S2, S3, E5, E4, E3, E2, E1. apply Qle_lteq. right. ring. }
    assert (Y : (d1 * d2) * 0 <= (d1 * d2) * ((Fc - Fb) * d1 - (Fb - Fa) * d2)) by lra.
    apply (proj1 (Qmult_le_l _ _ (d1 * d2) (Qmult_lt_0_compat _ _ D1' D2'))) in Y. lra.
  Qed.

  (** ** any recorded states *)
  Lemma upto k s : nth_error h k = Some s -> forall j, (j <= k)%nat -> exists a, nth_error h j = Some a.
  Proof.
    intros Hk j L. destruct (nth_error h j) eqn:E; eauto. apply nth_error_None in E.
    assert (k < length h)%nat by (apply nth_error_Some; congruence). lia.
  Qed.
  Definition Fat (k : nat) : Q := match nth_error h k with Some s => load S n s | None => 0 end.
  Definition Zat (k : nat) : Q := match nth_error h k with Some s => height s | None => 0 end.
  Lemma stiffens i j k a b c : nth_error h i = Some a -> nth_error h j = Some b -> nth_error h k = Some c ->
    reliable lsolve m g p S c -> (i < j)%nat -> (j < k)%nat -> no_softer S n a b c.
  Proof.
    intros Ha Hb Hc Rc L1 L2. pose proof (slopes Fat Zat k) as SL.
    assert (D : forall x, (x < k)%nat -> Zat (Datatypes.S x) < Zat x).
    { intros x Lx. unfold Zat. destruct (upto k c Hc x ltac:(lia)) as (y & Hy). destruct (upto k c Hc (Datatypes.S x) ltac:(lia)) as (y' & Hy').
      rewrite Hy, Hy'. exact (down x y y' Hy Hy' (any c y' Rc)). }
    assert (C : forall x, (Datatypes.S x < k)%nat ->
      (Fat (Datatypes.S x) - Fat x) * (Zat (Datatypes.S x) - Zat (2 + x)%nat) <= (Fat (2 + x)%nat - Fat (Datatypes.S x)) * (Zat x - Zat (Datatypes.S x))).
    { intros x Lx. unfold Zat, Fat. change (2 + x)%nat with (Datatypes.S (Datatypes.S x)).
      destruct (upto k c Hc x ltac:(lia)) as (y & Hy). destruct (upto k c Hc (Datatypes.S x) ltac:(lia)) as (y' & Hy').
      destruct (upto k c Hc (Datatypes.S (Datatypes.S x)) ltac:(lia)) as (w & Hw).
      rewrite Hy, Hy', Hw. exact (stiffens_step x y y' w Hy Hy' Hw (any c w Rc)). }
    pose proof (SL D C i j k L1 L2 (le_n k)) as X. unfold Fat, Zat in X. rewrite Ha, Hb, Hc in X. exact X.
  Qed.
  Lemma load_grows i j a b : nth_error h i = Some a -> nth_error h j = Some b -> reliable lsolve m g p S b -> (i <= j)%nat -> load S n a <= load S n b.
  Proof.
    intros Ha Hb Rb L. replace j with (i + (j - i))%nat in Hb by lia. revert b Hb Rb. induction (j - i)%nat as [|d IH]; intros b Hb Rb.
    - rewrite Nat.add_0_r in Hb. assert (b = a) by congruence. subst b. lra.
    - destruct (upto _ b Hb (i + d)%nat ltac:(lia)) as (c & Hc). rewrite Nat.add_succ_r in Hb.
      pose proof (IH c Hc (any b c Rb)). pose proof (load_step _ c b Hc Hb Rb). lra.
  Qed.
  Lemma load_nonneg s : In s h -> reliable lsolve m g p S s -> 0 <= load S n s.
  Proof.
    intros Hs R. apply In_nth_error in Hs. destruct Hs as (k & Hk). destruct (upto k s Hk 0%nat ltac:(lia)) as (a & Ha).
    pose proof (load_grows 0 k a s Ha Hk R ltac:(lia)). rewrite (load_first a Ha) in H. exact H.
  Qed.
  Lemma stored_grows i j a b : nth_error h i = Some a -> nth_error h j = Some b -> reliable lsolve m g p S b -> (i <= j)%nat ->
    stored K (vals (st_u S a)) <= stored K (vals (st_u S b)).
  Proof.
    intros Ha Hb Rb L. replace j with (i + (j - i))%nat in Hb by lia. revert b Hb Rb. induction (j - i)%nat as [|d IH]; intros b Hb Rb.
    - rewrite Nat.add_0_r in Hb. assert (b = a) by congruence. subst b. lra.
    - destruct (upto _ b Hb (i + d)%nat ltac:(lia)) as (c & Hc). rewrite Nat.add_succ_r in Hb.
      pose proof (IH c Hc (any b c Rb)) as X. pose proof (energy_step lsolve m g p S h HS noflag tols K cs HK Hcs E0 HL HM _ c b Hc Hb Rb) as ST.
      assert (En : n = length (cons_pairs (g_rows g))) by (pose proof Hn as Q; rewrite (csH_len m g cs Hcs) in Q; lia). rewrite <- En in ST.
      pose proof (down _ c b Hc Hb Rb) as D. pose proof (load_nonneg c (nth_error_In _ _ Hc) (any b c Rb)) as F1.
      pose proof (load_nonneg b (nth_error_In _ _ Hb) Rb) as F2. unfold load, height in *.
      assert (P : 0 <= (lid_force (vals (st_f S c)) n + lid_force (vals (st_f S b)) n) * (qof (st_Z c) - qof (st_Z b))) by (apply Qmult_le_0_compat; lra).
      unfold stored in *. qlra.
  Qed.
  (** energy is at most that of a spring with the same final force *)
  Lemma stored_bound s : In s h -> reliable lsolve m g p S s -> 2 * stored K (vals (st_u S s)) <= load S n s * travel S s.
  Proof.
    intros Hs R. apply In_nth_error in Hs. destruct Hs as (k & Hk). revert s Hk R. induction k as [|k IH]; intros s Hk R.
    - unfold stored. rewrite (energy_first lsolve m g p S h HS K s Hk), (load_first s Hk). qlra.
    - destruct (upto _ s Hk k ltac:(lia)) as (a & Ha). pose proof (IH a Ha (any s a R)) as X.
      pose proof (energy_step lsolve m g p S h HS noflag tols K cs HK Hcs E0 HL HM _ a s Ha Hk R) as ST.
      assert (En : n = length (cons_pairs (g_rows g))) by (pose proof Hn as Q; rewrite (csH_len m g cs Hcs) in Q; lia). rewrite <- En in ST.
      fold (load S n a) (load S n s) (height a) (height s) in ST.
      pose proof (load_step _ a s Ha Hk R) as G. pose proof (down _ a s Ha Hk R) as D.
      rewrite (travel_Z lsolve m g p S h HS cs Hcs) in X |- *. fold (height a) in X. fold (height s).
      destruct (upto _ s Hk 0%nat ltac:(lia)) as (o & Ho).
      assert (ZO : height o == csZ cs).
      { destruct (solve_inv _ _ _ _ _ _ HS) as (? & cs2 & _ & Hcs2 & _ & Eh). cbv zeta in Eh. assert (cs2 = cs) by congruence. subst cs2.
        rewrite Eh in Ho. cbn in Ho. injection Ho as <-. reflexivity. }
      assert (C : load S n a * (height a - height s) <= (load S n s - load S n a) * (csZ cs - height a)).
      { destruct k as [|k].
        - assert (o = a) by congruence. subst o. rewrite (load_first a Ha), ZO. lra.
        - pose proof (stiffens 0 (Datatypes.S k) (Datatypes.S (Datatypes.S k)) o a s Ho Ha Hk R ltac:(lia) ltac:(lia)) as C.
          unfold no_softer in C. rewrite (load_first o Ho), ZO in C. lra. }
      unfold stored in *. set (x := quadratic K (vals (st_u S s))) in *. set (y := quadratic K (vals (st_u S a))) in *.
      assert (X2 : y <= load S n a * (csZ cs - height a)) by qlra.
      assert (B : x <= load S n s * (csZ cs - height s)) by lra.
      qlra.
  Qed.
End Stiffen.
