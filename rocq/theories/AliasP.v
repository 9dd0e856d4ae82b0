(** Proofs about shared attributes. *)
From Verif Require Import Num NumP ListX ListP Frames AliasM SpecAlias.
Open Scope Q_scope.

Lemma upd_length {A} (l : list A) : forall i a, length (upd l i a) = length l.
Proof. induction l; intros [|i] b; simpl; auto. Qed.
Lemma nth_upd {A} (l : list A) : forall i j a d, (i < length l)%nat -> nth j (upd l i a) d = if Nat.eqb j i then a else nth j l d.
Proof.
  induction l as [|x l IH]; intros i j a d L; simpl in L; [lia|]. destruct i, j; simpl; auto.
  apply IH. lia.
Qed.

(** the heap world [w] implements the tables [T]: [loc] places the families *)
Record implements (w : world) (T : tables) : Prop := {
  im_len : length T = length (w_obj w);
  im_loc : forall o, (o < length (w_obj w))%nat -> (loc_of w o < length (w_heap w))%nat;
  im_seen : forall o f a, nth_error T o = Some (f, a) -> seen w o = a;
  im_fam : forall o p f a g b, nth_error T o = Some (f, a) -> nth_error T p = Some (g, b) -> (f = g <-> loc_of w o = loc_of w p);
  im_old : forall o f a, nth_error T o = Some (f, a) -> (f < length T)%nat
}.

Lemma loc_mk h l p : loc_of (mkWorld h l) p = nth p l 0%nat.
Proof. reflexivity. Qed.
Lemma loc_old w o x : (o < length (w_obj w))%nat -> nth o (w_obj w ++ [x]) 0%nat = loc_of w o.
Proof. intros L. unfold loc_of. now rewrite app_nth1. Qed.
Lemma nth_error_snoc {A} (T : list A) x o y : nth_error (T ++ [x]) o = Some y -> nth_error T o = Some y /\ (o < length T)%nat \/ o = length T /\ y = x.
Proof.
  intros H. destruct (Nat.lt_ge_cases o (length T)) as [L|L].
  - rewrite nth_error_app1 in H by auto. auto.
  - rewrite nth_error_app2 in H by auto. destruct (o - length T)%nat as [|[|n]] eqn:E; try discriminate H. injection H as <-. right. split; auto. lia.
Qed.

Lemma implements_alloc w T a : implements w T -> implements (alloc w a) (founds T a).
Proof.
  intros [L B S F O]. unfold alloc, founds. 
  assert (N : nth (length (w_obj w)) (w_obj w ++ [length (w_heap w)]) 0%nat = length (w_heap w)) by (rewrite app_nth2, Nat.sub_diag; [reflexivity|lia]).
  constructor; simpl.
  - rewrite !app_length. simpl. lia.
  - intros o Ho. rewrite !app_length in *. simpl in *. unfold loc_of. simpl. destruct (Nat.eq_dec o (length (w_obj w))) as [->|Hn].
    + rewrite N. lia.
    + rewrite loc_old by lia. specialize (B o ltac:(lia)). lia.
  - intros o f b H. apply nth_error_snoc in H. unfold seen, loc_of. simpl. destruct H as [[H Lo]|[-> H]].
    + rewrite loc_old by lia. rewrite app_nth1 by (apply B; lia). apply (S o f b H).
    + injection H as -> ->. rewrite L, N, app_nth2, Nat.sub_diag; [reflexivity|lia].
  - intros o p f b g c Ho Hp. apply nth_error_snoc in Ho, Hp. unfold loc_of. simpl.
    destruct Ho as [[Ho Lo]|[-> Ho]], Hp as [[Hp Lp]|[-> Hp]].
    + rewrite !loc_old by lia. eauto.
    + injection Hp as -> ->. rewrite loc_old by lia. rewrite L, N. pose proof (O _ _ _ Ho). specialize (B o ltac:(lia)). split; lia.
    + injection Ho as -> ->. rewrite (loc_old w p) by lia. rewrite L, N. pose proof (O _ _ _ Hp). specialize (B p ltac:(lia)). split; lia.
    + injection Ho as -> ->. injection Hp as -> ->. tauto.
  - intros o f b H. rewrite app_length. simpl. apply nth_error_snoc in H. destruct H as [[H Lo]|[-> H]].
    + specialize (O _ _ _ H). lia.
    + injection H as -> ->. lia.
Qed.
Lemma implements_share w T o f a : implements w T -> nth_error T o = Some (f, a) -> implements (share w o) (joins T f a).
Proof.
  intros [L B S F O] Ho. assert (Lo : (o < length (w_obj w))%nat) by (rewrite <- L; apply nth_error_Some; congruence).
  assert (N : nth (length (w_obj w)) (w_obj w ++ [loc_of w o]) 0%nat = loc_of w o) by (rewrite app_nth2, Nat.sub_diag; [reflexivity|lia]).
  unfold share, joins. constructor; simpl.
  - rewrite !app_length. simpl. lia.
  - intros p Hp. rewrite !app_length in *. simpl in *. unfold loc_of at 1. simpl. destruct (Nat.eq_dec p (length (w_obj w))) as [->|Hn].
    + rewrite N. apply B; auto.
    + rewrite loc_old by lia. apply B. lia.
  - intros p g b H. apply nth_error_snoc in H. unfold seen. unfold loc_of at 1. simpl. destruct H as [[H Lp]|[-> H]].
    + rewrite loc_old by lia. apply (S p g b H).
    + injection H as -> ->. rewrite L, N. apply (S o f a Ho).
  - intros p q g b g' b' Hp Hq. apply nth_error_snoc in Hp, Hq. rewrite !loc_mk.
    destruct Hp as [[Hp Lp]|[-> Hp]], Hq as [[Hq Lq]|[-> Hq]].
    + rewrite !loc_old by lia. eauto.
    + injection Hq as -> ->. rewrite loc_old by lia. rewrite L, N. eapply F; eauto.
    + injection Hp as -> ->. rewrite (loc_old w q) by lia. rewrite L, N. eapply F; eauto.
    + injection Hp as -> ->. injection Hq as -> ->. tauto.
  - intros p g b H. rewrite app_length. simpl. apply nth_error_snoc in H. destruct H as [[H Lp]|[-> H]].
    + specialize (O _ _ _ H). lia.
    + injection H as -> ->. specialize (O _ _ _ Ho). lia.
Qed.
Lemma change_assigned c a : change_attrs c a = assigned c a.
Proof. destruct c; reflexivity. Qed.
Lemma implements_set w T o f a ch : implements w T -> nth_error T o = Some (f, a) ->
  implements (mkWorld (upd (w_heap w) (loc_of w o) (change_attrs ch (seen w o))) (w_obj w)) (assigns T f ch).
Proof.
  intros [L B S F O] Ho. assert (Lo : (o < length (w_obj w))%nat) by (rewrite <- L; apply nth_error_Some; congruence).
  assert (M : forall p g b, nth_error (assigns T f ch) p = Some (g, b) -> exists b0, nth_error T p = Some (g, b0) /\ b = if Nat.eqb g f then assigned ch b0 else b0).
  { intros p g b H. unfold assigns in H. rewrite nth_error_map in H. destruct (nth_error T p) as [[g0 b0]|]; [|discriminate H]. simpl in H.
    destruct (Nat.eqb g0 f) eqn:E; injection H as <- <-.
    - apply Nat.eqb_eq in E. subst g0. exists b0. rewrite Nat.eqb_refl. auto.
    - exists b0. rewrite E. auto. }
  constructor; simpl.
  - unfold assigns. now rewrite map_length.
  - intros p Hp. rewrite upd_length. apply (B p Hp).
  - intros p g b H. apply M in H. destruct H as (b0 & H & ->). unfold seen. unfold loc_of at 1. simpl. change (nth p (w_obj w) 0%nat) with (loc_of w p).
    rewrite nth_upd by (apply B; auto). pose proof (F _ _ _ _ _ _ H Ho) as E. destruct (Nat.eqb g f) eqn:Eg.
    + apply Nat.eqb_eq in Eg. apply E in Eg. rewrite Eg, Nat.eqb_refl, <- change_assigned. f_equal.
      change (nth (loc_of w o) (w_heap w) attrs0) with (seen w o). rewrite <- (S _ _ _ H). unfold seen. now rewrite Eg.
    + apply Nat.eqb_neq in Eg. destruct (Nat.eqb (loc_of w p) (loc_of w o)) eqn:El; [apply Nat.eqb_eq in El; tauto|]. apply (S _ _ _ H).
  - intros p q g b g' b' Hp Hq. apply M in Hp, Hq. destruct Hp as (b0 & Hp & _), Hq as (b1 & Hq & _). exact (F _ _ _ _ _ _ Hp Hq).
  - intros p g b H. apply M in H. destruct H as (b0 & H & _). unfold assigns. rewrite map_length. eapply O; eauto.
Qed.

Lemma table_ltb w T o : implements w T -> Nat.ltb o (length (w_obj w)) = match table T o with Some _ => true | None => false end.
Proof.
  intros [L _ _ _ _]. rewrite <- L. unfold table. destruct (nth_error T o) eqn:E.
  - apply Nat.ltb_lt. apply nth_error_Some. congruence.
  - apply Nat.ltb_ge. now apply nth_error_None.
Qed.
Lemma implements_exec w T c : implements w T -> implements (exec w c) (spec_exec T c).
Proof.
  intros I. destruct c as [a|o|o p|m n|m n|o|o ch]; simpl.
  - now apply implements_alloc.
  - rewrite (table_ltb w T o I). destruct (table T o) as [[f a]|] eqn:E; auto. now apply implements_share.
  - rewrite (table_ltb w T o I). destruct (table T o) as [[f a]|] eqn:E; auto. rewrite (im_seen _ _ I _ _ _ E). now apply implements_alloc.
  - rewrite (table_ltb w T m I), (table_ltb w T n I). destruct (table T m) as [[f a]|] eqn:E; auto. destruct (table T n) as [[g b]|] eqn:E'; simpl; auto.
    rewrite (im_seen _ _ I _ _ _ E), (im_seen _ _ I _ _ _ E'). unfold rebuilt. destruct (at_periodic b); now apply implements_alloc.
  - rewrite (table_ltb w T m I), (table_ltb w T n I). destruct (table T m) as [[f a]|] eqn:E; auto. destruct (table T n) as [[g b]|] eqn:E'; simpl; auto.
    now apply implements_share.
  - rewrite (table_ltb w T o I). destruct (table T o) as [[f a]|] eqn:E; auto. rewrite (im_seen _ _ I _ _ _ E). now apply implements_alloc.
  - rewrite (table_ltb w T o I). destruct (table T o) as [[f a]|] eqn:E; auto. eapply implements_set; eauto.
Qed.
Lemma implements_all l : implements (exec_all l) (spec_all l).
Proof.
  unfold exec_all, exec_from, spec_all.
  assert (G : forall w T, implements w T -> implements (fold_left exec l w) (fold_left spec_exec l T)).
  { induction l as [|c l IH]; intros w T I; simpl; auto. apply IH. now apply implements_exec. }
  apply G. constructor; simpl; auto; try lia; intros [|o]; discriminate.
Qed.

Lemma views_spec l : views (exec_all l) = map snd (spec_all l).
Proof.
  pose proof (implements_all l) as I. apply nth_ext with attrs0 attrs0.
  - unfold views. rewrite !map_length, seq_length. symmetry. apply (im_len _ _ I).
  - intros o Lo. unfold views in *. rewrite map_length, seq_length in Lo.
    erewrite nth_error_nth; [|rewrite nth_error_map, nth_error_nth' with (d := 0%nat) by (rewrite seq_length; auto); reflexivity].
    rewrite seq_nth by auto. simpl. destruct (nth_error (spec_all l) o) as [[f a]|] eqn:E.
    + erewrite (nth_error_nth (map snd _)); [|rewrite nth_error_map, E; reflexivity]. apply (im_seen _ _ I _ _ _ E).
    + apply nth_error_None in E. rewrite (im_len _ _ I) in E. lia.
Qed.
Lemma seen_spec l o f a : table (spec_all l) o = Some (f, a) -> seen (exec_all l) o = a.
Proof. apply (im_seen _ _ (implements_all l)). Qed.
Lemma spec_app l l' : spec_all (l ++ l') = fold_left spec_exec l' (spec_all l).
Proof. unfold spec_all. apply fold_left_app. Qed.
Lemma table_exists l o : exists_table l o <-> exists f a, table (spec_all l) o = Some (f, a).
Proof.
  unfold exists_table. rewrite views_spec, map_length. unfold table. split.
  - intros H. destruct (nth_error (spec_all l) o) as [[f a]|] eqn:E; eauto. apply nth_error_None in E. lia.
  - intros (f & a & H). apply nth_error_Some. congruence.
Qed.

(** families are never left *)
Lemma spec_exec_keeps T c o f a : table T o = Some (f, a) -> exists a', table (spec_exec T c) o = Some (f, a').
Proof.
  unfold table. intros H. assert (L : (o < length T)%nat) by (apply nth_error_Some; congruence).
  assert (A : forall x, nth_error (T ++ [x]) o = Some (f, a)) by (intros x; now rewrite nth_error_app1).
  destruct c as [b|p|p q|m n|m n|p|p ch]; simpl; unfold founds, joins, table; eauto;
    repeat match goal with |- context [nth_error T ?p] => destruct (nth_error T p) as [[? ?]|] end; eauto.
  unfold assigns. rewrite nth_error_map, H. simpl. destruct (Nat.eqb f n) eqn:E; eauto. apply Nat.eqb_eq in E. subst. eauto.
Qed.
Lemma spec_keeps l' : forall T o f a, table T o = Some (f, a) -> exists a', table (fold_left spec_exec l' T) o = Some (f, a').
Proof.
  induction l' as [|c l' IH]; intros T o f a H; simpl; eauto. destruct (spec_exec_keeps T c o f a H) as (a' & H'). eauto.
Qed.
Lemma family_keeps l l' o p : same_family l o p -> same_family (l ++ l') o p.
Proof.
  intros (f & a & b & Ho & Hp). unfold same_family. rewrite spec_app.
  destruct (spec_keeps l' _ _ _ _ Ho) as (a' & Ho'), (spec_keeps l' _ _ _ _ Hp) as (b' & Hp'). eauto 6.
Qed.
Lemma family_keeps_iff l l' o p : exists_table l o -> exists_table l p -> (same_family (l ++ l') o p <-> same_family l o p).
Proof.
  intros Eo Ep. split; [|apply family_keeps]. apply table_exists in Eo, Ep. destruct Eo as (f & a & Ho), Ep as (g & b & Hp).
  intros (h & x & y & Ho' & Hp'). rewrite spec_app in Ho', Hp'.
  destruct (spec_keeps l' _ _ _ _ Ho) as (a' & Ho''), (spec_keeps l' _ _ _ _ Hp) as (b' & Hp''). rewrite Ho'' in Ho'. rewrite Hp'' in Hp'.
  injection Ho' as -> _. injection Hp' as -> _. exists h, a, b. auto.
Qed.
(** tables of a family see the same attributes *)
Lemma family_equal l o p : same_family l o p -> seen (exec_all l) o = seen (exec_all l) p.
Proof.
  intros (f & a & b & Ho & Hp). pose proof (implements_all l) as I. unfold seen. f_equal. apply (im_fam _ _ I _ _ _ _ _ _ Ho Hp). reflexivity.
Qed.
Lemma family_dec l o p : exists_table l o -> exists_table l p -> same_family l o p \/ ~ same_family l o p.
Proof.
  intros Eo Ep. apply table_exists in Eo, Ep. destruct Eo as (f & a & Ho), Ep as (g & b & Hp).
  destruct (Nat.eq_dec f g) as [->|N]; [left; exists g, a, b; auto|right]. intros (h & x & y & Ho' & Hp'). congruence.
Qed.

(** ** statements *)
Lemma wrap_shares l o l' : exists_table l o -> seen (exec_all (l ++ OWrap o :: l')) (next l) = seen (exec_all (l ++ OWrap o :: l')) o.
Proof.
  intros E. apply table_exists in E. destruct E as (f & a & H). apply family_equal.
  change (OWrap o :: l') with ([OWrap o] ++ l'). rewrite app_assoc. apply family_keeps. unfold same_family. rewrite spec_app. simpl. rewrite H.
  unfold next. rewrite views_spec, map_length. unfold joins, table in *. exists f, a, a. split.
  - rewrite nth_error_app2, Nat.sub_diag; [reflexivity|lia].
  - rewrite nth_error_app1; auto. apply nth_error_Some. congruence.
Qed.
Lemma set_family l o p ch : exists_table l o -> same_family l o p ->
  seen (exec_all (l ++ [OSet o ch])) p = assigned ch (seen (exec_all l) p).
Proof.
  intros E (f & a & b & Ho & Hp). rewrite (seen_spec l p f b Hp). apply seen_spec with f. rewrite spec_app. simpl. rewrite Ho.
  unfold table, assigns in *. rewrite nth_error_map, Hp. simpl. now rewrite Nat.eqb_refl.
Qed.
Lemma set_others l o p ch : exists_table l p -> ~ same_family l o p ->
  seen (exec_all (l ++ [OSet o ch])) p = seen (exec_all l) p.
Proof.
  intros E N. apply table_exists in E. destruct E as (g & b & Hp). rewrite (seen_spec l p g b Hp). apply seen_spec with g. rewrite spec_app. simpl.
  destruct (table (spec_all l) o) as [[f a]|] eqn:Ho; auto. unfold table, assigns in *. rewrite nth_error_map, Hp. simpl.
  destruct (Nat.eqb g f) eqn:E; auto. apply Nat.eqb_eq in E. subst g. exfalso. apply N. exists f, a, b. auto.
Qed.
Lemma spec_old l o f a : table (spec_all l) o = Some (f, a) -> (f < next l)%nat.
Proof. intros H. unfold next. rewrite views_spec, map_length. apply (im_old _ _ (implements_all l) _ _ _ H). Qed.
Lemma build_separate l c o l' : builds c = true -> exists_table l o -> exists_table (l ++ [c]) (next l) -> ~ same_family ((l ++ [c]) ++ l') o (next l).
Proof.
  intros B E En. assert (Eo : exists_table (l ++ [c]) o).
  { apply table_exists in E. destruct E as (f & a & H). apply table_exists. rewrite spec_app. destruct (spec_keeps [c] _ _ _ _ H) as (a' & H'). eauto. }
  rewrite family_keeps_iff by auto. intros (f & a & b & Ho & Hn).
  apply table_exists in E. destruct E as (g & a0 & H). pose proof (spec_old _ _ _ _ H) as Lg. rewrite spec_app in Ho, Hn.
  destruct (spec_keeps [c] _ _ _ _ H) as (a' & H'). rewrite H' in Ho. injection Ho as -> _.
  assert (K : forall x, table (founds (spec_all l) x) (next l) = Some (f, b) -> False).
  { intros x Hx. unfold table, founds in Hx. unfold next in *. rewrite views_spec, map_length in *. rewrite nth_error_app2, Nat.sub_diag in Hx by lia. injection Hx as Hx _. lia. }
  assert (K' : table (spec_all l) (next l) = Some (f, b) -> False).
  { unfold table, next. rewrite views_spec, map_length. intros Hx. assert (nth_error (spec_all l) (length (spec_all l)) <> None) as X by congruence. apply nth_error_Some in X. lia. }
  simpl in Hn. destruct c as [x|p|p q|m n|m n|p|p ch]; try discriminate B; simpl in Hn;
    repeat match type of Hn with context [table (spec_all l) ?p] => destruct (table (spec_all l) p) as [[? ?]|] eqn:? end; eauto.
Qed.
Lemma net_sees l o p : exists_table l o ->
  seen (exec_all (l ++ [ONet o p])) (next l) = mkAttrs (at_n (seen (exec_all l) o)) (at_size (seen (exec_all l) o)) (Some p) (at_skip (seen (exec_all l) o)).
Proof.
  intros E. apply table_exists in E. destruct E as (f & a & H). rewrite (seen_spec _ _ _ _ H). apply seen_spec with (next l). rewrite spec_app. simpl. rewrite H.
  unfold next, table, founds. rewrite views_spec, map_length, nth_error_app2, Nat.sub_diag by lia. reflexivity.
Qed.
Lemma mesh_sees l o : exists_table l o -> seen (exec_all (l ++ [OMesh o])) (next l) = seen (exec_all l) o.
Proof.
  intros E. apply table_exists in E. destruct E as (f & a & H). rewrite (seen_spec _ _ _ _ H). apply seen_spec with (next l). rewrite spec_app. simpl. rewrite H.
  unfold next, table, founds. rewrite views_spec, map_length, nth_error_app2, Nat.sub_diag by lia. reflexivity.
Qed.
Lemma stack_sees l m n p : exists_table l m -> exists_table l n -> at_periodic (seen (exec_all l) n) = Some p ->
  let a := seen (exec_all l) m in
  seen (exec_all (l ++ [OStack m n])) (next l) = mkAttrs (at_n a) (at_size a) (Some p) (at_skip a).
Proof.
  intros E E' P. apply table_exists in E, E'. destruct E as (f & a & H), E' as (g & b & H'). rewrite (seen_spec _ _ _ _ H') in P. cbv zeta. rewrite (seen_spec _ _ _ _ H).
  apply seen_spec with (next l). rewrite spec_app. simpl. rewrite H, H', P. unfold next, table, founds. rewrite views_spec, map_length, nth_error_app2, Nat.sub_diag by lia. reflexivity.
Qed.
Lemma new_sees l a : seen (exec_all (l ++ [ONew a])) (next l) = a.
Proof.
  apply seen_spec with (next l). rewrite spec_app. simpl. unfold next, table, founds. rewrite views_spec, map_length, nth_error_app2, Nat.sub_diag by lia. reflexivity.
Qed.
