(** Property theorems for attributes (C55, C63). *)
From Verif Require Import Num NumP ListX Frames AliasM SpecAlias AliasP.
Open Scope Q_scope.

(** ** C55: wrapping shares attributes, building does not *)
(** every program shows the attributes of the heap-free semantics *)
Theorem C55_views : forall l, views (exec_all l) = map snd (spec_all l).
Proof. exact views_spec. Qed.
(** a wrapper sees the attributes of its argument for ever, and conversely *)
Theorem C55_wrap : forall l o l', exists_table l o ->
  seen (exec_all (l ++ OWrap o :: l')) (next l) = seen (exec_all (l ++ OWrap o :: l')) o.
Proof. exact wrap_shares. Qed.
(** an assignment reaches the family of the table and nothing else *)
Theorem C55_family : forall l o p ch, exists_table l o -> same_family l o p ->
  seen (exec_all (l ++ [OSet o ch])) p = assigned ch (seen (exec_all l) p).
Proof. exact set_family. Qed.
Theorem C55_others : forall l o p ch, exists_table l p -> ~ same_family l o p ->
  seen (exec_all (l ++ [OSet o ch])) p = seen (exec_all l) p.
Proof. exact set_others. Qed.
(** a built table is never in the family of an earlier one *)
Theorem C55_build : forall l c o l', builds c = true -> exists_table l o -> exists_table (l ++ [c]) (next l) ->
  ~ same_family ((l ++ [c]) ++ l') o (next l).
Proof. exact build_separate. Qed.

(** ** C63: attributes given to a built table *)
Theorem C63_new : forall l a, seen (exec_all (l ++ [ONew a])) (next l) = a.
Proof. exact new_sees. Qed.
Theorem C63_net : forall l o p, exists_table l o ->
  let a := seen (exec_all l) o in
  seen (exec_all (l ++ [ONet o p])) (next l) = mkAttrs (at_n a) (at_size a) (Some p) (at_skip a).
Proof. exact net_sees. Qed.
Theorem C63_mesh : forall l o, exists_table l o -> seen (exec_all (l ++ [OMesh o])) (next l) = seen (exec_all l) o.
Proof. exact mesh_sees. Qed.
(** of the attributes of the network only "periodic" is used *)
Theorem C63_stack : forall l m n p, exists_table l m -> exists_table l n -> at_periodic (seen (exec_all l) n) = Some p ->
  let a := seen (exec_all l) m in
  seen (exec_all (l ++ [OStack m n])) (next l) = mkAttrs (at_n a) (at_size a) (Some p) (at_skip a).
Proof. exact stack_sees. Qed.

(** cases: mat = Mat(3); net = Net(mat, periodic=False); mesh = Mesh(net); net2 = Net(net); mat.attrs["skip_check"] = True;
    net2.attrs["n"] = 7; stack = Stack(mat, net2); mat2 = Mat(mat) *)
Definition ex_p : list op :=
  [ONew (mkAttrs (Some 3%Z) (Some (Fin 50)) None None); ONet 0 false; OMesh 1; OWrap 1; OSet 0 (CSkip (Some true));
   OSet 3 (CN (Some 7%Z)); OStack 0 3; OWrap 0].
Example ex_p_views : views (exec_all ex_p) =
  [mkAttrs (Some 3%Z) (Some (Fin 50)) None (Some true);
   mkAttrs (Some 7%Z) (Some (Fin 50)) (Some false) None;
   mkAttrs (Some 3%Z) (Some (Fin 50)) (Some false) None;
   mkAttrs (Some 7%Z) (Some (Fin 50)) (Some false) None;
   mkAttrs (Some 3%Z) (Some (Fin 50)) (Some false) (Some true);
   mkAttrs (Some 3%Z) (Some (Fin 50)) None (Some true)].
Proof. reflexivity. Qed.
Example ex_p_family : same_family ex_p 1 3 /\ same_family ex_p 0 5 /\ ~ same_family ex_p 0 1.
Proof.
  unfold same_family. split; [|split].
  - exists 1%nat. do 2 eexists. split; reflexivity.
  - exists 0%nat. do 2 eexists. split; reflexivity.
  - intros (f & a & b & H & H'). simpl in H, H'. injection H as <- _. discriminate H'.
Qed.
Example ex_p_exists : exists_table ex_p 5 /\ exists_table (ex_p ++ [OMesh 1]) (next ex_p).
Proof. unfold exists_table, next. simpl. lia. Qed.

(** ** refutations *)
(** mat.py 146 "Copy global attributes from argument": switching the check of a copy off switches it off for the original *)
Theorem C55_copy_refuted :
  ~ (forall l o ch, exists_table l o ->
     seen (exec_all (l ++ [OWrap o; OSet (next l) ch])) o = seen (exec_all l) o).
Proof.
  intros H. specialize (H [ONew (mkAttrs (Some 3%Z) (Some (Fin 50)) None None)] 0%nat (CSkip (Some true))).
  assert (E : exists_table [ONew (mkAttrs (Some 3%Z) (Some (Fin 50)) None None)] 0) by (unfold exists_table; simpl; lia).
  specialize (H E). discriminate H.
Qed.
(** Stack(mat, net) is not separate from [net] when there is no fiber *)
Theorem C55_empty_stack_refuted :
  ~ (forall l m n ch, exists_table l m -> exists_table l n ->
     seen (exec_all (l ++ [OStackEmpty m n; OSet (next l) ch])) n = seen (exec_all l) n).
Proof.
  set (l := [ONew (mkAttrs (Some 0%Z) (Some (Fin 50)) None None); ONet 0 true]).
  intros H. specialize (H l 0%nat 1%nat (CSkip (Some true))).
  assert (E : exists_table l 0 /\ exists_table l 1) by (unfold exists_table; simpl; lia).
  specialize (H (proj1 E) (proj2 E)). discriminate H.
Qed.
(** Stack(mat, net) does not keep the attributes of [net] *)
Theorem C63_stack_refuted :
  ~ (forall l m n, exists_table l m -> exists_table l n ->
     at_skip (seen (exec_all (l ++ [OStack m n])) (next l)) = at_skip (seen (exec_all l) n)).
Proof.
  set (l := [ONew (mkAttrs (Some 3%Z) (Some (Fin 50)) None None); ONet 0 true; OSet 1 (CSkip (Some true))]).
  intros H. specialize (H l 0%nat 1%nat).
  assert (E : exists_table l 0 /\ exists_table l 1) by (unfold exists_table; simpl; lia).
  specialize (H (proj1 E) (proj2 E)). discriminate H.
Qed.

Print Assumptions C55_views.
Print Assumptions C55_wrap.
Print Assumptions C55_family.
Print Assumptions C55_others.
Print Assumptions C55_build.
Print Assumptions C55_copy_refuted.
Print Assumptions C55_empty_stack_refuted.
Print Assumptions C63_new.
Print Assumptions C63_net.
Print Assumptions C63_mesh.
Print Assumptions C63_stack.
Print Assumptions C63_stack_refuted.
