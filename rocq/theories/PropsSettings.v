(** Property theorems for settings (C54, C62, C70). *)
From Verif Require Import Num NumP SettingsM SpecSettings SettingsP.
Open Scope Q_scope.

(** ** C54: what is set is what is read *)
Theorem C54_last : forall s l1 k v l2 s', set_all s (l1 ++ (k, v) :: l2) = (s', None) -> untouched k l2 ->
  reads k v (get_item s' k).
Proof. exact set_all_last. Qed.
Theorem C54_untouched : forall s l s' e k, set_all s l = (s', e) -> untouched k l -> get_item s' k = get_item s k.
Proof. exact set_all_untouched. Qed.
(** an assignment raises exactly when the value cannot be converted *)
Theorem C54_accepts : forall s k v, snd (set_item s k v) = None <-> assignable k v.
Proof. exact set_ok_iff. Qed.
(** an assignment that raises changes nothing, unless the parameter was switched off *)
Theorem C54_failed : forall s k v s' e, set_item s k v = (s', Some e) ->
  (modulus k -> get_item s k <> VInf) -> (optional k -> get_item s k <> VNone) -> get_item s' k = get_item s k.
Proof. exact failed_keeps. Qed.
(** assigning the value that is read changes nothing, except for theta *)
Theorem C54_reassign : forall s k, reachable s -> k <> Ktheta -> get_item s k <> VOther ->
  exists s', set_item s k (get_item s k) = (s', None) /\ veqv (get_item s' k) (get_item s k).
Proof. exact reassign. Qed.

(** ** C62: the constructor *)
Theorem C62_reads : forall a s k, settings_new a = Ret s -> (modulus k -> a k <> VNum PInf) ->
  reads k (a k) (get_item s k).
Proof. exact new_reads. Qed.
Theorem C62_total : forall a, (forall k, assignable k (a k)) -> a Kthickness <> VBool false ->
  (forall q, a Kthickness = VNum (Fin q) -> ~ q == 0) -> exists s, settings_new a = Ret s.
Proof. exact new_total. Qed.
(** keyword arguments; those not given are the documented ones *)
Theorem C62_given : forall kw s k v, NoDup (map fst kw) -> settings_new (with_args kw defaults) = Ret s -> In (k, v) kw ->
  (modulus k -> v <> VNum PInf) -> reads k v (get_item s k).
Proof. exact call_given. Qed.
Theorem C62_defaults : forall kw s k v, settings_new (with_args kw defaults) = Ret s -> untouched k kw -> In (k, v) documented ->
  reads k v (get_item s k).
Proof. exact call_default. Qed.

(** ** C70: switches *)
(** ticking the switch of a parameter left unset gives the proposed value *)
Theorem C70_proposed : forall a s k G l h, settings_new a = Ret s -> unset k (a k) -> (k = Ktensile -> stands (a Kshear) (Fin G)) ->
  stands (a Klength) (Fin l) -> stands (a Kthickness) (Fin h) ->
  exists q, get_item (tick s k true) k = VNum (Fin q) /\ q == proposed k G l h.
Proof. exact new_proposed. Qed.
Theorem C70_off : forall s k, (modulus k -> get_item (tick s k false) k = VInf) /\ (optional k -> get_item (tick s k false) k = VNone).
Proof. exact unticked. Qed.
Theorem C70_back : forall s k b b', get_item (tick (tick s k b) k b') k = get_item (tick s k b') k.
Proof. exact tick_back. Qed.
Theorem C70_others : forall s k b k', k' <> k -> get_item (tick s k b) k' = get_item s k'.
Proof. exact tick_other. Qed.

(** cases *)
Definition ex_s (kw : list (key * sval)) : settings :=
  match settings_new (with_args kw defaults) with Ret s => s | Fail _ => fun _ => mkCell VNone true end.
Example ex_defaults : exists s, settings_new defaults = Ret s /\
  map (get_item s) keys =
  [VNum (Fin 0); VNum (Fin 25); VNum (Fin 1); VNum (Fin 1); VNum (Fin 50); VNum (Fin (1 * np_pi)); VNum (Fin 1);
   VInf; VNum (Fin 0); VBool true; VNone; VNum (Fin 1); VNum (Fin 1000); VNum (Fin (1 # 1000000)); VNone; VNone;
   VNum (Fin 1); VNone; VBool true].
Proof. eexists. split; [reflexivity|]. vm_compute. reflexivity. Qed.
Example ex_defaults_assignable : forall k, assignable k (defaults k).
Proof. intros k. apply (C54_accepts (fun _ => mkCell VNone true)). destruct k; reflexivity. Qed.
(** theta is clamped to 1, seed is truncated, lmin is set and unset again, shear goes through infinity *)
Definition ex_l : list (key * sval) :=
  [(Klmin, VNum (Fin (1 # 2))); (Kshear, VInf); (Ktheta, VNum (Fin 3)); (Kseed, VNum (Fin (15 # 2)));
   (Klmin, VNone); (Kshear, VNum (Fin 2))].
Example ex_set_all : snd (set_all (ex_s []) ex_l) = None /\
  map (get_item (fst (set_all (ex_s []) ex_l))) [Klmin; Ktheta; Kseed; Kshear; Ktensile]
  = [VNone; VNum (Fin (1 * np_pi)); VNum (Fin 7); VNum (Fin 2); VInf].
Proof. vm_compute. split; reflexivity. Qed.
Example ex_reachable : reachable (fst (set_item (ex_s []) Klmin (VNum (Fin (1 # 2))))).
Proof.
  apply reach_set with (s := ex_s []) (k := Klmin) (v := VNum (Fin (1 # 2))) (e := None); [|reflexivity].
  apply reach_new with (with_args [] defaults). reflexivity.
Qed.
(** E of 25 mm fibers, 2 mm thick, shear modulus 3 *)
Example ex_proposed : get_item (ex_s [(Kthickness, VNum (Fin 2)); (Kshear, VNum (Fin 3))]) Ktensile = VInf /\
  exists q, get_item (tick (ex_s [(Kthickness, VNum (Fin 2)); (Kshear, VNum (Fin 3))]) Ktensile true) Ktensile = VNum (Fin q) /\ q == 1875 # 4.
Proof.
  split; [reflexivity|].
  destruct (C70_proposed (with_args [(Kthickness, VNum (Fin 2)); (Kshear, VNum (Fin 3))] defaults) (ex_s [(Kthickness, VNum (Fin 2)); (Kshear, VNum (Fin 3))]) Ktensile 3 25 2)
    as (q & E & Q); [reflexivity|left; split; [right|left]; reflexivity|intros _; constructor|constructor|constructor|]. exists q. split; [exact E|rewrite Q; reflexivity].
Qed.
Example ex_failed : snd (set_item (ex_s []) Kn VOther) = Some TraitErr.
Proof. reflexivity. Qed.

(** ** refutations *)
(** a rejected value still switches an optional parameter on *)
Theorem C54_failed_refuted :
  ~ (forall s k v s' e, reachable s -> set_item s k v = (s', Some e) -> get_item s' k = get_item s k).
Proof.
  intros H. assert (R : reachable (ex_s [])) by (apply reach_new with (with_args [] defaults); reflexivity).
  specialize (H (ex_s []) Klmin VOther _ _ R (surjective_pairing _)). discriminate H.
Qed.
(** theta is read in radians and written in units of pi *)
Theorem C54_theta_refuted :
  ~ (forall s k s', reachable s -> get_item s k <> VOther -> set_item s k (get_item s k) = (s', None) ->
     veqv (get_item s' k) (get_item s k)).
Proof.
  intros H. set (s := ex_s [(Ktheta, VNum (Fin (1 # 2)))]).
  assert (R : reachable s) by (apply reach_new with (with_args [(Ktheta, VNum (Fin (1 # 2)))] defaults); reflexivity).
  specialize (H s Ktheta _ R ltac:(discriminate) (surjective_pairing _)). vm_compute in H. discriminate H.
Qed.
(** an infinite modulus that is not the object np.inf is lost by the constructor *)
Theorem C62_infinity_refuted :
  ~ (forall a s k x, settings_new a = Ret s -> modulus k -> stands (a k) x -> stands (get_item s k) x).
Proof.
  intros H. specialize (H (with_args [(Ktensile, VNum PInf)] defaults) (ex_s [(Ktensile, VNum PInf)]) Ktensile PInf
    ltac:(reflexivity) ltac:(right; reflexivity) ltac:(constructor)). vm_compute in H. inversion H.
Qed.
(** a thickness of zero is accepted by its widget but not with the default tensile modulus *)
Theorem C62_thickness_refuted :
  ~ (forall a, (forall k, assignable k (a k)) -> exists s, settings_new a = Ret s).
Proof.
  intros H. destruct (H (with_args [(Kthickness, VNum (Fin 0))] defaults)) as (s & E).
  - intros k. apply (C54_accepts (fun _ => mkCell VNone true)). destruct k; reflexivity.
  - discriminate E.
Qed.

Print Assumptions C54_last.
Print Assumptions C54_untouched.
Print Assumptions C54_accepts.
Print Assumptions C54_failed.
Print Assumptions C54_reassign.
Print Assumptions C54_failed_refuted.
Print Assumptions C54_theta_refuted.
Print Assumptions C62_reads.
Print Assumptions C62_total.
Print Assumptions C62_infinity_refuted.
Print Assumptions C62_thickness_refuted.
Print Assumptions C62_given.
Print Assumptions C62_defaults.
Print Assumptions C70_proposed.
Print Assumptions C70_off.
Print Assumptions C70_back.
Print Assumptions C70_others.
