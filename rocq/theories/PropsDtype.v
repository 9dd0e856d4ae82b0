(** Property theorems: the type of interpolated values (C103). *)
From Verif Require Import Num NumP ListX InterpM SpecInterp DtypeM DtypeP.
Open Scope Q_scope.

(** ** C103 *)
(** floats are returned as they are *)
Theorem C103_floats : forall f t, typed_call TFloat f t = Some (interp_call f t).
Proof. exact (fun f t => eq_refl). Qed.
(** integers at the samples; anywhere an integer that is not beyond the samples, less than one away from the interpolated value, on the side of zero *)
Theorem C103_samples : forall kd y k t, linear kd -> (2 <= length y)%nat -> (k < length y)%nat -> t == param (length y) k 0 ->
  typed_call TInt (interp_new kd (int_samples y) None) t = Some (Fin (inject_Z (nth k y 0%Z))).
Proof. exact int_knot. Qed.
Theorem C103_between : forall kd y size lo hi t, linear kd -> (2 <= length y)%nat -> size_ok size -> (forall z, In z y -> (lo <= z <= hi)%Z) ->
  exists v z, interp_call (interp_new kd (int_samples y) size) t = Fin v /\ typed_call TInt (interp_new kd (int_samples y) size) t = Some (Fin (inject_Z z)) /\
    (lo <= z <= hi)%Z /\ Qabs (v - inject_Z z) < 1 /\ Qabs (inject_Z z) <= Qabs v.
Proof. exact int_between. Qed.
Theorem C103_increasing : forall kd y size, linear kd -> (2 <= length y)%nat -> size_ok size -> (forall k, (S k < length y)%nat -> (nth k y 0 <= nth (S k) y 0)%Z) ->
  forall t t', 0 <= t -> t <= t' -> t' <= 1 -> exists z z', typed_call TInt (interp_new kd (int_samples y) size) t = Some (Fin (inject_Z z)) /\
    typed_call TInt (interp_new kd (int_samples y) size) t' = Some (Fin (inject_Z z')) /\ (z <= z')%Z.
Proof. exact int_monotone. Qed.
(** step interpolation returns the latest sample, integer or boolean *)
Theorem C103_step : forall t, 0 <= t -> t <= 1 ->
  (forall y, (2 <= length y)%nat -> typed_call TInt (interp_new Previous (int_samples y) None) t = Some (Fin (inject_Z (nth (Z.to_nat (Qfloor (t * inject_Z (Z.of_nat (length y - 1))))) y 0%Z)))) /\
  (forall y, (2 <= length y)%nat -> typed_call TBool (interp_new Previous (bool_samples y) None) t = Some (Fin (if nth (Z.to_nat (Qfloor (t * inject_Z (Z.of_nat (length y - 1))))) y false then 1 else 0))).
Proof. exact (fun t A B => conj (fun y N => int_step y t N A B) (fun y N => bool_step y t N A B)). Qed.
(** linear interpolation of booleans: true between two samples as soon as one of them is *)
Theorem C103_booleans : forall kd y k a t, linear kd -> (2 <= length y)%nat -> (S k < length y)%nat -> 0 < a -> a < 1 -> t == param (length y) k a ->
  typed_call TBool (interp_new kd (bool_samples y) None) t = Some (Fin (if nth k y false || nth (S k) y false then 1 else 0)).
Proof. exact bool_linear. Qed.
Theorem C103_outside : forall d kd y size t, y <> [] -> size <> Some 0%nat -> t < 0 \/ 1 < t -> typed_call d (interp_new kd y size) t = astype d (last y NaN).
Proof. exact outside_typed. Qed.

(** ** cases *)
Example ex_ints : map (typed_call TInt (interp_new LinearScalar (int_samples [0; 3; -3]%Z) None)) [0; 1 # 4; 1 # 2; 5 # 8; 7 # 8; 1; 2] =
  [Some (Fin 0); Some (Fin 1); Some (Fin 3); Some (Fin 1); Some (Fin (-1)); Some (Fin (-3)); Some (Fin (-3))].
Proof. vm_compute. reflexivity. Qed.
Example ex_ints_ok : (forall z, In z [0; 3; -3]%Z -> (-3 <= z <= 3)%Z) /\ (forall k, (S k < length [0; 1; 4]%Z)%nat -> (nth k [0; 1; 4] 0 <= nth (S k) [0; 1; 4] 0)%Z).
Proof. split; [intros z [<-|[<-|[<-|[]]]]; lia|]. intros k L. do 2 (destruct k as [|k]; [cbn; lia|]). cbn in L. lia. Qed.
Example ex_bools : 0 < 1 # 4 /\ (1 # 4) < 1 /\ (3 # 4) * (1 # 2) + (1 # 4) == param 3 1 (1 # 4) /\
  map (typed_call TBool (interp_new LinearVec (bool_samples [false; true; false]) None)) [0; 1 # 4; 1 # 2; 5 # 8; 1] = [Some (Fin 0); Some (Fin 1); Some (Fin 1); Some (Fin 1); Some (Fin 0)].
Proof. repeat split; vm_compute; reflexivity. Qed.

(** the integer returned is not the nearest one *)
Theorem C103_nearest_refuted : ~ (forall kd y t v z, linear kd -> (2 <= length y)%nat -> interp_call (interp_new kd (int_samples y) None) t = Fin v ->
  typed_call TInt (interp_new kd (int_samples y) None) t = Some (Fin (inject_Z z)) -> Qabs (v - inject_Z z) <= 1 # 2).
Proof.
  intros H. pose proof (H LinearScalar [0; 1]%Z (9 # 10)) as E. specialize (E (9 # 10) 0%Z (or_intror eq_refl) (le_n 2)).
  assert (X : interp_call (interp_new LinearScalar (int_samples [0; 1]%Z) None) (9 # 10) = Fin (9 # 10)) by (vm_compute; reflexivity).
  specialize (E X). assert (Y : typed_call TInt (interp_new LinearScalar (int_samples [0; 1]%Z) None) (9 # 10) = Some (Fin (inject_Z 0))) by (vm_compute; reflexivity).
  specialize (E Y). revert E. vm_compute. intros E. apply E. reflexivity.
Qed.

Print Assumptions C103_floats.
Print Assumptions C103_samples.
Print Assumptions C103_between.
Print Assumptions C103_increasing.
Print Assumptions C103_step.
Print Assumptions C103_booleans.
Print Assumptions C103_outside.
Print Assumptions C103_nearest_refuted.
