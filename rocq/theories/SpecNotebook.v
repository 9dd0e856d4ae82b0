(** Notions used in the statements about the notebook (C84). *)
From Verif Require Import Num ListX Frames MatM NetM StackM MeshM ModelM SolverM InterpM ResultM VtkM MainM SettingsM
  Spec SpecNet SpecStack SpecMain SpecSettings SpecPicture.
Open Scope Q_scope.

(** *** settings as arguments *)
(** a value given, or None *)
Definition given (v : sval) (x : option Q) : Prop := match x with Some q => v = VNum (Fin q) | None => v = VNone end.
(** the keyword arguments are the values of the settings *)
Definition asks (s : settings) (o : options) : Prop :=
  let v := get_item s in let p := op_mat o in
  v Kn = VNum (Fin (inject_Z (p_n p))) /\ v Klength = VNum (Fin (p_length p)) /\ v Kwidth = VNum (Fin (p_width p)) /\
  v Kthickness = VNum (Fin (p_thickness p)) /\ v Ksize = VNum (Fin (p_size p)) /\ v Ktheta = VNum (Fin (p_theta p)) /\
  stands (v Kshear) (p_shear p) /\ stands (v Ktensile) (p_tensile p) /\ given (v Kseed) (option_map inject_Z (p_seed p)) /\
  v Kperiodic = VBool (op_periodic o) /\ given (v Kthreshold) (op_threshold o) /\ v Kpacking = VNum (op_packing o) /\
  v Kitermax = VNum (Fin (inject_Z (Z.of_nat (op_itermax o)))) /\ v Ktol = VNum (Fin (op_tol o)) /\
  given (v Klmin) (op_lmin o) /\ given (v Klmax) (op_lmax o) /\ v Kcoupling = VNum (Fin (op_coupling o)) /\
  given (v Kinterp_size) (option_map (fun n => inject_Z (Z.of_nat n)) (op_size o)).
(** the arguments that are no settings have their default values *)
Definition other_defaults (o : options) : Prop := p_psi (op_mat o) = 0 /\ op_errtol o = 1 # 1000000.
(** settings that hold finite numbers, infinite moduli and packing excepted *)
Definition finite_setting (s : settings) (k : key) : Prop := forall x, get_item s k = VNum x -> exists q, x = Fin q.
Definition usable (s : settings) : Prop :=
  (forall k, ~ modulus k -> k <> Kpacking -> finite_setting s k) /\ get_item s Kitermax <> VOther /\
  forall q, get_item s Kinterp_size = VNum (Fin q) -> 0 <= q.
(** the ranges of the sliders *)
Definition in_ranges (o : options) : Prop :=
  0 <= p_theta (op_mat o) /\ p_theta (op_mat o) <= np_pi /\ 1 # 10000000000 <= op_tol o /\ op_tol o <= 1 # 10 /\
  (1 <= Z.of_nat (op_itermax o) <= 1000000)%Z.
(** the call of cell 7 *)
Definition cell7 : list (key * sval) :=
  [(Kn, VNum (Fin 100)); (Ksize, VNum (Fin 50)); (Ktensile, VNum (Fin 625)); (Kseed, VNum (Fin 0)); (Kperiodic, VBool true);
   (Kthreshold, VNum (Fin 10)); (Klmin, VNum (Fin (1 # 100))); (Kcoupling, VNum (Fin (99 # 100))); (Kpacking, VNum (Fin 3));
   (Kinterp_size, VNum (Fin 100))].

(** *** hypotheses on the libraries *)
(** linprog returns the marginals of each stacking problem *)
Definition right_marginals (linprog marg : lp -> list Q) : Prop := forall m per t, net_new m per None = Ok t -> priced linprog marg m t.
(** the sine of zero is zero *)
Definition flat_sin (sin : Q -> Q) : Prop := forall x, x == 0 -> sin x == 0.
(** the natural numbering of the unknowns *)
Definition natural (n : nat) (P : ncoo) : list nat := seq 0 n.

(** *** cells *)
(** weight of a fiber of the mat asked for (specific weight 1) *)
Definition fiber_weight (p : mat_params) : Q := np_pi / 4 * (p_length p * p_width p * p_thickness p).
(** the force of the contact number [r] counts relative to the weight of a fiber *)
Definition counts_of_weight (p : mat_params) (y : list Q) (r : nat) : Prop := (1 # 100000000) * fiber_weight p < Qabs (nth r y 0).
