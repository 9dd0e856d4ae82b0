(** Notions used in the statement about the random draws of [Mat] (C64). *)
From Verif Require Import Num Frames MatM Spec.
Open Scope Q_scope.

(** state of the generator after [k] draws, and the draw number [k] (from 0) *)
Fixpoint after (R : rng) (k : nat) (s : rng_state R) : rng_state R :=
  match k with O => s | S k' => snd (rng_draw R (after R k' s)) end.
Definition draw (R : rng) (k : nat) (s : rng_state R) : Q := fst (rng_draw R (after R k s)).

(** fiber [i] out of [n] of a generator in state [s]: position, in-plane and out-of-plane angle *)
Definition placed (R : rng) (cos sin : Q -> Q) (p : mat_params) (n : nat) (s : rng_state R) (i : nat) (f : fiber) : Prop :=
  fx f = Fin (draw R i s * p_size p) /\ fy f = Fin (draw R (n + i) s * p_size p) /\
  exists a q, a = draw R (3 * n + i) s * p_theta p /\ q = draw R (4 * n + i) s * p_psi p /\
    fu f = Fin (cos a * cos q) /\ fv f = Fin (sin a * cos q) /\ fw f = Fin (sin q).
