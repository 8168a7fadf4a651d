(** * What the figure of stability domains should show. Nothing here refers to the code. *)
From Coq Require Import Reals List.
From Verif Require Import Stab_Spec.
Import ListNotations.
Local Open Scope R_scope.

(** rates of a triad with driven parent: gamma_1 > 0, gamma_2 = - theta_2 gamma_1, gamma_3 = - theta_3 gamma_1 *)
Definition rates (gamma1 theta2 theta3 : R) : nat -> R :=
  fun i => match i with 0%nat => gamma1 | 1%nat => - theta2 * gamma1 | _ => - theta3 * gamma1 end.
(** v is a stationary state (three positive amplitudes and a phase) of a triad with these ratios of rates and
    this ratio [r] of detuning and driving rate *)
Definition stationary_triad (theta2 theta3 r : R) (gamma1 : R) (w : nat -> R) (eta : R) (v : nat -> R) : Prop :=
  0 < gamma1 /\ eta <> 0 /\ 0 < v 0%nat /\ 0 < v 1%nat /\ 0 < v 2%nat /\
  forall i, (i < 4)%nat -> ae3 (rates gamma1 theta2 theta3) w eta (r * gamma1) v i = 0.
(** small perturbations of every stationary state of every such triad decay *)
Definition stable_parameters (theta2 theta3 r : R) : Prop :=
  forall gamma1 w eta v J, stationary_triad theta2 theta3 r gamma1 w eta v ->
    jacobian 4 (ae3 (rates gamma1 theta2 theta3) w eta (r * gamma1)) v J -> decaying4 J.

(** entry in row i and column j *)
Definition entry {A} (M : list (list A)) (i j : nat) : option A :=
  match nth_error M i with Some row => nth_error row j | None => None end.
