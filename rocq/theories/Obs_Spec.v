(** * What an observer is told about a stationary solution: independent definitions. *)
From Coq Require Import Reals List ZArith.
From Verif Require Import Base Obs_Model.
Import ListNotations.
Local Open Scope R_scope.

(** Two sets of arguments that differ at most in the position of the observer. *)
Definition with_observer (a : args) (inclination periastron : option R) : args :=
  mkArgs (pre a) (solver_object a) (hyperbolic a) (rates a) (qf_products a) (detuning a) inclination periastron.
(** An angle in [0, 2 pi) that equals x up to full turns. *)
Definition reduced_angle (x z : R) : Prop := 0 <= z < 2 * PI /\ exists k : Z, x = z + 2 * PI * IZR k.
