(** * Specification vocabulary for the analyzer's derived quantities. *)
From Coq Require Import Reals List.
From Verif Require Import Stab_Spec.
Import ListNotations.
Local Open Scope R_scope.

(** Rate of change of the phase of mode i of a stationary triad, from the phase part of
    a1' = g1 a1 + 2 i w1 eta a2 a3 (and cyclically, see [ae3]): the oscillation exp(-i w t) of mode i
    with this slowly rotating amplitude has frequency w_i minus this rate. *)
Definition phase_rate (w : nat -> R) (eta : R) (v : nat -> R) (i : nat) : R :=
  let A1 := v 0%nat in let A2 := v 1%nat in let A3 := v 2%nat in let Phi := v 3%nat in
  match i with
  | 0%nat => 2 * w 0%nat * eta * (A2 * A3 / A1) * cos Phi
  | 1%nat => 2 * w 1%nat * eta * (A1 * A3 / A2) * cos Phi
  | _ => 2 * w 2%nat * eta * (A1 * A2 / A3) * cos Phi
  end.
(** smallest of three numbers *)
Definition smallest (m a b c : R) : Prop := (m = a \/ m = b \/ m = c) /\ m <= a /\ m <= b /\ m <= c.
Definition seconds_per_day : R := 24 * 60 * 60.
