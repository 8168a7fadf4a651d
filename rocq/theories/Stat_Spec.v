(** * When a parent of fixed amplitude destabilises its daughters. No reference to the code. *)
From Coq Require Import Reals.
From Coquelicot Require Import Coquelicot.
Local Open Scope R_scope.

(** Linear problem for infinitesimal daughters u = a2, v = conj(a3) e^(i d t) in the
    presence of a parent of constant amplitude A (frame rotating with the detuning):
    u' = g2 u + 2 i w2 eta A v,  v' = (g3 - i d) v - 2 i w3 eta A u.
    [daughters_rate .. s] says that a solution proportional to e^(s t) exists. *)
Definition daughters_rate (g2 g3 w2 w3 eta d A : R) (s : C) : Prop :=
  exists u v : C, (u <> 0%C \/ v <> 0%C) /\
    (s * u = RtoC g2 * u + RtoC (2 * w2 * eta * A) * Ci * v)%C /\
    (s * v = (RtoC g3 - Ci * RtoC d) * v - RtoC (2 * w3 * eta * A) * Ci * u)%C.
