(** * Where the traditional approximation holds, in physical units: independent definition. *)
From Coq Require Import Reals List String.
From Verif Require Import Base Freq_Model Freq_Spec.
Import ListNotations.
Local Open Scope R_scope.

(** The angular frequency of a mode in the co-rotating frame, in radians per second, for a star rotating with Omega rad/s. *)
Definition corotating_rps (Omega : R) (d : mode_dict) : R :=
  2 * PI * to_corotating (freq_frame d) (m d) (Omega / (2 * PI)) (stored_hz (freq_units d) (G d) (M_star d) (R_star d) (fst (freq d))).
(** N is real, a tenth of it exceeds the Coriolis frequency and the frequency of every mode. *)
Definition approximation_holds (Omega : R) (ds : list mode_dict) (n2 : R) : Prop :=
  0 <= n2 /\ Rabs (2 * Omega) < sqrt n2 / 10 /\ forall d, In d ds -> Rabs (corotating_rps Omega d) < sqrt n2 / 10.
