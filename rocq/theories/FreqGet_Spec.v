(** * What asking a frequency handler for a mode means. No reference to the code under test. *)
From Coq Require Import Reals List ZArith String.
From Verif Require Import Freq_Model Freq_Spec.
Import ListNotations.
Local Open Scope R_scope.

(** The mode a number refers to: modes are numbered from 1; a number at most zero counts back from the last
    mode, which is number 0; other numbers refer to no mode. *)
Definition numbered {A} (l : list A) (nr : Z) : option A :=
  if (1 <=? nr)%Z then nth_error l (Z.to_nat (nr - 1))
  else if (0 <=? nr + Z.of_nat (List.length l) - 1)%Z then nth_error l (Z.to_nat (nr + Z.of_nat (List.length l) - 1))
  else None.

(** cyclic frequency of a mode in hertz, in the co-rotating and in the inertial frame of a star
    rotating at [W] radians per second *)
Definition cyc_corot (W : R) (d : mode_dict) : R :=
  to_corotating (freq_frame d) (m d) (W / (2 * PI)) (stored_hz (freq_units d) (G d) (M_star d) (R_star d) (fst (freq d))).
Definition cyc_inert (W : R) (d : mode_dict) : R :=
  to_inertial (freq_frame d) (m d) (W / (2 * PI)) (stored_hz (freq_units d) (G d) (M_star d) (R_star d) (fst (freq d))).
(** first frequency minus all others *)
Definition detuned (ws : list R) : R := match ws with [] => 0 | w :: r => w - fold_right Rplus 0 r end.
