(** * Model of the stationary three-mode solution, in exact real arithmetic.
    Sources: aesolver/aesolver/stationary_solving/three_mode/three_mode_stationary.py (st)
    and aesolver/aesolver/frequency_handling/frequency_handler.py (fh), methods
    _compute_quality_factors, _compute_quality_factor_products, _compute_q_q1.
    Simplifications as in Stab_Model; eta is the real coupling coefficient
    (eta_lee_coupling_coefficient). *)
From Coq Require Import Reals List.
From Verif Require Import Stab_Model.
Import ListNotations.
Local Open Scope R_scope.

(** fh:1162 quality factors Q = omega / gamma *)
Definition quality (w g : vec) : vec := fun i => w i / g i.
(** np.tril_indices(n, k=-1): row-major list of the index pairs (i, j), j < i *)
Definition tril (n : nat) : list (nat * nat) := flat_map (fun i => map (fun j => (i, j)) (seq 0 i)) (seq 0 n).
(** fh:1172-1179: the outer product Q_j * Q_i[:, newaxis] at these indices *)
Definition quality_products (n : nat) (Q : vec) : list R := map (fun p => Q (snd p) * Q (fst p)) (tril n).

(** st:209-231 *)
Record amplitudes := mkAmps { a1 : R; a2 : R; a3 : R; acrit : R }.
Definition theoretical_amps (qf_products : list R) (cc_product q q_crit : R) : amplitudes :=
  let pre_facs := fun k => 1 / (cc_product * nth k qf_products 0) in
  let pre_facs_q := fun k => (1 + q ^ 2) * pre_facs k in
  let pre_facs_crit := (1 + q_crit ^ 2) * pre_facs 2%nat in
  {| a1 := sqrt (pre_facs_q 2%nat) / 2; a2 := sqrt (- pre_facs_q 1%nat) / 2; a3 := sqrt (- pre_facs_q 0%nat) / 2;
     acrit := sqrt pre_facs_crit / 2 |}.
(** st:199-207 *)
Definition q_factor (detuning : R) (g : vec) : R := detuning / sum3 g.
Definition q_critical (detuning : R) (g : vec) : R := detuning / (g 1%nat + g 2%nat).
(** st:190-197, 209-231 together, for three modes *)
Definition stationary_amps (g w : vec) (eta detuning : R) : amplitudes :=
  theoretical_amps (quality_products 3 (quality w g)) (Rabs eta ^ 2) (q_factor detuning g) (q_critical detuning g).
(** st:252-254 *)
Definition relative_phase (q : R) : R := atan (-1 / q).
