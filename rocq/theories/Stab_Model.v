(** * Model of the stability checks, in exact real arithmetic.
    Sources (aesolver/aesolver/stability_checker/):
    three_mode/stab_checker_quadratic_three_sum.py (ts),
    two_mode/stab_checker_quadratic_two_sum.py (tw),
    hyperbolicity/hyperbolicity_checker.py (hy).
    Simplifications: IEEE doubles are real numbers; an array of three rates is a
    function nat -> R read at 0, 1, 2; division by zero and square roots of
    negative numbers (NaN/inf in NumPy) have Coq's default values, so theorems
    carry the sign hypotheses that exclude them; numpy booleans are [bool]. *)
From Coq Require Import Reals Bool.
From Coquelicot Require Import Complex.
Local Open Scope R_scope.

Definition Rltb (a b : R) : bool := if Rlt_dec a b then true else false.
Definition vec := nat -> R.
Definition vec3 (a b c : R) : vec := fun i => match i with 0%nat => a | 1%nat => b | _ => c end.
(** gammas.sum() for an array of three entries *)
Definition sum3 (g : vec) : R := g 0%nat + g 1%nat + g 2%nat.

(** ts:19-36 (array of one triad) *)
Definition gamma_sum_stability (g : vec) : bool := Rltb (sum3 g) 0.
(** ts:40-53 (float) *)
Definition gamma_sum_stability_float (gamma : R) : bool := Rltb gamma 0.

(** ts:74-106 *)
Definition original_dziembowski (g : vec) (q : R) : bool :=
  let rho2 := - g 1%nat / g 0%nat in
  let rho3 := - g 2%nat / g 0%nat in
  let rho23 := rho2 * rho3 in
  let rhos := rho2 + rho3 - 1 in
  let coeffq0 := - rhos ^ 3 - 2 * rho23 in
  let coeffq2 := -12 * rho23 + rhos * ((rho2 - rho3) ^ 2 + (rho2 + rho3) ^ 2 + 2) in
  let coeffq4 := 3 * (-6 * rho23 + rhos * ((rho2 - rho3) ^ 2 + 2 * (rho2 + rho3) ^ 2 + 1)) in
  Rltb 0 (coeffq0 + coeffq2 * q ^ 2 + coeffq4 * q ^ 4).

(** ts:109-140 *)
Definition corrected_dziembowski (g : vec) (q : R) : bool :=
  let rho2 := - g 1%nat / g 0%nat in
  let rho3 := - g 2%nat / g 0%nat in
  let rho23 := rho2 * rho3 in
  let rhos := 1 - rho2 - rho3 in
  let coeffq0 := rhos ^ 3 - 2 * rho23 in
  let coeffq2 := -12 * rho23 - rhos * ((rho2 - rho3) ^ 2 + (rho2 + rho3) ^ 2 + 2) in
  let coeffq4 := -18 * rho23 - (3 * rhos) * (rhos ^ 2 + 4 * (rho2 + rho3 - rho23)) in
  Rltb 0 (coeffq0 + coeffq2 * q ^ 2 + coeffq4 * q ^ 4).

(** ts:143-175 *)
Definition additional_condition_equivalent (g : vec) (q : R) : bool :=
  let gamma_sum := sum3 g in
  let gamma_dot := g 0%nat * g 1%nat * g 2%nat in
  let gamma_box := gamma_dot / gamma_sum ^ 3 in
  let two_fac_sum := g 0%nat * g 1%nat + g 0%nat * g 2%nat + g 1%nat * g 2%nat in
  let gamma_star := two_fac_sum / gamma_sum ^ 2 in
  let coeffq0 := 2 * gamma_box - 1 in
  let coeffq2 := 2 + 12 * gamma_box - 4 * gamma_star in
  let coeffq4 := 18 * gamma_box + 3 - 12 * gamma_star in
  Rltb 0 (coeffq0 + coeffq2 * q ^ 2 + coeffq4 * q ^ 4).

(** ts:178-210 *)
Definition ratio_coefficients_q4 (g : vec) : R :=
  let rho2 := - g 1%nat / g 0%nat in
  let rho3 := - g 2%nat / g 0%nat in
  let rho23 := rho2 * rho3 in
  let rhos := rho2 + rho3 - 1 in
  let rhos_corr := - rhos in
  let coeff_original := 3 * (-6 * rho23 + rhos * ((rho2 - rho3) ^ 2 + 2 * (rho2 + rho3) ^ 2 + 1)) in
  let coeff_corrected := -18 * rho23 - (3 * rhos_corr) * (rhos_corr ^ 2 + 4 * (rho2 + rho3 - rho23)) in
  coeff_corrected / coeff_original.

(** tw:14-27 *)
Definition compute_theta (g : vec) : R := - g 1%nat / g 0%nat.
(** tw:30-59 *)
Definition two_mode_parametric (g : vec) (q : R) : bool :=
  let theta := compute_theta g in
  let denominator := 2 * theta * (theta - 1) + 1 in
  let numerator := 2 * theta * (theta - 1) - 1 in
  let q_squared_quotient := numerator / denominator in
  let min_theta := (1 + sqrt 3) / 2 in
  Rltb min_theta theta && Rltb q_squared_quotient (q ^ 2).
(** tw:62-78 *)
Definition two_mode_direct (g : vec) : bool := Rltb (compute_theta g) (1 / 2).

Definition mat := nat -> nat -> R.

(** hy:53-131. Row-by-row literal of the entries assigned at lines 92-129. *)
Definition jac4 (g o : vec) (q eta : R) : mat := fun i j =>
  let iq := fun k => g k / o k in
  let sqrt12 := sqrt (- iq 0%nat * iq 1%nat) in
  let sqrt13 := sqrt (- iq 0%nat * iq 2%nat) in
  let sqrt23 := sqrt (iq 1%nat * iq 2%nat) in
  let qsqrt := q * sqrt (1 + q ^ 2) in
  let deta := 2 * eta in
  let gplus := sum3 g in
  let qf := qsqrt / deta in
  let qsq_over_qf := q ^ 2 / qf in
  match i, j with
  | 0%nat, 0%nat => g 0%nat
  | 1%nat, 1%nat => g 1%nat
  | 2%nat, 2%nat => g 2%nat
  | 0%nat, 1%nat => o 0%nat * sqrt12
  | 0%nat, 2%nat => o 0%nat * sqrt13
  | 0%nat, 3%nat => qf * g 0%nat * sqrt23
  | 1%nat, 0%nat => - o 1%nat * sqrt12
  | 1%nat, 2%nat => - o 1%nat * sqrt23
  | 1%nat, 3%nat => qf * g 1%nat * sqrt13
  | 2%nat, 0%nat => - o 2%nat * sqrt13
  | 2%nat, 1%nat => - o 2%nat * sqrt23
  | 2%nat, 3%nat => qf * g 2%nat * sqrt12
  | 3%nat, 0%nat => qsq_over_qf * (gplus - 2 * g 0%nat) / sqrt23
  | 3%nat, 1%nat => qsq_over_qf * (gplus - 2 * g 1%nat) / sqrt13
  | 3%nat, 2%nat => qsq_over_qf * (gplus - 2 * g 2%nat) / sqrt12
  | 3%nat, 3%nat => gplus
  | _, _ => 0
  end.

(** hy:134-197 *)
Definition jac3 (g o : vec) (q eta : R) : mat := fun i j =>
  let iq := fun k => g k / o k in
  let og := fun k => g k * o k in
  let sqrt12 := sqrt (-2 * iq 0%nat * iq 1%nat) in
  let qsqrt := q * sqrt (1 + q ^ 2) in
  let deta := 2 * eta in
  let gplus := sum3 g in
  let qf := qsqrt / deta in
  let qsq_over_qf := q ^ 2 / qf in
  match i, j with
  | 0%nat, 0%nat => g 0%nat
  | 1%nat, 1%nat => g 1%nat
  | 0%nat, 1%nat => sqrt (- og 0%nat * iq 1%nat)
  | 0%nat, 2%nat => qf * g 0%nat * iq 1%nat
  | 1%nat, 0%nat => - sqrt (-2 * iq 0%nat * og 1%nat)
  | 1%nat, 2%nat => g 1%nat * qf * sqrt12
  | 2%nat, 0%nat => qsq_over_qf * (gplus - 2 * g 0%nat) / iq 1%nat
  | 2%nat, 1%nat => qsq_over_qf * sqrt (-2 * og 0%nat / iq 1%nat)
  | 2%nat, 2%nat => gplus
  | _, _ => 0
  end.

(** hy:21-50 in exact arithmetic, for a 4x4 matrix of finite entries: [eigs] is the
    spectrum numpy.linalg.eigvals returns (its entries are exactly the eigenvalues)
    and [det] the determinant. Simplification: LAPACK's rounding is not modelled. *)
Definition check_hyperbolicity (eigs : C -> Prop) (det : C) : Prop :=
  (forall l, eigs l -> Re l <> 0) /\ det <> 0%C.
