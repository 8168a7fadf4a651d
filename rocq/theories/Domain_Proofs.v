From Coq Require Import Reals ZArith Lra Psatz Bool List Lia.
From Coquelicot Require Import Coquelicot.
From Verif Require Import Stab_Model Stab_Spec Stab_Proofs Properties_Stab Domain_Model Domain_Spec.
Import ListNotations.
Local Open Scope R_scope.

Lemma domain_checker a b r g1 : 0 < g1 -> corrected_domain a b r =
  corrected_dziembowski (rates g1 a b) (r * g1 / sum3 (rates g1 a b)) && gamma_sum_stability (rates g1 a b).
Proof.
  intros G. unfold corrected_domain, corrected_dziembowski, gamma_sum_stability, sum3, rates.
  replace (- (- a * g1) / g1) with a by (field; lra). replace (- (- b * g1) / g1) with b by (field; lra).
  replace (g1 + - a * g1 + - b * g1) with (g1 * (1 - a - b)) by ring.
  replace (- a - b + 1) with (1 - a - b) by ring.
  assert (E : Rltb (g1 * (1 - a - b)) 0 = Rltb (1 - a - b) 0).
  { apply Bool.eq_true_iff_eq. rewrite !Rltb_spec. split; intros H; nra. }
  rewrite E. destruct (Rltb (1 - a - b) 0) eqn:N; [|rewrite !andb_false_r; reflexivity].
  apply Rltb_spec in N. f_equal. f_equal.
  replace (r * g1 / (g1 * (1 - a - b))) with (r / (1 - a - b)) by (field; lra). ring.
Qed.

(** a stationary triad exists *)
Lemma triad_exists a b r : 0 < a -> 0 < b -> a + b <> 1 -> exists gamma1 w eta v, stationary_triad a b r gamma1 w eta v.
Proof.
  intros A B N. set (q := r / (1 - a - b)). set (S := cos (atan q)).
  assert (HS : 0 < S) by (pose proof (atan_bound q); apply cos_gt_0; lra).
  exists 1, (fun _ => 1), (1/2), (fun k => match k with 0%nat => sqrt (a * b) / S | 1%nat => sqrt b / S | 2%nat => sqrt a / S | _ => atan q - PI / 2 end).
  assert (Pa : 0 < sqrt a) by (apply sqrt_lt_R0, A). assert (Pb : 0 < sqrt b) by (apply sqrt_lt_R0, B).
  rewrite sqrt_mult by lra. 
  assert (Qa : sqrt a * sqrt a = a) by (apply sqrt_sqrt; lra). assert (Qb : sqrt b * sqrt b = b) by (apply sqrt_sqrt; lra).
  assert (Es : sin (atan q - PI / 2) = - S).
  { unfold S. rewrite sin_minus, sin_PI2, cos_PI2. ring. }
  assert (Ec : cos (atan q - PI / 2) = q * S).
  { rewrite cos_minus, sin_PI2, cos_PI2. assert (T : sin (atan q) / S = q) by exact (tan_atan q).
    assert (T' : sin (atan q) = q * S) by (transitivity (sin (atan q) / S * S); [field; lra|rewrite T; reflexivity]). rewrite T'. ring. }
  unfold stationary_triad. repeat split; try lra.
  - apply Rdiv_lt_0_compat; [nra|lra].
  - apply Rdiv_lt_0_compat; lra.
  - apply Rdiv_lt_0_compat; lra.
  - intros i Hi. destruct i as [|[|[|[|i]]]]; [| | | |lia]; unfold ae3, rates; rewrite ?Es, ?Ec.
    + field. lra.
    + rewrite <- Qa at 1. field. lra.
    + rewrite <- Qb at 1. field. lra.
    + set (x := sqrt a) in *. set (y := sqrt b) in *.
      transitivity (- (r * 1) + q * (1 - x * x - y * y)); [field; lra|]. rewrite Qa, Qb. unfold q. field. lra.
Qed.

Lemma stationary_needs a b r g1 w eta v : stationary_triad a b r g1 w eta v -> a + b = 1 -> r = 0.
Proof.
  intros (G & E & A1 & A2 & A3 & H) S.
  pose proof (H 0%nat ltac:(lia)) as H0. pose proof (H 1%nat ltac:(lia)) as H1. pose proof (H 2%nat ltac:(lia)) as H2. pose proof (H 3%nat ltac:(lia)) as H3.
  unfold ae3, rates in *. set (x := v 0%nat) in *. set (y := v 1%nat) in *. set (z := v 2%nat) in *. set (f := v 3%nat) in *.
  assert (Sn : sin f <> 0). { intros Z. rewrite Z in H0. nra. }
  assert (E0 : 2 * w 0%nat * eta * y * z / x = - g1 / sin f). { apply Rmult_eq_reg_r with (x * sin f); [|nra]. field_simplify; [nra| |]; lra. }
  assert (E1 : 2 * w 1%nat * eta * x * z / y = - a * g1 / sin f). { apply Rmult_eq_reg_r with (y * sin f); [|nra]. field_simplify; [nra| |]; lra. }
  assert (E2 : 2 * w 2%nat * eta * x * y / z = - b * g1 / sin f). { apply Rmult_eq_reg_r with (z * sin f); [|nra]. field_simplify; [nra| |]; lra. }
  assert (X : r * g1 = cos f * (2 * w 0%nat * eta * y * z / x - 2 * w 1%nat * eta * x * z / y - 2 * w 2%nat * eta * x * y / z)).
  { unfold Rdiv in *. lra. }
  rewrite E0, E1, E2 in X. replace (- g1 / sin f - - a * g1 / sin f - - b * g1 / sin f) with (- g1 * (1 - (a + b)) / sin f) in X by (field; exact Sn).
  rewrite S in X. replace (cos f * (- g1 * (1 - 1) / sin f)) with 0 in X by (field; exact Sn). nra.
Qed.

(** the criterion without division: t = a + b - 1, p = a b, x = r^2 *)
Definition k2 (a b : R) : R := (a + b - 1) * (2 * a ^ 2 + 2 * b ^ 2 + 2) - 12 * (a * b).
Definition k4 (a b : R) : R := 3 * ((a + b - 1) * (a + b + 1) ^ 2 - (4 * (a + b) + 2) * (a * b)).
Definition k4' (a b : R) : R := 3 * ((a + b - 1) * (3 * (a + b) ^ 2 + 1) - (4 * (a + b) + 2) * (a * b)).
Definition poly (a b c x : R) : R := - ((a + b - 1) ^ 3 + 2 * (a * b)) * (a + b - 1) ^ 4 + k2 a b * (a + b - 1) ^ 2 * x + c * x ^ 2.

Lemma scale_pos c x : 0 < c -> (0 < x <-> 0 < c * x).
Proof. intros C. split; intros H; nra. Qed.

Lemma corrected_poly a b r : corrected_domain a b r = true <-> 1 < a + b /\ 0 < poly a b (k4 a b) (r ^ 2).
Proof.
  unfold corrected_domain. rewrite andb_true_iff, !Rltb_spec. split.
  - intros [H T]. split; [lra|]. assert (P : 0 < (a + b - 1) ^ 4) by (apply pow_lt; lra).
    apply (proj1 (scale_pos _ _ P)) in H. eapply Rlt_le_trans; [exact H|]. right. unfold poly, k2, k4. field. lra.
  - intros [T H]. split; [|lra]. assert (P : 0 < (a + b - 1) ^ 4) by (apply pow_lt; lra).
    apply (proj2 (scale_pos _ _ P)). eapply Rlt_le_trans; [exact H|]. right. unfold poly, k2, k4. field. lra.
Qed.
Lemma original_poly a b r : original_domain a b r = true <-> 1 < a + b /\ 0 < poly a b (k4' a b) (r ^ 2).
Proof.
  unfold original_domain. rewrite andb_true_iff, !Rltb_spec. split.
  - intros [H T]. split; [lra|]. assert (P : 0 < (a + b - 1) ^ 4) by (apply pow_lt; lra).
    apply (proj1 (scale_pos _ _ P)) in H. eapply Rlt_le_trans; [exact H|]. right. unfold poly, k2, k4'. field. lra.
  - intros [T H]. split; [|lra]. assert (P : 0 < (a + b - 1) ^ 4) by (apply pow_lt; lra).
    apply (proj2 (scale_pos _ _ P)). eapply Rlt_le_trans; [exact H|]. right. unfold poly, k2, k4'. field. lra.
Qed.

(** if the leading coefficient is not positive, neither is the middle one *)
Lemma k4_k2 a b : 0 < a -> 0 < b -> 1 < a + b -> k4 a b <= 0 -> k2 a b <= 0.
Proof.
  intros A B T H. unfold k4, k2 in *. set (s := a + b) in *. set (p := a * b) in *.
  assert (Q4 : 4 * p <= s ^ 2) by (pose proof (pow2_ge_0 (a - b)); unfold s, p; nra).
  replace (2 * a ^ 2 + 2 * b ^ 2 + 2) with (2 * s ^ 2 - 4 * p + 2) by (unfold s, p; ring).
  assert (S : s ^ 2 <= 2 * s + 2).
  { apply Rnot_lt_le. intros C. assert (4 * ((s - 1) * (s + 1) ^ 2) <= (4 * s + 2) * s ^ 2) by nra. nra. }
  assert (s <= 3) by nra.
  assert (P4 : (s - 1) * (s + 1) ^ 2 <= (4 * s + 2) * p) by lra.
  assert (U : (s - 1) * (s + 1) ^ 2 * (2 * s + 4) <= (4 * s + 2) * ((2 * s + 4) * p)) by nra.
  assert (V : (s ^ 2 + 1) * (4 * s + 2) <= (s + 1) ^ 2 * (2 * s + 4)) by nra.
  assert (W : (s - 1) * ((s ^ 2 + 1) * (4 * s + 2)) <= (s - 1) * ((s + 1) ^ 2 * (2 * s + 4))) by (apply Rmult_le_compat_l; lra).
  assert (Z : (4 * s + 2) * ((s - 1) * (s ^ 2 + 1) - (2 * s + 4) * p) <= 0) by lra.
  assert ((s - 1) * (s ^ 2 + 1) - (2 * s + 4) * p <= 0) by nra. nra.
Qed.
Lemma k4'_k2 a b : 0 < a -> 0 < b -> 1 < a + b -> k4' a b <= 0 -> k2 a b <= 0.
Proof.
  intros A B T H. apply k4_k2; try assumption. unfold k4, k4' in *.
  assert (0 < (a + b - 1) * (3 * (a + b) ^ 2 + 1 - (a + b + 1) ^ 2)) by (apply Rmult_lt_0_compat; nra). lra.
Qed.

(** shape of x |-> - c0 + c2 x + c4 x^2 on x >= 0, with c0 > 0 *)
Lemma ray c0 c2 c4 : 0 < c0 -> (c4 <= 0 -> c2 <= 0) ->
  (c4 <= 0 -> forall x, 0 <= x -> ~ 0 < - c0 + c2 * x + c4 * x ^ 2) /\
  (0 < c4 -> exists x0, 0 < x0 /\ forall x, 0 <= x -> (0 < - c0 + c2 * x + c4 * x ^ 2 <-> x0 < x)).
Proof.
  intros C0 I. split.
  - intros H x X. specialize (I H). nra.
  - intros H. set (D := c2 ^ 2 + 4 * c4 * c0). assert (HD : c2 ^ 2 < D) by (unfold D; nra).
    set (x0 := (sqrt D - c2) / (2 * c4)). assert (DD : sqrt D * sqrt D = D) by (apply sqrt_sqrt; nra).
    assert (SD : Rabs c2 < sqrt D). { rewrite <- (sqrt_Rsqr_abs c2). apply sqrt_lt_1; unfold Rsqr; nra. }
    assert (B : - sqrt D < c2 < sqrt D) by (apply Rabs_def2 in SD; lra).
    assert (P : 0 < x0) by (apply Rdiv_lt_0_compat; lra).
    exists x0. split; [exact P|]. intros x X. set (x1 := (sqrt D + c2) / (2 * c4)).
    assert (P1 : 0 < x1) by (apply Rdiv_lt_0_compat; lra).
    assert (E : - c0 + c2 * x + c4 * x ^ 2 = c4 * ((x - x0) * (x + x1))).
    { replace (c4 * ((x - x0) * (x + x1))) with (c4 * x ^ 2 + c2 * x - (sqrt D * sqrt D - c2 ^ 2) / (4 * c4)) by (unfold x0, x1; field; lra).
      rewrite DD. unfold D. field. lra. }
    rewrite E. split; intros K.
    + apply Rnot_le_lt. intros N. assert ((x - x0) * (x + x1) <= 0) by nra. nra.
    + apply Rmult_lt_0_compat; [exact H|]. apply Rmult_lt_0_compat; lra.
Qed.

Lemma poly_ray a b c : 0 < a -> 0 < b -> 1 < a + b -> (c <= 0 -> k2 a b <= 0) ->
  (c <= 0 -> forall r, ~ 0 < poly a b c (r ^ 2)) /\
  (0 < c -> exists r0, 0 < r0 /\ forall r, 0 < poly a b c (r ^ 2) <-> r0 < Rabs r).
Proof.
  intros A B T I. unfold poly. set (t := a + b - 1) in *. assert (HT : 0 < t) by (unfold t; lra).
  assert (T4 : 0 < t ^ 4) by (apply pow_lt, HT). assert (T3 : 0 < t ^ 3) by (apply pow_lt, HT). assert (T2 : 0 < t ^ 2) by (apply pow_lt, HT).
  assert (AB : 0 < a * b) by (apply Rmult_lt_0_compat; assumption).
  destruct (ray ((t ^ 3 + 2 * (a * b)) * t ^ 4) (k2 a b * t ^ 2) c) as [N Y].
  - apply Rmult_lt_0_compat; lra.
  - intros C. specialize (I C). nra.
  - split.
    + intros C r. rewrite <- Ropp_mult_distr_l. apply (N C). apply pow2_ge_0.
    + intros C. destruct (Y C) as (x0 & X0 & H). exists (sqrt x0). split; [apply sqrt_lt_R0, X0|].
      intros r. rewrite <- Ropp_mult_distr_l. rewrite (H (r ^ 2) (pow2_ge_0 r)).
      rewrite <- (sqrt_Rsqr_abs r). replace (Rsqr r) with (r ^ 2) by (unfold Rsqr; ring). split; intros K.
      * apply sqrt_lt_1; [lra|apply pow2_ge_0|exact K].
      * apply sqrt_lt_0_alt, K.
Qed.
