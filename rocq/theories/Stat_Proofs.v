From Coq Require Import Reals Lra Psatz List.
From Coquelicot Require Import Coquelicot.
From Verif Require Import Stab_Model Stab_Spec Stab_Proofs Stab_Jac Stat_Model.
Import ListNotations.
Local Open Scope R_scope.

Lemma qprod_three : forall Q, quality_products 3 Q = [Q 0%nat * Q 1%nat; Q 0%nat * Q 2%nat; Q 1%nat * Q 2%nat].
Proof. reflexivity. Qed.

Lemma stationary_amps_eq : forall g w eta d,
  let q := d / sum3 g in let qc := d / (g 1%nat + g 2%nat) in let Q := fun i => w i / g i in
  stationary_amps g w eta d =
  {| a1 := sqrt ((1 + q^2) * (1 / (Rabs eta ^ 2 * (Q 1%nat * Q 2%nat)))) / 2;
     a2 := sqrt (- ((1 + q^2) * (1 / (Rabs eta ^ 2 * (Q 0%nat * Q 2%nat))))) / 2;
     a3 := sqrt (- ((1 + q^2) * (1 / (Rabs eta ^ 2 * (Q 0%nat * Q 1%nat))))) / 2;
     acrit := sqrt ((1 + qc^2) * (1 / (Rabs eta ^ 2 * (Q 1%nat * Q 2%nat)))) / 2 |}.
Proof. reflexivity. Qed.

Lemma atan_sin_cos : forall q, q <> 0 -> let p := atan (-1 / q) in
  sin p = - (q / Rabs q) / sqrt (1 + q^2) /\ cos p = Rabs q / sqrt (1 + q^2).
Proof.
  intros q Hq p. assert (A : 0 < Rabs q) by (apply Rabs_pos_lt, Hq).
  assert (P : 0 < sqrt (1 + q^2)) by (apply sqrt_lt_R0; nra).
  assert (E : sqrt (1 + (-1/q)²) = sqrt (1 + q^2) / Rabs q).
  { rewrite <- (sqrt_Rsqr_abs q). unfold Rsqr. rewrite <- sqrt_div_alt by nra. f_equal. field. exact Hq. }
  unfold p. rewrite sin_atan, cos_atan. unfold Rsqr in E. unfold Rsqr. rewrite E.
  assert (AA : Rabs q * Rabs q = q * q) by (rewrite <- Rabs_mult; apply Rabs_right; nra).
  split; [|field; lra].
  transitivity (- (Rabs q * Rabs q) / (q * Rabs q) / sqrt (1 + q^2)); [field; repeat split; lra|].
  rewrite AA. field. repeat split; lra.
Qed.

(** the computed amplitudes, in the form used below *)
Lemma amps_forms : forall g w eta d, 0 < g 0%nat -> g 1%nat < 0 -> g 2%nat < 0 ->
  0 < w 0%nat -> 0 < w 1%nat -> 0 < w 2%nat -> eta <> 0 ->
  let q := d / sum3 g in let A := stationary_amps g w eta d in
  0 < a1 A /\ 0 < a2 A /\ 0 < a3 A /\
  a1 A ^ 2 = (1 + q^2) * (g 1%nat * g 2%nat) / (4 * eta^2 * w 1%nat * w 2%nat) /\
  a2 A ^ 2 = (1 + q^2) * (- g 0%nat * g 2%nat) / (4 * eta^2 * w 0%nat * w 2%nat) /\
  a3 A ^ 2 = (1 + q^2) * (- g 0%nat * g 1%nat) / (4 * eta^2 * w 0%nat * w 1%nat).
Proof.
  intros g w eta d G0 G1 G2 W0 W1 W2 He q A. unfold A. rewrite stationary_amps_eq. cbn [a1 a2 a3]. fold q.
  assert (E2 : 0 < eta ^ 2) by nra. assert (Q : 0 < 1 + q^2) by nra.
  rewrite <- (pow2_abs eta) in E2. assert (Ae : 0 < Rabs eta) by (apply Rabs_pos_lt, He).
  assert (X1 : 0 < (1 + q^2) * (1 / (Rabs eta ^ 2 * (w 1%nat / g 1%nat * (w 2%nat / g 2%nat))))).
  { replace ((1 + q^2) * (1 / (Rabs eta ^ 2 * (w 1%nat / g 1%nat * (w 2%nat / g 2%nat))))) with
      ((1 + q^2) * ((- g 1%nat) * (- g 2%nat)) / (Rabs eta ^ 2 * (w 1%nat * w 2%nat))) by (field; repeat split; try lra; apply Rabs_no_R0; exact He).
    apply Rdiv_lt_0_compat; repeat apply Rmult_lt_0_compat; lra. }
  assert (X2 : 0 < - ((1 + q^2) * (1 / (Rabs eta ^ 2 * (w 0%nat / g 0%nat * (w 2%nat / g 2%nat)))))).
  { replace (- ((1 + q^2) * (1 / (Rabs eta ^ 2 * (w 0%nat / g 0%nat * (w 2%nat / g 2%nat)))))) with
      ((1 + q^2) * (g 0%nat * (- g 2%nat)) / (Rabs eta ^ 2 * (w 0%nat * w 2%nat))) by (field; repeat split; try lra; apply Rabs_no_R0; exact He).
    apply Rdiv_lt_0_compat; repeat apply Rmult_lt_0_compat; lra. }
  assert (X3 : 0 < - ((1 + q^2) * (1 / (Rabs eta ^ 2 * (w 0%nat / g 0%nat * (w 1%nat / g 1%nat)))))).
  { replace (- ((1 + q^2) * (1 / (Rabs eta ^ 2 * (w 0%nat / g 0%nat * (w 1%nat / g 1%nat)))))) with
      ((1 + q^2) * (g 0%nat * (- g 1%nat)) / (Rabs eta ^ 2 * (w 0%nat * w 1%nat))) by (field; repeat split; try lra; apply Rabs_no_R0; exact He).
    apply Rdiv_lt_0_compat; repeat apply Rmult_lt_0_compat; lra. }
  assert (Sq : forall x, 0 < x -> (sqrt x / 2) ^ 2 = x / 4).
  { intros x Hx. replace ((sqrt x / 2)^2) with (sqrt x ^ 2 / 4) by field. rewrite pow2_sqrt by lra. reflexivity. }
  rewrite !Sq by assumption.
  repeat split; try (apply Rdiv_lt_0_compat; [apply sqrt_lt_R0; assumption|lra]); rewrite <- (pow2_abs eta);
    field; repeat split; try lra; apply Rabs_no_R0; exact He.
Qed.

Lemma sq_eq_pos : forall x y, 0 < x -> 0 < y -> x ^ 2 = y ^ 2 -> x = y.
Proof. intros x y Hx Hy H. assert ((x - y) * (x + y) = 0) by nra. apply Rmult_integral in H0. destruct H0; lra. Qed.

(** uniqueness: every fixed point has these amplitudes *)
Lemma fixed_point_amps : forall g w eta d v, 0 < g 0%nat -> g 1%nat < 0 -> g 2%nat < 0 ->
  0 < w 0%nat -> 0 < w 1%nat -> 0 < w 2%nat -> eta <> 0 -> sum3 g <> 0 ->
  0 < v 0%nat -> 0 < v 1%nat -> 0 < v 2%nat -> (forall i, (i < 4)%nat -> ae3 g w eta d v i = 0) ->
  let q := d / sum3 g in let A := stationary_amps g w eta d in
  v 0%nat = a1 A /\ v 1%nat = a2 A /\ v 2%nat = a3 A /\
  sin (v 3%nat) = - (eta / Rabs eta) / sqrt (1 + q^2) /\ cos (v 3%nat) = q * (eta / Rabs eta) / sqrt (1 + q^2).
Proof.
  intros g w eta d v G0 G1 G2 W0 W1 W2 He HG A1 A2 A3 H q A.
  destruct (fixed_point_facts g w eta d v He ltac:(lra) A1 A2 A3 H) as (S & E0 & E1 & E2 & E3).
  assert (Eq : cos (v 3%nat) = - q * sin (v 3%nat)).
  { assert (X : q = - (cos (v 3%nat) / sin (v 3%nat))) by (unfold q; rewrite E3; field; split; assumption). rewrite X. field. exact S. }
  assert (S2 : sin (v 3%nat) ^ 2 * (1 + q^2) = 1).
  { assert (T := sin2_cos2 (v 3%nat)). unfold Rsqr in T. rewrite Eq in T. nra. }
  assert (Q : 0 < 1 + q^2) by nra.
  assert (S2' : 1 + q^2 = / sin (v 3%nat) ^ 2).
  { apply Rmult_eq_reg_l with (sin (v 3%nat) ^ 2); [|apply pow_nonzero, S]. rewrite S2. field. exact S. }
  destruct (amps_forms g w eta d G0 G1 G2 W0 W1 W2 He) as (P1 & P2 & P3 & F1 & F2 & F3). fold q A in P1, P2, P3, F1, F2, F3.
  assert (V0 : v 0%nat = a1 A).
  { apply sq_eq_pos; [assumption|assumption|]. rewrite F1, S2', E1, E2. field. repeat split; lra. }
  assert (V1 : v 1%nat = a2 A).
  { apply sq_eq_pos; [assumption|assumption|]. rewrite F2, S2', E0, E2. field. repeat split; lra. }
  assert (V2 : v 2%nat = a3 A).
  { apply sq_eq_pos; [assumption|assumption|]. rewrite F3, S2', E0, E1. field. repeat split; lra. }
  assert (Ae : 0 < Rabs eta) by (apply Rabs_pos_lt, He).
  assert (Sg : sin (v 3%nat) * eta < 0).
  { assert (T := H 0%nat ltac:(auto)). cbn in T.
    assert (Pp : 0 < 2 * w 0%nat * v 1%nat * v 2%nat) by (repeat apply Rmult_lt_0_compat; lra).
    assert (0 < g 0%nat * v 0%nat) by (apply Rmult_lt_0_compat; lra). nra. }
  assert (Sv : sin (v 3%nat) = - (eta / Rabs eta) / sqrt (1 + q^2)).
  { assert (Sa : Rabs (sin (v 3%nat)) = / sqrt (1 + q^2)).
    { assert (Pq : 0 < sqrt (1 + q^2)) by (apply sqrt_lt_R0, Q).
      apply sq_eq_pos; [apply Rabs_pos_lt, S|apply Rinv_0_lt_compat, Pq|]. rewrite pow2_abs.
      replace ((/ sqrt (1 + q^2))^2) with (/ (sqrt (1+q^2) ^ 2)) by (field; lra). rewrite pow2_sqrt by lra. rewrite S2', Rinv_inv. reflexivity. }
    assert (Pq : 0 < sqrt (1 + q^2)) by (apply sqrt_lt_R0, Q).
    destruct (Rlt_dec 0 eta) as [Hp|Hn].
    - rewrite (Rabs_right eta) by lra. rewrite Rabs_left in Sa by nra. replace (eta / eta) with 1 by (field; lra). rewrite <- (Ropp_involutive (sin (v 3%nat))), Sa. field. lra.
    - rewrite (Rabs_left eta) by lra. rewrite Rabs_right in Sa by nra. rewrite Sa. field. lra. }
  repeat split; try assumption. rewrite Eq, Sv. field. assert (0 < sqrt (1 + q^2)) by (apply sqrt_lt_R0, Q). split; lra.
Qed.

(** existence *)
Lemma amps_fixed_point : forall g w eta d Phi, 0 < g 0%nat -> g 1%nat < 0 -> g 2%nat < 0 ->
  0 < w 0%nat -> 0 < w 1%nat -> 0 < w 2%nat -> eta <> 0 -> sum3 g <> 0 ->
  let q := d / sum3 g in let A := stationary_amps g w eta d in
  sin Phi = - (eta / Rabs eta) / sqrt (1 + q^2) -> cos Phi = q * (eta / Rabs eta) / sqrt (1 + q^2) ->
  forall i, (i < 4)%nat -> ae3 g w eta d (fun k => match k with 0%nat => a1 A | 1%nat => a2 A | 2%nat => a3 A | _ => Phi end) i = 0.
Proof.
  intros g w eta d Phi G0 G1 G2 W0 W1 W2 He HG q A HS HC i Hi.
  assert (Q : 0 < 1 + q^2) by nra. assert (Pq : 0 < sqrt (1 + q^2)) by (apply sqrt_lt_R0, Q).
  assert (Sq2 : sqrt (1 + q^2) ^ 2 = 1 + q^2) by (apply pow2_sqrt; lra).
  assert (Ae : 0 < Rabs eta) by (apply Rabs_pos_lt, He).
  assert (Ae2 : Rabs eta ^ 2 = eta ^ 2) by apply pow2_abs.
  (* amplitudes through u = sqrt(-..): *)
  set (x := sqrt (g 0%nat / w 0%nat)). set (y := sqrt (- g 1%nat / w 1%nat)). set (z := sqrt (- g 2%nat / w 2%nat)).
  assert (X : 0 < x) by (apply sqrt_lt_R0, Rdiv_lt_0_compat; lra). assert (Y : 0 < y) by (apply sqrt_lt_R0, Rdiv_lt_0_compat; lra).
  assert (Z : 0 < z) by (apply sqrt_lt_R0, Rdiv_lt_0_compat; lra).
  assert (X2 : x^2 = g 0%nat / w 0%nat) by (apply pow2_sqrt; apply Rlt_le, Rdiv_lt_0_compat; lra).
  assert (Y2 : y^2 = - g 1%nat / w 1%nat) by (apply pow2_sqrt; apply Rlt_le, Rdiv_lt_0_compat; lra).
  assert (Z2 : z^2 = - g 2%nat / w 2%nat) by (apply pow2_sqrt; apply Rlt_le, Rdiv_lt_0_compat; lra).
  assert (Gx : g 0%nat = x^2 * w 0%nat) by (rewrite X2; field; lra).
  assert (Gy : g 1%nat = - y^2 * w 1%nat) by (rewrite Y2; field; lra).
  assert (Gz : g 2%nat = - z^2 * w 2%nat) by (rewrite Z2; field; lra).
  destruct (amps_forms g w eta d G0 G1 G2 W0 W1 W2 He) as (P1 & P2 & P3 & F1 & F2 & F3). fold q A in P1, P2, P3, F1, F2, F3.
  assert (V0 : a1 A = y * z * sqrt (1+q^2) / (2 * Rabs eta)).
  { apply sq_eq_pos; [assumption|apply Rdiv_lt_0_compat; [repeat apply Rmult_lt_0_compat; assumption|lra]|].
    replace ((y * z * sqrt (1 + q ^ 2) / (2 * Rabs eta)) ^ 2) with (y^2 * z^2 * (sqrt (1+q^2))^2 / (4 * (Rabs eta)^2)) by (field; lra).
    rewrite Sq2, Ae2, F1, Gy, Gz. field. repeat split; lra. }
  assert (V1 : a2 A = x * z * sqrt (1+q^2) / (2 * Rabs eta)).
  { apply sq_eq_pos; [assumption|apply Rdiv_lt_0_compat; [repeat apply Rmult_lt_0_compat; assumption|lra]|].
    replace ((x * z * sqrt (1 + q ^ 2) / (2 * Rabs eta)) ^ 2) with (x^2 * z^2 * (sqrt (1+q^2))^2 / (4 * (Rabs eta)^2)) by (field; lra).
    rewrite Sq2, Ae2, F2, Gx, Gz. field. repeat split; lra. }
  assert (V2 : a3 A = x * y * sqrt (1+q^2) / (2 * Rabs eta)).
  { apply sq_eq_pos; [assumption|apply Rdiv_lt_0_compat; [repeat apply Rmult_lt_0_compat; assumption|lra]|].
    replace ((x * y * sqrt (1 + q ^ 2) / (2 * Rabs eta)) ^ 2) with (x^2 * y^2 * (sqrt (1+q^2))^2 / (4 * (Rabs eta)^2)) by (field; lra).
    rewrite Sq2, Ae2, F3, Gx, Gy. field. repeat split; lra. }
  assert (Ee : eta * eta = Rabs eta * Rabs eta) by (replace (Rabs eta * Rabs eta) with (Rabs eta ^ 2) by ring; rewrite Ae2; ring).
  destruct i as [|[|[|[|i]]]]; [| | | |exfalso; apply PeanoNat.Nat.lt_irrefl with 4%nat; eapply PeanoNat.Nat.le_lt_trans; [|exact Hi]; auto with arith]; unfold ae3.
  - rewrite V0, V1, V2, HS, Gx. set (s := sqrt (1+q^2)) in *.
    transitivity (x^2 * w 0%nat * y * z * s / (2 * Rabs eta) * (1 - (eta * eta) / (Rabs eta * Rabs eta))); [field; repeat split; lra|]. rewrite Ee. field. lra.
  - rewrite V0, V1, V2, HS, Gy. set (s := sqrt (1+q^2)) in *.
    transitivity (- y^2 * w 1%nat * x * z * s / (2 * Rabs eta) * (1 - (eta * eta) / (Rabs eta * Rabs eta))); [field; repeat split; lra|]. rewrite Ee. field. lra.
  - rewrite V0, V1, V2, HS, Gz. set (s := sqrt (1+q^2)) in *.
    transitivity (- z^2 * w 2%nat * x * y * s / (2 * Rabs eta) * (1 - (eta * eta) / (Rabs eta * Rabs eta))); [field; repeat split; lra|]. rewrite Ee. field. lra.
  - rewrite V0, V1, V2, HC. set (s := sqrt (1+q^2)) in *.
    transitivity (- d + q * ((eta * eta) / (Rabs eta * Rabs eta)) * (x^2 * w 0%nat - y^2 * w 1%nat - z^2 * w 2%nat)); [field; repeat split; lra|].
    rewrite Ee. replace (x^2 * w 0%nat - y^2 * w 1%nat - z^2 * w 2%nat) with (sum3 g) by (unfold sum3; lra).
    unfold q. field. split; [lra|exact HG].
Qed.
