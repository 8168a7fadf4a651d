(** * Stationary solution of a triad (C38-C39). *)
From Coq Require Import Reals Lra Psatz.
From Coquelicot Require Import Coquelicot.
From Verif Require Import Stab_Model Stab_Spec Stab_Proofs Stab_Jac Stat_Model Stat_Spec Stat_Proofs Stat_Thresh.
Local Open Scope R_scope.

Definition admissible (g w : vec) (eta : R) : Prop :=
  0 < g 0%nat /\ g 1%nat < 0 /\ g 2%nat < 0 /\ 0 < w 0%nat /\ 0 < w 1%nat /\ 0 < w 2%nat /\ eta <> 0 /\ sum3 g <> 0.
Definition fixed_point (g w : vec) (eta d : R) (v : vec) : Prop :=
  0 < v 0%nat /\ 0 < v 1%nat /\ 0 < v 2%nat /\ forall i, (i < 4)%nat -> ae3 g w eta d v i = 0.
(** The amplitudes the code returns, with a phase. *)
Definition solution (A : amplitudes) (Phi : R) : vec :=
  fun k => match k with 0%nat => a1 A | 1%nat => a2 A | 2%nat => a3 A | _ => Phi end.

(** C38: the computed amplitudes are those of a fixed point of the amplitude
    equations, and no other amplitudes are. *)
Theorem C38_stationary_amplitudes :
  forall g w eta d, admissible g w eta ->
  (exists Phi, fixed_point g w eta d (solution (stationary_amps g w eta d) Phi)) /\
  (forall v, fixed_point g w eta d v ->
     v 0%nat = a1 (stationary_amps g w eta d) /\ v 1%nat = a2 (stationary_amps g w eta d) /\ v 2%nat = a3 (stationary_amps g w eta d)).
Proof.
  intros g w eta d (G0 & G1 & G2 & W0 & W1 & W2 & He & HG). split.
  - set (q := d / sum3 g).
    assert (E : exists Phi, sin Phi = - (eta / Rabs eta) / sqrt (1 + q^2) /\ cos Phi = q * (eta / Rabs eta) / sqrt (1 + q^2)).
    { assert (Q : 0 < 1 + q^2) by nra. assert (Pq : 0 < sqrt (1 + q^2)) by (apply sqrt_lt_R0, Q).
      assert (Sq : sqrt (1 + Rsqr q) = sqrt (1 + q^2)) by (f_equal; unfold Rsqr; ring).
      assert (S1 := sin_atan q). assert (C1 := cos_atan q). rewrite Sq in S1, C1.
      destruct (Rlt_dec 0 eta) as [Hp|Hn].
      - exists (atan q - PI / 2). rewrite <- (sin_shift (atan q)) in C1. 
        replace (eta / Rabs eta) with 1 by (rewrite Rabs_right by lra; field; lra).
        split.
        + replace (atan q - PI/2) with (- (PI/2 - atan q)) by ring. rewrite sin_neg, C1. field. lra.
        + replace (atan q - PI/2) with (- (PI/2 - atan q)) by ring. rewrite cos_neg, cos_shift, S1. field. lra.
      - exists (PI / 2 + atan q).
        replace (eta / Rabs eta) with (-1) by (rewrite Rabs_left by lra; field; lra).
        split.
        + replace (PI/2 + atan q) with (PI/2 - (- atan q)) by ring. rewrite sin_shift, cos_neg, C1. field. lra.
        + replace (PI/2 + atan q) with (PI/2 - (- atan q)) by ring. rewrite cos_shift, sin_neg, S1. field. lra. }
    destruct E as (Phi & S & C). exists Phi.
    destruct (amps_forms g w eta d G0 G1 G2 W0 W1 W2 He) as (P1 & P2 & P3 & _).
    split; [exact P1|split; [exact P2|split; [exact P3|]]]. intros i Hi. apply amps_fixed_point; assumption.
  - intros v (V0 & V1 & V2 & H). destruct (fixed_point_amps g w eta d v G0 G1 G2 W0 W1 W2 He HG V0 V1 V2 H) as (E0 & E1 & E2 & _). auto.
Qed.
Print Assumptions C38_stationary_amplitudes.

(** The computed phase difference belongs to the fixed point exactly when q and the
    coupling coefficient have the same sign; otherwise it is wrong by pi. *)
Theorem C38_stationary_phase :
  forall g w eta d, admissible g w eta -> d <> 0 ->
  let q := q_factor d g in let A := stationary_amps g w eta d in
  (0 < q * eta -> fixed_point g w eta d (solution A (relative_phase q))) /\
  (q * eta < 0 -> fixed_point g w eta d (solution A (relative_phase q + PI)) /\
                  ~ fixed_point g w eta d (solution A (relative_phase q))).
Proof.
  intros g w eta d (G0 & G1 & G2 & W0 & W1 & W2 & He & HG) Hd q A.
  assert (Hq : q <> 0) by (apply Rmult_integral_contrapositive_currified; [exact Hd|apply Rinv_neq_0_compat, HG]).
  destruct (amps_forms g w eta d G0 G1 G2 W0 W1 W2 He) as (P1 & P2 & P3 & _).
  destruct (atan_sin_cos q Hq) as [S C]. fold (relative_phase q) in S, C.
  assert (Pq : 0 < sqrt (1 + q^2)) by (apply sqrt_lt_R0; nra).
  assert (Ra : 0 < Rabs q) by (apply Rabs_pos_lt, Hq). assert (Re : 0 < Rabs eta) by (apply Rabs_pos_lt, He).
  assert (FP : forall Phi, sin Phi = - (eta / Rabs eta) / sqrt (1 + q^2) -> cos Phi = q * (eta / Rabs eta) / sqrt (1 + q^2) -> fixed_point g w eta d (solution A Phi)).
  { intros Phi S' C'. split; [exact P1|split; [exact P2|split; [exact P3|]]]. intros i Hi. apply amps_fixed_point; assumption. }
  split.
  - intros Hs. assert (E : q / Rabs q = eta / Rabs eta /\ Rabs q = q * (eta / Rabs eta)).
    { destruct (Rlt_dec 0 q); [assert (0 < eta) by nra; rewrite !Rabs_right by lra|assert (eta < 0) by nra; rewrite !Rabs_left by lra]; split; field; lra. }
    destruct E as [E1 E2]. apply FP; [rewrite S, E1|rewrite C, E2]; reflexivity.
  - intros Hs. assert (E : q / Rabs q = - (eta / Rabs eta) /\ Rabs q = - (q * (eta / Rabs eta))).
    { destruct (Rlt_dec 0 q); [assert (eta < 0) by nra; rewrite (Rabs_right q), (Rabs_left eta) by lra|assert (0 < eta) by nra; rewrite (Rabs_left q), (Rabs_right eta) by lra]; split; field; lra. }
    destruct E as [E1 E2]. split.
    + apply FP; [rewrite neg_sin, S, E1|rewrite neg_cos, C, E2]; field; lra.
    + intros (V0 & V1 & V2 & H). destruct (fixed_point_amps g w eta d _ G0 G1 G2 W0 W1 W2 He HG V0 V1 V2 H) as (_ & _ & _ & S' & _).
      cbn [solution] in S'. rewrite S in S'. change (d / sum3 g) with q in S'. rewrite E1 in S'.
      assert (X : eta / Rabs eta / sqrt (1 + q^2) = 0) by (unfold Rdiv in *; lra).
      unfold Rdiv in X. assert (/ Rabs eta <> 0) by (apply Rinv_neq_0_compat; lra). assert (/ sqrt (1 + q^2) <> 0) by (apply Rinv_neq_0_compat; lra).
      apply Rmult_integral in X. destruct X as [X|X]; [|contradiction]. apply Rmult_integral in X. tauto.
Qed.
Print Assumptions C38_stationary_phase.
Example C38_case : admissible (vec3 1 (-4) (-4)) (vec3 3 1 2) (1/2) /\ 0 < q_factor (-7) (vec3 1 (-4) (-4)) * (1/2) /\ q_factor 7 (vec3 1 (-4) (-4)) * (1/2) < 0.
Proof. unfold admissible, q_factor, sum3, vec3. repeat split; lra. Qed.

(** C39: the computed parent amplitude is at least the computed threshold, with
    equality only at exact resonance; and the computed threshold is the amplitude above
    which a parent makes infinitesimal daughters grow. *)
Theorem C39_parent_above_threshold :
  forall g w eta d, admissible g w eta -> sum3 g < 0 ->
  let A := stationary_amps g w eta d in
  acrit A <= a1 A /\ (acrit A = a1 A <-> d = 0).
Proof.
  intros g w eta d (G0 & G1 & G2 & W0 & W1 & W2 & He & HG) HS A. unfold A. rewrite stationary_amps_eq. cbn [a1 acrit].
  assert (Ae : 0 < Rabs eta) by (apply Rabs_pos_lt, He).
  set (k := 1 / (Rabs eta ^ 2 * (w 1%nat / g 1%nat * (w 2%nat / g 2%nat)))).
  assert (K : 0 < k).
  { unfold k. replace (1 / (Rabs eta ^ 2 * (w 1%nat / g 1%nat * (w 2%nat / g 2%nat)))) with ((- g 1%nat) * (- g 2%nat) / (Rabs eta ^ 2 * (w 1%nat * w 2%nat))) by (field; lra).
    apply Rdiv_lt_0_compat; [apply Rmult_lt_0_compat; lra|apply Rmult_lt_0_compat; [apply pow_lt, Ae|apply Rmult_lt_0_compat; lra]]. }
  assert (L : 0 < (sum3 g)^2 < (g 1%nat + g 2%nat)^2) by (unfold sum3 in *; nra).
  assert (Ec : (d / (g 1%nat + g 2%nat))^2 = d^2 / (g 1%nat + g 2%nat)^2) by (field; lra).
  assert (Eq : (d / sum3 g)^2 = d^2 / (sum3 g)^2) by (field; lra).
  assert (Iv : / (g 1%nat + g 2%nat)^2 < / (sum3 g)^2) by (apply Rinv_lt_contravar; [apply Rmult_lt_0_compat|]; lra).
  assert (Ic : 0 < / (g 1%nat + g 2%nat)^2) by (apply Rinv_0_lt_compat; lra).
  assert (D : 0 <= d^2) by apply pow2_ge_0.
  assert (C0 : 0 <= (d / (g 1%nat + g 2%nat))^2) by apply pow2_ge_0.
  assert (LE : (d / (g 1%nat + g 2%nat))^2 <= (d / sum3 g)^2) by (rewrite Ec, Eq; unfold Rdiv; apply Rmult_le_compat_l; lra).
  assert (LE' : (1 + (d / (g 1%nat + g 2%nat))^2) * k <= (1 + (d / sum3 g)^2) * k) by (apply Rmult_le_compat_r; lra).
  split.
  - assert (Y := sqrt_le_1_alt _ _ LE'). lra.
  - split.
    + intros E. destruct (Req_dec d 0) as [Z|Z]; [exact Z|exfalso].
      assert (X : (d / (g 1%nat + g 2%nat))^2 < (d / sum3 g)^2) by (rewrite Ec, Eq; unfold Rdiv; apply Rmult_lt_compat_l; [nra|exact Iv]).
      assert (Y : (1 + (d / (g 1%nat + g 2%nat))^2) * k < (1 + (d / sum3 g)^2) * k) by (apply Rmult_lt_compat_r; lra).
      assert (Y2 : 0 <= (1 + (d / (g 1%nat + g 2%nat))^2) * k) by (apply Rmult_le_pos; lra). assert (Y3 := sqrt_lt_1_alt _ _ (conj Y2 Y)). lra.
    + intros ->. unfold Rdiv. rewrite !Rmult_0_l. reflexivity.
Qed.
Print Assumptions C39_parent_above_threshold.
Theorem C39_threshold_is_parametric_instability :
  forall g w eta d A, admissible g w eta -> 0 < A ->
  (acrit (stationary_amps g w eta d) < A <->
   exists s, daughters_rate (g 1%nat) (g 2%nat) (w 1%nat) (w 2%nat) eta d A s /\ 0 < Re s).
Proof.
  intros g w eta d A (G0 & G1 & G2 & W0 & W1 & W2 & He & HG) HA. rewrite stationary_amps_eq. cbn [acrit].
  assert (Ae : 0 < Rabs eta) by (apply Rabs_pos_lt, He). assert (Ae2 : Rabs eta ^ 2 = eta ^ 2) by apply pow2_abs.
  rewrite threshold_iff; [|assumption|assumption|].
  2: { repeat apply Rmult_integral_contrapositive_currified; lra. }
  set (X := (1 + (d / (g 1%nat + g 2%nat)) ^ 2) * (1 / (Rabs eta ^ 2 * (w 1%nat / g 1%nat * (w 2%nat / g 2%nat))))).
  set (E := eta ^ 2 * w 1%nat * w 2%nat). assert (PE : 0 < E) by (unfold E; rewrite <- Ae2; apply Rmult_lt_0_compat; [apply Rmult_lt_0_compat; [apply pow_lt, Ae|]|]; lra).
  assert (EX : g 1%nat * g 2%nat * (1 + (d / (g 1%nat + g 2%nat)) ^ 2) = X * E) by (unfold X, E; rewrite Ae2; field; repeat split; lra).
  assert (PX : 0 < X).
  { apply Rmult_lt_reg_r with E; [exact PE|]. rewrite Rmult_0_l, <- EX. assert (0 <= (d / (g 1%nat + g 2%nat))^2) by apply pow2_ge_0.
    replace (g 1%nat * g 2%nat) with ((- g 1%nat) * (- g 2%nat)) by ring. apply Rmult_lt_0_compat; [apply Rmult_lt_0_compat|]; lra. }
  rewrite EX. replace (4 * w 1%nat * w 2%nat * eta ^ 2 * A ^ 2) with ((2 * A)^2 * E) by (unfold E; ring).
  assert (PS : 0 < sqrt X) by (apply sqrt_lt_R0, PX). assert (SS : sqrt X * sqrt X = X) by (apply sqrt_sqrt; lra).
  split; intros H.
  - apply Rmult_lt_compat_r; [exact PE|]. nra.
  - apply Rmult_lt_reg_r in H; [|exact PE]. nra.
Qed.
Print Assumptions C39_threshold_is_parametric_instability.
