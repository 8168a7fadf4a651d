(** * Stability criteria (C34-C37). *)
From Coq Require Import Reals Lra Psatz Bool.
From Coquelicot Require Import Coquelicot.
From Verif Require Import Stab_Harm Stab_Model Stab_Spec Stab_Proofs Stab_Jac Stab_Pair.
Local Open Scope R_scope.

Definition parametric_signs (g : vec) : Prop := 0 < g 0%nat /\ g 1%nat < 0 /\ g 2%nat < 0.

(** C34: the two forms of the criterion accept the same parameters. Only a driven
    parent and a negative total rate are needed. *)
Theorem C34_equivalent_criterion :
  forall g q, 0 < g 0%nat -> sum3 g < 0 ->
  additional_condition_equivalent g q = corrected_dziembowski g q.
Proof.
  intros g q G0 HG.
  assert (K : 0 < g 0%nat ^ 3 / (- sum3 g) ^ 3) by (apply Rdiv_lt_0_compat; apply pow_lt; lra).
  apply Bool.eq_true_iff_eq. rewrite corrected_value_spec. unfold additional_condition_equivalent. rewrite Rltb_spec.
  match goal with |- 0 < ?x <-> _ => replace x with (g 0%nat ^ 3 / (- sum3 g) ^ 3 * corrected_value g q) end.
  - split; intros H.
    + apply Rmult_lt_reg_l with (g 0%nat ^ 3 / (- sum3 g) ^ 3); [exact K|]. rewrite Rmult_0_r. exact H.
    + apply Rmult_lt_0_compat; assumption.
  - unfold corrected_value. replace ((- sum3 g) ^ 3) with (- (sum3 g) ^ 3) by ring.
    unfold sum3 in *. field. lra.
Qed.
Print Assumptions C34_equivalent_criterion.

(** ... and the hypothesis on the total rate matters: without it they are opposite
    whenever the criterion is not exactly at its boundary. *)
Theorem C34_opposite_for_growing_total :
  forall g q, 0 < g 0%nat -> 0 < sum3 g ->
  (additional_condition_equivalent g q = true -> corrected_dziembowski g q = false) /\
  (corrected_dziembowski g q = true -> additional_condition_equivalent g q = false).
Proof.
  intros g q G0 HG.
  assert (K : 0 < g 0%nat ^ 3 / (sum3 g) ^ 3) by (apply Rdiv_lt_0_compat; apply pow_lt; lra).
  assert (E : additional_condition_equivalent g q = Rltb 0 (- (g 0%nat ^ 3 / (sum3 g) ^ 3 * corrected_value g q))).
  { unfold additional_condition_equivalent. f_equal. unfold corrected_value, sum3 in *. field. lra. }
  rewrite E. split; intros H.
  - apply Rltb_spec in H. apply not_true_iff_false. intros H'. apply corrected_value_spec in H'.
    assert (0 < g 0%nat ^ 3 / (sum3 g) ^ 3 * corrected_value g q) by (apply Rmult_lt_0_compat; assumption). lra.
  - apply corrected_value_spec in H. apply not_true_iff_false. intros H'. apply Rltb_spec in H'.
    assert (0 < g 0%nat ^ 3 / (sum3 g) ^ 3 * corrected_value g q) by (apply Rmult_lt_0_compat; assumption). lra.
Qed.
Print Assumptions C34_opposite_for_growing_total.
Example C34_case : 0 < vec3 1 (-4) (-4) 0%nat /\ sum3 (vec3 1 (-4) (-4)) < 0 /\ corrected_dziembowski (vec3 1 (-4) (-4)) 2 = true /\
  corrected_dziembowski (vec3 1 (-4) (-4)) (1/100) = false.
Proof.
  unfold sum3, corrected_dziembowski, vec3. repeat split; try lra.
  - apply Rltb_spec. lra.
  - apply not_true_iff_false. rewrite Rltb_spec. lra.
Qed.

(** C35: the original criterion is strictly weaker. Everything the corrected one
    accepts it accepts; they agree when the daughters' damping rates add up to the
    parent's driving rate or q = 0; and the original one wrongly accepts others: for
    rates (a, -a, -a) it accepts every |q| > 1 and the corrected one accepts none. *)
Theorem C35_original_criterion :
  (forall g q, parametric_signs g -> corrected_dziembowski g q = true -> original_dziembowski g q = true) /\
  (forall g q, parametric_signs g -> (q = 0 \/ sum3 g = 0) -> original_dziembowski g q = corrected_dziembowski g q) /\
  (forall a q, 0 < a -> original_dziembowski (vec3 a (-a) (-a)) q = Rltb 1 (q ^ 2) /\ corrected_dziembowski (vec3 a (-a) (-a)) q = false).
Proof.
  assert (D : forall g q, parametric_signs g ->
    original_dziembowski g q = Rltb 0 (corrected_value g q + 6 * ((- g 1%nat - g 2%nat) / g 0%nat) * (sum3 g / g 0%nat) ^ 2 * q ^ 4)).
  { intros g q (G0 & G1 & G2). unfold original_dziembowski. f_equal. unfold corrected_value, sum3. field. lra. }
  assert (P : forall g q, parametric_signs g -> 0 <= 6 * ((- g 1%nat - g 2%nat) / g 0%nat) * (sum3 g / g 0%nat) ^ 2 * q ^ 4).
  { intros g q (G0 & G1 & G2). assert (0 < (- g 1%nat - g 2%nat) / g 0%nat) by (apply Rdiv_lt_0_compat; lra).
    assert (0 <= (sum3 g / g 0%nat) ^ 2) by apply pow2_ge_0. replace (q^4) with ((q^2)^2) by ring. assert (0 <= (q^2)^2) by apply pow2_ge_0.
    apply Rmult_le_pos; [apply Rmult_le_pos; [lra|assumption]|assumption]. }
  split; [|split].
  - intros g q S H. rewrite D by exact S. apply Rltb_spec. apply corrected_value_spec in H. specialize (P g q S). lra.
  - intros g q S H. rewrite D by exact S. apply Bool.eq_true_iff_eq. rewrite corrected_value_spec, Rltb_spec.
    destruct H as [H|H]; rewrite H; unfold Rdiv; match goal with |- 0 < ?a + ?b <-> _ => replace b with 0 by ring end; rewrite Rplus_0_r; reflexivity.
  - intros a q Ha. assert (S : parametric_signs (vec3 a (-a) (-a))) by (unfold parametric_signs, vec3; repeat split; lra).
    assert (V : corrected_value (vec3 a (-a) (-a)) q = - 3 * (1 + q^2) ^ 2) by (unfold corrected_value, vec3; field; lra).
    split.
    + apply Bool.eq_true_iff_eq. rewrite D by exact S. rewrite !Rltb_spec, V. unfold sum3, vec3.
      replace (-3 * (1 + q ^ 2) ^ 2 + 6 * ((- - a - - a) / a) * ((a + - a + - a) / a) ^ 2 * q ^ 4) with (3 * (3 * q^2 + 1) * (q^2 - 1)) by (field; lra).
      assert (Q : 0 <= q^2) by apply pow2_ge_0. split; intros H; [|apply Rmult_lt_0_compat; lra].
      apply Rnot_le_lt. intros H'. assert (0 <= 3 * (3 * q^2 + 1) * (1 - q^2)) by (apply Rmult_le_pos; lra). lra.
    + apply not_true_iff_false. rewrite corrected_value_spec, V. assert (0 <= (1 + q^2)^2) by apply pow2_ge_0. lra.
Qed.
Print Assumptions C35_original_criterion.
(** C35: the ratio of the leading coefficients that the code offers (nothing calls it)
    is the one of the two criteria, which accept where these polynomials in [q] are
    positive; the corrected leading coefficient is the smaller one unless the rates add
    up to zero. *)
Definition original_value (g : vec) (q : R) : R :=
  corrected_value g q + 6 * ((- g 1%nat - g 2%nat) / g 0%nat) * (sum3 g / g 0%nat) ^ 2 * q ^ 4.
Theorem C35_ratio_of_leading_coefficients :
  forall g, parametric_signs g ->
  (forall q, original_dziembowski g q = true <-> 0 < original_value g q) /\
  exists c0 c2 c4 o0 o2 o4,
    (forall q, corrected_value g q = c0 + c2 * q ^ 2 + c4 * q ^ 4) /\
    (forall q, original_value g q = o0 + o2 * q ^ 2 + o4 * q ^ 4) /\
    ratio_coefficients_q4 g = c4 / o4 /\ c4 <= o4 /\ (c4 = o4 <-> sum3 g = 0).
Proof.
  intros g (G0 & G1 & G2). split.
  { intros q. unfold original_dziembowski. rewrite Rltb_spec.
    match goal with |- 0 < ?a <-> 0 < ?b => replace a with b; [reflexivity|] end. unfold original_value, corrected_value, sum3. field. lra. }
  set (r2 := - g 1%nat / g 0%nat). set (r3 := - g 2%nat / g 0%nat). set (r23 := r2 * r3). set (s := 1 - r2 - r3).
  exists (s ^ 3 - 2 * r23), (-12 * r23 - s * ((r2 - r3) ^ 2 + (r2 + r3) ^ 2 + 2)), (-18 * r23 - (3 * s) * (s ^ 2 + 4 * (r2 + r3 - r23))).
  exists (s ^ 3 - 2 * r23), (-12 * r23 - s * ((r2 - r3) ^ 2 + (r2 + r3) ^ 2 + 2)), (3 * (-6 * r23 + (- s) * ((r2 - r3) ^ 2 + 2 * (r2 + r3) ^ 2 + 1))).
  assert (D : 3 * (-6 * r23 + (- s) * ((r2 - r3) ^ 2 + 2 * (r2 + r3) ^ 2 + 1)) - (-18 * r23 - (3 * s) * (s ^ 2 + 4 * (r2 + r3 - r23))) = 6 * (r2 + r3) * s ^ 2) by (unfold r23, s; ring).
  assert (Es : s = sum3 g / g 0%nat) by (unfold s, r2, r3, sum3; field; lra).
  assert (P : 0 < r2 + r3). { unfold r2, r3. replace (- g 1%nat / g 0%nat + - g 2%nat / g 0%nat) with ((- g 1%nat - g 2%nat) / g 0%nat) by (field; lra). apply Rdiv_lt_0_compat; lra. }
  split; [|split; [|split; [|split]]].
  - intros q. unfold corrected_value, r23, s, r2, r3. field. lra.
  - intros q. unfold original_value, corrected_value, sum3, r23, s, r2, r3. field. lra.
  - unfold ratio_coefficients_q4. fold r2 r3. fold r23. unfold s. replace (- (1 - r2 - r3)) with (r2 + r3 - 1) by ring. replace (- (r2 + r3 - 1)) with (1 - r2 - r3) by ring. reflexivity.
  - pose proof (pow2_ge_0 s). assert (0 <= (r2 + r3) * s ^ 2) by (apply Rmult_le_pos; lra). lra.
  - split; intros E.
    + rewrite E in D. assert (Z : (r2 + r3) * s ^ 2 = 0) by lra. apply Rmult_integral in Z. destruct Z as [Z|Z]; [lra|].
      assert (s = 0) by (apply Rsqr_0_uniq; unfold Rsqr; lra). rewrite Es in H. apply Rmult_integral in H. destruct H as [H|H]; [exact H|].
      exfalso. revert H. apply Rinv_neq_0_compat. lra.
    + rewrite E in Es. unfold Rdiv in Es. rewrite Rmult_0_l in Es. assert (Z : 6 * (r2 + r3) * s ^ 2 = 0) by (rewrite Es; ring). rewrite Z in D. lra.
Qed.
Print Assumptions C35_ratio_of_leading_coefficients.
Example C35_case : parametric_signs (vec3 1 (-1) (-1)) /\ original_dziembowski (vec3 1 (-1) (-1)) 2 = true /\ corrected_dziembowski (vec3 1 (-1) (-1)) 2 = false
  /\ corrected_dziembowski (vec3 1 (-4) (-4)) 2 = true.
Proof.
  split; [unfold parametric_signs, vec3; repeat split; lra|]. destruct (proj2 (proj2 C35_original_criterion) 1 2 ltac:(lra)) as [E1 E2].
  replace (vec3 1 (-1) (-1)) with (vec3 1 (- (1)) (- (1))) by reflexivity. rewrite E1, E2. split; [apply Rltb_spec; lra|]. split; [reflexivity|].
  apply C34_case.
Qed.

(** C36: the solver's acceptance test (total rate negative and corrected criterion)
    holds exactly when every eigenvalue of the Jacobian of the amplitude equations at
    the fixed point has negative real part. [v] is any fixed point with positive
    amplitudes, [J] its Jacobian (which exists). *)
Theorem C36_accepted_iff_decaying :
  forall g w eta d v, parametric_signs g -> eta <> 0 ->
  0 < v 0%nat -> 0 < v 1%nat -> 0 < v 2%nat -> (forall i, (i < 4)%nat -> ae3 g w eta d v i = 0) ->
  exists J, jacobian 4 (ae3 g w eta d) v J /\
  forall J', jacobian 4 (ae3 g w eta d) v J' ->
  (gamma_sum_stability g && corrected_dziembowski g (d / sum3 g) = true <-> decaying4 J').
Proof.
  intros g w eta d v (G0 & G1 & G2) He A0 A1 A2 H.
  exists (triadJ (-1) g v (- (cos (v 3%nat) / sin (v 3%nat)))). split.
  { apply fixed_point_jacobian_exists; try assumption; lra. }
  intros J HJ.
  assert (HE := fixed_point_jacobian g w eta d v J He ltac:(lra) A0 A1 A2 H HJ).
  assert (DE : decaying4 J <-> decaying4 (triadJ (-1) g v (- (cos (v 3%nat) / sin (v 3%nat))))).
  { unfold decaying4. split; intros D l El; apply D; revert El; apply eigenvalue4_ext; intros; [|symmetry]; apply HE; assumption. }
  rewrite DE, triadJ_decaying_iff by lra. rewrite andb_true_iff, corrected_value_spec. unfold gamma_sum_stability. rewrite Rltb_spec.
  destruct (fixed_point_facts g w eta d v He ltac:(lra) A0 A1 A2 H) as (S & _ & _ & _ & E3).
  assert (Q : sum3 g < 0 -> d / sum3 g = - (cos (v 3%nat) / sin (v 3%nat))) by (intros; rewrite E3; field; lra).
  split; intros [X Y]; (split; [exact X|]); rewrite Q in * by exact X; assumption.
Qed.
Print Assumptions C36_accepted_iff_decaying.
(** A non-trivial instance: rates (1, -4, -4), unit frequencies, eta = 1/2, and the
    fixed point with q = 2 (the phase has tangent -1/2). *)
Example C36_case :
  let g := vec3 1 (-4) (-4) in let w := vec3 1 1 1 in
  let s := sqrt 5 in
  let Phi := - asin (1 / s) in
  let v := fun k => match k with 0%nat => 4 * s | 1%nat => 2 * s | 2%nat => 2 * s | _ => Phi end in
  parametric_signs g /\ (forall i, (i < 4)%nat -> ae3 g w (1/2) (2 * sum3 g) v i = 0) /\
  gamma_sum_stability g && corrected_dziembowski g (2 * sum3 g / sum3 g) = true.
Proof.
  assert (S5 : sqrt 5 * sqrt 5 = 5) by (apply sqrt_sqrt; lra). assert (P : 0 < sqrt 5) by (apply sqrt_lt_R0; lra).
  assert (P1 : 2 < sqrt 5) by nra.
  assert (B : -1 <= 1 / sqrt 5 <= 1).
  { split; [apply Rle_trans with 0; [lra|apply Rlt_le, Rdiv_lt_0_compat; lra]|].
    apply Rmult_le_reg_r with (sqrt 5); [lra|]. unfold Rdiv. rewrite Rmult_assoc, Rinv_l by lra. lra. }
  assert (S : sin (- asin (1 / sqrt 5)) = - (1 / sqrt 5)) by (rewrite sin_neg, sin_asin by exact B; reflexivity).
  assert (C : cos (- asin (1 / sqrt 5)) = 2 / sqrt 5).
  { rewrite cos_neg, cos_asin by exact B. unfold Rsqr. replace (1 - 1 / sqrt 5 * (1 / sqrt 5)) with ((2 / sqrt 5) * (2 / sqrt 5)).
    - apply sqrt_square. apply Rlt_le, Rdiv_lt_0_compat; lra.
    - replace (2 / sqrt 5 * (2 / sqrt 5)) with (4 / (sqrt 5 * sqrt 5)) by (field; lra).
      replace (1 / sqrt 5 * (1 / sqrt 5)) with (1 / (sqrt 5 * sqrt 5)) by (field; lra). rewrite S5. field. }
  cbv zeta. split; [unfold parametric_signs, vec3; repeat split; lra|]. split.
  - intros i Hi. destruct i as [|[|[|i]]]; unfold ae3, vec3, sum3; rewrite ?S, ?C; field_simplify; try lra.
  - apply andb_true_iff. unfold gamma_sum_stability. split; [apply Rltb_spec; unfold sum3, vec3; lra|].
    replace (2 * sum3 (vec3 1 (-4) (-4)) / sum3 (vec3 1 (-4) (-4))) with 2 by (unfold sum3, vec3; field; lra). apply C34_case.
Qed.

(** The hyperbolicity matrix the code builds is singular for every parametrically
    unstable triad with positive frequencies, so the check rejects every triad (in
    exact arithmetic); with all frequencies negated it would be right. *)
Theorem C36_hyperbolicity_always_fails :
  forall g w q eta, parametric_signs g -> 0 < w 0%nat -> 0 < w 1%nat -> 0 < w 2%nat -> q <> 0 -> eta <> 0 ->
  eigenvalue4 (jac4 g w q eta) 0 /\
  ~ check_hyperbolicity (eigenvalue4 (jac4 g w q eta)) (det4 (fun i j => RtoC (jac4 g w q eta i j))).
Proof.
  intros g w q eta (G0 & G1 & G2) W0 W1 W2 Hq He.
  destruct (jac4_form 1 g w q eta (or_introl eq_refl) G0 G1 G2 ltac:(lra) ltac:(lra) ltac:(lra) Hq He) as [N E].
  assert (Z : eigenvalue4 (jac4 g w q eta) 0).
  { apply (eigenvalue4_ext _ _ E). apply triadJ_plus_singular; apply N; auto. }
  split; [exact Z|]. intros [H _]. apply (H _ Z). reflexivity.
Qed.
Print Assumptions C36_hyperbolicity_always_fails.
Theorem C36_hyperbolicity_negated_frequencies :
  forall g w eta eta' d v J, parametric_signs g -> eta <> 0 -> eta' <> 0 -> d <> 0 -> sum3 g <> 0 ->
  0 < w 0%nat -> 0 < w 1%nat -> 0 < w 2%nat ->
  0 < v 0%nat -> 0 < v 1%nat -> 0 < v 2%nat -> (forall i, (i < 4)%nat -> ae3 g w eta d v i = 0) ->
  jacobian 4 (ae3 g w eta d) v J ->
  let M := jac4 g (fun i => - w i) (d / sum3 g) eta' in
  (forall l, eigenvalue4 M l <-> eigenvalue4 J l) /\
  (check_hyperbolicity (eigenvalue4 M) (det4 (fun i j => RtoC (M i j))) <-> hyperbolic4 J).
Proof.
  intros g w eta eta' d v J (G0 & G1 & G2) He He' Hd HG W0 W1 W2 A0 A1 A2 H HJ M.
  assert (HE := fixed_point_jacobian g w eta d v J He ltac:(lra) A0 A1 A2 H HJ).
  destruct (fixed_point_facts g w eta d v He ltac:(lra) A0 A1 A2 H) as (S & _ & _ & _ & E3).
  assert (Q : d / sum3 g = - (cos (v 3%nat) / sin (v 3%nat))) by (rewrite E3; field; split; assumption).
  assert (Hq : d / sum3 g <> 0) by (apply Rmult_integral_contrapositive_currified; [exact Hd|apply Rinv_neq_0_compat, HG]).
  destruct (jac4_form (-1) g (fun i => - w i) (d / sum3 g) eta' (or_intror eq_refl) G0 G1 G2 ltac:(lra) ltac:(lra) ltac:(lra) Hq He') as [N E].
  assert (L : forall l, eigenvalue4 M l <-> eigenvalue4 J l).
  { intros l. unfold M. rewrite (eigenvalue4_ext _ _ E), (eigenvalue4_ext _ _ HE). unfold eigenvalue4.
    rewrite triadJ_charpoly by (apply N; auto). rewrite triadJ_charpoly by lra. rewrite Q. reflexivity. }
  split; [exact L|]. unfold check_hyperbolicity, hyperbolic4. split.
  - intros [X _] l El. apply X, L, El.
  - intros X. split; [intros l El; apply X, L, El|]. intros Z. apply (X 0%C); [|reflexivity]. apply L. unfold eigenvalue4.
    transitivity (det4 (fun i j => RtoC (M i j))); [|exact Z]. apply det4_ext. intros i j _ _. unfold shifted.
    destruct (Nat.eqb i j); unfold Cminus; rewrite Copp_0, Cplus_0_r; reflexivity.
Qed.
Print Assumptions C36_hyperbolicity_negated_frequencies.

(** C37: harmonic (two-mode) resonances. Direct case: the test is exact. *)
Theorem C37_direct_test_exact :
  forall g k1 k2 d v, g 0%nat < 0 -> 0 < g 1%nat -> k1 <> 0 -> k2 <> 0 -> 0 < v 0%nat -> 0 < v 1%nat ->
  (forall i, (i < 3)%nat -> ae2 (g 0%nat) (g 1%nat) k1 k2 d v i = 0) ->
  exists J, jacobian 3 (ae2 (g 0%nat) (g 1%nat) k1 k2 d) v J /\
  forall J', jacobian 3 (ae2 (g 0%nat) (g 1%nat) k1 k2 d) v J' -> (two_mode_direct g = true <-> decaying3 J').
Proof.
  intros g k1 k2 d v G1 G2 K1 K2 A1 A2 H. eexists. split; [apply pair_jacobian_exists; try assumption; lra|].
  intros J HJ. assert (HE := pair_jacobian (g 0%nat) (g 1%nat) k1 k2 d v J ltac:(lra) K1 K2 A1 A2 H HJ).
  unfold two_mode_direct. rewrite Rltb_spec. unfold compute_theta. fold (theta_of (g 0%nat) (g 1%nat)).
  rewrite <- (pair_direct_iff (g 0%nat) (g 1%nat) (v 0%nat) (v 1%nat) (- (cos (v 2%nat) / sin (v 2%nat)))) by lra.
  symmetry. apply decaying3_ext, HE.
Qed.
Print Assumptions C37_direct_test_exact.
Example C37_direct_case : 
  let v := fun k => match k with 2%nat => PI / 2 | _ => 1 end in
  (forall i, (i < 3)%nat -> ae2 (-3) 1 3 1 0 v i = 0) /\ two_mode_direct (vec3 (-3) 1 1) = true /\ two_mode_direct (vec3 (-3) 2 2) = false.
Proof.
  cbv zeta. split; [|split].
  - intros i Hi. destruct i as [|[|i]]; unfold ae2; rewrite ?sin_PI2, ?cos_PI2; lra.
  - apply Rltb_spec. unfold compute_theta, vec3. lra.
  - apply not_true_iff_false. unfold two_mode_direct. rewrite Rltb_spec. unfold compute_theta, vec3. lra.
Qed.

(** Parametric case: the test never rejects a stable pair, but its detuning bound is
    inverted: at detuning q = 1 it accepts every pair with theta above the minimum, and
    none of them is stable. *)
Theorem C37_parametric_test :
  forall g k1 k2 d v J, 0 < g 0%nat -> g 1%nat < 0 -> k1 <> 0 -> k2 <> 0 -> 0 < v 0%nat -> 0 < v 1%nat ->
  (forall i, (i < 3)%nat -> ae2 (g 0%nat) (g 1%nat) k1 k2 d v i = 0) -> g 0%nat + 2 * g 1%nat <> 0 ->
  jacobian 3 (ae2 (g 0%nat) (g 1%nat) k1 k2 d) v J ->
  let q := d / (g 0%nat + 2 * g 1%nat) in let theta := - g 1%nat / g 0%nat in
  (decaying3 J <-> (1 + sqrt 3) / 2 < theta /\ (2 * theta * (theta - 1) + 1) / (2 * theta * (theta - 1) - 1) < q ^ 2) /\
  (decaying3 J -> two_mode_parametric g q = true) /\
  (q ^ 2 = 1 -> (1 + sqrt 3) / 2 < theta -> two_mode_parametric g q = true /\ ~ decaying3 J).
Proof.
  intros g k1 k2 d v J G1 G2 K1 K2 A1 A2 H HG HJ q theta.
  assert (HE := pair_jacobian (g 0%nat) (g 1%nat) k1 k2 d v J ltac:(lra) K1 K2 A1 A2 H HJ).
  destruct (pair_facts (g 0%nat) (g 1%nat) k1 k2 d v ltac:(lra) K1 K2 A1 A2 H) as (S & _ & _ & E3).
  assert (Q : q = - (cos (v 2%nat) / sin (v 2%nat))) by (unfold q; rewrite E3; field; split; assumption).
  assert (DE : decaying3 J <-> (1 + sqrt 3) / 2 < theta /\ (2 * theta * (theta - 1) + 1) / (2 * theta * (theta - 1) - 1) < q ^ 2).
  { transitivity (decaying3 (pairJ (g 0%nat) (g 1%nat) (v 0%nat) (v 1%nat) q)).
    - rewrite Q. apply decaying3_ext, HE.
    - rewrite pair_parametric_iff by lra. change (theta_of (g 0%nat) (g 1%nat)) with theta. rewrite min_theta_iff. split.
      + intros (X & Y & Z). split; [tauto|]. apply Rmult_lt_reg_r with (2 * theta * (theta - 1) - 1); [exact X|]. unfold Rdiv. rewrite Rmult_assoc, Rinv_l by lra. lra.
      + intros ((Y & X) & Z). split; [exact X|split; [exact Y|]]. apply Rmult_lt_compat_r with (r := 2 * theta * (theta - 1) - 1) in Z; [|exact X].
        unfold Rdiv in Z. rewrite Rmult_assoc, Rinv_l in Z by lra. lra. }
  assert (T : two_mode_parametric g q = true <-> (1 + sqrt 3) / 2 < theta /\ (2 * theta * (theta - 1) - 1) / (2 * theta * (theta - 1) + 1) < q ^ 2).
  { unfold two_mode_parametric. rewrite andb_true_iff, !Rltb_spec. reflexivity. }
  assert (C : (1 + sqrt 3) / 2 < theta -> (2 * theta * (theta - 1) - 1) / (2 * theta * (theta - 1) + 1) < 1 /\ 1 < (2 * theta * (theta - 1) + 1) / (2 * theta * (theta - 1) - 1)).
  { intros X. apply min_theta_iff in X. destruct X as [_ X]. set (n := 2 * theta * (theta - 1)) in *. split.
    - apply Rmult_lt_reg_r with (n + 1); [lra|]. unfold Rdiv. rewrite Rmult_assoc, Rinv_l by lra. lra.
    - apply Rmult_lt_reg_r with (n - 1); [lra|]. unfold Rdiv. rewrite Rmult_assoc, Rinv_l by lra. lra. }
  split; [exact DE|split].
  - rewrite DE, T. intros [X Y]. split; [exact X|]. destruct (C X). lra.
  - intros Hq X. destruct (C X). split; [apply T; split; [exact X|lra]|]. rewrite DE. intros [_ Y]. lra.
Qed.
Print Assumptions C37_parametric_test.
(** theta = 2, q = 1: a fixed point the test accepts although it is unstable. *)
Example C37_parametric_case :
  let v := fun k => match k with 0%nat => 2 * sqrt 2 | 1%nat => sqrt 2 * sqrt 2 | _ => - (PI / 4) end in
  (forall i, (i < 3)%nat -> ae2 1 (-2) 1 1 (- 3) v i = 0) /\ two_mode_parametric (vec3 1 (-2) (-2)) (- 3 / (1 + 2 * -2)) = true.
Proof.
  assert (S2 : sqrt 2 * sqrt 2 = 2) by (apply sqrt_sqrt; lra). assert (P : 0 < sqrt 2) by (apply sqrt_lt_R0; lra).
  cbv zeta. split.
  - assert (S2' : sqrt 2 ^ 2 = 2) by (simpl; rewrite Rmult_1_r; exact S2).
    intros i Hi. destruct i as [|[|i]]; unfold ae2; rewrite ?sin_neg, ?cos_neg, ?sin_PI4, ?cos_PI4, ?S2;
    field_simplify; try lra; rewrite ?S2'; try lra.
  - replace (-3 / (1 + 2 * -2)) with 1 by field. unfold two_mode_parametric, compute_theta, vec3. replace (- -2 / 1) with 2 by field. apply andb_true_iff. split; apply Rltb_spec; [|lra].
    assert (sqrt 3 < 3); [|lra]. assert (sqrt 3 * sqrt 3 = 3) by (apply sqrt_sqrt; lra). assert (0 < sqrt 3) by (apply sqrt_lt_R0; lra). nra.
Qed.

(** C81: the 3x3 matrix whose eigenvalues decide hyperbolicity of a harmonic pair.
    Its characteristic polynomial, for a harmonic triad (both daughters the same mode): *)
Theorem C81_harmonic_matrix_charpoly :
  forall a b w q eta l, 0 < a -> b < 0 -> 0 < w 0%nat -> 0 < w 1%nat -> q <> 0 -> eta <> 0 ->
  det3 (shifted (jac3 (vec3 a b b) w q eta) l) =
  (- (l * l * l + RtoC (- (2 * a + 3 * b)) * (l * l)
      + RtoC (a ^ 2 * (1 + q ^ 2) + (4 - sqrt 2) * a * b + 2 * b ^ 2 - 4 * q ^ 2 * a * b) * l
      + RtoC (a * b * ((sqrt 2 - 1) * (a + 2 * b) + q ^ 2 * ((3 - sqrt 2) * a + (2 + 2 * sqrt 2) * b)))))%C.
Proof.
  intros a b w q eta l A B W0 W1 Hq He. rewrite charpoly3.
  destruct (jac3_products (vec3 a b b) w q eta A B W0 W1 Hq He) as (P1 & P2 & P3 & P4 & P5).
  unfold cubic. set (M := jac3 (vec3 a b b) w q eta) in *.
  assert (D0 : M 0%nat 0%nat = a) by reflexivity. assert (D1 : M 1%nat 1%nat = b) by reflexivity. assert (D2 : M 2%nat 2%nat = a + b + b) by reflexivity.
  unfold vec3, sum3 in P1, P2, P3, P4, P5. 
  replace (- tr3 M) with (- (2 * a + 3 * b)) by (unfold tr3; rewrite D0, D1, D2; ring).
  replace (e3 M) with (a ^ 2 * (1 + q ^ 2) + (4 - sqrt 2) * a * b + 2 * b ^ 2 - 4 * q ^ 2 * a * b) by (unfold e3; rewrite P1, P2, P3, D0, D1, D2; ring).
  replace (- d3 M) with (a * b * ((sqrt 2 - 1) * (a + 2 * b) + q ^ 2 * ((3 - sqrt 2) * a + (2 + 2 * sqrt 2) * b))).
  - reflexivity.
  - unfold d3. rewrite D0, D1, D2.
    transitivity (- (a * (b * (a + b + b) - M 1%nat 2%nat * M 2%nat 1%nat) - (M 0%nat 1%nat * M 1%nat 0%nat * (a + b + b) - M 0%nat 1%nat * M 1%nat 2%nat * M 2%nat 0%nat)
      + (M 0%nat 2%nat * M 1%nat 0%nat * M 2%nat 1%nat - b * (M 0%nat 2%nat * M 2%nat 0%nat)))); [rewrite P1, P2, P3, P4, P5; ring|ring].
Qed.
(** finding: it is not the Jacobian of the harmonic amplitude equations in any coordinates: the sums of
    the eigenvalues (traces) differ by the daughter's rate, so the characteristic polynomials differ *)
Theorem C81_harmonic_matrix_is_not_the_jacobian :
  forall a b w q eta k1 k2 d v J, 0 < a -> b < 0 -> 0 < w 0%nat -> 0 < w 1%nat -> q <> 0 -> eta <> 0 ->
  k1 <> 0 -> k2 <> 0 -> 0 < v 0%nat -> 0 < v 1%nat ->
  (forall i, (i < 3)%nat -> ae2 a b k1 k2 d v i = 0) -> jacobian 3 (ae2 a b k1 k2 d) v J ->
  let M := jac3 (vec3 a b b) w q eta in
  M 0%nat 0%nat + M 1%nat 1%nat + M 2%nat 2%nat = J 0%nat 0%nat + J 1%nat 1%nat + J 2%nat 2%nat + b /\
  ~ (forall l, det3 (shifted M l) = det3 (shifted J l)).
Proof.
  intros a b w q eta k1 k2 d v J A B W0 W1 Hq He K1 K2 V0 V1 H HJ M.
  assert (HE := pair_jacobian a b k1 k2 d v J ltac:(lra) K1 K2 V0 V1 H HJ).
  assert (T : tr3 M = tr3 J + b).
  { unfold tr3. rewrite !HE by auto. unfold M, jac3, pairJ, vec3, sum3. ring. }
  split; [exact T|]. intros E.
  assert (L : forall x : R, - tr3 M * x ^ 2 + e3 M * x - d3 M = - tr3 J * x ^ 2 + e3 J * x - d3 J).
  { intros x. specialize (E (RtoC x)). rewrite !charpoly3 in E. unfold cubic in E.
    repeat (rewrite <- RtoC_mult in E || rewrite <- RtoC_plus in E || rewrite <- RtoC_opp in E). injection E as E. lra. }
  pose proof (L 0). pose proof (L 1). pose proof (L (-1)). lra.
Qed.
Example C81_case : exists v, 0 < v 0%nat /\ 0 < v 1%nat /\ forall i, (i < 3)%nat -> ae2 1 (-2) 1 1 (-3) v i = 0.
Proof.
  exists (fun k => match k with 0%nat => 2 * sqrt 2 | 1%nat => sqrt 2 * sqrt 2 | _ => - (PI / 4) end).
  assert (0 < sqrt 2) by (apply sqrt_lt_R0; lra). split; [lra|]. split; [nra|]. exact (proj1 C37_parametric_case).
Qed.
