(** * Properties C82-C86: quantities the analyzer derives from stored results. *)
From Coq Require Import Reals List ZArith Bool Lia Lra.
From Coquelicot Require Import Coquelicot.
From Verif Require Import Base Mask_Model Mask_Proofs Ana_Model Ana_Spec Stab_Spec Stab_Model Stab_Jac.
Import ListNotations.
Local Open Scope R_scope.

Definition fin (a b c : R) : trip := (Some a, Some b, Some c).
Lemma odiv_fin a b : b <> 0 -> odiv (Some a) (Some b) = Some (a / b).
Proof. intros H. cbn. destruct (Req_EM_T b 0); [contradiction|reflexivity]. Qed.
Lemma some_eq (x y : R) : x = y -> Some x = Some y. Proof. congruence. Qed.

(** ** C82: nonlinear frequencies *)
(** finite data, non-zero sum of rates: the nonlinear frequencies (cycles per day) are the inertial ones
    shifted by minus the detuning times the parent's share of the summed rate, respectively plus the
    detuning times the daughters' shares *)
Theorem C82_nonlinear_frequencies : forall w0 w1 w2 i0 i1 i2 g0 g1 g2, g0 + g1 + g2 <> 0 ->
  let d := w0 - w1 - w2 in let G := g0 + g1 + g2 in
  nonlinear_omegas_cpd (fin w0 w1 w2) (fin i0 i1 i2) (fin g0 g1 g2) =
  fin ((i0 - d * (g0 / G)) * seconds_per_day) ((i1 + d * (g1 / G)) * seconds_per_day) ((i2 + d * (g2 / G)) * seconds_per_day).
Proof.
  intros w0 w1 w2 i0 i1 i2 g0 g1 g2 HG d G. unfold nonlinear_omegas_cpd, freq_shift_p, freq_shift_d, gamma_boxplus, linear_omega_diff, hz_to_cpd, fin, seconds_per_day, cst.
  cbn [col fst snd osub oadd oopp option_map]. rewrite !odiv_fin by exact HG. cbn [omul oadd]. fold G. unfold d.
  f_equal; [f_equal|]; apply some_eq; field; exact HG.
Qed.
(** hence they are in exact resonance iff the rotational shifts cancel; they do when the azimuthal orders
    add up (m0 = m1 + m2) and each inertial frequency is the co-rotating one plus m times the rotation rate *)
Theorem C82_frequencies_lock : forall w0 w1 w2 i0 i1 i2 g0 g1 g2 n0 n1 n2, g0 + g1 + g2 <> 0 ->
  nonlinear_omegas_cpd (fin w0 w1 w2) (fin i0 i1 i2) (fin g0 g1 g2) = fin n0 n1 n2 ->
  (n0 = n1 + n2 <-> i0 - i1 - i2 = w0 - w1 - w2) /\
  forall Om m0 m1 m2, i0 = w0 + m0 * Om -> i1 = w1 + m1 * Om -> i2 = w2 + m2 * Om -> m0 = m1 + m2 -> n0 = n1 + n2.
Proof.
  intros w0 w1 w2 i0 i1 i2 g0 g1 g2 n0 n1 n2 HG H. rewrite C82_nonlinear_frequencies in H by exact HG.
  unfold fin in H. injection H as H0 H1 H2.
  assert (E : n0 - n1 - n2 = (i0 - i1 - i2 - (w0 - w1 - w2)) * seconds_per_day) by (rewrite <- H0, <- H1, <- H2; field; exact HG).
  assert (S : 0 < seconds_per_day) by (unfold seconds_per_day; lra).
  assert (K : n0 = n1 + n2 <-> i0 - i1 - i2 = w0 - w1 - w2).
  { split; intros X.
    - assert (Z : (i0 - i1 - i2 - (w0 - w1 - w2)) * seconds_per_day = 0) by lra. apply Rmult_integral in Z. destruct Z; lra.
    - replace (i0 - i1 - i2 - (w0 - w1 - w2)) with 0 in E by lra. lra. }
  split; [exact K|]. intros Om m0 m1 m2 E0 E1 E2 M. apply K. subst. ring.
Qed.
(** at every stationary solution of the amplitude equations these are the frequencies the modes really
    oscillate with: frequency minus rate of change of the amplitude's phase *)
Theorem C82_frequencies_of_the_stationary_solution : forall g w eta v om inert, eta <> 0 -> g 0%nat <> 0 -> sum3 g <> 0 ->
  0 < v 0%nat -> 0 < v 1%nat -> 0 < v 2%nat ->
  (forall i, (i < 4)%nat -> ae3 g w eta (om 0%nat - om 1%nat - om 2%nat) v i = 0) ->
  nonlinear_omegas_cpd (fin (om 0%nat) (om 1%nat) (om 2%nat)) (fin (inert 0%nat) (inert 1%nat) (inert 2%nat)) (fin (g 0%nat) (g 1%nat) (g 2%nat)) =
  let f := fun i => (inert i - phase_rate w eta v i) * seconds_per_day in fin (f 0%nat) (f 1%nat) (f 2%nat).
Proof.
  intros g w eta v om inert He Hg HG A0 A1 A2 H.
  destruct (fixed_point_facts g w eta _ v He Hg A0 A1 A2 H) as (S & W0 & W1 & W2 & D).
  rewrite C82_nonlinear_frequencies by exact HG. cbv zeta. unfold sum3 in *. rewrite D.
  unfold phase_rate. rewrite W0, W1, W2.
  unfold fin. f_equal; [f_equal|]; apply some_eq; field; repeat split; lra.
Qed.
(** without a usable sum of rates no nonlinear frequency is reported *)
Theorem C82_no_frequencies_without_net_rate : forall w inert g0 g1 g2, g0 + g1 + g2 = 0 ->
  nonlinear_omegas_cpd w inert (fin g0 g1 g2) = (None, None, None).
Proof.
  intros w inert g0 g1 g2 HG. unfold nonlinear_omegas_cpd, freq_shift_p, freq_shift_d, gamma_boxplus, fin.
  cbn [col fst snd oadd oopp option_map odiv]. destruct (Req_EM_T (g0 + g1 + g2) 0) as [_|N]; [|contradiction].
  assert (Z : forall x, oadd x (hz_to_cpd (omul (linear_omega_diff w) None)) = None) by (intros x; destruct (linear_omega_diff w), x; reflexivity).
  rewrite !Z. reflexivity.
Qed.
(** the reported relative shifts are (nonlinear - linear) / linear inertial frequency, whatever the unit *)
Theorem C82_relative_shifts : forall w0 w1 w2 i0 i1 i2 g0 g1 g2 n0 n1 n2, g0 + g1 + g2 <> 0 -> i0 <> 0 -> i1 <> 0 -> i2 <> 0 ->
  nonlinear_omegas_cpd (fin w0 w1 w2) (fin i0 i1 i2) (fin g0 g1 g2) = fin n0 n1 n2 ->
  shift_to_omega (fin w0 w1 w2) (fin i0 i1 i2) (fin g0 g1 g2) =
  fin (n0 / (i0 * seconds_per_day) - 1) (n1 / (i1 * seconds_per_day) - 1) (n2 / (i2 * seconds_per_day) - 1).
Proof.
  intros w0 w1 w2 i0 i1 i2 g0 g1 g2 n0 n1 n2 HG I0 I1 I2 H. rewrite C82_nonlinear_frequencies in H by exact HG. unfold fin in H. injection H as <- <- <-.
  assert (T : forall x, x <> 0 -> x * 10 ^ 6 <> 0) by (intros x Hx; apply Rmult_integral_contrapositive_currified; [exact Hx|apply pow_nonzero; lra]).
  unfold shift_to_omega, freq_shift_p, freq_shift_d, gamma_boxplus, linear_omega_diff, hz_to_muhz, fin, cst, seconds_per_day.
  cbn [col fst snd osub oadd oopp option_map]. rewrite !odiv_fin by exact HG. cbn [omul]. rewrite !odiv_fin by (apply T; assumption).
  f_equal; [f_equal|]; apply some_eq; field; repeat split; try assumption; apply pow_nonzero; lra.
Qed.
Example C82_case : let g := vec3 1 (-1) (-1) in let w := vec3 1 1 1 in
  let v := fun k => match k with 3%nat => - (PI / 4) | _ => 1 end in
  sqrt 2 / 2 <> 0 /\ sum3 g <> 0 /\ forall i, (i < 4)%nat -> ae3 g w (sqrt 2 / 2) (w 0%nat - w 1%nat - w 2%nat) v i = 0.
Proof.
  assert (S2 : sqrt 2 * sqrt 2 = 2) by (apply sqrt_sqrt; lra). assert (P : 0 < sqrt 2) by (apply sqrt_lt_R0; lra).
  cbv zeta. split; [lra|]. split; [unfold sum3, vec3; lra|].
  assert (A : sin (- (PI / 4)) = - (sqrt 2 / 2)).
  { rewrite sin_neg, sin_PI4. f_equal. apply Rmult_eq_reg_r with (2 * sqrt 2); [|lra]. field_simplify; [|lra]. simpl. lra. }
  assert (B : cos (- (PI / 4)) = sqrt 2 / 2).
  { rewrite cos_neg, cos_PI4. apply Rmult_eq_reg_r with (2 * sqrt 2); [|lra]. field_simplify; [|lra]. simpl. lra. }
  intros i Hi. destruct i as [|[|[|i]]]; unfold ae3, vec3; rewrite ?A, ?B; nra.
Qed.

(** ** C83: threshold luminosities in ppm *)
(** a threshold luminosity is reported exactly for parametric triads whose equilibrium amplitude is a
    non-zero number (and whose other data are numbers); it is the critical amplitude times the
    luminosity per unit amplitude of the equilibrium solution, in parts per million *)
Theorem C83_threshold_luminosity : forall par surf0 th0 thr x,
  thresh_surf_ppm par surf0 th0 thr = Some x <->
  par = true /\ exists s a c, surf0 = Some s /\ th0 = Some a /\ thr = Some c /\ a <> 0 /\ x = c * (s / a) * 10 ^ 6.
Proof.
  intros par surf0 th0 thr x. unfold thresh_surf_ppm, cst. split.
  - destruct par; cbn [andb]; [|destruct thr; discriminate]. destruct th0 as [a|]; cbn [isnan oiszero orb negb]; [|destruct thr; discriminate].
    destruct (Req_EM_T a 0) as [|Na]; cbn [negb]; [destruct thr; discriminate|]. destruct surf0 as [s|]; cbn [odiv]; [|destruct thr; discriminate].
    destruct (Req_EM_T a 0) as [|_]; [contradiction|]. destruct thr as [c|]; cbn [omul]; [|discriminate]. intros X. injection X as <-. split; [reflexivity|]. exists s, a, c. auto.
  - intros (-> & s & a & c & -> & -> & -> & Na & ->). cbn [andb isnan oiszero orb negb]. destruct (Req_EM_T a 0) as [|_]; [contradiction|]. cbn [negb].
    rewrite odiv_fin by exact Na. reflexivity.
Qed.
(** when luminosity is proportional to amplitude this is the luminosity of the critical amplitude *)
Theorem C83_proportional_luminosity : forall k a c, a <> 0 ->
  thresh_surf_ppm true (Some (k * a)) (Some a) (Some c) = Some (k * c * 10 ^ 6).
Proof. intros k a c Na. apply C83_threshold_luminosity. split; [reflexivity|]. exists (k * a), a, c. repeat split; try assumption. field. exact Na. Qed.

(** ** C84: amplitude ratios *)
Theorem C84_parametric_ratios : forall s1 s2 s3, s1 <> 0 ->
  fst (amp_ratios true false (fin s1 s2 s3)) = (Some (s2 / s1), Some (s3 / s1)) /\
  (s2 * s3 <> 0 -> snd (amp_ratios true false (fin s1 s2 s3)) = Some (s1 / (s2 * s3))).
Proof.
  intros s1 s2 s3 H1. unfold amp_ratios, compute_single_amplitude_ratio, fin. cbn [col fst snd omul oiszero isnan]. split.
  - destruct (Req_EM_T s1 0); [contradiction|]. cbn [orb negb andb]. rewrite !andb_false_r. rewrite !odiv_fin by assumption. reflexivity.
  - intros H. rewrite !andb_false_r. destruct (Req_EM_T (s2 * s3) 0); [contradiction|]. cbn [orb negb andb]. apply odiv_fin. assumption.
Qed.
(** direct triads: parent over daughter *)
Theorem C84_direct_ratios : forall s1 s2 s3, s2 <> 0 -> s3 <> 0 ->
  amp_ratios false true (fin s1 s2 s3) = (Some (s1 / s2), Some (s1 / s3), Some (s1 / (s2 * s3))).
Proof.
  intros s1 s2 s3 H2 H3. assert (H : s2 * s3 <> 0) by (apply Rmult_integral_contrapositive_currified; assumption).
  unfold amp_ratios, compute_single_amplitude_ratio, fin. cbn [col fst snd omul oiszero isnan]. rewrite !andb_false_r.
  destruct (Req_EM_T s2 0); [contradiction|]. destruct (Req_EM_T s3 0); [contradiction|]. destruct (Req_EM_T (s2 * s3) 0); [contradiction|].
  cbn [orb negb andb]. rewrite !odiv_fin by assumption. reflexivity.
Qed.
(** triads that are neither have no ratios; a ratio is never computed with a zero or NaN denominator, and
    without a usable denominator for either kind it stays NaN *)
Theorem C84_no_ratio_for_other_triads : forall s, amp_ratios false false s = (None, None, None).
Proof. intros s. unfold amp_ratios, compute_single_amplitude_ratio. rewrite !andb_false_r. reflexivity. Qed.
Theorem C84_no_ratio_without_denominator : forall par dir s2 s3 s1, (s1 = None \/ s1 = Some 0) ->
  par = true -> dir = false -> fst (amp_ratios par dir (s1, s2, s3)) = (None, None).
Proof.
  intros par dir s2 s3 s1 H -> ->. unfold amp_ratios, compute_single_amplitude_ratio. cbn [col fst snd]. rewrite !andb_false_r.
  destruct H as [-> | ->]; cbn [oiszero isnan orb negb andb]; [reflexivity|]. destruct (Req_EM_T 0 0) as [_|N]; [reflexivity|congruence].
Qed.

(** ** C85: detuning, rotation, spin and validity estimators *)
Theorem C85_relative_detuning : forall w0 w1 w2 m, smallest m (Rabs w0) (Rabs w1) (Rabs w2) -> m <> 0 ->
  linear_omega_diff_to_min_omega (fin w0 w1 w2) = Some ((w0 - w1 - w2) / m).
Proof.
  intros w0 w1 w2 m (E & L0 & L1 & L2) Hm. unfold linear_omega_diff_to_min_omega, linear_omega_diff, fin. cbn [col fst snd osub omin oabs option_map].
  assert (M : Rmin (Rmin (Rabs w0) (Rabs w1)) (Rabs w2) = m).
  { unfold Rmin. repeat destruct (Rle_dec _ _); destruct E as [E|[E|E]]; lra. }
  rewrite M. apply odiv_fin. exact Hm.
Qed.
(** the AE-validity mask therefore keeps a triad iff the detuning is at most a tenth of the smallest frequency *)
Theorem C85_validity_test : forall w0 w1 w2 m, smallest m (Rabs w0) (Rabs w1) (Rabs w2) -> m <> 0 ->
  (oleb (oabs (linear_omega_diff_to_min_omega (fin w0 w1 w2))) (Some (1/10)) = true <-> Rabs (w0 - w1 - w2) <= m / 10).
Proof.
  intros w0 w1 w2 m Hs Hm. rewrite (C85_relative_detuning w0 w1 w2 m Hs Hm). cbn. rewrite dleb_spec.
  assert (Pm : 0 < m). { destruct Hs as ([E|[E|E]] & _); subst m; pose proof (Rabs_pos w0); pose proof (Rabs_pos w1); pose proof (Rabs_pos w2); lra. }
  unfold Rdiv at 1. rewrite Rabs_mult, (Rabs_right (/ m)) by (apply Rle_ge, Rlt_le, Rinv_0_lt_compat, Pm). split; intros H.
  - apply Rmult_le_compat_r with (r := m) in H; [|lra]. rewrite Rmult_assoc, Rinv_l in H by lra. lra.
  - apply Rmult_le_reg_r with m; [exact Pm|]. rewrite Rmult_assoc, Rinv_l by lra. lra.
Qed.
(** finding: rotation and spin are derived from the first daughter assuming its azimuthal order is 1; in
    general they are m1 times the rotation rate and m1 times the spin parameters 2 Omega / omega *)
Theorem C85_spin_parameters : forall w0 w1 w2 i0 i2 m1 Om, w0 <> 0 -> w1 <> 0 -> w2 <> 0 ->
  let corot := fin w0 w1 w2 in let inert := fin i0 (w1 + m1 * Om) i2 in
  rotation_freq corot inert = Some (m1 * Om) /\
  spin_parameters corot inert = fin (m1 * (2 * Om / w0)) (m1 * (2 * Om / w1)) (m1 * (2 * Om / w2)).
Proof.
  intros w0 w1 w2 i0 i2 m1 Om H0 H1 H2 corot inert.
  assert (E : rotation_freq corot inert = Some (m1 * Om)) by (unfold rotation_freq, corot, inert, fin; cbn; apply some_eq; ring).
  split; [exact E|]. unfold spin_parameters, map3. rewrite E. unfold corot, fin, cst. cbn [col fst snd omul]. rewrite !odiv_fin by assumption.
  f_equal; [f_equal|]; apply some_eq; field; assumption.
Qed.
(** validity estimators: detuning over summed, parent and second daughter's rates, and damping-to-driving
    ratios; they do not depend on the unit of frequency and satisfy theta2 + theta3 = 1 - gamma_sum/gamma_1,
    so for a driven parent they add up to more than one iff the summed rate is negative *)
Theorem C85_validity_estimators : forall w0 w1 w2 g0 g1 g2, g0 <> 0 -> g2 <> 0 -> g0 + g1 + g2 <> 0 ->
  let d := w0 - w1 - w2 in let G := g0 + g1 + g2 in
  let e := validity_estimators (fin w0 w1 w2) (fin g0 g1 g2) in
  est_q e = Some (d / G) /\ est_q1 e = Some (d / g0) /\ est_q3 e = Some (d / g2) /\
  est_theta2 e = Some (- g1 / g0) /\ est_theta3 e = Some (- g2 / g0) /\ est_theta23 e = Some (g1 / g2) /\
  est_gamma_sum e = Some (G * seconds_per_day) /\ gamma_sum_cpd (fin g0 g1 g2) = est_gamma_sum e /\
  - g1 / g0 + - g2 / g0 = 1 - G / g0 /\ (0 < g0 -> (1 < - g1 / g0 + - g2 / g0 <-> G < 0)).
Proof.
  intros w0 w1 w2 g0 g1 g2 H0 H2 HG d G e.
  assert (C0 : g0 * 86400 <> 0) by (apply Rmult_integral_contrapositive_currified; lra). assert (C2 : g2 * 86400 <> 0) by (apply Rmult_integral_contrapositive_currified; lra).
  assert (CG : g0 * 86400 + (g1 * 86400 + g2 * 86400) <> 0) by (replace (g0 * 86400 + (g1 * 86400 + g2 * 86400)) with ((g0 + g1 + g2) * 86400) by ring; apply Rmult_integral_contrapositive_currified; lra).
  assert (T : - g1 / g0 + - g2 / g0 = 1 - G / g0) by (unfold G; field; exact H0).
  unfold e, validity_estimators, hz_to_cpd, linear_omega_diff, gamma_sum_cpd, hz_to_cpd, fin, cst. cbn [col fst snd omul osub oadd oopp option_map est_q est_q1 est_q3 est_theta2 est_theta3 est_theta23 est_gamma_sum].
  rewrite !odiv_fin by assumption. unfold d, G, seconds_per_day.
  repeat (split; [apply some_eq; field; repeat split; try assumption; lra|]).
  split; [exact T|]. intros P. fold G. rewrite T. split; intros X.
  - assert (Y : G / g0 < 0) by lra. apply Rmult_lt_compat_r with (r := g0) in Y; [|exact P]. unfold Rdiv in Y. rewrite Rmult_assoc, Rinv_l in Y by exact H0. lra.
  - assert (G / g0 < 0); [|lra]. apply Rmult_lt_reg_r with g0; [exact P|]. unfold Rdiv. rewrite Rmult_assoc, Rinv_l by exact H0. lra.
Qed.
Theorem C85_quality_factor : forall w0 w1 w2 g0 g1 g2, g0 <> 0 -> p_quality_factor (fin w0 w1 w2) (fin g0 g1 g2) = Some (w0 / g0).
Proof. intros. apply odiv_fin. assumption. Qed.
Example C85_case : smallest 1 (Rabs 3) (Rabs (-1)) (Rabs 2) /\ (1 : R) <> 0.
Proof. rewrite (Rabs_left (-1)), !Rabs_right by lra. unfold smallest. repeat split; lra. Qed.

(** ** C86: reported counts *)
Lemma count_split c m l : (fst (split_count c m l) + snd (split_count c m l) = count c l)%nat.
Proof.
  unfold split_count, count. cbn. induction l as [|r l IH]; [reflexivity|]. cbn. destruct (m r), (c r); cbn; lia.
Qed.
Lemma count_le f g l : (forall r, In r l -> f r = true -> g r = true) -> (count f l <= count g l)%nat.
Proof.
  unfold count. induction l as [|r l IH]; intros H; [reflexivity|]. cbn. assert (IH' := IH (fun r Hr => H r (or_intror Hr))).
  specialize (H r (or_introl eq_refl)). destruct (f r); [rewrite H by reflexivity; cbn; lia|]. destruct (g r); cbn; lia.
Qed.
(** the triads with and without each mask add up to the triads satisfying both conditions; triads with
    large ratios split into those with q > Q1 and the others; nothing exceeds the number of triads; and
    when the combined masks are the conjunctions of the single ones, so are the counts ordered *)
Theorem C86_counts_add_up : forall l, let c := model_counts l in
  (fst (n_stab c) + snd (n_stab c) = n_both c /\ fst (n_ae c) + snd (n_ae c) = n_both c /\ fst (n_iso c) + snd (n_iso c) = n_both c /\
   fst (n_val c) + snd (n_val c) = n_both c /\ fst (n_stab_val c) + snd (n_stab_val c) = n_both c /\
   fst (n_ae_ratios c) + snd (n_ae_ratios c) = n_ratios c /\ n_both c + n_ratio_not_q c = n_ratios c /\
   n_both c <= n_q c /\ n_ratios c <= n_triads c /\ n_q c <= n_triads c)%nat /\
  ((forall r, In r l -> c_val r = c_ae r && c_iso r) -> (fst (n_val c) <= fst (n_ae c) /\ fst (n_val c) <= fst (n_iso c))%nat) /\
  ((forall r, In r l -> c_stab_val r = c_stab r && c_ae r && c_iso r) -> (fst (n_stab_val c) <= fst (n_stab c))%nat).
Proof.
  intros l c. unfold c, model_counts. cbn [n_stab n_ae n_iso n_val n_stab_val n_ae_ratios n_both n_ratios n_triads n_q n_ratio_not_q].
  assert (T : forall f, (count f l <= List.length l)%nat) by (intros f; clear; unfold count; induction l as [|r l' IH]; [reflexivity|]; cbn; destruct (f r); cbn; lia).
  split; [|split].
  - rewrite !count_split. repeat split; auto.
    + pose proof (count_split both_larger qm l) as E. unfold split_count in E. cbn [fst snd] in E. exact E.
    + apply count_le. intros r _. unfold both_conditions. intros H. apply andb_true_iff in H. apply H.
  - intros H. split; apply count_le; intros r Hr X; apply andb_true_iff in X; destruct X as [X Y]; rewrite (H r Hr) in X; apply andb_true_iff in X; destruct X as [X X']; rewrite Y; [rewrite X|rewrite X']; reflexivity.
  - intros H. apply count_le. intros r Hr X. apply andb_true_iff in X. destruct X as [X Y]. rewrite (H r Hr) in X. rewrite !andb_true_iff in X. destruct X as [[X _] _]. rewrite X, Y. reflexivity.
Qed.
(** what is counted: q above the parent's quality factor, both ratios above one *)
Theorem C86_conditions : forall r, (both_larger r = true <-> exists a b, c_ratio1 r = Some a /\ c_ratio2 r = Some b /\ 1 < a /\ 1 < b) /\
  (qm r = true <-> exists q Q, c_q r = Some q /\ c_Q1 r = Some Q /\ Q < q).
Proof.
  intros r. unfold both_larger, qm. split.
  - rewrite andb_true_iff. destruct (c_ratio1 r) as [a|], (c_ratio2 r) as [b|]; cbn; rewrite ?dltb_spec; split; try (intros [? ?]; discriminate); try (intros (x & y & X & Y & _); discriminate).
    + intros [A B]. exists a, b. auto.
    + intros (x & y & X & Y & A & B). injection X as <-. injection Y as <-. auto.
  - destruct (c_q r) as [q|], (c_Q1 r) as [Q|]; cbn; rewrite ?dltb_spec; split; try discriminate; try (intros (x & y & X & Y & _); discriminate).
    + intros A. exists q, Q. auto.
    + intros (x & y & X & Y & A). injection X as <-. injection Y as <-. auto.
Qed.
(** finding: models beyond the number of names (seven by default) are silently left out of all reports *)
Theorem C86_reports_only_named_models : forall (N : Type) (names : list N) data,
  List.length (all_counts names data) = Nat.min (List.length names) (List.length data) /\
  forall k n c, nth_error (all_counts names data) k = Some (n, c) <->
    exists l, nth_error names k = Some n /\ nth_error data k = Some l /\ c = model_counts l.
Proof.
  intros N names data. unfold all_counts. split; [rewrite map_length, combine_length; reflexivity|].
  intros k n c. rewrite nth_error_map. revert data k. induction names as [|x names IH]; intros data k.
  - cbn. destruct k; cbn; split; try discriminate; intros (l & X & _); discriminate.
  - destruct data as [|y data]; [cbn; destruct k; cbn; split; try discriminate; intros (l & _ & X & _); discriminate|]. destruct k as [|k]; [|exact (IH data k)].
    cbn. split; [intros X; injection X as <- <-; exists y; auto|]. intros (l & X & Y & ->). injection X as <-. injection Y as <-. reflexivity.
Qed.
Example C86_case : let t := CRow (Some 2) (Some 2) (Some 5) (Some 1) true false true false false in
  n_both (model_counts [t; t]) = 2%nat /\ n_stab (model_counts [t; t]) = (2, 0)%nat.
Proof.
  cbv zeta. unfold model_counts, split_count, count, both_conditions, qm, both_larger. cbn.
  unfold dltb. repeat (destruct (Rlt_dec _ _); try lra). split; reflexivity.
Qed.
