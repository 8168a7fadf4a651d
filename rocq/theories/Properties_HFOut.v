(** * C189: the Hough functions of a triad on the coupling object. *)
From Coq Require Import Reals List ZArith Bool String Ascii Lia Lra.
From Coquelicot Require Import Coquelicot.
From Verif Require Import Base Py NumInt_Model NumInt_Proofs Hough_Model Hough_Spec Hough_Proofs Hough_Inverse Hough_Main HFOut_Model HFOut_Spec HFOut_Proofs Properties_Hough.
Import ListNotations.
Local Open Scope string_scope.

Lemma zipped_in ls ms nus lams i l m nu lmb : (1 <= i <= 3)%nat -> nth_error ls (i - 1) = Some l -> nth_error ms (i - 1) = Some m ->
  nth_error nus (i - 1) = Some nu -> nth_error lams (i - 1) = Some lmb -> In (i, (l, m, nu, lmb)) (zipped ls ms nus lams).
Proof.
  intros Hi L M N Q. unfold zipped.
  assert (C : forall A B (a : list A) (b : list B) k x y, nth_error a k = Some x -> nth_error b k = Some y -> nth_error (combine a b) k = Some (x, y)).
  { clear. intros A B a. induction a as [|x0 a IH]; intros b k x y P R; [destruct k; discriminate|]. destruct b as [|y0 b]; [destruct k; discriminate|].
    destruct k as [|k]; cbn in *; [congruence|]. apply IH; assumption. }
  apply (nth_error_In _ (i - 1)). apply C.
  - destruct i as [|[|[|[|i]]]]; try lia; reflexivity.
  - apply C; [apply C; [apply C; assumption|assumption]|assumption].
Qed.
Lemma zipped_idx ls ms nus lams : (forall i, In i (map fst (zipped ls ms nus lams)) -> (1 <= i <= 3)%nat) /\ NoDup (map fst (zipped ls ms nus lams)).
Proof.
  unfold zipped. set (q := combine (combine (combine ls ms) nus) lams). destruct q as [|a [|b [|c q]]]; cbn; split; try (intros i H; lia);
    repeat (constructor; [cbn; intuition lia|]); try constructor.
Qed.
Section World.
Variables (X : invs) (eig : mat -> list epair) (npts : nat) (uc : bool).
Notation run := (store_houghs X eig npts uc).
Lemma run_inv ls ms nus lams s s' : run ls ms nus lams s = (s', Ok tt) ->
  exists s1 o, o_h o = Nat.div npts 2 /\ s' = setattr (setattr s1 "_mu_values" (mu_full (o_h o))) "_theta_values" (thetas_range o) /\
    forall i md, In (i, md) (zipped ls ms nus lams) -> exists o r, mode_run X eig npts uc md o r /\ forall n v, In (n, v) (dict o r) -> s' (attribute n i) = Some v.
Proof.
  unfold store_houghs. destruct (store_loop X eig npts uc (zipped ls ms nus lams) None s) as [s1 [last| |e]] eqn:E; try discriminate.
  destruct (zipped_idx ls ms nus lams) as [B N]. destruct (loop_ok X eig npts uc _ _ _ _ _ N B E) as (A1 & A2 & A3).
  destruct last as [[mu th]|]; [|discriminate]. intros H. injection H as <-.
  destruct (zipped ls ms nus lams) as [|x l] eqn:Z; [specialize (A2 eq_refl); discriminate|].
  destruct A3 as (o & Ho & Eo); [discriminate|]. injection Eo as -> ->. exists s1, o. split; [exact Ho|]. split; [reflexivity|].
  intros i md I. destruct (A1 i md I) as (o2 & r & RU & V). exists o2, r. split; [exact RU|]. intros n v Iv. unfold setattr.
  destruct (String.eqb_spec (attribute n i) "_theta_values") as [Q|_]; [exfalso; exact (attr_theta _ _ Q)|].
  destruct (String.eqb_spec (attribute n i) "_mu_values") as [Q|_]; [exfalso; exact (attr_mu _ _ Q)|]. apply V. exact Iv.
Qed.
(** the object and the result of mode i *)
Lemma mode_inv ls ms nus lams s s' i l m nu : run ls ms nus lams s = (s', Ok tt) -> (1 <= i <= 3)%nat ->
  nth_error ls (i - 1) = Some l -> nth_error ms (i - 1) = Some m -> nth_error nus (i - 1) = Some nu -> (i <= List.length lams)%nat ->
  exists o o1 r, o_nu o = nu /\ o_l o = l /\ o_m o = m /\ o_h o = Nat.div npts 2 /\ o_ins o = LEE_SAIO /\ hf_call X eig o = Ok o1 /\ o_res o1 = Some r /\
    forall n v, In (n, v) (dict o r) -> attribute_of s' n i v.
Proof.
  intros H Hi L M N Q. destruct (nth_error lams (i - 1)) as [lmb|] eqn:EL. 2: { apply nth_error_None in EL. lia. }
  destruct (run_inv _ _ _ _ _ _ H) as (_ & _ & _ & _ & A). destruct (A i _ (zipped_in _ _ _ _ i l m nu lmb Hi L M N EL)) as (o1 & r & (lmb1 & o & F1 & I & C & R) & V).
  exists o, o1, r. pose proof (init_fields _ _ _ _ _ _ _ _ _ I) as (I1 & I2 & I3 & I4). repeat (split; [assumption|]).
  split. { unfold init in I. match type of I with (bind ?x _ = _) => destruct x as [l1| |]; cbn [bind] in I; try discriminate end. change (get_instructions "lee_saio_equivalent") with (Ok LEE_SAIO) in I. cbn [bind] in I. injection I as <-. reflexivity. }
  split; [exact C|]. split; [exact R|]. intros n v Iv. assert (V' : s' (attribute n i) = Some v).
  { apply V. unfold hf_call in C. destruct (estimate o) as [e| |]; cbn [bind] in C; try discriminate. destruct (argmin e _) as [p| |]; cbn [bind] in C; try discriminate. injection C as <-. exact Iv. }
  unfold attribute_of. unfold attribute in V'. destruct i as [|[|[|[|i]]]]; try lia; (eexists; split; [reflexivity|]; split; [lia|exact V']).
Qed.
Local Open Scope R_scope.
(** the stored arrays of mode i are samples, on the whole grid, of a radial function of the parity of l - m, of the horizontal components that
    belong to it, and of their derivatives.  Names: theta_der_hr and theta_der_ht are derivatives with respect to mu, not theta; the theta
    derivatives have a further _theta. *)
Theorem C189_stored_functions : forall ls ms nus lams s s' i l m nu,
  run ls ms nus lams s = (s', Ok tt) -> (1 <= i <= 3)%nat ->
  nth_error ls (i - 1) = Some l -> nth_error ms (i - 1) = Some m -> nth_error nus (i - 1) = Some nu -> (i <= List.length lams)%nat ->
  tidal_problem_ok X eig nu l m npts ->
  let h := Nat.div npts 2 in
  exists F F1 F2 Ht Hp hr dhr dhr_theta ht dht dht_theta hp mhr tp pp,
    attribute_of s' "hr" i hr /\ attribute_of s' "theta_der_hr" i dhr /\ attribute_of s' "theta_der_hr_theta" i dhr_theta /\
    attribute_of s' "ht" i ht /\ attribute_of s' "theta_der_ht" i dht /\ attribute_of s' "theta_der_ht_theta" i dht_theta /\
    attribute_of s' "hp" i hp /\ attribute_of s' "mhr" i mhr /\ attribute_of s' "theta_phi" i tp /\ attribute_of s' "phi_phi" i pp /\
    derivatives F F1 F2 /\ (forall y, F (- y) = (if Z.even (l - m) then 1 else -1) * F y) /\
    (forall x, -1 < x < 1 -> Ht x = Ht_of nu (IZR m) F F1 x /\ Hp x = - Hp_of nu (IZR m) F F1 x) /\
    samples h hr F /\ samples h dhr F1 /\ theta_derivative_samples h dhr_theta F /\
    samples h ht Ht /\ derivative_samples h dht Ht /\ theta_derivative_samples h dht_theta Ht /\
    samples h hp Hp /\
    (forall j, (j < 2 * h)%nat -> let x := mu_full h j in
       mhr j = - IZR m * hr j /\ tp j = IZR m * ht j - x * hp j /\ pp j = (x * ht j - IZR m * hp j) / sqrt (1 - x ^ 2)).
Proof.
  intros ls ms nus lams s s' i l m nu H Hi L M N Q W h.
  destruct (mode_inv _ _ _ _ _ _ i l m nu H Hi L M N Q) as (o & o1 & r & O1 & O2 & O3 & O4 & O5 & C & R & V).
  destruct (C48_hemispheres_agree X eig o o1 (W o O1 O2 O3 O4) C) as (r' & F & F1 & F2 & Ht & Hp & R' & (RF1 & RF2 & RF3 & RF4) & S1 & S2 & S3 & S4 & S5 & S6 & S7).
  assert (r' = r) by congruence. subst r'. subst l m nu. fold h in O4. rewrite O4 in RF3, RF4, S1, S2, S3, S4, S5, S7.
  exists F, F1, F2, Ht, Hp, (hr_range o r), (hrp_range o r), (hrp_range_theta o r), (ht_range o r), (htp_range o r), (htp_range_theta o r), (hp_range o r), (hr_range_m o r), (theta_phi o r), (phi_phi o r).
  repeat (split; [apply V; cbn; tauto|]). split; [exact RF1|]. split; [exact RF2|]. split.
  { intros x Hx. destruct (S6 x Hx) as (A & B & _). rewrite O5 in A, B. cbn [LEE_SAIO sin_factor adjust_phi_sign] in A, B. rewrite A, B. split; ring. }
  repeat (split; [assumption|]). exact S7.
Qed.
(** the radial function solves the tidal equation of the mode at every grid point, its eigenvalue is the computed real negative one nearest to minus the
    mode's estimate (to -l(l+1) without one), and its largest absolute value on the grid is 1 *)
Theorem C189_tidal_equation : forall ls ms nus lams s s' i l m nu lmb,
  run ls ms nus lams s = (s', Ok tt) -> (1 <= i <= 3)%nat ->
  nth_error ls (i - 1) = Some l -> nth_error ms (i - 1) = Some m -> nth_error nus (i - 1) = Some nu -> nth_error lams (i - 1) = Some lmb ->
  tidal_problem_ok X eig nu l m npts ->
  let h := Nat.div npts 2 in
  exists o, o_nu o = nu /\ o_l o = l /\ o_m o = m /\ o_h o = h /\
  exists F F1 F2 hr dhr est ev v,
    attribute_of s' "hr" i hr /\ attribute_of s' "theta_der_hr" i dhr /\
    derivatives F F1 F2 /\ samples h hr F /\ samples h dhr F1 /\
    match lmb with
    | None => est = - (IZR l * (IZR l + 1))
    | Some (LFloat x) | Some (LList (x :: _)) => est = - x
    | Some (LList []) => False
    end /\
    nearest_negative (eig (colloc_matrix X o)) est ev v /\
    (forall j, (j < 2 * h)%nat -> tidal_equation nu (IZR m) F F1 ev (mu_full h j)) /\
    (forall j, (j < 2 * h)%nat -> Rabs (hr j) <= 1) /\ exists j, (j < 2 * h)%nat /\ Rabs (hr j) = 1.
Proof.
  intros ls ms nus lams s s' i l m nu lmb H Hi L M N Q W h.
  destruct (run_inv _ _ _ _ _ _ H) as (_ & _ & _ & _ & A). destruct (A i _ (zipped_in _ _ _ _ i l m nu lmb Hi L M N Q)) as (o1 & r & (lmb1 & o & F1' & I & C & R) & V).
  destruct (C72_construction nu l m npts lmb1 uc "lee_saio_equivalent" true) as [(o2 & I2 & O1 & O2 & O3 & O4 & O5 & O6 & _)|[(_ & _ & I2)|(_ & I2)]]; rewrite I2 in I; try discriminate.
  injection I as ->. exists o. fold h in O4. repeat (split; [assumption|]).
  pose proof (W o O1 O2 O3 O4) as WP. destruct (C50_radial_function_solves_tidal_equation X eig o o1 WP C) as (r' & F & F1 & F2 & R' & (RF1 & _ & RF3 & RF4) & TE).
  assert (r' = r) by congruence. subst r'.
  assert (E : exists est, wanted o est /\ match lmb with None => est = - (IZR l * (IZR l + 1)) | Some (LFloat x) | Some (LList (x :: _)) => est = - x | Some (LList []) => False end).
  { unfold wanted. rewrite O5, O6, O2. destruct lmb as [[x|[|x xs]]|]; cbn in F1'; try discriminate; injection F1' as <-; eexists; (split; reflexivity). }
  destruct E as (est & WA & WE). destruct WP as (WP1 & WP2 & WP3 & WP4).
  destruct (C72_nearest_negative_eigenvalue X eig o est WA) as (S1 & _). destruct (S1 WP3 o1 C) as (r' & v & c & R2 & NN & _ & _ & _ & B1 & B2).
  assert (r' = r) by congruence. subst r'. rewrite O4, ?O1, ?O3 in *.
  assert (V' : forall n a, In (n, a) (dict o r) -> attribute_of s' n i a).
  { intros n a Ia. assert (V' : s' (attribute n i) = Some a).
    { apply V. unfold hf_call in C. destruct (estimate o) as [e| |]; cbn [bind] in C; try discriminate. destruct (argmin e _) as [p| |]; cbn [bind] in C; try discriminate. injection C as <-. exact Ia. }
    unfold attribute_of. unfold attribute in V'. destruct i as [|[|[|[|i]]]]; try lia; (eexists; split; [reflexivity|]; split; [lia|exact V']). }
  exists F, F1, F2, (hr_range o r), (hrp_range o r), est, (r_ev r), v.
  split; [apply V'; cbn; tauto|]. split; [apply V'; cbn; tauto|]. repeat (split; [assumption|]).
  assert (SG : Rabs (sgn_k o) = 1) by (unfold sgn_k; rewrite <- RPow_abs; replace (Rabs (-1)) with 1 by (unfold Rabs; destruct (Rcase_abs (-1)); lra); apply pow1).
  unfold hr_range, extend, concat_rev. rewrite O4. split.
  - intros j Hj. destruct (Nat.ltb_spec j h) as [K|K]; [rewrite Rabs_mult, SG, Rmult_1_l; apply B1; exact K|apply B1; lia].
  - destruct B2 as (j & Hj & Bj). exists j. split; [lia|]. destruct (Nat.ltb_spec j h) as [K|K]; [rewrite Rabs_mult, SG, Rmult_1_l; exact Bj|lia].
Qed.
(** finding: two arrays are not what they are taken for: the derivative of the azimuthal component has the wrong sign everywhere, the second
    derivative of the radial one south of the equator *)
Theorem C189_wrong_signs : forall ls ms nus lams s s' i l m nu,
  run ls ms nus lams s = (s', Ok tt) -> (1 <= i <= 3)%nat ->
  nth_error ls (i - 1) = Some l -> nth_error ms (i - 1) = Some m -> nth_error nus (i - 1) = Some nu -> (i <= List.length lams)%nat ->
  tidal_problem_ok X eig nu l m npts ->
  let h := Nat.div npts 2 in
  exists hp dhp hr dhr d2hr,
    attribute_of s' "hp" i hp /\ attribute_of s' "theta_der_hp" i dhp /\
    attribute_of s' "hr" i hr /\ attribute_of s' "theta_der_hr" i dhr /\ attribute_of s' "theta_der2_hr" i d2hr /\
    (exists G, samples h hp G /\ derivative_samples h (fun j => - dhp j) G) /\
    (exists F F1 F2, derivatives F F1 F2 /\ samples h hr F /\ samples h dhr F1 /\ 
       forall j, (j < 2 * h)%nat -> (mu_full h j > 0 -> d2hr j = F2 (mu_full h j)) /\ (mu_full h j < 0 -> d2hr j = - F2 (mu_full h j))).
Proof.
  intros ls ms nus lams s s' i l m nu H Hi L M N Q W h.
  destruct (mode_inv _ _ _ _ _ _ i l m nu H Hi L M N Q) as (o & o1 & r & O1 & O2 & O3 & O4 & O5 & C & R & V).
  pose proof (W o O1 O2 O3 O4) as WP. fold h in O4.
  exists (hp_range o r), (hpp_range o r), (hr_range o r), (hrp_range o r), (hrpp_range o r).
  repeat (split; [apply V; cbn; tauto|]). split.
  - destruct (C74_azimuthal_derivative_of_adjusted_definitions X eig o o1 WP C) as (r' & G & Hp0 & R' & A & _ & B); [rewrite O5; reflexivity|].
    assert (r' = r) by congruence. subst r'. rewrite O4 in A, B. exists G. split; [exact A|]. intros j Hj. specialize (B j Hj). cbv zeta in B. rewrite O5 in B. cbn [LEE_SAIO sin_factor] in B. rewrite Rplus_0_r in B. exact B.
  - destruct (C48_second_derivative_wrong_sign_in_the_south X eig o o1 WP C) as (r' & F & F1 & F2 & R' & (RF1 & _ & RF3 & RF4) & B).
    assert (r' = r) by congruence. subst r'. rewrite O4 in RF3, RF4, B. exists F, F1, F2. split; [exact RF1|]. split; [exact RF3|]. split; [exact RF4|].
    intros j Hj. destruct (B j Hj) as (B1 & B2 & _). destruct (Nat.ltb_spec j h) as [K|K].
    + split; intros P; [apply B1 in K; lra|]. rewrite B2. ring.
    + split; intros P; [rewrite B2; ring|]. apply B1 in P. lia.
Qed.
(** the grid: the polar angle decreases from the south pole to the north pole, the mu values are its cosines, symmetric about the equator *)
Theorem C189_grid : forall ls ms nus lams s s', run ls ms nus lams s = (s', Ok tt) ->
  let h := Nat.div npts 2 in
  exists mu th, s' "_mu_values"%string = Some mu /\ s' "_theta_values"%string = Some th /\
    forall j, (j < 2 * h)%nat -> 0 < th j < PI /\ cos (th j) = mu j /\ mu j = mu_full h j /\ mu (2 * h - 1 - j)%nat = - mu j /\
      th j = PI * (1 - (INR j + 1 / 2) / INR (2 * h)).
Proof.
  intros ls ms nus lams s s' H h. destruct (run_inv _ _ _ _ _ _ H) as (s1 & o & Ho & -> & _). fold h in Ho. exists (mu_full h), (fun j => acos (mu_full h j)).
  rewrite <- Ho. split; [reflexivity|]. split; [reflexivity|]. rewrite Ho. intros j Hj.
  assert (H2 : INR (2 * h) > 0) by (apply lt_0_INR; lia). pose proof PI_RGT_0 as HP.
  set (a := PI * (1 - (INR j + 1 / 2) / INR (2 * h))).
  assert (HJ : INR j + 1 <= INR (2 * h)) by (rewrite <- S_INR; apply le_INR; lia). pose proof (pos_INR j) as J0.
  assert (Ra : 0 < (INR j + 1 / 2) / INR (2 * h) < 1).
  { split; [apply Rdiv_lt_0_compat; lra|]. apply (Rmult_lt_reg_r (INR (2 * h))); [lra|]. unfold Rdiv. rewrite Rmult_assoc, Rinv_l by lra. lra. }
  assert (A : 0 < a < PI).
  { unfold a. split; [apply Rmult_lt_0_compat; lra|]. apply (Rmult_lt_reg_l (/ PI)); [apply Rinv_0_lt_compat; lra|]. rewrite <- Rmult_assoc, Rinv_l by lra. lra. }
  assert (MU : mu_full h j = cos a).
  { unfold mu_full, concat_rev, mu_, theta, a. destruct (Nat.ltb_spec j h) as [K|K].
    - replace (PI * (1 - (INR j + 1 / 2) / INR (2 * h))) with (PI - PI / INR (2 * h) * (INR j + 1 / 2)) by (field; lra).
      rewrite cos_minus, cos_PI, sin_PI. ring.
    - f_equal. rewrite minus_INR, minus_INR by lia. change (INR 1) with 1. field. lra. }
  split; [rewrite MU, acos_cos by lra; exact A|]. split; [rewrite MU, acos_cos by lra; reflexivity|]. split; [reflexivity|]. split; [|rewrite MU, acos_cos by lra; reflexivity].
  unfold mu_full, concat_rev. destruct (Nat.ltb_spec j h) as [K|K]; destruct (Nat.ltb_spec (2 * h - 1 - j) h) as [K2|K2]; try lia.
  - replace (2 * h - 1 - (2 * h - 1 - j))%nat with j by lia. ring.
  - ring.
Qed.
(** only the attributes of the modes and the two grids are touched; if a computation fails, so does everything after it: the grids stay what they were *)
Theorem C189_nothing_else_changes : forall ls ms nus lams s s' res, run ls ms nus lams s = (s', res) ->
  (forall k, k <> "_mu_values"%string -> k <> "_theta_values"%string ->
     (forall n i, In n names -> (1 <= i <= 3)%nat -> k <> attribute n i) -> s' k = s k) /\
  (res <> Ok tt -> s' "_mu_values"%string = s "_mu_values"%string /\ s' "_theta_values"%string = s "_theta_values"%string).
Proof.
  intros ls ms nus lams s s' res H. unfold store_houghs in H. destruct (zipped_idx ls ms nus lams) as [B N].
  destruct (store_loop X eig npts uc (zipped ls ms nus lams) None s) as [s1 last] eqn:E. pose proof (loop_other X eig npts uc _ _ _ _ _ E) as O.
  assert (G : s1 "_mu_values"%string = s "_mu_values"%string /\ s1 "_theta_values"%string = s "_theta_values"%string).
  { split; apply O; intros n j _ _ Q; symmetry in Q; [exact (attr_mu _ _ Q)|exact (attr_theta _ _ Q)]. }
  assert (K : forall k, (forall n i, In n names -> (1 <= i <= 3)%nat -> k <> attribute n i) -> s1 k = s k).
  { intros k Hk. apply O. intros n j Hj Hn. apply Hk; [exact Hn|apply B; exact Hj]. }
  destruct last as [[[mu th]|]| |e]; injection H as <- <-.
  - split; [|congruence]. intros k K1 K2 K3. unfold setattr. destruct (String.eqb_spec k "_theta_values"); [contradiction|]. destruct (String.eqb_spec k "_mu_values"); [contradiction|]. apply K. exact K3.
  - split; [intros k _ _ K3; apply K; exact K3|intros _; exact G].
  - split; [intros k _ _ K3; apply K; exact K3|intros _; exact G].
  - split; [intros k _ _ K3; apply K; exact K3|intros _; exact G].
Qed.
(** of a list of eigenvalue estimates only the first is used; an empty list raises IndexError before anything is stored for the mode *)
Theorem C189_estimates : forall nu l m def adj lams,
  (forall x xs, lams = x :: xs -> hough_output X eig nu l m npts (Some (LList lams)) uc adj def = hough_output X eig nu l m npts (Some (LFloat x)) uc adj def) /\
  (lams = [] -> hough_output X eig nu l m npts (Some (LList lams)) uc adj def = Exc IndexError).
Proof. intros nu l m def adj lams. split; [intros x xs ->|intros ->]; reflexivity. Qed.
(** what is needed for success: three modes (or fewer: the lists are cut to the shortest; none at all raises UnboundLocalError), each with a real
    negative eigenvalue *)
Theorem C189_without_eigenvalue : forall ls ms nus lams s l m nu lmb ls' ms' nus' lams',
  ls = l :: ls' -> ms = m :: ms' -> nus = nu :: nus' -> lams = lmb :: lams' -> lmb <> Some (LList []) ->
  (forall A e, In e (eig A) -> ep_im e = 0 -> 0 <= ep_re e) -> run ls ms nus lams s = (s, Exc ValueError).
Proof.
  intros ls ms nus lams s l m nu lmb ls' ms' nus' lams' -> -> -> -> NE H. unfold store_houghs, zipped. cbn [seq combine store_loop].
  assert (G : hough_output X eig nu l m npts lmb uc true "lee_saio_equivalent" = Exc ValueError); [|rewrite G; reflexivity].
  unfold hough_output. destruct (first_estimate lmb) as [l1| |e] eqn:E1.
  - cbn [bind]. assert (I : exists o, init nu l m npts l1 uc "lee_saio_equivalent" true = Ok o /\ exists est, wanted o est).
    { unfold init. change (get_instructions "lee_saio_equivalent") with (Ok LEE_SAIO).
      destruct lmb as [[x|[|x xs]]|]; cbn in E1; try discriminate; injection E1 as <-; destruct uc; cbn [bind]; eexists; (split; [reflexivity|]); unfold wanted; cbn; eexists; reflexivity. }
    destruct I as (o & -> & est & WA). cbn [bind]. destruct (C72_nearest_negative_eigenvalue X eig o est WA) as (_ & [D _] & _). rewrite D; [reflexivity|]. intros e. apply H.
  - destruct lmb as [[x|[|x xs]]|]; discriminate.
  - destruct lmb as [[x|[|x xs]]|]; try discriminate. congruence.
Qed.
Theorem C189_no_modes : forall ms nus lams s, run [] ms nus lams s = (s, Exc UnboundLocalError).
Proof. reflexivity. Qed.
End World.

(** the exact dipole solution on two points (Properties_Hough), three times *)
Example C189_example : exists s', store_houghs (the_inverse 1) ex_eig 2 false [1; 1; 1]%Z [0; 0; 0]%Z [0; 0; 0]%R [Some (LFloat 2); Some (LList [2; 3]%R); Some (LFloat 2)] (fun _ => None) = (s', Ok tt) /\
  tidal_problem_ok (the_inverse 1) ex_eig 0%R 1 0 2.
Proof.
  assert (R : forall lmb, lmb = Some (LFloat 2) \/ lmb = Some (LList [2; 3]%R) -> exists d mu th, hough_output (the_inverse 1) ex_eig 0%R 1 0 2 lmb false true "lee_saio_equivalent" = Ok (d, mu, th)).
  { intros lmb HL. unfold hough_output. assert (F : first_estimate lmb = Ok (Some (LFloat 2%R))) by (destruct HL as [-> | ->]; reflexivity). rewrite F. cbn [bind].
    change (init 0%R 1 0 2 (Some (LFloat 2%R)) false "lee_saio_equivalent" true) with (Ok (ex_obj LEE_SAIO)). cbn [bind].
    destruct (ex_runs LEE_SAIO) as (o' & r & C & R & _). rewrite C. cbn [bind]. rewrite R, dict_ok. cbn [bind]. eexists _, _, _. reflexivity. }
  destruct (R (Some (LFloat 2%R)) (or_introl eq_refl)) as (d1 & mu1 & th1 & E1). destruct (R (Some (LList [2; 3]%R)) (or_intror eq_refl)) as (d2 & mu2 & th2 & E2).
  eexists. split.
  - unfold store_houghs, zipped. cbn [seq combine store_loop]. rewrite E1, E2. rewrite ?E1. reflexivity.
  - intros o O1 O2 O3 O4. destruct (ex_well_posed LEE_SAIO) as (A & B & C & D). cbn in A, B, D. cbn [Nat.div] in O4. change (Nat.div 2 2) with 1%nat in O4.
    unfold well_posed. rewrite O4, O1. split; [exact A|]. split; [exact B|]. split; [|exact D].
    unfold colloc_matrix, parity_, pf_. rewrite O1, O2, O3, O4. exact C.
Qed.
