(** * Properties C40, C41, C42, C65: frequency units, frames, detuning, quality factors.
    Exact real arithmetic. [set_mode_info garbage ds r] constructs the handler from mode
    dictionaries [ds] with requested unit [r]; [garbage] is the content of memory obtained
    from np.empty. *)
From Coq Require Import Reals List String ZArith Bool Lia Lra.
From Verif Require Import Base Py Stab_Model Stat_Model Stat_Proofs Freq_Model Freq_Spec Freq_Proofs.
Import ListNotations.
Local Open Scope R_scope.
Local Open Scope string_scope.

(** C40: converting a value from unit [u] to the requested unit [r] preserves the physical
    frequency, for every pair of supported units (requested names in any case). *)
Theorem C40_conversion_preserves_frequency : forall u r b su sr,
  unit_size u = Some su -> requested_size (upper r) = Some sr ->
  exists f, factor_from_str u r b = Ok (Some f) /\ forall x, f x * sr = x * su.
Proof.
  intros u r b su sr Hu Hr. destruct (table_total u r b su sr Hu Hr) as [f Hf]. exists f. split; [exact Hf|].
  destruct (table_ok _ _ _ _ Hf) as (su' & sr' & Hu' & Hr' & ? & ? & E). rewrite Hu in Hu'. rewrite Hr in Hr'.
  injection Hu' as <-. injection Hr' as <-. intros x. rewrite E. field. lra.
Qed.
Example C40_example_units : unit_size "UHZ" = Some (1 / 1000000) /\ requested_size (upper "cpd") = Some (1 / 86400).
Proof. split; reflexivity. Qed.

(** C40: going through an intermediate unit gives the direct conversion, a round trip is
    the identity, and every conversion is linear. *)
Theorem C40_conversions_compose : forall u v w b f g h,
  factor_from_str u v b = Ok (Some f) -> factor_from_str (upper v) w b = Ok (Some g) -> factor_from_str u w b = Ok (Some h) ->
  forall x, g (f x) = h x.
Proof.
  intros u v w b f g h Hf Hg Hh x.
  apply table_ok in Hf. apply table_ok in Hg. apply table_ok in Hh.
  destruct Hf as (su & sv & Hsu & Hsv & Pu & Pv & Ef). destruct Hg as (sv' & sw & Hsv' & Hsw & Pv' & Pw & Eg).
  destruct Hh as (su' & sw' & Hsu' & Hsw' & _ & _ & Eh).
  rewrite Hsu in Hsu'. injection Hsu' as <-. rewrite Hsw in Hsw'. injection Hsw' as <-.
  assert (sv' = sv).
  { unfold requested_size in Hsv. destruct (upper v =? "CPD") eqn:E; [apply String.eqb_eq in E; rewrite E in Hsv'; discriminate Hsv'|].
    rewrite Hsv' in Hsv. injection Hsv as ->. reflexivity. }
  subst sv'. rewrite Eg, Ef, Eh. field. lra.
Qed.
Theorem C40_round_trip : forall u v b f g,
  factor_from_str (upper u) v b = Ok (Some f) -> factor_from_str (upper v) u b = Ok (Some g) -> forall x, g (f x) = x.
Proof.
  intros u v b f g Hf Hg x.
  apply table_ok in Hf. apply table_ok in Hg.
  destruct Hf as (su & sv & Hsu & Hsv & Pu & Pv & Ef). destruct Hg as (sv' & su' & Hsv' & Hsu' & Pv' & Pu' & Eg).
  assert (sv' = sv).
  { unfold requested_size in Hsv. destruct (upper v =? "CPD") eqn:E; [apply String.eqb_eq in E; rewrite E in Hsv'; discriminate Hsv'|].
    rewrite Hsv' in Hsv. injection Hsv as ->. reflexivity. }
  assert (su' = su).
  { unfold requested_size in Hsu'. destruct (upper u =? "CPD") eqn:E; [apply String.eqb_eq in E; rewrite E in Hsu; discriminate Hsu|].
    rewrite Hsu in Hsu'. injection Hsu' as ->. reflexivity. }
  subst. rewrite Eg, Ef. field. lra.
Qed.
Example C40_example_round_trip : exists f g, factor_from_str (upper "Hz") "rad_per_sec" false = Ok (Some f) /\ factor_from_str (upper "rad_per_sec") "Hz" false = Ok (Some g).
Proof. do 2 eexists. split; reflexivity. Qed.
Theorem C40_linear : forall u r b f, factor_from_str u r b = Ok (Some f) ->
  forall a x y, f (a * x + y) = a * f x + f y.
Proof. intros u r b f H a x y. apply table_ok in H. destruct H as (su & sr & _ & _ & _ & ? & E). rewrite !E. field. lra. Qed.

(** C40: every other combination fails: an unknown requested unit is a KeyError, one of the
    GYRE units without implementation a TypeError, and an unknown current unit terminates
    the program or, with no_exit, returns the KeyError object. *)
Theorem C40_unsupported : forall u r b,
  (requested_size (upper r) = None -> factor_from_str u r b = Exc TypeError \/ factor_from_str u r b = Exc KeyError) /\
  (requested_size (upper r) <> None -> unit_size u = None -> factor_from_str u r b = if b then Ok None else Exc SystemExit).
Proof.
  intros u r b. pose proof (from_str_cases u r b) as C. split.
  - intros H. rewrite H in C. destruct (existsb _ _); auto.
  - intros H Hu. destruct (requested_size (upper r)); [|congruence]. rewrite Hu in C. exact C.
Qed.
Example C40_example_unsupported : requested_size (upper "rps") = None /\ factor_from_str "HZ" "rps" true = Exc KeyError /\ factor_from_str "HZ" "none" true = Exc TypeError.
Proof. repeat split. Qed.

(** C40 (finding): from a mode dictionary any unit name outside the four supported ones is
    silently taken as dimensionless, so the conversion never fails. *)
Theorem C40_dictionary_conversion : forall d r sr, requested_size (upper r) = Some sr ->
  exists f, factor_from_dict d r true = Ok f /\
  forall x, f x * sr = stored_hz (freq_units d) (G d) (M_star d) (R_star d) x.
Proof.
  intros d r sr Hr. destruct (from_dict_total d r sr Hr) as [f Hf]. exists f. split; [exact Hf|].
  destruct (from_dict_ok _ _ _ _ Hf) as (sr' & Hr' & P & E). rewrite Hr in Hr'. injection Hr' as <-.
  intros x. rewrite E. field. lra.
Qed.
Example C40_example_dictionary : unit_size "NONE" = None /\ unit_size "typo" = None.
Proof. split; reflexivity. Qed.

(** C40 (finding): the object-based conversion, documented to give hertz, does so for three
    units only: it raises TypeError for hertz and is off by 2 pi for dimensionless input. *)
Theorem C40_object_conversion : forall g ms rs x,
  (forall u su, In u ["UHZ"; "RAD_PER_SEC"; "CYC_PER_DAY"] -> unit_size u = Some su -> factor_from_object g ms rs u x = Ok (x * su)) /\
  factor_from_object g ms rs "HZ" x = Exc TypeError /\
  factor_from_object g ms rs "NONE" x = Ok (2 * PI * stored_hz "NONE" g ms rs x).
Proof.
  intros g ms rs x. pose proof two_pi_neq. repeat split.
  - intros u su [<-|[<-|[<-|[]]]] [= <-].
    + transitivity (Ok (x / 1000000)); [reflexivity|]. apply (f_equal (@Ok R)). field.
    + transitivity (Ok (x / (2 * PI))); [reflexivity|]. apply (f_equal (@Ok R)). field. lra.
    + transitivity (Ok (x / 86400)); [reflexivity|]. apply (f_equal (@Ok R)). field.
  - transitivity (Ok (x * sqrt (g * ms / rs ^ 3))); [reflexivity|]. unfold stored_hz.
    change (unit_size "NONE") with (@None R). cbv iota. apply (f_equal (@Ok R)). field. lra.
Qed.

(** C41: for every mode of a constructed handler, whatever unit and frame the input had and
    whatever unit is requested, the stored numbers are the input frequency in the two
    frames, [c] being the requested time unit: cyclic ones in cycles, angular ones in
    radians per time unit. The only exception is the co-rotating cyclic frequency when the
    input is inertial and an angular unit is requested. *)
Theorem C41_stored_frequencies : forall garbage ds r h, set_mode_info garbage ds r = Ok h ->
  exists c, cyclic_size (upper r) = Some c /\ forall i d, nth_error ds i = Some d ->
  exists x, nth_error (h_modes h) i = Some x /\
  let W := h_rps h / (2 * PI) in
  let w := stored_hz (freq_units d) (G d) (M_star d) (R_star d) (fst (freq d)) in
  inert_f x * c = to_inertial (freq_frame d) (m d) W w /\
  inert_o x * c = 2 * PI * to_inertial (freq_frame d) (m d) W w /\
  corot_o x * c = 2 * PI * to_corotating (freq_frame d) (m d) W w /\
  (freq_frame d <> "INERTIAL" \/ is_angular_frequency r = false ->
     corot_f x * c = to_corotating (freq_frame d) (m d) W w).
Proof.
  intros garbage ds r h H. destruct (handler_ok _ _ _ _ H) as (sr & c & Hr & Hc & P & _ & Ha & _ & _ & _ & _ & _ & HM & _).
  exists c. split; [exact Hc|]. intros i d Hi. eexists. split; [exact (HM i d Hi)|].
  cbv zeta. cbn [inert_f inert_o corot_o corot_f]. unfold mode_hz. repeat split; try (field; lra).
  intros F. rewrite Ha. replace ((freq_frame d =? "INERTIAL") && is_angular_frequency r) with false; [field; lra|].
  destruct F as [F| ->]; [apply String.eqb_neq in F; rewrite F; reflexivity|symmetry; apply andb_false_r].
Qed.
Definition C41_dict1 := mkMode (3, 1) "NONE" "INERTIAL" 2 6 5 4 None [1; 2].
Definition C41_dict2 := mkMode (1, -1) "UHZ" "COROT_I" 1 6 5 4 None [1; 2].
Definition C41_dict3 := mkMode (2, -1) "HZ" "INERTIAL" 1 6 5 4 None [1; 2].
Example C41_example_handler : exists h, set_mode_info (fun _ => 0) [C41_dict1; C41_dict2; C41_dict3] "CPD" = Ok h.
Proof. eexists. reflexivity. Qed.
Example C41_example_handler_angular : exists h, set_mode_info (fun _ => 0) [C41_dict1; C41_dict2; C41_dict3] "rad_per_sec" = Ok h.
Proof. eexists. reflexivity. Qed.

(** The factor that the handler offers for angular frequencies turns radians per second into radians per requested time unit: in
    that unit the surface rotation is the rotation in radians per second times the factor, and every stored angular frequency is
    the one in radians per second times the factor. It needs a star that rotates: otherwise the code divides 0 by 0. *)
Theorem C41_angular_conversion_factor : forall garbage ds r h, set_mode_info garbage ds r = Ok h -> h_rps h <> 0 ->
  exists c, cyclic_size (upper r) = Some c /\ angular_conv_factor_from_rps h = 1 / c /\
  surf_rot_angular_freq h = h_rps h * angular_conv_factor_from_rps h /\
  forall i d x, nth_error ds i = Some d -> nth_error (h_modes h) i = Some x ->
    let w := stored_hz (freq_units d) (G d) (M_star d) (R_star d) (fst (freq d)) in
    inert_o x = (2 * PI * to_inertial (freq_frame d) (m d) (h_rps h / (2 * PI)) w) * angular_conv_factor_from_rps h /\
    corot_o x = (2 * PI * to_corotating (freq_frame d) (m d) (h_rps h / (2 * PI)) w) * angular_conv_factor_from_rps h.
Proof.
  intros garbage ds r h H NZ. destruct (handler_ok _ _ _ _ H) as (sr & c & Hr & Hc & P & _ & Ha & Hrot & _ & _ & _ & _ & HM & _).
  exists c. split; [exact Hc|]. pose proof two_pi_neq as TP. pose proof PI_RGT_0 as PP. destruct (pass_scale r sr c 0 Hr Hc) as (_ & Ps & Es).
  assert (E : angular_conv_factor_from_rps h = 1 / c).
  { unfold angular_conv_factor_from_rps. cbv zeta. rewrite Ha, Hrot. destruct (is_angular_frequency r); (subst c || destruct Es as [-> ->]); field; repeat split; lra. }
  split; [exact E|]. rewrite E. split.
  - unfold surf_rot_angular_freq. rewrite Ha, Hrot. destruct (is_angular_frequency r); (subst c || destruct Es as [-> ->]); field; repeat split; lra.
  - intros i d x Hi Hx. rewrite (HM i d Hi) in Hx. injection Hx as <-. cbv zeta. cbn [inert_o corot_o]. fold (mode_hz d (fst (freq d))). split; field; lra.
Qed.
Example C41_example_rotating : exists h, set_mode_info (fun _ => 0) [mkMode (3, 1) "NONE" "INERTIAL" 2 6 5 4 (Some [1; 2]) [1; 2]] "CPD" = Ok h /\ h_rps h = 2.
Proof. eexists. split; reflexivity. Qed.
(** C41 (finding): in that exceptional case the stored co-rotating cyclic frequency is
    uninitialised memory divided by 2 pi. *)
Theorem C41_uninitialised_corotating_frequency : forall garbage ds r h i d,
  set_mode_info garbage ds r = Ok h -> nth_error ds i = Some d ->
  freq_frame d = "INERTIAL" -> is_angular_frequency r = true ->
  exists x, nth_error (h_modes h) i = Some x /\ corot_f x = garbage i / (2 * PI).
Proof.
  intros garbage ds r h i d H Hi F A. destruct (handler_ok _ _ _ _ H) as (sr & c & Hr & Hc & P & _ & Ha & _ & _ & _ & _ & _ & HM & _).
  eexists. split; [exact (HM i d Hi)|]. cbn [corot_f]. rewrite Ha, A, F. reflexivity.
Qed.

(** C41: the inertial angular frequency is the co-rotating one plus m times the angular
    rotation frequency, both as reported by the handler. *)
Theorem C41_doppler_shift : forall garbage ds r h i d x,
  set_mode_info garbage ds r = Ok h -> nth_error ds i = Some d -> nth_error (h_modes h) i = Some x ->
  inert_o x = corot_o x + IZR (m d) * surf_rot_angular_freq h /\ inert_o x = 2 * PI * inert_f x.
Proof.
  intros garbage ds r h i d x H Hi Hx. destruct (handler_ok _ _ _ _ H) as (sr & c & Hr & Hc & P & _ & Ha & Hrot & _ & _ & _ & _ & HM & _).
  specialize (HM i d Hi). cbv zeta in HM. rewrite HM in Hx. injection Hx as <-. cbn [inert_o corot_o inert_f].
  unfold surf_rot_angular_freq. rewrite Ha, Hrot. destruct (pass_scale r sr c 0 Hr Hc) as (_ & Ps & E).
  unfold to_inertial, to_corotating. pose proof two_pi_neq. split.
  - destruct (freq_frame d =? "INERTIAL"); destruct (is_angular_frequency r); (subst c || destruct E as [-> ->]); field; lra.
  - field; lra.
Qed.

(** C41: detunings of three modes in the two frames differ by (m1 - m2 - m3) Omega, so they
    agree exactly when the azimuthal orders balance or the star does not rotate. *)
Theorem C41_detuning_frame_independent_iff : forall garbage d1 d2 d3 r h x1 x2 x3,
  set_mode_info garbage [d1; d2; d3] r = Ok h -> h_modes h = [x1; x2; x3] ->
  h_detuning h = corot_o x1 - corot_o x2 - corot_o x3 /\
  (h_detuning h = inert_o x1 - inert_o x2 - inert_o x3 <-> (m d1 = m d2 + m d3)%Z \/ surf_rot_angular_freq h = 0).
Proof.
  intros garbage d1 d2 d3 r h x1 x2 x3 H Hx.
  pose proof (fun i d x Hi Hi' => proj1 (C41_doppler_shift _ _ _ _ i d x H Hi Hi')) as D. rewrite Hx in D.
  pose proof (D 0%nat d1 x1 eq_refl eq_refl) as D1. pose proof (D 1%nat d2 x2 eq_refl eq_refl) as D2. pose proof (D 2%nat d3 x3 eq_refl eq_refl) as D3.
  destruct (handler_ok _ _ _ _ H) as (sr & c & _ & _ & _ & _ & _ & _ & _ & _ & _ & _ & _ & _ & _ & Hdet).
  rewrite Hx in Hdet. unfold detuning_of in Hdet. cbn in Hdet. injection Hdet as Hdet.
  assert (Hd : h_detuning h = corot_o x1 - corot_o x2 - corot_o x3) by lra. split; [exact Hd|].
  rewrite Hd. set (W := surf_rot_angular_freq h) in *. rewrite D1, D2, D3. split.
  - intros E. assert (K : (IZR (m d1) - IZR (m d2) - IZR (m d3)) * W = 0) by lra.
    apply Rmult_integral in K. destruct K as [K|K]; [left|right; exact K].
    rewrite <- !minus_IZR in K. apply eq_IZR_R0 in K. lia.
  - intros [E|E].
    + rewrite E, plus_IZR. lra.
    + rewrite E. lra.
Qed.

(** the converse direction of C41's hypotheses: with a supported unit and the rotation data
    present the construction succeeds *)
Theorem C41_construction_succeeds : forall garbage d ds r sr,
  requested_size (upper r) = Some sr ->
  (match Omega_rot_dim d with Some l => l <> [] | None => Omega_rot d <> [] end) ->
  exists h, set_mode_info garbage (d :: ds) r = Ok h.
Proof.
  intros garbage d ds r sr Hr Hrot. unfold set_mode_info.
  assert (exists fs, store_cffs (d :: ds) r = Ok fs) as [fs Hfs].
  { unfold store_cffs. generalize (d :: ds) as l. induction l as [|e l [fs IH]]; [eexists; reflexivity|].
    cbn. destruct (from_dict_total e r sr Hr) as [f Hf]. rewrite Hf. cbn. rewrite IH. cbn. eexists. reflexivity. }
  rewrite Hfs. cbn [bind].
  assert (exists x, rotation_rps (d :: ds) = Ok x) as [x Hx].
  { assert (PL : forall l : list R, l <> [] -> exists x, py_get l (-1) = Ok x).
    { intros l Hl. destruct l as [|a l]; [congruence|]. eexists. apply (py_get_neg _ _ 0). cbn [List.length]. lia. }
    unfold rotation_rps. cbn [py_get Z.ltb Z.compare Z.to_nat nth_error bind]. change (py_get (d :: ds) 0) with (Ok d). cbn [bind].
    destruct (Omega_rot_dim d) as [l|].
    - exact (PL l Hrot).
    - destruct (PL _ Hrot) as [y Hy]. rewrite Hy. cbn. eexists. reflexivity. }
  unfold rotation_frequency. destruct (table_total "RAD_PER_SEC" r false (1 / (2 * PI)) sr eq_refl Hr) as [f Hf]. rewrite Hf, Hx. cbn [bind fst snd].
  unfold dim_factor, factor_for_dimensioning_factor. destruct (table_total "HZ" r false 1 sr eq_refl Hr) as [g Hg]. rewrite Hg. cbn [bind].
  change (py_get (d :: ds) 0) with (Ok d). cbn [bind].
  destruct (store_cffs_ok _ _ _ Hfs) as [L _]. destruct fs as [|f0 fs]; [discriminate L|]. cbn [combine mode_loop map detuning_of].
  unfold detuning_of. cbn. eexists. reflexivity.
Qed.

(** C41: spin parameters are 2 Omega / omega_corot of the same mode, independent of units. *)
Theorem C41_spin_parameter : forall garbage ds r h i d, set_mode_info garbage ds r = Ok h -> nth_error ds i = Some d ->
  let w := to_corotating (freq_frame d) (m d) (h_rps h / (2 * PI)) (stored_hz (freq_units d) (G d) (M_star d) (R_star d) (fst (freq d))) in
  w <> 0 -> nth_error (h_spin h) i = Some (2 * h_rps h / (2 * PI * w)).
Proof.
  intros garbage ds r h i d H Hi w Hw. destruct (handler_ok _ _ _ _ H) as (sr & c & Hr & Hc & P & _ & Ha & Hrot & _ & _ & _ & _ & HM & Hs & _).
  rewrite Hs, nth_error_map, (HM i d Hi). cbn [option_map corot_o]. f_equal. fold (mode_hz d (fst (freq d))) in w. fold w.
  unfold spin_factor. rewrite Ha, Hrot. destruct (pass_scale r sr c 0 Hr Hc) as (_ & Ps & E). pose proof two_pi_neq.
  destruct (is_angular_frequency r); (subst c || destruct E as [-> ->]); field; repeat split; lra.
Qed.

(** C65: dimensionless frequencies. The true dimensionless angular frequency is
    omega [rad/s] * sqrt(R^3/(G M)). What the handler stores is this number divided by the
    square of the requested time unit in inverse seconds: it is right for Hz and rad/s only,
    and wrong by 86400^2 for cycles per day, by 10^12 for microhertz. *)
Theorem C65_dimensionless_frequencies : forall garbage d0 ds r h i d,
  set_mode_info garbage (d0 :: ds) r = Ok h -> nth_error (d0 :: ds) i = Some d ->
  exists c, cyclic_size (upper r) = Some c /\
  let w := stored_hz (freq_units d) (G d) (M_star d) (R_star d) (fst (freq d)) in
  let rate := sqrt (R_star d0 ^ 3 / (G d0 * M_star d0)) in
  nth_error (dimless_corot_omegas h) i = Some (2 * PI * to_corotating (freq_frame d) (m d) (h_rps h / (2 * PI)) w * rate / c ^ 2) /\
  nth_error (dimless_inert_omegas h) i = Some (2 * PI * to_inertial (freq_frame d) (m d) (h_rps h / (2 * PI)) w * rate / c ^ 2).
Proof.
  intros garbage d0 ds r h i d H Hi. destruct (handler_ok _ _ _ _ H) as (sr & c & Hr & Hc & P & _ & Ha & Hrot & _ & _ & _ & _ & HM & _ & Hd & _).
  exists c. split; [exact Hc|]. cbv zeta. unfold dimless_corot_omegas, dimless_inert_omegas. rewrite !nth_error_map, !(HM i d Hi). cbn [option_map corot_o inert_o].
  unfold dim_factor, factor_for_dimensioning_factor in Hd. destruct (table_total "HZ" r false 1 sr eq_refl Hr) as [g Hg]. rewrite Hg in Hd. cbn [bind] in Hd.
  change (py_get (d0 :: ds) 0) with (Ok d0) in Hd. cbn [bind] in Hd. injection Hd as Hd. rewrite <- Hd.
  destruct (table_ok _ _ _ _ Hg) as (su & sr' & Hsu & Hsr & _ & _ & E). injection Hsu as <-. rewrite Hr in Hsr. injection Hsr as <-.
  destruct (pass_scale r sr c 0 Hr Hc) as (_ & Ps & Es). pose proof two_pi_neq. fold (mode_hz d (fst (freq d))).
  change (R_star d0 * (R_star d0 * (R_star d0 * 1))) with (R_star d0 ^ 3).
  destruct (is_angular_frequency r); rewrite E; (subst c || destruct Es as [-> ->]); split; f_equal; field; lra.
Qed.
(** The cyclic ones are, likewise, the frequency in hertz times that factor: they and the angular ones differ by exactly 2 pi.
    The co-rotating ones of inertial input are uninitialised memory if an angular unit is requested. *)
Theorem C65_dimensionless_cyclic_frequencies : forall garbage d0 ds r h i d,
  set_mode_info garbage (d0 :: ds) r = Ok h -> nth_error (d0 :: ds) i = Some d ->
  exists c, cyclic_size (upper r) = Some c /\
  let w := stored_hz (freq_units d) (G d) (M_star d) (R_star d) (fst (freq d)) in
  let rate := sqrt (R_star d0 ^ 3 / (G d0 * M_star d0)) in
  nth_error (dimless_inert_freqs h) i = Some (to_inertial (freq_frame d) (m d) (h_rps h / (2 * PI)) w * rate / c ^ 2) /\
  (freq_frame d <> "INERTIAL" \/ is_angular_frequency r = false ->
   nth_error (dimless_corot_freqs h) i = Some (to_corotating (freq_frame d) (m d) (h_rps h / (2 * PI)) w * rate / c ^ 2)) /\
  (freq_frame d = "INERTIAL" -> is_angular_frequency r = true ->
   nth_error (dimless_corot_freqs h) i = Some (garbage i / (2 * PI) * rate / c)).
Proof.
  intros garbage d0 ds r h i d H Hi. destruct (handler_ok _ _ _ _ H) as (sr & c & Hr & Hc & P & _ & Ha & Hrot & _ & _ & _ & _ & HM & _ & Hd & _).
  exists c. split; [exact Hc|]. cbv zeta. unfold dimless_corot_freqs, dimless_inert_freqs. rewrite !nth_error_map, !(HM i d Hi). cbn [option_map corot_f inert_f].
  unfold dim_factor, factor_for_dimensioning_factor in Hd. destruct (table_total "HZ" r false 1 sr eq_refl Hr) as [g Hg]. rewrite Hg in Hd. cbn [bind] in Hd.
  change (py_get (d0 :: ds) 0) with (Ok d0) in Hd. cbn [bind] in Hd. injection Hd as Hd. rewrite <- Hd.
  destruct (table_ok _ _ _ _ Hg) as (su & sr' & Hsu & Hsr & _ & _ & E). injection Hsu as <-. rewrite Hr in Hsr. injection Hsr as <-.
  destruct (pass_scale r sr c 0 Hr Hc) as (_ & Ps & Es). pose proof two_pi_neq. fold (mode_hz d (fst (freq d))).
  change (R_star d0 * (R_star d0 * (R_star d0 * 1))) with (R_star d0 ^ 3). rewrite Ha. repeat split.
  - destruct (is_angular_frequency r); rewrite E; (subst c || destruct Es as [-> ->]); f_equal; field; lra.
  - intros F. replace ((freq_frame d =? "INERTIAL") && is_angular_frequency r) with false
      by (destruct F as [F|F]; [apply String.eqb_neq in F; rewrite F; reflexivity|rewrite F; symmetry; apply andb_false_r]).
    destruct (is_angular_frequency r); rewrite E; (subst c || destruct Es as [-> ->]); f_equal; field; lra.
  - intros F A. apply String.eqb_eq in F. rewrite F, A in *. cbn [andb]. rewrite E. destruct Es as [-> ->]. f_equal. field. lra.
Qed.
Example C65_example : exists h, set_mode_info (fun _ => 0) [C41_dict1; C41_dict2; C41_dict3] "CPD" = Ok h /\ List.length (dimless_inert_freqs h) = 3%nat.
Proof. eexists. split; reflexivity. Qed.
Theorem C65_right_iff_seconds : forall r c, cyclic_size (upper r) = Some c ->
  (1 / c ^ 2 = 1 <-> upper r = "HZ" \/ upper r = "RAD_PER_SEC").
Proof.
  intros r c. unfold cyclic_size, requested_size, unit_size. intros Hc. cases_in Hc; try discriminate; injection Hc as <-;
  repeat match goal with H : (upper r =? _) = false |- _ => apply String.eqb_neq in H end;
  match goal with H : upper r = ?s |- _ => rewrite H end;
  (split; [intros Q|intros [Q|Q]; try discriminate Q]); auto; try field; exfalso; lra.
Qed.

(** C41/C42: the nonadiabatic data. With the same frequency units in both sets of
    dictionaries (or all units supported) the co-rotating angular frequencies and linear
    rates are the real and imaginary part of 2 pi times the input frequency, in the
    co-rotating frame and requested time unit. *)
Lemma nad_list_ok r sr c rps ns fs : requested_size (upper r) = Some sr -> cyclic_size (upper r) = Some c ->
  List.length fs = List.length ns ->
  (forall i d f, nth_error ns i = Some d -> nth_error fs i = Some f -> forall x, f x = mode_hz d x / sr) ->
  map (fun p => nad_pass (is_angular_frequency r) (rps * (1 / (2 * PI)) / sr) (fst p) (snd p)) (combine ns fs) =
  map (fun d => let w := mode_hz d (fst (freq d)) in
                let ci := to_inertial (freq_frame d) (m d) (rps / (2 * PI)) w in
                let cc := to_corotating (freq_frame d) (m d) (rps / (2 * PI)) w in
                ({| corot_f := cc / c; inert_f := ci / c; corot_o := 2 * PI * cc / c; inert_o := 2 * PI * ci / c |},
                 2 * PI * mode_hz d (snd (freq d)) / c)) ns.
Proof.
  intros Hr Hc. revert fs. induction ns as [|d ns IH]; intros [|f fs] L HF; try discriminate L; [reflexivity|].
  cbn [combine map fst snd]. f_equal.
  - exact (nad_pass_ok r sr c rps Hr Hc d f (HF 0%nat d f eq_refl eq_refl)).
  - apply IH; [injection L as ->; reflexivity|]. intros i e g Hi Hg. exact (HF (S i) e g Hi Hg).
Qed.

(** same units in both sets and stars with the same G, M, R: the conversion functions of the
    adiabatic dictionaries are right for the nonadiabatic ones *)
Definition same_star (a n : mode_dict) : Prop := freq_units a = freq_units n /\ G a = G n /\ M_star a = M_star n /\ R_star a = R_star n.

Lemma Forall2_len {A B} (P : A -> B -> Prop) l l' : Forall2 P l l' -> List.length l = List.length l'.
Proof. induction 1; cbn; congruence. Qed.

Theorem C41_nonadiabatic_frequencies : forall garbage ds r h ns nd,
  set_mode_info garbage ds r = Ok h -> Forall2 same_star ds ns -> set_nonad h ns = Ok nd ->
  exists c, cyclic_size (upper r) = Some c /\ forall i d, nth_error ns i = Some d ->
  exists x g, nth_error (n_modes nd) i = Some x /\ nth_error (n_rates nd) i = Some g /\
  let W := h_rps h / (2 * PI) in
  let w := stored_hz (freq_units d) (G d) (M_star d) (R_star d) in
  let ci := to_inertial (freq_frame d) (m d) W (w (fst (freq d))) in
  let cc := to_corotating (freq_frame d) (m d) W (w (fst (freq d))) in
  inert_f x * c = ci /\ corot_f x * c = cc /\ inert_o x * c = 2 * PI * ci /\ corot_o x * c = 2 * PI * cc /\
  g * c = 2 * PI * w (snd (freq d)).
Proof.
  intros garbage ds r h ns nd H FS HN. destruct (handler_ok _ _ _ _ H) as (sr & c & Hr & Hc & P & _ & Ha & Hrot & _ & Hd & Hq & Hcf & _).
  exists c. split; [exact Hc|]. unfold set_nonad in HN.
  destruct (negb _) eqn:EL; [discriminate|]. apply negb_false_iff, Nat.eqb_eq in EL.
  assert (US : forallb (fun p => freq_units (fst p) =? freq_units (snd p)) (combine (h_dicts h) ns) = true).
  { rewrite Hd. clear -FS. induction FS as [|a n l l' [E _] F IH]; [reflexivity|]. cbn. rewrite E, String.eqb_refl, IH. reflexivity. }
  unfold nad_conversion_functions in HN. rewrite US in HN. cbn [bind] in HN.
  assert (PL : map (fun p => nad_pass (h_angular h) (h_rot h) (fst p) (snd p)) (combine ns (h_cffs h)) =
    map (fun d => let w := mode_hz d (fst (freq d)) in
                let ci := to_inertial (freq_frame d) (m d) (h_rps h / (2 * PI)) w in
                let cc := to_corotating (freq_frame d) (m d) (h_rps h / (2 * PI)) w in
                ({| corot_f := cc / c; inert_f := ci / c; corot_o := 2 * PI * cc / c; inert_o := 2 * PI * ci / c |},
                 2 * PI * mode_hz d (snd (freq d)) / c)) ns).
  { rewrite Ha, Hrot. destruct (store_cffs_ok _ _ _ Hcf) as [L HF]. apply nad_list_ok; auto.
    - transitivity (List.length ds); [exact L|exact (Forall2_len _ _ _ FS)].
    - intros i d f Hi Hf x. assert (exists a, nth_error ds i = Some a /\ same_star a d) as (a & Hai & SU & SG & SM & SR).
      { clear -FS Hi. revert i Hi. induction FS as [|a n l l' S F IH]; intros [|i] Hi; try discriminate; cbn in *; [injection Hi as <-; eauto|eauto]. }
      destruct (HF i a Hai) as (f' & sr' & Hf' & Hr' & _ & E). pose proof (eq_trans (eq_sym Hf) Hf') as Ef. injection Ef as <-. rewrite Hr in Hr'. injection Hr' as <-.
      rewrite E. unfold mode_hz. rewrite SU, SG, SM, SR. reflexivity. }
  destruct (detuning_of _) as [det| |]; try discriminate. cbn [bind] in HN. destruct (py_get _ 0) as [g0| |]; try discriminate. injection HN as <-.
  cbn [n_modes n_rates]. rewrite PL. intros i d Hi. do 2 eexists. rewrite !map_map, !nth_error_map, Hi. cbn [option_map fst snd].
  split; [reflexivity|]. split; [reflexivity|]. cbv zeta. cbn [inert_f corot_f inert_o corot_o]. fold (mode_hz d (fst (freq d))). fold (mode_hz d (snd (freq d))).
  repeat split; field; lra.
Qed.
Example C41_example_nonadiabatic : exists h nd, set_mode_info (fun _ => 0) [C41_dict1; C41_dict2; C41_dict3] "CPD" = Ok h /\
  set_nonad h [C41_dict1; C41_dict2; C41_dict3] = Ok nd /\ Forall2 same_star [C41_dict1; C41_dict2; C41_dict3] [C41_dict1; C41_dict2; C41_dict3].
Proof. do 2 eexists. split; [reflexivity|]. split; [reflexivity|]. repeat constructor. Qed.

(** C41: q and q1 do not depend on the requested unit: two handlers built from the same data
    with different requested units report the same quality factors, q, q1. Here for three modes. *)
Theorem C41_unit_independence : forall g1 g2 ds r1 r2 h1 h2 ns n1 n2,
  set_mode_info g1 ds r1 = Ok h1 -> set_mode_info g2 ds r2 = Ok h2 ->
  Forall2 same_star ds ns -> set_nonad h1 ns = Ok n1 -> set_nonad h2 ns = Ok n2 ->
  rsum (n_rates n1) <> 0 -> hd 0 (n_rates n1) <> 0 -> Forall (fun g => g <> 0) (n_rates n1) ->
  n_q n1 = n_q n2 /\ n_q1 n1 = n_q1 n2 /\ n_q_nad n1 = n_q_nad n2 /\ n_q1_nad n1 = n_q1_nad n2 /\
  n_quality n1 = n_quality n2 /\ n_quality_nad n1 = n_quality_nad n2 /\ n_products n1 = n_products n2 /\ n_products_nad n1 = n_products_nad n2.
Proof.
  assert (KEY : forall garbage ds r h ns nd, set_mode_info garbage ds r = Ok h -> Forall2 same_star ds ns -> set_nonad h ns = Ok nd ->
    exists c, 0 < c /\ exists W, rotation_rps ds = Ok W /\ 
      (let A := map (fun d => 2 * PI * to_corotating (freq_frame d) (m d) (W / (2 * PI)) (mode_hz d (fst (freq d)))) ds in
       let N := map (fun d => 2 * PI * to_corotating (freq_frame d) (m d) (W / (2 * PI)) (mode_hz d (fst (freq d)))) ns in
       let RT := map (fun d => 2 * PI * mode_hz d (snd (freq d))) ns in
       let sc := map (fun x => x / c) in
       let qual := fun ws rs : list R => map (fun p => fst p / snd p) (combine ws rs) in
       n_rates nd = sc RT /\ n_quality nd = qual (sc A) (sc RT) /\ n_quality_nad nd = qual (sc N) (sc RT) /\
       n_products nd = quality_products (List.length (n_quality nd)) (nthv (n_quality nd)) /\
       n_products_nad nd = quality_products (List.length (n_quality_nad nd)) (nthv (n_quality_nad nd)) /\
       (exists det, detuning_of (sc A) = Ok det /\ n_q nd = det / rsum (sc RT) /\ n_q1 nd = det / hd 0 (sc RT)) /\
       (exists det, detuning_of (sc N) = Ok det /\ n_q_nad nd = det / rsum (sc RT) /\ n_q1_nad nd = det / hd 0 (sc RT)))).
  { intros garbage ds r h ns nd H FS HN. destruct (handler_ok _ _ _ _ H) as (sr & c & Hr & Hc & P & Hrps & Ha & Hrot & HL & Hd & Hq & Hcf & HM & _ & _ & Hdet).
    exists c. split; [exact P|]. exists (h_rps h). split; [exact Hrps|]. cbv zeta.
    destruct (C41_nonadiabatic_frequencies _ _ _ _ _ _ H FS HN) as (c' & Hc' & HNM). rewrite Hc in Hc'. injection Hc' as <-.
    assert (EA : map corot_o (h_modes h) = map (fun x => x / c) (map (fun d => 2 * PI * to_corotating (freq_frame d) (m d) (h_rps h / (2 * PI)) (mode_hz d (fst (freq d)))) ds)).
    { apply (nth_ext _ _ 0 0); [rewrite !map_length; exact HL|]. intros i Hi. rewrite map_length, HL in Hi.
      destruct (nth_error ds i) as [d|] eqn:Ei; [|apply nth_error_None in Ei; lia].
      apply nth_error_nth'  with (d := d) in Hi as Hi'. 
      specialize (HM i d Ei). cbv zeta in HM.
      rewrite (nth_error_nth (map corot_o (h_modes h)) i 0 (map_nth_error corot_o i _ HM)).
      rewrite (nth_error_nth _ i 0 (map_nth_error (fun x => x / c) i _ (map_nth_error _ i _ Ei))). cbn [corot_o]. reflexivity. }
    assert (EL : List.length ns = List.length ds) by (symmetry; exact (Forall2_len _ _ _ FS)).
    unfold set_nonad in HN. rewrite Hd, EL, Nat.eqb_refl in HN. cbn [negb] in HN.
    destruct (nad_conversion_functions h ns) as [fs| |]; try discriminate. cbn [bind] in HN.
    set (passes := map _ (combine ns fs)) in HN.
    destruct (detuning_of (map corot_o (map fst passes))) as [det| |] eqn:ED; try discriminate. cbn [bind] in HN.
    destruct (py_get (map snd passes) 0) as [g0| |] eqn:EG; try discriminate. injection HN as <-.
    cbn [n_modes n_rates n_quality n_quality_nad n_products n_products_nad n_q n_q1 n_q_nad n_q1_nad] in *.
    assert (LP : List.length passes = List.length ns).
    { destruct ns as [|d0 ns']. { unfold passes. destruct fs; reflexivity. }
      assert (List.length (d0 :: ns') <= List.length passes)%nat.
      { destruct (nth_error (d0 :: ns') (List.length ns')) as [d|] eqn:Ei; [|apply nth_error_None in Ei; cbn in Ei; lia].
        destruct (HNM _ _ Ei) as (x & g & Hx & _). assert (nth_error (map fst passes) (List.length ns') <> None) as Hn by congruence.
        apply nth_error_Some in Hn. rewrite map_length in Hn. exact Hn. }
      assert (List.length passes <= List.length (d0 :: ns'))%nat by (unfold passes; rewrite map_length, combine_length; apply Nat.le_min_l). lia. }
    assert (ER : map snd passes = map (fun x => x / c) (map (fun d => 2 * PI * mode_hz d (snd (freq d))) ns)).
    { apply (nth_ext _ _ 0 0); [rewrite !map_length; exact LP|]. intros i Hi. rewrite map_length, LP in Hi.
      destruct (nth_error ns i) as [d|] eqn:Ei; [|apply nth_error_None in Ei; lia].
      destruct (HNM _ _ Ei) as (x & g & _ & Hg & _ & _ & _ & _ & E). rewrite (nth_error_nth _ i 0 Hg).
      rewrite (nth_error_nth _ i 0 (map_nth_error (fun x => x / c) i _ (map_nth_error _ i _ Ei))). 
      fold (mode_hz d) in E. apply (Rmult_eq_reg_r c); [|lra]. rewrite E. unfold mode_hz. field. lra. }
    assert (EN : map corot_o (map fst passes) = map (fun x => x / c) (map (fun d => 2 * PI * to_corotating (freq_frame d) (m d) (h_rps h / (2 * PI)) (mode_hz d (fst (freq d)))) ns)).
    { apply (nth_ext _ _ 0 0); [rewrite !map_length; exact LP|]. intros i Hi. rewrite !map_length, LP in Hi.
      destruct (nth_error ns i) as [d|] eqn:Ei; [|apply nth_error_None in Ei; lia].
      destruct (HNM _ _ Ei) as (x & g & Hx & _ & _ & _ & _ & E & _). rewrite (nth_error_nth _ i 0 (map_nth_error corot_o i _ Hx)).
      rewrite (nth_error_nth _ i 0 (map_nth_error (fun x => x / c) i _ (map_nth_error _ i _ Ei))). 
      apply (Rmult_eq_reg_r c); [|lra]. rewrite E. unfold mode_hz. field. lra. }
    assert (G0 : g0 = hd 0 (map snd passes)).
    { destruct (map snd passes) as [|a l]; [discriminate EG|]. change (py_get (a :: l) 0) with (Ok a) in EG. injection EG as <-. reflexivity. }
    rewrite <- ER, <- EN, <- EA. repeat split; auto.
    - exists (h_detuning h). repeat split; auto. rewrite G0. reflexivity.
    - exists det. repeat split; auto. rewrite G0. reflexivity. }
  intros g1 g2 ds r1 r2 h1 h2 ns n1 n2 H1 H2 FS N1 N2 Z0 Z1 Z2.
  destruct (KEY _ _ _ _ _ _ H1 FS N1) as (c1 & P1 & W & HW & R1 & Q1 & Q1n & PR1 & PR1n & (t1 & D1 & E1 & F1) & (u1 & D1n & E1n & F1n)).
  destruct (KEY _ _ _ _ _ _ H2 FS N2) as (c2 & P2 & W' & HW' & R2 & Q2 & Q2n & PR2 & PR2n & (t2 & D2 & E2 & F2) & (u2 & D2n & E2n & F2n)).
  rewrite HW in HW'. injection HW' as <-.
  set (A := map (fun d => 2 * PI * to_corotating (freq_frame d) (m d) (W / (2 * PI)) (mode_hz d (fst (freq d)))) ds) in *.
  set (N := map (fun d => 2 * PI * to_corotating (freq_frame d) (m d) (W / (2 * PI)) (mode_hz d (fst (freq d)))) ns) in *.
  set (RT := map (fun d => 2 * PI * mode_hz d (snd (freq d))) ns) in *.
  assert (SUM : forall c l, 0 < c -> rsum (map (fun x => x / c) l) = rsum l / c).
  { intros c l Pc. induction l; cbn; [field; lra|]. rewrite IHl. field. lra. }
  assert (DET : forall c l t, 0 < c -> detuning_of (map (fun x => x / c) l) = Ok t -> t = (hd 0 l - rsum (tl l)) / c).
  { intros c [|a l] t Pc E; [discriminate E|]. unfold detuning_of in E. change (py_get (map (fun x => x / c) (a :: l)) 0) with (Ok (a / c)) in E.
    cbn [bind map tl] in E. injection E as <-. cbn [hd tl]. rewrite SUM by exact Pc. field. lra. }
  assert (HD : forall c l, 0 < c -> hd 0 (map (fun x => x / c) l) = hd 0 l / c) by (intros c [|a l] Pc; cbn; [field; lra|reflexivity]).
  rewrite R1 in Z0, Z1, Z2. rewrite SUM in Z0 by exact P1. rewrite HD in Z1 by exact P1.
  assert (Z0' : rsum RT <> 0) by (intros E; apply Z0; rewrite E; field; lra).
  assert (Z1' : hd 0 RT <> 0) by (intros E; apply Z1; rewrite E; field; lra).
  assert (QU : forall l rr, Forall (fun g => g <> 0) (map (fun x => x / c1) rr) ->
    map (fun p => fst p / snd p) (combine (map (fun x => x / c1) l) (map (fun x => x / c1) rr)) =
    map (fun p => fst p / snd p) (combine (map (fun x => x / c2) l) (map (fun x => x / c2) rr))).
  { clear -P1 P2. induction l as [|a l IH]; intros [|g rr] F; try reflexivity. cbn in *. inversion F; subst.
    assert (g <> 0) by (intros ->; apply H1; field; lra). f_equal; [field; repeat split; lra|]. apply IH. assumption. }
  assert (EQ : n_quality n1 = n_quality n2) by (rewrite Q1, Q2; apply QU; exact Z2).
  assert (EQn : n_quality_nad n1 = n_quality_nad n2) by (rewrite Q1n, Q2n; apply QU; exact Z2).
  apply DET in D1, D2, D1n, D2n; try assumption. subst t1 t2 u1 u2.
  rewrite SUM, HD in * by assumption. rewrite E1, E2, F1, F2, E1n, E2n, F1n, F2n.
  repeat split; auto; try (field; repeat split; lra); congruence.
Qed.

(** C42: the three products stored for three modes are Q1 Q2, Q1 Q3, Q2 Q3, in this order,
    where Q_i = omega_i / gamma_i, both for the adiabatic and nonadiabatic frequencies. *)
Theorem C42_quality_products : forall h ns nd w1 w2 w3 v1 v2 v3 g1 g2 g3,
  set_nonad h ns = Ok nd -> map corot_o (h_modes h) = [w1; w2; w3] -> map corot_o (n_modes nd) = [v1; v2; v3] -> n_rates nd = [g1; g2; g3] ->
  n_products nd = [(w1 / g1) * (w2 / g2); (w1 / g1) * (w3 / g3); (w2 / g2) * (w3 / g3)] /\
  n_products_nad nd = [(v1 / g1) * (v2 / g2); (v1 / g1) * (v3 / g3); (v2 / g2) * (v3 / g3)] /\
  n_gamma_sum nd = g1 + g2 + g3 /\ n_q nd = h_detuning h / (g1 + g2 + g3) /\ n_q1 nd = h_detuning h / g1 /\
  n_detuning nd = v1 - (v2 + v3).
Proof.
  intros h ns nd w1 w2 w3 v1 v2 v3 g1 g2 g3 H HW HV HG. unfold set_nonad in H.
  destruct (negb _); [discriminate|]. destruct (nad_conversion_functions h ns) as [fs| |]; try discriminate. cbn [bind] in H.
  set (passes := map _ (combine ns fs)) in H.
  destruct (detuning_of (map corot_o (map fst passes))) as [det| |] eqn:ED; try discriminate. cbn [bind] in H.
  destruct (py_get (map snd passes) 0) as [g0| |] eqn:EG; try discriminate. injection H as <-.
  cbn [n_modes n_rates n_quality n_quality_nad n_products n_products_nad n_q n_q1 n_gamma_sum n_detuning] in *.
  rewrite HV in *. rewrite HG in *. rewrite HW. cbn in ED. injection ED as <-. cbn in EG. injection EG as <-.
  cbn. rewrite !Rplus_0_r, !Rplus_assoc. repeat split; reflexivity.
Qed.
Example C42_example : exists h nd w1 w2 w3 v1 v2 v3 g1 g2 g3, set_nonad h [C41_dict1; C41_dict2; C41_dict3] = Ok nd /\
  map corot_o (h_modes h) = [w1; w2; w3] /\ map corot_o (n_modes nd) = [v1; v2; v3] /\ n_rates nd = [g1; g2; g3].
Proof.
  destruct C41_example_nonadiabatic as (h & nd & H & HN & _). exists h, nd. do 9 eexists. split; [exact HN|].
  injection H as <-. injection HN as <-. split; [reflexivity|]. split; reflexivity.
Qed.
