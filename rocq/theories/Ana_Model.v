(** * Model of the analyzer's derived quantities
    (aesolver/ae_analyzer/quadratic_stationary_analyzer.py, cited as qa, and utility_functions.py, uf).
    Each function below acts on one row (triad) of the stored arrays, as the vectorised code does, with
    the default og_shape=True (the only value used, qa:119-139).
    Simplifications: a number is [Some x], or [None] for anything that is not a finite double (NaN, or
    an infinity produced by a zero denominator); rounding is left out.  HDF5 loading is not modelled. *)
From Coq Require Import Reals List ZArith Bool Lia Lra.
From Verif Require Import Base Mask_Model.
Import ListNotations.
Local Open Scope R_scope.

Definition oadd (a b : option R) : option R := match a, b with Some x, Some y => Some (x + y) | _, _ => None end.
Definition osub (a b : option R) : option R := match a, b with Some x, Some y => Some (x - y) | _, _ => None end.
Definition oopp (a : option R) : option R := option_map Ropp a.
Definition odiv (a b : option R) : option R :=
  match a, b with Some x, Some y => if Req_EM_T y 0 then None else Some (x / y) | _, _ => None end.
Definition omin (a b : option R) : option R := match a, b with Some x, Some y => Some (Rmin x y) | _, _ => None end.
Definition oiszero (a : option R) : bool := match a with Some x => if Req_EM_T x 0 then true else false | None => false end.
Definition cst (x : R) : option R := Some x.
Definition trip := (option R * option R * option R)%type.
Definition map3 (f : option R -> option R) (t : trip) : trip := (f (col 0 t), f (col 1 t), f (col 2 t)).

(** uf:10-15 *)
Definition hz_to_cpd (x : option R) : option R := omul x (cst 86400).
Definition hz_to_muhz (x : option R) : option R := omul x (cst (10 ^ 6)).

(** qa:264-276 *)
Definition linear_omega_diff (corot : trip) : option R := osub (osub (col 0 corot) (col 1 corot)) (col 2 corot).
Definition linear_omega_diff_to_min_omega (corot : trip) : option R :=
  odiv (linear_omega_diff corot) (omin (omin (oabs (col 0 corot)) (oabs (col 1 corot))) (oabs (col 2 corot))).
(** qa:277-288 *)
Definition rotation_freq (corot inert : trip) : option R := osub (col 1 inert) (col 1 corot).
Definition spin_parameters (corot inert : trip) : trip :=
  map3 (fun w => odiv (omul (cst 2) (rotation_freq corot inert)) w) corot.

(** qa:372-390; np.divide leaves NaN where the condition is False *)
Definition thresh_surf_ppm (parametric : bool) (surf0 theory0 thresh_amp : option R) : option R :=
  let invalid := isnan theory0 || oiszero theory0 in
  let lum_conv := if parametric && negb invalid then odiv surf0 theory0 else None in
  omul (omul thresh_amp lum_conv) (cst (10 ^ 6)).

(** qa:392-408 *)
Definition p_quality_factor (corot rates : trip) : option R := odiv (col 0 corot) (col 0 rates).
Definition gamma_sum_cpd (rates : trip) : option R :=
  oadd (hz_to_cpd (col 0 rates)) (oadd (hz_to_cpd (col 1 rates)) (hz_to_cpd (col 2 rates))).

(** uf:19-31  np.divide(num, den, out=out, where=~(den == 0 | isnan(den)) & mask) *)
Definition compute_single_amplitude_ratio (num den out : option R) (mask : bool) : option R :=
  let denom_mask := oiszero den || isnan den in
  if negb denom_mask && mask then odiv num den else out.
(** qa:419-481: the two entries of surf_ratio_daughter_parent_OG_SHAPE and surf_ratio_vb_21 *)
Definition amp_ratios (parametric direct : bool) (surfs : trip) : option R * option R * option R :=
  let s1 := col 0 surfs in let s2 := col 1 surfs in let s3 := col 2 surfs in
  let out1 := compute_single_amplitude_ratio s2 s1 None parametric in
  let out2 := compute_single_amplitude_ratio s3 s1 None parametric in
  let out1' := compute_single_amplitude_ratio s1 s2 out1 direct in
  let out2' := compute_single_amplitude_ratio s1 s3 out2 direct in
  let out3 := compute_single_amplitude_ratio s1 (omul s2 s3) None parametric in
  let out3' := compute_single_amplitude_ratio s1 (omul s2 s3) out3 direct in
  (out1', out2', out3').

(** qa:489-538 *)
Definition gamma_boxplus (rates : trip) : option R := oadd (oadd (col 0 rates) (col 1 rates)) (col 2 rates).
Definition freq_shift_p (corot rates : trip) : option R :=
  omul (linear_omega_diff corot) (odiv (oopp (col 0 rates)) (gamma_boxplus rates)).
Definition freq_shift_d (idx : nat) (corot rates : trip) : option R :=
  omul (linear_omega_diff corot) (odiv (col idx rates) (gamma_boxplus rates)).
Definition shift_to_omega (corot inert rates : trip) : trip :=
  (odiv (hz_to_muhz (freq_shift_p corot rates)) (hz_to_muhz (col 0 inert)),
   odiv (hz_to_muhz (freq_shift_d 1 corot rates)) (hz_to_muhz (col 1 inert)),
   odiv (hz_to_muhz (freq_shift_d 2 corot rates)) (hz_to_muhz (col 2 inert))).
(** qa:540-554 *)
Definition nonlinear_omegas_cpd (corot inert rates : trip) : trip :=
  (oadd (hz_to_cpd (col 0 inert)) (hz_to_cpd (freq_shift_p corot rates)),
   oadd (hz_to_cpd (col 1 inert)) (hz_to_cpd (freq_shift_d 1 corot rates)),
   oadd (hz_to_cpd (col 2 inert)) (hz_to_cpd (freq_shift_d 2 corot rates))).
(** qa:556-574 *)
Record estimators := Estimators { est_gamma_sum : option R; est_q : option R; est_q1 : option R; est_q3 : option R;
  est_theta2 : option R; est_theta3 : option R; est_theta23 : option R }.
Definition validity_estimators (corot rates : trip) : estimators :=
  let p := hz_to_cpd (col 0 rates) in
  let d2 := hz_to_cpd (col 1 rates) in
  let d3 := hz_to_cpd (col 2 rates) in
  let gs := oadd p (oadd d2 d3) in
  let dw := hz_to_cpd (linear_omega_diff corot) in
  Estimators gs (odiv dw gs) (odiv dw p) (odiv dw d3) (odiv (oopp d2) p) (odiv (oopp d3) p) (odiv d2 d3).

(** qa:623-692: the counts of one model. [rows]: per triad the two ratios, q, Q1 and the five masks *)
Record crow := CRow { c_ratio1 : option R; c_ratio2 : option R; c_q : option R; c_Q1 : option R;
  c_stab : bool; c_ae : bool; c_iso : bool; c_val : bool; c_stab_val : bool }.
Definition count (f : crow -> bool) (l : list crow) : nat := List.length (filter f l).
Definition both_larger (r : crow) : bool := oltb (Some 1) (c_ratio1 r) && oltb (Some 1) (c_ratio2 r).
Definition qm (r : crow) : bool := oltb (c_Q1 r) (c_q r).
Definition both_conditions (r : crow) : bool := qm r && both_larger r.
Record counts := Counts { n_ratios : nat; n_q : nat; n_triads : nat; n_both : nat; n_ratio_not_q : nat;
  n_stab : nat * nat; n_ae : nat * nat; n_iso : nat * nat; n_val : nat * nat; n_stab_val : nat * nat; n_ae_ratios : nat * nat }.
Definition split_count (c m : crow -> bool) (l : list crow) : nat * nat :=
  (count (fun r => m r && c r) l, count (fun r => negb (m r) && c r) l).
Definition model_counts (l : list crow) : counts :=
  Counts (count both_larger l) (count qm l) (List.length l) (count both_conditions l)
    (count (fun r => negb (qm r) && both_larger r) l)
    (split_count both_conditions c_stab l) (split_count both_conditions c_ae l) (split_count both_conditions c_iso l)
    (split_count both_conditions c_val l) (split_count both_conditions c_stab_val l) (split_count both_larger c_ae l).
(** the loop "for _model, _dd in zip(self._model_names, self._list_data_dict)" *)
Definition all_counts {N} (model_names : list N) (data : list (list crow)) : list (N * counts) :=
  map (fun p => (fst p, model_counts (snd p))) (combine model_names data).
