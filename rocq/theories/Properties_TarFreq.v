(** * The validity check of the traditional approximation in physical units, and in stars without rotation (C186). *)
From Coq Require Import Reals List ZArith Bool Lia Lra String.
From Verif Require Import Base Py Freq_Model Freq_Spec Freq_Proofs Properties_Freq Tar_Model Tar_Spec Properties_Tar TarFreq_Model TarFreq_Spec.
Import ListNotations.
Local Open Scope R_scope.

Lemma in_nth_error {A} (x : A) l : In x l -> exists i, nth_error l i = Some x.
Proof. apply In_nth_error. Qed.
(** C186: in a rotating star the check is the documented one in radians per second, whatever unit was requested and whatever units and
    frames the modes are stored in. *)
Theorem C186_check_in_physical_units :
  forall garbage ds r h n2 i x, set_mode_info garbage ds r = Ok h -> h_rps h <> 0 -> ds <> [] -> nth_error n2 i = Some x ->
  exists b, nth_error (tar_valid (handler_rotation_check h n2) (handler_frequency_check h n2)) i = Some b /\
    (b = true <-> approximation_holds (h_rps h) ds x).
Proof.
  intros garbage ds r h n2 i x H NZ Nd Nx.
  destruct (C41_angular_conversion_factor garbage ds r h H NZ) as (c & Hc & Ec & _ & Hm).
  destruct (handler_ok _ _ _ _ H) as (sr & c' & _ & Hc' & Pc & _ & _ & _ & Len & _). rewrite Hc in Hc'. injection Hc' as <-.
  unfold handler_rotation_check, handler_frequency_check, conv_factor. destruct (Req_EM_T (h_rps h) 0) as [Z|_]; [contradiction|].
  assert (Nm : map corot_o (h_modes h) <> []).
  { intros E. apply map_eq_nil in E. rewrite E in Len. destruct ds; [contradiction|discriminate]. }
  destruct (C100_validity_criterion (h_rps h) (angular_conv_factor_from_rps h) _ n2 i x Nm Nx) as (b & Hb & Ib).
  exists b. split; [exact Hb|]. rewrite Ib. unfold tar_holds, approximation_holds.
  assert (Pa : 0 < angular_conv_factor_from_rps h) by (rewrite Ec; unfold Rdiv; rewrite Rmult_1_l; apply Rinv_0_lt_compat, Pc).
  assert (Cmp : forall d y, nth_error (h_modes h) d <> None -> forall dd, nth_error ds d = Some dd -> nth_error (h_modes h) d = Some y ->
    (Rabs (corot_o y) < Rabs (0.1 * angular_conv_factor_from_rps h * sqrt x) <-> Rabs (corotating_rps (h_rps h) dd) < sqrt x / 10)).
  { intros d y _ dd Hd Hy. destruct (Hm d dd y Hd Hy) as [_ E]. rewrite E. unfold corotating_rps.
    set (w := 2 * PI * _). pose proof (sqrt_pos x) as SP.
    rewrite (Rabs_mult w), (Rabs_right (angular_conv_factor_from_rps h)) by lra.
    rewrite (Rabs_right (0.1 * angular_conv_factor_from_rps h * sqrt x)).
    2: { apply Rle_ge, Rmult_le_pos; [lra|exact SP]. }
    replace (0.1 * angular_conv_factor_from_rps h * sqrt x) with (sqrt x / 10 * angular_conv_factor_from_rps h) by (replace 0.1 with (/ 10) by lra; field).
    split; intros L; [apply Rmult_lt_reg_r with (1 := Pa), L|apply Rmult_lt_compat_r; assumption]. }
  split; intros (P & Q & F); (split; [exact P|]; split; [lra|]).
  - intros d Hd. apply in_nth_error in Hd. destruct Hd as [k Hk].
    destruct (nth_error (h_modes h) k) as [y|] eqn:Ey.
    + apply (Cmp k y ltac:(congruence) d Hk Ey). apply F, in_map, nth_error_In with (1 := Ey).
    + apply nth_error_None in Ey. assert (k < List.length ds)%nat by (apply nth_error_Some; congruence). lia.
  - intros w Hw. apply in_map_iff in Hw. destruct Hw as (y & <- & Hy). apply in_nth_error in Hy. destruct Hy as [k Hk].
    destruct (nth_error ds k) as [d|] eqn:Ed.
    + apply (Cmp k y ltac:(congruence) d Ed Hk). apply F, nth_error_In with (1 := Ed).
    + apply nth_error_None in Ed. assert (k < List.length (h_modes h))%nat by (apply nth_error_Some; congruence). lia.
Qed.
Print Assumptions C186_check_in_physical_units.
(** The zones do not depend on the requested unit. *)
Theorem C186_unit_does_not_matter :
  forall garbage garbage' ds r r' h h' n2, set_mode_info garbage ds r = Ok h -> set_mode_info garbage' ds r' = Ok h' -> ds <> [] ->
  tar_valid (handler_rotation_check h n2) (handler_frequency_check h n2) = tar_valid (handler_rotation_check h' n2) (handler_frequency_check h' n2).
Proof.
  intros g g' ds r r' h h' n2 H H' Nd.
  destruct (handler_ok _ _ _ _ H) as (_ & _ & _ & _ & _ & Rr & _ & _ & Len & _). destruct (handler_ok _ _ _ _ H') as (_ & _ & _ & _ & _ & Rr' & _ & _ & Len' & _).
  rewrite Rr in Rr'. injection Rr' as Eq.
  destruct (Req_dec (h_rps h) 0) as [Z|NZ].
  - assert (Z' : h_rps h' = 0) by congruence. unfold handler_rotation_check, handler_frequency_check, conv_factor. rewrite Z, Z'.
    destruct (Req_EM_T 0 0) as [_|N]; [|contradiction N; reflexivity].
    assert (E : forall k : handler, List.length (h_modes k) = List.length ds -> forallb (fun _ : R => false) (map corot_o (h_modes k)) = false).
    { intros k L. destruct (h_modes k); [destruct ds; [contradiction|discriminate]|reflexivity]. }
    rewrite (E h Len), (E h' Len'). reflexivity.
  - assert (NZ' : h_rps h' <> 0) by congruence.
    assert (L : forall k, List.length (tar_valid (handler_rotation_check k n2) (handler_frequency_check k n2)) = List.length n2).
    { intros k. unfold tar_valid, handler_rotation_check, handler_frequency_check, rotation_check, frequency_check. rewrite map_length, combine_length.
      destruct (conv_factor k); rewrite !map_length; apply Nat.min_id. }
    apply nth_ext with (d := false) (d' := false); [rewrite !L; reflexivity|]. intros i Hi. rewrite L in Hi.
    destruct (nth_error n2 i) as [x|] eqn:Ex; [|apply nth_error_None in Ex; lia].
    destruct (C186_check_in_physical_units g ds r h n2 i x H NZ Nd Ex) as (b & Hb & Ib).
    destruct (C186_check_in_physical_units g' ds r' h' n2 i x H' NZ' Nd Ex) as (b' & Hb' & Ib').
    rewrite (nth_error_nth _ _ false Hb), (nth_error_nth _ _ false Hb'). rewrite <- Eq, <- Ib in Ib'. destruct b, b'; try reflexivity; [symmetry|]; apply Ib'; reflexivity.
Qed.
Print Assumptions C186_unit_does_not_matter.
(** Finding: in a star without rotation the conversion factor is 0/0 and no point counts as valid, although the approximation is exact
    there for small enough frequencies: a star that is radiative everywhere is refused, any other one is treated as invalid throughout,
    so that the adjusted profile is zero and the adjusted coupling coefficient is the value of the profile at the innermost point. *)
Theorem C186_star_without_rotation :
  forall garbage ds r h quality n2, set_mode_info garbage ds r = Ok h -> h_rps h = 0 -> ds <> [] -> n2 <> [] ->
  (forall q, In q quality -> 10 < Rabs q) ->
  (forall b, In b (tar_valid (handler_rotation_check h n2) (handler_frequency_check h n2)) -> b = false) /\
  ((forall x, In x n2 -> 0 < x) -> handler_zones h quality n2 = Exc PhysicsError) /\
  ((exists x, In x n2 /\ x <= 0) -> exists z, handler_zones h quality n2 = Ok z /\
     forall y, adj_value (adjust (List.length n2) y z) = y 0%nat /\ forall k, adj_profile (adjust (List.length n2) y z) k = 0).
Proof.
  intros g ds r h quality n2 H Z Nd Nn Hq.
  destruct (handler_ok _ _ _ _ H) as (_ & _ & _ & _ & _ & _ & _ & _ & Len & _).
  assert (F : handler_frequency_check h n2 = map (fun _ => false) n2).
  { unfold handler_frequency_check, conv_factor. destruct (Req_EM_T (h_rps h) 0) as [_|N]; [|contradiction].
    apply map_ext. intros _. destruct (h_modes h); [destruct ds; [contradiction|discriminate]|reflexivity]. }
  assert (Inv : forall b, In b (tar_valid (handler_rotation_check h n2) (handler_frequency_check h n2)) -> b = false).
  { intros b Hb. rewrite F in Hb. unfold tar_valid in Hb. apply in_map_iff in Hb. destruct Hb as ([u v] & <- & Hp). apply in_combine_r in Hp.
    apply in_map_iff in Hp. destruct Hp as (_ & <- & _). apply andb_false_r. }
  assert (S : slow_manifold quality = true).
  { unfold slow_manifold. apply forallb_forall. intros q Q. apply Hq in Q. destruct (Rlt_dec 10 (Rabs q)); [reflexivity|lra]. }
  assert (Lr : List.length (handler_rotation_check h n2) = List.length n2) by apply map_length.
  assert (Lf : List.length (handler_rotation_check h n2) = List.length (handler_frequency_check h n2)) by (rewrite F, Lr, map_length; reflexivity).
  assert (Ff : forall b, In b (handler_frequency_check h n2) -> b = false) by (rewrite F; intros b Hb; apply in_map_iff in Hb; destruct Hb as (_ & <- & _); reflexivity).
  assert (Rot : forall x, abs_gt 0.1 (brunt x) (2 * h_rps h) = true <-> 0 < x).
  { intros x. rewrite Z. unfold abs_gt, brunt. rewrite Rmult_0_r, Rabs_R0. destruct (Rlt_dec x 0) as [L|L]; [split; [discriminate|lra]|].
    destruct (Rle_lt_or_eq_dec 0 x ltac:(lra)) as [P|P].
    - pose proof (sqrt_lt_R0 x P). destruct (Rlt_dec 0 (Rabs (0.1 * sqrt x))) as [_|N]; [tauto|].
      contradiction N. apply Rabs_pos_lt. lra.
    - subst x. rewrite sqrt_0, Rmult_0_r, Rabs_R0. destruct (Rlt_dec 0 0); [lra|]. split; [discriminate|lra]. }
  split; [exact Inv|]. unfold handler_zones. rewrite S. split.
  - intros Pos. apply C100_some_invalid_stars_rejected; [exact Lf|exact Inv|]. right. left. split; [exact Ff|].
    intros b Hb. unfold handler_rotation_check, rotation_check in Hb. apply in_map_iff in Hb. destruct Hb as (x & <- & Hx). apply Rot, Pos, Hx.
  - intros (x & Hx & Lx).
    assert (Nr : handler_rotation_check h n2 <> []) by (intros E; rewrite E in Lr; destruct n2; [contradiction Nn; reflexivity|discriminate]).
    destruct (C100_fully_invalid_star _ _ Lf Nr Inv) as (z & Ez & Fz & Iz & _).
    { right. split; [exact Ff|]. unfold handler_rotation_check, rotation_check. apply in_map_iff. exists x. split; [|exact Hx].
      destruct (abs_gt 0.1 (brunt x) (2 * h_rps h)) eqn:E; [|reflexivity]. apply Rot in E. lra. }
    exists z. split; [exact Ez|]. intros y. unfold adjust. rewrite Fz, Iz. rewrite Lr. unfold contribution. cbn [adj_value adj_profile map cumsum last fst snd]. split; [|reflexivity]. ring.
Qed.
Print Assumptions C186_star_without_rotation.

(** The hypotheses are met: two handlers of one mode, in cycles per day and radians per second, of a rotating star; one without rotation. *)
Theorem C186_hypotheses_met :
  (exists h h', let ds := [mkMode (3, 1) "NONE"%string "INERTIAL"%string 2 6 5 4 (Some [1; 2]) [1; 2]] in
     set_mode_info (fun _ => 0) ds "CPD" = Ok h /\ set_mode_info (fun _ => 1) ds "rad_per_sec" = Ok h' /\ h_rps h = 2 /\ ds <> []) /\
  (exists h, let ds := [mkMode (3, 1) "HZ"%string "INERTIAL"%string 2 6 5 4 (Some [1; 0]) [1; 2]] in
     set_mode_info (fun _ => 0) ds "CPD" = Ok h /\ h_rps h = 0 /\ ds <> []) /\
  (exists x, In x [1; -1; 4] /\ x <= 0).
Proof.
  split; [|split].
  - destruct C41_example_rotating as (h & H & R).
    destruct (C41_construction_succeeds (fun _ => 1) (mkMode (3, 1) "NONE"%string "INERTIAL"%string 2 6 5 4 (Some [1; 2]) [1; 2]) [] "rad_per_sec"%string (1 / (2 * PI)))
      as [h' H']; [reflexivity|discriminate|].
    exists h, h'. repeat apply conj; try assumption. discriminate.
  - destruct (C41_construction_succeeds (fun _ => 0) (mkMode (3, 1) "HZ"%string "INERTIAL"%string 2 6 5 4 (Some [1; 0]) [1; 2]) [] "CPD"%string (1 / 86400))
      as [h H]; [reflexivity|discriminate|].
    exists h. cbv zeta. split; [exact H|]. split; [|discriminate].
    destruct (handler_ok _ _ _ _ H) as (_ & _ & _ & _ & _ & Rr & _). cbn in Rr. injection Rr as Rr. symmetry. exact Rr.
  - exists (-1). split; [cbn; auto|lra].
Qed.
Print Assumptions C186_hypotheses_met.
