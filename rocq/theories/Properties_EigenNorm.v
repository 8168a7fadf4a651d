(** * C51, C75: eigenfunction normalisation. *)
From Coq Require Import Reals List ZArith Bool String Lia Lra.
From Coquelicot Require Import Complex.
From Verif Require Import Base Py Coupling_Model Coupling_Spec EigenNorm_Model EigenNorm_Spec EigenNorm_Proofs.
Import ListNotations.
Local Open Scope R_scope.

(** C51: whatever the data object computes as energy (so also under rounding) and however many
    refinements are made, each listed eigenfunction of each mode ends as the stored normalising
    factor times the original one; everything else is untouched. *)
Theorem C51_eigenfunctions_are_factor_times_original : forall d a e c s,
  NoDup (d_names d) -> normalise d a e c = Ok s ->
  (forall m, (1 <= m <= d_modes d)%nat -> exists f, nth (m - 1) (facs s) None = Some f /\
     scaled_by (d_names d) f (attrs s m) (a m)) /\
  (forall m, ~ (1 <= m <= d_modes d)%nat -> forall nm i, attrs s m nm i = a m nm i) /\
  List.length (facs s) = d_modes d.
Proof.
  intros d a e c s ND E. destruct (normalise_inv d ND a e c s E) as (L1 & L2 & H). split; [|split; [|exact L1]].
  - intros m Hm. destruct (H m) as [A _]. apply A. lia.
  - intros m Hm. destruct (H m) as [_ A]. apply A. lia.
Qed.
(** The number of refinements never exceeds the limit and is 0 when iteration is off; an iterative
    run that stops early has all its checks satisfied and logs nothing, one that uses up a positive
    limit logs exactly one record. *)
Theorem C51_iteration_limit : forall d a e c s, normalise d a e c = Ok s ->
  (iters s <= d_max d)%nat /\ (d_iterate d = false -> iters s = 0%nat) /\
  (d_iterate d = true -> (iters s < d_max d)%nat -> (forall i, nth i (checks s) false = false) /\ log s = []) /\
  (d_iterate d = true -> (1 <= d_max d)%nat -> iters s = d_max d -> exists nrs devs, log s = [(nrs, devs)]).
Proof.
  intros d a e c s E. destruct (normalise_iters d a e c s E) as [A B]. split; [exact A|]. split; [exact B|]. split.
  - intros Hi Hlt. destruct (normalise_log d a e c s Hi E) as [(X & Y & _)|(X & _)]; [|lia]. split; [apply any_false; exact X|exact Y].
  - intros Hi Hp Heq. destruct (normalise_log d a e c s Hi E) as [(_ & _ & [X|X])|(_ & _ & X)]; [lia|lia|exact X].
Qed.
(** The energies stored at the end are those of the final eigenfunctions, and a mode is flagged
    exactly when its energy (or norm) differs from the goal. *)
Theorem C51_flags_describe_final_state : forall d cv a e c s,
  NoDup (d_names d) -> get_convention (d_conv d) = Ok cv -> local_energy (d_comp d) -> d_npbool d = true ->
  normalise d a e c = Ok s -> forall m, (1 <= m <= d_modes d)%nat ->
  d_comp d (attrs s) m = Ok (en_ s m, cn_ s m) /\
  (nth (m - 1) (checks s) false = true <-> quantity cv (en_ s m, cn_ s m) <> goal d cv).
Proof.
  intros d cv a e c s ND HC HL Hnp E m Hm. destruct (normalise_cons d cv ND HC HL a e c s E) as [_ H]. destruct (H m Hm) as [A B].
  split; [exact A|]. unfold right_check in B. rewrite Hnp in B. rewrite B. split; intros X Y; apply X; congruence.
Qed.
(** In exact arithmetic with a quadratic energy one step reaches the goal: no refinement, no flag,
    no log record; the factor is sqrt(goal / original value). *)
Theorem C51_one_step_reaches_goal : forall d cv a e c,
  NoDup (d_names d) -> get_convention (d_conv d) = Ok cv -> quadratic_energy (d_names d) (d_comp d) ->
  (forall m, (1 <= m <= d_modes d)%nat -> d_comp d a m = Ok (e m, c m)) ->
  (forall m, (1 <= m <= d_modes d)%nat -> 0 < quantity cv (e m, c m)) ->
  0 < d_G d -> 0 < d_M d -> 0 < d_R d -> d_npbool d = true ->
  exists s, normalise d a e c = Ok s /\ iters s = 0%nat /\ log s = [] /\ (forall b, In b (checks s) -> b = false) /\
    forall m, (1 <= m <= d_modes d)%nat ->
      nth (m - 1) (facs s) None = Some (sqrt (goal d cv / quantity cv (e m, c m))) /\
      quantity cv (en_ s m, cn_ s m) = goal d cv.
Proof.
  intros d cv a e c ND HC HQ HE Hp HG HM HR Hnp.
  destruct (normalise_exact d cv a e c ND HC HQ HE Hp HG HM HR Hnp) as (s & E & A & B & C & D).
  exists s. repeat (split; [assumption|]). intros m Hm. destruct (D m Hm) as (F & _ & G1 & G2). split; [exact F|].
  rewrite G1, G2. assert (X : sqrt (goal d cv / quantity cv (e m, c m)) ^ 2 * quantity cv (e m, c m) = goal d cv) by (eapply fac_sq; eassumption).
  rewrite <- X at 3. destruct cv; reflexivity.
Qed.
(** When the comparison yields Python booleans, ~ makes every flag True: the flags are useless and an
    iterative run always exhausts its limit. *)
Theorem C51_python_bool_flags_everything : forall d cv a e c s,
  NoDup (d_names d) -> get_convention (d_conv d) = Ok cv -> local_energy (d_comp d) -> d_npbool d = false ->
  normalise d a e c = Ok s -> (1 <= d_modes d)%nat ->
  (forall m, (1 <= m <= d_modes d)%nat -> nth (m - 1) (checks s) false = true) /\
  (d_iterate d = true -> iters s = d_max d /\ (1 <= d_max d)%nat).
Proof.
  intros d cv a e c s ND HC HL Hnp E Hm1. destruct (normalise_cons d cv ND HC HL a e c s E) as [L H].
  assert (HA : forall m, (1 <= m <= d_modes d)%nat -> nth (m - 1) (checks s) false = true).
  { intros m Hm. destruct (H m Hm) as [_ B]. unfold right_check in B. rewrite Hnp in B. exact B. }
  split; [exact HA|]. intros Hi. destruct (normalise_log d a e c s Hi E) as [(X & _)|(X & Y & _)]; [|auto].
  apply any_false with (i := 0%nat) in X. specialize (HA 1%nat ltac:(lia)). cbn in HA. congruence.
Qed.
(** A limit of 0 iterations is not handled: if the first pass leaves any flag set, the iterative
    variant fails with an unbound local variable, although the non-iterative one succeeds. *)
Theorem C51_zero_iterations_fail : forall d a e c s,
  d_iterate d = true -> d_max d = 0%nat ->
  first_pass d a e c = Ok s ->
  normalise d a e c = if any (checks s) then Exc UnboundLocalError else Ok s.
Proof.
  intros d a e c s Hi Hm E. rewrite normalise_first, E. cbn [bind]. unfold iteratively_refine. rewrite Hi, Hm. cbn [andb].
  destruct (any (checks s)); reflexivity.
Qed.
(** An unknown convention raises KeyError. *)
Theorem C51_unknown_convention : forall d a e c, (1 <= d_modes d)%nat ->
  upper (d_conv d) <> "LEE2012"%string -> upper (d_conv d) <> "SCHENK2002"%string ->
  normalise d a e c = Exc KeyError.
Proof.
  intros d a e c Hm H1 H2. unfold normalise. destruct (d_modes d) as [|n]; [lia|]. cbn [seq forM]. unfold initial_mode at 1, factor_from_object, get_convention.
  apply String.eqb_neq in H1, H2. rewrite H1, H2. reflexivity.
Qed.

(** A one-mode object whose energy misses the goal after the first step and hits it after the second:
    the goal is reached within the limit, yet a record (deviation 0 %) is logged. *)
Definition two_step : setup := {|
  d_G := 1; d_M := 1; d_R := 1;
  d_comp := fun a m => Ok (if Req_EM_T (Re (a m "_z_1"%string 0%nat)) (1 / 2) then 4 else 1, 1);
  d_names := ["_z_1"%string]; d_conv := "lee2012"; d_modes := 1; d_iterate := true; d_max := 1; d_npbool := true |}.
Lemma sqrt_quarter : sqrt (1 * 1 ^ 2 / (1 * 4)) = 1 / 2.
Proof. replace (1 * 1 ^ 2 / (1 * 4)) with ((1 / 2) * (1 / 2)) by field. apply sqrt_square. lra. Qed.
Theorem C51_success_on_last_iteration_is_still_logged :
  exists s, normalise two_step (fun _ _ _ => RtoC 1) (fun _ => 4) (fun _ => 1) = Ok s /\
    iters s = 1%nat /\ checks s = [false] /\ en_ s 1%nat = 1 /\ log s = [([1%nat], [0])].
Proof.
  Ltac ev := cbv -[Req_EM_T Rlt_dec sqrt Rplus Rmult Rdiv Rminus pow IZR RtoC Cmult Re].
  ev.
  destruct (Req_EM_T (1 * 4) 0) as [X|_]; [exfalso; lra|]. ev.
  destruct (Rlt_dec (1 * 1 ^ 2 / (1 * 4)) 0) as [X|_]; [exfalso; lra|]. rewrite sqrt_quarter. ev.
  destruct (Req_EM_T (Re (RtoC (1 / 2) * RtoC 1)%C) (1 / 2)) as [_|X]; [|exfalso; apply X; unfold Re, Cmult, RtoC; cbn; lra]. ev.
  destruct (Req_EM_T (1 * 1 ^ 2 / 1) 4) as [X|_]; [exfalso; lra|]. ev.
  destruct (Req_EM_T (1 * 4) 0) as [X|_]; [exfalso; lra|]. ev.
  destruct (Rlt_dec (1 * 1 ^ 2 / (1 * 4)) 0) as [X|_]; [exfalso; lra|]. rewrite sqrt_quarter. ev.
  destruct (Req_EM_T (Re (RtoC (1 / 2) * (RtoC (1 / 2) * RtoC 1))%C) (1 / 2)) as [X|_].
  { exfalso. unfold Re, Cmult, RtoC in X. cbn in X. lra. }
  ev. destruct (Req_EM_T (1 * 1 ^ 2 / 1) 1) as [_|X]; [|exfalso; apply X; lra]. ev.
  eexists. split; [reflexivity|]. ev. split; [reflexivity|]. split; [reflexivity|]. split; [reflexivity|].
  replace ((1 * 1 ^ 2 / 1 - 1) / (1 * 1 ^ 2 / 1) * 100) with 0 by field. reflexivity.
Qed.

(** A mode object satisfying the hypotheses of the theorems above: energy |z_1(0)|^2. *)
Definition toy : setup := {|
  d_G := 2; d_M := 3; d_R := 5;
  d_comp := fun a m => Ok (let z := a m "_z_1"%string 0%nat in Re (z * z)%C, let z := a m "_z_1"%string 0%nat in Re (z * z)%C);
  d_names := ["_z_1"; "_z_2"]%string; d_conv := "Schenk2002"; d_modes := 2; d_iterate := true; d_max := 4; d_npbool := true |}.
Example C51_example : NoDup (d_names toy) /\ get_convention (d_conv toy) = Ok Schenk2002 /\ local_energy (d_comp toy)
  /\ quadratic_energy (d_names toy) (d_comp toy)
  /\ (forall m, (1 <= m <= 2)%nat -> d_comp toy (fun m _ _ => RtoC (INR m)) m = Ok (INR m * INR m, INR m * INR m))
  /\ (forall m, (1 <= m <= 2)%nat -> 0 < INR m * INR m).
Proof.
  split; [repeat constructor; cbn; intuition discriminate|]. split; [reflexivity|]. split; [|split; [|split]].
  - intros a b m H. cbn. rewrite H. reflexivity.
  - intros a b m c e k Hc E [H1 _]. cbn in *. rewrite H1 by (left; reflexivity). injection E as <- <-.
    apply (f_equal (@Ok (R * R))). apply f_equal2; unfold Re, Cmult, RtoC; cbn; ring.
  - intros m _. cbn. apply (f_equal (@Ok (R * R))). apply f_equal2; unfold Re, Cmult, RtoC; cbn; ring.
  - intros m Hm. assert (0 < INR m) by (apply lt_0_INR; lia). nra.
Qed.
Print Assumptions C51_eigenfunctions_are_factor_times_original.
Print Assumptions C51_iteration_limit.
Print Assumptions C51_flags_describe_final_state.
Print Assumptions C51_one_step_reaches_goal.
Print Assumptions C51_python_bool_flags_everything.
Print Assumptions C51_zero_iterations_fail.
Print Assumptions C51_unknown_convention.
Print Assumptions C51_success_on_last_iteration_is_still_logged.

(** C75: the coupler's own normalisation.  If the raw mode energies are positive, initialising the
    coupler succeeds, every mode energy becomes G M^2 / R, and the normalised coupling coefficient is
    prod_m sqrt((G M^2/R) / E_m) times the raw coefficient over G M^2 / R. *)
Theorem C75_coupler_energies_and_coefficient : forall E G M a (e k : nat -> R),
  standard E -> homogeneous (e_integ E) -> (2 <= e_n E)%nat -> 0 < G -> 0 < M -> 0 < e_R E ->
  (forall m, (1 <= m <= 3)%nat -> coupler_comp E a m = Ok (e m, k m) /\ 0 < e m) ->
  let unit_energy := G * M ^ 2 / e_R E in
  (exists s, coupler_normalisation E G M a = Ok s /\ forall m, (1 <= m <= 3)%nat -> en_ s m = unit_energy) /\
  exists kappa, coupling_coefficient (with_attributes E a) = Ok kappa /\
    coupler_normed E G M a =
      Ok (sqrt (unit_energy / e 1%nat) * sqrt (unit_energy / e 2%nat) * sqrt (unit_energy / e 3%nat) * kappa / unit_energy).
Proof.
  intros E G M a e k Hs Hh Hn HG HM HR He unit_energy. split.
  - destruct (coupler_exact E G M a e k Hs Hh Hn HG HM HR He) as (s & Es & H & _). exists s. split; [exact Es|]. intros m Hm. apply H, Hm.
  - exact (coupler_value E G M a e k Hs Hh Hn HG HM HR He).
Qed.
(** ... so it does not depend on the arbitrary amplitudes of the eigenfunctions GYRE delivers: nonzero
    real factors t_1, t_2, t_3 change at most its sign. *)
Theorem C75_coefficient_independent_of_input_amplitudes : forall E G M a b (t e k : nat -> R),
  standard E -> homogeneous (e_integ E) -> (2 <= e_n E)%nat -> 0 < G -> 0 < M -> 0 < e_R E ->
  (forall m, (1 <= m <= 3)%nat -> coupler_comp E a m = Ok (e m, k m) /\ 0 < e m) ->
  (forall m r i, b m (rname r) i = (RtoC (t m) * a m (rname r) i)%C) ->
  (forall m, (1 <= m <= 3)%nat -> t m <> 0) ->
  exists v, coupler_normed E G M a = Ok v /\
    coupler_normed E G M b = Ok (if Rlt_dec 0 (t 1%nat * t 2%nat * t 3%nat) then v else - v).
Proof.
  intros E G M a b t e k Hs Hh Hn HG HM HR He Hb Ht.
  destruct (coupler_amplitude_independent E G M a b t e k Hs Hh Hn HG HM HR He Hb Ht) as (v & A & B).
  exists v. split; [exact A|]. rewrite B. apply (f_equal (@Ok R)). unfold tri.
  assert (t 1%nat * t 2%nat * t 3%nat <> 0) by (repeat apply Rmult_integral_contrapositive_currified; apply Ht; lia).
  destruct (Rlt_dec _ _); [rewrite Rabs_right by lra|rewrite Rabs_left by lra]; field; repeat split; apply Ht; lia.
Qed.
(** the hypotheses hold for a concrete coupler: one-point-weighted sums, unit eigenfunctions *)
Definition demo75 : cenv := {|
  e_n := 2; e_x := fun _ => 1; e_nmu := 2; e_mu := fun _ => 0; e_rad := fun _ _ _ => RtoC 1; e_ang := fun _ _ _ => 1;
  e_m := [0; 0; 0]%Z; e_conj := ConjTuple [true; false; false]; e_self := false; e_complex := false; e_cheby := false;
  e_cheby_mul := 1; e_blow := false; e_blow_fac := 1; e_poly := false; e_P := fun _ => 1; e_G1 := fun _ => 1;
  e_rhon := fun _ => 1; e_rho := fun _ => 1; e_adder := None; e_g1 := fun _ => 1; e_g2 := fun _ => 1; e_g3 := fun _ => 1;
  e_normP := 1; e_normrho := 1; e_R := 1; e_corot := fun _ => 1; e_surf := 0; e_integ := fun _ ys _ => nth 0 ys 0 |}.
Example C75_example : standard demo75 /\ homogeneous (e_integ demo75) /\
  exists e k, forall m, (1 <= m <= 3)%nat -> coupler_comp demo75 (fun _ _ _ => RtoC 1) m = Ok (e m, k m) /\ 0 < e m.
Proof.
  split; [repeat split; do 3 eexists; reflexivity|]. split.
  { intros b a ys xs _ H. destruct ys; cbn in *; [lia|reflexivity]. }
  exists (fun _ => 2 * PI * (1 * ((2 * 1 * (2 * PI * 1 + 2 * PI * 1 + 2 * PI * 1) + 4 * 0 * 0) * (1 * 1 ^ 5)))), (fun _ => 2 * PI * (2 * PI * 1 + 2 * PI * 1 + 2 * PI * 1)). intros m _.
  pose proof PI_RGT_0. split; [|nra].
  rewrite coupler_comp_value by (repeat split; do 3 eexists; reflexivity). apply (f_equal (@Ok (R * R))).
  unfold volume_value, regular_theta, with_attributes, with_rad. cbn [demo75 e_corot e_surf e_normrho e_R e_ang e_integ e_nmu e_mu e_n e_x e_rhon e_rad map seq nth].
  unfold Re, Cmult, RtoC. cbn [fst snd]. apply f_equal2; ring.
Qed.
Print Assumptions C75_coupler_energies_and_coefficient.
Print Assumptions C75_coefficient_independent_of_input_amplitudes.
