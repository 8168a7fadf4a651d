(** * Stationary solutions as reported to an observer (C184-C185). *)
From Coq Require Import Reals List ZArith Lia Lra Psatz.
From Coquelicot Require Import Complex.
From Verif Require Import Base Py Stab_Model PreCheck_Model Stat_Model Obs_Model Obs_Spec Obs_Proofs.
Import ListNotations.
Local Open Scope R_scope.

Section Observer.
Variable spline : Type.
Variable splrep : list R -> list R -> res spline.
Variable splev : R -> spline -> R.
Notation report := (stationary spline splrep splev).

Lemma report_ok a r : pre a = true -> report a = Ok r ->
  exists s c e b0 b1 b2,
    solver_object a = Some s /\ s_coupler s = Some c /\ eta c = Some e /\
    splrep (mus c) (hr c 0) = Ok b0 /\ splrep (mus c) (hr c 1) = Ok b1 /\ splrep (mus c) (hr c 2) = Ok b2.
Proof.
  intros P H. unfold stationary in H. rewrite P in H. destruct (solver_object a) as [s|]; [|discriminate].
  destruct (s_coupler s) as [c|] eqn:Ec; [|discriminate]. cbn [get_cc_product bind] in H.
  unfold solve in H. destruct (eta c) as [e|] eqn:Ee; [|discriminate]. cbn [amps fluctuation bind] in H.
  unfold observer_hough in H. cbn [mapM] in H.
  destruct (splrep (mus c) (hr c 0)) as [b0| |x0] eqn:E0; try discriminate.
  destruct (splrep (mus c) (hr c 1)) as [b1| |x1] eqn:E1; try discriminate.
  destruct (splrep (mus c) (hr c 2)) as [b2| |x2] eqn:E2; try discriminate.
  exists s, c, e, b0, b1, b2. auto 10.
Qed.
Lemma report_eq a s c e b0 b1 b2 : pre a = true ->
  solver_object a = Some s -> s_coupler s = Some c -> eta c = Some e ->
  splrep (mus c) (hr c 0) = Ok b0 -> splrep (mus c) (hr c 1) = Ok b1 -> splrep (mus c) (hr c 2) = Ok b2 ->
  let q := q_factor (detuning a) (rates a) in let qc := q_critical (detuning a) (rates a) in
  let A := amps (Some (Cmod e ^ 2)) (qf_products a) q qc in
  let a1 := as_num (fst (fst (fst A))) in let a2 := as_num (snd (fst (fst A))) in let a3 := as_num (snd (fst A)) in
  let d := disc_factors s in
  let h := fun b => match mu_inclination a with None => 1 | Some mu => splev mu b end in
  report a = Ok (mkSolution [a1; a2; a3]
    [nmul (nmul a1 (Some (Rabs (d 0%nat)))) (Some (h b0)); nmul (nmul a2 (Some (Rabs (d 1%nat)))) (Some (h b1));
     nmul (nmul a3 (Some (Rabs (d 2%nat)))) (Some (h b2))]
    (rates a) (sum3 (rates a)) (detuning a) q qc (snd A) (PNum (Some (relative_phase q)))
    (PNum (Some (stationary_lum_phase (relative_phase q) (rel_lum_phase d) (azimuthal_factors a c)))) (hyperbolic a) true).
Proof.
  intros P Es Ec Ee E0 E1 E2. cbv zeta. unfold stationary. rewrite P, Es, Ec. cbn [get_cc_product bind]. rewrite Ee.
  unfold solve, observer_hough. cbn [mapM amps fluctuation bind]. rewrite E0, E1, E2. reflexivity.
Qed.

(** C184: when the azimuthal orders add up (as they do for every triad that passes the solver's checks), the argument of the
    periastron changes nothing of what is reported, whatever else is asked for. *)
Theorem C184_periastron_never_matters :
  forall a s c, solver_object a = Some s -> s_coupler s = Some c -> (m_mode c 0 = m_mode c 1 + m_mode c 2)%Z ->
  forall inclination p p', report (with_observer a inclination p) = report (with_observer a inclination p').
Proof.
  intros a s c Es Ec Hm i p p'. unfold stationary. cbn [with_observer pre solver_object]. destruct (pre a); [|reflexivity].
  rewrite Es, Ec. cbn [get_cc_product bind]. unfold solve. cbn [with_observer detuning rates qf_products hyperbolic].
  destruct (amps _ _ _ _) as [[[a1 a2] a3] ac].
  assert (L : forall x, stationary_lum_phase x (rel_lum_phase (disc_factors s)) (azimuthal_factors (with_observer a i p) c) =
                        stationary_lum_phase x (rel_lum_phase (disc_factors s)) (azimuthal_factors (with_observer a i p') c)).
  { intros x. unfold stationary_lum_phase. rewrite !az_sum. replace (m_mode c 0 - m_mode c 1 - m_mode c 2)%Z with 0%Z by lia. ring. }
  rewrite L. reflexivity.
Qed.
Print Assumptions C184_periastron_never_matters.
(** In particular for every triad accepted by the solver's pre-checks, with the conjugation the solver uses by default. *)
Theorem C184_checked_triads :
  forall a s c A B D two_mode q, solver_object a = Some s -> s_coupler s = Some c ->
  three_mode_check [A; B; D] None ConjNone two_mode (rates a) q = Ok true ->
  m_mode c 0 = mm A -> m_mode c 1 = mm B -> m_mode c 2 = mm D ->
  forall inclination p p', report (with_observer a inclination p) = report (with_observer a inclination p').
Proof.
  intros a s c A B D t q Es Ec H M0 M1 M2. apply (C184_periastron_never_matters a s c Es Ec). rewrite M0, M1, M2.
  unfold three_mode_check, generic_check in H. cbn in H. injection H as H. rewrite !Bool.andb_true_r in H.
  apply andb_prop in H. destruct H as [H _]. apply andb_prop in H. destruct H as [H _].
  unfold azimuthal_rule in H. apply Z.eqb_eq in H. cbn in H. lia.
Qed.
Print Assumptions C184_checked_triads.
(** The reported luminosity phase: the relative phase, shifted by the mismatch of the azimuthal orders times the azimuth of the
    observer. The phases of the disc integrals do not enter. *)
Theorem C184_luminosity_phase :
  forall a r, pre a = true -> report a = Ok r ->
  exists s c z ph, solver_object a = Some s /\ s_coupler s = Some c /\
    rel_phase r = PNum (Some ph) /\
    lum_phase r = PNum (Some (ph + IZR (m_mode c 0%nat - m_mode c 1%nat - m_mode c 2%nat) * z)) /\
    match periastron_arg a with None => z = 0 | Some p => reduced_angle (PI / 2 - p) z end.
Proof.
  intros a r P H. destruct (report_ok a r P H) as (s & c & e & b0 & b1 & b2 & Es & Ec & Ee & E0 & E1 & E2).
  rewrite (report_eq a s c e b0 b1 b2 P Es Ec Ee E0 E1 E2) in H. apply ok_inj in H. subst r. cbn [rel_phase lum_phase].
  exists s, c, (match azimuth a with None => 0 | Some z => z end), (relative_phase (q_factor (detuning a) (rates a))).
  repeat apply conj; try assumption; try reflexivity.
  - unfold stationary_lum_phase. rewrite az_sum, lum_zero. do 2 f_equal. ring.
  - unfold azimuth. destruct (periastron_arg a) as [p|]; [apply np_mod_reduced|reflexivity].
Qed.
Print Assumptions C184_luminosity_phase.
(** Without an inclination the surface flux variations are the amplitudes times the moduli of the disc factors; with one, only they
    change: each is multiplied by the value of the mode's Hough spline at the cosine of the inclination, negative ones included. *)
Theorem C184_inclination :
  forall a r i, pre a = true -> report (with_observer a None (periastron_arg a)) = Ok r ->
  exists s c b r', solver_object a = Some s /\ s_coupler s = Some c /\
    (forall k, (k < 3)%nat -> splrep (mus c) (hr c k) = Ok (b k)) /\
    (forall k, (k < 3)%nat -> nth k (fluxes r) None = nmul (nth k (eq_amps r) None) (Some (Rabs (tk s k * lums s k - ek s k * xirs s k)))) /\
    report (with_observer a (Some i) (periastron_arg a)) = Ok r' /\
    (forall k, (k < 3)%nat -> nth k (fluxes r') None = nmul (nth k (fluxes r) None) (Some (splev (cos i) (b k)))) /\
    eq_amps r' = eq_amps r /\ crit_amp r' = crit_amp r /\ rel_phase r' = rel_phase r /\ lum_phase r' = lum_phase r /\
    s_hyperbolic r' = s_hyperbolic r /\ s_linearly_stable r' = s_linearly_stable r.
Proof.
  intros a r i P H. destruct (report_ok (with_observer a None (periastron_arg a)) r P H) as (s & c & e & b0 & b1 & b2 & Es & Ec & Ee & E0 & E1 & E2).
  cbn [with_observer solver_object] in Es.
  rewrite (report_eq (with_observer a None (periastron_arg a)) s c e b0 b1 b2 P Es Ec Ee E0 E1 E2) in H. apply ok_inj in H. subst r.
  exists s, c, (fun k => match k with 0%nat => b0 | 1%nat => b1 | _ => b2 end). eexists.
  split; [exact Es|]. split; [exact Ec|]. split; [intros [|[|[|k]]] Hk; try lia; assumption|].
  split.
  { intros [|[|[|k]]] Hk; try lia; cbn [fluxes eq_amps nth mu_inclination with_observer spin_inclination]; unfold disc_factors; rewrite Rabs_Rabsolu;
      cbn [with_observer detuning rates qf_products]; destruct (as_num _); cbn [nmul]; try reflexivity; f_equal; ring. }
  split; [exact (report_eq (with_observer a (Some i) (periastron_arg a)) s c e b0 b1 b2 P Es Ec Ee E0 E1 E2)|].
  split; [|repeat apply conj; reflexivity].
  intros [|[|[|k]]] Hk; try lia; cbn [fluxes nth mu_inclination with_observer spin_inclination detuning rates qf_products];
    destruct (as_num _); cbn [nmul]; try reflexivity; f_equal; ring.
Qed.
Print Assumptions C184_inclination.
(** Finding: the splines are built although no inclination is given, so a Hough function of which scipy can build none (for example
    on fewer than four points) makes every report fail. *)
Theorem C184_splines_always_built :
  forall a s c k, pre a = true -> solver_object a = Some s -> s_coupler s = Some c -> (k < 3)%nat ->
  (forall b, splrep (mus c) (hr c k) <> Ok b) -> forall i p r, report (with_observer a i p) <> Ok r.
Proof.
  intros a s c k P Es Ec Hk N i p r H. destruct (report_ok (with_observer a i p) r P H) as (s' & c' & e & b0 & b1 & b2 & Es' & Ec' & Ee & E0 & E1 & E2).
  cbn [with_observer solver_object] in Es'. rewrite Es in Es'. injection Es' as <-. rewrite Ec in Ec'. injection Ec' as <-.
  destruct k as [|[|[|k]]]; [apply (N b0 E0)|apply (N b1 E1)|apply (N b2 E2)|lia].
Qed.
Print Assumptions C184_splines_always_built.

(** C185: what is reported when. With the checks met but no coupling coefficient (complex modes) a TypeError, without a coupling object
    or solver an AttributeError; with the checks not met zeros and no phases, whatever the observer. *)
Theorem C185_failures :
  (forall a s c, pre a = true -> solver_object a = Some s -> s_coupler s = Some c -> eta c = None -> report a = Exc TypeError) /\
  (forall a, pre a = true -> (solver_object a = None \/ exists s, solver_object a = Some s /\ s_coupler s = None) -> report a = Exc AttributeError) /\
  (forall a i p, pre a = false -> exists r, report (with_observer a i p) = Ok r /\ report a = Ok r /\
     eq_amps r = [Some 0; Some 0; Some 0] /\ fluxes r = [Some 0; Some 0; Some 0] /\ crit_amp r = PNone /\ rel_phase r = PNone /\
     lum_phase r = PNone /\ s_linearly_stable r = false /\ s_q r = detuning a / sum3 (rates a)) /\
  (forall a r, report a = Ok r -> s_linearly_stable r = pre a /\ s_hyperbolic r = hyperbolic a /\ drive_rates r = rates a /\
     s_gamma r = sum3 (rates a) /\ s_detuning r = detuning a /\ s_q_crit r = detuning a / (rates a 1%nat + rates a 2%nat)).
Proof.
  split; [|split; [|split]].
  - intros a s c P Es Ec Ee. unfold stationary. rewrite P, Es, Ec. cbn [get_cc_product bind]. rewrite Ee. reflexivity.
  - intros a P [E|(s & Es & Ec)]; unfold stationary; rewrite P; [rewrite E; reflexivity|]. rewrite Es, Ec. reflexivity.
  - intros a i p P. unfold stationary. cbn [with_observer pre]. rewrite P. eexists. repeat apply conj; reflexivity.
  - intros a r H. destruct (pre a) eqn:P.
    + destruct (report_ok a r P H) as (s & c & e & b0 & b1 & b2 & Es & Ec & Ee & E0 & E1 & E2).
      rewrite (report_eq a s c e b0 b1 b2 P Es Ec Ee E0 E1 E2) in H. apply ok_inj in H. subst r. repeat apply conj; reflexivity.
    + unfold stationary in H. rewrite P in H. apply ok_inj in H. subst r. repeat apply conj; reflexivity.
Qed.
Print Assumptions C185_failures.
(** With quality factors w/gamma, positive frequencies and non-zero rates and coefficient, all three amplitudes are numbers exactly when the
    parent's rate has the sign opposite to those of both daughters, the threshold exactly when the daughters' rates have the same sign;
    then they are the amplitudes of the stationary solution (C38). *)
Theorem C185_amplitudes_are_numbers :
  forall a r w s c e, pre a = true -> report a = Ok r -> solver_object a = Some s -> s_coupler s = Some c -> eta c = Some e -> Cmod e <> 0 ->
  let g := rates a in
  qf_products a = quality_products 3 (quality w g) ->
  0 < w 0%nat -> 0 < w 1%nat -> 0 < w 2%nat -> g 0%nat <> 0 -> g 1%nat <> 0 -> g 2%nat <> 0 ->
  ((forall k, (k < 3)%nat -> nth k (eq_amps r) None <> None) <->
     ((0 < g 0%nat /\ g 1%nat < 0 /\ g 2%nat < 0) \/ (g 0%nat < 0 /\ 0 < g 1%nat /\ 0 < g 2%nat))) /\
  (crit_amp r <> PNum None <-> 0 < g 1%nat * g 2%nat) /\
  ((0 < g 0%nat /\ g 1%nat < 0 /\ g 2%nat < 0) \/ (g 0%nat < 0 /\ 0 < g 1%nat /\ 0 < g 2%nat) ->
     let A := stationary_amps g w (Cmod e) (detuning a) in
     eq_amps r = [Some (a1 A); Some (a2 A); Some (a3 A)] /\ crit_amp r = PNum (Some (acrit A))).
Proof.
  intros a r w s c e P H Es Ec Ee Ne g Eq W0 W1 W2 G0 G1 G2.
  destruct (report_ok a r P H) as (s' & c' & e' & b0 & b1 & b2 & Es' & Ec' & Ee' & E0 & E1 & E2).
  rewrite Es in Es'. injection Es' as <-. rewrite Ec in Ec'. injection Ec' as <-. rewrite Ee in Ee'. injection Ee' as <-.
  rewrite (report_eq a s c e b0 b1 b2 P Es Ec Ee E0 E1 E2) in H. apply ok_inj in H. subst r.
  cbn [eq_amps crit_amp]. rewrite Eq.
  assert (PM : 0 < Cmod e) by (pose proof (Cmod_ge_0 e); lra).
  assert (Fac : forall q i j, g i <> 0 -> g j <> 0 -> 0 < w i -> 0 < w j ->
    let X := (1 + q ^ 2) * (1 / (Cmod e ^ 2 * (w i / g i * (w j / g j)))) in
    (0 < g i * g j -> 0 < X) /\ (g i * g j < 0 -> X < 0)).
  { intros q i j Gi Gj Wi Wj X.
    assert (EX : X * (Cmod e ^ 2 * w i * w j) = (1 + q ^ 2) * (g i * g j)) by (unfold X; field; repeat split; lra).
    assert (PE : 0 < Cmod e ^ 2 * w i * w j) by (apply Rmult_lt_0_compat; [apply Rmult_lt_0_compat; [apply pow_lt, PM|]|]; lra).
    assert (PQ : 0 < 1 + q ^ 2) by (pose proof (pow2_ge_0 q); lra).
    split; intros HG.
    - apply Rmult_lt_reg_r with (1 := PE). rewrite EX, Rmult_0_l. apply Rmult_lt_0_compat; assumption.
    - apply Rmult_lt_reg_r with (1 := PE). rewrite EX, Rmult_0_l. nra. }
  set (q := q_factor (detuning a) (rates a)). set (qc := q_critical (detuning a) (rates a)).
  assert (F12 := Fac q 1%nat 2%nat G1 G2 W1 W2). assert (F02 := Fac q 0%nat 2%nat G0 G2 W0 W2). assert (F01 := Fac q 0%nat 1%nat G0 G1 W0 W1).
  assert (Fc := Fac qc 1%nat 2%nat G1 G2 W1 W2). cbv zeta in F12, F02, F01, Fc. clear Fac.
  assert (ES : stationary_amps g w (Cmod e) (detuning a) =
    {| a1 := sqrt ((1 + q ^ 2) * (1 / (Cmod e ^ 2 * (w 1%nat / g 1%nat * (w 2%nat / g 2%nat))))) / 2;
       a2 := sqrt (- ((1 + q ^ 2) * (1 / (Cmod e ^ 2 * (w 0%nat / g 0%nat * (w 2%nat / g 2%nat)))))) / 2;
       a3 := sqrt (- ((1 + q ^ 2) * (1 / (Cmod e ^ 2 * (w 0%nat / g 0%nat * (w 1%nat / g 1%nat)))))) / 2;
       acrit := sqrt ((1 + qc ^ 2) * (1 / (Cmod e ^ 2 * (w 1%nat / g 1%nat * (w 2%nat / g 2%nat))))) / 2 |}).
  { unfold stationary_amps. replace (Rabs (Cmod e)) with (Cmod e) by (symmetry; apply Rabs_right; lra). reflexivity. }
  unfold amps. fold g. change (quality_products 3 (quality w g)) with
    [w 0%nat / g 0%nat * (w 1%nat / g 1%nat); w 0%nat / g 0%nat * (w 2%nat / g 2%nat); w 1%nat / g 1%nat * (w 2%nat / g 2%nat)].
  cbn [nth fst snd as_num].
  revert F12 F02 F01 Fc ES.
  generalize ((1 + q ^ 2) * (1 / (Cmod e ^ 2 * (w 1%nat / g 1%nat * (w 2%nat / g 2%nat))))).
  generalize ((1 + q ^ 2) * (1 / (Cmod e ^ 2 * (w 0%nat / g 0%nat * (w 2%nat / g 2%nat))))).
  generalize ((1 + q ^ 2) * (1 / (Cmod e ^ 2 * (w 0%nat / g 0%nat * (w 1%nat / g 1%nat))))).
  generalize ((1 + qc ^ 2) * (1 / (Cmod e ^ 2 * (w 1%nat / g 1%nat * (w 2%nat / g 2%nat))))).
  intros xc x01 x02 x12 F12 F02 F01 Fc ES.
  assert (NN : forall x, nmul (nsqrt x) (Some (/ 2)) <> None -> 0 <= x).
  { intros x Hx. destruct (Rlt_dec x 0) as [L|L]; [|lra]. rewrite (nsqrt_neg x L) in Hx. contradiction Hx; reflexivity. }
  split; [|split].
  - split.
    + intros Hn. assert (N0 := Hn 0%nat ltac:(lia)). assert (N1 := Hn 1%nat ltac:(lia)). assert (N2 := Hn 2%nat ltac:(lia)). cbn [nth] in N0, N1, N2.
      apply NN in N0, N1, N2.
      assert (A1 : g 0%nat * g 2%nat < 0).
      { destruct (Rlt_dec 0 (g 0%nat * g 2%nat)) as [L|L]; [apply F02 in L; lra|]. assert (g 0%nat * g 2%nat <> 0) by (apply Rmult_integral_contrapositive_currified; assumption). lra. }
      assert (A2 : g 0%nat * g 1%nat < 0).
      { destruct (Rlt_dec 0 (g 0%nat * g 1%nat)) as [L|L]; [apply F01 in L; lra|]. assert (g 0%nat * g 1%nat <> 0) by (apply Rmult_integral_contrapositive_currified; assumption). lra. }
      destruct (Rlt_dec 0 (g 0%nat)) as [L|L]; [left|right]; repeat split; nra.
    + intros D. assert (A12 : 0 < g 1%nat * g 2%nat) by (destruct D as [D|D]; nra). assert (A02 : g 0%nat * g 2%nat < 0) by (destruct D as [D|D]; nra).
      assert (A01 : g 0%nat * g 1%nat < 0) by (destruct D as [D|D]; nra). apply F12 in A12. apply F02 in A02. apply F01 in A01.
      intros [|[|[|k]]] Hk; try lia; cbn [nth]; rewrite nsqrt_pos by lra; discriminate.
  - split.
    + intros Hc. destruct (Rlt_dec xc 0) as [L|L]; [rewrite (nsqrt_neg xc L) in Hc; contradiction Hc; reflexivity|].
      destruct (Rlt_dec (g 1%nat * g 2%nat) 0) as [L2|L2]; [apply Fc in L2; lra|].
      assert (g 1%nat * g 2%nat <> 0) by (apply Rmult_integral_contrapositive_currified; assumption). lra.
    + intros L. apply Fc in L. rewrite nsqrt_pos by lra. discriminate.
  - intros D. assert (A12 : 0 < g 1%nat * g 2%nat) by (destruct D as [D|D]; nra). assert (A02 : g 0%nat * g 2%nat < 0) by (destruct D as [D|D]; nra).
    assert (A01 : g 0%nat * g 1%nat < 0) by (destruct D as [D|D]; nra).
    assert (Ac := A12). apply Fc in Ac. apply F12 in A12. apply F02 in A02. apply F01 in A01. cbv zeta. rewrite ES. cbn [a1 a2 a3 acrit].
    rewrite !nsqrt_pos by lra. split; reflexivity.
Qed.
Print Assumptions C185_amplitudes_are_numbers.
End Observer.

(** The hypotheses are met: a checked triad of modes with azimuthal orders 2, 1, 1, whose flux variation is negative for an observer on the
    other side. Splines of constant functions stand for those of scipy. *)
Definition sample_coupler : coupler := mkCoupler (Some (RtoC 2)) [0; 1; 2; 3] (fun _ => [-1; -1; -1; -1]) (fun i => match i with 0%nat => 2%Z | _ => 1%Z end).
Definition sample_solver : solver := mkSolver (Some sample_coupler) (fun _ => 3) (fun _ => 1) (fun _ => 1) (fun _ => 1).
Definition sample_args : args :=
  mkArgs true (Some sample_solver) true (vec3 1 (-2) (-2)) (quality_products 3 (quality (vec3 2 1 1) (vec3 1 (-2) (-2)))) 1 None (Some 1).
Theorem C184_hypotheses_met :
  exists r r', let splrep := fun x y : list R => match y with v :: _ => Ok v | [] => Exc TypeError end in
    pre sample_args = true /\
    stationary R splrep (fun _ v => v) sample_args = Ok r /\
    stationary R splrep (fun _ v => v) (with_observer sample_args (Some 1) (Some 1)) = Ok r' /\
    (exists x, nth 0 (fluxes r) None = Some x /\ 0 < x) /\ (exists y, nth 0 (fluxes r') None = Some y /\ y < 0) /\
    lum_phase r = lum_phase r' /\ (m_mode sample_coupler 0 = m_mode sample_coupler 1 + m_mode sample_coupler 2)%Z.
Proof.
  set (splrep := fun x y : list R => match y with v :: _ => Ok v | [] => Exc TypeError end).
  pose proof (report_eq R splrep (fun _ v => v) sample_args sample_solver sample_coupler (RtoC 2) (-1) (-1) (-1)
    eq_refl eq_refl eq_refl eq_refl eq_refl eq_refl eq_refl) as H. cbv zeta in H.
  match type of H with _ = Ok ?x => revert H; generalize x; intros r H end.
  destruct (C184_inclination R splrep (fun _ v => v) sample_args r 1 eq_refl H) as (s & c & b & r' & Es & Ec & Hb & F & H' & F' & _ & _ & _ & L & _).
  cbn in Es, Ec. injection Es as <-. injection Ec as <-.
  destruct (C185_amplitudes_are_numbers R splrep (fun _ v => v) sample_args r (vec3 2 1 1) sample_solver sample_coupler (RtoC 2)
    eq_refl H eq_refl eq_refl eq_refl) as (N & _ & Val).
  { rewrite Cmod_R, Rabs_right; lra. } { reflexivity. }
  1-3: cbn; lra. 1-3: cbn; lra.
  destruct Val as [VA _]; [left; cbn; lra|].
  exists r, r'. cbv zeta. split; [reflexivity|]. split; [exact H|]. split; [exact H'|].
  assert (F0 := F 0%nat ltac:(lia)). assert (F0' := F' 0%nat ltac:(lia)). assert (B0 := Hb 0%nat ltac:(lia)).
  rewrite VA in F0. cbn [nth] in F0. unfold sample_solver in F0. cbn [tk lums ek xirs nmul] in F0. rewrite (Rabs_right (1 * 3 - 1 * 1)) in F0 by lra.
  rewrite F0 in F0'. assert (EB : b 0%nat = -1) by (cbn in B0; injection B0 as B0; congruence). rewrite EB in F0'. cbn [nmul] in F0'.
  set (A := a1 _) in *. assert (PA : 0 < A).
  { unfold A, stationary_amps, theoretical_amps. cbn [a1 nth]. rewrite Cmod_R, (Rabs_right 2), (Rabs_right 2) by lra.
    apply Rdiv_lt_0_compat; [|lra]. apply sqrt_lt_R0. unfold q_factor, sum3, quality_products, quality, vec3. cbn. lra. }
  split; [eexists; split; [exact F0|lra]|]. split; [eexists; split; [exact F0'|lra]|]. split; [symmetry; exact L|reflexivity].
Qed.
Print Assumptions C184_hypotheses_met.
