(** * Properties C107, C108: polytropic stellar structure. *)
From Coq Require Import Reals Lra Lia Psatz.
From Coquelicot Require Import Coquelicot.
From Verif Require Import Base.
From Verif Require Poly_Model.
From Verif Require Import Poly_Spec.
From Verif Require Poly_Proofs.
Local Open Scope R_scope.
Notation NaN := Poly_Model.NaN.

(** C107: from samples of a solution of the Lane-Emden equation and the mass and radius of the
    star, the arrays are those of a self-gravitating star in hydrostatic equilibrium with a
    polytropic relation, with that mass and radius: the radius coordinate, pressure, density,
    enclosed mass, gravity, and the first three derivatives of density, pressure and potential. *)
Theorem C107_polytrope_arrays : forall S zz zs th th',
  lane_emden (Poly_Model.p_idx S) zs th th' -> regular_ends zs th th' -> samples S zz zs th th' -> sensible S zs th' ->
  exists K rho P g m rc,
    hydrostatic_polytrope (Poly_Model.p_G S) (Poly_Model.p_idx S) K (Poly_Model.p_radius S) rho P g m /\
    total_mass (Poly_Model.p_mass S) (Poly_Model.p_radius S) m /\
    filterlim rho (at_right 0) (locally rc) /\ Poly_Model.rho0 S = Fin rc /\
    forall i, (i <= Poly_Model.p_n S)%nat -> 0 < zz i < zs -> let r := Poly_Model.p_radius S * zz i / zs in
      Poly_Model.r S i = Fin r /\ Poly_Model.rho S i = Fin (rho r) /\ Poly_Model.p S i = Fin (P r) /\
      Poly_Model.mr S i = Fin (m r) /\ Poly_Model.surfgrav S i = Fin (g r) /\
      derivatives_at rho r (Poly_Model.drho S i) (Poly_Model.drho2 S i) (Poly_Model.drho3 S i) /\
      derivatives_at P r (Poly_Model.dp S i) (Poly_Model.dp2 S i) (Poly_Model.dp3 S i) /\
      Poly_Model.dgravpot S i = Fin (g r) /\
      exists g1 g2, Poly_Model.dgravpot2 S i = Fin g1 /\ Poly_Model.dgravpot3 S i = Fin g2 /\ is_derive_n g 1 r g1 /\ is_derive_n g 2 r g2.
Proof.
  intros S zz zs th th' HL HE HS HN. destruct (Poly_Proofs.ends_ok S zs th th' HN HE) as [TM LR].
  do 4 eexists. exists (Poly_Proofs.f_m S zs th'). eexists. split; [exact (Poly_Proofs.star_ok S zs th th' HL HN)|]. split; [exact TM|]. split; [exact LR|]. split; [exact (Poly_Proofs.rho0_ok S zz zs th th' HS HN)|].
  intros i Hi Hz r. pose proof (Poly_Proofs.ri_range S zz zs th' HN i Hz) as Hr. fold r in Hr.
  split; [exact (Poly_Proofs.at_r S zz zs th th' HS HN i Hi)|].
  split; [exact (Poly_Proofs.at_rho S zz zs th th' HL HS HN i Hi Hz)|].
  split; [exact (Poly_Proofs.at_p S zz zs th th' HL HS HN i Hi Hz)|].
  split; [exact (Poly_Proofs.at_mr S zz zs th th' HS HN i Hi)|].
  split; [exact (Poly_Proofs.at_g S zz zs th th' HS HN i Hi)|].
  split.
  { destruct (Poly_Proofs.rho_derivs S zs th th' HL HN) as (D1 & D2 & D3).
    exists (Poly_Proofs.rho_1 S zs th th' r), (Poly_Proofs.rho_2 S zs th th' r), (Poly_Proofs.rho_3 S zs th th' r).
    split; [exact (Poly_Proofs.at_drho S zz zs th th' HL HS HN i Hi Hz)|]. split; [exact (Poly_Proofs.at_drho2 S zz zs th th' HL HS HN i Hi Hz)|]. split; [exact (Poly_Proofs.at_drho3 S zz zs th th' HL HS HN i Hi Hz)|].
    exact (Poly_Proofs.chain _ _ _ _ _ D1 D2 D3 r Hr). }
  split.
  { destruct (Poly_Proofs.P_derivs S zs th th' HL HN) as (D1 & D2 & D3).
    exists (Poly_Proofs.P_1 S zs th th' r), (Poly_Proofs.P_2 S zs th th' r), (Poly_Proofs.P_3 S zs th th' r).
    split; [exact (Poly_Proofs.at_dp S zz zs th th' HL HS HN i Hi Hz)|]. split; [exact (Poly_Proofs.at_dp2 S zz zs th th' HL HS HN i Hi Hz)|]. split; [exact (Poly_Proofs.at_dp3 S zz zs th th' HL HS HN i Hi Hz)|].
    exact (Poly_Proofs.chain _ _ _ _ _ D1 D2 D3 r Hr). }
  split; [exact (Poly_Proofs.at_dg S zz zs th th' HS HN i Hi)|].
  destruct (Poly_Proofs.g_derivs S zs th th' HL HN) as (D1 & D2).
  exists (Poly_Proofs.g_1 S zs th th' r), (Poly_Proofs.g_2 S zs th th' r).
  split; [exact (Poly_Proofs.at_dg2 S zz zs th th' HL HS HN i Hi Hz)|]. split; [exact (Poly_Proofs.at_dg3 S zz zs th th' HL HS HN i Hi Hz)|].
  exact (Poly_Proofs.chain2 _ _ _ _ D1 D2 r Hr).
Qed.

(** C107, dimensionless variables: with rho, p, m, g the numbers stored at an interior point at
    radius r, V = rho g r / p, V_2 = V / (r/R)^2, U = 4 pi r^3 rho / m, c_1 = (r/R)^3 M / m; and with a
    finite non-zero adiabatic exponent gamma, A* = r (p' / (gamma p) - rho' / rho) and
    N^2 = g A* / r. *)
Theorem C107_dimensionless : forall S zz zs th th',
  lane_emden (Poly_Model.p_idx S) zs th th' -> samples S zz zs th th' -> sensible S zs th' ->
  forall i, (i <= Poly_Model.p_n S)%nat -> 0 < zz i < zs ->
  let M := Poly_Model.p_mass S in let R := Poly_Model.p_radius S in
  exists r rho p m g rho' p', 0 < r /\ 0 < rho /\ 0 < p /\ 0 < m /\ 0 < g /\
    Poly_Model.r S i = Fin r /\ Poly_Model.rho S i = Fin rho /\ Poly_Model.p S i = Fin p /\ Poly_Model.mr S i = Fin m /\ Poly_Model.surfgrav S i = Fin g /\
    Poly_Model.drho S i = Fin rho' /\ Poly_Model.dp S i = Fin p' /\
    Poly_Model.v S i = Fin (rho * g * r / p) /\ Poly_Model.v_2 S i = Fin (rho * g * r / p / (r / R) ^ 2) /\
    Poly_Model.u S i = Fin (4 * PI * r ^ 3 * rho / m) /\ Poly_Model.c1 S i = Fin ((r / R) ^ 3 * (M / m)) /\
    forall gam, gam <> 0 -> Poly_Model.p_gamma1 S i = Fin gam ->
      Poly_Model.as_ S i = Fin (r * (p' / (gam * p) - rho' / rho)) /\ Poly_Model.brunt_n2 S i = Fin (g * (p' / (gam * p) - rho' / rho)).
Proof. exact Poly_Proofs.dimensionless. Qed.

(** C107, the surface: the last grid point has the radius and mass of the star and the gravity
    G M / R^2. *)
Theorem C107_surface : forall S zz zs th th', samples S zz zs th th' -> sensible S zs th' -> let i := Poly_Model.p_n S in
  Poly_Model.r S i = Fin (Poly_Model.p_radius S) /\ Poly_Model.mr S i = Fin (Poly_Model.p_mass S) /\
  Poly_Model.surfgrav S i = Fin (Poly_Model.p_G S * Poly_Model.p_mass S / Poly_Model.p_radius S ^ 2) /\ Poly_Model.x S i = Fin 1.
Proof. exact Poly_Proofs.surface. Qed.

(** C108: at the centre the second derivatives of potential and pressure are stored as 0, whereas
    in every star in hydrostatic equilibrium with that central density the gravity has the slope
    4 pi G rho_c / 3 and the pressure gradient the slope - 4 pi G rho_c^2 / 3 there; U, c_1, V_2 and
    N^2 are NaN there. *)
Theorem C108_centre : forall S zz zs th th' i,
  samples S zz zs th th' -> sensible S zs th' -> (i <= Poly_Model.p_n S)%nat -> zz i = 0 -> th 0 = 1 -> th' 0 = 0 ->
  Poly_Model.dgravpot2 S i = Fin 0 /\ Poly_Model.dp2 S i = Fin 0 /\ Poly_Model.drho2 S i = Fin 0 /\
  Poly_Model.u S i = NaN /\ Poly_Model.c1 S i = NaN /\ Poly_Model.v_2 S i = NaN /\ Poly_Model.brunt_n2 S i = NaN /\
  exists rc, 0 < rc /\ Poly_Model.rho S i = Fin rc /\
  forall K rho P g m, hydrostatic_polytrope (Poly_Model.p_G S) (Poly_Model.p_idx S) K (Poly_Model.p_radius S) rho P g m ->
    total_mass (Poly_Model.p_mass S) (Poly_Model.p_radius S) m -> filterlim rho (at_right 0) (locally rc) ->
    filterlim (Derive g) (at_right 0) (locally (4 * PI * Poly_Model.p_G S * rc / 3)) /\
    filterlim (fun r => Derive P r / r) (at_right 0) (locally (- (4 * PI * Poly_Model.p_G S * rc ^ 2 / 3))) /\
    0 < 4 * PI * Poly_Model.p_G S * rc / 3 /\ - (4 * PI * Poly_Model.p_G S * rc ^ 2 / 3) < 0.
Proof. exact Poly_Proofs.centre. Qed.

(** the hypotheses are met: the star of index 1, theta = sin z / z, on the grid 0, pi/2, pi *)
Definition sinc (z : R) : R := if Req_EM_T z 0 then 1 else sin z / z.
Definition sinc' (z : R) : R := if Req_EM_T z 0 then 0 else (z * cos z - sin z) / z ^ 2.
Definition grid (i : nat) : R := INR i * (PI / 2).
Definition star1 : Poly_Model.poly := Poly_Model.Build_poly 1 2 (fun i => Fin (grid i)) (fun i => Fin (sinc (grid i))) (fun i => Fin (sinc' (grid i))) (fun _ => Fin (5 / 3)) 1 2 3 (fun _ _ => NaN).
Lemma sinc'_neg z : 0 < z <= PI -> sinc' z < 0 /\ - z <= sinc' z.
Proof.
  intros H. unfold sinc'. destruct (Req_EM_T z 0); [lra|].
  destruct (MVT_gen (fun z => z * cos z - sin z) 0 z (fun c => - (c * sin c))) as (c & C & E).
  { intros c _. auto_derive; [trivial|]. ring. }
  { intros c _. apply continuity_pt_filterlim. apply (ex_derive_continuous (K := R_AbsRing) (V := R_NormedModule) (fun z => z * cos z - sin z) c). auto_derive. trivial. }
  rewrite Rmin_left, Rmax_right in C by lra. rewrite sin_0 in E.
  assert (X : z * cos z - sin z < 0).
  { destruct (Req_dec c 0) as [->|Nc].
    - exfalso. (* the difference would vanish *)
      assert (Y : z * cos z - sin z = 0) by lra. clear E. 
      destruct (MVT_cor2 (fun z => z * cos z - sin z) (fun c => - (c * sin c)) 0 z) as (c & E & D); [lra| |].
      + intros c _. apply is_derive_Reals. auto_derive; [trivial|]. ring.
      + rewrite sin_0 in E. assert (0 < sin c) by (apply sin_gt_0; lra). assert (0 < c * sin c) by (apply Rmult_lt_0_compat; lra). nra.
    - destruct (Req_dec c PI) as [->|Np].
      + assert (Z : z = PI) by lra. subst z. rewrite cos_PI, sin_PI. pose proof PI_RGT_0. lra.
      + assert (0 < sin c) by (apply sin_gt_0; lra). assert (0 < c * sin c) by (apply Rmult_lt_0_compat; lra). nra. }
  assert (Z2 : 0 < z ^ 2) by (apply pow_lt; lra). split.
  - apply (Rmult_lt_reg_r (z ^ 2)); [exact Z2|]. replace ((z * cos z - sin z) / z ^ 2 * z ^ 2) with (z * cos z - sin z) by (field; lra). lra.
  - apply (Rmult_le_reg_r (z ^ 2)); [exact Z2|]. replace ((z * cos z - sin z) / z ^ 2 * z ^ 2) with (z * cos z - sin z) by (field; lra).
    assert (sin c <= c). { destruct (Req_dec c 0) as [->|]; [rewrite sin_0; lra|]. apply Rlt_le, sin_lt_x. lra. }
    assert (0 <= sin c) by (apply sin_ge_0; lra). assert (c * sin c <= z * z) by (apply Rmult_le_compat; lra). nra.
Qed.
Lemma locally_pos z (X : R -> Prop) : 0 < z -> (forall t, 0 < t -> X t) -> locally z X.
Proof.
  intros H HX. exists (mkposreal z H). intros t Ht. apply HX. unfold ball in Ht. cbn in Ht. unfold AbsRing_ball, abs, minus, plus, opp in Ht. cbn in Ht. apply Rabs_lt_between in Ht. lra.
Qed.
Example C107_hypotheses_met : lane_emden (Poly_Model.p_idx star1) PI sinc sinc' /\ regular_ends PI sinc sinc' /\ samples star1 grid PI sinc sinc' /\ sensible star1 PI sinc' /\
  0 < grid 1 < PI /\ grid 0 = 0 /\ sinc 0 = 1 /\ sinc' 0 = 0.
Proof.
  pose proof PI_RGT_0 as HP. split; [|split; [|split; [|split]]].
  - intros z Hz. split; [|split; [|split]].
    + unfold sinc. destruct (Req_EM_T z 0); [lra|]. apply Rdiv_lt_0_compat; [apply sin_gt_0; lra|lra].
    + apply sinc'_neg. lra.
    + apply (is_derive_ext_loc (fun z => sin z / z)).
      * apply locally_pos; [lra|]. intros t Ht. unfold sinc. destruct (Req_EM_T t 0); [lra|reflexivity].
      * unfold sinc'. destruct (Req_EM_T z 0); [lra|]. auto_derive; [lra|]. field. lra.
    + apply (is_derive_ext_loc (fun z => (z * cos z - sin z) / z ^ 2)).
      * apply locally_pos; [lra|]. intros t Ht. unfold sinc'. destruct (Req_EM_T t 0); [lra|reflexivity].
      * change (Poly_Model.p_idx star1) with 1. rewrite Rpower_1.
        -- unfold sinc, sinc'. destruct (Req_EM_T z 0); [lra|]. auto_derive; [apply Rgt_not_eq; nra|]. field. lra.
        -- unfold sinc. destruct (Req_EM_T z 0); [lra|]. apply Rdiv_lt_0_compat; [apply sin_gt_0; lra|lra].
  - split; [|split].
    + apply Poly_Proofs.filterlim_right_eps. intros e He.
      assert (D : is_derive sin 0 1). { auto_derive; [trivial|]. rewrite cos_0. ring. }
      apply is_derive_Reals in D. destruct (D e He) as [d Hd]. exists d. split; [apply cond_pos|]. intros r Hr. specialize (Hd r). rewrite Rplus_0_l, sin_0, Rminus_0_r in Hd.
      unfold sinc. destruct (Req_EM_T r 0); [lra|]. apply Hd; [lra|]. rewrite Rabs_pos_eq; lra.
    + apply Poly_Proofs.filterlim_right_eps. intros e He. exists (Rmin e PI). split; [apply Rmin_glb_lt; lra|]. intros r Hr. pose proof (Rmin_l e PI). pose proof (Rmin_r e PI).
      destruct (sinc'_neg r) as [A B]; [lra|]. rewrite Rminus_0_r. apply Rabs_lt_between. lra.
    + apply (filterlim_filter_le_1 (F := locally PI)); [apply filter_le_within|].
      apply (ex_derive_continuous (K := R_AbsRing) (V := R_NormedModule) sinc' PI). eexists. apply (is_derive_ext_loc (fun z => (z * cos z - sin z) / z ^ 2)).
      * apply locally_pos; [lra|]. intros t Ht. unfold sinc'. destruct (Req_EM_T t 0); [lra|reflexivity].
      * auto_derive; [apply Rgt_not_eq; nra|reflexivity].
  - split; [intros i _; split; [|split]; reflexivity|]. cbn. unfold grid. cbn. field.
  - unfold sensible. cbn. repeat split; try lra. apply sinc'_neg. lra.
  - unfold grid, sinc, sinc'. cbn. repeat split; try lra; destruct (Req_EM_T 0 0); lra.
Qed.
