(** * Lemmas for C107, C108. *)
From Coq Require Import Reals Lra Lia.
From Coquelicot Require Import Coquelicot.
From Verif Require Import Base.
From Verif Require Poly_Model.
From Verif Require Import Poly_Spec.
Local Open Scope R_scope.

(** ** Finite arithmetic *)
Lemma fdiv_ok a b : b <> 0 -> Poly_Model.fdiv (Fin a) (Fin b) = Fin (a / b).
Proof. intros H. cbn. destruct (Req_EM_T b 0); [contradiction|reflexivity]. Qed.
Lemma fpow_ok q a e : 0 < a -> Poly_Model.fpow q (Fin a) e = Fin (Rpower a e).
Proof. intros H. cbn. destruct (Rlt_dec a 0); [lra|]. destruct (Req_EM_T a 0); [lra|reflexivity]. Qed.
Lemma fsqrt_ok a : 0 <= a -> Poly_Model.fsqrt (Fin a) = Fin (sqrt a).
Proof. intros H. cbn. destruct (Rlt_dec a 0); [lra|reflexivity]. Qed.

Ltac pos := repeat match goal with
  | H : ?x |- ?x => exact H
  | |- 0 < _ * _ => apply Rmult_lt_0_compat | |- 0 < _ / _ => apply Rdiv_lt_0_compat | |- 0 < _ ^ _ => apply pow_lt | |- 0 < / _ => apply Rinv_0_lt_compat | |- _ => lra end.
(** ** Derivatives *)
Lemma chain (b : R) (f0 f1 f2 f3 : R -> R) :
  (forall r, 0 < r < b -> is_derive f0 r (f1 r)) -> (forall r, 0 < r < b -> is_derive f1 r (f2 r)) -> (forall r, 0 < r < b -> is_derive f2 r (f3 r)) ->
  forall r, 0 < r < b -> is_derive_n f0 1 r (f1 r) /\ is_derive_n f0 2 r (f2 r) /\ is_derive_n f0 3 r (f3 r).
Proof.
  intros H0 H1 H2.
  assert (N : forall r (Q : R -> Prop), 0 < r < b -> (forall s, 0 < s < b -> Q s) -> locally r Q).
  { intros r Q Hr HQ. assert (E : 0 < Rmin r (b - r)) by (apply Rmin_glb_lt; lra). exists (mkposreal _ E). intros s Hs. apply HQ.
    unfold ball in Hs. cbn in Hs. unfold AbsRing_ball, abs, minus, plus, opp in Hs. cbn in Hs.
    pose proof (Rmin_l r (b - r)). pose proof (Rmin_r r (b - r)). apply Rabs_lt_between in Hs. lra. }
  assert (D1 : forall r, 0 < r < b -> Derive_n f0 1 r = f1 r) by (intros r Hr; cbn; apply is_derive_unique, H0, Hr).
  assert (I2 : forall r, 0 < r < b -> is_derive_n f0 2 r (f2 r)).
  { intros r Hr. cbn [is_derive_n]. apply (is_derive_ext_loc f1); [|apply H1, Hr]. apply N; [exact Hr|]. intros s Hs. symmetry. apply D1, Hs. }
  intros r Hr. split; [exact (H0 r Hr)|]. split; [apply I2, Hr|]. cbn [is_derive_n]. apply (is_derive_ext_loc f2); [|apply H2, Hr].
  apply N; [exact Hr|]. intros s Hs. symmetry. apply is_derive_unique. exact (I2 s Hs).
Qed.
Lemma chain2 (b : R) (f0 f1 f2 : R -> R) :
  (forall r, 0 < r < b -> is_derive f0 r (f1 r)) -> (forall r, 0 < r < b -> is_derive f1 r (f2 r)) ->
  forall r, 0 < r < b -> is_derive_n f0 1 r (f1 r) /\ is_derive_n f0 2 r (f2 r).
Proof.
  intros H0 H1 r Hr. split; [exact (H0 r Hr)|]. cbn [is_derive_n]. apply (is_derive_ext_loc f1); [|apply H1, Hr].
  assert (E : 0 < Rmin r (b - r)) by (apply Rmin_glb_lt; lra). exists (mkposreal _ E). intros s Hs. symmetry. cbn. apply is_derive_unique, H0.
  unfold ball in Hs. cbn in Hs. unfold AbsRing_ball, abs, minus, plus, opp in Hs. cbn in Hs.
  pose proof (Rmin_l r (b - r)). pose proof (Rmin_r r (b - r)). apply Rabs_lt_between in Hs. lra.
Qed.
Lemma derive_scaled (h h' : R -> R) c a r : a <> 0 -> is_derive h (r / a) (h' (r / a)) ->
  is_derive (fun r => c * h (r / a)) r (c / a * h' (r / a)).
Proof.
  intros A H. replace (c / a * h' (r / a)) with (c * ((/ a) * h' (r / a))) by (field; exact A).
  apply is_derive_scal. apply (is_derive_comp h (fun r => r / a)); [exact H|]. auto_derive; [trivial|]. field. exact A.
Qed.
Lemma derive_Rpower th th1 z e : 0 < th z -> is_derive th z th1 -> is_derive (fun z => Rpower (th z) e) z (e * th1 * Rpower (th z) (e - 1)).
Proof.
  intros P D. unfold Rpower at 1.
  replace (e * th1 * Rpower (th z) (e - 1)) with ((e * (th1 * / th z)) * exp (e * ln (th z))).
  - apply (is_derive_comp exp (fun z => e * ln (th z))); [apply is_derive_exp|]. apply is_derive_scal.
    apply (is_derive_comp ln th); [apply is_derive_ln, P|exact D].
  - change (exp (e * ln (th z))) with (Rpower (th z) e). replace e with (e - 1 + 1) at 2 by ring. rewrite Rpower_plus, Rpower_1 by exact P. field. lra.
Qed.

Lemma Rpower_inv b e : 0 < b -> Rpower (/ b) e = Rpower b (- e).
Proof. intros H. unfold Rpower. rewrite ln_Rinv by exact H. apply f_equal. ring. Qed.

Section star.
Variables (S : Poly_Model.poly) (zz : nat -> R) (zs : R) (th th' : R -> R).
Hypotheses (HL : lane_emden (Poly_Model.p_idx S) zs th th') (HS : samples S zz zs th th') (HN : sensible S zs th').
Let n := Poly_Model.p_idx S. Let G := Poly_Model.p_G S. Let Mass := Poly_Model.p_mass S. Let Rad := Poly_Model.p_radius S.
Let mus := - zs ^ 2 * th' zs.
Let a := Rad / zs.
Let rh0 := Mass * zs ^ 3 / (4 * PI * Rad ^ 3 * mus).
Let pr0 := G * Mass ^ 2 * zs ^ 4 / (4 * PI * (n + 1) * Rad ^ 4 * mus ^ 2).
Lemma signs : 0 < n /\ 0 < G /\ 0 < Mass /\ 0 < Rad /\ 0 < zs /\ th' zs < 0 /\ 0 < mus /\ 0 < a /\ 0 < rh0 /\ 0 < pr0 /\ 0 < PI.
Proof.
  destruct HN as (H1 & H2 & H3 & H4 & H5 & H6). fold n in H1. fold G in H2. fold Mass in H3. fold Rad in H4.
  assert (Hm : 0 < mus) by (unfold mus; assert (0 < zs ^ 2) by (apply pow_lt; lra); nra).
  pose proof PI_RGT_0. repeat split; try assumption.
  - unfold a. apply Rdiv_lt_0_compat; lra.
  - unfold rh0. pos.
  - unfold pr0. pos.
Qed.
Lemma z_s_ok : Poly_Model.z_s S = Fin zs.
Proof. destruct HS as [H1 H2]. unfold Poly_Model.z_s, Poly_Model.z. destruct (H1 (Poly_Model.p_n S)) as (-> & _); [lia|]. rewrite H2. reflexivity. Qed.
Lemma aux_s_ok : Poly_Model.aux_s S = Fin mus.
Proof.
  destruct HS as [H1 H2]. unfold Poly_Model.aux_s, Poly_Model.aux_mass, Poly_Model.z, Poly_Model.dtheta. destruct (H1 (Poly_Model.p_n S)) as (-> & _ & ->); [lia|]. rewrite H2. cbn.
  apply f_equal. unfold mus. ring.
Qed.
Lemma rho0_ok : Poly_Model.rho0 S = Fin rh0.
Proof.
  pose proof signs as (H1 & H2 & H3 & H4 & H5 & H6 & H7 & _ & _ & _ & H8). unfold Poly_Model.rho0. rewrite z_s_ok, aux_s_ok. unfold Poly_Model.avg_rho, Poly_Model.F, Poly_Model.fcube. cbn [Poly_Model.fmul].
  rewrite !fdiv_ok by lra. cbn [Poly_Model.fmul]. apply f_equal. unfold rh0. fold Mass Rad. field. repeat split; lra.
Qed.
Lemma p0_ok : Poly_Model.p0 S = Fin pr0.
Proof.
  pose proof signs as (H1 & H2 & H3 & H4 & H5 & H6 & H7 & _ & H9 & _ & H8). unfold Poly_Model.p0. rewrite z_s_ok, aux_s_ok, rho0_ok. unfold Poly_Model.avg_rho, Poly_Model.F, Poly_Model.n. fold n G Mass Rad.
  assert (AV : 0 < 3 / (4 * PI) * (Mass / Rad ^ 3)).
  { pos. }
  rewrite (fdiv_ok rh0) by lra. cbn [Poly_Model.fmul].
  assert (RA : 3 / (4 * PI) * (rh0 / (3 / (4 * PI) * (Mass / Rad ^ 3))) = zs ^ 3 / (4 * PI * mus)).
  { unfold rh0. field. repeat split; lra. }
  rewrite RA. assert (RP : 0 < zs ^ 3 / (4 * PI * mus)). { pos. }
  rewrite !fpow_ok by assumption. rewrite fdiv_ok by lra. cbn [Poly_Model.fmul]. rewrite fdiv_ok by (apply pow_nonzero; lra). apply f_equal.
  assert (E1 : Rpower (zs ^ 3 / (4 * PI * mus)) (1 + 1 / n) = zs ^ 3 / (4 * PI * mus) * (Rpower zs (3 / n) * Rpower (4 * PI) (- (1 / n)) * Rpower mus (- (1 / n)))).
  { rewrite Rpower_plus, Rpower_1 by exact RP. f_equal. replace (zs ^ 3 / (4 * PI * mus)) with (zs ^ 3 * (/ (4 * PI) * / mus)) by (field; lra).
    rewrite <- (Rpower_mult_distr (zs ^ 3)), <- (Rpower_mult_distr (/ (4 * PI))); [|pos..].
    rewrite <- Rpower_pow by exact H5. rewrite Rpower_mult. replace (INR 3 * (1 / n)) with (3 / n) by (cbn; field; lra).
    rewrite Rmult_assoc. f_equal. f_equal; apply Rpower_inv; lra. }
  rewrite E1.
  assert (E2 : Rpower zs (1 - 3 / n) * Rpower zs (3 / n) = zs) by (rewrite <- Rpower_plus; replace (1 - 3 / n + 3 / n) with 1 by ring; apply Rpower_1, H5).
  assert (E3 : Rpower (4 * PI) (1 / n) * Rpower (4 * PI) (- (1 / n)) = 1) by (rewrite <- Rpower_plus; replace (1 / n + - (1 / n)) with 0 by ring; apply Rpower_O; lra).
  assert (E4 : Rpower mus (1 / n - 1) * Rpower mus (- (1 / n)) = / mus).
  { rewrite <- Rpower_plus. replace (1 / n - 1 + - (1 / n)) with (- (1)) by ring. rewrite Rpower_Ropp, Rpower_1 by exact H7. reflexivity. }
  transitivity ((Rpower zs (1 - 3 / n) * Rpower zs (3 / n)) * (Rpower (4 * PI) (1 / n) * Rpower (4 * PI) (- (1 / n))) * (Rpower mus (1 / n - 1) * Rpower mus (- (1 / n)))
     * (zs ^ 3 / (4 * PI * mus) / (n + 1) * (G * Mass ^ 2) / Rad ^ 4)).
  - field. repeat split; lra.
  - rewrite E2, E3, E4. unfold pr0. field. repeat split; lra.
Qed.
Lemma alpha_ok : Poly_Model.alpha S = Fin a.
Proof.
  pose proof signs as (H1 & H2 & H3 & H4 & H5 & H6 & H7 & Ha & H9 & H10 & H8). unfold Poly_Model.alpha. rewrite p0_ok, rho0_ok. unfold Poly_Model.F, Poly_Model.fsq, Poly_Model.n. cbn [Poly_Model.fmul]. fold n G.
  rewrite fdiv_ok by (apply Rgt_not_eq, Rlt_gt; pos).
  replace (pr0 * (1 + n) / (G * 4 * PI * (rh0 * rh0))) with (Rsqr a).
  - rewrite fsqrt_ok by apply Rle_0_sqr. rewrite sqrt_Rsqr by lra. reflexivity.
  - unfold Rsqr, a, pr0, rh0. field. repeat split; lra.
Qed.
Lemma alpha_inv_ok k : Poly_Model.alpha_inv S k = Fin (/ a ^ k).
Proof. unfold Poly_Model.alpha_inv. rewrite alpha_ok. pose proof signs as (_ & _ & _ & _ & _ & _ & _ & Ha & _). destruct (Req_EM_T a 0); [lra|reflexivity]. Qed.
Lemma grav_ok : Poly_Model.grav_factor S = Fin (pr0 / rh0).
Proof. unfold Poly_Model.grav_factor. rewrite p0_ok, rho0_ok. apply fdiv_ok. pose proof signs. lra. Qed.

(** functions of z *)
Let T (e : R) (z : R) := Rpower (th z) e.
Definition th2 (z : R) := - T n z - 2 / z * th' z.
Definition th3 (z : R) := 2 / z * T n z + (- n * T (n - 1) z + 6 / z ^ 2) * th' z.
Lemma th_d z : 0 < z < zs -> is_derive th z (th' z). Proof. intros H. apply HL, H. Qed.
Lemma th2_d z : 0 < z < zs -> is_derive th' z (th2 z). Proof. intros H. apply HL, H. Qed.
Lemma T_d e z : 0 < z < zs -> is_derive (T e) z (e * th' z * T (e - 1) z).
Proof. intros H. destruct (HL z H) as (P & _ & D & _). apply (derive_Rpower th (th' z) z e P D). Qed.
Lemma th3_d z : 0 < z < zs -> is_derive th2 z (th3 z).
Proof.
  intros H. unfold th2.
  assert (D : is_derive (fun z => - T n z + (- 2 * / z) * th' z) z (- (n * th' z * T (n - 1) z) + (2 / z ^ 2 * th' z + (- 2 * / z) * th2 z))).
  { apply (is_derive_plus (K := R_AbsRing) (V := R_NormedModule)).
    - apply (is_derive_opp (K := R_AbsRing) (V := R_NormedModule)). apply T_d, H.
    - apply (is_derive_mult (fun z => -2 * / z) th' z (2 / z ^ 2) (th2 z)); [|apply th2_d, H|intros; apply Rmult_comm].
      auto_derive; [lra|]. field. lra. }
  apply (is_derive_ext (fun z => - T n z + -2 * / z * th' z)); [intros t; change (- T n t + -2 * / t * th' t = - T n t - 2 / t * th' t); unfold Rdiv; ring|].
  replace (th3 z) with (- (n * th' z * T (n - 1) z) + (2 / z ^ 2 * th' z + (- 2 * / z) * th2 z)); [exact D|].
  unfold th3, th2. field. lra.
Qed.

(** values of the arrays at an interior grid point *)
Variable i : nat.
Hypotheses (Hi : (i <= Poly_Model.p_n S)%nat) (Hz : 0 < zz i < zs).
Let zi := zz i.
Lemma at_z : Poly_Model.z S i = Fin zi. Proof. apply HS, Hi. Qed.
Lemma at_th : Poly_Model.theta S i = Fin (th zi). Proof. apply HS, Hi. Qed.
Lemma at_dth : Poly_Model.dtheta S i = Fin (th' zi). Proof. apply HS, Hi. Qed.
Lemma at_pow e : Poly_Model.tpow S i e = Fin (T e zi).
Proof. unfold Poly_Model.tpow. rewrite at_th. apply fpow_ok. apply HL, Hz. Qed.
Lemma at_dth2 : Poly_Model.dtheta2 S i = Fin (th2 zi).
Proof. unfold Poly_Model.dtheta2. rewrite at_pow, at_z, at_dth. unfold Poly_Model.F. rewrite fdiv_ok by (unfold zi; lra). cbn [Poly_Model.fmul Poly_Model.fadd Poly_Model.fsub Poly_Model.fneg Poly_Model.nan_to_num]. unfold th2. change (Poly_Model.n S) with n. apply f_equal. unfold Poly_Model.fsub. cbn [Poly_Model.fadd Poly_Model.fneg]. ring. Qed.
Lemma at_dth3 : Poly_Model.dtheta3 S i = Fin (th3 zi).
Proof.
  unfold Poly_Model.dtheta3. rewrite !at_pow, at_z, at_dth. unfold Poly_Model.F, Poly_Model.fsq. cbn [Poly_Model.fmul]. assert (Z : 0 < zi) by (unfold zi; lra). rewrite !fdiv_ok by nra. cbn [Poly_Model.fmul Poly_Model.fadd Poly_Model.nan_to_num].
  unfold th3. change (Poly_Model.n S) with n. apply f_equal. fold zi. field. lra.
Qed.

(** functions of the radius *)
Definition f_rho (r : R) := rh0 * T n (r / a).
Definition f_P (r : R) := pr0 * T (n + 1) (r / a).
Definition f_g (r : R) := pr0 / rh0 / a * (- (n + 1) * th' (r / a)).
Definition f_m (r : R) := Mass * (th' (r / a) / th' zs) * (r / Rad) ^ 2.
Let ri := Rad * zi / zs.
Lemma ri_a : ri / a = zi.
Proof. clear Hz. pose proof signs. unfold ri, a. field. split; lra. Qed.
Lemma ri_range : 0 < ri < Rad.
Proof.
  pose proof signs as (_ & _ & _ & H4 & H5 & _). unfold ri. assert (Z : 0 < zi < zs) by exact Hz. split; [pos|].
  apply (Rmult_lt_reg_r zs); [exact H5|]. replace (Rad * zi / zs * zs) with (Rad * zi) by (field; lra). nra.
Qed.
Lemma inside r : 0 < r < Rad -> 0 < r / a < zs.
Proof. clear Hz.
  intros H. pose proof signs as (_ & _ & _ & H4 & H5 & _ & _ & Ha & _). split; [pos|]. unfold a. replace (r / (Rad / zs)) with (r * (zs / Rad)) by (field; split; lra).
  apply (Rmult_lt_reg_r Rad); [exact H4|]. replace (r * (zs / Rad) * Rad) with (r * zs) by (field; lra). nra.
Qed.
Lemma T_S e z : 0 < z < zs -> T (e + 1) z = T e z * th z.
Proof. intros H. unfold T. rewrite Rpower_plus, Rpower_1 by apply HL, H. reflexivity. Qed.

Definition rho_1 (r : R) := rh0 / a * (n * th' (r / a) * T (n - 1) (r / a)).
Definition rho_2 (r : R) := rh0 / a / a * (n * ((n - 1) * T (n - 1 - 1) (r / a) * (th' (r / a) * th' (r / a)) + T (n - 1) (r / a) * th2 (r / a))).
Definition rho_3 (r : R) := rh0 / a / a / a * (n * ((n - 1) * ((n - 1 - 1) * T (n - 1 - 1 - 1) (r / a) * (th' (r / a) * th' (r / a) * th' (r / a)) + 3 * T (n - 1 - 1) (r / a) * th2 (r / a) * th' (r / a)) + T (n - 1) (r / a) * th3 (r / a))).
Ltac dmul := apply (is_derive_mult (K := R_AbsRing)).
Lemma dprod f g z df dg l : is_derive f z df -> is_derive g z dg -> l = df * g z + f z * dg -> is_derive (fun z => f z * g z) z l.
Proof. intros H1 H2 ->. apply (is_derive_mult f g z df dg H1 H2). intros; apply Rmult_comm. Qed.
Lemma dsum f g z df dg l : is_derive f z df -> is_derive g z dg -> l = df + dg -> is_derive (fun z => f z + g z) z l.
Proof. intros H1 H2 ->. apply (is_derive_plus (K := R_AbsRing) (V := R_NormedModule) f g z df dg H1 H2). Qed.
Lemma dconst c f z df l : is_derive f z df -> l = c * df -> is_derive (fun z => c * f z) z l.
Proof. intros H1 ->. apply is_derive_scal, H1. Qed.
Lemma rho_derivs : (forall r, 0 < r < Rad -> is_derive f_rho r (rho_1 r)) /\ (forall r, 0 < r < Rad -> is_derive rho_1 r (rho_2 r)) /\ (forall r, 0 < r < Rad -> is_derive rho_2 r (rho_3 r)).
Proof. clear Hz.
  pose proof signs as (_ & _ & _ & _ & _ & _ & _ & Ha & _).
  split; [|split]; intros r Hr; pose proof (inside r Hr) as Hin.
  - apply (derive_scaled (T n) (fun z => n * th' z * T (n - 1) z)); [lra|]. apply T_d, Hin.
  - apply (derive_scaled (fun z => n * th' z * T (n - 1) z) (fun z => n * ((n - 1) * T (n - 1 - 1) z * (th' z * th' z) + T (n - 1) z * th2 z))); [lra|].
    eapply dprod; [eapply dconst; [apply th2_d, Hin|reflexivity]|apply T_d, Hin|]. cbn. ring.
  - apply (derive_scaled (fun z => n * ((n - 1) * T (n - 1 - 1) z * (th' z * th' z) + T (n - 1) z * th2 z))
      (fun z => n * ((n - 1) * ((n - 1 - 1) * T (n - 1 - 1 - 1) z * (th' z * th' z * th' z) + 3 * T (n - 1 - 1) z * th2 z * th' z) + T (n - 1) z * th3 z))); [lra|].
    eapply dconst; [eapply dsum; [eapply dprod; [eapply dconst; [apply T_d, Hin|reflexivity]|eapply dprod; [apply th2_d, Hin|apply th2_d, Hin|reflexivity]|reflexivity]
      |eapply dprod; [apply T_d, Hin|apply th3_d, Hin|reflexivity]|reflexivity]|]. cbn. ring.
Qed.
Definition P_1 (r : R) := pr0 / a * ((n + 1) * T n (r / a) * th' (r / a)).
Definition P_2 (r : R) := pr0 / a / a * ((n + 1) * T (n - 1) (r / a) * (n * (th' (r / a) * th' (r / a)) + th (r / a) * th2 (r / a))).
Definition P_3 (r : R) := pr0 / a / a / a * ((n + 1) * T (n - 1 - 1) (r / a) *
  ((n - 1) * n * (th' (r / a) * th' (r / a) * th' (r / a)) + 3 * n * th (r / a) * th' (r / a) * th2 (r / a) + th (r / a) * th (r / a) * th3 (r / a))).
Lemma P_derivs : (forall r, 0 < r < Rad -> is_derive f_P r (P_1 r)) /\ (forall r, 0 < r < Rad -> is_derive P_1 r (P_2 r)) /\ (forall r, 0 < r < Rad -> is_derive P_2 r (P_3 r)).
Proof. clear Hz.
  pose proof signs as (_ & _ & _ & _ & _ & _ & _ & Ha & _).
  split; [|split]; intros r Hr; pose proof (inside r Hr) as Hin.
  - apply (derive_scaled (T (n + 1)) (fun z => (n + 1) * T n z * th' z)); [lra|].
    replace ((n + 1) * T n (r / a) * th' (r / a)) with ((n + 1) * th' (r / a) * T (n + 1 - 1) (r / a)) by (replace (n + 1 - 1) with n by ring; ring). apply T_d, Hin.
  - apply (derive_scaled (fun z => (n + 1) * T n z * th' z) (fun z => (n + 1) * T (n - 1) z * (n * (th' z * th' z) + th z * th2 z))); [lra|].
    eapply dprod; [eapply dconst; [apply T_d, Hin|reflexivity]|apply th2_d, Hin|].
    replace (T n (r / a)) with (T (n - 1) (r / a) * th (r / a)) by (rewrite <- T_S by exact Hin; f_equal; ring). ring.
  - apply (derive_scaled (fun z => (n + 1) * T (n - 1) z * (n * (th' z * th' z) + th z * th2 z))
      (fun z => (n + 1) * T (n - 1 - 1) z * ((n - 1) * n * (th' z * th' z * th' z) + 3 * n * th z * th' z * th2 z + th z * th z * th3 z))); [lra|].
    eapply dprod; [eapply dconst; [apply T_d, Hin|reflexivity]|
      eapply dsum; [eapply dconst; [eapply dprod; [apply th2_d, Hin|apply th2_d, Hin|reflexivity]|reflexivity]|eapply dprod; [apply th_d, Hin|apply th3_d, Hin|reflexivity]|reflexivity]|].
    replace (T (n - 1) (r / a)) with (T (n - 1 - 1) (r / a) * th (r / a)) by (rewrite <- T_S by exact Hin; f_equal; ring). cbn. ring.
Qed.
Definition g_1 (r : R) := pr0 / rh0 / a / a * (- (n + 1) * th2 (r / a)).
Definition g_2 (r : R) := pr0 / rh0 / a / a / a * (- (n + 1) * th3 (r / a)).
Lemma g_derivs : (forall r, 0 < r < Rad -> is_derive f_g r (g_1 r)) /\ (forall r, 0 < r < Rad -> is_derive g_1 r (g_2 r)).
Proof. clear Hz.
  pose proof signs as (_ & _ & _ & _ & _ & _ & _ & Ha & _).
  split; intros r Hr; pose proof (inside r Hr) as Hin.
  - apply (derive_scaled (fun z => - (n + 1) * th' z) (fun z => - (n + 1) * th2 z)); [lra|]. eapply dconst; [apply th2_d, Hin|reflexivity].
  - apply (derive_scaled (fun z => - (n + 1) * th2 z) (fun z => - (n + 1) * th3 z)); [lra|]. eapply dconst; [apply th3_d, Hin|reflexivity].
Qed.
(** the star *)
Lemma star_ok : hydrostatic_polytrope G n (pr0 / Rpower rh0 (1 + 1 / n)) Rad f_rho f_P f_g f_m.
Proof. clear Hz.
  pose proof signs as (H1 & H2 & H3 & H4 & H5 & H6 & H7 & Ha & Hr0 & Hp0 & HPI).
  intros r Hr. pose proof (inside r Hr) as Hin. destruct (HL _ Hin) as (Pth & _).
  split. { unfold f_rho, T. apply Rmult_lt_0_compat; [exact Hr0|apply exp_pos]. }
  split. { unfold f_P, f_rho, T. rewrite <- Rpower_mult_distr by (exact Hr0 || apply exp_pos). rewrite Rpower_mult.
    replace (n * (1 + 1 / n)) with (n + 1) by (field; lra). field. apply Rgt_not_eq, exp_pos. }
  split. { unfold f_g, f_m, pr0, rh0, a. unfold mus. field. repeat split; lra. }
  split.
  - unfold f_m.
    assert (D : is_derive (fun r => (Mass / th' zs) * th' (r / a) * (/ Rad ^ 2 * r ^ 2)) r (Mass / th' zs / a * th2 (r / a) * (/ Rad ^ 2 * r ^ 2) + Mass / th' zs * th' (r / a) * (/ Rad ^ 2 * (2 * r)))).
    { eapply dprod; [apply (derive_scaled th' th2); [lra|apply th2_d, Hin]| |reflexivity]. auto_derive; [trivial|]. cbn. ring. }
    apply (is_derive_ext (fun r => (Mass / th' zs) * th' (r / a) * (/ Rad ^ 2 * r ^ 2))).
    + intros t. cbn. field. split; lra.
    + replace (4 * PI * r ^ 2 * f_rho r) with (Mass / th' zs / a * th2 (r / a) * (/ Rad ^ 2 * r ^ 2) + Mass / th' zs * th' (r / a) * (/ Rad ^ 2 * (2 * r))); [exact D|].
      unfold f_rho, th2. unfold rh0, mus, a. field. repeat split; lra.
  - replace (- f_rho r * f_g r) with (P_1 r); [apply P_derivs, Hr|]. unfold P_1, f_rho, f_g. field. split; lra.
Qed.
Lemma ends_ok : regular_ends zs th th' -> total_mass Mass Rad f_m /\ filterlim f_rho (at_right 0) (locally rh0).
Proof. clear Hz.
  pose proof signs as (H1 & H2 & H3 & H4 & H5 & H6 & H7 & Ha & Hr0 & Hp0 & HPI).
  intros (Et & E0 & E1).
  assert (C : forall c, continuous (fun r : R => r / a) c).
  { intros c. apply (ex_derive_continuous (K := R_AbsRing) (V := R_NormedModule)). auto_derive. trivial. }
  assert (Q : forall c, continuous (fun r : R => (r / Rad) ^ 2) c).
  { intros c. apply (ex_derive_continuous (K := R_AbsRing) (V := R_NormedModule)). auto_derive. trivial. }
  assert (L0 : filterlim (fun r => r / a) (at_right 0) (at_right 0)).
  { intros X [e He]. exists (mkposreal _ (Rmult_lt_0_compat _ _ (cond_pos e) Ha)). intros y Hy Py. apply He; [|pos].
    unfold ball in *. cbn in *. unfold AbsRing_ball, abs, minus, plus, opp in *. cbn in *.
    replace (y / a + - 0) with ((y + - 0) / a) by (field; lra). unfold Rdiv. rewrite Rabs_mult, (Rabs_pos_eq (/ a)) by (apply Rlt_le, Rinv_0_lt_compat; lra).
    apply (Rmult_lt_reg_r a); [lra|]. replace (Rabs (y + - 0) * / a * a) with (Rabs (y + -0)) by (field; lra). exact Hy. }
  assert (L1 : filterlim (fun r => r / a) (at_left Rad) (at_left zs)).
  { intros X [e He]. exists (mkposreal _ (Rmult_lt_0_compat _ _ (cond_pos e) Ha)). intros y Hy Py.
    assert (Z : zs = Rad / a) by (unfold a; field; split; lra). apply He.
    - unfold ball in *. cbn in *. unfold AbsRing_ball, abs, minus, plus, opp in *. cbn in *. rewrite Z.
      replace (y / a + - (Rad / a)) with ((y + - Rad) / a) by (field; lra). unfold Rdiv. rewrite Rabs_mult, (Rabs_pos_eq (/ a)) by (apply Rlt_le, Rinv_0_lt_compat; lra).
      apply (Rmult_lt_reg_r a); [lra|]. replace (Rabs (y + - Rad) * / a * a) with (Rabs (y + - Rad)) by (field; lra). exact Hy.
    - rewrite Z. unfold Rdiv. apply Rmult_lt_compat_r; [apply Rinv_0_lt_compat; lra|exact Py]. }
  assert (W : forall c, filterlim (fun r : R => (r / Rad) ^ 2) (at_right c) (locally ((c / Rad) ^ 2)) /\ filterlim (fun r : R => (r / Rad) ^ 2) (at_left c) (locally ((c / Rad) ^ 2))).
  { intros c. split; apply (filterlim_filter_le_1 (F := locally c)); try apply Q; apply filter_le_within. }
  assert (ML : forall (FF : (R -> Prop) -> Prop) (FFt : Filter FF) f g lf lg, filterlim f FF (locally lf) -> filterlim g FF (locally lg) -> filterlim (fun r => f r * g r) FF (locally (lf * lg))).
  { intros FF FFt f g lf lg A B. eapply (filterlim_comp_2 (G := locally lf) (H := locally lg)); [exact A|exact B|exact (filterlim_mult (K := R_AbsRing) lf lg)]. }
  assert (CL : forall (FF : (R -> Prop) -> Prop) (FFt : Filter FF) f lf, filterlim f FF (locally lf) -> filterlim (fun r => Mass * (f r / th' zs)) FF (locally (Mass * (lf / th' zs)))).
  { intros FF FFt f lf A. apply (filterlim_ext (fun r => (Mass / th' zs) * f r)); [intros; field; lra|].
    replace (Mass * (lf / th' zs)) with ((Mass / th' zs) * lf) by (field; lra). apply ML; [exact FFt|apply filterlim_const|exact A]. }
  split; [split|].
  - assert (X : filterlim f_m (at_right 0) (locally (Mass * (0 / th' zs) * (0 / Rad) ^ 2))).
    { apply (ML (at_right 0) _ (fun r => Mass * (th' (r / a) / th' zs)) (fun r => (r / Rad) ^ 2)); [|apply W]. apply (CL (at_right 0) _ (fun r => th' (r / a))).
      exact (filterlim_comp _ _ _ (fun r => r / a) th' _ _ _ L0 E0). }
    replace (Mass * (0 / th' zs) * (0 / Rad) ^ 2) with 0 in X by (field; split; lra). exact X.
  - assert (X : filterlim f_m (at_left Rad) (locally (Mass * (th' zs / th' zs) * (Rad / Rad) ^ 2))).
    { apply (ML (at_left Rad) _ (fun r => Mass * (th' (r / a) / th' zs)) (fun r => (r / Rad) ^ 2)); [|apply W]. apply (CL (at_left Rad) _ (fun r => th' (r / a))).
      exact (filterlim_comp _ _ _ (fun r => r / a) th' _ _ _ L1 E1). }
    replace (Mass * (th' zs / th' zs) * (Rad / Rad) ^ 2) with Mass in X by (field; split; lra). exact X.
  - assert (X : filterlim f_rho (at_right 0) (locally (rh0 * Rpower 1 n))).
    { unfold f_rho. apply ML; [apply at_right_proper_filter|apply filterlim_const|]. apply (filterlim_comp _ _ _ (fun r => th (r / a)) (fun t => Rpower t n) _ (locally 1)).
      - exact (filterlim_comp _ _ _ (fun r => r / a) th _ _ _ L0 Et).
      - apply (ex_derive_continuous (K := R_AbsRing) (V := R_NormedModule) (fun t => Rpower t n) 1). eexists. apply (derive_Rpower (fun t => t) 1 1 n); [lra|]. auto_derive; trivial. }
    replace (rh0 * Rpower 1 n) with rh0 in X; [exact X|]. unfold Rpower. rewrite ln_1, Rmult_0_r, exp_0. ring.
Qed.
(** the arrays *)
Lemma at_r : Poly_Model.r S i = Fin ri.
Proof. clear Hz. pose proof signs as (_ & _ & _ & H4 & H5 & _). unfold Poly_Model.r. rewrite at_z, alpha_ok. cbn [Poly_Model.fmul]. apply f_equal. unfold ri, a. field. lra. Qed.
Lemma at_p : Poly_Model.p S i = Fin (f_P ri).
Proof. unfold Poly_Model.p, Poly_Model.p_norm. rewrite at_pow, p0_ok. cbn [Poly_Model.fmul]. change (Poly_Model.n S) with n. unfold f_P. rewrite ri_a. apply f_equal. ring. Qed.
Lemma at_rho : Poly_Model.rho S i = Fin (f_rho ri).
Proof. unfold Poly_Model.rho, Poly_Model.rho_norm. rewrite at_pow, rho0_ok. cbn [Poly_Model.fmul]. change (Poly_Model.n S) with n. unfold f_rho. rewrite ri_a. apply f_equal. ring. Qed.
Lemma last_dth : Poly_Model.dtheta S (Poly_Model.p_n S) = Fin (th' zs).
Proof. destruct HS as [A B]. unfold Poly_Model.dtheta. destruct (A (Poly_Model.p_n S)) as (_ & _ & ->); [lia|]. rewrite B. reflexivity. Qed.
Lemma at_dtr : Poly_Model.dt_ratio S i = Fin (th' zi / th' zs).
Proof. clear Hz. unfold Poly_Model.dt_ratio. rewrite at_dth, last_dth. apply fdiv_ok. pose proof signs. lra. Qed.
Lemma at_x : Poly_Model.x S i = Fin (zi / zs).
Proof. clear Hz. unfold Poly_Model.x. rewrite at_z, z_s_ok. apply fdiv_ok. pose proof signs. lra. Qed.
Lemma at_mr : Poly_Model.mr S i = Fin (f_m ri).
Proof. clear Hz.
  pose proof signs as (_ & _ & _ & H4 & H5 & _). unfold Poly_Model.mr, Poly_Model.fsq. rewrite at_dtr, at_x. unfold Poly_Model.F. cbn [Poly_Model.fmul]. fold Mass. apply f_equal. unfold f_m. rewrite ri_a. unfold ri. field. repeat split; try lra. pose proof signs. lra.
Qed.
Lemma at_g : Poly_Model.surfgrav S i = Fin (f_g ri).
Proof. clear Hz.
  pose proof signs as (H1 & H2 & H3 & H4 & H5 & H6 & H7 & Ha & Hr0 & Hp0 & HPI). unfold Poly_Model.surfgrav. rewrite at_dtr. unfold Poly_Model.F. cbn [Poly_Model.fmul]. fold Mass Rad G. apply f_equal. unfold f_g. rewrite ri_a.
  unfold pr0, rh0, a, mus. field. repeat split; lra.
Qed.
Ltac un := unfold Poly_Model.drho, Poly_Model.drho2, Poly_Model.drho3, Poly_Model.dp, Poly_Model.dp2, Poly_Model.dp3, Poly_Model.dgravpot, Poly_Model.dgravpot2, Poly_Model.dgravpot3, Poly_Model.convert,
  Poly_Model.drho_dz, Poly_Model.drho2_dz2, Poly_Model.drho3_dz3, Poly_Model.dp_dz, Poly_Model.dp2_dz2, Poly_Model.dp3_dz3, Poly_Model.dgrav_dz, Poly_Model.dgrav2_dz2, Poly_Model.dgrav3_dz3, Poly_Model.F, Poly_Model.fsq, Poly_Model.fcube.
Ltac arr := pose proof signs as (_ & _ & _ & _ & _ & _ & _ & Ha & Hr0 & _); un; rewrite ?alpha_inv_ok, ?rho0_ok, ?p0_ok, ?grav_ok, ?at_pow, ?at_th, ?at_dth, ?at_dth2, ?at_dth3; cbn [Poly_Model.fmul Poly_Model.fadd];
  change (Poly_Model.n S) with n; apply f_equal; unfold rho_1, rho_2, rho_3, P_1, P_2, P_3, g_1, g_2, f_g; rewrite ri_a; field; repeat split; lra.
Lemma at_drho : Poly_Model.drho S i = Fin (rho_1 ri). Proof. arr. Qed.
Lemma at_drho2 : Poly_Model.drho2 S i = Fin (rho_2 ri). Proof. arr. Qed.
Lemma at_drho3 : Poly_Model.drho3 S i = Fin (rho_3 ri). Proof. arr. Qed.
Lemma at_dp : Poly_Model.dp S i = Fin (P_1 ri). Proof. arr. Qed.
Lemma at_dp2 : Poly_Model.dp2 S i = Fin (P_2 ri). Proof. arr. Qed.
Lemma at_dp3 : Poly_Model.dp3 S i = Fin (P_3 ri). Proof. arr. Qed.
Lemma at_dg : Poly_Model.dgravpot S i = Fin (f_g ri). Proof. arr. Qed.
Lemma at_dg2 : Poly_Model.dgravpot2 S i = Fin (g_1 ri). Proof. arr. Qed.
Lemma at_dg3 : Poly_Model.dgravpot3 S i = Fin (g_2 ri). Proof. arr. Qed.
End star.

(** ** Gravity near the centre of any star *)
Lemma filterlim_right_eps f l : filterlim f (at_right 0) (locally l) <-> forall e, 0 < e -> exists d, 0 < d /\ forall r, 0 < r < d -> Rabs (f r - l) < e.
Proof.
  split.
  - intros H e He. destruct (H (fun y => Rabs (y - l) < e)) as [d Hd]. { exists (mkposreal e He). intros y Hy. exact Hy. }
    exists d. split; [apply cond_pos|]. intros r Hr. apply Hd; [|lra]. unfold ball. cbn. unfold AbsRing_ball, abs, minus, plus, opp. cbn. rewrite Ropp_0, Rplus_0_r, Rabs_pos_eq; lra.
  - intros H X [e He]. destruct (H e (cond_pos e)) as (d & Hd & K). exists (mkposreal d Hd). intros r Hr Pr. apply He. unfold ball in *. cbn in *. unfold AbsRing_ball, abs, minus, plus, opp in *. cbn in *.
    apply K. rewrite Ropp_0, Rplus_0_r, Rabs_pos_eq in Hr by lra. lra.
Qed.
Lemma decreasing_from_zero (h h' : R -> R) d : 0 < d -> (forall r, 0 < r < d -> is_derive h r (h' r)) -> (forall r, 0 < r < d -> h' r <= 0) ->
  filterlim h (at_right 0) (locally 0) -> forall r, 0 < r < d -> h r <= 0.
Proof.
  intros Hd D N L r Hr. destruct (Rle_or_lt (h r) 0) as [K|K]; [exact K|exfalso].
  apply filterlim_right_eps with (e := h r) in L; [|exact K]. destruct L as (s & Hs & Q).
  set (t := Rmin (s / 2) (r / 2)). assert (T0 : 0 < t < s /\ t < r) by (unfold t; pose proof (Rmin_l (s / 2) (r / 2)); pose proof (Rmin_r (s / 2) (r / 2)); assert (0 < Rmin (s / 2) (r / 2)) by (apply Rmin_glb_lt; lra); lra).
  specialize (Q t (proj1 T0)). rewrite Rminus_0_r in Q. apply Rabs_lt_between in Q.
  destruct (MVT_gen h t r h') as (c & C & E).
  { intros c Hc. apply D. rewrite Rmin_left, Rmax_right in Hc by lra. lra. }
  { intros c Hc. rewrite Rmin_left, Rmax_right in Hc by lra. apply continuity_pt_filterlim. apply (ex_derive_continuous (K := R_AbsRing) (V := R_NormedModule) h c). eexists. apply D. lra. }
  rewrite Rmin_left, Rmax_right in C by lra. assert (h' c <= 0) by (apply N; lra). nra.
Qed.
Lemma mass_over_cube (rho m : R -> R) radius rc : 0 < radius -> (forall r, 0 < r < radius -> is_derive m r (4 * PI * r ^ 2 * rho r)) -> filterlim m (at_right 0) (locally 0) ->
  filterlim rho (at_right 0) (locally rc) -> filterlim (fun r => m r / r ^ 3) (at_right 0) (locally (4 * PI * rc / 3)).
Proof.
  intros HR D Lm Lr. pose proof PI_RGT_0. apply filterlim_right_eps. intros e He.
  destruct (proj1 (filterlim_right_eps _ _) Lr (e / (4 * PI))) as (d0 & Hd0 & Q); [pos|].
  set (d := Rmin d0 radius). assert (Hd : 0 < d) by (apply Rmin_glb_lt; lra). pose proof (Rmin_l d0 radius) as B1. pose proof (Rmin_r d0 radius) as B2. fold d in B1, B2.
  assert (LC : forall c, filterlim (fun r => m r + c * r ^ 3) (at_right 0) (locally 0) /\ filterlim (fun r => - m r + c * r ^ 3) (at_right 0) (locally 0)).
  { intros c. assert (Lq : filterlim (fun r : R => c * r ^ 3) (at_right 0) (locally 0)).
    { apply (filterlim_filter_le_1 (F := locally 0)); [apply filter_le_within|]. replace 0 with (c * 0 ^ 3) at 2 by (cbn; ring).
      apply (ex_derive_continuous (K := R_AbsRing) (V := R_NormedModule) (fun r : R => c * r ^ 3) 0). auto_derive. trivial. }
    split; apply filterlim_right_eps; intros u Hu.
    - destruct (proj1 (filterlim_right_eps _ _) Lm (u / 2)) as (s1 & S1 & K1); [lra|]. destruct (proj1 (filterlim_right_eps _ _) Lq (u / 2)) as (s2 & S2 & K2); [lra|].
      exists (Rmin s1 s2). split; [apply Rmin_glb_lt; lra|]. intros r Hr. pose proof (Rmin_l s1 s2). pose proof (Rmin_r s1 s2). assert (I1 : 0 < r < s1) by lra. assert (I2 : 0 < r < s2) by lra. specialize (K1 r I1). specialize (K2 r I2). cbv beta in K2.
      apply Rabs_lt_between in K1. apply Rabs_lt_between in K2. apply Rabs_lt_between. lra.
    - destruct (proj1 (filterlim_right_eps _ _) Lm (u / 2)) as (s1 & S1 & K1); [lra|]. destruct (proj1 (filterlim_right_eps _ _) Lq (u / 2)) as (s2 & S2 & K2); [lra|].
      exists (Rmin s1 s2). split; [apply Rmin_glb_lt; lra|]. intros r Hr. pose proof (Rmin_l s1 s2). pose proof (Rmin_r s1 s2). assert (I1 : 0 < r < s1) by lra. assert (I2 : 0 < r < s2) by lra. specialize (K1 r I1). specialize (K2 r I2). cbv beta in K2.
      apply Rabs_lt_between in K1. apply Rabs_lt_between in K2. apply Rabs_lt_between. lra. }
  exists d. split; [exact Hd|]. intros r Hr.
  assert (U : m r + - ((4 * PI * rc + e) / 3) * r ^ 3 <= 0).
  { apply (decreasing_from_zero (fun r => m r + - ((4 * PI * rc + e) / 3) * r ^ 3) (fun r => 4 * PI * r ^ 2 * rho r - (4 * PI * rc + e) * r ^ 2) d); [exact Hd| | |apply LC|exact Hr].
    - intros s Hs. apply (dsum m (fun s => - ((4 * PI * rc + e) / 3) * s ^ 3) s (4 * PI * s ^ 2 * rho s) (- (4 * PI * rc + e) * s ^ 2)); [apply D; lra| |ring]. auto_derive; [trivial|]. field.
    - intros s Hs. assert (I : 0 < s < d0) by lra. specialize (Q s I). apply Rabs_lt_between in Q. assert (rho s < rc + e / (4 * PI)) by lra.
      assert (4 * PI * rho s < 4 * PI * rc + e). { replace (4 * PI * rc + e) with (4 * PI * (rc + e / (4 * PI))) by (field; lra). apply Rmult_lt_compat_l; lra. }
      assert (0 <= s ^ 2) by (apply pow2_ge_0). nra. }
  assert (V : - m r + ((4 * PI * rc - e) / 3) * r ^ 3 <= 0).
  { apply (decreasing_from_zero (fun r => - m r + ((4 * PI * rc - e) / 3) * r ^ 3) (fun r => - (4 * PI * r ^ 2 * rho r) + (4 * PI * rc - e) * r ^ 2) d); [exact Hd| | |apply LC|exact Hr].
    - intros s Hs. apply (dsum (fun s => - m s) (fun s => ((4 * PI * rc - e) / 3) * s ^ 3) s (- (4 * PI * s ^ 2 * rho s)) ((4 * PI * rc - e) * s ^ 2)); [apply (is_derive_opp (K := R_AbsRing) (V := R_NormedModule)), D; lra| |ring]. auto_derive; [trivial|]. field.
    - intros s Hs. assert (I : 0 < s < d0) by lra. specialize (Q s I). apply Rabs_lt_between in Q. assert (rc - e / (4 * PI) < rho s) by lra.
      assert (4 * PI * rc - e < 4 * PI * rho s). { replace (4 * PI * rc - e) with (4 * PI * (rc - e / (4 * PI))) by (field; lra). apply Rmult_lt_compat_l; lra. }
      assert (0 <= s ^ 2) by (apply pow2_ge_0). nra. }
  assert (R3 : 0 < r ^ 3) by (apply pow_lt; lra).
  assert (E1 : m r / r ^ 3 - 4 * PI * rc / 3 <= e / 3). { apply (Rmult_le_reg_r (r ^ 3)); [exact R3|]. replace ((m r / r ^ 3 - 4 * PI * rc / 3) * r ^ 3) with (m r - 4 * PI * rc / 3 * r ^ 3) by (field; lra). lra. }
  assert (E2 : - (e / 3) <= m r / r ^ 3 - 4 * PI * rc / 3). { apply (Rmult_le_reg_r (r ^ 3)); [exact R3|]. replace ((m r / r ^ 3 - 4 * PI * rc / 3) * r ^ 3) with (m r - 4 * PI * rc / 3 * r ^ 3) by (field; lra). lra. }
  apply Rabs_lt_between. lra.
Qed.
Lemma central_gravity G n K radius rho P g m mass rc : 0 < radius -> hydrostatic_polytrope G n K radius rho P g m -> total_mass mass radius m -> filterlim rho (at_right 0) (locally rc) ->
  filterlim (Derive g) (at_right 0) (locally (4 * PI * G * rc / 3)) /\ filterlim (fun r => Derive P r / r) (at_right 0) (locally (- (4 * PI * G * rc ^ 2 / 3))).
Proof.
  intros HR H [Lm _] Lr.
  assert (L : filterlim (fun r => m r / r ^ 3) (at_right 0) (locally (4 * PI * rc / 3))).
  { apply (mass_over_cube rho m radius rc HR); [|exact Lm|exact Lr]. intros r Hr. apply H, Hr. }
  assert (NB : forall X : R -> Prop, (forall r, 0 < r < radius -> X r) -> at_right 0 X).
  { intros X HX. exists (mkposreal radius HR). intros r Hr Pr. apply HX. unfold ball in Hr. cbn in Hr. unfold AbsRing_ball, abs, minus, plus, opp in Hr. cbn in Hr.
    rewrite Ropp_0, Rplus_0_r, Rabs_pos_eq in Hr by lra. lra. }
  assert (ML : forall f h lf lh, filterlim f (at_right 0) (locally lf) -> filterlim h (at_right 0) (locally lh) -> filterlim (fun r => f r * h r) (at_right 0) (locally (lf * lh))).
  { intros f h lf lh A B. eapply (filterlim_comp_2 (G := locally lf) (H := locally lh)); [exact A|exact B|exact (filterlim_mult (K := R_AbsRing) lf lh)]. }
  assert (PL : forall f h lf lh, filterlim f (at_right 0) (locally lf) -> filterlim h (at_right 0) (locally lh) -> filterlim (fun r => f r + h r) (at_right 0) (locally (lf + lh))).
  { intros f h lf lh A B. eapply (filterlim_comp_2 (G := locally lf) (H := locally lh)); [exact A|exact B|exact (filterlim_plus (K := R_AbsRing) (V := R_NormedModule) lf lh)]. }
  split.
  - replace (4 * PI * G * rc / 3) with ((4 * PI * G) * rc + (-2 * G) * (4 * PI * rc / 3)) by field.
    apply (filterlim_ext_loc (fun r => (4 * PI * G) * rho r + (-2 * G) * (m r / r ^ 3))).
    + apply NB. intros r Hr. symmetry. apply is_derive_unique. destruct (H r Hr) as (_ & _ & _ & Dm & _).
      apply (is_derive_ext_loc (fun r => m r * (G * / r ^ 2))).
      * exists (mkposreal (Rmin r (radius - r)) ltac:(apply Rmin_glb_lt; lra)). intros s Hs. unfold ball in Hs. cbn in Hs. unfold AbsRing_ball, abs, minus, plus, opp in Hs. cbn in Hs.
        apply Rabs_lt_between in Hs. pose proof (Rmin_l r (radius - r)). pose proof (Rmin_r r (radius - r)). assert (I : 0 < s < radius) by lra. destruct (H s I) as (_ & _ & Eg & _). rewrite Eg. match goal with |- ?x = ?y => change (@eq R x y) end. field. lra.
      * eapply dprod; [exact Dm| |].
        -- apply (is_derive_scal (fun r => / r ^ 2) r G (-2 / r ^ 3)). auto_derive; [apply Rgt_not_eq; nra|]. field. lra.
        -- change (mult G (-2 / r ^ 3)) with (G * (-2 / r ^ 3)). field. lra.
    + apply PL; apply ML; try apply filterlim_const; assumption.
  - replace (- (4 * PI * G * rc ^ 2 / 3)) with ((- G) * (rc * (4 * PI * rc / 3))) by field.
    apply (filterlim_ext_loc (fun r => (- G) * (rho r * (m r / r ^ 3)))).
    + apply NB. intros r Hr. destruct (H r Hr) as (_ & _ & Eg & _ & DP). rewrite (is_derive_unique _ _ _ DP), Eg. field. lra.
    + apply ML; [apply filterlim_const|]. apply ML; assumption.
Qed.

Ltac fl := cbn [Poly_Model.fmul Poly_Model.fadd Poly_Model.fneg].
Lemma surface S zz zs th th' : samples S zz zs th th' -> sensible S zs th' -> let i := Poly_Model.p_n S in
  Poly_Model.r S i = Fin (Poly_Model.p_radius S) /\ Poly_Model.mr S i = Fin (Poly_Model.p_mass S) /\
  Poly_Model.surfgrav S i = Fin (Poly_Model.p_G S * Poly_Model.p_mass S / Poly_Model.p_radius S ^ 2) /\ Poly_Model.x S i = Fin 1.
Proof.
  intros HS HN i. pose proof (signs S zs th' HN) as (H1 & H2 & H3 & H4 & H5 & H6 & _). assert (Ei : zz i = zs) by apply HS. assert (Li : (i <= Poly_Model.p_n S)%nat) by (unfold i; lia).
  assert (X : Poly_Model.x S i = Fin 1). { rewrite (at_x S zz zs th th' HS HN i Li), Ei. apply f_equal. field; repeat split; lra. }
  assert (DT : Poly_Model.dt_ratio S i = Fin 1). { rewrite (at_dtr S zz zs th th' HS HN i Li), Ei. apply f_equal. field; repeat split; lra. }
  split. { rewrite (at_r S zz zs th th' HS HN i Li), Ei. apply f_equal. field; repeat split; lra. }
  split. { unfold Poly_Model.mr. rewrite X, DT. unfold Poly_Model.fsq, Poly_Model.F. fl. apply f_equal. ring. }
  split; [|exact X]. unfold Poly_Model.surfgrav. rewrite DT. unfold Poly_Model.F. fl. apply f_equal. ring.
Qed.
Lemma dimensionless S zz zs th th' :
  lane_emden (Poly_Model.p_idx S) zs th th' -> samples S zz zs th th' -> sensible S zs th' ->
  forall i, (i <= Poly_Model.p_n S)%nat -> 0 < zz i < zs ->
  let M := Poly_Model.p_mass S in let R := Poly_Model.p_radius S in
  exists r rho p m g rho' p', 0 < r /\ 0 < rho /\ 0 < p /\ 0 < m /\ 0 < g /\
    Poly_Model.r S i = Fin r /\ Poly_Model.rho S i = Fin rho /\ Poly_Model.p S i = Fin p /\ Poly_Model.mr S i = Fin m /\ Poly_Model.surfgrav S i = Fin g /\
    Poly_Model.drho S i = Fin rho' /\ Poly_Model.dp S i = Fin p' /\
    Poly_Model.v S i = Fin (rho * g * r / p) /\ Poly_Model.v_2 S i = Fin (rho * g * r / p / (r / R) ^ 2) /\
    Poly_Model.u S i = Fin (4 * PI * r ^ 3 * rho / m) /\ Poly_Model.c1 S i = Fin ((r / R) ^ 3 * (M / m)) /\
    forall gam, gam <> 0 -> Poly_Model.p_gamma1 S i = Fin gam ->
      Poly_Model.as_ S i = Fin (r * (p' / (gam * p) - rho' / rho)) /\ Poly_Model.brunt_n2 S i = Fin (g * (p' / (gam * p) - rho' / rho)).
Proof.
  intros HL HS HN i Hi Hz M R.
  pose proof (signs S zs th' HN) as (H1 & H2 & H3 & H4 & H5 & H6 & H7 & Ha & Hr0 & Hp0 & HPI).
  pose proof (ri_range S zz zs th' HN i Hz) as Hr. pose proof (ri_a S zz zs th' HN i) as Ea.
  destruct (HL _ Hz) as (Hth & Hdt & _).
  pose proof (at_r S zz zs th th' HS HN i Hi) as A1. pose proof (at_rho S zz zs th th' HL HS HN i Hi Hz) as A2. pose proof (at_p S zz zs th th' HL HS HN i Hi Hz) as A3.
  pose proof (at_mr S zz zs th th' HS HN i Hi) as A4. pose proof (at_g S zz zs th th' HS HN i Hi) as A5. pose proof (at_drho S zz zs th th' HL HS HN i Hi Hz) as A6. pose proof (at_dp S zz zs th th' HL HS HN i Hi Hz) as A7.
  set (r := Poly_Model.p_radius S * zz i / zs) in *.
  exists r, (f_rho S zs th th' r), (f_P S zs th th' r), (f_m S zs th' r), (f_g S zs th' r), (rho_1 S zs th th' r), (P_1 S zs th th' r).
  set (n := Poly_Model.p_idx S) in *. set (G := Poly_Model.p_G S) in *. fold M in H3. fold R in H4. fold M R in H7, Ha, Hr0, Hp0.
  assert (TS : Rpower (th (zz i)) (n + 1) = Rpower (th (zz i)) n * th (zz i)) by (rewrite Rpower_plus, Rpower_1 by exact Hth; reflexivity).
  assert (TP : Rpower (th (zz i)) n = Rpower (th (zz i)) (n - 1) * th (zz i)) by (rewrite <- (Rpower_1 (th (zz i))) at 3 by exact Hth; rewrite <- Rpower_plus; f_equal; ring).
  assert (Er : r = R * zz i / zs) by reflexivity.
  unfold f_rho, f_P, f_m, f_g, rho_1, P_1 in *. rewrite Ea in *. fold n G M R in A1, A2, A3, A4, A5, A6, A7. fold n G M R. rewrite TS in *.
  set (T := Rpower (th (zz i)) n) in *. set (T' := Rpower (th (zz i)) (n - 1)) in *. assert (PT : 0 < T) by apply exp_pos. assert (PT' : 0 < T') by apply exp_pos.
  set (z := zz i) in *. set (t := th z) in *. set (d := th' z) in *. set (ds := th' zs) in *. cbv zeta.
  assert (EV : Poly_Model.v S i = Fin (- z * (n + 1) * (d / t))).
  { unfold Poly_Model.v, Poly_Model.dt_t_ratio. rewrite (at_z S zz zs th th' HS i Hi), (at_dth S zz zs th th' HS i Hi), (at_th S zz zs th th' HS i Hi), fdiv_ok by (fold t; fold z; fold t; lra). unfold Poly_Model.F. fl. reflexivity. }
  split; [apply Hr|]. split; [pos|]. split; [pos|].
  split. { replace (M * (d / ds) * (r / R) ^ 2) with (M * (- d / - ds) * (r / R) ^ 2) by (field; split; lra). pos. }
  split. { match goal with |- 0 < ?u * (- (n + 1) * d) => replace (u * (- (n + 1) * d)) with (u * ((n + 1) * - d)) by ring end. pos. }
  split; [exact A1|]. split; [exact A2|]. split; [exact A3|]. split; [exact A4|]. split; [exact A5|]. split; [exact A6|]. split; [exact A7|].
  split. { rewrite EV. apply f_equal. rewrite Er. field; repeat split; lra. }
  split. { unfold Poly_Model.v_2, Poly_Model.dt_t_ratio. rewrite (at_x S zz zs th th' HS HN i Hi), (at_dth S zz zs th th' HS i Hi), (at_th S zz zs th th' HS i Hi), (z_s_ok S zz zs th th' HS). fold z. fold t d.
    rewrite !fdiv_ok by (first [lra | apply Rgt_not_eq, Rlt_gt; pos]). unfold Poly_Model.F. fl. change (Poly_Model.n S) with n. apply f_equal. rewrite Er. field; repeat split; lra. }
  split. { unfold Poly_Model.u. rewrite (at_pow S zz zs th th' HL HS i Hi Hz), (at_z S zz zs th th' HS i Hi), (at_dth S zz zs th th' HS i Hi). fl. rewrite fdiv_ok by (fold z; fold d; lra). apply f_equal. change (Poly_Model.n S) with n. fold z. fold t T d.
    rewrite Er. fold ds. field; repeat split; lra. }
  split. { unfold Poly_Model.c1. rewrite (at_x S zz zs th th' HS HN i Hi), (at_dtr S zz zs th th' HS HN i Hi). fold z. fold d ds.
    rewrite fdiv_ok by (apply Rgt_not_eq, Rlt_gt; replace (d / ds) with (- d / - ds) by (field; lra); pos). apply f_equal. rewrite Er. field; repeat split; lra. }
  intros gam Hg Eg.
  assert (EA : Poly_Model.as_ S i = Fin (- z * (n + 1) * (d / t) * (n / (n + 1) - 1 / gam))).
  { unfold Poly_Model.as_. rewrite EV, Eg. unfold Poly_Model.F. change (Poly_Model.n S) with n. rewrite !fdiv_ok by lra. unfold Poly_Model.fsub. fl. reflexivity. }
  assert (TT : T = T' * t) by exact TP.
  split.
  - rewrite EA. apply f_equal. rewrite TT, Er. field; repeat split; lra.
  - unfold Poly_Model.brunt_n2. rewrite EA, A5, (at_x S zz zs th th' HS HN i Hi). unfold Poly_Model.F. fl. fold z d n G M R.
    rewrite fdiv_ok by (apply Rgt_not_eq, Rlt_gt; pos). apply f_equal. rewrite TT. fold ds. field; repeat split; lra.
Qed.
Lemma centre S zz zs th th' i :
  samples S zz zs th th' -> sensible S zs th' -> (i <= Poly_Model.p_n S)%nat -> zz i = 0 -> th 0 = 1 -> th' 0 = 0 ->
  Poly_Model.dgravpot2 S i = Fin 0 /\ Poly_Model.dp2 S i = Fin 0 /\ Poly_Model.drho2 S i = Fin 0 /\
  Poly_Model.u S i = Poly_Model.NaN /\ Poly_Model.c1 S i = Poly_Model.NaN /\ Poly_Model.v_2 S i = Poly_Model.NaN /\ Poly_Model.brunt_n2 S i = Poly_Model.NaN /\
  exists rc, 0 < rc /\ Poly_Model.rho S i = Fin rc /\
  forall K rho P g m, hydrostatic_polytrope (Poly_Model.p_G S) (Poly_Model.p_idx S) K (Poly_Model.p_radius S) rho P g m ->
    total_mass (Poly_Model.p_mass S) (Poly_Model.p_radius S) m -> filterlim rho (at_right 0) (locally rc) ->
    filterlim (Derive g) (at_right 0) (locally (4 * PI * Poly_Model.p_G S * rc / 3)) /\
    filterlim (fun r => Derive P r / r) (at_right 0) (locally (- (4 * PI * Poly_Model.p_G S * rc ^ 2 / 3))) /\
    0 < 4 * PI * Poly_Model.p_G S * rc / 3 /\ - (4 * PI * Poly_Model.p_G S * rc ^ 2 / 3) < 0.
Proof.
  intros HS HN Hi Hz Ht Hd. pose proof (signs S zs th' HN) as (H1 & H2 & H3 & H4 & H5 & H6 & H7 & Ha & Hr0 & Hp0 & HPI).
  pose proof (at_z S zz zs th th' HS i Hi) as Ez. pose proof (at_th S zz zs th th' HS i Hi) as Et. pose proof (at_dth S zz zs th th' HS i Hi) as Ed. rewrite Hz in Ez, Et, Ed. rewrite Ht in Et. rewrite Hd in Ed.
  assert (EP : forall e, Poly_Model.tpow S i e = Fin 1). { intros e. unfold Poly_Model.tpow. rewrite Et, fpow_ok by lra. unfold Rpower. rewrite ln_1, Rmult_0_r, exp_0. reflexivity. }
  assert (D0 : forall y, y <> 0 -> exists s, Poly_Model.fdiv (Fin y) (Fin 0) = Poly_Model.Inf s).
  { intros y Hy. cbn. destruct (Req_EM_T 0 0) as [_|N]; [|contradiction]. destruct (Req_EM_T y 0); [contradiction|]. eexists; reflexivity. }
  assert (DN : Poly_Model.fdiv (Fin 0) (Fin 0) = Poly_Model.NaN). { cbn. destruct (Req_EM_T 0 0) as [_|N]; [reflexivity|contradiction]. }
  assert (MI : forall s, Poly_Model.fmul (Poly_Model.Inf s) (Fin 0) = Poly_Model.NaN /\ Poly_Model.fmul (Fin 0) (Poly_Model.Inf s) = Poly_Model.NaN).
  { intros s. cbn. destruct (Req_EM_T 0 0) as [_|N]; [split; reflexivity|contradiction]. }
  assert (E2 : Poly_Model.dtheta2 S i = Fin 0).
  { unfold Poly_Model.dtheta2, Poly_Model.F. rewrite EP, Ez, Ed. destruct (D0 2) as [s ->]; [lra|]. rewrite (proj1 (MI s)). reflexivity. }
  assert (EX : Poly_Model.x S i = Fin 0). { rewrite (at_x S zz zs th th' HS HN i Hi), Hz. apply f_equal. field; repeat split; lra. }
  assert (EDR : Poly_Model.dt_ratio S i = Fin 0). { rewrite (at_dtr S zz zs th th' HS HN i Hi), Hz, Hd. apply f_equal. field; repeat split; lra. }
  assert (EDT : Poly_Model.dt_t_ratio S i = Fin 0). { unfold Poly_Model.dt_t_ratio. rewrite Ed, Et, fdiv_ok by lra. apply f_equal. field. }
  assert (EV : Poly_Model.v S i = Fin 0). { unfold Poly_Model.v, Poly_Model.F. rewrite EDT, Ez. fl. apply f_equal. ring. }
  split. { unfold Poly_Model.dgravpot2, Poly_Model.convert, Poly_Model.dgrav2_dz2, Poly_Model.F. rewrite (alpha_inv_ok S zz zs th th' HS HN), (grav_ok S zz zs th th' HS HN), E2. fl. apply f_equal. ring. }
  split. { unfold Poly_Model.dp2, Poly_Model.convert, Poly_Model.dp2_dz2, Poly_Model.F, Poly_Model.fsq. rewrite (alpha_inv_ok S zz zs th th' HS HN), (p0_ok S zz zs th th' HS HN), E2, EP, Ed, Et. fl. apply f_equal. ring. }
  split. { unfold Poly_Model.drho2, Poly_Model.convert, Poly_Model.drho2_dz2, Poly_Model.F, Poly_Model.fsq. rewrite (alpha_inv_ok S zz zs th th' HS HN), (rho0_ok S zz zs th th' HS HN), E2, !EP, Ed. fl. apply f_equal. ring. }
  split. { unfold Poly_Model.u. rewrite EP, Ez, Ed. fl. replace (- 0 * 1) with 0 by ring. exact DN. }
  split. { unfold Poly_Model.c1. rewrite EX, EDR. exact DN. }
  split. { unfold Poly_Model.v_2, Poly_Model.F. rewrite EDT, EX, (z_s_ok S zz zs th th' HS). destruct (D0 zs) as [s ->]; [lra|]. fl. rewrite Rmult_0_r. apply MI. }
  split. { unfold Poly_Model.brunt_n2, Poly_Model.surfgrav, Poly_Model.as_, Poly_Model.F. rewrite EDR, EX, EV. fl. rewrite Rmult_0_r, Rmult_0_l.
    assert (Z : forall w, Poly_Model.fdiv (Poly_Model.fmul (Fin 0) (Poly_Model.fmul (Fin 0) w)) (Fin 0) = Poly_Model.NaN).
    { intros [y| s|]; fl; [rewrite !Rmult_0_l; exact DN| |reflexivity]. destruct (Req_EM_T 0 0) as [_|N]; [reflexivity|contradiction]. }
    apply Z. }
  eexists. split; [exact Hr0|]. split.
  { unfold Poly_Model.rho, Poly_Model.rho_norm. rewrite EP, (rho0_ok S zz zs th th' HS HN). fl. apply f_equal. ring. }
  intros K rho P g m HH TM LR. destruct (central_gravity _ _ _ _ _ _ _ _ _ _ H4 HH TM LR) as [A B].
  split; [exact A|]. split; [exact B|]. split; [pos|]. apply Ropp_lt_gt_0_contravar. apply Rlt_gt. pos.
Qed.
