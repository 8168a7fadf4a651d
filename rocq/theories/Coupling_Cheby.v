(** * Proofs: Chebyshev-Gauss quadrature, symbolic derivatives. *)
From Coq Require Import Reals List ZArith Bool Lia Lra.
From Coquelicot Require Import Coquelicot.
From Verif Require Import Base Py Coupling_Model Coupling_Spec Coupling_Proofs.
Import ListNotations.
Local Open Scope R_scope.

(** ** Exactness *)
Definition node (N i : nat) : R := PI * (2 * INR i + 1) / (2 * INR N).
Definition gsum (N : nat) (g : R -> R) : R := PI / INR N * rsum (map (fun i => g (node N i)) (seq 0 N)).
Definition exact (N : nat) (g : R -> R) : Prop := is_RInt g 0 PI (gsum N g).

Lemma rsum_map_plus {A} (l : list A) (f g : A -> R) : rsum (map (fun i => f i + g i) l) = rsum (map f l) + rsum (map g l).
Proof. induction l as [|a l IH]; cbn; [ring|]. fold (rsum (map (fun i => f i + g i) l)). rewrite IH. unfold rsum. ring. Qed.
Lemma rsum_map_scal {A} (l : list A) (c : R) (f : A -> R) : rsum (map (fun i => c * f i) l) = c * rsum (map f l).
Proof. induction l as [|a l IH]; cbn; [ring|]. fold (rsum (map (fun i => c * f i) l)). rewrite IH. unfold rsum. ring. Qed.
Lemma rsum_ext {A} (l : list A) (f g : A -> R) : (forall i, f i = g i) -> rsum (map f l) = rsum (map g l).
Proof. intros H. f_equal. apply map_ext, H. Qed.
Lemma rsum_app (l k : list R) : rsum (l ++ k) = rsum l + rsum k.
Proof. unfold rsum. induction l as [|a l IH]; cbn [app fold_right]; [symmetry; apply Rplus_0_l|]. rewrite IH. ring. Qed.

Lemma exact_plus N f g : exact N f -> exact N g -> exact N (fun t => f t + g t).
Proof.
  intros Hf Hg. unfold exact in *. replace (gsum N (fun t => f t + g t)) with (plus (gsum N f) (gsum N g)).
  - exact (is_RInt_plus f g 0 PI _ _ Hf Hg).
  - unfold plus, gsum; cbn. rewrite rsum_map_plus. ring.
Qed.
Lemma exact_scal N c f : exact N f -> exact N (fun t => c * f t).
Proof.
  intros Hf. unfold exact in *. replace (gsum N (fun t => c * f t)) with (scal c (gsum N f)).
  - exact (is_RInt_scal f 0 PI c _ Hf).
  - unfold scal, gsum; cbn. unfold mult; cbn. rewrite rsum_map_scal. ring.
Qed.
Lemma exact_ext N f g : (forall t, f t = g t) -> exact N f -> exact N g.
Proof.
  intros H Hf. unfold exact in *. replace (gsum N g) with (gsum N f).
  - apply (is_RInt_ext f g); [intros; apply H|exact Hf].
  - unfold gsum. f_equal. apply rsum_ext. intros i. apply H.
Qed.

Lemma sin_k_node N k : (0 < k < 2 * N)%nat -> 0 < sin (INR k * PI / (2 * INR N)).
Proof.
  intros [H1 H2]. assert (0 < INR N) by (apply lt_0_INR; lia). assert (0 < INR k) by (apply lt_0_INR; lia).
  pose proof PI_RGT_0. assert (Hk : INR k < 2 * INR N) by (change 2 with (INR 2); rewrite <- mult_INR; apply lt_INR; lia).
  apply sin_gt_0.
  - apply Rdiv_lt_0_compat; [apply Rmult_lt_0_compat|]; lra.
  - apply (Rmult_lt_reg_r (2 * INR N)); [lra|]. unfold Rdiv. rewrite Rmult_assoc, Rinv_l by lra. nra.
Qed.
Lemma cos_sum_telescope N k M : (0 < N)%nat ->
  2 * sin (INR k * PI / (2 * INR N)) * rsum (map (fun i => cos (INR k * node N i)) (seq 0 M)) = sin (INR k * PI * INR M / INR N).
Proof.
  intros HN. assert (0 < INR N) by (apply lt_0_INR; lia). induction M as [|M IH].
  - cbn. replace (INR k * PI * 0 / INR N) with 0 by (field; lra). rewrite sin_0. ring.
  - rewrite seq_S, map_app, rsum_app. cbn [Nat.add map rsum fold_right]. rewrite Rplus_0_r, Rmult_plus_distr_l, IH.
    set (h := INR k * PI / (2 * INR N)).
    replace (INR k * node N M) with (h * (2 * INR M + 1)) by (unfold h, node; field; lra).
    replace (INR k * PI * INR M / INR N) with (h * (2 * INR M + 1) - h) by (unfold h; field; lra).
    replace (INR k * PI * INR (S M) / INR N) with (h * (2 * INR M + 1) + h) by (rewrite S_INR; unfold h; field; lra).
    rewrite sin_minus, sin_plus. ring.
Qed.
Lemma sin_npi k : sin (INR k * PI) = 0.
Proof.
  induction k as [|k IH]; [cbn; rewrite Rmult_0_l; apply sin_0|]. rewrite S_INR, Rmult_plus_distr_r, Rmult_1_l, sin_plus, IH, sin_PI. ring.
Qed.
Lemma exact_cos N k : (0 < N)%nat -> (k < 2 * N)%nat -> exact N (fun t => cos (INR k * t)).
Proof.
  intros HN Hk. assert (0 < INR N) by (apply lt_0_INR; lia). unfold exact, gsum. destruct k as [|k].
  - replace (PI / INR N * rsum (map (fun i => cos (INR 0 * node N i)) (seq 0 N))) with (scal (PI - 0) 1).
    + apply (is_RInt_ext (fun _ => 1)); [intros; cbn; rewrite Rmult_0_l, cos_0; reflexivity|]. apply (is_RInt_const (V := R_NormedModule)).
    + unfold scal; cbn. unfold mult; cbn. rewrite (rsum_ext _ _ (fun _ => 1)) by (intros; rewrite Rmult_0_l; apply cos_0).
      replace (rsum (map (fun _ => 1) (seq 0 N))) with (INR N); [field; lra|].
      clear. generalize 0%nat at 1. induction N as [|N IH]; intros n0; [reflexivity|]. cbn [seq map rsum fold_right]. fold (rsum (map (fun _ : nat => 1) (seq (S n0) N))). rewrite <- IH, S_INR. ring.
  - replace (rsum (map (fun i => cos (INR (S k) * node N i)) (seq 0 N))) with 0.
    + rewrite Rmult_0_r. replace 0 with (minus (sin (INR (S k) * PI) / INR (S k)) (sin (INR (S k) * 0) / INR (S k))) at 2.
      * apply (is_RInt_derive (fun t => sin (INR (S k) * t) / INR (S k))).
        -- intros t _. auto_derive; [exact I|]. change (match k with 0%nat => 1 | S _ => INR k + 1 end) with (INR (S k)). field. apply not_0_INR; lia.
        -- intros t _. apply (@ex_derive_continuous R_AbsRing R_NormedModule). auto_derive. exact I.
      * rewrite sin_npi, Rmult_0_r, sin_0. unfold minus, plus, opp; cbn -[INR]. field. apply not_0_INR; lia.
    + pose proof (cos_sum_telescope N (S k) N HN) as HT. pose proof (sin_k_node N (S k)) as HS.
      replace (INR (S k) * PI * INR N / INR N) with (INR (S k) * PI) in HT by (field; lra). rewrite sin_npi in HT.
      assert (0 < sin (INR (S k) * PI / (2 * INR N))) by (apply HS; lia).
      apply Rmult_integral in HT. destruct HT as [HT|HT]; [exfalso; lra|symmetry; exact HT].
Qed.
Lemma exact_pow_cos N : (0 < N)%nat -> forall n k, (n + k < 2 * N)%nat -> exact N (fun t => cos t ^ n * cos (INR k * t)).
Proof.
  intros HN. induction n as [|n IH]; intros k Hk.
  - apply (exact_ext N (fun t => cos (INR k * t))); [intros; cbn; ring|]. apply exact_cos; [assumption|lia].
  - destruct k as [|k].
    + apply (exact_ext N (fun t => cos t ^ n * cos (INR 1 * t))); [|apply IH; lia].
      intros t. cbn [INR]. rewrite Rmult_0_l, cos_0, Rmult_1_l. cbn [pow]. ring.
    + apply (exact_ext N (fun t => 1 / 2 * (cos t ^ n * cos (INR (S (S k)) * t) + cos t ^ n * cos (INR k * t)))).
      * intros t. rewrite !S_INR.
        replace ((INR k + 1 + 1) * t) with ((INR k + 1) * t + t) by ring. replace (INR k * t) with ((INR k + 1) * t - t) by ring.
        rewrite cos_plus, cos_minus. cbn [pow]. field.
      * apply (exact_scal N (1 / 2)). apply (exact_plus N); apply IH; lia.
Qed.

(** polynomial with the given coefficients, constant term first *)
Fixpoint poly (cs : list R) (x : R) : R := match cs with [] => 0 | c :: cs' => c + x * poly cs' x end.
Lemma exact_poly N : (0 < N)%nat -> forall cs n, (n + length cs <= 2 * N)%nat -> exact N (fun t => cos t ^ n * poly cs (cos t)).
Proof.
  intros HN. induction cs as [|c cs IH]; intros n Hn; cbn [poly length] in *.
  - apply (exact_ext N (fun t => 0 * cos (INR 0 * t))); [intros; ring|]. apply exact_scal. apply exact_cos; lia.
  - apply (exact_ext N (fun t => c * (cos t ^ n * cos (INR 0 * t)) + cos t ^ (S n) * poly cs (cos t))).
    + intros t. cbn [INR pow]. rewrite Rmult_0_l, cos_0. ring.
    + apply (exact_plus N (fun t => c * (cos t ^ n * cos (INR 0 * t)))); [apply (exact_scal N c); apply exact_pow_cos; lia|apply IH; lia].
Qed.

Lemma all_some_total (g : nat -> R) l : all_some (map (fun i => Some (g i)) l) = Some (map g l).
Proof. induction l as [|a l IH]; [reflexivity|]. cbn. rewrite IH. reflexivity. Qed.
Lemma cheby_gauss_total p N : cheby_gauss (fun x => Some (p x)) N = Some (gsum N (fun t => p (cos t))).
Proof.
  unfold cheby_gauss, gsum. rewrite (all_some_total (fun i => p (cheby_node N i))). f_equal.
  rewrite map_map, rsum_map_scal. f_equal. apply rsum_ext. intros i. f_equal. unfold cheby_node, node. f_equal.
  rewrite plus_INR. cbn [INR]. replace (2 * (INR i + 1) - 1) with (2 * INR i + 1) by ring. reflexivity.
Qed.

(** ** The nodes leave the Hough grid *)
Lemma all_some_none_first l : all_some (None :: l) = None. Proof. reflexivity. Qed.
Lemma first_node_above h mul : (1 <= h)%nat -> (2 <= mul)%nat -> cheby_mu h 0 < cheby_node (mul * (2 * h)) 0.
Proof.
  intros Hh Hm. unfold cheby_mu, cheby_node. pose proof PI_RGT_0.
  assert (Hh' : 1 <= INR h) by (change 1 with (INR 1); apply le_INR; lia).
  assert (Hm' : 2 <= INR mul) by (change 2 with (INR 2); apply le_INR; lia).
  rewrite !mult_INR. cbn [INR Nat.add].
  replace (PI * (2 * 1 - 1) / (2 * (INR mul * ((1 + 1) * INR h)))) with (PI / (4 * INR h) * / INR mul) by (field; lra).
  replace (PI / ((1 + 1) * INR h) * (0 + 1 / 2)) with (PI / (4 * INR h)) by (field; lra).
  set (a := PI / (4 * INR h)).
  assert (Ha : 0 < a) by (apply Rdiv_lt_0_compat; lra).
  assert (Ha2 : a <= PI) by (unfold a; apply (Rmult_le_reg_r (4 * INR h)); [lra|]; unfold Rdiv; rewrite Rmult_assoc, Rinv_l by lra; nra).
  assert (Hi : 0 < / INR mul <= / 2) by (split; [apply Rinv_0_lt_compat; lra|apply Rinv_le_contravar; lra]).
  apply cos_decreasing_1; nra.
Qed.
Lemma cheby_none h mul mu y : (1 <= h)%nat -> (2 <= mul)%nat -> (forall i, (i < 2 * h)%nat -> mu i = mu_range h i) ->
  cheby_gauss (interp1d (2 * h) mu y) (mul * (2 * h)) = None.
Proof.
  intros Hh Hm Hmu. unfold cheby_gauss.
  assert (E : interp1d (2 * h) mu y (cheby_node (mul * (2 * h)) 0) = None).
  { unfold interp1d. destruct (Rlt_dec (cheby_node (mul * (2 * h)) 0) (mu 0%nat)); [reflexivity|].
    destruct (Rlt_dec (mu (2 * h - 1)%nat) (cheby_node (mul * (2 * h)) 0)) as [|N]; [reflexivity|]. exfalso. apply N.
    rewrite Hmu by lia. unfold mu_range. destruct (Nat.ltb_spec (2 * h - 1) h); [lia|]. rewrite Nat.sub_diag.
    apply first_node_above; assumption. }
  destruct (mul * (2 * h))%nat as [|n] eqn:En; [nia|]. cbn [seq map]. rewrite E. reflexivity.
Qed.

(** ** Symbolic derivatives *)
Lemma der_x_z1 z1 z2 x V_2 Gamma_1 lam c_1 om dz1 :
  is_derive z1 x dz1 ->
  x * dz1 = (V_2 * x ^ 2 / Gamma_1 - 3) * z1 x + (lam / (c_1 * om ^ 2) - V_2 * x ^ 2 / Gamma_1) * z2 x ->
  is_derive (fun x => x * z1 x) x (rad_der_x_z_1 x V_2 Gamma_1 lam c_1 om (z1 x) (z2 x)).
Proof.
  intros H E. replace (rad_der_x_z_1 x V_2 Gamma_1 lam c_1 om (z1 x) (z2 x)) with (z1 x + x * dz1).
  - auto_derive; [exists dz1; exact H|]. change (fun x => z1 x) with z1. rewrite (is_derive_unique _ _ _ H). ring.
  - rewrite E. unfold rad_der_x_z_1. ring.
Qed.
Lemma der_x_z2 z1 z2 c1 x om As U rho M Rs dz2 dc1 :
  c1 x <> 0 -> om <> 0 -> M <> 0 -> Rs <> 0 ->
  is_derive z2 x dz2 -> is_derive c1 x dc1 ->
  x * dz2 = (c1 x * om ^ 2 - As) * z1 x + (1 - U + As) * z2 x ->
  x * dc1 = c1 x * (3 - U) -> U * M = 4 * PI * rho * Rs ^ 3 * c1 x ->
  is_derive (fun x => x * (z2 x / (c1 x * om ^ 2))) x (rad_der_x_z_2_c_1_omega (c1 x) om As U rho M Rs (z1 x) (z2 x)).
Proof.
  intros Hc Ho HM HR H2 H1 E2 E1 EU.
  replace (rad_der_x_z_2_c_1_omega (c1 x) om As U rho M Rs (z1 x) (z2 x))
    with (z2 x / (c1 x * om ^ 2) + ((x * dz2) * c1 x - z2 x * (x * dc1)) / (c1 x ^ 2 * om ^ 2)).
  - auto_derive; [repeat split; [exists dz2; exact H2|exists dc1; exact H1|]|].
    + apply Rmult_integral_contrapositive_currified; [exact Hc|]. rewrite Rmult_1_r. apply Rmult_integral_contrapositive_currified; exact Ho.
    + change (fun x => z2 x) with z2. change (fun x => c1 x) with c1. rewrite (is_derive_unique _ _ _ H2), (is_derive_unique _ _ _ H1). field. auto.
  - rewrite E2, E1. unfold rad_der_x_z_2_c_1_omega.
    replace (4 * PI * rho / (M / Rs ^ 3 * om ^ 2)) with (U / (c1 x * om ^ 2)).
    + field. auto.
    + replace U with (4 * PI * rho * Rs ^ 3 * c1 x / M) by (rewrite <- EU; field; exact HM). field. auto.
Qed.
Lemma divergence_ok z1 z2 x V_2 Gamma_1 lam c_1 om dz1 : x <> 0 ->
  is_derive z1 x dz1 ->
  x * dz1 = (V_2 * x ^ 2 / Gamma_1 - 3) * z1 x + (lam / (c_1 * om ^ 2) - V_2 * x ^ 2 / Gamma_1) * z2 x ->
  is_derive (fun x => x ^ 3 * z1 x) x (x ^ 2 * (rad_diverg x V_2 Gamma_1 (z1 x) (z2 x) + lam / (c_1 * om ^ 2) * z2 x)).
Proof.
  intros Hx H E.
  replace (x ^ 2 * (rad_diverg x V_2 Gamma_1 (z1 x) (z2 x) + lam / (c_1 * om ^ 2) * z2 x)) with (3 * x ^ 2 * z1 x + x ^ 2 * (x * dz1)).
  - auto_derive; [exists dz1; exact H|]. change (fun x => z1 x) with z1. rewrite (is_derive_unique _ _ _ H). ring.
  - rewrite E. unfold rad_diverg. ring.
Qed.

Lemma der_dgravpot G M rho r : r <> 0 -> is_derive M r (4 * PI * r ^ 2 * rho) ->
  is_derive (fun r => dgravpot G (M r) r) r (dgravpot2 G rho (dgravpot G (M r) r) r).
Proof.
  intros Hr HM. unfold dgravpot at 1. auto_derive.
  - split; [exists (4 * PI * r ^ 2 * rho); exact HM|]. split; [|exact I]. rewrite Rmult_1_r. apply Rmult_integral_contrapositive_currified; exact Hr.
  - change (fun x => M x) with M. rewrite (is_derive_unique _ _ _ HM). unfold dgravpot2, dgravpot. field. exact Hr.
Qed.
Lemma drho_brunt (rho P : R -> R) (g G1 N2 r drho_ : R) : rho r <> 0 -> P r <> 0 -> G1 <> 0 -> g <> 0 ->
  N2 = g * (1 / G1 * ((- g * rho r) / P r) - drho_ / rho r) ->
  drho (rho r) g G1 (P r) N2 = drho_.
Proof. intros Hr HP HG Hg ->. unfold drho. field. auto. Qed.
Lemma der_dgravpot2 G M rho r drho_ : r <> 0 -> is_derive M r (4 * PI * r ^ 2 * rho r) -> is_derive rho r drho_ ->
  is_derive (fun r => dgravpot2 G (rho r) (dgravpot G (M r) r) r) r
    (dgravpot3 G drho_ (dgravpot G (M r) r) (dgravpot2 G (rho r) (dgravpot G (M r) r) r) r).
Proof.
  intros Hr HM Hrho. unfold dgravpot2 at 1. unfold dgravpot at 1. auto_derive.
  - repeat split; try (exists drho_; exact Hrho); try (exists (4 * PI * r ^ 2 * rho r); exact HM); try exact Hr.
    rewrite Rmult_1_r. apply Rmult_integral_contrapositive_currified; exact Hr.
  - change (fun x => M x) with M. change (fun x => rho x) with rho. rewrite (is_derive_unique _ _ _ HM), (is_derive_unique _ _ _ Hrho). unfold dgravpot3, dgravpot2, dgravpot. field. exact Hr.
Qed.
Lemma der_dP g rho r g2 drho_ : is_derive g r g2 -> is_derive rho r drho_ ->
  is_derive (fun r => dP (rho r) (g r)) r (dP2 (rho r) drho_ (g r) g2).
Proof.
  intros Hg Hr. unfold dP. auto_derive.
  - split; [exists g2; exact Hg|]. split; [exists drho_; exact Hr|exact I].
  - change (fun x => g x) with g. change (fun x => rho x) with rho. rewrite (is_derive_unique _ _ _ Hg), (is_derive_unique _ _ _ Hr). unfold dP2. ring.
Qed.
Lemma der_dP2 g g2 rho drho_ r g3 drho2_ : is_derive g r (g2 r) -> is_derive rho r (drho_ r) -> is_derive g2 r g3 -> is_derive drho_ r drho2_ ->
  is_derive (fun r => dP2 (rho r) (drho_ r) (g r) (g2 r)) r (dP3 (rho r) (drho_ r) drho2_ (g r) (g2 r) g3).
Proof.
  intros Hg Hr Hg2 Hd. unfold dP2. auto_derive.
  - repeat split; eexists; eassumption.
  - change (fun x => g x) with g. change (fun x => rho x) with rho. change (fun x => g2 x) with g2. change (fun x => drho_ x) with drho_.
    rewrite (is_derive_unique _ _ _ Hg), (is_derive_unique _ _ _ Hr), (is_derive_unique _ _ _ Hg2), (is_derive_unique _ _ _ Hd). unfold dP3. ring.
Qed.
