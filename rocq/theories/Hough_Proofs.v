(** * Proofs about the Hough functions *)
From Coq Require Import Reals List ZArith Bool Lia Lra String.
From Coquelicot Require Import Coquelicot.
From Verif Require Import Base Hough_Model Hough_Spec.
Import ListNotations.
Local Open Scope R_scope.

(** ** Sums *)
Lemma vsum_ext n (f g : nat -> R) : (forall k, (k < n)%nat -> f k = g k) -> vsum n f = vsum n g.
Proof. induction n; intros H; cbn; [reflexivity|]. rewrite IHn by (intros; apply H; lia). rewrite H by lia. reflexivity. Qed.
Lemma vsum_plus n (f g : nat -> R) : vsum n (fun k => f k + g k) = vsum n f + vsum n g.
Proof. induction n; cbn; [ring|]. rewrite IHn. ring. Qed.
Lemma vsum_scal n c (f : nat -> R) : vsum n (fun k => c * f k) = c * vsum n f.
Proof. induction n; cbn; [ring|]. rewrite IHn. ring. Qed.
Lemma vsum_scal_r n c (f : nat -> R) : vsum n (fun k => f k * c) = vsum n f * c.
Proof. induction n; cbn; [ring|]. rewrite IHn. ring. Qed.
Lemma vsum_zero n : vsum n (fun _ => 0) = 0.
Proof. induction n; cbn; [reflexivity|]. rewrite IHn. ring. Qed.
Lemma vsum_swap n p (f : nat -> nat -> R) :
  vsum n (fun i => vsum p (fun j => f i j)) = vsum p (fun j => vsum n (fun i => f i j)).
Proof. induction n; cbn; [rewrite vsum_zero; reflexivity|]. rewrite IHn, <- vsum_plus. reflexivity. Qed.
Lemma vsum_delta n i (f : nat -> R) : (i < n)%nat -> vsum n (fun k => (if Nat.eqb i k then 1 else 0) * f k) = f i.
Proof.
  induction n; intros H; [lia|]. cbn [vsum]. destruct (Nat.eq_dec i n) as [->|Hn].
  - rewrite Nat.eqb_refl. rewrite (vsum_ext n _ (fun _ => 0)); [rewrite vsum_zero; ring|].
    intros k Hk. destruct (Nat.eqb_spec n k); [lia|ring].
  - rewrite IHn by lia. destruct (Nat.eqb_spec i n); [lia|ring].
Qed.
Lemma mmul_assoc h A B f i : mvec h (mmul h A B) f i = mvec h A (mvec h B f) i.
Proof.
  unfold mvec, mmul. rewrite (vsum_ext h _ (fun k => vsum h (fun l => A i l * B l k * f k))).
  - rewrite vsum_swap. apply vsum_ext. intros l _. rewrite <- vsum_scal. apply vsum_ext. intros k _. ring.
  - intros k _. rewrite <- vsum_scal_r. reflexivity.
Qed.

(** ** Chebyshev polynomials and their derivatives *)
Fixpoint D_pair (n : nat) (x : R) : R * R :=
  match n with O => (0, 1) | S k => let p := D_pair k x in (snd p, 2 * snd (T_pair k x) + 2 * x * snd p - fst p) end.
Fixpoint DD_pair (n : nat) (x : R) : R * R :=
  match n with O => (0, 0) | S k => let p := DD_pair k x in (snd p, 4 * snd (D_pair k x) + 2 * x * snd p - fst p) end.
Definition dT n x := fst (D_pair n x).
Definition ddT n x := fst (DD_pair n x).
Lemma der_rec (f g : R -> R) x df dg : is_derive f x df -> is_derive g x dg ->
  is_derive (fun x => 2 * x * g x - f x) x (2 * g x + 2 * x * dg - df).
Proof.
  intros H1 H2. assert (E1 : ex_derive f x) by (eexists; exact H1). assert (E2 : ex_derive g x) by (eexists; exact H2).
  auto_derive; [tauto|]. change (fun x0 => f x0) with f. change (fun x0 => g x0) with g.
  rewrite (is_derive_unique _ _ _ H1), (is_derive_unique _ _ _ H2). ring.
Qed.
Lemma der_rec2 (f g k : R -> R) x df dg dk : is_derive f x df -> is_derive g x dg -> is_derive k x dk ->
  is_derive (fun x => 2 * k x + 2 * x * g x - f x) x (2 * dk + 2 * g x + 2 * x * dg - df).
Proof.
  intros H1 H2 H3. assert (E1 : ex_derive f x) by (eexists; exact H1). assert (E2 : ex_derive g x) by (eexists; exact H2).
  assert (E3 : ex_derive k x) by (eexists; exact H3).
  auto_derive; [tauto|]. change (fun x0 => f x0) with f. change (fun x0 => g x0) with g. change (fun x0 => k x0) with k.
  rewrite (is_derive_unique _ _ _ H1), (is_derive_unique _ _ _ H2), (is_derive_unique _ _ _ H3). ring.
Qed.
Lemma T_pair_der n x : is_derive (fun x => fst (T_pair n x)) x (fst (D_pair n x)) /\ is_derive (fun x => snd (T_pair n x)) x (snd (D_pair n x)).
Proof.
  induction n as [|n [H1 H2]]; cbn [T_pair D_pair fst snd].
  - split; auto_derive; auto.
  - split; [exact H2|]. exact (der_rec _ _ x _ _ H1 H2).
Qed.
Lemma D_pair_der n x : is_derive (fun x => fst (D_pair n x)) x (fst (DD_pair n x)) /\ is_derive (fun x => snd (D_pair n x)) x (snd (DD_pair n x)).
Proof.
  induction n as [|n [H1 H2]]; cbn [D_pair DD_pair fst snd].
  - split; auto_derive; auto.
  - split; [exact H2|]. destruct (T_pair_der n x) as [_ H3].
    replace (4 * snd (D_pair n x) + 2 * x * snd (DD_pair n x) - fst (DD_pair n x))
      with (2 * snd (D_pair n x) + 2 * snd (D_pair n x) + 2 * x * snd (DD_pair n x) - fst (DD_pair n x)) by ring.
    exact (der_rec2 _ _ _ x _ _ _ H1 H2 H3).
Qed.
Lemma T_der n x : is_derive (T n) x (dT n x). Proof. exact (proj1 (T_pair_der n x)). Qed.
Lemma dT_der n x : is_derive (dT n) x (ddT n x). Proof. exact (proj1 (D_pair_der n x)). Qed.

Lemma cos_step t n : cos (INR (S (S n)) * t) = 2 * cos t * cos (INR (S n) * t) - cos (INR n * t).
Proof.
  rewrite !S_INR. replace ((INR n + 1 + 1) * t) with ((INR n + 1) * t + t) by ring.
  replace (INR n * t) with ((INR n + 1) * t - t) by ring. rewrite cos_plus, cos_minus. ring.
Qed.
Lemma sin_step t n : sin (INR (S (S n)) * t) = 2 * cos t * sin (INR (S n) * t) - sin (INR n * t).
Proof.
  rewrite !S_INR. replace ((INR n + 1 + 1) * t) with ((INR n + 1) * t + t) by ring.
  replace (INR n * t) with ((INR n + 1) * t - t) by ring. rewrite sin_plus, sin_minus. ring.
Qed.
Lemma T_pair_cos n t : T_pair n (cos t) = (cos (INR n * t), cos (INR (S n) * t)).
Proof.
  induction n as [|n IH]; cbn [T_pair].
  - cbn [INR]. rewrite Rmult_0_l, cos_0, Rmult_1_l. reflexivity.
  - rewrite IH. cbn [fst snd]. rewrite (cos_step t n). f_equal.
Qed.
Lemma T_cos n t : T n (cos t) = cos (INR n * t). Proof. unfold T. rewrite T_pair_cos. reflexivity. Qed.
Lemma D_pair_cos n t : fst (D_pair n (cos t)) * sin t = INR n * sin (INR n * t) /\
  snd (D_pair n (cos t)) * sin t = INR (S n) * sin (INR (S n) * t).
Proof.
  induction n as [|n [H1 H2]]; cbn [D_pair fst snd].
  - cbn [INR]. replace (1 * t) with t by ring. split; ring.
  - split; [exact H2|]. rewrite T_pair_cos. cbn [fst snd].
    replace ((2 * cos (INR (S n) * t) + 2 * cos t * snd (D_pair n (cos t)) - fst (D_pair n (cos t))) * sin t)
      with (2 * cos (INR (S n) * t) * sin t + 2 * cos t * (snd (D_pair n (cos t)) * sin t) - fst (D_pair n (cos t)) * sin t) by ring.
    rewrite H1, H2.
    assert (HA : sin (INR (S (S n)) * t) = sin (INR (S n) * t) * cos t + cos (INR (S n) * t) * sin t).
    { rewrite <- sin_plus. f_equal. rewrite (S_INR (S n)). ring. }
    assert (HB : sin (INR n * t) = sin (INR (S n) * t) * cos t - cos (INR (S n) * t) * sin t).
    { rewrite <- sin_minus. f_equal. rewrite S_INR. ring. }
    rewrite HA, HB, !(S_INR (S n)), !S_INR. ring.
Qed.
Lemma dT_cos n t : dT n (cos t) * sin t = INR n * sin (INR n * t). Proof. apply (D_pair_cos n t). Qed.
Lemma DD_pair_cos n t :
  fst (DD_pair n (cos t)) * sin t ^ 3 = INR n * (cos t * sin (INR n * t) - INR n * cos (INR n * t) * sin t) /\
  snd (DD_pair n (cos t)) * sin t ^ 3 = INR (S n) * (cos t * sin (INR (S n) * t) - INR (S n) * cos (INR (S n) * t) * sin t).
Proof.
  induction n as [|n [H1 H2]]; cbn [DD_pair fst snd].
  - cbn [INR]. replace (1 * t) with t by ring. split; ring.
  - split; [exact H2|]. destruct (D_pair_cos n t) as [_ H3].
    replace ((4 * snd (D_pair n (cos t)) + 2 * cos t * snd (DD_pair n (cos t)) - fst (DD_pair n (cos t))) * sin t ^ 3)
      with (4 * (snd (D_pair n (cos t)) * sin t) * sin t ^ 2 + 2 * cos t * (snd (DD_pair n (cos t)) * sin t ^ 3) - fst (DD_pair n (cos t)) * sin t ^ 3) by ring.
    rewrite H1, H2, H3.
    assert (HA : sin (INR (S (S n)) * t) = sin (INR (S n) * t) * cos t + cos (INR (S n) * t) * sin t).
    { rewrite <- sin_plus. f_equal. rewrite (S_INR (S n)). ring. }
    assert (HB : sin (INR n * t) = sin (INR (S n) * t) * cos t - cos (INR (S n) * t) * sin t).
    { rewrite <- sin_minus. f_equal. rewrite S_INR. ring. }
    assert (HC : cos (INR (S (S n)) * t) = cos (INR (S n) * t) * cos t - sin (INR (S n) * t) * sin t).
    { rewrite <- cos_plus. f_equal. rewrite (S_INR (S n)). ring. }
    assert (HD : cos (INR n * t) = cos (INR (S n) * t) * cos t + sin (INR (S n) * t) * sin t).
    { rewrite <- cos_minus. f_equal. rewrite S_INR. ring. }
    rewrite HA, HB, HC, HD, !(S_INR (S n)), !S_INR.
    assert (HS : sin t ^ 2 = 1 - cos t ^ 2) by (pose proof (sin2_cos2 t) as Q; unfold Rsqr in Q; lra).
    set (a := sin (INR (S n) * t)). set (b := cos (INR (S n) * t)).
    replace (sin t ^ 2) with (sin t * sin t) in * by ring. nra.
Qed.
Lemma ddT_cos n t : ddT n (cos t) * sin t ^ 3 = INR n * (cos t * sin (INR n * t) - INR n * cos (INR n * t) * sin t).
Proof. apply (DD_pair_cos n t). Qed.
Lemma T_parity n x : T n (- x) = (-1) ^ n * T n x.
Proof.
  unfold T. enough (H : fst (T_pair n (-x)) = (-1)^n * fst (T_pair n x) /\ snd (T_pair n (-x)) = (-1)^(S n) * snd (T_pair n x)) by apply H.
  induction n as [|n [H1 H2]]; cbn [T_pair fst snd]; [cbn; split; ring|]. split; [exact H2|]. rewrite H1, H2. cbn [pow]. ring.
Qed.

(** ** The grid *)
Lemma theta_range h i : (i < h)%nat -> 0 < theta h i < PI / 2.
Proof.
  intros H. unfold theta. assert (Hh : 0 < INR h) by (apply lt_0_INR; lia).
  assert (Hi : INR i + 1 <= INR h) by (rewrite <- S_INR; apply le_INR; lia). pose proof (pos_INR i). pose proof PI_RGT_0.
  rewrite mult_INR. change (INR 2) with (1 + 1).
  replace (PI / ((1 + 1) * INR h) * (INR i + 1 / 2)) with (PI / 2 * ((INR i + 1 / 2) / INR h)) by (field; lra).
  assert (0 < (INR i + 1 / 2) / INR h) by (apply Rdiv_lt_0_compat; lra).
  assert ((INR i + 1 / 2) / INR h < 1) by (apply (Rmult_lt_reg_r (INR h)); [lra|]; unfold Rdiv; rewrite Rmult_assoc, Rinv_l; lra).
  split; nra.
Qed.
Lemma s_sin h i : (i < h)%nat -> s_ h i = sin (theta h i).
Proof.
  intros H. destruct (theta_range h i H). unfold s_, mu_. pose proof PI_RGT_0.
  replace (1 - cos (theta h i) ^ 2) with (Rsqr (sin (theta h i))).
  - apply sqrt_Rsqr. left. apply sin_gt_0; lra.
  - pose proof (sin2_cos2 (theta h i)) as Q. unfold Rsqr in *. lra.
Qed.
Lemma s_pos h i : (i < h)%nat -> 0 < s_ h i.
Proof. intros H. rewrite s_sin by exact H. destruct (theta_range h i H). pose proof PI_RGT_0. apply sin_gt_0; lra. Qed.
Lemma mu_pos h i : (i < h)%nat -> 0 < mu_ h i.
Proof. intros H. unfold mu_. destruct (theta_range h i H). apply cos_gt_0; lra. Qed.
Lemma s2 h i : (i < h)%nat -> s_ h i ^ 2 = 1 - mu_ h i ^ 2.
Proof. intros H. rewrite s_sin by exact H. unfold mu_. pose proof (sin2_cos2 (theta h i)) as Q. unfold Rsqr in Q. lra. Qed.
Lemma mu_lt_1 h i : (i < h)%nat -> -1 < mu_ h i < 1.
Proof. intros H. pose proof (s_pos h i H). pose proof (mu_pos h i H). pose proof (s2 h i H). split; nra. Qed.

Lemma arg_split h i jj : (0 < h)%nat -> arg h i jj = INR jj * PI + INR jj * theta h i.
Proof.
  intros H. unfold arg, theta. assert (0 < INR (2 * h)) by (apply lt_0_INR; lia). field. lra.
Qed.
Lemma cos_sin_npi k x : cos (INR k * PI + x) = (-1) ^ k * cos x /\ sin (INR k * PI + x) = (-1) ^ k * sin x.
Proof.
  revert x. induction k; intros x.
  - cbn [INR pow]. rewrite Rmult_0_l, Rplus_0_l. split; ring.
  - rewrite S_INR. replace ((INR k + 1) * PI + x) with (INR k * PI + (x + PI)) by ring.
    destruct (IHk (x + PI)) as [-> ->]. rewrite neg_cos, neg_sin. cbn [pow]. split; ring.
Qed.
Lemma cos_arg h i jj : (0 < h)%nat -> cos (arg h i jj) = (-1) ^ jj * cos (INR jj * theta h i).
Proof. intros H. rewrite arg_split by exact H. apply cos_sin_npi. Qed.
Lemma sin_arg h i jj : (0 < h)%nat -> sin (arg h i jj) = (-1) ^ jj * sin (INR jj * theta h i).
Proof. intros H. rewrite arg_split by exact H. apply cos_sin_npi. Qed.
Lemma pm1_sq n : (-1) ^ n * (-1) ^ n = 1.
Proof. rewrite <- Rpow_mult_distr. replace (-1 * -1) with 1 by ring. apply pow1. Qed.

(** ** Expansions *)
Section Expansion.
Variables (parity : bool) (h : nat) (a : vec).
Definition P0 (x : R) := vsum h (fun j => a j * ((-1) ^ j_index parity j * T (j_index parity j) x)).
Definition P1 (x : R) := vsum h (fun j => a j * ((-1) ^ j_index parity j * dT (j_index parity j) x)).
Definition P2 (x : R) := vsum h (fun j => a j * ((-1) ^ j_index parity j * ddT (j_index parity j) x)).
End Expansion.
Lemma der_scal2 (f : R -> R) c d x df : is_derive f x df -> is_derive (fun x => c * (d * f x)) x (c * (d * df)).
Proof.
  intros H. assert (E : ex_derive f x) by (eexists; exact H). auto_derive; [tauto|]. change (fun x0 => f x0) with f.
  rewrite (is_derive_unique _ _ _ H). ring.
Qed.
Lemma vsum_der n (f df : nat -> R -> R) x : (forall j, (j < n)%nat -> is_derive (f j) x (df j x)) ->
  is_derive (fun x => vsum n (fun j => f j x)) x (vsum n (fun j => df j x)).
Proof.
  induction n; intros H; cbn [vsum].
  - auto_derive; auto.
  - apply (is_derive_plus (fun x => vsum n (fun j => f j x)) (f n)); [apply IHn; intros; apply H; lia|apply H; lia].
Qed.
Lemma P0_der parity h a x : is_derive (P0 parity h a) x (P1 parity h a x).
Proof.
  apply (vsum_der h (fun j x => a j * ((-1) ^ j_index parity j * T (j_index parity j) x)) (fun j x => a j * ((-1) ^ j_index parity j * dT (j_index parity j) x))).
  intros j _. apply der_scal2. apply T_der.
Qed.
Lemma P1_der parity h a x : is_derive (P1 parity h a) x (P2 parity h a x).
Proof.
  apply (vsum_der h (fun j x => a j * ((-1) ^ j_index parity j * dT (j_index parity j) x)) (fun j x => a j * ((-1) ^ j_index parity j * ddT (j_index parity j) x))).
  intros j _. apply der_scal2. apply dT_der.
Qed.
Definition E0 (parity pf : bool) (h : nat) (a : vec) (x : R) : R :=
  if pf then sqrt (1 - x ^ 2) * P0 parity h a x else P0 parity h a x.
Definition E1 (parity pf : bool) (h : nat) (a : vec) (x : R) : R :=
  if pf then - x / sqrt (1 - x ^ 2) * P0 parity h a x + sqrt (1 - x ^ 2) * P1 parity h a x else P1 parity h a x.
Definition E2 (parity pf : bool) (h : nat) (a : vec) (x : R) : R :=
  if pf then - P0 parity h a x / sqrt (1 - x ^ 2) ^ 3 - 2 * x * P1 parity h a x / sqrt (1 - x ^ 2)
             + sqrt (1 - x ^ 2) * P2 parity h a x else P2 parity h a x.
Lemma sqrt_ok x : -1 < x < 1 -> 0 < 1 - x ^ 2 /\ 0 < sqrt (1 - x ^ 2) /\ sqrt (1 - x ^ 2) ^ 2 = 1 - x ^ 2.
Proof.
  intros H. assert (0 < 1 - x ^ 2) by nra. split; [exact H0|]. split; [apply sqrt_lt_R0; exact H0|].
  apply pow2_sqrt. lra.
Qed.
Lemma der_sqrt_prod (f : R -> R) x df : -1 < x < 1 -> is_derive f x df ->
  is_derive (fun x => sqrt (1 - x ^ 2) * f x) x (- x / sqrt (1 - x ^ 2) * f x + sqrt (1 - x ^ 2) * df).
Proof.
  intros Hx H. destruct (sqrt_ok x Hx) as (H1 & H2 & H3). assert (E : ex_derive f x) by (eexists; exact H).
  auto_derive; [split; [lra|tauto]|]. change (fun x0 => f x0) with f. rewrite (is_derive_unique _ _ _ H).
  replace (x * (x * 1)) with (x ^ 2) by ring. unfold Rminus in H1, H2. change (1 - x ^ 2) with (1 + - x ^ 2). field. lra.
Qed.
Lemma der_div_sqrt (f : R -> R) x df : -1 < x < 1 -> is_derive f x df ->
  is_derive (fun x => - x / sqrt (1 - x ^ 2) * f x) x (- f x / sqrt (1 - x ^ 2) ^ 3 - x * df / sqrt (1 - x ^ 2)).
Proof.
  intros Hx H. destruct (sqrt_ok x Hx) as (H1 & H2 & H3). assert (E : ex_derive f x) by (eexists; exact H).
  auto_derive; change (x * (x * 1)) with (x ^ 2); change (1 + - x ^ 2) with (1 - x ^ 2).
  - repeat split; try tauto; try lra.
  - change (fun x0 => f x0) with f. rewrite (is_derive_unique _ _ _ H).
    set (q := sqrt (1 - x ^ 2)) in *. assert (Hq : x ^ 2 = 1 - q ^ 2) by lra. field_simplify; [|lra|lra].
    rewrite Hq. field. lra.
Qed.
Lemma E_derivatives parity pf h a : derivatives (E0 parity pf h a) (E1 parity pf h a) (E2 parity pf h a).
Proof.
  intros x Hx. destruct pf; cbn [E0 E1 E2].
  - split; [apply der_sqrt_prod; [exact Hx|apply P0_der]|].
    unfold E1, E2. replace (- P0 parity h a x / sqrt (1 - x ^ 2) ^ 3 - 2 * x * P1 parity h a x / sqrt (1 - x ^ 2) + sqrt (1 - x ^ 2) * P2 parity h a x)
      with (- P0 parity h a x / sqrt (1 - x ^ 2) ^ 3 - x * P1 parity h a x / sqrt (1 - x ^ 2) + (- x / sqrt (1 - x ^ 2) * P1 parity h a x + sqrt (1 - x ^ 2) * P2 parity h a x)).
    + apply (is_derive_plus (fun x => - x / sqrt (1 - x ^ 2) * P0 parity h a x) (fun x => sqrt (1 - x ^ 2) * P1 parity h a x)).
      * apply der_div_sqrt; [exact Hx|apply P0_der].
      * apply der_sqrt_prod; [exact Hx|apply P1_der].
    + destruct (sqrt_ok x Hx) as (_ & H2 & _). field. lra.
  - split; [apply P0_der|apply P1_der].
Qed.
(** values at the grid points *)
Lemma E0_grid parity pf h a i : (i < h)%nat -> E0 parity pf h a (mu_ h i) = mvec h (t0 h parity pf) a i.
Proof.
  intros Hi. unfold E0, mvec, t0, P0, s_. destruct pf.
  - rewrite <- vsum_scal. apply vsum_ext. intros j _. rewrite cos_arg by lia. unfold mu_ at 2. rewrite T_cos. ring.
  - apply vsum_ext. intros j _. rewrite cos_arg by lia. unfold mu_. rewrite T_cos. ring.
Qed.
Lemma dT_grid n h i : (i < h)%nat -> dT n (mu_ h i) = INR n * sin (INR n * theta h i) / s_ h i.
Proof.
  intros Hi. pose proof (s_pos h i Hi) as Hs. rewrite s_sin in * by exact Hi. rewrite <- (dT_cos n (theta h i)). unfold mu_. field. lra.
Qed.
Lemma ddT_grid n h i : (i < h)%nat -> ddT n (mu_ h i) =
  INR n * (mu_ h i * sin (INR n * theta h i) - INR n * cos (INR n * theta h i) * s_ h i) / s_ h i ^ 3.
Proof.
  intros Hi. pose proof (s_pos h i Hi) as Hs. rewrite s_sin in * by exact Hi. unfold mu_. rewrite <- (ddT_cos n (theta h i)). field. lra.
Qed.
Lemma T_grid n h i : T n (mu_ h i) = cos (INR n * theta h i). Proof. apply T_cos. Qed.
Lemma E1_grid parity pf h a i : (i < h)%nat -> E1 parity pf h a (mu_ h i) = mvec h (t1 h parity pf) a i.
Proof.
  intros Hi. pose proof (s_pos h i Hi) as Hs. unfold E1, mvec, t1, P0, P1. change (sqrt (1 - mu_ h i ^ 2)) with (s_ h i). destruct pf.
  - rewrite <- !vsum_scal, <- vsum_plus. apply vsum_ext. intros j _. rewrite cos_arg, sin_arg by lia.
    rewrite T_grid, dT_grid by exact Hi. field. lra.
  - apply vsum_ext. intros j _. rewrite sin_arg by lia. rewrite dT_grid by exact Hi. field. lra.
Qed.
Lemma E2_grid parity pf h a i : (i < h)%nat -> E2 parity pf h a (mu_ h i) = mvec h (t2 h parity pf) a i.
Proof.
  intros Hi. pose proof (s_pos h i Hi) as Hs. unfold E2, mvec, t2. change (sqrt (1 - mu_ h i ^ 2)) with (s_ h i). destruct pf.
  - unfold Rminus. unfold Rdiv at 1 2. replace (- P0 parity h a (mu_ h i) * / s_ h i ^ 3) with (- / s_ h i ^ 3 * P0 parity h a (mu_ h i)) by ring.
    replace (- (2 * mu_ h i * P1 parity h a (mu_ h i) * / s_ h i)) with (- 2 * mu_ h i / s_ h i * P1 parity h a (mu_ h i)) by (field; lra).
    unfold P0, P1, P2. rewrite <- !vsum_scal, <- !vsum_plus. apply vsum_ext. intros j _. rewrite cos_arg, sin_arg by lia.
    rewrite T_grid, dT_grid, ddT_grid by exact Hi. field. lra.
  - unfold P2. apply vsum_ext. intros j _. rewrite cos_arg, sin_arg by lia. rewrite ddT_grid by exact Hi. field. lra.
Qed.

(** every vector is interpolated, and differentiated exactly *)
Lemma interpolant h X parity pf f : right_inverse h (t0 h parity pf) (X parity pf) ->
  let a := mvec h (X parity pf) f in
  forall i, (i < h)%nat ->
    E0 parity pf h a (mu_ h i) = f i /\ E1 parity pf h a (mu_ h i) = diff1 h X f parity pf i /\
    E2 parity pf h a (mu_ h i) = diff2 h X f parity pf i.
Proof.
  intros HX a i Hi. rewrite E0_grid, E1_grid, E2_grid by exact Hi. unfold diff1, diff2, d1, d2. rewrite !mmul_assoc. split; [|tauto].
  unfold a. rewrite <- mmul_assoc. unfold mvec, mmul. rewrite <- (vsum_delta h i f Hi). apply vsum_ext. intros k Hk.
  rewrite (HX i k Hi Hk). reflexivity.
Qed.
