(** * The collocation matrices are invertible (discrete orthogonality) *)
From Coq Require Import Reals List ZArith Bool Lia Lra String.
From Coquelicot Require Import Coquelicot.
From Verif Require Import Base Hough_Model Hough_Spec Hough_Proofs.
Import ListNotations.
Local Open Scope R_scope.

(** closed sums *)
Lemma sum_odd_cos n y : 2 * sin y * vsum n (fun j => cos (INR (2 * j + 1) * y)) = sin (2 * INR n * y).
Proof.
  induction n; cbn [vsum]; [cbn [INR]; replace (2 * 0 * y) with 0 by ring; rewrite sin_0; ring|].
  rewrite Rmult_plus_distr_l, IHn. rewrite S_INR. replace (INR (2 * n + 1)) with (2 * INR n + 1) by (rewrite plus_INR, mult_INR; cbn [INR]; ring).
  replace (2 * INR n * y) with ((2 * INR n + 1) * y - y) by ring. replace (2 * (INR n + 1) * y) with ((2 * INR n + 1) * y + y) by ring.
  rewrite sin_minus, sin_plus. ring.
Qed.
Lemma sum_even_cos n y : (0 < n)%nat ->
  2 * sin y * vsum n (fun j => (if Nat.eqb j 0 then 1 / 2 else 1) * cos (INR (2 * j) * y)) = sin ((2 * INR n - 1) * y).
Proof.
  induction n as [|n IH]; [lia|]. intros _. destruct n as [|n].
  - cbn [vsum Nat.eqb Nat.mul INR]. rewrite Rmult_0_l, cos_0. replace ((2 * 1 - 1) * y) with y by ring. field.
  - cbn [vsum] in *. rewrite Rmult_plus_distr_l, IH by lia.
    change (Nat.eqb (S n) 0) with false. cbv iota. rewrite (S_INR (S n)).
    replace (INR (2 * S n)) with (2 * INR (S n)) by (rewrite mult_INR; cbn [INR]; ring).
    replace ((2 * (INR (S n) + 1) - 1) * y) with (2 * INR (S n) * y + y) by ring.
    replace ((2 * INR (S n) - 1) * y) with (2 * INR (S n) * y - y) by ring. rewrite sin_minus, sin_plus. ring.
Qed.
Lemma cos_cos a b : cos a * cos b = (cos (a + b) + cos (a - b)) / 2.
Proof. rewrite cos_plus, cos_minus. field. Qed.

(** theta_i +- theta_k = pi p / 2h *)
Definition ang (h : nat) (p : Z) : R := PI * IZR p / (2 * INR h).
Lemma theta_plus h i k : (0 < h)%nat -> theta h i + theta h k = ang h (Z.of_nat i + Z.of_nat k + 1).
Proof.
  intros H. assert (0 < INR h) by (apply lt_0_INR; lia). unfold theta, ang. rewrite mult_INR, !plus_IZR, <- !INR_IZR_INZ.
  change (INR 2) with (1 + 1). field. lra.
Qed.
Lemma theta_minus h i k : (0 < h)%nat -> theta h i - theta h k = ang h (Z.of_nat i - Z.of_nat k).
Proof.
  intros H. assert (0 < INR h) by (apply lt_0_INR; lia). unfold theta, ang. rewrite mult_INR, minus_IZR, <- !INR_IZR_INZ.
  change (INR 2) with (1 + 1). field. lra.
Qed.
Lemma sin_ang_pos h p : (0 < p < 2 * Z.of_nat h)%Z -> 0 < sin (ang h p).
Proof.
  intros [H1 H2]. assert (0 < INR h) by (apply lt_0_INR; lia). apply IZR_lt in H1, H2. rewrite mult_IZR, <- INR_IZR_INZ in H2.
  pose proof PI_RGT_0. unfold ang.
  assert (0 < IZR p / (2 * INR h)) by (apply Rdiv_lt_0_compat; lra).
  assert (IZR p / (2 * INR h) < 1) by (apply (Rmult_lt_reg_r (2 * INR h)); [lra|]; unfold Rdiv; rewrite Rmult_assoc, Rinv_l; lra).
  replace (PI * IZR p / (2 * INR h)) with (PI * (IZR p / (2 * INR h))) by (field; lra). apply sin_gt_0; nra.
Qed.
Lemma sin_ang_neq h p : (- (2 * Z.of_nat h) < p < 2 * Z.of_nat h)%Z -> p <> 0%Z -> sin (ang h p) <> 0.
Proof.
  intros H Hp. destruct (Z_lt_le_dec 0 p) as [Hl|Hl].
  - pose proof (sin_ang_pos h p ltac:(lia)). lra.
  - pose proof (sin_ang_pos h (- p) ltac:(lia)) as Q. replace (ang h (- p)) with (- ang h p) in Q by (unfold ang; rewrite opp_IZR; unfold Rdiv; ring).
    rewrite sin_neg in Q. lra.
Qed.
Lemma sin_h_ang h p : (0 < h)%nat -> sin (2 * INR h * ang h p) = 0.
Proof.
  intros H. assert (0 < INR h) by (apply lt_0_INR; lia). unfold ang. replace (2 * INR h * (PI * IZR p / (2 * INR h))) with (IZR p * PI) by (field; lra).
  apply sin_eq_0_1. exists p. reflexivity.
Qed.
Lemma cos_ppi p : cos (IZR p * PI) = if Z.even p then 1 else -1.
Proof.
  destruct (Z.even p) eqn:E.
  - apply Z.even_spec in E. destruct E as [k ->]. rewrite mult_IZR. replace (2 * IZR k * PI) with (0 + 2 * IZR k * PI) by ring.
    destruct (Z_le_gt_dec 0 k) as [Hk|Hk].
    + rewrite <- (Z2Nat.id k Hk), <- INR_IZR_INZ. rewrite cos_period. apply cos_0.
    + rewrite <- cos_neg. replace (- (0 + 2 * IZR k * PI)) with (0 + 2 * IZR (- k) * PI) by (rewrite opp_IZR; ring).
      rewrite <- (Z2Nat.id (- k)) by lia. rewrite <- INR_IZR_INZ, cos_period. apply cos_0.
  - assert (Ho : Z.odd p = true) by (rewrite <- Z.negb_even, E; reflexivity). apply Z.odd_spec in Ho. destruct Ho as [k ->].
    rewrite plus_IZR, mult_IZR. replace ((2 * IZR k + 1) * PI) with (2 * IZR k * PI + PI) by ring. rewrite neg_cos.
    replace (2 * IZR k * PI) with (0 + 2 * IZR k * PI) by ring.
    destruct (Z_le_gt_dec 0 k) as [Hk|Hk].
    + rewrite <- (Z2Nat.id k Hk), <- INR_IZR_INZ. rewrite cos_period, cos_0. reflexivity.
    + rewrite <- (cos_neg (0 + 2 * IZR k * PI)). replace (- (0 + 2 * IZR k * PI)) with (0 + 2 * IZR (- k) * PI) by (rewrite opp_IZR; ring).
      rewrite <- (Z2Nat.id (- k)) by lia. rewrite <- INR_IZR_INZ, cos_period, cos_0. reflexivity.
Qed.
(** sums over the column index at ang h p *)
Lemma odd_sum h p : (0 < h)%nat -> (- (2 * Z.of_nat h) < p < 2 * Z.of_nat h)%Z ->
  vsum h (fun j => cos (INR (2 * j + 1) * ang h p)) = if Z.eqb p 0 then INR h else 0.
Proof.
  intros Hh Hp. destruct (Z.eqb_spec p 0) as [->|Hn].
  - rewrite (vsum_ext h _ (fun _ => 1)).
    + clear. induction h; [reflexivity|]. cbn [vsum]. rewrite IHh, S_INR. reflexivity.
    + intros k _. unfold ang. rewrite Rmult_0_r. unfold Rdiv. rewrite Rmult_0_l, Rmult_0_r. apply cos_0.
  - pose proof (sum_odd_cos h (ang h p)) as Q. rewrite sin_h_ang in Q by exact Hh. pose proof (sin_ang_neq h p Hp Hn).
    apply Rmult_integral in Q. destruct Q; [lra|assumption].
Qed.
Lemma even_sum h p : (0 < h)%nat -> (- (2 * Z.of_nat h) < p < 2 * Z.of_nat h)%Z ->
  vsum h (fun j => (if Nat.eqb j 0 then 1 / 2 else 1) * cos (INR (2 * j) * ang h p)) =
  if Z.eqb p 0 then INR h - 1 / 2 else (if Z.even p then - (1 / 2) else 1 / 2).
Proof.
  intros Hh Hp. destruct (Z.eqb_spec p 0) as [->|Hn].
  - rewrite (vsum_ext h _ (fun j => (if Nat.eqb j 0 then 1 / 2 else 1))).
    + clear Hp. destruct h as [|n]; [lia|]. clear. induction n; [cbn; field|]. cbn [vsum] in *. rewrite IHn.
      change (Nat.eqb (S n) 0) with false. cbv iota. rewrite (S_INR (S n)). ring.
    + intros k _. unfold ang. rewrite Rmult_0_r. unfold Rdiv at 2. rewrite Rmult_0_l, Rmult_0_r, cos_0. ring.
  - pose proof (sum_even_cos h (ang h p) Hh) as Q. pose proof (sin_ang_neq h p Hp Hn) as Hs.
    replace ((2 * INR h - 1) * ang h p) with (2 * INR h * ang h p - ang h p) in Q by ring.
    rewrite sin_minus, sin_h_ang in Q by exact Hh.
    assert (HI : 0 < INR h) by (apply lt_0_INR; lia).
    replace (2 * INR h * ang h p) with (IZR p * PI) in Q by (unfold ang; field; lra). rewrite cos_ppi in Q.
    apply (Rmult_eq_reg_l (2 * sin (ang h p))); [|lra]. rewrite Q. destruct (Z.even p); field.
Qed.
(** the inverse *)
Definition wgt (parity : bool) (h j : nat) : R := if parity then 2 / INR h else (if Nat.eqb j 0 then 1 / INR h else 2 / INR h).
Definition the_inverse (h : nat) : invs := fun parity pf j i =>
  wgt parity h j * cos (arg h i (j_index parity j)) * (if pf then / s_ h i else 1).
Lemma row_orth parity h i k : (i < h)%nat -> (k < h)%nat ->
  vsum h (fun j => wgt parity h j * (cos (arg h i (j_index parity j)) * cos (arg h k (j_index parity j)))) = if Nat.eqb i k then 1 else 0.
Proof.
  intros Hi Hk. assert (HI : 0 < INR h) by (apply lt_0_INR; lia).
  assert (HC : forall j, cos (arg h i (j_index parity j)) * cos (arg h k (j_index parity j)) =
    (cos (INR (j_index parity j) * ang h (Z.of_nat i + Z.of_nat k + 1)) + cos (INR (j_index parity j) * ang h (Z.of_nat i - Z.of_nat k))) / 2).
  { intros j. rewrite !cos_arg by lia. rewrite <- theta_plus, <- theta_minus by lia. rewrite Rmult_plus_distr_l, Rmult_minus_distr_l, <- cos_cos.
    transitivity ((-1) ^ j_index parity j * (-1) ^ j_index parity j * (cos (INR (j_index parity j) * theta h i) * cos (INR (j_index parity j) * theta h k))); [ring|].
    rewrite pm1_sq. ring. }
  assert (HD : (Z.eqb (Z.of_nat i - Z.of_nat k) 0) = Nat.eqb i k) by (destruct (Z.eqb_spec (Z.of_nat i - Z.of_nat k) 0), (Nat.eqb_spec i k); lia || reflexivity).
  assert (HS : (Z.eqb (Z.of_nat i + Z.of_nat k + 1) 0) = false) by (apply Z.eqb_neq; lia).
  destruct parity; unfold wgt, j_index in *.
  - rewrite (vsum_ext h _ (fun j => / INR h * (cos (INR (2 * j + 1) * ang h (Z.of_nat i + Z.of_nat k + 1)) + cos (INR (2 * j + 1) * ang h (Z.of_nat i - Z.of_nat k))))).
    + rewrite vsum_scal, vsum_plus, !odd_sum by lia. rewrite HD, HS. destruct (Nat.eqb i k); field; lra.
    + intros j _. rewrite HC. field. lra.
  - rewrite (vsum_ext h _ (fun j => / INR h * ((if Nat.eqb j 0 then 1 / 2 else 1) * cos (INR (2 * j) * ang h (Z.of_nat i + Z.of_nat k + 1)) + (if Nat.eqb j 0 then 1 / 2 else 1) * cos (INR (2 * j) * ang h (Z.of_nat i - Z.of_nat k))))).
    + rewrite vsum_scal, vsum_plus, !even_sum by lia. rewrite HD, HS.
      assert (HE : Z.even (Z.of_nat i - Z.of_nat k) = negb (Z.even (Z.of_nat i + Z.of_nat k + 1))).
      { rewrite Z.even_sub, !Z.even_add. cbn. destruct (Z.even (Z.of_nat i)), (Z.even (Z.of_nat k)); reflexivity. }
      destruct (Nat.eqb_spec i k) as [->|Hn].
      * replace (Z.even (Z.of_nat k + Z.of_nat k + 1)) with false; [field; lra|]. rewrite !Z.even_add. cbn. destruct (Z.even (Z.of_nat k)); reflexivity.
      * rewrite HE. destruct (Z.even (Z.of_nat i + Z.of_nat k + 1)); cbn [negb]; field; lra.
    + intros j _. rewrite HC. destruct (Nat.eqb j 0); field; lra.
Qed.
Lemma inverse_exists h : inverses_ok h (the_inverse h).
Proof.
  intros parity pf i j Hi Hj. rewrite <- (row_orth parity h i j Hi Hj) at 1. unfold the_inverse, t0.
  destruct pf.
  - pose proof (s_pos h i Hi). pose proof (s_pos h j Hj). destruct (Nat.eq_dec i j) as [->|Hn].
    + apply vsum_ext. intros k _. field. lra.
    + rewrite (vsum_ext h _ (fun k => (wgt parity h k * (cos (arg h i (j_index parity k)) * cos (arg h j (j_index parity k)))) * (s_ h i / s_ h j))).
      * rewrite vsum_scal_r, row_orth by assumption. destruct (Nat.eqb_spec i j); [lia|ring].
      * intros k _. field. lra.
  - apply vsum_ext. intros k _. ring.
Qed.

(** columns: the inverse is also a left inverse, so right inverses are unique *)
Lemma col_orth parity h j k : (j < h)%nat -> (k < h)%nat ->
  wgt parity h j * vsum h (fun i => cos (arg h i (j_index parity j)) * cos (arg h i (j_index parity k))) = if Nat.eqb j k then 1 else 0.
Proof.
  intros Hj Hk. assert (HI : 0 < INR h) by (apply lt_0_INR; lia).
  set (qp := (Z.of_nat j + Z.of_nat k + if parity then 1 else 0)%Z).
  assert (HC : forall i, cos (arg h i (j_index parity j)) * cos (arg h i (j_index parity k)) =
    ((cos (INR (2 * i + 1) * ang h qp) + cos (INR (2 * i + 1) * ang h (Z.of_nat j - Z.of_nat k))) * / 2)).
  { intros i. rewrite !cos_arg by lia.
    transitivity ((-1) ^ j_index parity j * (-1) ^ j_index parity k * (cos (INR (j_index parity j) * theta h i) * cos (INR (j_index parity k) * theta h i))); [ring|].
    replace ((-1) ^ j_index parity j * (-1) ^ j_index parity k) with 1.
    2:{ destruct parity; unfold j_index; rewrite ?pow_add, !pow_mult; replace ((-1) ^ 2) with 1 by ring; rewrite !pow1; ring. }
    rewrite cos_cos. rewrite <- Rmult_plus_distr_r, <- Rmult_minus_distr_r.
    assert (Hth : 2 * theta h i = INR (2 * i + 1) * (PI / (2 * INR h))).
    { unfold theta. rewrite !mult_INR, plus_INR, mult_INR. change (INR 2) with (1 + 1). change (INR 1) with 1. field. lra. }
    assert (HP : (INR (j_index parity j) + INR (j_index parity k)) * theta h i = INR (2 * i + 1) * ang h qp).
    { unfold ang, qp. destruct parity; unfold j_index.
      - replace ((INR (2 * j + 1) + INR (2 * k + 1)) * theta h i) with ((INR j + INR k + 1) * (2 * theta h i)) by (rewrite !plus_INR, !mult_INR; cbn [INR]; ring).
        rewrite Hth. rewrite !plus_IZR, <- !INR_IZR_INZ. field. lra.
      - replace ((INR (2 * j) + INR (2 * k)) * theta h i) with ((INR j + INR k) * (2 * theta h i)) by (rewrite !mult_INR; cbn [INR]; ring).
        rewrite Hth. rewrite !plus_IZR, <- !INR_IZR_INZ. field. lra. }
    assert (HM : (INR (j_index parity j) - INR (j_index parity k)) * theta h i = INR (2 * i + 1) * ang h (Z.of_nat j - Z.of_nat k)).
    { unfold ang. destruct parity; unfold j_index.
      - replace ((INR (2 * j + 1) - INR (2 * k + 1)) * theta h i) with ((INR j - INR k) * (2 * theta h i)) by (rewrite !plus_INR, !mult_INR; cbn [INR]; ring).
        rewrite Hth. rewrite !minus_IZR, <- !INR_IZR_INZ. field. lra.
      - replace ((INR (2 * j) - INR (2 * k)) * theta h i) with ((INR j - INR k) * (2 * theta h i)) by (rewrite !mult_INR; cbn [INR]; ring).
        rewrite Hth. rewrite !minus_IZR, <- !INR_IZR_INZ. field. lra. }
    rewrite HP, HM. unfold Rdiv. ring. }
  rewrite (vsum_ext h _ _ (fun i _ => HC i)). rewrite vsum_scal_r, vsum_plus. rewrite !odd_sum by (unfold qp; destruct parity; lia).
  assert (HD : (Z.eqb (Z.of_nat j - Z.of_nat k) 0) = Nat.eqb j k) by (destruct (Z.eqb_spec (Z.of_nat j - Z.of_nat k) 0), (Nat.eqb_spec j k); lia || reflexivity).
  rewrite HD. unfold wgt. destruct parity; unfold qp.
  - replace (Z.eqb _ 0) with false by (symmetry; apply Z.eqb_neq; lia). destruct (Nat.eqb j k); field; lra.
  - destruct (Nat.eqb_spec j k) as [->|Hn].
    + destruct (Nat.eqb_spec k 0) as [->|Hk0].
      * cbn. field. lra.
      * replace (Z.eqb _ 0) with false by (symmetry; apply Z.eqb_neq; lia). field. lra.
    + replace (Z.eqb (Z.of_nat j + Z.of_nat k + 0) 0) with false by (symmetry; apply Z.eqb_neq; lia). destruct (Nat.eqb j 0); field; lra.
Qed.
Lemma left_inverse h parity pf j k : (j < h)%nat -> (k < h)%nat ->
  vsum h (fun i => the_inverse h parity pf j i * t0 h parity pf i k) = if Nat.eqb j k then 1 else 0.
Proof.
  intros Hj Hk. rewrite <- (col_orth parity h j k Hj Hk) at 1. rewrite <- vsum_scal. apply vsum_ext. intros i Hi. unfold the_inverse, t0.
  pose proof (s_pos h i Hi). destruct pf; [field; lra|ring].
Qed.
Lemma inverse_unique h X : inverses_ok h X -> forall parity pf j i, (j < h)%nat -> (i < h)%nat ->
  X parity pf j i = the_inverse h parity pf j i.
Proof.
  intros HX parity pf j i Hj Hi.
  assert (H : vsum h (fun l => the_inverse h parity pf j l * vsum h (fun k => t0 h parity pf l k * X parity pf k i)) = the_inverse h parity pf j i).
  { rewrite (vsum_ext h _ (fun l => (if Nat.eqb i l then 1 else 0) * the_inverse h parity pf j l)); [apply vsum_delta; exact Hi|].
    intros l Hl. rewrite (HX parity pf l i Hl Hi). rewrite (Nat.eqb_sym l i). ring. }
  rewrite <- H. rewrite (vsum_ext h _ (fun l => vsum h (fun k => the_inverse h parity pf j l * t0 h parity pf l k * X parity pf k i))).
  - rewrite vsum_swap. rewrite (vsum_ext h _ (fun k => (if Nat.eqb j k then 1 else 0) * X parity pf k i)); [symmetry; apply (vsum_delta h j (fun k => X parity pf k i) Hj)|].
    intros k Hk. rewrite vsum_scal_r, left_inverse by assumption. reflexivity.
  - intros l _. rewrite <- vsum_scal. apply vsum_ext. intros k _. ring.
Qed.
(** hence differentiation is exact on the expansions *)
Lemma diff_exact h X parity pf a : inverses_ok h X -> forall i, (i < h)%nat ->
  let f := fun k => E0 parity pf h a (mu_ h k) in
  diff1 h X f parity pf i = E1 parity pf h a (mu_ h i) /\ diff2 h X f parity pf i = E2 parity pf h a (mu_ h i).
Proof.
  intros HX i Hi f.
  assert (HA : forall j, (j < h)%nat -> mvec h (X parity pf) f j = a j).
  { intros j Hj. unfold mvec, f. rewrite (vsum_ext h _ (fun k => vsum h (fun l => the_inverse h parity pf j k * t0 h parity pf k l * a l))).
    - rewrite vsum_swap. rewrite (vsum_ext h _ (fun l => (if Nat.eqb j l then 1 else 0) * a l)); [apply vsum_delta; exact Hj|].
      intros l Hl. rewrite vsum_scal_r, left_inverse by assumption. reflexivity.
    - intros k Hk. rewrite E0_grid by exact Hk. unfold mvec. rewrite <- vsum_scal. apply vsum_ext. intros l _.
      rewrite (inverse_unique h X HX) by assumption. ring. }
  unfold diff1, diff2, d1, d2. rewrite !mmul_assoc, E1_grid, E2_grid by exact Hi. 
  split; apply vsum_ext; intros k Hk; rewrite HA by exact Hk; reflexivity.
Qed.
