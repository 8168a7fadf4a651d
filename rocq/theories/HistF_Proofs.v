From Coq Require Import List ZArith Lia Reals Lra Bool.
From Flocq Require Import Core BinarySingleNaN Relative.
From Verif Require Import Base Py Cmp_Model Cmp_Spec Cmp_Proofs NumInt_Model Round_Model Round_Spec Round_Proofs Hist_Model Hist_Spec Hist_Proofs HistF_Model HistF_Spec.
Import ListNotations.
Local Open Scope R_scope.
Notation finite x := (is_finite x = true).
Notation zero := (B754_zero false : double).

(** ** Forward rules *)
Lemma bpow_nat k : bpow radix2 (Z.of_nat k) = 2 ^ k.
Proof. apply bpow_pow. Qed.
Lemma rnd_pow2 k : rnd (2 ^ k) = 2 ^ k.
Proof. rewrite <- bpow_nat. pose proof (format_dyadic 1 (Z.of_nat k) ltac:(cbn; lia) ltac:(lia)) as H. rewrite Rmult_1_l in H. exact H. Qed.
Lemma rnd_le_pow x k : x <= 2 ^ k -> rnd x <= 2 ^ k.
Proof. intros H. rewrite <- rnd_pow2. apply rnd_mono, H. Qed.
Lemma small_enough r k : 0 <= r <= 2 ^ k -> (k <= 1023)%nat -> Rabs (rnd r) < bpow radix2 1024.
Proof.
  intros (H0 & H) Hk. rewrite Rabs_pos_eq by (apply rnd_nonneg, H0). rewrite bpow_emax. apply Rle_lt_trans with (2 ^ k); [apply rnd_le_pow, H|].
  apply Rlt_pow; [lra|lia].
Qed.
Lemma minus_fwd (x y : double) k : finite x -> finite y -> 0 <= B2R x - B2R y <= 2 ^ k -> (k <= 1023)%nat ->
  finite (Bminus mode_NE x y) /\ B2R (Bminus mode_NE x y) = rnd (B2R x - B2R y).
Proof.
  intros Fx Fy H Hk. pose proof (Bminus_correct 53 1024 p_prec p_emax mode_NE x y Fx Fy) as C. rewrite rnd_eq in C.
  rewrite Rlt_bool_true in C by (apply small_enough with k; assumption). destruct C as (E & F & _). auto.
Qed.
Lemma plus_fwd (x y : double) k : finite x -> finite y -> 0 <= B2R x + B2R y <= 2 ^ k -> (k <= 1023)%nat ->
  finite (Bplus mode_NE x y) /\ B2R (Bplus mode_NE x y) = rnd (B2R x + B2R y).
Proof.
  intros Fx Fy H Hk. pose proof (Bplus_correct 53 1024 p_prec p_emax mode_NE x y Fx Fy) as C. rewrite rnd_eq in C.
  rewrite Rlt_bool_true in C by (apply small_enough with k; assumption). destruct C as (E & F & _). auto.
Qed.
Lemma mult_fwd (x y : double) k : finite x -> finite y -> 0 <= B2R x * B2R y <= 2 ^ k -> (k <= 1023)%nat ->
  finite (Bmult mode_NE x y) /\ B2R (Bmult mode_NE x y) = rnd (B2R x * B2R y).
Proof.
  intros Fx Fy H Hk. pose proof (Bmult_correct 53 1024 p_prec p_emax mode_NE x y) as C. rewrite rnd_eq in C.
  rewrite Rlt_bool_true in C by (apply small_enough with k; assumption). destruct C as (E & F & _). rewrite Fx, Fy in F. auto.
Qed.
Lemma div_fwd (x y : double) k : finite x -> finite y -> B2R y <> 0 -> 0 <= B2R x / B2R y <= 2 ^ k -> (k <= 1023)%nat ->
  finite (Bdiv mode_NE x y) /\ B2R (Bdiv mode_NE x y) = rnd (B2R x / B2R y).
Proof.
  intros Fx Fy N H Hk. pose proof (Bdiv_correct 53 1024 p_prec p_emax mode_NE x y N) as C. rewrite rnd_eq in C.
  rewrite Rlt_bool_true in C by (apply small_enough with k; assumption). destruct C as (E & F & _). rewrite Fx in F. auto.
Qed.
Lemma rnd_rel x : / 2 ^ 1022 <= Rabs x -> exists d, Rabs d <= u /\ rnd x = x * (1 + d).
Proof.
  intros H. destruct (relative_error_N_FLT_ex radix2 (-1074) 53 eq_refl (fun z => negb (Z.even z)) x) as (d & Hd & E).
  - change (-1074 + 53 - 1)%Z with (- Z.of_nat 1022)%Z. rewrite bpow_neg. exact H.
  - exists d. rewrite u_bpow in Hd. auto.
Qed.
Lemma rnd_sub (x y : double) : exists d, Rabs d <= u /\ rnd (B2R x - B2R y) = (B2R x - B2R y) * (1 + d).
Proof. destruct (rnd_sum x (Bopp y)) as (d & Hd & E). rewrite B2R_Bopp in E. exists d. split; [exact Hd|exact E]. Qed.
Lemma u_val : u = / 9007199254740992.
Proof. unfold unit_roundoff. f_equal. rewrite (pow_IZR 2 53). reflexivity. Qed.
Lemma tiny_le : tiny <= u.
Proof. unfold tiny, unit_roundoff. apply Rinv_le; [apply Cmp_Proofs.pow_pos|]. apply Rle_pow; [lra|lia]. Qed.

(** ** Conversion to integers *)
Lemma F2R_Z m e : F2R (Float radix2 m e) = if (0 <=? e)%Z then IZR (m * 2 ^ e) else IZR m / IZR (2 ^ (- e)).
Proof.
  unfold F2R. cbn [Fnum Fexp]. destruct (Z.leb_spec 0 e) as [L|L].
  - rewrite mult_IZR. f_equal. rewrite <- (Z2Nat.id e L), bpow_nat, pow_IZR. reflexivity.
  - unfold Rdiv. f_equal. replace e with (- Z.of_nat (Z.to_nat (- e)))%Z at 1 by lia. rewrite bpow_neg. f_equal.
    rewrite pow_IZR. rewrite Z2Nat.id by lia. reflexivity.
Qed.
Lemma dfloor_ok (x : double) : finite x -> dfloor x = Some (Zfloor (B2R x)).
Proof.
  destruct x as [s|s| |s m e H]; try discriminate; intros _; cbn [dfloor B2R].
  - rewrite (Zfloor_IZR 0). reflexivity.
  - f_equal. rewrite F2R_Z. destruct (Z.leb_spec 0 e); [rewrite Zfloor_IZR; reflexivity|]. rewrite Zfloor_div; [reflexivity|]. apply Z.pow_nonzero; lia.
Qed.
Lemma dtrunc_ok (x : double) : finite x -> dtrunc x = Some (Ztrunc (B2R x)).
Proof.
  destruct x as [s|s| |s m e H]; try discriminate; intros _; cbn [dtrunc B2R].
  - rewrite (Ztrunc_IZR 0). reflexivity.
  - f_equal. rewrite F2R_Z. destruct (Z.leb_spec 0 e); [rewrite Ztrunc_IZR; reflexivity|]. rewrite Ztrunc_div; [reflexivity|]. apply Z.pow_nonzero; lia.
Qed.

(** ** Extrema *)
Lemma foldmin l : all_finite l -> forall a : double, finite a -> let m := fold_left (fun a x => if Bltb x a then x else a) l a in
  finite m /\ (m = a \/ In m l) /\ B2R m <= B2R a /\ forall x, In x l -> B2R m <= B2R x.
Proof.
  induction l as [|y l IH]; intros Hl a Fa; cbn [fold_left].
  - cbv zeta. repeat split; auto; try lra. intros x [].
  - assert (Fy : finite y) by (apply Hl; left; reflexivity). assert (Hl' : all_finite l) by (intros z Hz; apply Hl; right; exact Hz).
    pose proof (Bltb_correct 53 1024 y a Fy Fa) as B. destruct (Bltb y a) eqn:E; symmetry in B.
    + apply Rlt_bool_true_iff in B || (destruct (Rlt_bool_spec (B2R y) (B2R a)) as [B'|B']; [|discriminate B]).
      destruct (IH Hl' y Fy) as (F & [M|M] & L & A); (split; [exact F|]); (split; [right; rewrite ?M; cbn; auto|]); (split; [lra|]); intros x [<-|Hx]; auto.
    + destruct (Rlt_bool_spec (B2R y) (B2R a)) as [B'|B']; [discriminate B|].
      destruct (IH Hl' a Fa) as (F & M & L & A). split; [exact F|]. split; [destruct M; [left|right; right]; assumption|]. split; [exact L|].
      intros x [<-|Hx]; [lra|auto].
Qed.
Lemma foldmax l : all_finite l -> forall a : double, finite a -> let m := fold_left (fun a x => if Bltb a x then x else a) l a in
  finite m /\ (m = a \/ In m l) /\ B2R a <= B2R m /\ forall x, In x l -> B2R x <= B2R m.
Proof.
  induction l as [|y l IH]; intros Hl a Fa; cbn [fold_left].
  - cbv zeta. repeat split; auto; try lra. intros x [].
  - assert (Fy : finite y) by (apply Hl; left; reflexivity). assert (Hl' : all_finite l) by (intros z Hz; apply Hl; right; exact Hz).
    pose proof (Bltb_correct 53 1024 a y Fa Fy) as B. destruct (Bltb a y) eqn:E; symmetry in B.
    + destruct (Rlt_bool_spec (B2R a) (B2R y)) as [B'|B']; [|discriminate B].
      destruct (IH Hl' y Fy) as (F & [M|M] & L & A); (split; [exact F|]); (split; [right; rewrite ?M; cbn; auto|]); (split; [lra|]); intros x [<-|Hx]; auto.
    + destruct (Rlt_bool_spec (B2R a) (B2R y)) as [B'|B']; [discriminate B|].
      destruct (IH Hl' a Fa) as (F & M & L & A). split; [exact F|]. split; [destruct M; [left|right; right]; assumption|]. split; [exact L|].
      intros x [<-|Hx]; [lra|auto].
Qed.
Lemma fmin_ok l lo : all_finite l -> minimum lo l -> finite (fmin l) /\ B2R (fmin l) = lo.
Proof.
  intros Hl ((x & Hx & <-) & Hm). destruct l as [|a l]; [destruct Hx|]. unfold fmin. cbn [hd]. destruct (foldmin (a :: l) Hl a (Hl a (or_introl eq_refl))) as (F & M & L & A).
  split; [exact F|]. apply Rle_antisym; [apply A, Hx|]. destruct M as [M|M]; [rewrite M; apply Hm; left; reflexivity|apply Hm, M].
Qed.
Lemma fmax_ok l hi : all_finite l -> maximum hi l -> finite (fmax l) /\ B2R (fmax l) = hi.
Proof.
  intros Hl ((x & Hx & <-) & Hm). destruct l as [|a l]; [destruct Hx|]. unfold fmax. cbn [hd]. destruct (foldmax (a :: l) Hl a (Hl a (or_introl eq_refl))) as (F & M & L & A).
  split; [exact F|]. apply Rle_antisym; [|apply A, Hx]. destruct M as [M|M]; [rewrite M; apply Hm; left; reflexivity|apply Hm, M].
Qed.

Lemma of_int_ok z : (Z.abs z <= 2 ^ 53)%Z -> finite (of_int z) /\ B2R (of_int z) = IZR z.
Proof. intros Hz. apply (lit_small z). lia. Qed.

(** ** One datum *)
Section Bins.
Variables (L H : double) (n : nat).
Hypothesis FL : finite L.
Hypothesis FH : finite H.
Hypothesis Hn : (1 <= n)%nat.
Hypothesis Hn' : (Z.of_nat n <= 2 ^ 30)%Z.
Let lo := B2R L.
Let hi := B2R H.
Hypothesis WS : well_scaled lo hi n.
Let N := INR n.
Lemma N1 : 1 <= N. Proof. unfold N. change 1 with (INR 1). apply le_INR, Hn. Qed.
Lemma N2 : N <= 2 ^ 30. Proof. unfold N. rewrite INR_IZR_INZ, (pow_IZR 2 30). apply IZR_le. exact Hn'. Qed.
Lemma range_pos : 0 < hi - lo.
Proof. destruct WS as (A & _). fold N in A. pose proof N1. pose proof (Cmp_Proofs.pow_pos 1000). apply Rlt_le_trans with (N / 2 ^ 1000); [apply Rdiv_lt_0_compat; lra|exact A]. Qed.
Definition D := rnd (hi - lo).
Definition w := rnd (D / N).
Lemma uu : 0 < u < / 1000000. Proof. rewrite u_val. lra. Qed.
Lemma D_eq : exists d, Rabs d <= u /\ D = (hi - lo) * (1 + d).
Proof. apply rnd_sub. Qed.
Lemma ab x : Rabs x <= u -> - u <= x <= u. Proof. apply Rabs_le_inv. Qed.
Lemma pow1000 : 2 ^ 1022 = 4194304 * 2 ^ 1000.
Proof. replace 1022%nat with (22 + 1000)%nat by reflexivity. rewrite pow_add. f_equal. rewrite (pow_IZR 2 22). reflexivity. Qed.
Lemma inv1000 : / 2 ^ 1022 <= / 2 / 2 ^ 1000.
Proof. rewrite pow1000, Rinv_mult. pose proof (Rinv_0_lt_compat _ (Cmp_Proofs.pow_pos 1000)). unfold Rdiv. nra. Qed.
Lemma DN_lower : / 2 / 2 ^ 1000 <= D / N.
Proof.
  destruct D_eq as (d & Hd & ->). apply ab in Hd. pose proof uu. destruct WS as (A & _). fold N in A. pose proof N1. pose proof range_pos.
  apply Rmult_le_reg_r with N; [lra|]. replace ((hi - lo) * (1 + d) / N * N) with ((hi - lo) * (1 + d)) by (field; lra).
  replace (/ 2 / 2 ^ 1000 * N) with (/ 2 * (N / 2 ^ 1000)) by (unfold Rdiv; ring). nra.
Qed.
Lemma w_eq : exists d, Rabs d <= u /\ w = (D / N) * (1 + d).
Proof.
  apply rnd_rel. pose proof DN_lower. pose proof (Rinv_0_lt_compat _ (Cmp_Proofs.pow_pos 1000)). assert (0 < / 2 / 2 ^ 1000) by (unfold Rdiv; nra).
  rewrite Rabs_pos_eq by lra. pose proof inv1000. lra.
Qed.
Lemma D_nonneg : 0 <= D. Proof. apply rnd_nonneg. pose proof range_pos. lra. Qed.
Lemma D_le : D <= 2 ^ 1000. Proof. apply rnd_le_pow. apply WS. Qed.
Lemma w_le : w <= 2 ^ 1000.
Proof. apply rnd_le_pow. pose proof N1. pose proof D_le. pose proof D_nonneg. apply Rmult_le_reg_r with N; [lra|]. unfold Rdiv. rewrite Rmult_assoc, Rinv_l by lra. nra. Qed.
Lemma w_pos : / 4 / 2 ^ 1000 <= w.
Proof. destruct w_eq as (d & Hd & ->). apply ab in Hd. pose proof uu. pose proof DN_lower. pose proof (Rinv_0_lt_compat _ (Cmp_Proofs.pow_pos 1000)). unfold Rdiv in *. nra. Qed.
Lemma w_pos0 : 0 < w.
Proof. pose proof w_pos. pose proof (Rinv_0_lt_compat _ (Cmp_Proofs.pow_pos 1000)). unfold Rdiv in *. nra. Qed.

Definition q (x : R) : R := N * (x - lo) / (hi - lo).
Definition tval (v : impl) (x : R) : R :=
  match v with Blas => rnd (rnd (1 / w) * rnd (x - lo)) | _ => rnd (rnd (x - lo) / w) end.
Lemma q_range x : lo <= x <= hi -> 0 <= q x <= N.
Proof.
  intros Hx. pose proof range_pos. pose proof N1. unfold q. split.
  - apply Rmult_le_pos; [|left; apply Rinv_0_lt_compat; lra]. nra.
  - apply Rmult_le_reg_r with (hi - lo); [lra|]. unfold Rdiv. rewrite Rmult_assoc, Rinv_l by lra. nra.
Qed.
(** quotient of the relative errors *)
Lemma ratio d1 d2 d3 : - u <= d1 <= u -> - u <= d2 <= u -> - u <= d3 <= u -> 1 - 4 * u <= (1 + d1) / ((1 + d2) * (1 + d3)) <= 1 + 4 * u.
Proof.
  intros A B C. pose proof uu as U.
  assert (P1 : 1 - 2 * u <= (1 + d2) * (1 + d3) <= 1 + 3 * u).
  { assert ((1 - u) * (1 - u) <= (1 + d2) * (1 + d3)) by (apply Rmult_le_compat; lra).
    assert ((1 + d2) * (1 + d3) <= (1 + u) * (1 + u)) by (apply Rmult_le_compat; lra). nra. }
  set (p := (1 + d2) * (1 + d3)) in *. assert (P : 0 < p) by lra.
  split; (apply Rmult_le_reg_r with p; [exact P|]); unfold Rdiv; rewrite Rmult_assoc, Rinv_l by lra; rewrite Rmult_1_r.
  - assert ((1 - 4 * u) * p <= (1 - 4 * u) * (1 + 3 * u)) by (apply Rmult_le_compat_l; lra). nra.
  - assert ((1 + 4 * u) * (1 - 2 * u) <= (1 + 4 * u) * p) by (apply Rmult_le_compat_l; lra). nra.
Qed.
Lemma err_final r d t : 0 <= r -> forall k qq, (k <= 6) -> 0 <= qq <= N -> 0 <= k -> qq * (1 - k * u) <= r <= qq * (1 + k * u) -> Rabs d <= u -> Rabs t <= tiny -> Rabs (r * (1 + d) + t - qq) <= 12 * u * N.
Proof.
  intros R0 k qq Hk Hq K0 Hr Hd Ht. apply ab in Hd. pose proof uu. pose proof tiny_le. pose proof N1. apply Rabs_le_inv in Ht. apply Rabs_le.
  assert (V : 0 <= k * u <= 6 * u) by (split; [apply Rmult_le_pos; lra|apply Rmult_le_compat_r; lra]). set (v := k * u) in *.
  assert (R2 : r <= 2 * N). { apply Rle_trans with (qq * (1 + v)); [lra|]. apply Rle_trans with (N * 2); [|lra]. apply Rmult_le_compat; lra. }
  assert (RD : - (2 * N * u) <= r * d <= 2 * N * u).
  { apply Rabs_le_inv. rewrite Rabs_mult. apply Rmult_le_compat; try apply Rabs_pos; [rewrite Rabs_pos_eq by exact R0; exact R2|apply Rabs_le; exact Hd]. }
  assert (QV : 0 <= qq * v <= N * (6 * u)) by (split; [apply Rmult_le_pos; lra|apply Rmult_le_compat; lra]).
  assert (UN : u <= u * N) by (rewrite <- (Rmult_1_r u) at 1; apply Rmult_le_compat_l; lra).
  assert (qq * (1 - v) = qq - qq * v) by ring. assert (qq * (1 + v) = qq + qq * v) by ring. assert (r * (1 + d) = r + r * d) by ring. split; lra.
Qed.
Lemma raw_ratio (X : double) d1 : finite X -> rnd (B2R X - lo) = (B2R X - lo) * (1 + d1) -> Rabs d1 <= u ->
  exists f, rnd (B2R X - lo) / w = q (B2R X) * f /\ 1 - 4 * u <= f <= 1 + 4 * u.
Proof.
  intros FX E1 H1. destruct D_eq as (d2 & H2 & E2). destruct w_eq as (d3 & H3 & E3). pose proof range_pos. pose proof N1. apply ab in H1, H2, H3. pose proof uu.
  exists ((1 + d1) / ((1 + d2) * (1 + d3))). split; [|apply ratio; assumption]. rewrite E1, E3, E2. unfold q. field. repeat split; nra.
Qed.
Lemma tval_err v (X : double) : finite X -> lo <= B2R X <= hi -> Rabs (tval v (B2R X) - q (B2R X)) <= 12 * u * N.
Proof.
  intros FX HX. destruct (rnd_sub X L) as (d1 & H1 & E1). fold lo in E1. destruct (raw_ratio X d1 FX E1 H1) as (f & Ef & Hf). pose proof (q_range _ HX) as Hq. pose proof uu.
  destruct v; cbn [tval].
  1:{ assert (I : exists d, Rabs d <= u /\ rnd (1 / w) = 1 / w * (1 + d)).
      { apply rnd_rel. pose proof w_pos0. pose proof w_le. rewrite Rabs_pos_eq by (apply Rlt_le, Rdiv_lt_0_compat; lra). unfold Rdiv. rewrite Rmult_1_l.
        apply Rinv_le; [lra|]. eapply Rle_trans; [exact w_le|]. apply Rle_pow; [lra|lia]. }
      destruct I as (d4 & H4 & E4). destruct (rnd_any (rnd (1 / w) * rnd (B2R X - lo))) as (d5 & t5 & H5 & T5 & E5). rewrite E5.
      assert (E : rnd (1 / w) * rnd (B2R X - lo) = q (B2R X) * f * (1 + d4)).
      { rewrite <- Ef, E4. unfold Rdiv. ring. }
      rewrite E. apply ab in H4. assert (G : 1 - 6 * u <= f * (1 + d4) <= 1 + 6 * u).
      { assert ((1 - 4 * u) * (1 - u) <= f * (1 + d4)) by (apply Rmult_le_compat; lra). assert (f * (1 + d4) <= (1 + 4 * u) * (1 + u)) by (apply Rmult_le_compat; lra). nra. }
      rewrite (Rmult_assoc (q (B2R X)) f (1 + d4)). set (g := f * (1 + d4)) in *.
      apply err_final with (k := 6) (qq := q (B2R X)); try assumption; try lra; [apply Rmult_le_pos; lra|split; apply Rmult_le_compat_l; lra]. }
  all: rewrite Ef; destruct (rnd_any (q (B2R X) * f)) as (d5 & t5 & H5 & T5 & E5); rewrite E5; apply err_final with (k := 4) (qq := q (B2R X)); try assumption; try lra; [apply Rmult_le_pos; lra|split; apply Rmult_le_compat_l; lra].
Qed.
Lemma tval_mono v x y : x <= y -> tval v x <= tval v y.
Proof.
  intros Hxy. assert (A : rnd (x - lo) <= rnd (y - lo)) by (apply rnd_mono; lra). pose proof w_pos0 as W. destruct v; cbn [tval]; apply rnd_mono.
  - apply Rmult_le_compat_l; [apply rnd_nonneg, Rlt_le, Rdiv_lt_0_compat; lra|exact A].
  - apply Rmult_le_compat_r; [left; apply Rinv_0_lt_compat, W|exact A].
  - apply Rmult_le_compat_r; [left; apply Rinv_0_lt_compat, W|exact A].
Qed.
Lemma tval_lo v : tval v lo = 0.
Proof. unfold tval. rewrite Rminus_diag_eq by reflexivity. rewrite rnd_0. destruct v; [rewrite Rmult_0_r|unfold Rdiv; rewrite Rmult_0_l|unfold Rdiv; rewrite Rmult_0_l]; apply rnd_0. Qed.
Lemma slack_small : 12 * u * N < / 2.
Proof. pose proof N2. rewrite u_val. rewrite (pow_IZR 2 30) in H0. change (Z.pow 2 (Z.of_nat 30)) with 1073741824%Z in H0. lra. Qed.
Lemma tval_range v (X : double) : finite X -> lo <= B2R X <= hi -> 0 <= tval v (B2R X) < N + 1.
Proof.
  intros FX HX. pose proof (tval_err v X FX HX) as E. pose proof slack_small. pose proof (q_range _ HX). split.
  - rewrite <- (tval_lo v). apply tval_mono. apply HX.
  - apply Rabs_le_inv in E. lra.
Qed.
(** the model computes these numbers *)
Definition W : double := fwidth (Bminus mode_NE H L) n.
Lemma W_ok : finite W /\ B2R W = w.
Proof.
  destruct (minus_fwd H L 1000 FH FL) as (F & E); [fold hi lo; pose proof range_pos; split; [lra|apply WS]|lia|]. destruct (of_int_ok (Z.of_nat n)) as (Fn & En); [lia|].
  fold hi lo in E. unfold W, fwidth. destruct (div_fwd (Bminus mode_NE H L) (of_int (Z.of_nat n)) 1000 F Fn) as (F' & E').
  - rewrite En, <- INR_IZR_INZ. fold N. pose proof N1. lra.
  - rewrite E, En, <- INR_IZR_INZ. fold N D. pose proof N1. pose proof D_le. pose proof D_nonneg. split.
    + apply Rmult_le_pos; [assumption|left; apply Rinv_0_lt_compat; lra].
    + apply Rmult_le_reg_r with N; [lra|]. unfold Rdiv. rewrite Rmult_assoc, Rinv_l by lra. nra.
  - lia.
  - split; [exact F'|]. rewrite E', E, En, <- INR_IZR_INZ. reflexivity.
Qed.
Lemma N_le31 : N + 1 <= 2 ^ 31.
Proof. pose proof N2 as A. rewrite (pow_IZR 2 30) in A. rewrite (pow_IZR 2 31). change (Z.pow 2 (Z.of_nat 30)) with 1073741824%Z in A. change (Z.pow 2 (Z.of_nat 31)) with 2147483648%Z. lra. Qed.
Lemma minus_zero (t : double) k : finite t -> 0 <= B2R t <= 2 ^ k -> (k <= 1023)%nat -> finite (Bminus mode_NE t zero) /\ B2R (Bminus mode_NE t zero) = B2R t.
Proof. intros Ft Ht Hk. destruct (minus_fwd t zero k Ft eq_refl) as (F & E); [change (B2R zero) with 0; lra|exact Hk|]. split; [exact F|]. rewrite E. change (B2R zero) with 0. rewrite Rminus_0_r. apply rnd_B2R. Qed.
Lemma plus_zero (t : double) k : finite t -> 0 <= B2R t <= 2 ^ k -> (k <= 1023)%nat -> finite (Bplus mode_NE t zero) /\ B2R (Bplus mode_NE t zero) = B2R t.
Proof. intros Ft Ht Hk. destruct (plus_fwd t zero k Ft eq_refl) as (F & E); [change (B2R zero) with 0; lra|exact Hk|]. split; [exact F|]. rewrite E. change (B2R zero) with 0. rewrite Rplus_0_r. apply rnd_B2R. Qed.
Lemma int32_ok z : (0 <= z <= Z.of_nat n)%Z -> int32 (Some z) = Ok z.
Proof. intros Hz. unfold int32. destruct (Z.leb_spec (- 2 ^ 31) z); [|lia]. destruct (Z.ltb_spec z (2 ^ 31)); [reflexivity|lia]. Qed.
Lemma floor_range v (X : double) : finite X -> lo <= B2R X <= hi -> (0 <= Zfloor (tval v (B2R X)) <= Z.of_nat n)%Z.
Proof.
  intros FX HX. destruct (tval_range v X FX HX) as (A & B). split; [apply Zfloor_lub; exact A|].
  assert (IZR (Zfloor (tval v (B2R X))) < IZR (Z.of_nat n + 1)).
  { eapply Rle_lt_trans; [apply Zfloor_lb|]. rewrite plus_IZR, <- INR_IZR_INZ. exact B. }
  apply lt_IZR in H0. lia.
Qed.
Lemma under qq f : 0 <= qq <= N -> 0 <= f <= 1 + 6 * u -> 0 <= qq * f <= 2 ^ 31.
Proof.
  intros Hq Hf. pose proof N_le31. pose proof slack_small as SS. split; [apply Rmult_le_pos; lra|]. apply Rle_trans with (N * (1 + 6 * u)); [apply Rmult_le_compat; lra|].
  replace (N * (1 + 6 * u)) with (N + (12 * u * N) / 2) by field. lra.
Qed.
Lemma bin_ok v (X : double) : finite X -> lo <= B2R X <= hi -> fbin_index v L W zero X = Ok (Zfloor (tval v (B2R X))).
Proof.
  intros FX HX. destruct W_ok as (FW & EW). pose proof w_pos0 as Wp. destruct (tval_range v X FX HX) as (T0 & T1). pose proof N_le31 as N31. pose proof (floor_range v X FX HX) as FR.
  destruct (minus_fwd X L 1000 FX FL) as (FA & EA); [fold lo; pose proof range_pos; destruct WS; lra|lia|]. fold lo in EA.
  pose proof (q_range _ HX) as Hq. pose proof uu. destruct (rnd_sub X L) as (d1 & H1 & E1). fold lo in E1. destruct (raw_ratio X d1 FX E1 H1) as (f & Ef & Hf).
  assert (Q2 : 0 <= rnd (B2R X - lo) / w <= 2 ^ 31) by (rewrite Ef; apply under; lra).
  assert (DV : finite (Bdiv mode_NE (Bminus mode_NE X L) W) /\ B2R (Bdiv mode_NE (Bminus mode_NE X L) W) = rnd (rnd (B2R X - lo) / w)).
  { destruct (div_fwd (Bminus mode_NE X L) W 31 FA FW) as (F & E); [rewrite EW; lra|rewrite EA, EW; exact Q2|lia|]. split; [exact F|]. rewrite E, EA, EW. reflexivity. }
  destruct v; cbn [fbin_index tval] in *.
  - destruct (of_int_ok 1) as (F1 & O1); [lia|].
    assert (W1 : 0 <= 1 / w <= 2 ^ 1002).
    { pose proof w_pos as WP. split; [apply Rlt_le, Rdiv_lt_0_compat; lra|]. unfold Rdiv. rewrite Rmult_1_l. replace (2 ^ 1002) with (/ (/ 4 / 2 ^ 1000)).
      - apply Rinv_le; [|exact WP]. pose proof (Rinv_0_lt_compat _ (Cmp_Proofs.pow_pos 1000)). unfold Rdiv. nra.
      - replace 1002%nat with (2 + 1000)%nat by reflexivity. rewrite pow_add. pose proof (Cmp_Proofs.pow_pos 1000). unfold Rdiv. rewrite Rinv_mult, !Rinv_inv. simpl (2 ^ 2). ring. }
    destruct (div_fwd (of_int 1) W 1002 F1 FW) as (FI & EI); [rewrite EW; lra|rewrite O1, EW; exact W1|lia|]. rewrite O1, EW in EI.
    assert (I : exists d, Rabs d <= u /\ rnd (1 / w) = 1 / w * (1 + d)).
    { apply rnd_rel. pose proof w_le. rewrite Rabs_pos_eq by lra. unfold Rdiv. rewrite Rmult_1_l.
      apply Rinv_le; [lra|]. eapply Rle_trans; [exact w_le|]. apply Rle_pow; [lra|lia]. }
    destruct I as (d4 & H4 & E4). apply ab in H4.
    assert (Q3 : 0 <= rnd (1 / w) * rnd (B2R X - lo) <= 2 ^ 31).
    { replace (rnd (1 / w) * rnd (B2R X - lo)) with (q (B2R X) * f * (1 + d4)) by (rewrite <- Ef, E4; unfold Rdiv; ring).
      rewrite (Rmult_assoc (q (B2R X)) f (1 + d4)). apply under; [exact Hq|]. split; [apply Rmult_le_pos; lra|].
      assert (f * (1 + d4) <= (1 + 4 * u) * (1 + u)) by (apply Rmult_le_compat; lra). nra. }
    destruct (mult_fwd (Bdiv mode_NE (of_int 1) W) (Bminus mode_NE X L) 31 FI FA) as (FM & EM); [rewrite EI, EA; exact Q3|lia|]. rewrite EI, EA in EM.
    destruct (plus_zero _ 31 FM) as (FP & EP); [rewrite EM; lra|lia|].
    rewrite (dfloor_ok _ FP), EP, EM. apply int32_ok. exact FR.
  - destruct DV as (FD & ED). destruct (minus_zero _ 31 FD) as (FM & EM); [rewrite ED; lra|lia|]. rewrite (dtrunc_ok _ FM), EM, ED.
    rewrite Ztrunc_floor by exact T0. apply int32_ok. exact FR.
  - destruct DV as (FD & ED). destruct (minus_zero _ 31 FD) as (FM & EM); [rewrite ED; lra|lia|]. rewrite (dfloor_ok _ FM), EM, ED. apply int32_ok. exact FR.
Qed.
(** the bin after the adjustment of the upper edge *)
Definition fcell v (x : R) : Z := let z := Zfloor (tval v x) in if (z =? Z.of_nat n)%Z then (Z.of_nat n - 1)%Z else z.
Lemma fcell_range v (X : double) : finite X -> lo <= B2R X <= hi -> (0 <= fcell v (B2R X) < Z.of_nat n)%Z.
Proof. intros FX HX. pose proof (floor_range v X FX HX). unfold fcell. cbv zeta. destruct (Z.eqb_spec (Zfloor (tval v (B2R X))) (Z.of_nat n)); lia. Qed.
Lemma fcell_mono v (X Y : double) : finite X -> finite Y -> lo <= B2R X <= hi -> lo <= B2R Y <= hi -> B2R X <= B2R Y -> (fcell v (B2R X) <= fcell v (B2R Y))%Z.
Proof.
  intros FX FY HX HY HXY. pose proof (floor_range v X FX HX). pose proof (floor_range v Y FY HY). pose proof (Zfloor_le _ _ (tval_mono v _ _ HXY)).
  unfold fcell. cbv zeta. destruct (Z.eqb_spec (Zfloor (tval v (B2R X))) (Z.of_nat n)); destruct (Z.eqb_spec (Zfloor (tval v (B2R Y))) (Z.of_nat n)); lia.
Qed.
Lemma fcell_lo v : fcell v lo = 0%Z.
Proof. unfold fcell. rewrite tval_lo, (Zfloor_IZR 0). cbv zeta. destruct (Z.eqb_spec 0 (Z.of_nat n)); [lia|reflexivity]. Qed.
Lemma fcell_hi v : fcell v hi = (Z.of_nat n - 1)%Z.
Proof.
  assert (HH : lo <= B2R H <= hi) by (fold hi; pose proof range_pos; lra). pose proof (floor_range v H FH HH) as A. fold hi in A. pose proof (tval_err v H FH HH) as E. fold hi in E.
  pose proof slack_small. assert (q hi = N) by (unfold q; field; pose proof range_pos; lra). rewrite H1 in E. apply Rabs_le_inv in E.
  assert (Z.of_nat n - 1 <= Zfloor (tval v hi))%Z. { apply Zfloor_lub. rewrite minus_IZR, <- INR_IZR_INZ. fold N. lra. }
  unfold fcell. cbv zeta. destruct (Z.eqb_spec (Zfloor (tval v hi)) (Z.of_nat n)); lia.
Qed.
Lemma fcell_near v (X : double) : finite X -> lo <= B2R X <= hi -> nearly_in lo hi n (Z.to_nat (fcell v (B2R X))) (B2R X).
Proof.
  intros FX HX. pose proof (fcell_range v X FX HX) as R. pose proof (tval_err v X FX HX) as E. apply Rabs_le_inv in E. pose proof range_pos as RP. pose proof N1 as NP. pose proof (q_range _ HX) as Q. pose proof uu.
  set (x := B2R X) in *. unfold nearly_in. fold N. cbv zeta.
  assert (X1 : x = lo + q x * ((hi - lo) / N)) by (unfold q; field; lra).
  assert (P : 0 < (hi - lo) / N) by (apply Rdiv_lt_0_compat; lra).
  assert (Sl : (hi - lo) / 2 ^ 49 = 16 * u * N * ((hi - lo) / N)).
  { unfold unit_roundoff. replace 53%nat with (4 + 49)%nat by reflexivity. rewrite pow_add. simpl (2 ^ 4). pose proof (Cmp_Proofs.pow_pos 49). field. lra. }
  rewrite Sl. set (i := fcell v x) in *.
  assert (Ei : INR (Z.to_nat i) = IZR i) by (rewrite INR_IZR_INZ, Z2Nat.id by lia; reflexivity). rewrite S_INR, Ei.
  assert (B : IZR i - 12 * u * N <= q x /\ q x <= IZR i + 1 + 12 * u * N).
  { pose proof (Zfloor_lb (tval v x)) as F1. pose proof (Zfloor_ub (tval v x)) as F2. unfold i, fcell. cbv zeta. destruct (Z.eqb_spec (Zfloor (tval v x)) (Z.of_nat n)) as [Z|Z].
    - rewrite Z in F1. rewrite minus_IZR, <- INR_IZR_INZ in *. fold N in F1 |- *. split; nra.
    - split; lra. }
  destruct B as (B1 & B2). split; rewrite X1; nra.
Qed.
End Bins.

(** ** Whole histograms *)
Lemma fcounts_ok v data lo hi n checks : all_finite data -> minimum lo data -> maximum hi data -> (2 <= n)%nat -> (Z.of_nat n <= 2 ^ 30)%Z -> well_scaled lo hi n ->
  exists idx : double -> nat, fcounts v data (fwidth (fptp data) n) zero n 0 checks None = Ok (map (fun i => List.length (filter (fun x => Nat.eqb (idx x) i) data)) (seq 0 n)) /\
  (forall x, In x data -> (idx x < n)%nat /\ nearly_in lo hi n (idx x) (B2R x) /\ (B2R x = lo -> idx x = 0%nat) /\ (B2R x = hi -> idx x = (n - 1)%nat)) /\
  (forall x y, In x data -> In y data -> B2R x <= B2R y -> (idx x <= idx y)%nat).
Proof.
  intros HF Hlo Hhi H2 Hn' WS. destruct (fmin_ok data lo HF Hlo) as (FL & EL). destruct (fmax_ok data hi HF Hhi) as (FH & EH).
  set (L := fmin data) in *. set (H := fmax data) in *. assert (Hn : (1 <= n)%nat) by lia. rewrite <- EL, <- EH in WS.
  assert (IN : forall x, In x data -> finite x /\ B2R L <= B2R x <= B2R H).
  { intros x Hx. split; [apply HF, Hx|]. rewrite EL, EH. split; [apply Hlo, Hx|apply Hhi, Hx]. }
  exists (fun x => Z.to_nat (fcell L H n v (B2R x))).
  assert (RG : forall x, In x data -> (0 <= fcell L H n v (B2R x) < Z.of_nat n)%Z) by (intros x Hx; apply fcell_range; try assumption; apply IN, Hx).
  split; [|split].
  - unfold fcounts. destruct (Nat.eqb_spec n 1); [lia|]. fold L. change (fwidth (fptp data) n) with (W L H n).
    assert (M : mapM (fbin_index v L (W L H n) zero) data = Ok (map (fun x : double => Zfloor (tval L H n v (B2R x))) data)).
    { rewrite <- mapM_map. apply mapM_ext. intros x Hx. apply bin_ok; try assumption; apply IN, Hx. }
    cbv zeta. rewrite M. cbn [bind]. rewrite map_map.
    change (map _ data) with (map (fun x : double => fcell L H n v (B2R x)) data).
    assert (CK : (if checks then fnegative_check v data (map (fun x : double => fcell L H n v (B2R x)) data) else Ok (map (fun x : double => fcell L H n v (B2R x)) data))
                 = Ok (map (fun x : double => fcell L H n v (B2R x)) data)).
    { destruct checks; [|reflexivity]. unfold fnegative_check. replace (filter _ _) with (@nil nat); [reflexivity|]. symmetry.
      set (l := map (fun x : double => fcell L H n v (B2R x)) data). assert (A : forall z, In z l -> (0 <= z)%Z) by (intros z Hz; apply in_map_iff in Hz; destruct Hz as (x & <- & Hx); apply RG, Hx).
      induction (seq 0 (List.length l)) as [|i s IH]; [reflexivity|]. cbn [filter]. destruct (Z.ltb_spec (nth i l 0%Z) 0) as [B|B]; [|exact IH]. exfalso.
      destruct (Nat.lt_ge_cases i (List.length l)) as [C|C]; [specialize (A _ (nth_In l 0%Z C)); lia|rewrite nth_overflow in B by exact C; lia]. }
    rewrite CK. cbn [bind]. rewrite (bincount_exact _ n).
    + f_equal. apply map_ext_in. intros i Hi. clear - RG. clearbody L H. induction data as [|x l IH]; [reflexivity|]. cbn [map count_occ filter].
      rewrite IH by (intros y Hy; apply RG; right; exact Hy). specialize (RG x (or_introl eq_refl)).
      destruct (Z.eq_dec (fcell L H n v (B2R x)) (Z.of_nat i)) as [E|E]; destruct (Nat.eqb_spec (Z.to_nat (fcell L H n v (B2R x))) i) as [E'|E']; try reflexivity; lia.
    + intros b Hb. apply in_map_iff in Hb. destruct Hb as (x & <- & Hx). apply RG, Hx.
    + right. destruct Hhi as ((x & Hx & Ex) & _). apply in_map_iff. exists x. split; [|exact Hx]. rewrite Ex, <- EH. apply fcell_hi; assumption.
  - intros x Hx. specialize (RG x Hx). split; [lia|]. split; [|split].
    + rewrite <- EL, <- EH. apply fcell_near; try assumption; apply IN, Hx.
    + intros ->. rewrite <- EL. rewrite fcell_lo by assumption. reflexivity.
    + intros ->. rewrite <- EH. rewrite fcell_hi by assumption. lia.
  - intros x y Hx Hy Hxy. pose proof (RG x Hx). pose proof (RG y Hy). apply Z2Nat.inj_le; try lia. apply fcell_mono; try assumption; apply IN; assumption.
Qed.
Lemma ntotal_partition {A} (idx : A -> nat) l n : (forall x, In x l -> (idx x < n)%nat) ->
  ntotal (map (fun i => List.length (filter (fun x => Nat.eqb (idx x) i) l)) (seq 0 n)) = List.length l.
Proof.
  induction l as [|a l IH]; intros H.
  - cbn [filter List.length]. induction (seq 0 n); [reflexivity|assumption].
  - rewrite <- (IH (fun x Hx => H x (or_intror Hx))) at 1 || idtac. cbn [List.length]. rewrite <- IH by (intros x Hx; apply H; right; exact Hx).
    specialize (H a (or_introl eq_refl)). clear IH.
    assert (E : forall m s, ntotal (map (fun i => List.length (filter (fun x => Nat.eqb (idx x) i) (a :: l))) (seq s m)) =
      (ntotal (map (fun i => List.length (filter (fun x => Nat.eqb (idx x) i) l)) (seq s m)) + (if (s <=? idx a) && (idx a <? s + m) then 1 else 0))%nat).
    { clear H. induction m as [|m IHm]; intros s.
      - cbn [seq map ntotal]. destruct (Nat.leb_spec s (idx a)); destruct (Nat.ltb_spec (idx a) (s + 0)); cbn [andb]; lia.
      - cbn [seq map ntotal]. rewrite IHm. cbn [filter]. destruct (Nat.eqb_spec (idx a) s); destruct (Nat.leb_spec (S s) (idx a)); destruct (Nat.leb_spec s (idx a));
          destruct (Nat.ltb_spec (idx a) (S s + m)); destruct (Nat.ltb_spec (idx a) (s + S m)); cbn [andb List.length]; lia. }
    rewrite E. destruct (Nat.leb_spec 0 (idx a)); [|lia]. destruct (Nat.ltb_spec (idx a) (0 + n)); [cbn; lia|lia].
Qed.
(** data away from the edges *)
Lemma inside_bin lo hi n i x : (1 <= n)%nat -> lo < hi -> lo <= x <= hi -> (i < n)%nat -> nearly_in lo hi n i x -> inside lo hi n x -> linear_bin lo ((hi - lo) / INR n) n i x.
Proof.
  intros Hn Hlt Hx Hi (A & B) I. unfold inside in I. cbv zeta in *. set (w := (hi - lo) / INR n) in *. set (s := (hi - lo) / 2 ^ 49) in *.
  assert (NP : 0 < INR n) by (apply lt_0_INR; lia). assert (LA : lo + INR i * w <= x).
  { destruct i as [|i]; [simpl (INR 0); lra|]. specialize (I (S i) ltac:(lia)). destruct (Rle_or_lt (lo + INR (S i) * w) x) as [C|C]; [exact C|].
    rewrite Rabs_left in I by lra. lra. }
  destruct (Nat.eq_dec (S i) n) as [E|E].
  - assert (lo + INR n * w = hi) by (unfold w; field; lra). destruct (Rle_lt_or_eq_dec x hi ltac:(lra)) as [C|C].
    + left. rewrite E. lra.
    + right. split; [exact E|lra].
  - left. split; [exact LA|]. specialize (I (S i) ltac:(lia)). destruct (Rlt_or_le x (lo + INR (S i) * w)) as [C|C]; [exact C|]. rewrite Rabs_pos_eq in I by lra. lra.
Qed.
Lemma counted_filter {A} (P : R -> Prop) (f : A -> bool) (g : A -> R) l : (forall x, In x l -> (P (g x) <-> f x = true)) -> counted P (map g l) (List.length (filter f l)).
Proof.
  induction l as [|a l IH]; intros H; [constructor|]. cbn [map filter]. destruct (f a) eqn:E.
  - cbn [List.length]. constructor; [apply H; [left; reflexivity|exact E]|]. apply IH. intros x Hx. apply H. right. exact Hx.
  - constructor; [intros C; apply H in C; [congruence|left; reflexivity]|]. apply IH. intros x Hx. apply H. right. exact Hx.
Qed.
Lemma counted_fun {A} (P : A -> Prop) l m k : counted P l m -> counted P l k -> m = k.
Proof. intros C. revert k. induction C; intros k C'; inversion C'; subst; try contradiction; auto. Qed.
