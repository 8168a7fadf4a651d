From Coq Require Import List ZArith Reals Bool String Lra Lia Permutation.
From Flocq Require Import Core Relative Plus_error BinarySingleNaN.
From Verif Require Import Base Cmp_Model Cmp_Spec Cmp_Proofs NumInt_Model NumInt_Spec NumInt_Proofs Round_Model Round_Spec.
Import ListNotations.
Local Open Scope R_scope.
Notation u := unit_roundoff.
Notation finite x := (is_finite x = true).

Lemma u_pos : 0 < u. Proof. unfold unit_roundoff. apply Rinv_0_lt_compat, Cmp_Proofs.pow_pos. Qed.
Lemma tiny_pos : 0 < tiny. Proof. unfold tiny. apply Rinv_0_lt_compat, Cmp_Proofs.pow_pos. Qed.
Lemma u_bpow : / 2 * bpow radix2 (- (53) + 1) = u.
Proof. unfold unit_roundoff. change (bpow radix2 (- (53) + 1)) with (/ IZR (2 ^ 52)). rewrite (pow_IZR 2 53), <- Rinv_mult. rewrite <- mult_IZR. reflexivity. Qed.
Lemma bpow_neg n : bpow radix2 (- Z.of_nat n) = / 2 ^ n.
Proof. rewrite bpow_opp, bpow_pow. reflexivity. Qed.
Lemma tiny_bpow : / 2 * bpow radix2 (-1074) = tiny.
Proof. change (-1074)%Z with (- Z.of_nat 1074)%Z. rewrite bpow_neg. unfold tiny. change 1075%nat with (S 1074). rewrite <- (tech_pow_Rmult 2 1074), Rinv_mult; reflexivity. Qed.
Definition pw k := (1 + u) ^ k.
Lemma pw_ge k : 1 <= pw k. Proof. apply pow_R1_Rle. pose proof u_pos. lra. Qed.
Lemma pw_S k : pw (S k) = (1 + u) * pw k. Proof. reflexivity. Qed.
Lemma pw_add j k : pw (j + k) = pw j * pw k. Proof. apply pow_add. Qed.
Lemma pw_mono j k : (j <= k)%nat -> pw j <= pw k.
Proof. intros H. apply Rle_pow; [pose proof u_pos; lra|exact H]. Qed.

(** ** Single operations *)
Lemma fmt (x : double) : generic_format radix2 (FLT_exp (-1074) 53) (B2R x).
Proof. apply (generic_format_B2R 53 1024). Qed.

Lemma rnd_any x : exists d t, Rabs d <= u /\ Rabs t <= tiny /\ rnd x = x * (1 + d) + t.
Proof.
  destruct (error_N_FLT radix2 (-1074) 53 eq_refl (fun z => negb (Z.even z)) x) as (d & t & Hd & Ht & _ & E).
  exists d, t. rewrite u_bpow in Hd. rewrite tiny_bpow in Ht. auto.
Qed.
Lemma rnd_sum (x y : double) : exists d, Rabs d <= u /\ rnd (B2R x + B2R y) = (B2R x + B2R y) * (1 + d).
Proof.
  destruct (FLT_plus_error_N_ex radix2 (-1074) 53 (fun z => negb (Z.even z)) (B2R x) (B2R y) (fmt x) (fmt y)) as (d & Hd & E).
  exists d. split; [|exact E]. replace u with (u_ro radix2 53) by (unfold u_ro; exact u_bpow).
  eapply Rle_trans; [exact Hd|]. pose proof (u_ro_pos radix2 53). apply Rmult_le_reg_r with (1 + u_ro radix2 53); [lra|].
  unfold Rdiv. rewrite Rmult_assoc, Rinv_l by lra. nra.
Qed.

Lemma plus_inv (x y : double) : finite (Bplus mode_NE x y) -> finite x /\ finite y /\ B2R (Bplus mode_NE x y) = rnd (B2R x + B2R y).
Proof.
  intros F. assert (Fx : finite x /\ finite y).
  { destruct x as [?|sx| |? ? ? ?], y as [?|sy| |? ? ? ?]; try (split; reflexivity); try discriminate F; cbn in F; destruct (Bool.eqb sx sy); discriminate F. }
  destruct Fx as (Fx & Fy). split; [exact Fx|split; [exact Fy|]].
  pose proof (Bplus_correct 53 1024 p_prec p_emax mode_NE x y Fx Fy) as H. rewrite rnd_eq in H.
  destruct (Rlt_bool_spec (Rabs (rnd (B2R x + B2R y))) (bpow radix2 1024)); [apply H|].
  destruct H as (H & _). destruct (Bplus mode_NE x y); try discriminate H; discriminate F.
Qed.
Lemma minus_inv (x y : double) : finite (Bminus mode_NE x y) -> finite x /\ finite y /\ B2R (Bminus mode_NE x y) = rnd (B2R x - B2R y).
Proof.
  intros F. assert (Fx : finite x /\ finite y).
  { destruct x as [?|sx| |? ? ? ?], y as [?|sy| |? ? ? ?]; try (split; reflexivity); try discriminate F; cbn in F; destruct (Bool.eqb sx (negb sy)); discriminate F. }
  destruct Fx as (Fx & Fy). split; [exact Fx|split; [exact Fy|]].
  pose proof (Bminus_correct 53 1024 p_prec p_emax mode_NE x y Fx Fy) as H. rewrite rnd_eq in H.
  destruct (Rlt_bool_spec (Rabs (rnd (B2R x - B2R y))) (bpow radix2 1024)); [apply H|].
  destruct H as (H & _). destruct (Bminus mode_NE x y); try discriminate H; discriminate F.
Qed.
Lemma mult_inv (x y : double) : finite (Bmult mode_NE x y) -> finite x /\ finite y /\ B2R (Bmult mode_NE x y) = rnd (B2R x * B2R y).
Proof.
  intros F. assert (Fx : finite x /\ finite y).
  { destruct x as [?|sx| |? ? ? ?], y as [?|sy| |? ? ? ?]; try (split; reflexivity); discriminate F. }
  destruct Fx as (Fx & Fy). split; [exact Fx|split; [exact Fy|]].
  pose proof (Bmult_correct 53 1024 p_prec p_emax mode_NE x y) as H. rewrite rnd_eq in H.
  destruct (Rlt_bool_spec (Rabs (rnd (B2R x * B2R y))) (bpow radix2 1024)); [apply H|].
  destruct (Bmult mode_NE x y); try discriminate H; discriminate F.
Qed.
Lemma div_inv (x y : double) : finite y -> B2R y <> 0 -> finite (Bdiv mode_NE x y) -> finite x /\ B2R (Bdiv mode_NE x y) = rnd (B2R x / B2R y).
Proof.
  intros Fy N F. assert (Fx : finite x).
  { destruct x as [?|sx| |? ? ? ?], y as [?|sy| |? ? ? ?]; try reflexivity; try discriminate F; try discriminate Fy. }
  split; [exact Fx|].
  pose proof (Bdiv_correct 53 1024 p_prec p_emax mode_NE x y N) as H. rewrite rnd_eq in H.
  destruct (Rlt_bool_spec (Rabs (rnd (B2R x / B2R y))) (bpow radix2 1024)); [apply H|].
  destruct (Bdiv mode_NE x y); try discriminate H; discriminate F.
Qed.

Lemma rnd_int_exact z : (Z.abs z <= 2 ^ 53)%Z -> rnd (IZR z) = IZR z.
Proof.
  intros H. unfold rnd. apply round_generic; [auto with typeclass_instances|].
  destruct (Z.eq_dec (Z.abs z) (2 ^ 53)) as [E|N].
  - assert (G : generic_format radix2 (FLT_exp (-1074) 53) (IZR (2 ^ 53))).
    { change (IZR (2 ^ 53)) with (bpow radix2 53). apply generic_format_bpow. cbv. discriminate. }
    destruct (Z.abs_eq_or_opp z) as [A|A]; rewrite A in E.
    + rewrite E. exact G.
    + replace z with (- 2 ^ 53)%Z by lia. rewrite opp_IZR. apply generic_format_opp. exact G.
  - apply generic_format_FLT. exists (Float radix2 z 0); [unfold F2R; cbn; lra|cbn [Fnum]; change (Zpower radix2 53) with (2 ^ 53)%Z; lia|cbn; lia].
Qed.
(** the literals *)
Lemma lit0 : finite (nofZ DA 0) /\ B2R (nofZ DA 0) = 0. Proof. split; reflexivity. Qed.
Lemma lit_small z : (- 2 ^ 53 <= z <= 2 ^ 53)%Z -> finite (nofZ DA z) /\ B2R (nofZ DA z) = IZR z.
Proof.
  intros H. change (nofZ DA z) with (of_int z). destruct (small_int z) as (F & E); [lia|]. split; [exact F|].
  rewrite E. apply rnd_int_exact. lia.
Qed.

(** ** Approximation of an exact value *)
Definition App (r : double) (e M D : R) (k : nat) : Prop :=
  Rabs e <= M /\ 0 <= D /\ (finite r -> Rabs (B2R r - e) <= (pw k - 1) * M + pw k * D).

Lemma app_leaf x : App x (B2R x) (Rabs (B2R x)) 0 0.
Proof. split; [lra|split; [lra|]]. intros _. rewrite Rminus_diag_eq, Rabs_R0 by reflexivity. unfold pw. simpl. lra. Qed.
Lemma app_M r e M D k : App r e M D k -> 0 <= M.
Proof. intros (H & _). pose proof (Rabs_pos e). lra. Qed.
Lemma app_weak r e M D k M' D' k' : App r e M D k -> M <= M' -> D <= D' -> (k <= k')%nat -> App r e M' D' k'.
Proof.
  intros A HM HD Hk. pose proof (app_M _ _ _ _ _ A) as M0. destruct A as (H & HD0 & A). split; [lra|split; [lra|]]. intros F. specialize (A F).
  pose proof (pw_ge k). pose proof (pw_mono k k' Hk).
  eapply Rle_trans; [exact A|]. apply Rplus_le_compat; apply Rmult_le_compat; lra.
Qed.
Lemma app_eq r e M D k e' M' D' : App r e M D k -> e = e' -> M = M' -> D = D' -> App r e' M' D' k.
Proof. intros H <- <- <-. exact H. Qed.

(** one rounding on top of an error *)
Lemma round_step k x e M D d t : Rabs e <= M -> 0 <= D -> 0 <= t ->
  Rabs (x - e) <= (pw k - 1) * M + pw k * D -> Rabs d <= u ->
  forall s, Rabs s <= t -> Rabs (x * (1 + d) + s - e) <= (pw (S k) - 1) * M + pw (S k) * (D + t).
Proof.
  intros He HD Ht Hx Hd s Hs. pose proof u_pos. pose proof (pw_ge k). rewrite pw_S.
  replace (x * (1 + d) + s - e) with ((x - e) * (1 + d) + e * d + s) by ring.
  eapply Rle_trans; [apply Rabs_triang|]. eapply Rle_trans; [apply Rplus_le_compat_r, Rabs_triang|]. rewrite !Rabs_mult.
  assert (A1 : Rabs (1 + d) <= 1 + u). { eapply Rle_trans; [apply Rabs_triang|]. rewrite Rabs_R1. lra. }
  assert (A2 : Rabs (x - e) * Rabs (1 + d) <= ((pw k - 1) * M + pw k * D) * (1 + u)) by (apply Rmult_le_compat; try apply Rabs_pos; assumption).
  assert (A3 : Rabs e * Rabs d <= M * u) by (apply Rmult_le_compat; try apply Rabs_pos; assumption).
  assert (t <= (1 + u) * pw k * t) by (assert (1 <= (1 + u) * pw k) by nra; nra).
  nra.
Qed.

Lemma app_add r1 e1 M1 D1 r2 e2 M2 D2 k : App r1 e1 M1 D1 k -> App r2 e2 M2 D2 k ->
  App (Bplus mode_NE r1 r2) (e1 + e2) (M1 + M2) (D1 + D2) (S k).
Proof.
  intros (H1 & HD1 & A1) (H2 & HD2 & A2). split; [eapply Rle_trans; [apply Rabs_triang|lra]|split; [lra|]].
  intros F. apply plus_inv in F. destruct F as (F1 & F2 & ->). specialize (A1 F1). specialize (A2 F2).
  destruct (rnd_sum r1 r2) as (d & Hd & ->).
  pose proof (round_step k (B2R r1 + B2R r2) (e1 + e2) (M1 + M2) (D1 + D2) d 0) as R.
  rewrite Rplus_0_r in R. specialize (R ltac:(eapply Rle_trans; [apply Rabs_triang|lra]) ltac:(lra) (Rle_refl 0)).
  assert (B : Rabs (B2R r1 + B2R r2 - (e1 + e2)) <= (pw k - 1) * (M1 + M2) + pw k * (D1 + D2)).
  { replace (B2R r1 + B2R r2 - (e1 + e2)) with ((B2R r1 - e1) + (B2R r2 - e2)) by ring. eapply Rle_trans; [apply Rabs_triang|]. lra. }
  specialize (R B Hd 0). rewrite Rabs_R0, Rplus_0_r in R. apply R. lra.
Qed.
Lemma app_sub r1 e1 M1 D1 r2 e2 M2 D2 k : App r1 e1 M1 D1 k -> App r2 e2 M2 D2 k ->
  App (Bminus mode_NE r1 r2) (e1 - e2) (M1 + M2) (D1 + D2) (S k).
Proof.
  intros (H1 & HD1 & A1) (H2 & HD2 & A2). assert (T : Rabs (e1 - e2) <= M1 + M2).
  { unfold Rminus. eapply Rle_trans; [apply Rabs_triang|]. rewrite Rabs_Ropp. lra. } split; [exact T|split; [lra|]].
  intros F. apply minus_inv in F. destruct F as (F1 & F2 & ->). specialize (A1 F1). specialize (A2 F2).
  destruct (rnd_sum r1 (Bopp r2)) as (d & Hd & E). rewrite B2R_Bopp in E. unfold Rminus. rewrite E.
  pose proof (round_step k (B2R r1 + - B2R r2) (e1 - e2) (M1 + M2) (D1 + D2) d 0) as R.
  rewrite Rplus_0_r in R. specialize (R T ltac:(lra) (Rle_refl 0)).
  assert (B : Rabs (B2R r1 + - B2R r2 - (e1 - e2)) <= (pw k - 1) * (M1 + M2) + pw k * (D1 + D2)).
  { replace (B2R r1 + - B2R r2 - (e1 - e2)) with ((B2R r1 - e1) + - (B2R r2 - e2)) by ring. eapply Rle_trans; [apply Rabs_triang|]. rewrite Rabs_Ropp. lra. }
  specialize (R B Hd 0). rewrite Rabs_R0, Rplus_0_r in R. apply R. lra.
Qed.
(** sums and differences of data: the magnitude is that of the exact result *)
Lemma app_add_data x y : App (Bplus mode_NE x y) (B2R x + B2R y) (Rabs (B2R x + B2R y)) 0 1.
Proof.
  split; [lra|split; [lra|]]. intros F. apply plus_inv in F. destruct F as (_ & _ & ->). destruct (rnd_sum x y) as (d & Hd & ->).
  unfold pw. replace ((B2R x + B2R y) * (1 + d) - (B2R x + B2R y)) with (d * (B2R x + B2R y)) by ring. rewrite Rabs_mult. pose proof (Rabs_pos (B2R x + B2R y)). simpl. nra.
Qed.
Lemma app_sub_data x y : App (Bminus mode_NE x y) (B2R x - B2R y) (Rabs (B2R x - B2R y)) 0 1.
Proof.
  split; [lra|split; [lra|]]. intros F. apply minus_inv in F. destruct F as (_ & _ & ->). destruct (rnd_sum x (Bopp y)) as (d & Hd & E).
  rewrite B2R_Bopp in E. unfold Rminus at 2. rewrite E.
  unfold pw. replace ((B2R x + - B2R y) * (1 + d) - (B2R x - B2R y)) with (d * (B2R x - B2R y)) by ring. rewrite Rabs_mult. pose proof (Rabs_pos (B2R x - B2R y)). simpl. nra.
Qed.
Lemma app_mul r1 e1 M1 D1 k1 r2 e2 M2 D2 k2 : App r1 e1 M1 D1 k1 -> App r2 e2 M2 D2 k2 ->
  App (Bmult mode_NE r1 r2) (e1 * e2) (M1 * M2) (D1 * M2 + M1 * D2 + D1 * D2 + tiny) (S (k1 + k2)).
Proof.
  intros A1 A2. pose proof (app_M _ _ _ _ _ A1) as P1. pose proof (app_M _ _ _ _ _ A2) as P2.
  destruct A1 as (H1 & HD1 & A1), A2 as (H2 & HD2 & A2). pose proof tiny_pos as TP.
  assert (T : Rabs (e1 * e2) <= M1 * M2) by (rewrite Rabs_mult; apply Rmult_le_compat; try apply Rabs_pos; assumption).
  assert (DP : 0 <= D1 * M2 + M1 * D2 + D1 * D2) by nra. split; [exact T|split; [lra|]].
  intros F. apply mult_inv in F. destruct F as (F1 & F2 & ->). specialize (A1 F1). specialize (A2 F2).
  destruct (rnd_any (B2R r1 * B2R r2)) as (d & t & Hd & Ht & ->).
  apply (round_step (k1 + k2)); [exact T|exact DP|lra| |exact Hd|exact Ht].
  rewrite pw_add. pose proof (pw_ge k1). pose proof (pw_ge k2).
  replace (B2R r1 * B2R r2 - e1 * e2) with ((B2R r1 - e1) * B2R r2 + e1 * (B2R r2 - e2)) by ring.
  eapply Rle_trans; [apply Rabs_triang|]. rewrite !Rabs_mult.
  assert (B2 : Rabs (B2R r2) <= pw k2 * (M2 + D2)).
  { replace (B2R r2) with ((B2R r2 - e2) + e2) by ring. eapply Rle_trans; [apply Rabs_triang|]. lra. }
  assert (Q1 : Rabs (B2R r1 - e1) * Rabs (B2R r2) <= ((pw k1 - 1) * M1 + pw k1 * D1) * (pw k2 * (M2 + D2))) by (apply Rmult_le_compat; try apply Rabs_pos; assumption).
  assert (Q2 : Rabs e1 * Rabs (B2R r2 - e2) <= M1 * ((pw k2 - 1) * M2 + pw k2 * D2)) by (apply Rmult_le_compat; try apply Rabs_pos; assumption).
  nra.
Qed.
Lemma app_div r e M D k y c : finite y -> B2R y = c -> 0 < c -> App r e M D k -> App (Bdiv mode_NE r y) (e / c) (M / c) (D / c + tiny) (S k).
Proof.
  intros Fy Ey Hc A. pose proof (app_M _ _ _ _ _ A) as P. destruct A as (H & HD & A). pose proof tiny_pos as TP. pose proof (Rinv_0_lt_compat c Hc) as IC.
  assert (T : Rabs (e / c) <= M / c) by (unfold Rdiv; rewrite Rabs_mult, (Rabs_pos_eq (/ c)) by lra; apply Rmult_le_compat_r; lra).
  assert (DP : 0 <= D / c) by (unfold Rdiv; nra). split; [exact T|split; [lra|]].
  intros F. apply div_inv in F; [|exact Fy|lra]. destruct F as (F1 & ->). specialize (A F1). rewrite Ey.
  destruct (rnd_any (B2R r / c)) as (d & t & Hd & Ht & ->).
  apply (round_step k); [exact T|exact DP|lra| |exact Hd|exact Ht].
  replace (B2R r / c - e / c) with ((B2R r - e) * / c) by (unfold Rdiv; ring). rewrite Rabs_mult, (Rabs_pos_eq (/ c)) by lra.
  unfold Rdiv. nra.
Qed.

(** halves are exact up to underflow, doubles and quadruples are exact *)
Lemma dyadic (x : double) : exists m e, B2R x = IZR m * bpow radix2 e /\ (Z.abs m < 2 ^ 53)%Z /\ (-1074 <= e)%Z.
Proof.
  destruct (FLT_format_generic radix2 (-1074) 53 _ (fmt x)) as [[m e] E1 E2 E3]. exists m, e. cbn in *. auto.
Qed.
Lemma format_dyadic m e : (Z.abs m < 2 ^ 53)%Z -> (-1074 <= e)%Z -> rnd (IZR m * bpow radix2 e) = IZR m * bpow radix2 e.
Proof.
  intros Hm He. apply round_generic; [auto with typeclass_instances|].
  apply generic_format_FLT. exists (Float radix2 m e); [reflexivity|exact Hm|exact He].
Qed.
Lemma half_err (x : double) : Rabs (rnd (B2R x / 2) - B2R x / 2) <= tiny.
Proof.
  destruct (dyadic x) as (m & e & E & Hm & He). rewrite E. pose proof tiny_pos as TP.
  replace (IZR m * bpow radix2 e / 2) with (IZR m * bpow radix2 (e - 1)).
  2:{ unfold Zminus. rewrite bpow_plus. change (bpow radix2 (- (1))) with (/ 2). unfold Rdiv. ring. }
  destruct (Z.eq_dec e (-1074)) as [->|N].
  - eapply Rle_trans; [apply error_le_half_ulp; auto with typeclass_instances|]. rewrite ulp_FLT_small.
    + rewrite tiny_bpow. lra.
    + reflexivity.
    + rewrite Rabs_mult, (Rabs_pos_eq (bpow _ _)) by apply bpow_ge_0. rewrite <- abs_IZR.
      change (bpow radix2 (-1074 + 53)) with (bpow radix2 (54 + (-1074 - 1))). rewrite bpow_plus. apply Rmult_lt_compat_r; [apply bpow_gt_0|].
      change (bpow radix2 54) with (IZR (2 ^ 54)). apply IZR_lt. lia.
  - rewrite format_dyadic by lia. rewrite Rminus_diag_eq, Rabs_R0 by reflexivity. lra.
Qed.
Lemma app_half r e M D k : App r e M D k -> App (Bdiv mode_NE r (nofZ DA 2)) (e / 2) (M / 2) (D / 2 + tiny) k.
Proof.
  intros A. pose proof (app_M _ _ _ _ _ A) as P. destruct A as (H & HD & A). pose proof tiny_pos as TP. pose proof (pw_ge k) as PK.
  split; [unfold Rdiv; rewrite Rabs_mult, (Rabs_pos_eq (/ 2)); lra|split; [lra|]].
  destruct (lit_small 2) as (F2 & E2); [lia|].
  intros F. apply div_inv in F; [|exact F2|rewrite E2; lra]. destruct F as (F1 & ->). specialize (A F1). rewrite E2.
  pose proof (half_err r) as HE. replace (rnd (B2R r / 2) - e / 2) with ((rnd (B2R r / 2) - B2R r / 2) + (B2R r - e) * / 2) by field.
  eapply Rle_trans; [apply Rabs_triang|]. rewrite (Rabs_mult _ (/ 2)), (Rabs_pos_eq (/ 2)) by lra.
  assert (tiny <= pw k * tiny) by nra. lra.
Qed.
Lemma scale_exact n (x : double) : rnd (IZR (2 ^ Z.of_nat n) * B2R x) = IZR (2 ^ Z.of_nat n) * B2R x.
Proof.
  destruct (dyadic x) as (m & e & E & Hm & He). rewrite E.
  replace (IZR (2 ^ Z.of_nat n) * (IZR m * bpow radix2 e)) with (IZR m * bpow radix2 (Z.of_nat n + e)); [apply format_dyadic; lia|].
  rewrite bpow_plus. rewrite <- (IZR_Zpower radix2 (Z.of_nat n)) by lia. change (radix2 ^ Z.of_nat n)%Z with (2 ^ Z.of_nat n)%Z. ring.
Qed.
Lemma app_scale n z r : (z = 2 ^ Z.of_nat n)%Z -> (z <= 2 ^ 53)%Z -> App (Bmult mode_NE (nofZ DA z) r) (IZR z * B2R r) (IZR z * Rabs (B2R r)) 0 0.
Proof.
  intros Ez Hz. assert (Z0 : (0 <= z)%Z) by (rewrite Ez; apply Z.pow_nonneg; lia). assert (0 <= IZR z) by (apply IZR_le; exact Z0).
  split; [rewrite Rabs_mult, (Rabs_pos_eq (IZR z)); lra|split; [lra|]].
  intros F. apply mult_inv in F. destruct F as (_ & _ & ->). destruct (lit_small z) as (_ & ->); [lia|].
  subst z. rewrite scale_exact, Rminus_diag_eq, Rabs_R0 by reflexivity. unfold pw. simpl. lra.
Qed.

(** ** Sums *)
Section Sums.
Variables (t : Z -> double) (et Mt Dt : Z -> R) (kt : nat).
Lemma fold_app its : (forall i, In i its -> App (t i) (et i) (Mt i) (Dt i) kt) ->
  forall acc e M D k, (kt <= k)%nat -> App acc e M D k ->
  App (fold_left (fun s i => Bplus mode_NE s (t i)) its acc) (e + lsum et its) (M + lsum Mt its) (D + lsum Dt its) (k + List.length its).
Proof.
  induction its as [|i its IH]; intros Ht acc e M D k Hk A.
  - cbn [fold_left List.length]. rewrite Nat.add_0_r. unfold lsum. cbn [fold_right]. rewrite !Rplus_0_r. exact A.
  - cbn [fold_left List.length]. assert (A' : App (Bplus mode_NE acc (t i)) (e + et i) (M + Mt i) (D + Dt i) (S k)).
    { apply app_add; [exact A|]. apply app_weak with (Mt i) (Dt i) kt; [apply Ht; left; reflexivity|lra|lra|exact Hk]. }
    specialize (IH (fun j Hj => Ht j (or_intror Hj)) _ _ _ _ _ (le_S _ _ Hk) A').
    replace (k + S (List.length its))%nat with (S k + List.length its)%nat by lia.
    unfold lsum in *. cbn [fold_right]. eapply app_eq; [exact IH|lra..].
Qed.
(** from zero the first addition is exact *)
Lemma plus_zero_l (x : double) : finite (Bplus mode_NE (nofZ DA 0) x) -> finite x /\ B2R (Bplus mode_NE (nofZ DA 0) x) = B2R x.
Proof.
  intros F. apply plus_inv in F. destruct F as (_ & F & ->). split; [exact F|]. destruct lit0 as (_ & ->). rewrite Rplus_0_l. apply rnd_B2R.
Qed.
Lemma fold_app0 its k : (forall i, In i its -> App (t i) (et i) (Mt i) (Dt i) kt) -> (its <> [] -> (kt + (List.length its - 1) <= k)%nat) ->
  App (fold_left (fun s i => Bplus mode_NE s (t i)) its (nofZ DA 0)) (lsum et its) (lsum Mt its) (lsum Dt its) k.
Proof.
  intros Ht HL. destruct its as [|i its].
  - cbn [fold_left]. unfold lsum. cbn [fold_right]. split; [rewrite Rabs_R0; lra|split; [lra|]]. intros _. destruct lit0 as (_ & ->). rewrite Rminus_diag_eq, Rabs_R0 by reflexivity. lra.
  - cbn [fold_left]. assert (A' : App (Bplus mode_NE (nofZ DA 0) (t i)) (et i) (Mt i) (Dt i) kt).
    { destruct (Ht i (or_introl eq_refl)) as (H & HD & A). split; [exact H|split; [exact HD|]]. intros F. destruct (plus_zero_l _ F) as (F' & ->). exact (A F'). }
    pose proof (fold_app its (fun j Hj => Ht j (or_intror Hj)) _ _ _ _ _ (le_n kt) A') as B.
    eapply app_weak; [exact B|unfold lsum; cbn [fold_right]; lra|unfold lsum; cbn [fold_right]; lra|cbn [List.length] in HL; specialize (HL ltac:(discriminate)); lia].
Qed.
(** the parallel reduction *)
Lemma reduce_app parts L init e M D k : (kt + (L - 1) <= k)%nat -> App init e M D k ->
  Forall (fun p => (List.length p <= L)%nat) parts -> (forall i, In i (List.concat parts) -> App (t i) (et i) (Mt i) (Dt i) kt) ->
  App (reduce_sched DA init t parts) (e + lsum et (List.concat parts)) (M + lsum Mt (List.concat parts)) (D + lsum Dt (List.concat parts)) (k + List.length parts).
Proof.
  unfold reduce_sched. cbn [DA nadd]. revert init e M D k. induction parts as [|p ps IH]; intros init e M D k Hk A HF Ht.
  - cbn [fold_left List.length List.concat]. rewrite Nat.add_0_r. unfold lsum. cbn [fold_right]. rewrite !Rplus_0_r. exact A.
  - cbn [fold_left List.length List.concat]. inversion_clear HF as [|? ? Hp HF'].
    assert (B : App (fold_left (fun s i => Bplus mode_NE s (t i)) p (nofZ DA 0)) (lsum et p) (lsum Mt p) (lsum Dt p) k).
    { apply fold_app0; [intros i Hi; apply Ht; cbn [List.concat]; apply in_or_app; left; exact Hi|intros _; lia]. }
    pose proof (app_add _ _ _ _ _ _ _ _ _ A B) as C.
    specialize (IH _ _ _ _ (S k) ltac:(lia) C HF' ltac:(intros i Hi; apply Ht; cbn [List.concat]; apply in_or_app; right; exact Hi)).
    replace (k + S (List.length ps))%nat with (S k + List.length ps)%nat by lia. rewrite !lsum_app.
    eapply app_eq; [exact IH|lra..].
Qed.
End Sums.

Lemma total_Rsum g n : total g n = Rsum g n.
Proof. induction n; cbn; [reflexivity|]. rewrite IHn. reflexivity. Qed.
Lemma lsum_iter (t : Z -> R) n : lsum t (map (fun d => (1 + Z.of_nat d)%Z) (seq 0 n)) = total (fun i => t (Z.of_nat (S i))) n.
Proof. rewrite total_Rsum. pose proof (fold_Rsum t n 0) as H. rewrite fold_lsum in H. lra. Qed.
Lemma total_ext g h n : (forall i, (i < n)%nat -> g i = h i) -> total g n = total h n.
Proof. rewrite !total_Rsum. apply Rsum_ext. Qed.
Lemma lsum_zero l : lsum (fun _ => 0) l = 0.
Proof. induction l; unfold lsum in *; cbn; [reflexivity|lra]. Qed.
Lemma pt_reals l i : (i < List.length l)%nat -> pt (reals l) i = val l i.
Proof. intros H. unfold pt, reals, val. rewrite (nth_indep _ 0 (B2R (@B754_nan 53 1024))) by (rewrite map_length; exact H). apply map_nth. Qed.

(** ** The integrator *)
Notation nthd l i := (@nth double i l (@B754_nan 53 1024)).

Lemma app_error r e M D k : finite r -> App r e M D k -> ErrorAtMost k M D (B2R r) e.
Proof. intros F (_ & _ & A). exact (A F). Qed.

(** one cell of the unequally spaced rule *)
Lemma app_cell (f v : list double) i : App (Bmult mode_NE (Bdiv mode_NE (Bplus mode_NE (nthd f (S i)) (nthd f i)) (nofZ DA 2)) (Bminus mode_NE (nthd v (S i)) (nthd v i)))
  ((val v (S i) - val v i) * (val f i + val f (S i)) / 2) (cell (val v) (val f) i) (tiny * (width (val v) i + 1)) 3.
Proof.
  pose proof (app_half _ _ _ _ _ (app_add_data (nthd f (S i)) (nthd f i))) as A1.
  pose proof (app_sub_data (nthd v (S i)) (nthd v i)) as A2.
  eapply app_eq; [exact (app_mul _ _ _ _ _ _ _ _ _ _ A1 A2)|unfold val; field|unfold cell, val; rewrite Rplus_comm; reflexivity|].
  unfold width, val. field.
Qed.

Lemma trapz_ne_error (f v : list double) r : (1 <= List.length f <= List.length v)%nat ->
  trapz_ne DA (Z.of_nat (List.length f)) f v = Ok r -> finite r ->
  ErrorAtMost (List.length f + 1) (total (cell (val v) (val f)) (List.length f - 1)) (tiny * total (fun i => width (val v) i + 1) (List.length f - 1))
    (B2R r) (trapezoid_sum (val v) (val f) (List.length f)).
Proof.
  intros Hn E F. rewrite (trapz_ne_ok DA f v B754_nan) in E by lia. injection E as <-.
  apply app_error; [exact F|]. cbn [DA nadd nsub nmul ndiv] in *.
  set (n := List.length f) in *. clearbody n.
  pose proof (fun Ht => fold_app0 (fun j => Bmult mode_NE (Bdiv mode_NE (Bplus mode_NE (nthd f (Z.to_nat j)) (nthd f (Z.to_nat (j - 1)))) (nofZ DA 2)) (Bminus mode_NE (nthd v (Z.to_nat j)) (nthd v (Z.to_nat (j - 1)))))
    (fun j => (val v (Z.to_nat j) - val v (Z.to_nat (j - 1))) * (val f (Z.to_nat (j - 1)) + val f (Z.to_nat j)) / 2)
    (fun j => cell (val v) (val f) (Z.to_nat (j - 1))) (fun j => tiny * (width (val v) (Z.to_nat (j - 1)) + 1)) 3
    (map (fun k => (1 + Z.of_nat k)%Z) (seq 0 (n - 1))) (n + 1) Ht) as A.
  rewrite map_length, seq_length in A. rewrite !lsum_iter in A.
  eapply app_eq; [apply A; [|intros N; destruct n as [|[|n']]; [lia|elim N; reflexivity|lia]]|..].
  - intros j Hj. apply in_map_iff in Hj. destruct Hj as (i & <- & _).
    replace (Z.to_nat (1 + Z.of_nat i)) with (S i) by lia. replace (Z.to_nat (1 + Z.of_nat i - 1)) with i by lia. apply app_cell.
  - rewrite trapezoid_sum_Rsum, total_Rsum. apply Rsum_ext. intros i _.
    replace (Z.to_nat (Z.of_nat (S i))) with (S i) by lia. replace (Z.to_nat (Z.of_nat (S i) - 1)) with i by lia. field.
  - apply total_ext. intros i _. replace (Z.to_nat (Z.of_nat (S i) - 1)) with i by lia. reflexivity.
  - rewrite !total_Rsum, <- Rsum_scal. apply Rsum_ext. intros i _. replace (Z.to_nat (Z.of_nat (S i) - 1)) with i by lia. reflexivity.
Qed.

(** equal spacing: the loop, sequential or distributed *)
Lemma app_uniform (f v : list double) n s k : (2 <= n)%nat ->
  App s ((val f 0 + val f (n - 1)) / 2 + total (fun i => val f (S i)) (n - 2))
    (Rabs (val f 0 + val f (n - 1)) / 2 + total (fun i => Rabs (val f (S i))) (n - 2)) tiny k ->
  App (Bmult mode_NE s (Bminus mode_NE (nthd v 1) (nthd v 0))) (uniform_trapezoid (val v 1 - val v 0) (val f) n)
    (uniform_trapezoid_magnitude (val v 1 - val v 0) (val f) n) (tiny * (Rabs (val v 1 - val v 0) + 1)) (k + 2).
Proof.
  intros Hn A. pose proof (app_mul _ _ _ _ _ _ _ _ _ _ A (app_sub_data (nthd v 1) (nthd v 0))) as B.
  replace (k + 2)%nat with (S (k + 1)) by lia.
  eapply app_eq; [exact B|unfold uniform_trapezoid, val; ring|unfold uniform_trapezoid_magnitude, val; ring|unfold val; ring].
Qed.
Lemma app_ends (f : list double) n : App (Bdiv mode_NE (Bplus mode_NE (nthd f 0) (nthd f (n - 1))) (nofZ DA 2)) ((val f 0 + val f (n - 1)) / 2) (Rabs (val f 0 + val f (n - 1)) / 2) tiny 1.
Proof. eapply app_eq; [exact (app_half _ _ _ _ _ (app_add_data (nthd f 0) (nthd f (n - 1))))|reflexivity|reflexivity|field]. Qed.
Lemma trapz_es_error (f v : list double) r : (2 <= List.length f)%nat -> (2 <= List.length v)%nat ->
  trapz_es DA (Z.of_nat (List.length f)) f v = Ok r -> finite r ->
  ErrorAtMost (List.length f + 1) (uniform_trapezoid_magnitude (val v 1 - val v 0) (val f) (List.length f)) (tiny * (Rabs (val v 1 - val v 0) + 1))
    (B2R r) (uniform_trapezoid (val v 1 - val v 0) (val f) (List.length f)).
Proof.
  intros Hf Hv E F. rewrite (trapz_es_ok DA f v B754_nan) in E by lia. injection E as <-.
  apply app_error; [exact F|]. cbn [DA nadd nsub nmul ndiv] in *.
  set (n := List.length f) in *. clearbody n.
  pose proof (fold_app (fun j => nthd f (Z.to_nat j)) (fun j => val f (Z.to_nat j)) (fun j => Rabs (val f (Z.to_nat j))) (fun _ => 0) 0
    (map (fun k => (1 + Z.of_nat k)%Z) (seq 0 (n - 2))) (fun i _ => app_leaf _) _ _ _ _ _ ltac:(lia) (app_ends f n)) as A.
  rewrite map_length, seq_length, lsum_zero, !lsum_iter in A.
  replace (n + 1)%nat with ((1 + (n - 2)) + 2)%nat by lia.
  apply app_uniform; [exact Hf|].
  eapply app_eq; [exact A|..]; [f_equal; apply total_ext; intros i _; do 2 f_equal; lia|f_equal; apply total_ext; intros i _; do 3 f_equal; lia|lra].
Qed.
Lemma iterations_map n : iterations 1 (Z.of_nat n - 1) = map (fun d => (1 + Z.of_nat d)%Z) (seq 0 (n - 2)).
Proof. unfold iterations. do 2 f_equal. lia. Qed.
Lemma trapz_par_error parts L (d : double) (f v : list double) : (2 <= List.length f)%nat -> (2 <= List.length v)%nat ->
  Permutation (List.concat parts) (iterations 1 (Z.of_nat (List.length f) - 1)) -> Forall (fun p => (List.length p <= L)%nat) parts ->
  let r := trapz_parallel_es DA parts d (Z.of_nat (List.length f)) f v in finite r ->
  ErrorAtMost (L + List.length parts + 3) (uniform_trapezoid_magnitude (val v 1 - val v 0) (val f) (List.length f)) (tiny * (Rabs (val v 1 - val v 0) + 1))
    (B2R r) (uniform_trapezoid (val v 1 - val v 0) (val f) (List.length f)).
Proof.
  intros Hf Hv HP HL r F. apply app_error; [exact F|]. unfold r, trapz_parallel_es. cbn [DA nadd nsub nmul ndiv].
  change (Z.to_nat 0) with 0%nat. change (Z.to_nat 1) with 1%nat. replace (Z.to_nat (Z.of_nat (List.length f) - 1)) with (List.length f - 1)%nat by lia.
  rewrite !(nth_indep _ d B754_nan) by lia. rewrite iterations_map in HP.
  pose proof (reduce_app (fun j => nth (Z.to_nat j) f d) (fun j => val f (Z.to_nat j)) (fun j => Rabs (val f (Z.to_nat j))) (fun _ => 0) 0 parts L _ _ _ _ (L + 1)
    ltac:(lia) (app_weak _ _ _ _ _ _ _ (L + 1) (app_ends f (List.length f)) (Rle_refl _) (Rle_refl _) ltac:(lia)) HL) as A.
  assert (Hd : forall i, In i (List.concat parts) -> App (nth (Z.to_nat i) f d) (val f (Z.to_nat i)) (Rabs (val f (Z.to_nat i))) 0 0).
  { intros i Hi. apply (Permutation_in _ HP) in Hi. apply in_map_iff in Hi. destruct Hi as (j & <- & Hj). apply in_seq in Hj.
    rewrite (nth_indep _ d B754_nan) by lia. apply app_leaf. }
  specialize (A Hd). rewrite !(lsum_perm _ _ _ HP), lsum_zero, !lsum_iter in A.
  replace (L + List.length parts + 3)%nat with ((L + 1 + List.length parts) + 2)%nat by lia.
  apply app_uniform; [exact Hf|].
  eapply app_eq; [exact A|..]; [f_equal; apply total_ext; intros i _; do 2 f_equal; lia|f_equal; apply total_ext; intros i _; do 3 f_equal; lia|lra].
Qed.

(** Simpson *)
Lemma app_pair (f : list double) i (d : double) : nth (2 * i + 1) f d = nthd f (2 * i + 1) -> nth (2 * i + 2) f d = nthd f (2 * i + 2) ->
  App (Bplus mode_NE (Bmult mode_NE (nofZ DA 4) (nth (2 * i + 1) f d)) (Bmult mode_NE (nofZ DA 2) (nth (2 * i + 2) f d)))
  (4 * val f (2 * i + 1) + 2 * val f (2 * i + 2)) (4 * Rabs (val f (2 * i + 1)) + 2 * Rabs (val f (2 * i + 2))) 0 1.
Proof.
  intros -> ->.
  pose proof (app_add _ _ _ _ _ _ _ _ _ (app_scale 2 4 (nthd f (2 * i + 1)) eq_refl ltac:(lia)) (app_scale 1 2 (nthd f (2 * i + 2)) eq_refl ltac:(lia))) as A.
  eapply app_eq; [exact A|unfold val; reflexivity|reflexivity|lra].
Qed.
Lemma app_simpson (f v : list double) K s k : (2 <= List.length v)%nat -> (1 <= k)%nat ->
  App s (val f 0 + val f (2 * K + 2) + total (fun i => 4 * val f (2 * i + 1) + 2 * val f (2 * i + 2)) K)
    (Rabs (val f 0 + val f (2 * K + 2)) + total (fun i => 4 * Rabs (val f (2 * i + 1)) + 2 * Rabs (val f (2 * i + 2))) K) 0 k ->
  App (Bmult mode_NE (Bdiv mode_NE (Bminus mode_NE (nthd v 1) (nthd v 0)) (nofZ DA 3)) (Bplus mode_NE s (Bmult mode_NE (nofZ DA 4) (nthd f (2 * K + 1)))))
    (composite_simpson (val v 1 - val v 0) (val f) K)
    (Rabs (val v 1 - val v 0) / 3 * simpson_sum_magnitude (val f) K) (tiny * (simpson_sum_magnitude (val f) K + 1)) (k + 4).
Proof.
  intros Hv Hk A.
  pose proof (app_add _ _ _ _ _ _ _ _ _ A (app_weak _ _ _ _ _ _ _ k (app_scale 2 4 (nthd f (2 * K + 1)) eq_refl ltac:(lia)) (Rle_refl _) (Rle_refl _) ltac:(lia))) as B.
  destruct (lit_small 3) as (F3 & E3); [lia|].
  pose proof (app_div _ _ _ _ _ _ _ F3 E3 ltac:(lra) (app_sub_data (nthd v 1) (nthd v 0))) as H.
  replace (k + 4)%nat with (S (2 + S k)) by lia.
  eapply app_eq; [exact (app_mul _ _ _ _ _ _ _ _ _ _ H B)|..].
  - unfold composite_simpson. fold (val v 1) (val v 0). generalize (val v 1 - val v 0). intros h.
    rewrite !total_Rsum. fold (val f (2 * K + 1)). clear. revert h. generalize (val f). intros y h.
    rewrite Rsum_scal. unfold Rdiv. f_equal. induction K as [|K IH].
    + cbn [Rsum Nat.mul Nat.add]. lra.
    + cbn [Rsum] in *. replace (2 * S K)%nat with (2 * K + 2)%nat in * by lia. replace (2 * K + 2 + 1)%nat with (2 * K + 3)%nat in * by lia. lra.
  - unfold simpson_sum_magnitude, val. reflexivity.
  - unfold simpson_sum_magnitude, val, Rdiv. rewrite !Rmult_0_l. ring.
Qed.
Lemma simpson_error (f v : list double) K r : List.length f = (2 * K + 3)%nat -> (2 <= List.length v)%nat ->
  simpson DA true (Z.of_nat (List.length f)) f v = Ok r -> finite r ->
  ErrorAtMost (K + 5) (Rabs (val v 1 - val v 0) / 3 * simpson_sum_magnitude (val f) K) (tiny * (simpson_sum_magnitude (val f) K + 1))
    (B2R r) (composite_simpson (val v 1 - val v 0) (val f) K).
Proof.
  intros Hf Hv E F. rewrite (simpson_odd_ok DA f v B754_nan K) in E by assumption. injection E as <-.
  apply app_error; [exact F|]. cbn [DA nadd nsub nmul ndiv] in *.
  replace (K + 5)%nat with ((1 + K) + 4)%nat by lia. apply app_simpson; [exact Hv|lia|].
  pose proof (fun Ht => fold_app (fun j => Bplus mode_NE (Bmult mode_NE (nofZ DA 4) (nthd f (Z.to_nat (2 * j - 1)))) (Bmult mode_NE (nofZ DA 2) (nthd f (Z.to_nat (2 * j)))))
    (fun j => 4 * val f (Z.to_nat (2 * j - 1)) + 2 * val f (Z.to_nat (2 * j)))
    (fun j => 4 * Rabs (val f (Z.to_nat (2 * j - 1))) + 2 * Rabs (val f (Z.to_nat (2 * j)))) (fun _ => 0) 1
    (map (fun k => (1 + Z.of_nat k)%Z) (seq 0 K)) Ht _ _ _ _ _ (le_n 1) (app_add_data (nthd f 0) (nthd f (2 * K + 2)))) as A.
  rewrite map_length, seq_length, lsum_zero, !lsum_iter in A.
  eapply app_eq; [apply A|..].
  - intros j Hj. apply in_map_iff in Hj. destruct Hj as (i & <- & _).
    replace (Z.to_nat (2 * (1 + Z.of_nat i) - 1)) with (2 * i + 1)%nat by lia. replace (Z.to_nat (2 * (1 + Z.of_nat i))) with (2 * i + 2)%nat by lia. apply app_pair; reflexivity.
  - fold (val f 0) (val f (2 * K + 2)). f_equal. apply total_ext. intros i _.
    replace (Z.to_nat (2 * Z.of_nat (S i) - 1)) with (2 * i + 1)%nat by lia. replace (Z.to_nat (2 * Z.of_nat (S i))) with (2 * i + 2)%nat by lia. reflexivity.
  - fold (val f 0) (val f (2 * K + 2)). f_equal. apply total_ext. intros i _.
    replace (Z.to_nat (2 * Z.of_nat (S i) - 1)) with (2 * i + 1)%nat by lia. replace (Z.to_nat (2 * Z.of_nat (S i))) with (2 * i + 2)%nat by lia. reflexivity.
  - lra.
Qed.
Lemma simpson_par_error parts L (d : double) (f v : list double) K : List.length f = (2 * K + 3)%nat -> (2 <= List.length v)%nat ->
  Permutation (List.concat parts) (iterations 1 (Z.of_nat K + 1)) -> Forall (fun p => (List.length p <= L)%nat) parts ->
  let r := simpson_parallel_es DA parts d (Z.of_nat (List.length f)) f v in finite r ->
  ErrorAtMost (L + List.length parts + 5) (Rabs (val v 1 - val v 0) / 3 * simpson_sum_magnitude (val f) K) (tiny * (simpson_sum_magnitude (val f) K + 1))
    (B2R r) (composite_simpson (val v 1 - val v 0) (val f) K).
Proof.
  intros Hf Hv HP HL r F. apply app_error; [exact F|]. unfold r, simpson_parallel_es. cbn [DA nadd nsub nmul ndiv].
  change (Z.to_nat 0) with 0%nat. change (Z.to_nat 1) with 1%nat. rewrite Hf. replace (Z.to_nat (Z.of_nat (2 * K + 3) - 1)) with (2 * K + 2)%nat by lia.
  replace (Z.to_nat (Z.of_nat (2 * K + 3) - 1 - 1)) with (2 * K + 1)%nat by lia.
  rewrite !(nth_indep v d B754_nan) by lia. rewrite (nth_indep f d B754_nan (n := 0%nat)), (nth_indep f d B754_nan (n := (2 * K + 2)%nat)), (nth_indep f d B754_nan (n := (2 * K + 1)%nat)) by lia.
  assert (HP' : Permutation (List.concat parts) (map (fun k => (1 + Z.of_nat k)%Z) (seq 0 K))).
  { unfold iterations in HP. replace (Z.to_nat (Z.of_nat K + 1 - 1)) with K in HP by lia. exact HP. }
  replace (L + List.length parts + 5)%nat with ((L + 1 + List.length parts) + 4)%nat by lia. apply app_simpson; [exact Hv|lia|].
  pose proof (reduce_app (fun j => Bplus mode_NE (Bmult mode_NE (nofZ DA 4) (nth (Z.to_nat (2 * j - 1)) f d)) (Bmult mode_NE (nofZ DA 2) (nth (Z.to_nat (2 * j)) f d)))
    (fun j => 4 * val f (Z.to_nat (2 * j - 1)) + 2 * val f (Z.to_nat (2 * j)))
    (fun j => 4 * Rabs (val f (Z.to_nat (2 * j - 1))) + 2 * Rabs (val f (Z.to_nat (2 * j)))) (fun _ => 0) 1 parts L _ _ _ _ (L + 1) ltac:(lia)
    (app_weak _ _ _ _ _ _ _ (L + 1) (app_add_data (nthd f 0) (nthd f (2 * K + 2))) (Rle_refl _) (Rle_refl _) ltac:(lia)) HL) as A.
  rewrite !(lsum_perm _ _ _ HP'), lsum_zero, !lsum_iter in A.
  eapply app_eq; [apply A|..].
  - intros j Hj. apply (Permutation_in _ HP') in Hj. apply in_map_iff in Hj. destruct Hj as (i & <- & Hi). apply in_seq in Hi.
    replace (Z.to_nat (2 * (1 + Z.of_nat i) - 1)) with (2 * i + 1)%nat by lia. replace (Z.to_nat (2 * (1 + Z.of_nat i))) with (2 * i + 2)%nat by lia.
    apply app_pair; apply nth_indep; lia.
  - fold (val f 0) (val f (2 * K + 2)). f_equal. apply total_ext. intros i _.
    replace (Z.to_nat (2 * Z.of_nat (S i) - 1)) with (2 * i + 1)%nat by lia. replace (Z.to_nat (2 * Z.of_nat (S i))) with (2 * i + 2)%nat by lia. reflexivity.
  - fold (val f 0) (val f (2 * K + 2)). f_equal. apply total_ext. intros i _.
    replace (Z.to_nat (2 * Z.of_nat (S i) - 1)) with (2 * i + 1)%nat by lia. replace (Z.to_nat (2 * Z.of_nat (S i))) with (2 * i + 2)%nat by lia. reflexivity.
  - lra.
Qed.

(** ** Relational reading of the three rules *)
Lemma ok_inj {A} (a b : A) : Ok a = Ok b -> a = b.
Proof. congruence. Qed.
Section Rel.
Context {num1 num2 : Type} (A1 : arith num1) (A2 : arith num2).
Variables (V S0 : num1 -> num2 -> Prop).
Hypothesis V_add : forall x x' y y', V x x' -> V y y' -> V (nadd A1 x y) (nadd A2 x' y').
Hypothesis V_half : forall x x', V x x' -> V (ndiv A1 x (nofZ A1 2)) (ndiv A2 x' (nofZ A2 2)).
Hypothesis V_right : forall x x' d d', V x x' -> S0 d d' -> V (nmul A1 x d) (nmul A2 x' d').
Hypothesis V_left : forall x x' d d', V x x' -> S0 d d' -> V (nmul A1 (ndiv A1 d (nofZ A1 3)) x) (nmul A2 (ndiv A2 d' (nofZ A2 3)) x').
Hypothesis V_two : forall x x', V x x' -> V (nmul A1 (nofZ A1 2) x) (nmul A2 (nofZ A2 2) x').
Hypothesis V_four : forall x x', V x x' -> V (nmul A1 (nofZ A1 4) x) (nmul A2 (nofZ A2 4) x').
Hypothesis V_zero : V (nofZ A1 0) (nofZ A2 0).
Lemma fold_rel (t : Z -> num1) (t' : Z -> num2) l : forall a a', V a a' -> (forall i, In i l -> V (t i) (t' i)) ->
  V (fold_left (fun s i => nadd A1 s (t i)) l a) (fold_left (fun s i => nadd A2 s (t' i)) l a').
Proof.
  induction l as [|i l IH]; intros a a' Ha Ht; [exact Ha|]. cbn [fold_left]. apply IH; [apply V_add; [exact Ha|apply Ht; left; reflexivity]|intros j Hj; apply Ht; right; exact Hj].
Qed.
Lemma integrate_rel hist hist' m es f f' v v' th p th' p' r r' d d' :
  List.length f = List.length f' -> List.length v = List.length v' ->
  (forall i, (i < List.length f)%nat -> V (nth i f d) (nth i f' d')) ->
  (forall i, (S i < List.length v)%nat -> S0 (nsub A1 (nth (S i) v d) (nth i v d)) (nsub A2 (nth (S i) v' d') (nth i v' d'))) ->
  integrate A1 hist m es f v th p = Ok r -> integrate A2 hist' m es f' v' th' p' = Ok r' -> V r r'.
Proof.
  intros Lf Lv Vf Sv E E'.
  assert (B : in_bounds (String.eqb m "simpson") es (List.length f) (List.length v)).
  { destruct (in_bounds_em (String.eqb m "simpson") es (List.length f) (List.length v)) as [B|B]; [exact B|].
    rewrite (integrate_unsafe A1 hist m es f v th p B) in E. discriminate E. }
  rewrite integrate_char in E. rewrite integrate_char in E'. unfold in_bounds in B.
  assert (NE : es = false -> forall x x', trapz A1 false (Z.of_nat (List.length f)) f v = Ok x -> trapz A2 false (Z.of_nat (List.length f')) f' v' = Ok x' -> V x x').
  { intros -> x x' Hx Hx'. unfold trapz in Hx, Hx'. rewrite (trapz_ne_ok A1 f v d) in Hx by lia. rewrite (trapz_ne_ok A2 f' v' d') in Hx' by lia.
    apply ok_inj in Hx, Hx'; subst x x'. rewrite <- Lf. apply fold_rel; [exact V_zero|]. intros j Hj. apply in_map_iff in Hj. destruct Hj as (i & <- & Hi). apply in_seq in Hi.
    replace (Z.to_nat (1 + Z.of_nat i)) with (S i) by lia. replace (Z.to_nat (1 + Z.of_nat i - 1)) with i by lia.
    apply V_right; [apply V_half, V_add; apply Vf; lia|apply Sv; lia]. }
  assert (ES : es = true -> (1 <= List.length f)%nat -> (2 <= List.length v)%nat -> forall x x', trapz A1 true (Z.of_nat (List.length f)) f v = Ok x -> trapz A2 true (Z.of_nat (List.length f')) f' v' = Ok x' -> V x x').
  { intros _ Bf Bv x x' Hx Hx'. unfold trapz in Hx, Hx'. rewrite (trapz_es_ok A1 f v d) in Hx by lia. rewrite (trapz_es_ok A2 f' v' d') in Hx' by lia.
    apply ok_inj in Hx, Hx'; subst x x'. rewrite <- Lf. apply V_right; [|apply Sv; lia]. apply fold_rel; [apply V_half, V_add; apply Vf; lia|].
    intros j Hj. apply in_map_iff in Hj. destruct Hj as (i & <- & Hi). apply in_seq in Hi. apply Vf. lia. }
  destruct es.
  - destruct (String.eqb m "simpson"); cbn [andb] in B; [|exact (ES eq_refl (proj1 B) (proj2 B) _ _ E E')].
    destruct (Nat.odd (List.length f)) eqn:Ho.
    + destruct (nat_odd_form _ Ho) as [K0 HK]. assert (HK' : List.length f = (2 * (K0 - 1) + 3)%nat) by lia. set (K := (K0 - 1)%nat) in *. clearbody K.
      rewrite (simpson_odd_ok A1 f v d K HK') in E by lia. rewrite (simpson_odd_ok A2 f' v' d' K) in E' by lia.
      apply ok_inj in E, E'; subst r r'. apply V_left; [|apply Sv; lia]. apply V_add; [|apply V_four, Vf; lia].
      apply fold_rel; [apply V_add; apply Vf; lia|]. intros j Hj. apply in_map_iff in Hj. destruct Hj as (i & <- & Hi). apply in_seq in Hi.
      apply V_add; [apply V_four|apply V_two]; apply Vf; lia.
    + rewrite simpson_even in E by exact Ho. rewrite simpson_even in E' by (rewrite <- Lf; exact Ho). exact (ES eq_refl (proj1 B) (proj2 B) _ _ E E').
  - apply (NE eq_refl).
    + destruct (String.eqb m "simpson"); [rewrite simpson_ne in E|]; exact E.
    + destruct (String.eqb m "simpson"); [rewrite simpson_ne in E'|]; exact E'.
Qed.
End Rel.

(** ** Order *)
Definition Mono (x y : double) : Prop := finite x -> finite y -> B2R x <= B2R y.
Definition Same (x y : double) : Prop := x = y /\ (finite x -> 0 <= B2R x).
Lemma mono_add x x' y y' : Mono x x' -> Mono y y' -> Mono (Bplus mode_NE x y) (Bplus mode_NE x' y').
Proof.
  intros Hx Hy F F'. apply plus_inv in F. apply plus_inv in F'. destruct F as (Fx & Fy & ->), F' as (Fx' & Fy' & ->).
  apply rnd_mono, Rplus_le_compat; auto.
Qed.
Lemma mono_half x x' : Mono x x' -> Mono (Bdiv mode_NE x (nofZ DA 2)) (Bdiv mode_NE x' (nofZ DA 2)).
Proof.
  intros Hx F F'. destruct (lit_small 2) as (F2 & E2); [lia|]. apply div_inv in F; [|exact F2|rewrite E2; lra]. apply div_inv in F'; [|exact F2|rewrite E2; lra].
  destruct F as (Fx & ->), F' as (Fx' & ->). rewrite E2. apply rnd_mono. specialize (Hx Fx Fx'). lra.
Qed.
Lemma mono_right x x' d d' : Mono x x' -> Same d d' -> Mono (Bmult mode_NE x d) (Bmult mode_NE x' d').
Proof.
  intros Hx (<- & Hd) F F'. apply mult_inv in F. apply mult_inv in F'. destruct F as (Fx & Fd & ->), F' as (Fx' & _ & ->).
  apply rnd_mono, Rmult_le_compat_r; auto.
Qed.
Lemma third_nonneg d : (finite d -> 0 <= B2R d) -> finite (Bdiv mode_NE d (nofZ DA 3)) -> 0 <= B2R (Bdiv mode_NE d (nofZ DA 3)).
Proof.
  intros Hd F. destruct (lit_small 3) as (F3 & E3); [lia|]. apply div_inv in F; [|exact F3|rewrite E3; lra]. destruct F as (Fd & ->). rewrite E3.
  apply rnd_nonneg. specialize (Hd Fd). lra.
Qed.
Lemma mono_left x x' d d' : Mono x x' -> Same d d' ->
  Mono (Bmult mode_NE (Bdiv mode_NE d (nofZ DA 3)) x) (Bmult mode_NE (Bdiv mode_NE d' (nofZ DA 3)) x').
Proof.
  intros Hx (<- & Hd) F F'. apply mult_inv in F. apply mult_inv in F'. destruct F as (Fd & Fx & ->), F' as (_ & Fx' & ->).
  apply rnd_mono, Rmult_le_compat_l; [apply third_nonneg; assumption|auto].
Qed.
Lemma mono_lit z x x' : (0 <= z <= 2 ^ 53)%Z -> Mono x x' -> Mono (Bmult mode_NE (nofZ DA z) x) (Bmult mode_NE (nofZ DA z) x').
Proof.
  intros Hz Hx F F'. apply mult_inv in F. apply mult_inv in F'. destruct F as (_ & Fx & ->), F' as (_ & Fx' & ->).
  apply rnd_mono. destruct (lit_small z) as (_ & ->); [lia|]. apply Rmult_le_compat_l; [apply IZR_le; lia|auto].
Qed.
Lemma step_nonneg (x y : double) : B2R y <= B2R x -> finite (Bminus mode_NE x y) -> 0 <= B2R (Bminus mode_NE x y).
Proof. intros H F. apply minus_inv in F. destruct F as (_ & _ & ->). apply rnd_nonneg. lra. Qed.

Lemma integrate_mono hist m es f g v th p hist' th' p' r s :
  List.length f = List.length g -> (forall i, (i < List.length f)%nat -> val f i <= val g i) ->
  (forall i, (S i < List.length v)%nat -> val v i <= val v (S i)) ->
  integrate DA hist m es f v th p = Ok r -> integrate DA hist' m es g v th' p' = Ok s -> finite r -> finite s -> B2R r <= B2R s.
Proof.
  intros L Hfg Hv E E' Fr Fs.
  refine (integrate_rel DA DA Mono Same mono_add mono_half mono_right mono_left (fun x x' => mono_lit 2 x x' ltac:(lia)) (fun x x' => mono_lit 4 x x' ltac:(lia))
    (fun _ _ => Rle_refl _) hist hist' m es f g v v th p th' p' r s B754_nan B754_nan L eq_refl _ _ E E' Fr Fs).
  - intros i Hi _ _. apply (Hfg i Hi).
  - intros i Hi. split; [reflexivity|]. exact (step_nonneg _ _ (Hv i Hi)).
Qed.

Definition NN (x y : double) : Prop := finite x -> 0 <= B2R x.
Lemma integrate_nonneg hist m es f v th p r :
  (forall i, (i < List.length f)%nat -> 0 <= val f i) ->
  (forall i, (S i < List.length v)%nat -> val v i <= val v (S i)) ->
  integrate DA hist m es f v th p = Ok r -> finite r -> 0 <= B2R r.
Proof.
  intros Hf Hv E Fr.
  assert (A : forall x x' y y' : double, NN x x' -> NN y y' -> NN (Bplus mode_NE x y) (Bplus mode_NE x' y')).
  { intros x x' y y' Hx Hy F. apply plus_inv in F. destruct F as (Fx & Fy & ->). apply rnd_nonneg. specialize (Hx Fx). specialize (Hy Fy). lra. }
  assert (M : forall x x' y y' : double, NN x x' -> NN y y' -> NN (Bmult mode_NE x y) (Bmult mode_NE x' y')).
  { intros x x' y y' Hx Hy F. apply mult_inv in F. destruct F as (Fx & Fy & ->). apply rnd_nonneg. apply Rmult_le_pos; auto. }
  assert (Li : forall z, (0 <= z <= 2 ^ 53)%Z -> NN (nofZ DA z) (nofZ DA z)).
  { intros z Hz _. destruct (lit_small z) as (_ & ->); [lia|]. apply IZR_le. lia. }
  assert (H2 : forall x x' : double, NN x x' -> NN (Bdiv mode_NE x (nofZ DA 2)) (Bdiv mode_NE x' (nofZ DA 2))).
  { intros x x' Hx F. destruct (lit_small 2) as (F2 & E2); [lia|]. apply div_inv in F; [|exact F2|rewrite E2; lra]. destruct F as (Fx & ->). rewrite E2. apply rnd_nonneg. specialize (Hx Fx). lra. }
  refine (integrate_rel DA DA NN NN A H2 M (fun x x' d d' Hx Hd => M _ _ _ _ (third_nonneg d Hd) Hx) (fun x x' Hx => M _ _ _ _ (Li 2%Z ltac:(lia)) Hx)
    (fun x x' Hx => M _ _ _ _ (Li 4%Z ltac:(lia)) Hx) (Li 0%Z ltac:(lia)) hist hist m es f f v v th p th p r r B754_nan B754_nan eq_refl eq_refl _ _ E E Fr).
  - intros i Hi _. apply (Hf i Hi).
  - intros i Hi. exact (step_nonneg _ _ (Hv i Hi)).
Qed.

(** ** Exact sums *)
Lemma format_dyadic_le m e : (Z.abs m <= 2 ^ 53)%Z -> (-1074 <= e)%Z -> rnd (IZR m * bpow radix2 e) = IZR m * bpow radix2 e.
Proof.
  intros Hm He. destruct (Z.eq_dec (Z.abs m) (2 ^ 53)) as [E|N]; [|apply format_dyadic; lia].
  assert (m = 2 ^ 53 \/ m = - 2 ^ 53)%Z as [-> | ->] by lia.
  - replace (IZR (2 ^ 53) * bpow radix2 e) with (IZR 1 * bpow radix2 (53 + e)); [apply format_dyadic; lia|]. rewrite bpow_plus. change (bpow radix2 53) with (IZR (2 ^ 53)). ring.
  - replace (IZR (- 2 ^ 53) * bpow radix2 e) with (IZR (-1) * bpow radix2 (53 + e)); [apply format_dyadic; lia|]. rewrite bpow_plus. change (bpow radix2 53) with (IZR (2 ^ 53)). rewrite opp_IZR. ring.
Qed.
Definition Int (e : Z) (x : double) (m : Z) : Prop := finite x -> B2R x = IZR m * bpow radix2 e.
Lemma int_add e x m y l : (-1074 <= e)%Z -> (Z.abs (m + l) <= 2 ^ 53)%Z -> Int e x m -> Int e y l -> Int e (Bplus mode_NE x y) (m + l).
Proof.
  intros He B Hx Hy F. apply plus_inv in F. destruct F as (Fx & Fy & ->). rewrite (Hx Fx), (Hy Fy). rewrite <- Rmult_plus_distr_r, <- plus_IZR. apply format_dyadic_le; assumption.
Qed.
Lemma int_sub e x m y l : (-1074 <= e)%Z -> (Z.abs (m - l) <= 2 ^ 53)%Z -> Int e x m -> Int e y l -> Int e (Bminus mode_NE x y) (m - l).
Proof.
  intros He B Hx Hy F. apply minus_inv in F. destruct F as (Fx & Fy & ->). rewrite (Hx Fx), (Hy Fy). rewrite <- Rmult_minus_distr_r, <- minus_IZR. apply format_dyadic_le; assumption.
Qed.
Lemma int_mul e x m e' y l : (-1074 <= e + e')%Z -> (Z.abs (m * l) <= 2 ^ 53)%Z -> Int e x m -> Int e' y l -> Int (e + e') (Bmult mode_NE x y) (m * l).
Proof.
  intros He B Hx Hy F. apply mult_inv in F. destruct F as (Fx & Fy & ->). rewrite (Hx Fx), (Hy Fy).
  replace (IZR m * bpow radix2 e * (IZR l * bpow radix2 e')) with (IZR (m * l) * bpow radix2 (e + e')) by (rewrite mult_IZR, bpow_plus; ring). apply format_dyadic_le; assumption.
Qed.
Lemma int_half e x m : (-1073 <= e)%Z -> (Z.abs m <= 2 ^ 53)%Z -> Int e x m -> Int (e - 1) (Bdiv mode_NE x (nofZ DA 2)) m.
Proof.
  intros He B Hx F. destruct (lit_small 2) as (F2 & E2); [lia|]. apply div_inv in F; [|exact F2|rewrite E2; lra]. destruct F as (Fx & ->). rewrite E2, (Hx Fx).
  replace (IZR m * bpow radix2 e / 2) with (IZR m * bpow radix2 (e - 1)); [apply format_dyadic_le; [exact B|lia]|].
  unfold Zminus. rewrite bpow_plus. change (bpow radix2 (- (1))) with (/ 2). unfold Rdiv. ring.
Qed.
Definition zsum (t : Z -> Z) (l : list Z) : Z := fold_right (fun i s => t i + s)%Z 0%Z l.
Lemma fold_int e (t : Z -> double) (m : Z -> Z) l : (-1074 <= e)%Z -> forall a k, Int e a k -> (forall i, In i l -> Int e (t i) (m i)) ->
  (Z.abs k + zsum (fun i => Z.abs (m i)) l <= 2 ^ 53)%Z -> Int e (fold_left (fun s i => Bplus mode_NE s (t i)) l a) (k + zsum m l).
Proof.
  intros He. induction l as [|i l IH]; intros a k Ha Ht B.
  - cbn [fold_left zsum fold_right]. rewrite Z.add_0_r. exact Ha.
  - cbn [fold_left]. cbn [zsum fold_right] in *. fold (zsum m l). fold (zsum (fun i => Z.abs (m i)) l) in B.
    assert (P : (0 <= zsum (fun i => Z.abs (m i)) l)%Z). { clear. induction l; cbn [zsum fold_right]; [lia|]. fold (zsum (fun i => Z.abs (m i)) l). lia. }
    rewrite Z.add_assoc. apply IH; [|intros j Hj; apply Ht; right; exact Hj|lia]. apply int_add; [exact He|lia|exact Ha|apply Ht; left; reflexivity].
Qed.
Lemma zsum_app t a b : (zsum t (a ++ b) = zsum t a + zsum t b)%Z.
Proof. unfold zsum. induction a; cbn; [reflexivity|]. rewrite IHa. lia. Qed.
Lemma zsum_iter (t : Z -> Z) n : zsum t (map (fun d => (1 + Z.of_nat d)%Z) (seq 0 n)) = ztotal (fun i => t (Z.of_nat (S i))) n.
Proof. induction n; [reflexivity|]. rewrite seq_S, map_app, zsum_app, IHn. cbn [ztotal map zsum fold_right Nat.add]. replace (1 + Z.of_nat n)%Z with (Z.of_nat (S n)) by lia. lia. Qed.
Lemma ztotal_ext g h n : (forall i, (i < n)%nat -> g i = h i) -> ztotal g n = ztotal h n.
Proof. induction n; intros H; cbn [ztotal]; [reflexivity|]. rewrite IHn, H; auto. Qed.
Lemma ztotal_IZR g n : IZR (ztotal g n) = total (fun i => IZR (g i)) n.
Proof. induction n; cbn [ztotal total]; [reflexivity|]. rewrite plus_IZR, IHn. reflexivity. Qed.
Lemma total_scal c g n : total (fun i => c * g i) n = c * total g n.
Proof. rewrite !total_Rsum. apply Rsum_scal. Qed.

Lemma trapezoid_sum_total x y n : trapezoid_sum x y n = total (fun i => (y (S i) + y i) / 2 * (x (S i) - x i)) (n - 1).
Proof. rewrite trapezoid_sum_Rsum. symmetry. apply total_Rsum. Qed.
Lemma trapz_ne_exact f v (a b : nat -> Z) P Q r : (1 <= List.length f <= List.length v)%nat ->
  (forall i, (i < List.length f)%nat -> val f i = IZR (a i) * bpow radix2 P /\ val v i = IZR (b i) * bpow radix2 Q) ->
  (-1073 <= P)%Z -> (-1074 <= Q)%Z -> (-1073 <= P + Q)%Z ->
  (forall i, (S i < List.length f)%nat -> (Z.abs (a i + a (S i)) <= 2 ^ 53)%Z /\ (Z.abs (b (S i) - b i) <= 2 ^ 53)%Z) ->
  (ztotal (fun i => Z.abs ((a i + a (S i)) * (b (S i) - b i))) (List.length f - 1) <= 2 ^ 53)%Z ->
  trapz_ne DA (Z.of_nat (List.length f)) f v = Ok r -> finite r -> B2R r = trapezoid_sum (val v) (val f) (List.length f).
Proof.
  intros Hn Hv HP HQ HPQ Hs Ht E F. rewrite (trapz_ne_ok DA f v B754_nan) in E by lia. apply ok_inj in E; subst r. cbn [DA nadd nsub nmul ndiv] in *.
  set (n := List.length f) in *. clearbody n.
  assert (TB : forall i, (i < n - 1)%nat -> (Z.abs ((a i + a (S i)) * (b (S i) - b i)) <= 2 ^ 53)%Z).
  { intros i Hi. eapply Z.le_trans; [|exact Ht]. clear - Hi. set (g := fun i => Z.abs ((a i + a (S i)) * (b (S i) - b i))). change (g i <= ztotal g (n - 1))%Z.
    assert (G : forall i, (0 <= g i)%Z) by (intros j; unfold g; lia). clearbody g. generalize (n - 1)%nat, Hi. clear - G. intros m. induction m as [|m IH]; intros Hm; [lia|]. cbn [ztotal].
    assert (0 <= ztotal g m)%Z by (clear - G; induction m; cbn [ztotal]; [lia|]; specialize (G m); lia). pose proof (G m). destruct (Nat.eq_dec i m) as [->|N]; [lia|]. specialize (IH ltac:(lia)). lia. }
  pose proof (fold_int (P - 1 + Q) (fun j => Bmult mode_NE (Bdiv mode_NE (Bplus mode_NE (nthd f (Z.to_nat j)) (nthd f (Z.to_nat (j - 1)))) (nofZ DA 2)) (Bminus mode_NE (nthd v (Z.to_nat j)) (nthd v (Z.to_nat (j - 1)))))
    (fun j => ((a (Z.to_nat (j - 1)) + a (Z.to_nat j)) * (b (Z.to_nat j) - b (Z.to_nat (j - 1))))%Z)
    (map (fun k => (1 + Z.of_nat k)%Z) (seq 0 (n - 1))) ltac:(lia) (nofZ DA 0) 0%Z) as A.
  rewrite !zsum_iter in A. eapply eq_trans; [apply A|]; clear A; [| | |exact F|].
  - intros _. destruct lit0 as (_ & ->). lra.
  - intros j Hj. apply in_map_iff in Hj. destruct Hj as (i & <- & Hi). apply in_seq in Hi.
    replace (Z.to_nat (1 + Z.of_nat i)) with (S i) by lia. replace (Z.to_nat (1 + Z.of_nat i - 1)) with i by lia.
    destruct (Hs i) as (B1 & B2); [lia|]. destruct (Hv i) as (V1 & W1); [lia|]. destruct (Hv (S i)) as (V2 & W2); [lia|].
    apply int_mul; [lia|apply TB; lia|apply int_half; [lia|exact B1|]|apply int_sub; [lia|exact B2|intros _; exact W2|intros _; exact W1]].
    rewrite Z.add_comm. apply int_add; [lia|lia|intros _; exact V2|intros _; exact V1].
  - eapply Z.le_trans; [|exact Ht]. rewrite Z.add_0_l. apply Z.eq_le_incl. apply ztotal_ext. intros i _. cbv beta.
    rewrite Nat2Z.id. replace (Z.to_nat (Z.of_nat (S i) - 1)) with i by lia. reflexivity.
  - rewrite Z.add_0_l, ztotal_IZR, trapezoid_sum_total. rewrite Rmult_comm, <- total_scal. apply total_ext. intros i Hi.
    replace (Z.to_nat (Z.of_nat (S i))) with (S i) by lia. replace (Z.to_nat (Z.of_nat (S i) - 1)) with i by lia.
    destruct (Hv i) as (-> & ->); [lia|]. destruct (Hv (S i)) as (-> & ->); [lia|].
    rewrite mult_IZR, plus_IZR, minus_IZR. replace (P - 1 + Q)%Z with (P + (Q + - (1)))%Z by lia. rewrite !bpow_plus. change (bpow radix2 (- (1))) with (/ 2). field.
Qed.
Lemma trapz_es_exact f v (a : nat -> Z) b0 b1 P Q r : (2 <= List.length f)%nat -> (2 <= List.length v)%nat ->
  (forall i, (i < List.length f)%nat -> val f i = IZR (a i) * bpow radix2 P) ->
  val v 0 = IZR b0 * bpow radix2 Q -> val v 1 = IZR b1 * bpow radix2 Q ->
  (-1073 <= P)%Z -> (-1074 <= Q)%Z -> (-1073 <= P + Q)%Z -> (Z.abs (b1 - b0) <= 2 ^ 53)%Z ->
  let n := List.length f in
  (Z.abs (a 0%nat + a (n - 1)%nat) + ztotal (fun i => 2 * Z.abs (a (S i))) (n - 2) <= 2 ^ 53)%Z ->
  (Z.abs ((a 0%nat + a (n - 1)%nat + ztotal (fun i => 2 * a (S i)) (n - 2)) * (b1 - b0)) <= 2 ^ 53)%Z ->
  trapz_es DA (Z.of_nat (List.length f)) f v = Ok r -> finite r -> B2R r = uniform_trapezoid (val v 1 - val v 0) (val f) (List.length f).
Proof.
  intros Hf Hv Va V0 V1 HP HQ HPQ Hb n Hs Ht E F. rewrite (trapz_es_ok DA f v B754_nan) in E by lia. apply ok_inj in E. subst r. cbn [DA nadd nsub nmul ndiv] in *.
  fold n in F |- *. fold n in Hf, Va. clearbody n.
  pose proof (fold_int (P - 1) (fun j => nthd f (Z.to_nat j)) (fun j => (2 * a (Z.to_nat j))%Z) (map (fun k => (1 + Z.of_nat k)%Z) (seq 0 (n - 2))) ltac:(lia)
    (Bdiv mode_NE (Bplus mode_NE (nthd f 0) (nthd f (n - 1))) (nofZ DA 2)) (a 0%nat + a (n - 1)%nat)%Z) as A.
  rewrite !zsum_iter in A. cbn [Z.abs] in A.
  rewrite (ztotal_ext (fun i => Z.abs (2 * a (Z.to_nat (Z.of_nat (S i))))) (fun i => 2 * Z.abs (a (S i)))%Z) in A by (intros i _; rewrite Nat2Z.id; lia).
  rewrite (ztotal_ext (fun i => 2 * a (Z.to_nat (Z.of_nat (S i))))%Z (fun i => 2 * a (S i))%Z) in A by (intros i _; rewrite Nat2Z.id; lia).
  assert (H0 : (0 <= ztotal (fun i => 2 * Z.abs (a (S i))) (n - 2))%Z) by (clear; induction (n - 2)%nat as [|m IH]; cbn [ztotal]; lia).
  assert (B : Int (P - 1) (fold_left (fun s j => Bplus mode_NE s (nthd f (Z.to_nat j))) (map (fun k => (1 + Z.of_nat k)%Z) (seq 0 (n - 2))) (Bdiv mode_NE (Bplus mode_NE (nthd f 0) (nthd f (n - 1))) (nofZ DA 2)))
    (a 0%nat + a (n - 1)%nat + ztotal (fun i => 2 * a (S i)) (n - 2))%Z).
  { apply A.
    - apply int_half; [exact HP|lia|]. apply int_add; [lia|lia|intros _; apply (Va 0%nat); lia|intros _; apply (Va (n - 1)%nat); lia].
    - intros j Hj. apply in_map_iff in Hj. destruct Hj as (i & <- & Hi). apply in_seq in Hi. intros _. replace (Z.to_nat (1 + Z.of_nat i)) with (S i) by lia.
      pose proof (Va (S i) ltac:(lia)) as W. unfold val in W. rewrite W, mult_IZR. replace P with (1 + (P - 1))%Z at 1 by lia. rewrite bpow_plus. change (bpow radix2 1) with 2. ring.
    - exact Hs. }
  assert (D : Int Q (Bminus mode_NE (nthd v 1) (nthd v 0)) (b1 - b0)) by (apply int_sub; [exact HQ|exact Hb|intros _; exact V1|intros _; exact V0]).
  eapply eq_trans; [apply (int_mul (P - 1) _ _ Q _ _ ltac:(lia) Ht B D F)|].
  unfold uniform_trapezoid. rewrite V0, V1, (Va 0%nat), (Va (n - 1)%nat) by lia.
  rewrite mult_IZR, !plus_IZR, minus_IZR, ztotal_IZR.
  rewrite (total_ext (fun i => val f (S i)) (fun i => bpow radix2 (P - 1) * IZR (2 * a (S i)))).
  2:{ intros i Hi. rewrite (Va (S i)) by lia. rewrite mult_IZR. replace P with (1 + (P - 1))%Z at 1 by lia. rewrite bpow_plus. change (bpow radix2 1) with 2. ring. }
  rewrite total_scal. replace (P - 1 + Q)%Z with (P + (- (1) + Q))%Z by lia. replace (P - 1)%Z with (P + - (1))%Z by lia. rewrite !bpow_plus. change (bpow radix2 (- (1))) with (/ 2). field.
Qed.
