From Coq Require Import Reals Lra Psatz.
From Coquelicot Require Import Coquelicot.
From Verif Require Import Stab_Proofs Stat_Spec.
Local Open Scope R_scope.

Lemma daughters_rate_char : forall g2 g3 w2 w3 eta d A s, w2 * eta * A <> 0 ->
  (daughters_rate g2 g3 w2 w3 eta d A s <->
   ((s - RtoC g2) * (s - RtoC g3 + Ci * RtoC d) = RtoC (4 * w2 * w3 * eta^2 * A^2))%C).
Proof.
  intros g2 g3 w2 w3 eta d A s Hk. unfold daughters_rate.
  assert (I2 : (Ci * Ci = - (1))%C) by (apply injective_projections; simpl; ring).
  assert (K : RtoC (4 * w2 * w3 * eta^2 * A^2) = (RtoC (2 * w2 * eta * A) * RtoC (2 * w3 * eta * A))%C) by (rewrite <- RtoC_mult; f_equal; ring).
  assert (Ck : RtoC (2 * w2 * eta * A) <> 0%C) by (intros E; injection E; lra).
  assert (Cin : Ci <> 0%C) by (intros E; injection E; lra).
  assert (Ckk : (RtoC (2 * w2 * eta * A) * Ci <> 0)%C) by (apply Cmult_neq_0; assumption).
  rewrite K. set (k2 := RtoC (2 * w2 * eta * A)) in *. set (k3 := RtoC (2 * w3 * eta * A)) in *.
  split.
  - intros (u & v & N & E1 & E2).
    assert (F1 : ((s - g2) * u = k2 * Ci * v)%C).
    { transitivity (s * u - g2 * u)%C; [ring|]. rewrite E1. ring. }
    assert (F2 : ((s - g3 + Ci * d) * v = - (k3 * Ci * u))%C).
    { transitivity (s * v - (g3 - Ci * d) * v)%C; [ring|]. rewrite E2. ring. }
    assert (U : u <> 0%C).
    { intros U. destruct N as [N|N]; [contradiction|]. apply N. rewrite U in F1.
      destruct (Ceq_dec v 0%C) as [V|V]; [exact V|]. exfalso. apply (Cmult_neq_0 _ _ Ckk V). rewrite <- F1. ring. }
    assert (Z : (((s - g2) * (s - g3 + Ci * d) - k2 * k3) * u = 0)%C).
    { transitivity ((s - g3 + Ci * d) * ((s - g2) * u) - k2 * k3 * u)%C; [ring|]. rewrite F1.
      transitivity (k2 * Ci * ((s - g3 + Ci * d) * v) - k2 * k3 * u)%C; [ring|]. rewrite F2.
      transitivity (- (k2 * k3 * u) * (Ci * Ci) - k2 * k3 * u)%C; [ring|]. rewrite I2. ring. }
    destruct (Ceq_dec ((s - g2) * (s - g3 + Ci * d) - k2 * k3)%C 0%C) as [E|E].
    + transitivity ((s - g2) * (s - g3 + Ci * d) - k2 * k3 + k2 * k3)%C; [ring|]. rewrite E. ring.
    + exfalso. exact (Cmult_neq_0 _ _ E U Z).
  - intros E. exists (k2 * Ci)%C, (s - g2)%C. split; [left; exact Ckk|]. split; [ring|].
    transitivity ((s - g2) * (s - g3 + Ci * d) + (g3 - Ci * d) * (s - g2))%C; [ring|]. rewrite E.
    transitivity ((g3 - Ci * d) * (s - g2) - (k2 * k3) * (- (1)))%C; [ring|]. rewrite <- I2. ring.
Qed.

Definition thr (a b d x : R) : R := (x + a) * (x + b) * (1 + d^2 / (2 * x + a + b)^2).

Lemma thr_alt : forall a b d x, 2 * x + a + b <> 0 ->
  thr a b d x = (x + a) * (x + b) + d^2 / 4 * (1 - (a - b)^2 / (2 * x + a + b)^2).
Proof. intros. unfold thr. field. assumption. Qed.

Lemma thr_incr : forall a b d x, 0 < a -> 0 < b -> 0 < x -> thr a b d 0 < thr a b d x.
Proof.
  intros a b d x Ha Hb Hx. rewrite !thr_alt by lra.
  assert (H1 : (0 + a) * (0 + b) < (x + a) * (x + b)) by nra.
  assert (H2 : (a - b)^2 / (2 * x + a + b)^2 <= (a - b)^2 / (2 * 0 + a + b)^2).
  { unfold Rdiv. apply Rmult_le_compat_l; [apply pow2_ge_0|]. apply Rinv_le_contravar; [apply pow_lt; lra|]. apply pow_incr. lra. }
  assert (H3 : 0 <= d^2) by apply pow2_ge_0.
  assert (d^2 / 4 * (1 - (a - b)^2 / (2 * 0 + a + b)^2) <= d^2 / 4 * (1 - (a - b)^2 / (2 * x + a + b)^2)); [|lra].
  apply Rmult_le_compat_l; lra.
Qed.

Lemma thr_root : forall a b d K s, 0 < a -> 0 < b -> 0 <= Re s ->
  ((s + RtoC a) * (s + RtoC b + Ci * RtoC d) = RtoC K)%C -> K = thr a b d (Re s).
Proof.
  intros a b d K [x y] Ha Hb Hx E. simpl in Hx. injection E. simpl. intros Eim Ere.
  assert (Y : y = - (x + a) * d / (2 * x + a + b)).
  { apply Rmult_eq_reg_r with (2 * x + a + b); [|lra]. unfold Rdiv. rewrite Rmult_assoc, Rinv_l by lra. lra. }
  assert (Ere' : K = (x + a) * (x + b) - y * (y + d)) by lra. rewrite Ere', Y. unfold thr. simpl. field. lra.
Qed.

Lemma thr_exists : forall a b d K, 0 < a -> 0 < b -> thr a b d 0 < K ->
  exists s : C, 0 < Re s /\ ((s + RtoC a) * (s + RtoC b + Ci * RtoC d) = RtoC K)%C.
Proof.
  intros a b d K Ha Hb HK.
  assert (P0 : 0 < thr a b d 0).
  { unfold thr. assert (0 <= d^2 / (2 * 0 + a + b)^2); [|apply Rmult_lt_0_compat; [apply Rmult_lt_0_compat|]; lra].
    apply Rmult_le_pos; [apply pow2_ge_0|]. apply Rlt_le, Rinv_0_lt_compat, pow_lt. lra. }
  assert (Dn : forall x, 0 <= x -> 0 < (2 * x + a + b)^2) by (intros; apply pow_lt; lra).
  assert (F : forall x, 0 <= x -> K * (2 * x + a + b)^2 - (x + a) * (x + b) * ((2 * x + a + b)^2 + d^2) = (K - thr a b d x) * (2 * x + a + b)^2).
  { intros x Hx. unfold thr. field. lra. }
  destruct (ivt_down (fun x => K * (2 * x + a + b)^2 - (x + a) * (x + b) * ((2 * x + a + b)^2 + d^2)) (K + 1)) as (x & Hx & Ex).
  - intros x. apply derivable_continuous_pt. apply ex_derive_Reals_0. auto_derive. trivial.
  - lra.
  - rewrite F by lra. apply Rlt_le, Rmult_lt_0_compat; [lra|apply Dn; lra].
  - rewrite F by lra. assert (K < thr a b d (K + 1)).
    { assert (0 <= d^2 / (2 * (K + 1) + a + b)^2).
      { apply Rmult_le_pos; [apply pow2_ge_0|]. apply Rlt_le, Rinv_0_lt_compat, pow_lt. lra. }
      unfold thr. apply Rlt_le_trans with ((K + 1 + a) * (K + 1 + b) * 1); [nra|]. apply Rmult_le_compat_l; [apply Rmult_le_pos|]; lra. }
    assert (0 < (thr a b d (K + 1) - K) * (2 * (K + 1) + a + b)^2) by (apply Rmult_lt_0_compat; [lra|apply Dn; lra]). lra.
  - cbv beta in Ex. rewrite F in Ex by exact Hx. assert (D := Dn x Hx).
    assert (T : K = thr a b d x) by (apply Rmult_integral in Ex; lra).
    assert (X : 0 < x) by (destruct Hx as [?|<-]; [assumption|lra]).
    exists (x, - (x + a) * d / (2 * x + a + b)). split; [exact X|].
    rewrite T. unfold thr. apply injective_projections; simpl; field; lra.
Qed.

Lemma threshold_iff : forall g2 g3 w2 w3 eta d A, g2 < 0 -> g3 < 0 -> w2 * eta * A <> 0 ->
  ((exists s, daughters_rate g2 g3 w2 w3 eta d A s /\ 0 < Re s) <->
   g2 * g3 * (1 + (d / (g2 + g3))^2) < 4 * w2 * w3 * eta^2 * A^2).
Proof.
  intros g2 g3 w2 w3 eta d A H2 H3 Hk.
  assert (T0 : g2 * g3 * (1 + (d / (g2 + g3))^2) = thr (- g2) (- g3) d 0) by (unfold thr; field; lra). rewrite T0.
  assert (E : forall s, ((s - g2) * (s - g3 + Ci * d) = (s + RtoC (- g2)) * (s + RtoC (- g3) + Ci * d))%C) by (intros; rewrite !RtoC_opp; ring).
  split.
  - intros (s & Hs & Rs). rewrite daughters_rate_char in Hs by exact Hk. rewrite E in Hs. apply thr_root in Hs; try lra. rewrite Hs. apply thr_incr; lra.
  - intros H. apply thr_exists in H; try lra. destruct H as (s & Rs & Es). exists s. split; [|exact Rs].
    rewrite daughters_rate_char by exact Hk. rewrite E. exact Es.
Qed.
