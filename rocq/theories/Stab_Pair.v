From Coq Require Import Reals Lra Psatz Bool.
From Coquelicot Require Import Coquelicot.
From Verif Require Import Stab_Model Stab_Spec Stab_Proofs Stab_Jac.
Local Open Scope R_scope.

Definition pairJ (g1 g2 A1 A2 q : R) : mat := fun i j =>
  match i, j with
  | 0%nat, 0%nat => g1
  | 0%nat, 1%nat => - 2 * g1 * A1 / A2
  | 0%nat, _ => q * g1 * A1
  | 1%nat, 0%nat => - g2 * A2 / A1
  | 1%nat, 1%nat => 0
  | 1%nat, _ => q * g2 * A2
  | _, 0%nat => q * (2 * g2 - g1) / A1
  | _, 1%nat => 2 * q * g1 / A2
  | _, _ => g1 + 2 * g2
  end.

Lemma pairJ_charpoly : forall g1 g2 A1 A2 q, A1 <> 0 -> A2 <> 0 -> forall l,
  det3 (shifted (pairJ g1 g2 A1 A2 q) l) =
  (- cubic (-2 * (g1 + g2)) (g1^2 * (1 + q^2) - 4 * q^2 * g1 * g2) (2 * (g1 + 2 * g2) * g1 * g2 * (1 + q^2)) l)%C.
Proof.
  intros g1 g2 A1 A2 q H1 H2 l. apply RtoC_neq0 in H1 as K1. apply RtoC_neq0 in H2 as K2.
  unfold shifted, pairJ, det3, det2, cubic. cbn [Nat.eqb]. unfold Rdiv, pow. Cpush.
  generalize dependent (RtoC A1). intros. generalize dependent (RtoC A2). intros.
  generalize (RtoC g1) (RtoC g2) (RtoC q). intros. field. repeat split; assumption.
Qed.

Lemma pair_facts : forall g1 g2 k1 k2 d v, g1 <> 0 -> k1 <> 0 -> k2 <> 0 -> 0 < v 0%nat -> 0 < v 1%nat ->
  (forall i, (i < 3)%nat -> ae2 g1 g2 k1 k2 d v i = 0) ->
  sin (v 2%nat) <> 0 /\ k1 = - (g1 * v 0%nat) / (v 1%nat ^ 2 * sin (v 2%nat)) /\ k2 = g2 / (v 0%nat * sin (v 2%nat)) /\
  d = - (cos (v 2%nat) / sin (v 2%nat)) * (g1 + 2 * g2).
Proof.
  intros g1 g2 k1 k2 d v Hg Hk1 Hk2 A1 A2 H.
  assert (E0 := H 0%nat ltac:(auto)). assert (E1 := H 1%nat ltac:(auto)). assert (E2 := H 2%nat ltac:(auto)). unfold ae2 in E0, E1, E2.
  assert (S : sin (v 2%nat) <> 0).
  { intros S. rewrite S in E0. assert (E : g1 * v 0%nat = 0) by lra. apply Rmult_integral in E. destruct E; [contradiction|lra]. }
  assert (V : v 1%nat ^ 2 <> 0) by (apply pow_nonzero; lra).
  assert (K1 : k1 = - (g1 * v 0%nat) / (v 1%nat ^ 2 * sin (v 2%nat))).
  { apply Rmult_eq_reg_r with (v 1%nat ^ 2 * sin (v 2%nat)); [|apply Rmult_integral_contrapositive_currified; assumption]. field_simplify; [lra|repeat split; lra]. }
  assert (K2 : k2 = g2 / (v 0%nat * sin (v 2%nat))).
  { apply Rmult_eq_reg_r with (v 1%nat * v 0%nat * sin (v 2%nat)); [|repeat apply Rmult_integral_contrapositive_currified; lra]. field_simplify; [lra|repeat split; lra]. }
  repeat split; try assumption. rewrite K1, K2 in E2.
  match type of E2 with - d + ?e = 0 => transitivity e; [lra|] end. field. repeat split; lra.
Qed.

Lemma pair_jacobian_exists : forall g1 g2 k1 k2 d v, g1 <> 0 -> k1 <> 0 -> k2 <> 0 -> 0 < v 0%nat -> 0 < v 1%nat ->
  (forall i, (i < 3)%nat -> ae2 g1 g2 k1 k2 d v i = 0) ->
  jacobian 3 (ae2 g1 g2 k1 k2 d) v (pairJ g1 g2 (v 0%nat) (v 1%nat) (- (cos (v 2%nat) / sin (v 2%nat)))).
Proof.
  intros g1 g2 k1 k2 d v Hg Hk1 Hk2 A1 A2 H i j Hi Hj.
  destruct (pair_facts g1 g2 k1 k2 d v Hg Hk1 Hk2 A1 A2 H) as (S & K1 & K2 & _).
  clear H.
  destruct i as [|[|[|i]]]; [| | |exfalso; apply PeanoNat.Nat.lt_irrefl with 3%nat; eapply PeanoNat.Nat.le_lt_trans; [|exact Hi]; auto with arith];
  (destruct j as [|[|[|j]]]; [| | |exfalso; apply PeanoNat.Nat.lt_irrefl with 3%nat; eapply PeanoNat.Nat.le_lt_trans; [|exact Hj]; auto with arith]);
  unfold ae2, setc, pairJ; cbn [Nat.eqb]; (auto_derive; [repeat split; try trivial; lra|]);
  rewrite ?K1, ?K2; field; repeat split; lra.
Qed.

Lemma pair_jacobian : forall g1 g2 k1 k2 d v J, g1 <> 0 -> k1 <> 0 -> k2 <> 0 -> 0 < v 0%nat -> 0 < v 1%nat ->
  (forall i, (i < 3)%nat -> ae2 g1 g2 k1 k2 d v i = 0) -> jacobian 3 (ae2 g1 g2 k1 k2 d) v J ->
  forall i j, (i < 3)%nat -> (j < 3)%nat -> J i j = pairJ g1 g2 (v 0%nat) (v 1%nat) (- (cos (v 2%nat) / sin (v 2%nat))) i j.
Proof.
  intros g1 g2 k1 k2 d v J Hg Hk1 Hk2 A1 A2 H HJ i j Hi Hj.
  assert (X := pair_jacobian_exists g1 g2 k1 k2 d v Hg Hk1 Hk2 A1 A2 H i j Hi Hj).
  specialize (HJ i j Hi Hj). apply is_derive_unique in HJ. apply is_derive_unique in X. congruence.
Qed.

Definition theta_of (g1 g2 : R) := - g2 / g1.

Lemma pairJ_decaying_iff : forall g1 g2 A1 A2 q, A1 <> 0 -> A2 <> 0 ->
  (decaying3 (pairJ g1 g2 A1 A2 q) <->
   0 < -2 * (g1 + g2) /\ 0 < 2 * (g1 + 2 * g2) * g1 * g2 * (1 + q^2) /\
   0 < -2 * (g1 + g2) * (g1^2 * (1 + q^2) - 4 * q^2 * g1 * g2) - 2 * (g1 + 2 * g2) * g1 * g2 * (1 + q^2)).
Proof.
  intros g1 g2 A1 A2 q H1 H2. unfold decaying3, eigenvalue3.
  assert (E : forall l, det3 (shifted (pairJ g1 g2 A1 A2 q) l) = 0%C <->
    cubic (-2 * (g1 + g2)) (g1^2 * (1 + q^2) - 4 * q^2 * g1 * g2) (2 * (g1 + 2 * g2) * g1 * g2 * (1 + q^2)) l = 0%C).
  { intros l. rewrite pairJ_charpoly by assumption. split; intros H.
    - transitivity (- - cubic (-2 * (g1 + g2)) (g1^2 * (1 + q^2) - 4 * q^2 * g1 * g2) (2 * (g1 + 2 * g2) * g1 * g2 * (1 + q^2)) l)%C; [ring|rewrite H; ring].
    - rewrite H. ring. }
  split.
  - intros D.
    assert (X : forall P, (~ P -> exists l, cubic (-2 * (g1 + g2)) (g1^2 * (1 + q^2) - 4 * q^2 * g1 * g2) (2 * (g1 + 2 * g2) * g1 * g2 * (1 + q^2)) l = 0%C /\ 0 <= Re l) -> ~ ~ P).
    { intros P H N. destruct (H N) as (l & El & Rl). apply E in El. apply D in El. lra. }
    assert (P0 : 0 < 2 * (g1 + 2 * g2) * g1 * g2 * (1 + q ^ 2)).
    { destruct (Rlt_dec 0 (2 * (g1 + 2 * g2) * g1 * g2 * (1 + q ^ 2))) as [H|H]; [exact H|exfalso].
      apply (X False); [|tauto]. intros _. apply RH3_a0. lra. }
    split; [|split; [exact P0|]].
    + destruct (Rlt_dec 0 (-2 * (g1 + g2))) as [H|H]; [exact H|exfalso].
      apply (X False); [|tauto]. intros _. apply RH3_a2; [lra|exact P0].
    + match goal with |- 0 < ?t => destruct (Rlt_dec 0 t) as [H|H]; [exact H|exfalso] end.
      apply (X False); [|tauto]. intros _. apply RH3_H. lra.
  - intros (P2 & P0 & PH) l El. apply E in El. revert El. apply RH3; assumption.
Qed.

(** direct resonance: g1 < 0 < g2 *)
Lemma pair_direct_iff : forall g1 g2 A1 A2 q, A1 <> 0 -> A2 <> 0 -> g1 < 0 -> 0 < g2 ->
  (decaying3 (pairJ g1 g2 A1 A2 q) <-> theta_of g1 g2 < 1 / 2).
Proof.
  intros g1 g2 A1 A2 q H1 H2 G1 G2. rewrite pairJ_decaying_iff by assumption.
  assert (T : theta_of g1 g2 < 1/2 <-> g1 + 2 * g2 < 0).
  { unfold theta_of. replace (- g2 / g1) with (g2 / (- g1)) by (field; lra).
    split; intros H.
    - apply Rmult_lt_compat_r with (r := - g1) in H; [|lra]. unfold Rdiv in H. rewrite Rmult_assoc, Rinv_l in H by lra. lra.
    - apply Rmult_lt_reg_r with (- g1); [lra|]. unfold Rdiv. rewrite Rmult_assoc, Rinv_l by lra. lra. }
  rewrite T. assert (Q : 0 < 1 + q^2) by nra. split.
  - intros (_ & P0 & _). destruct (Rlt_dec (g1 + 2 * g2) 0) as [H|H]; [exact H|exfalso]. apply Rnot_lt_le in H.
    assert (0 <= (g1 + 2 * g2) * (- g1) * g2 * (1 + q^2)); [|lra]. repeat apply Rmult_le_pos; lra.
  - intros H. split; [lra|]. split.
    + replace (2 * (g1 + 2 * g2) * g1 * g2 * (1 + q^2)) with (2 * ((- (g1 + 2 * g2)) * (- g1) * g2 * (1 + q^2))) by ring.
      apply Rmult_lt_0_compat; [lra|]. repeat apply Rmult_lt_0_compat; lra.
    + (* with a = -g1, b = g2, a > 2b *)
      set (a := - g1). replace g1 with (- a) by (unfold a; ring). assert (Ha : 0 < a) by (unfold a; lra). assert (Hab : 2 * g2 < a) by (unfold a; lra).
      replace (-2 * (- a + g2) * ((- a)^2 * (1 + q^2) - 4 * q^2 * (- a) * g2) - 2 * (- a + 2 * g2) * - a * g2 * (1 + q^2))
        with (2 * a * ((a^2 - 2 * a * g2 + 2 * g2^2) + q^2 * (a^2 + 2 * a * g2 - 2 * g2^2))) by ring.
      assert (0 < a^2 - 2 * a * g2 + 2 * g2^2) by nra. assert (0 <= q^2 * (a^2 + 2 * a * g2 - 2 * g2^2)) by (apply Rmult_le_pos; nra).
      apply Rmult_lt_0_compat; lra.
Qed.

(** parametric resonance: g2 < 0 < g1 *)
Lemma pair_parametric_iff : forall g1 g2 A1 A2 q, A1 <> 0 -> A2 <> 0 -> 0 < g1 -> g2 < 0 ->
  let t := theta_of g1 g2 in
  (decaying3 (pairJ g1 g2 A1 A2 q) <->
   0 < 2 * t * (t - 1) - 1 /\ 1 < t /\ 2 * t * (t - 1) + 1 < q^2 * (2 * t * (t - 1) - 1)).
Proof.
  intros g1 g2 A1 A2 q H1 H2 G1 G2 t. rewrite pairJ_decaying_iff by assumption.
  assert (E : g2 = - t * g1) by (unfold t, theta_of; field; lra).
  assert (T : 0 < t) by (unfold t, theta_of; apply Rdiv_lt_0_compat; lra).
  rewrite E. clearbody t. clear E G2 g2. assert (Q : 0 < 1 + q^2) by nra.
  assert (P3 : 0 < 2 * g1^3) by (assert (0 < g1^3) by (apply pow_lt, G1); lra).
  assert (EH : -2 * (g1 + - t * g1) * (g1 ^ 2 * (1 + q ^ 2) - 4 * q ^ 2 * g1 * (- t * g1)) - 2 * (g1 + 2 * (- t * g1)) * g1 * (- t * g1) * (1 + q ^ 2)
    = 2 * g1^3 * (q^2 * (2 * t * (t - 1) - 1) - (2 * t * (t - 1) + 1))) by ring.
  rewrite EH. split.
  - intros (P2 & P0 & PH).
    assert (T1 : 1 < t) by nra.
    assert (PH' : 0 < q^2 * (2 * t * (t - 1) - 1) - (2 * t * (t - 1) + 1)).
    { apply Rmult_lt_reg_l with (2 * g1^3); [exact P3|]. lra. }
    assert (0 < t * (t - 1)) by (apply Rmult_lt_0_compat; lra).
    split; [|split; [exact T1|lra]].
    destruct (Rlt_dec 0 (2 * t * (t - 1) - 1)) as [H0|H0]; [exact H0|exfalso]. assert (0 <= q^2) by nra. nra.
  - intros (Hn & T1 & Hq). split; [nra|]. split.
    + replace (2 * (g1 + 2 * (- t * g1)) * g1 * (- t * g1) * (1 + q ^ 2)) with (2 * g1^3 * (t * (2 * t - 1) * (1 + q^2))) by ring.
      apply Rmult_lt_0_compat; [exact P3|]. repeat apply Rmult_lt_0_compat; lra.
    + apply Rmult_lt_0_compat; [exact P3|lra].
Qed.

(** theta > (1 + sqrt 3)/2 is exactly theta > 1 and a positive denominator *)
Lemma min_theta_iff : forall t, (1 + sqrt 3) / 2 < t <-> 1 < t /\ 0 < 2 * t * (t - 1) - 1.
Proof.
  intros t. assert (S3 : sqrt 3 * sqrt 3 = 3) by (apply sqrt_sqrt; lra). assert (P : 0 < sqrt 3) by (apply sqrt_lt_R0; lra).
  assert (S1 : 1 < sqrt 3) by nra. split.
  - intros H. split; [nra|]. assert (0 < (2 * t - 1 - sqrt 3) * (2 * t - 1 + sqrt 3)) by (apply Rmult_lt_0_compat; lra). nra.
  - intros [H1 H2]. destruct (Rlt_dec ((1 + sqrt 3) / 2) t) as [H|H]; [exact H|exfalso]. nra.
Qed.
