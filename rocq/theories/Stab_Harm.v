(** * The 3x3 matrix used for harmonic pairs: characteristic polynomial. *)
From Coq Require Import Reals Lra Psatz Bool.
From Coquelicot Require Import Coquelicot.
From Verif Require Import Stab_Model Stab_Spec Stab_Proofs Stab_Jac Stab_Pair.
Local Open Scope R_scope.

Definition tr3 (M : mat) : R := M 0%nat 0%nat + M 1%nat 1%nat + M 2%nat 2%nat.
Definition e3 (M : mat) : R :=
  M 0%nat 0%nat * M 1%nat 1%nat - M 0%nat 1%nat * M 1%nat 0%nat + M 0%nat 0%nat * M 2%nat 2%nat - M 0%nat 2%nat * M 2%nat 0%nat
  + M 1%nat 1%nat * M 2%nat 2%nat - M 1%nat 2%nat * M 2%nat 1%nat.
Definition d3 (M : mat) : R :=
  M 0%nat 0%nat * (M 1%nat 1%nat * M 2%nat 2%nat - M 1%nat 2%nat * M 2%nat 1%nat)
  - M 0%nat 1%nat * (M 1%nat 0%nat * M 2%nat 2%nat - M 1%nat 2%nat * M 2%nat 0%nat)
  + M 0%nat 2%nat * (M 1%nat 0%nat * M 2%nat 1%nat - M 1%nat 1%nat * M 2%nat 0%nat).
Lemma charpoly3 M l : det3 (shifted M l) = (- cubic (- tr3 M) (e3 M) (- d3 M) l)%C.
Proof.
  unfold shifted, det3, det2, cubic, tr3, e3, d3. cbn [Nat.eqb]. repeat first [rewrite RtoC_plus|rewrite RtoC_minus|rewrite RtoC_mult|rewrite RtoC_opp].
  generalize (RtoC (M 0%nat 0%nat)) (RtoC (M 0%nat 1%nat)) (RtoC (M 0%nat 2%nat)) (RtoC (M 1%nat 0%nat)) (RtoC (M 1%nat 1%nat)) (RtoC (M 1%nat 2%nat)) (RtoC (M 2%nat 0%nat)) (RtoC (M 2%nat 1%nat)) (RtoC (M 2%nat 2%nat)). intros. ring.
Qed.
Lemma sqrt_is x y : 0 <= y -> y * y = x -> sqrt x = y.
Proof. intros H <-. apply sqrt_square. exact H. Qed.
Lemma jac3_products g w q eta : 0 < g 0%nat -> g 1%nat < 0 -> 0 < w 0%nat -> 0 < w 1%nat -> q <> 0 -> eta <> 0 ->
  let M := jac3 g w q eta in let a := g 0%nat in let b := g 1%nat in let G := sum3 g in
  M 0%nat 1%nat * M 1%nat 0%nat = sqrt 2 * (a * b) /\ M 0%nat 2%nat * M 2%nat 0%nat = q ^ 2 * a * (G - 2 * a) /\
  M 1%nat 2%nat * M 2%nat 1%nat = 2 * q ^ 2 * a * b /\
  M 0%nat 1%nat * M 1%nat 2%nat * M 2%nat 0%nat = - (sqrt 2 * q ^ 2 * a * b * (G - 2 * a)) /\
  M 0%nat 2%nat * M 1%nat 0%nat * M 2%nat 1%nat = - (2 * q ^ 2 * a ^ 2 * b).
Proof.
  intros G0 G1 W0 W1 Hq He M a b G.
  set (p := sqrt (g 0%nat)). set (r := sqrt (- g 1%nat)). set (x := sqrt (w 0%nat)). set (y := sqrt (w 1%nat)). set (t := sqrt 2).
  assert (P0 : 0 < p) by (apply sqrt_lt_R0; lra). assert (R0 : 0 < r) by (apply sqrt_lt_R0; lra).
  assert (X0 : 0 < x) by (apply sqrt_lt_R0; lra). assert (Y0 : 0 < y) by (apply sqrt_lt_R0; lra). assert (T0 : 0 < t) by (apply sqrt_lt_R0; lra).
  assert (P2 : g 0%nat = p * p) by (symmetry; apply sqrt_sqrt; lra). assert (R2 : g 1%nat = - (r * r)) by (assert (r * r = - g 1%nat) by (apply sqrt_sqrt; lra); lra).
  assert (X2 : w 0%nat = x * x) by (symmetry; apply sqrt_sqrt; lra). assert (Y2 : w 1%nat = y * y) by (symmetry; apply sqrt_sqrt; lra).
  assert (T2 : t * t = 2) by (apply sqrt_sqrt; lra).
  assert (Q1 : 0 < 1 + q ^ 2) by (assert (0 <= q ^ 2) by apply pow2_ge_0; lra).
  set (z := sqrt (1 + q ^ 2)). assert (Z0 : 0 < z) by (apply sqrt_lt_R0; exact Q1).
  assert (S1 : sqrt (- (g 0%nat * w 0%nat) * (g 1%nat / w 1%nat)) = p * x * r / y).
  { apply sqrt_is; [apply Rlt_le; unfold Rdiv; repeat apply Rmult_lt_0_compat; try assumption; apply Rinv_0_lt_compat; assumption|]. rewrite P2, R2, X2, Y2. field. lra. }
  assert (S2 : sqrt (-2 * (g 0%nat / w 0%nat) * (g 1%nat * w 1%nat)) = t * p * r * y / x).
  { apply sqrt_is; [apply Rlt_le; unfold Rdiv; repeat apply Rmult_lt_0_compat; try assumption; apply Rinv_0_lt_compat; assumption|]. rewrite P2, R2, X2, Y2.
    transitivity ((t * t) * (p * r * y / x) * (p * r * y / x)); [field; lra|]. rewrite T2. field. lra. }
  assert (S3 : sqrt (-2 * (g 0%nat / w 0%nat) * (g 1%nat / w 1%nat)) = t * p * r / (x * y)).
  { apply sqrt_is; [apply Rlt_le; unfold Rdiv; repeat apply Rmult_lt_0_compat; try assumption; apply Rinv_0_lt_compat; apply Rmult_lt_0_compat; assumption|]. rewrite P2, R2, X2, Y2.
    transitivity ((t * t) * (p * r / (x * y)) * (p * r / (x * y))); [field; lra|]. rewrite T2. field. lra. }
  assert (S4 : sqrt (-2 * (g 0%nat * w 0%nat) / (g 1%nat / w 1%nat)) = t * p * x * y / r).
  { apply sqrt_is; [apply Rlt_le; unfold Rdiv; repeat apply Rmult_lt_0_compat; try assumption; apply Rinv_0_lt_compat; assumption|]. rewrite P2, R2, X2, Y2.
    transitivity ((t * t) * (p * x * y / r) * (p * x * y / r)); [field; lra|]. rewrite T2. field. repeat split; lra. }
  subst M. cbv beta iota zeta delta [jac3]. rewrite S1, S2, S3, S4. fold z. subst a b. fold G. rewrite P2, R2, Y2.
  assert (Zn : z <> 0) by lra. assert (rn : r <> 0) by lra. assert (pn : p <> 0) by lra. assert (xn : x <> 0) by lra. assert (yn : y <> 0) by lra.
  assert (Hr : - (r * r) <> 0) by (intros E; apply rn; nra).
  repeat split.
  - field. repeat split; assumption.
  - field. repeat split; assumption.
  - transitivity (- (t * t) * q ^ 2 * (p * p) * (r * r)); [field; repeat split; assumption|rewrite T2; ring].
  - field. repeat split; assumption.
  - transitivity ((t * t) * q ^ 2 * (p * p) * (p * p) * (r * r)); [field; repeat split; assumption|rewrite T2; ring].
Qed.
