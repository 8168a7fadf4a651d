From Coq Require Import Reals Lra Psatz Bool.
From Coquelicot Require Import Coquelicot.
From Verif Require Import Stab_Model Stab_Spec Stab_Proofs.
Local Open Scope R_scope.

(** Jacobian with amplitude entries of sign s (the true one has s = -1). *)
Definition triadJ (s : R) (g A : vec) (q : R) : mat := fun i j =>
  match i, j with
  | 3%nat, 3%nat => sum3 g
  | 3%nat, j => q * (sum3 g - 2 * g j) / A j
  | i, 3%nat => q * g i * A i
  | i, j => if Nat.eqb i j then g i else s * g i * A i / A j
  end.

Lemma RtoC_neq0 : forall x, x <> 0 -> RtoC x <> 0%C.
Proof. intros x H E. apply H. injection E. auto. Qed.

Lemma C2 : RtoC 2 = (1 + 1)%C. Proof. rewrite <- RtoC_plus. f_equal; lra. Qed.
Lemma C3 : RtoC 3 = (1 + 1 + 1)%C. Proof. rewrite <- !RtoC_plus. f_equal; lra. Qed.
Lemma C4 : RtoC 4 = (1 + 1 + 1 + 1)%C. Proof. rewrite <- !RtoC_plus. f_equal; lra. Qed.
Lemma Cm1 : RtoC (-1) = (- (1))%C. Proof. rewrite <- !RtoC_opp. f_equal; lra. Qed.
Lemma Cm2 : RtoC (-2) = (- (1 + 1))%C. Proof. rewrite <- !RtoC_plus, <- RtoC_opp. f_equal; lra. Qed.
Lemma Cm4 : RtoC (-4) = (- (1 + 1 + 1 + 1))%C. Proof. rewrite <- !RtoC_plus, <- RtoC_opp. f_equal; lra. Qed.
Ltac Cpush := repeat first [rewrite RtoC_plus|rewrite RtoC_minus|rewrite RtoC_mult|rewrite RtoC_opp|rewrite RtoC_inv by assumption
  |rewrite C2|rewrite C3|rewrite C4|rewrite Cm1|rewrite Cm2|rewrite Cm4].

Lemma triadJ_charpoly : forall g A q, A 0%nat <> 0 -> A 1%nat <> 0 -> A 2%nat <> 0 -> forall l,
  let G := sum3 g in let P := g 0%nat * g 1%nat * g 2%nat in
  det4 (shifted (triadJ (-1) g A q) l) =
  quartic (-2 * G) (G^2 - q^2 * (G^2 - 2 * (g 0%nat^2 + g 1%nat^2 + g 2%nat^2))) (4 * P * (1 + 3 * q^2)) (-4 * P * G * (1 + q^2)) l.
Proof.
  intros g A q H1 H2 H3 l G P. apply RtoC_neq0 in H1 as K1. apply RtoC_neq0 in H2 as K2. apply RtoC_neq0 in H3 as K3.
  unfold det4, minor0, skip, shifted, triadJ, det3, det2, quartic. cbn [Nat.ltb Nat.leb Nat.eqb]. unfold P, G, sum3.
  unfold Rdiv, pow. 
  Cpush.
  generalize dependent (RtoC (A 0%nat)). intros. generalize dependent (RtoC (A 1%nat)). intros. generalize dependent (RtoC (A 2%nat)). intros.
  generalize (RtoC (g 0%nat)) (RtoC (g 1%nat)) (RtoC (g 2%nat)) (RtoC q). intros.
  field. repeat split; assumption.
Qed.

Lemma fixed_point_facts : forall g w eta d v, eta <> 0 -> g 0%nat <> 0 ->
  0 < v 0%nat -> 0 < v 1%nat -> 0 < v 2%nat -> (forall i, (i < 4)%nat -> ae3 g w eta d v i = 0) ->
  sin (v 3%nat) <> 0 /\
  w 0%nat = - (g 0%nat * v 0%nat) / (2 * eta * v 1%nat * v 2%nat * sin (v 3%nat)) /\
  w 1%nat = g 1%nat * v 1%nat / (2 * eta * v 0%nat * v 2%nat * sin (v 3%nat)) /\
  w 2%nat = g 2%nat * v 2%nat / (2 * eta * v 0%nat * v 1%nat * sin (v 3%nat)) /\
  d = - (cos (v 3%nat) / sin (v 3%nat)) * sum3 g.
Proof.
  intros g w eta d v He Hg A1 A2 A3 H.
  assert (E0 := H 0%nat ltac:(auto)). assert (E1 := H 1%nat ltac:(auto)). assert (E2 := H 2%nat ltac:(auto)). assert (E3 := H 3%nat ltac:(auto)).
  cbn in E0, E1, E2, E3.
  assert (S : sin (v 3%nat) <> 0).
  { intros S. rewrite S in E0. assert (g 0%nat * v 0%nat = 0) by lra. apply Rmult_integral in H0. destruct H0; [contradiction|lra]. }
  assert (W0 : w 0%nat = - (g 0%nat * v 0%nat) / (2 * eta * v 1%nat * v 2%nat * sin (v 3%nat))).
  { apply Rmult_eq_reg_r with (2 * eta * v 1%nat * v 2%nat * sin (v 3%nat));
      [|repeat apply Rmult_integral_contrapositive_currified; lra]. field_simplify; [lra|repeat split; lra]. }
  assert (W1 : w 1%nat = g 1%nat * v 1%nat / (2 * eta * v 0%nat * v 2%nat * sin (v 3%nat))).
  { apply Rmult_eq_reg_r with (2 * eta * v 0%nat * v 2%nat * sin (v 3%nat));
      [|repeat apply Rmult_integral_contrapositive_currified; lra]. field_simplify; [lra|repeat split; lra]. }
  assert (W2 : w 2%nat = g 2%nat * v 2%nat / (2 * eta * v 0%nat * v 1%nat * sin (v 3%nat))).
  { apply Rmult_eq_reg_r with (2 * eta * v 0%nat * v 1%nat * sin (v 3%nat));
      [|repeat apply Rmult_integral_contrapositive_currified; lra]. field_simplify; [lra|repeat split; lra]. }
  repeat split; try assumption.
  rewrite W0, W1, W2 in E3. unfold sum3.
  match type of E3 with - d + ?e = 0 => transitivity e; [lra|] end. field. repeat split; lra.
Qed.

Lemma fixed_point_jacobian_exists : forall g w eta d v, eta <> 0 -> g 0%nat <> 0 ->
  0 < v 0%nat -> 0 < v 1%nat -> 0 < v 2%nat -> (forall i, (i < 4)%nat -> ae3 g w eta d v i = 0) ->
  jacobian 4 (ae3 g w eta d) v (triadJ (-1) g v (- (cos (v 3%nat) / sin (v 3%nat)))).
Proof.
  intros g w eta d v He Hg A1 A2 A3 H i j Hi Hj.
  destruct (fixed_point_facts g w eta d v He Hg A1 A2 A3 H) as (S & W0 & W1 & W2 & _). clear H.
  destruct i as [|[|[|[|i]]]]; [| | | |exfalso; apply PeanoNat.Nat.lt_irrefl with 4%nat; eapply PeanoNat.Nat.le_lt_trans; [|exact Hi]; auto with arith];
  (destruct j as [|[|[|[|j]]]]; [| | | |exfalso; apply PeanoNat.Nat.lt_irrefl with 4%nat; eapply PeanoNat.Nat.le_lt_trans; [|exact Hj]; auto with arith]);
  unfold ae3, setc, triadJ; cbn [Nat.eqb]; unfold sum3; (auto_derive; [repeat split; try trivial; lra|]);
  rewrite ?W0, ?W1, ?W2; field; repeat split; lra.
Qed.
Lemma fixed_point_jacobian : forall g w eta d v J, eta <> 0 -> g 0%nat <> 0 ->
  0 < v 0%nat -> 0 < v 1%nat -> 0 < v 2%nat -> (forall i, (i < 4)%nat -> ae3 g w eta d v i = 0) ->
  jacobian 4 (ae3 g w eta d) v J ->
  forall i j, (i < 4)%nat -> (j < 4)%nat -> J i j = triadJ (-1) g v (- (cos (v 3%nat) / sin (v 3%nat))) i j.
Proof.
  intros g w eta d v J He Hg A1 A2 A3 H HJ i j Hi Hj.
  assert (X := fixed_point_jacobian_exists g w eta d v He Hg A1 A2 A3 H i j Hi Hj).
  specialize (HJ i j Hi Hj). apply is_derive_unique in HJ. apply is_derive_unique in X. congruence.
Qed.

(** ** Decay of all perturbations of a triad *)
Definition corrected_value (g : vec) (q : R) : R :=
  let rho2 := - g 1%nat / g 0%nat in
  let rho3 := - g 2%nat / g 0%nat in
  let rho23 := rho2 * rho3 in
  let rhos := 1 - rho2 - rho3 in
  let coeffq0 := rhos ^ 3 - 2 * rho23 in
  let coeffq2 := -12 * rho23 - rhos * ((rho2 - rho3) ^ 2 + (rho2 + rho3) ^ 2 + 2) in
  let coeffq4 := -18 * rho23 - (3 * rhos) * (rhos ^ 2 + 4 * (rho2 + rho3 - rho23)) in
  coeffq0 + coeffq2 * q ^ 2 + coeffq4 * q ^ 4.
Lemma corrected_value_spec : forall g q, corrected_dziembowski g q = true <-> 0 < corrected_value g q.
Proof. intros. unfold corrected_dziembowski. rewrite Rltb_spec. reflexivity. Qed.

Lemma hurwitz_is_corrected : forall g q, g 0%nat <> 0 ->
  let G := sum3 g in let P := g 0%nat * g 1%nat * g 2%nat in
  let a3 := -2 * G in let a2 := G^2 - q^2 * (G^2 - 2 * (g 0%nat^2 + g 1%nat^2 + g 2%nat^2)) in
  let a1 := 4 * P * (1 + 3 * q^2) in let a0 := -4 * P * G * (1 + q^2) in
  a1 * a2 * a3 - a1 ^ 2 - a3 ^ 2 * a0 = 8 * P * g 0%nat ^ 3 * corrected_value g q.
Proof. intros g q H G P a3 a2 a1 a0. unfold a0, a1, a2, a3, P, G, corrected_value, sum3. field. exact H. Qed.

Lemma det4_ext : forall M N, (forall i j, (i < 4)%nat -> (j < 4)%nat -> M i j = N i j) -> det4 M = det4 N.
Proof.
  intros M N H. unfold det4, det3, det2, minor0, skip. cbn [Nat.ltb Nat.leb]. rewrite !H by auto with arith. reflexivity.
Qed.
Lemma det3_ext : forall M N, (forall i j, (i < 3)%nat -> (j < 3)%nat -> M i j = N i j) -> det3 M = det3 N.
Proof. intros M N H. unfold det3, det2. rewrite !H by auto with arith. reflexivity. Qed.
Lemma eigenvalue4_ext : forall M N, (forall i j, (i < 4)%nat -> (j < 4)%nat -> M i j = N i j) -> forall l, eigenvalue4 M l <-> eigenvalue4 N l.
Proof. intros M N H l. unfold eigenvalue4. rewrite (det4_ext (shifted M l) (shifted N l)); [reflexivity|]. intros. unfold shifted. rewrite H by assumption. reflexivity. Qed.
Lemma eigenvalue3_ext : forall M N, (forall i j, (i < 3)%nat -> (j < 3)%nat -> M i j = N i j) -> forall l, eigenvalue3 M l <-> eigenvalue3 N l.
Proof. intros M N H l. unfold eigenvalue3. rewrite (det3_ext (shifted M l) (shifted N l)); [reflexivity|]. intros. unfold shifted. rewrite H by assumption. reflexivity. Qed.

Lemma decaying3_ext : forall M N, (forall i j, (i < 3)%nat -> (j < 3)%nat -> M i j = N i j) -> decaying3 M <-> decaying3 N.
Proof. intros M N H. unfold decaying3. split; intros D l El; apply D; revert El; apply eigenvalue3_ext; intros; [|symmetry]; apply H; assumption. Qed.

Lemma triadJ_decaying_iff : forall g A q, 0 < g 0%nat -> g 1%nat < 0 -> g 2%nat < 0 ->
  A 0%nat <> 0 -> A 1%nat <> 0 -> A 2%nat <> 0 ->
  (decaying4 (triadJ (-1) g A q) <-> sum3 g < 0 /\ 0 < corrected_value g q).
Proof.
  intros g A q G0 G1 G2 A0 A1 A2.
  assert (PP : 0 < g 0%nat * g 1%nat * g 2%nat).
  { replace (g 0%nat * g 1%nat * g 2%nat) with (g 0%nat * ((- g 1%nat) * (- g 2%nat))) by ring.
    apply Rmult_lt_0_compat; [assumption|apply Rmult_lt_0_compat; lra]. }
  assert (HQ : 0 < 1 + q^2) by nra. assert (HQ3 : 0 < 1 + 3 * q^2) by nra.
  assert (HH := hurwitz_is_corrected g q ltac:(lra)). cbv zeta in HH.
  assert (K : 0 < 8 * (g 0%nat * g 1%nat * g 2%nat) * g 0%nat ^ 3).
  { apply Rmult_lt_0_compat; [lra|apply pow_lt, G0]. }
  unfold decaying4, eigenvalue4. split.
  - intros D. split.
    + destruct (Rlt_dec (sum3 g) 0) as [H|H]; [exact H|exfalso]. apply Rnot_lt_le in H.
      edestruct (RH4_a0 (-2 * sum3 g) (sum3 g^2 - q^2 * (sum3 g^2 - 2 * (g 0%nat^2 + g 1%nat^2 + g 2%nat^2)))
        (4 * (g 0%nat * g 1%nat * g 2%nat) * (1 + 3 * q^2)) (-4 * (g 0%nat * g 1%nat * g 2%nat) * sum3 g * (1 + q^2))) as (l & El & Rl).
      * assert (0 <= (g 0%nat * g 1%nat * g 2%nat) * sum3 g * (1 + q^2)); [|lra].
        apply Rmult_le_pos; [apply Rmult_le_pos; lra|lra].
      * specialize (D l). rewrite (triadJ_charpoly g A q A0 A1 A2 l) in D. specialize (D El). lra.
    + destruct (Rlt_dec 0 (corrected_value g q)) as [H|H]; [exact H|exfalso]. apply Rnot_lt_le in H.
      destruct (Rlt_dec (sum3 g) 0) as [HG|HG].
      * edestruct (RH4_H (-2 * sum3 g) (sum3 g^2 - q^2 * (sum3 g^2 - 2 * (g 0%nat^2 + g 1%nat^2 + g 2%nat^2)))
          (4 * (g 0%nat * g 1%nat * g 2%nat) * (1 + 3 * q^2)) (-4 * (g 0%nat * g 1%nat * g 2%nat) * sum3 g * (1 + q^2))) as (l & El & Rl).
        -- lra.
        -- rewrite HH. assert (0 <= 8 * (g 0%nat * g 1%nat * g 2%nat) * g 0%nat ^ 3 * - corrected_value g q); [|lra].
           apply Rmult_le_pos; lra.
        -- specialize (D l). rewrite (triadJ_charpoly g A q A0 A1 A2 l) in D. specialize (D El). lra.
      * apply Rnot_lt_le in HG.
        edestruct (RH4_a0 (-2 * sum3 g) (sum3 g^2 - q^2 * (sum3 g^2 - 2 * (g 0%nat^2 + g 1%nat^2 + g 2%nat^2)))
          (4 * (g 0%nat * g 1%nat * g 2%nat) * (1 + 3 * q^2)) (-4 * (g 0%nat * g 1%nat * g 2%nat) * sum3 g * (1 + q^2))) as (l & El & Rl).
        -- assert (0 <= (g 0%nat * g 1%nat * g 2%nat) * sum3 g * (1 + q^2)); [|lra].
           apply Rmult_le_pos; [apply Rmult_le_pos; lra|lra].
        -- specialize (D l). rewrite (triadJ_charpoly g A q A0 A1 A2 l) in D. specialize (D El). lra.
  - intros [HG HC] l El. rewrite (triadJ_charpoly g A q A0 A1 A2 l) in El. revert El. apply RH4.
    + lra.
    + apply Rmult_lt_0_compat; lra.
    + replace (-4 * (g 0%nat * g 1%nat * g 2%nat) * sum3 g * (1 + q ^ 2)) with (4 * (g 0%nat * g 1%nat * g 2%nat) * (- sum3 g) * (1 + q ^ 2)) by ring.
      apply Rmult_lt_0_compat; [apply Rmult_lt_0_compat; lra|lra].
    + rewrite HH. apply Rmult_lt_0_compat; assumption.
Qed.

(** Determinant of the matrix with the amplitude entries of the wrong sign. *)
Lemma triadJ_plus_singular : forall g A q, A 0%nat <> 0 -> A 1%nat <> 0 -> A 2%nat <> 0 ->
  det4 (shifted (triadJ 1 g A q) 0) = 0%C.
Proof.
  intros g A q H1 H2 H3. apply RtoC_neq0 in H1 as K1. apply RtoC_neq0 in H2 as K2. apply RtoC_neq0 in H3 as K3.
  unfold det4, minor0, skip, shifted, triadJ, det3, det2. cbn [Nat.ltb Nat.leb Nat.eqb]. unfold sum3.
  unfold Rdiv, pow. Cpush.
  generalize dependent (RtoC (A 0%nat)). intros. generalize dependent (RtoC (A 1%nat)). intros. generalize dependent (RtoC (A 2%nat)). intros.
  generalize (RtoC (g 0%nat)) (RtoC (g 1%nat)) (RtoC (g 2%nat)) (RtoC q). intros.
  field. repeat split; assumption.
Qed.

(** ** The code's matrix *)
Definition code_amp (g o : vec) (q eta : R) : vec :=
  let iq := fun k => g k / o k in
  vec3 (sqrt (iq 1%nat * iq 2%nat) * sqrt (1 + q^2) / (2 * eta)) (sqrt (- iq 0%nat * iq 2%nat) * sqrt (1 + q^2) / (2 * eta))
    (sqrt (- iq 0%nat * iq 1%nat) * sqrt (1 + q^2) / (2 * eta)).

Lemma sqrt_ratio : forall a b c, 0 < a -> 0 < b -> 0 < c -> sqrt (a * b) * sqrt (a * c) = a * sqrt (b * c).
Proof.
  intros a b c Ha Hb Hc. rewrite !sqrt_mult by lra.
  replace (sqrt a * sqrt b * (sqrt a * sqrt c)) with ((sqrt a * sqrt a) * (sqrt b * sqrt c)) by ring.
  rewrite sqrt_sqrt by lra. reflexivity.
Qed.

(** [e = 1] for positive frequencies, [e = -1] for negative ones. *)
Lemma jac4_form : forall e g o q eta, e = 1 \/ e = -1 -> 0 < g 0%nat -> g 1%nat < 0 -> g 2%nat < 0 ->
  0 < e * o 0%nat -> 0 < e * o 1%nat -> 0 < e * o 2%nat -> q <> 0 -> eta <> 0 ->
  (forall k, (k < 3)%nat -> code_amp g o q eta k <> 0) /\
  forall i j, (i < 4)%nat -> (j < 4)%nat -> jac4 g o q eta i j = triadJ e g (code_amp g o q eta) q i j.
Proof.
  intros e g o q eta He G0 G1 G2 O0 O1 O2 Hq Heta.
  assert (N : forall k, 0 < e * o k -> o k <> 0) by (intros k Hk E; rewrite E in Hk; lra).
  assert (N0 := N _ O0). assert (N1 := N _ O1). assert (N2 := N _ O2).
  assert (ee : e * e = 1) by (destruct He; subst; ring).
  set (x := g 0%nat / (e * o 0%nat)). set (y := - g 1%nat / (e * o 1%nat)). set (z := - g 2%nat / (e * o 2%nat)).
  assert (X : 0 < x) by (apply Rdiv_lt_0_compat; lra). assert (Y : 0 < y) by (apply Rdiv_lt_0_compat; lra). assert (Z : 0 < z) by (apply Rdiv_lt_0_compat; lra).
  assert (E12 : - (g 0%nat / o 0%nat) * (g 1%nat / o 1%nat) = x * y).
  { unfold x, y. transitivity ((e * e) * (- (g 0%nat / o 0%nat) * (g 1%nat / o 1%nat)) / (e * e)); [field; lra|]. rewrite ee. destruct He; subst; field; lra. }
  assert (E13 : - (g 0%nat / o 0%nat) * (g 2%nat / o 2%nat) = x * z).
  { unfold x, z. destruct He; subst; field; lra. }
  assert (E23 : (g 1%nat / o 1%nat) * (g 2%nat / o 2%nat) = y * z).
  { unfold y, z. destruct He; subst; field; lra. }
  assert (Pxy : 0 < sqrt (x * y)) by (apply sqrt_lt_R0, Rmult_lt_0_compat; lra).
  assert (Pxz : 0 < sqrt (x * z)) by (apply sqrt_lt_R0, Rmult_lt_0_compat; lra).
  assert (Pyz : 0 < sqrt (y * z)) by (apply sqrt_lt_R0, Rmult_lt_0_compat; lra).
  assert (Pq : 0 < sqrt (1 + q^2)) by (apply sqrt_lt_R0; nra).
  assert (I1 := sqrt_ratio x y z X Y Z). assert (I2 := sqrt_ratio y x z Y X Z). assert (I3 := sqrt_ratio z x y Z X Y).
  rewrite (Rmult_comm y x) in I2. rewrite (Rmult_comm z x), (Rmult_comm z y) in I3.
  assert (X' : o 0%nat * x = e * g 0%nat) by (unfold x; destruct He; subst; field; lra).
  assert (Y' : o 1%nat * y = - e * g 1%nat) by (unfold y; destruct He; subst; field; lra).
  assert (Z' : o 2%nat * z = - e * g 2%nat) by (unfold z; destruct He; subst; field; lra).
  split.
  - intros k Hk. unfold code_amp, vec3. destruct k as [|[|[|k]]]; rewrite ?E12, ?E13, ?E23;
      (unfold Rdiv; repeat apply Rmult_integral_contrapositive_currified; try lra; apply Rinv_neq_0_compat; lra).
  - intros i j Hi Hj. unfold jac4, triadJ, code_amp, vec3. rewrite ?E12, ?E13, ?E23.
    set (s := sqrt (1 + q^2)) in *. set (a := sqrt (x * y)) in *. set (b := sqrt (x * z)) in *. set (c := sqrt (y * z)) in *.
    destruct i as [|[|[|[|i]]]]; [| | | |exfalso; apply PeanoNat.Nat.lt_irrefl with 4%nat; eapply PeanoNat.Nat.le_lt_trans; [|exact Hi]; auto with arith];
    (destruct j as [|[|[|[|j]]]]; [| | | |exfalso; apply PeanoNat.Nat.lt_irrefl with 4%nat; eapply PeanoNat.Nat.le_lt_trans; [|exact Hj]; auto with arith]);
    cbn [Nat.eqb]; try reflexivity; try (unfold sum3; field; repeat split; lra).
    + apply Rmult_eq_reg_r with b; [|lra]. transitivity (o 0%nat * (a * b)); [ring|]. rewrite I1. transitivity ((o 0%nat * x) * c); [ring|]. rewrite X'. field. repeat split; lra.
    + apply Rmult_eq_reg_r with a; [|lra]. transitivity (o 0%nat * (a * b)); [ring|]. rewrite I1. transitivity ((o 0%nat * x) * c); [ring|]. rewrite X'. field. repeat split; lra.
    + apply Rmult_eq_reg_r with c; [|lra]. transitivity (- (o 1%nat * (a * c))); [ring|]. rewrite I2. transitivity (- (o 1%nat * y) * b); [ring|]. rewrite Y'. field. repeat split; lra.
    + apply Rmult_eq_reg_r with a; [|lra]. transitivity (- (o 1%nat * (a * c))); [ring|]. rewrite I2. transitivity (- (o 1%nat * y) * b); [ring|]. rewrite Y'. field. repeat split; lra.
    + apply Rmult_eq_reg_r with c; [|lra]. transitivity (- (o 2%nat * (b * c))); [ring|]. rewrite I3. transitivity (- (o 2%nat * z) * a); [ring|]. rewrite Z'. field. repeat split; lra.
    + apply Rmult_eq_reg_r with b; [|lra]. transitivity (- (o 2%nat * (b * c))); [ring|]. rewrite I3. transitivity (- (o 2%nat * z) * a); [ring|]. rewrite Z'. field. repeat split; lra.
Qed.
