From Coq Require Import Reals Lra Psatz Bool List.
From Coquelicot Require Import Coquelicot.
From Verif Require Import Stab_Model Stab_Spec.
Local Open Scope R_scope.

Lemma Rltb_spec : forall a b, Rltb a b = true <-> a < b.
Proof. intros a b. unfold Rltb. destruct (Rlt_dec a b); split; auto; discriminate. Qed.

(** ** Routh-Hurwitz for quartics *)
Definition quartic (a3 a2 a1 a0 : R) (l : C) : C :=
  (l * l * l * l + a3 * (l * l * l) + a2 * (l * l) + a1 * l + a0)%C.

Lemma quartic_Re_Im : forall a3 a2 a1 a0 x y, quartic a3 a2 a1 a0 (x, y) = 0%C <->
  x^4 + a3*x^3 + a2*x^2 + a1*x + a0 - y^2*(6*x^2 + 3*a3*x + a2) + y^4 = 0 /\
  y * (4*x^3 + 3*a3*x^2 + 2*a2*x + a1 - y^2*(4*x + a3)) = 0.
Proof.
  intros. unfold quartic, Cplus, Cmult, RtoC, fst, snd. split.
  - intros H. injection H as H1 H2. split; [etransitivity; [|exact H1]|etransitivity; [|exact H2]]; ring.
  - intros [H1 H2]. apply injective_projections; cbn [fst snd]; [etransitivity; [|exact H1]|etransitivity; [|exact H2]]; ring.
Qed.

Lemma RH4 : forall a3 a2 a1 a0, 0 < a3 -> 0 < a1 -> 0 < a0 -> 0 < a1*a2*a3 - a1^2 - a3^2*a0 ->
  forall l, quartic a3 a2 a1 a0 l = 0%C -> Re l < 0.
Proof.
  intros a3 a2 a1 a0 H3 H1 H0 HH [x y] H. apply quartic_Re_Im in H. destruct H as [HR HI]. cbn.
  destruct (Rlt_dec x 0) as [Hx|Hx]; [exact Hx|exfalso]. apply Rnot_lt_le in Hx.
  assert (H2 : 0 < a2) by (assert (0 < a1 * a3) by nra; assert (0 < (a1 * a3) * a2) by nra; nra).
  assert (Hq : 4 * a0 < a2 ^ 2).
  { assert (E : 0 <= (a2 * a3 - 2 * a1)^2) by apply pow2_ge_0.
    assert (F : 4 * (a3^2 * a0) < (a2 * a3)^2) by nra.
    assert (P : 0 < a3 ^ 2) by nra. apply Rmult_lt_reg_l with (a3^2); [exact P|]. nra. }
  destruct (Req_dec y 0) as [->|Hy].
  - assert (0 <= x^4 + a3*x^3 + a2*x^2 + a1*x); [|nra].
    assert (0 <= x^2) by nra. assert (0 <= x^3) by nra. assert (0 <= x^4) by nra. nra.
  - apply Rmult_integral in HI. destruct HI as [HI|HI]; [contradiction|].
    assert (D : 0 < 4*x + a3) by nra.
    set (N := 4*x^3 + 3*a3*x^2 + 2*a2*x + a1) in *.
    assert (Ey : y^2 * (4*x+a3) = N) by lra.
    assert (R0 : (4*x+a3)^2*(x^4 + a3*x^3 + a2*x^2 + a1*x + a0) - N*(4*x+a3)*(6*x^2+3*a3*x+a2) + N^2 = 0).
    { rewrite <- Ey. replace (y^4) with (y^2 * y^2) in HR by ring.
      transitivity ((4*x+a3)^2 * (x^4 + a3*x^3 + a2*x^2 + a1*x + a0 - y^2*(6*x^2 + 3*a3*x + a2) + y^2*y^2)); [ring|rewrite HR; ring]. }
    assert (E : (4*x+a3)^2*(x^4 + a3*x^3 + a2*x^2 + a1*x + a0) - N*(4*x+a3)*(6*x^2+3*a3*x+a2) + N^2
      = -(a1*a2*a3 - a1^2 - a3^2*a0) - x * (2*a3*(a2^2 - 4*a0) + 2*a3^2*a1) - x^2*(4*(a2^2-4*a0) + 4*a3*a1 + 8*a3^2*a2)
        - x^3*(32*a3*a2+8*a3^3) - x^4*(32*a2+48*a3^2) - 96*a3*x^5 - 64*x^6) by (unfold N; ring).
    rewrite E in R0.
    assert (T1 : 0 <= x * (2*a3*(a2^2 - 4*a0) + 2*a3^2*a1)).
    { apply Rmult_le_pos; [exact Hx|]. assert (0 <= a3 * (a2^2 - 4*a0)) by (apply Rmult_le_pos; lra).
      assert (0 <= a3^2 * a1) by (apply Rmult_le_pos; nra). lra. }
    assert (T2 : 0 <= x^2*(4*(a2^2-4*a0) + 4*a3*a1 + 8*a3^2*a2)).
    { apply Rmult_le_pos; [nra|]. assert (0 <= a3 * a1) by nra.
      assert (0 <= a3^2 * a2) by (apply Rmult_le_pos; nra). lra. }
    assert (T3 : 0 <= x^3*(32*a3*a2+8*a3^3)).
    { apply Rmult_le_pos; [apply pow_le, Hx|]. assert (0 <= a3 * a2) by nra. assert (0 <= a3^3) by (apply pow_le; lra). lra. }
    assert (T4 : 0 <= x^4*(32*a2+48*a3^2)).
    { apply Rmult_le_pos; [apply pow_le, Hx|]. nra. }
    assert (T5 : 0 <= 96*a3*x^5).
    { apply Rmult_le_pos; [lra|]. apply pow_le, Hx. }
    assert (T6 : 0 <= 64*x^6) by (apply Rmult_le_pos; [lra|apply pow_le, Hx]).
    lra.
Qed.

(** A continuous function that is >= 0 at 0 and negative somewhere to the right
    has a zero in between. *)
Lemma ivt_down : forall f M, continuity f -> 0 <= M -> 0 <= f 0 -> f M < 0 -> exists x, 0 <= x /\ f x = 0.
Proof.
  intros f M Hc HM H0 H1.
  destruct (Req_dec (f 0) 0) as [E|E]; [exists 0; split; [lra|exact E]|].
  assert (HM' : 0 < M) by (destruct HM as [?|<-]; [assumption|lra]).
  destruct (IVT_cor (fun x => - f x)%R 0 M) as [z [Hz Ez]].
  - intros x. apply (continuity_opp f Hc).
  - exact HM.
  - cbv beta. nra.
  - exists z. split; [lra|]. cbv beta in Ez. lra.
Qed.

(** c6 x^6 + ... with c6 < 0 is negative for large x. *)
Lemma sextic_neg : forall c5 c4 c3 c2 c1 c0, exists M, 0 <= M /\
  -64*M^6 + c5*M^5 + c4*M^4 + c3*M^3 + c2*M^2 + c1*M + c0 < 0.
Proof.
  intros. set (K := 1 + Rabs c5 + Rabs c4 + Rabs c3 + Rabs c2 + Rabs c1 + Rabs c0).
  assert (P : forall c, c <= Rabs c /\ 0 <= Rabs c) by (intros; split; [apply Rle_abs|apply Rabs_pos]).
  assert (K1 : 1 <= K) by (unfold K; destruct (P c5), (P c4), (P c3), (P c2), (P c1), (P c0); lra).
  exists K. split; [lra|].
  assert (Q : forall n, (n <= 5)%nat -> forall c, c * K^n <= Rabs c * K^5).
  { intros n Hn c. apply Rle_trans with (Rabs c * K^n).
    - apply Rmult_le_compat_r; [apply pow_le; lra|apply P].
    - apply Rmult_le_compat_l; [apply P|]. apply Rle_pow; [lra|exact Hn]. }
  assert (Q5 := Q 5%nat ltac:(auto) c5). assert (Q4 := Q 4%nat ltac:(auto) c4). assert (Q3 := Q 3%nat ltac:(auto) c3).
  assert (Q2 := Q 2%nat ltac:(auto) c2). assert (Q1 := Q 1%nat ltac:(auto) c1). assert (Q0 := Q 0%nat ltac:(auto with arith) c0).
  assert (PK : 0 < K^5) by (apply pow_lt; lra).
  replace (K^1) with K in Q1 by ring. replace (K^0) with 1 in Q0 by ring. rewrite Rmult_1_r in Q0.
  assert (S : (Rabs c5 + Rabs c4 + Rabs c3 + Rabs c2 + Rabs c1 + Rabs c0) * K^5 = (K - 1) * K^5) by (unfold K; ring).
  assert (K6 : K^6 = K * K^5) by ring. rewrite K6. nra.
Qed.

Lemma quartic_pos : forall a3 a2 a1 a0, exists M, 0 <= M /\ 0 < M^4 + a3*M^3 + a2*M^2 + a1*M + a0.
Proof.
  intros. set (K := 1 + Rabs a3 + Rabs a2 + Rabs a1 + Rabs a0).
  assert (P : forall c, - c <= Rabs c /\ 0 <= Rabs c).
  { intros; split; [|apply Rabs_pos]. rewrite <- Rabs_Ropp. apply Rle_abs. }
  assert (K1 : 1 <= K) by (unfold K; destruct (P a3), (P a2), (P a1), (P a0); lra).
  exists K. split; [lra|].
  assert (Q : forall n, (n <= 3)%nat -> forall c, - c * K^n <= Rabs c * K^3).
  { intros n Hn c. apply Rle_trans with (Rabs c * K^n).
    - apply Rmult_le_compat_r; [apply pow_le; lra|apply P].
    - apply Rmult_le_compat_l; [apply P|]. apply Rle_pow; [lra|exact Hn]. }
  assert (Q3 := Q 3%nat ltac:(auto) a3). assert (Q2 := Q 2%nat ltac:(auto) a2). assert (Q1 := Q 1%nat ltac:(auto) a1).
  assert (Q0 := Q 0%nat ltac:(auto with arith) a0).
  assert (PK : 0 < K^3) by (apply pow_lt; lra).
  replace (K^1) with K in Q1 by ring. replace (K^0) with 1 in Q0 by ring. rewrite Rmult_1_r in Q0.
  assert (S : (Rabs a3 + Rabs a2 + Rabs a1 + Rabs a0) * K^3 = (K - 1) * K^3) by (unfold K; ring).
  assert (K4 : K^4 = K * K^3) by ring. rewrite K4. nra.
Qed.

(** Converse: a violated condition leaves a root that does not decay. *)
Lemma RH4_a0 : forall a3 a2 a1 a0, a0 <= 0 -> exists l, quartic a3 a2 a1 a0 l = 0%C /\ 0 <= Re l.
Proof.
  intros a3 a2 a1 a0 H0. destruct (quartic_pos a3 a2 a1 a0) as (M & HM & PM).
  destruct (ivt_down (fun x => - (x^4 + a3*x^3 + a2*x^2 + a1*x + a0)) M) as (x & Hx & Ex).
  - reg.
  - exact HM.
  - cbv beta. ring_simplify. lra.
  - cbv beta. lra.
  - exists (x, 0). split; [|exact Hx]. apply quartic_Re_Im. cbv beta in Ex. split; [|ring].
    rewrite pow_i by auto with arith. lra.
Qed.

Lemma RH4_H : forall a3 a2 a1 a0, 0 < a3 -> a1*a2*a3 - a1^2 - a3^2*a0 <= 0 ->
  exists l, quartic a3 a2 a1 a0 l = 0%C /\ 0 <= Re l.
Proof.
  intros a3 a2 a1 a0 H3 HH.
  set (c5 := -96*a3). set (c4 := -(32*a2+48*a3^2)). set (c3 := -(32*a3*a2+8*a3^3)).
  set (c2 := -(4*(a2^2-4*a0) + 4*a3*a1 + 8*a3^2*a2)). set (c1 := -(2*a3*(a2^2 - 4*a0) + 2*a3^2*a1)).
  set (c0 := -(a1*a2*a3 - a1^2 - a3^2*a0)).
  destruct (sextic_neg c5 c4 c3 c2 c1 c0) as (M & HM & NM).
  destruct (ivt_down (fun x => -64*x^6 + c5*x^5 + c4*x^4 + c3*x^3 + c2*x^2 + c1*x + c0) M) as (x & Hx & Ex).
  - reg.
  - exact HM.
  - cbv beta. ring_simplify. unfold c0. lra.
  - exact NM.
  - cbv beta in Ex. assert (D : 0 < 4*x + a3) by lra.
    set (N := 4*x^3 + 3*a3*x^2 + 2*a2*x + a1).
    assert (R0 : (4*x+a3)^2*(x^4 + a3*x^3 + a2*x^2 + a1*x + a0) - N*(4*x+a3)*(6*x^2+3*a3*x+a2) + N^2 = 0).
    { rewrite <- Ex. unfold N, c5, c4, c3, c2, c1, c0. ring. }
    set (u := N / (4*x+a3)).
    assert (Eu : u * (4*x+a3) = N) by (unfold u; field; lra).
    assert (Ru : x^4 + a3*x^3 + a2*x^2 + a1*x + a0 - u*(6*x^2 + 3*a3*x + a2) + u^2 = 0).
    { rewrite <- Eu in R0. apply Rmult_eq_reg_l with ((4*x+a3)^2); [|apply pow_nonzero; lra].
      rewrite Rmult_0_r, <- R0. ring. }
    destruct (Rle_dec 0 u) as [Hu|Hu].
    + exists (x, sqrt u). split; [|exact Hx]. apply quartic_Re_Im.
      assert (S2 : sqrt u ^ 2 = u) by (apply pow2_sqrt, Hu).
      replace (sqrt u ^ 4) with ((sqrt u ^ 2)^2) by ring. rewrite S2. split; [lra|].
      replace (4*x^3 + 3*a3*x^2 + 2*a2*x + a1 - u * (4*x+a3)) with 0; [ring|]. rewrite Eu. unfold N. ring.
    + assert (Hu' : 0 <= - u) by lra. set (s := sqrt (-u)). assert (S2 : s ^ 2 = - u) by (apply pow2_sqrt, Hu').
      exists (x + s, 0). split; [|cbn; assert (0 <= s) by apply sqrt_pos; lra].
      apply quartic_Re_Im. split; [|ring].
      transitivity ((x^4 + a3*x^3 + a2*x^2 + a1*x + a0 - (- s^2)*(6*x^2 + 3*a3*x + a2) + (- s^2)^2) + s * (N - (- s^2) * (4*x+a3))).
      * unfold N. ring.
      * rewrite S2, Ropp_involutive, Ru, Eu. ring.
Qed.

(** ** Cubics *)
Definition cubic (a2 a1 a0 : R) (l : C) : C := (l * l * l + a2 * (l * l) + a1 * l + a0)%C.
Lemma cubic_Re_Im : forall a2 a1 a0 x y, cubic a2 a1 a0 (x, y) = 0%C <->
  x^3 + a2*x^2 + a1*x + a0 - y^2*(3*x + a2) = 0 /\ y * (3*x^2 + 2*a2*x + a1 - y^2) = 0.
Proof.
  intros. unfold cubic, Cplus, Cmult, RtoC, fst, snd. split.
  - intros H. injection H as H1 H2. split; [etransitivity; [|exact H1]|etransitivity; [|exact H2]]; ring.
  - intros [H1 H2]. apply injective_projections; cbn [fst snd]; [etransitivity; [|exact H1]|etransitivity; [|exact H2]]; ring.
Qed.
Lemma RH3 : forall a2 a1 a0, 0 < a2 -> 0 < a0 -> 0 < a2*a1 - a0 ->
  forall l, cubic a2 a1 a0 l = 0%C -> Re l < 0.
Proof.
  intros a2 a1 a0 H2 H0 HH [x y] H. apply cubic_Re_Im in H. destruct H as [HR HI]. cbn.
  destruct (Rlt_dec x 0) as [Hx|Hx]; [exact Hx|exfalso]. apply Rnot_lt_le in Hx.
  assert (H1 : 0 < a1) by nra.
  destruct (Req_dec y 0) as [->|Hy].
  - assert (0 <= x^2) by nra. assert (0 <= x^3) by nra. nra.
  - apply Rmult_integral in HI. destruct HI as [HI|HI]; [contradiction|].
    assert (Ey : y^2 = 3*x^2+2*a2*x+a1) by lra. rewrite Ey in HR.
    assert (E : x^3 + a2*x^2 + a1*x + a0 - (3*x^2+2*a2*x+a1)*(3*x+a2) = -8*x^3 -8*a2*x^2 - (2*a1+2*a2^2)*x - (a2*a1-a0)) by ring.
    rewrite E in HR. assert (0 <= x^3) by (apply pow_le, Hx). assert (0 <= a2 * x^2) by (apply Rmult_le_pos; nra).
    assert (0 <= (2*a1+2*a2^2)*x) by (apply Rmult_le_pos; nra). lra.
Qed.
Lemma cubic_neg : forall c2 c1 c0, exists M, 0 <= M /\ -8*M^3 + c2*M^2 + c1*M + c0 < 0.
Proof.
  intros. set (K := 1 + Rabs c2 + Rabs c1 + Rabs c0).
  assert (P : forall c, c <= Rabs c /\ 0 <= Rabs c) by (intros; split; [apply Rle_abs|apply Rabs_pos]).
  destruct (P c2), (P c1), (P c0). assert (K1 : 1 <= K) by (unfold K; lra).
  exists K. split; [lra|].
  assert (c2 * K^2 <= Rabs c2 * K^2) by (apply Rmult_le_compat_r; nra).
  assert (KK : K <= K^2) by (assert (0 <= (K-1)*K) by (apply Rmult_le_pos; lra); simpl; lra).
  assert (c1 * K <= Rabs c1 * K^2) by (apply Rle_trans with (Rabs c1 * K); [apply Rmult_le_compat_r; lra|apply Rmult_le_compat_l; lra]).
  assert (c0 <= Rabs c0 * K^2) by (apply Rle_trans with (Rabs c0 * 1); [lra|apply Rmult_le_compat_l; lra]).
  assert (S : (Rabs c2 + Rabs c1 + Rabs c0) * K^2 = (K-1)*K^2) by (unfold K; ring).
  assert (0 < K^2) by nra. assert (K3 : K^3 = K*K^2) by ring. rewrite K3. nra.
Qed.
Lemma RH3_a0 : forall a2 a1 a0, a0 <= 0 -> exists l, cubic a2 a1 a0 l = 0%C /\ 0 <= Re l.
Proof.
  intros a2 a1 a0 H0. destruct (cubic_neg (-8*a2) (-8*a1) (-8*a0)) as (M & HM & NM).
  destruct (ivt_down (fun x => - 8 * x^3 + (-8*a2)*x^2 + (-8*a1)*x + (-8*a0)) M) as (x & Hx & Ex).
  - reg.
  - exact HM.
  - cbv beta. ring_simplify. lra.
  - exact NM.
  - exists (x, 0). split; [|exact Hx]. apply cubic_Re_Im. cbv beta in Ex. split; [|ring]. rewrite pow_i by auto with arith. lra.
Qed.
(** the Hurwitz determinant, or a2, non-positive *)
Lemma RH3_H : forall a2 a1 a0, a2*a1 - a0 <= 0 -> exists l, cubic a2 a1 a0 l = 0%C /\ 0 <= Re l.
Proof.
  intros a2 a1 a0 HH. destruct (cubic_neg (-8*a2) (-(2*a1+2*a2^2)) (-(a2*a1-a0))) as (M & HM & NM).
  destruct (ivt_down (fun x => -8*x^3 + (-8*a2)*x^2 + (-(2*a1+2*a2^2))*x + (-(a2*a1-a0))) M) as (x & Hx & Ex).
  - reg.
  - exact HM.
  - cbv beta. ring_simplify. lra.
  - exact NM.
  - cbv beta in Ex. set (u := 3*x^2+2*a2*x+a1).
    assert (Ru : x^3 + a2*x^2 + a1*x + a0 - u*(3*x+a2) = 0) by (rewrite <- Ex; unfold u; ring).
    destruct (Rle_dec 0 u) as [Hu|Hu].
    + exists (x, sqrt u). split; [|exact Hx]. apply cubic_Re_Im. rewrite pow2_sqrt by exact Hu. split; [exact Ru|unfold u; ring].
    + set (s := sqrt (-u)). assert (S2 : s^2 = -u) by (apply pow2_sqrt; lra).
      exists (x+s, 0). split; [|cbn; assert (0 <= s) by apply sqrt_pos; lra]. apply cubic_Re_Im. split; [|ring].
      transitivity ((x^3 + a2*x^2 + a1*x + a0 - (-s^2)*(3*x+a2)) + s * (3*x^2+2*a2*x+a1 - (- s^2))); [ring|].
      rewrite S2, Ropp_involutive, Ru. unfold u. ring.
Qed.
Lemma RH3_a2 : forall a2 a1 a0, a2 <= 0 -> 0 < a0 -> exists l, cubic a2 a1 a0 l = 0%C /\ 0 <= Re l.
Proof.
  intros a2 a1 a0 H2 H0. destruct (Rle_dec (a2*a1 - a0) 0) as [H|H]; [apply RH3_H, H|]. apply Rnot_le_lt in H.
  (* then a1 < 0 : the cubic has a critical point where it is increasing backwards *)
  assert (H1 : a1 < 0) by nra.
  set (f := fun x => - (x^3 + a2*x^2 + a1*x + a0)).
  (* P(-a2) = -a1 a2 ... *)
  destruct (ivt_down (fun x => x^3 + a2*x^2 + a1*x + a0) (- a2)) as (x & Hx & Ex).
  - reg.
  - lra.
  - cbv beta. ring_simplify. lra.
  - cbv beta. replace ((-a2)^3 + a2*(-a2)^2 + a1*(-a2) + a0) with (-(a2*a1-a0)) by ring. lra.
  - exists (x, 0). split; [|exact Hx]. apply cubic_Re_Im. cbv beta in Ex. split; [|ring]. rewrite pow_i by auto with arith. lra.
Qed.
