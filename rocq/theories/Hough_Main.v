(** * Hough functions: derivatives, parity, eigenvalue selection, normalisation *)
From Coq Require Import Reals List ZArith Bool Lia Lra String Permutation Sorted.
From Coquelicot Require Import Coquelicot.
From Verif Require Import Base NumInt_Model NumInt_Spec NumInt_Proofs Hough_Model Hough_Spec Hough_Proofs Hough_Inverse.
Import ListNotations.
Local Open Scope R_scope.

Ltac eqR := match goal with |- ?a = ?b => change (@eq R a b) end.
Lemma apply_op_eq h X f c0 c1 c2 par pf i : (i < h)%nat ->
  apply_op h X f c0 c1 c2 par pf i =
  c0 i * f i + c1 i * diff1 h X f par pf i + match c2 with Some c => c i * diff2 h X f par pf i | None => 0 end.
Proof.
  intros Hi. unfold apply_op, mvec, full_matrix.
  rewrite (vsum_ext h _ (fun k => c1 i * (d1 h X par pf i k * f k) + (c0 i * ((if Nat.eqb i k then 1 else 0) * f k)
     + match c2 with Some c => c i * (d2 h X par pf i k * f k) | None => 0 end))).
  - rewrite !vsum_plus, !vsum_scal, (vsum_delta h i f Hi). unfold diff1, diff2, mvec. destruct c2.
    + rewrite vsum_scal. ring.
    + rewrite vsum_zero. ring.
  - intros k _. destruct (Nat.eqb i k), c2; ring.
Qed.

(** parity *)
Definition sgb (b : bool) : R := if b then -1 else 1.
Lemma sgb_sq b : sgb b * sgb b = 1. Proof. destruct b; cbn; ring. Qed.
Lemma pow_m1_odd n : (-1) ^ n = sgb (Nat.odd n).
Proof.
  induction n; [reflexivity|]. cbn [pow]. rewrite IHn, Nat.odd_succ, <- Nat.negb_odd. destruct (Nat.odd n); cbn; ring.
Qed.
Lemma odd_abs_nat z : Nat.odd (Z.abs_nat z) = Z.odd z.
Proof. rewrite <- (Zabs2Nat.id_abs z) || idtac. destruct z as [|p|p]; cbn; try reflexivity; rewrite <- (Nat2Z.id (Pos.to_nat p)), positive_nat_Z; destruct p; cbn; try reflexivity; rewrite ?Pos2Nat.inj_xI, ?Pos2Nat.inj_xO; try (rewrite Nat.odd_succ, Nat.even_mul; reflexivity); try (rewrite Nat.odd_mul; reflexivity). Qed.
Lemma sgn_k_parity o : sgn_k o = sgb (parity_ o).
Proof.
  unfold sgn_k, parity_, k_grav. rewrite pow_m1_odd, odd_abs_nat. f_equal. rewrite !Z.odd_sub. f_equal.
  destruct (o_m o); reflexivity.
Qed.
Lemma sgn_k1_parity o : sgn_k1 o = - sgb (parity_ o).
Proof. unfold sgn_k1. rewrite pow_add. change ((-1) ^ Z.abs_nat (k_grav o)) with (sgn_k o). rewrite sgn_k_parity. ring. Qed.
Lemma E0_parity par pf h a x : E0 par pf h a (- x) = sgb par * E0 par pf h a x.
Proof.
  assert (HP : P0 par h a (- x) = sgb par * P0 par h a x).
  { unfold P0. rewrite <- vsum_scal. apply vsum_ext. intros j _. rewrite T_parity.
    replace ((-1) ^ j_index par j) with (sgb par); [ring|]. rewrite pow_m1_odd. f_equal. unfold j_index. destruct par.
    - rewrite Nat.odd_add, Nat.odd_mul. reflexivity.
    - rewrite Nat.odd_mul. reflexivity. }
  unfold E0. destruct pf; rewrite HP; [|ring]. replace (1 - (- x) ^ 2) with (1 - x ^ 2) by ring. ring.
Qed.
(** reflecting derivatives *)
Lemma der_reflect (G : R -> R) c x d : (forall y, G (- y) = c * G y) -> c * c = 1 -> is_derive G x d -> is_derive G (- x) (- c * d).
Proof.
  intros HG Hc H. apply (is_derive_ext (fun y => c * G (- y))).
  - intros y. rewrite HG. rewrite <- Rmult_assoc, Hc. apply Rmult_1_l.
  - assert (H' : is_derive G (- - x) d) by (rewrite Ropp_involutive; exact H).
    assert (E : ex_derive G (- - x)) by (eexists; exact H').
    auto_derive; [exact E|]. change (fun x0 => G x0) with G. rewrite (is_derive_unique _ _ _ H'). ring.
Qed.
Lemma derivative_parity (G G1 : R -> R) c x : (forall y, G (- y) = c * G y) -> c * c = 1 ->
  is_derive G x (G1 x) -> is_derive G (- x) (G1 (- x)) -> G1 (- x) = - c * G1 x.
Proof.
  intros HG Hc H1 H2. pose proof (der_reflect G c x _ HG Hc H1) as H3.
  rewrite <- (is_derive_unique _ _ _ H2). apply is_derive_unique. exact H3.
Qed.
(** extension of half-grid samples *)
Lemma mu_full_cases h i : (i < 2 * h)%nat -> exists j, (j < h)%nat /\
  ((i = j /\ mu_full h i = - mu_ h j) \/ (i = 2 * h - 1 - j /\ mu_full h i = mu_ h j))%nat.
Proof.
  intros Hi. unfold mu_full, concat_rev. destruct (Nat.ltb_spec i h).
  - exists i. split; [exact H|]. left. split; [reflexivity|]. ring.
  - exists (2 * h - 1 - i)%nat. split; [lia|]. right. split; [lia|reflexivity].
Qed.
Lemma extend_south h c f i : (i < h)%nat -> extend h c f i = c * f i.
Proof. intros H. unfold extend, concat_rev. destruct (Nat.ltb_spec i h); [reflexivity|lia]. Qed.
Lemma extend_north h c f j : (j < h)%nat -> extend h c f (2 * h - 1 - j)%nat = f j.
Proof. intros H. unfold extend, concat_rev. destruct (Nat.ltb_spec (2 * h - 1 - j) h); [lia|]. f_equal. lia. Qed.
Lemma extend_value h c f (G : R -> R) i : (i < 2 * h)%nat ->
  (forall j, (j < h)%nat -> f j = G (mu_ h j)) -> (forall j, (j < h)%nat -> G (- mu_ h j) = c * G (mu_ h j)) ->
  extend h c f i = G (mu_full h i).
Proof.
  intros Hi Hf HG. destruct (mu_full_cases h i Hi) as (j & Hj & [[-> Hm]|[-> Hm]]); rewrite Hm.
  - rewrite extend_south by exact Hj. rewrite HG, Hf by exact Hj. reflexivity.
  - rewrite extend_north by exact Hj. apply Hf. exact Hj.
Qed.
Lemma extend_der h c f (G : R -> R) i : (i < 2 * h)%nat -> c * c = 1 -> (forall y, G (- y) = - c * G y) ->
  (forall j, (j < h)%nat -> is_derive G (mu_ h j) (f j)) -> is_derive G (mu_full h i) (extend h c f i).
Proof.
  intros Hi Hc HG Hf. destruct (mu_full_cases h i Hi) as (j & Hj & [[-> Hm]|[-> Hm]]); rewrite Hm.
  - rewrite extend_south by exact Hj. replace (c * f j) with (- (- c) * f j) by ring.
    apply der_reflect; [exact HG|nra|apply Hf; exact Hj].
  - rewrite extend_north by exact Hj. apply Hf. exact Hj.
Qed.
Lemma mu_full_range h i : (i < 2 * h)%nat -> -1 < mu_full h i < 1.
Proof.
  intros Hi. destruct (mu_full_cases h i Hi) as (j & Hj & [[_ ->]|[_ ->]]); pose proof (mu_lt_1 h j Hj); lra.
Qed.

(** derivatives of the horizontal components *)
Lemma der_over_sqrt (N D : R -> R) x n1 dd : -1 < x < 1 -> D x <> 0 -> is_derive N x n1 -> is_derive D x dd ->
  is_derive (fun x => N x / (D x * sqrt (1 - x ^ 2))) x
    ((n1 * D x * (1 - x ^ 2) - N x * dd * (1 - x ^ 2) + N x * D x * x) / (D x ^ 2 * sqrt (1 - x ^ 2) ^ 3)).
Proof.
  intros Hx HD H1 H2. destruct (sqrt_ok x Hx) as (Hpos & Hq & Hq2).
  assert (X1 : ex_derive N x) by (eexists; exact H1). assert (X2 : ex_derive D x) by (eexists; exact H2).
  auto_derive; replace (1 + - (x * (x * 1))) with (1 - x ^ 2) by ring.
  - repeat split; try assumption. apply Rmult_integral_contrapositive_currified; [exact HD|lra].
  - change (fun x0 => N x0) with N. change (fun x0 => D x0) with D. rewrite (is_derive_unique _ _ _ H1), (is_derive_unique _ _ _ H2).
    set (q := sqrt (1 - x ^ 2)) in *. rewrite <- Hq2. field. split; [lra|exact HD].
Qed.
Lemma der_den nu x : is_derive (fun x => 1 - nu ^ 2 * x ^ 2) x (- (2 * nu ^ 2 * x)).
Proof. auto_derive; [exact I|]. ring. Qed.
Lemma der_Ht nu m (F F1 : R -> R) x f2 : -1 < x < 1 -> 1 - nu ^ 2 * x ^ 2 <> 0 ->
  is_derive F x (F1 x) -> is_derive F1 x f2 ->
  is_derive (Ht_of nu m F F1) x
   ((m * nu * (2 * x ^ 4 * nu ^ 2 - x ^ 2 * nu ^ 2 - 1) / (1 - nu ^ 2 * x ^ 2) ^ 2 * F x
     + (1 - x ^ 2) * (- m * nu * x * (1 - nu ^ 2 * x ^ 2) + x + x ^ 3 * nu ^ 2 - 2 * x * nu ^ 2) / (1 - nu ^ 2 * x ^ 2) ^ 2 * F1 x
     + - ((1 - x ^ 2) ^ 2) / (1 - nu ^ 2 * x ^ 2) * f2) / sqrt (1 - x ^ 2) ^ 3).
Proof.
  intros Hx HD H1 H2. destruct (sqrt_ok x Hx) as (Hpos & Hq & Hq2).
  assert (X1 : ex_derive F x) by (eexists; exact H1). assert (X2 : ex_derive F1 x) by (eexists; exact H2).
  assert (HN : is_derive (fun x => - (1 - x ^ 2) * F1 x - m * nu * x * F x) x
     (2 * x * F1 x - (1 - x ^ 2) * f2 - m * nu * F x - m * nu * x * F1 x)).
  { auto_derive; [tauto|]. change (fun x0 => F x0) with F. change (fun x0 => F1 x0) with F1.
    rewrite (is_derive_unique _ _ _ H1), (is_derive_unique _ _ _ H2). ring. }
  pose proof (der_over_sqrt _ _ x _ _ Hx HD HN (der_den nu x)) as H. unfold Ht_of.
  match type of H with is_derive _ _ ?v => match goal with |- is_derive _ _ ?w => replace w with v; [exact H|] end end.
  set (q := sqrt (1 - x ^ 2)) in *. field. split; solve [lra|exact HD].
Qed.
Lemma der_Hp nu m (F F1 : R -> R) x f2 : -1 < x < 1 -> 1 - nu ^ 2 * x ^ 2 <> 0 ->
  is_derive F x (F1 x) -> is_derive F1 x f2 ->
  is_derive (Hp_of nu m F F1) x
   ((m * x * (1 - nu ^ 2 * x ^ 2 + 2 * nu ^ 2 - 2 * nu ^ 2 * x ^ 2) / (1 - nu ^ 2 * x ^ 2) ^ 2 * F x
     + (1 - x ^ 2) * (m * (1 - nu ^ 2 * x ^ 2) + nu + nu ^ 3 * x ^ 2 - 2 * x ^ 2 * nu) / (1 - nu ^ 2 * x ^ 2) ^ 2 * F1 x
     + nu * x * (1 - x ^ 2) ^ 2 / (1 - nu ^ 2 * x ^ 2) * f2) / sqrt (1 - x ^ 2) ^ 3).
Proof.
  intros Hx HD H1 H2. destruct (sqrt_ok x Hx) as (Hpos & Hq & Hq2).
  assert (X1 : ex_derive F x) by (eexists; exact H1). assert (X2 : ex_derive F1 x) by (eexists; exact H2).
  assert (HN : is_derive (fun x => nu * x * (1 - x ^ 2) * F1 x + m * F x) x
     (nu * (1 - 3 * x ^ 2) * F1 x + nu * x * (1 - x ^ 2) * f2 + m * F1 x)).
  { auto_derive; [tauto|]. change (fun x0 => F x0) with F. change (fun x0 => F1 x0) with F1.
    rewrite (is_derive_unique _ _ _ H1), (is_derive_unique _ _ _ H2). ring. }
  pose proof (der_over_sqrt _ _ x _ _ Hx HD HN (der_den nu x)) as H. unfold Hp_of.
  match type of H with is_derive _ _ ?v => match goal with |- is_derive _ _ ?w => replace w with v; [exact H|] end end.
  set (q := sqrt (1 - x ^ 2)) in *. field. split; solve [lra|exact HD].
Qed.
(** with the extra factor sqrt(1-x^2) *)
Lemma der_sqrt_mul (G : R -> R) x d : -1 < x < 1 -> is_derive G x d ->
  is_derive (fun x => sqrt (1 - x ^ 2) * G x) x (sqrt (1 - x ^ 2) * d - x * G x / sqrt (1 - x ^ 2)).
Proof.
  intros Hx H. pose proof (der_sqrt_prod G x d Hx H) as Q. destruct (sqrt_ok x Hx) as (_ & Hq & _).
  match type of Q with is_derive _ _ ?v => match goal with |- is_derive _ _ ?w => replace w with v; [exact Q|] end end. field. lra.
Qed.
(** the tidal operator in divergence form *)
Lemma der_flux nu (F1 : R -> R) x f2 : 1 - nu ^ 2 * x ^ 2 <> 0 -> is_derive F1 x f2 ->
  is_derive (fun y => (1 - y ^ 2) / (1 - nu ^ 2 * y ^ 2) * F1 y) x
    (-2 * x * (1 - nu ^ 2) / (1 - nu ^ 2 * x ^ 2) ^ 2 * F1 x + (1 - x ^ 2) / (1 - nu ^ 2 * x ^ 2) * f2).
Proof.
  intros HD H. assert (X2 : ex_derive F1 x) by (eexists; exact H).
  auto_derive; replace (1 + - (nu * (nu * 1) * (x * (x * 1)))) with (1 - nu ^ 2 * x ^ 2) by ring.
  - repeat split; assumption.
  - change (fun x0 => F1 x0) with F1. rewrite (is_derive_unique _ _ _ H). field. replace ((nu * x) ^ 2) with (nu ^ 2 * x ^ 2) by ring. exact HD.
Qed.

(** one function behind the samples *)
Record represents (h : nat) (X : invs) (par pf : bool) (hr : vec) (F F1 F2 : R -> R) : Prop := {
  rep_der : derivatives F F1 F2;
  rep_par : forall y, F (- y) = sgb par * F y;
  rep_0 : forall j, (j < h)%nat -> hr j = F (mu_ h j);
  rep_1 : forall j, (j < h)%nat -> diff1 h X hr par pf j = F1 (mu_ h j);
  rep_2 : forall j, (j < h)%nat -> diff2 h X hr par pf j = F2 (mu_ h j) }.
Lemma represented h X par pf hr : inverses_ok h X -> exists F F1 F2, represents h X par pf hr F F1 F2.
Proof.
  intros HX. set (a := mvec h (X par pf) hr). exists (E0 par pf h a), (E1 par pf h a), (E2 par pf h a).
  pose proof (interpolant h X par pf hr (HX par pf)) as HI. cbv zeta in HI. fold a in HI.
  constructor; [apply E_derivatives|intros; apply E0_parity| | |]; intros j Hj; destruct (HI j Hj) as (A & B & C); auto.
Qed.
Lemma denom_eq nu h j : denom nu h j = 1 - nu ^ 2 * mu_ h j ^ 2. Proof. reflexivity. Qed.

Section Rep.
Variables (o : hobj) (X : invs) (hr : vec) (F F1 F2 : R -> R).
Let h := o_h o. Let nu := o_nu o. Let m := IZR (o_m o).
Hypothesis HR : represents h X (parity_ o) (pf_ o) hr F F1 F2.
Hypothesis HD : forall j, (j < h)%nat -> 1 - nu ^ 2 * mu_ h j ^ 2 <> 0.

Lemma F1_par y : -1 < y < 1 -> F1 (- y) = - sgb (parity_ o) * F1 y.
Proof.
  intros Hy. apply (derivative_parity F F1 (sgb (parity_ o)) y); [apply (rep_par _ _ _ _ _ _ _ _ HR)|apply sgb_sq| |].
  - apply (rep_der _ _ _ _ _ _ _ _ HR y Hy).
  - apply (rep_der _ _ _ _ _ _ _ _ HR (- y)). lra.
Qed.
(** clipped versions with the parity everywhere, equal to F1 and F2 on (-1, 1) *)
Definition clip (G : R -> R) (y : R) : R := if Rlt_dec (Rabs y) 1 then G y else 0.
Lemma clip_in G y : -1 < y < 1 -> clip G y = G y.
Proof. intros H. unfold clip. destruct (Rlt_dec (Rabs y) 1); [reflexivity|]. exfalso. apply n. apply Rabs_def1; lra. Qed.
Lemma clip_par (G : R -> R) c : (forall y, -1 < y < 1 -> G (- y) = c * G y) -> forall y, clip G (- y) = c * clip G y.
Proof.
  intros H y. unfold clip. rewrite Rabs_Ropp. destruct (Rlt_dec (Rabs y) 1); [|ring]. apply H. apply Rabs_def2 in r. lra.
Qed.
Lemma clip_locally G x : -1 < x < 1 -> locally x (fun y => clip G y = G y).
Proof.
  intros Hx. assert (He : 0 < Rmin (x + 1) (1 - x)) by (apply Rmin_glb_lt; lra).
  exists (mkposreal _ He). intros y Hy. change (Rabs (y - x) < Rmin (x + 1) (1 - x)) in Hy. apply clip_in.
  pose proof (Rmin_l (x + 1) (1 - x)). pose proof (Rmin_r (x + 1) (1 - x)). apply Rabs_def2 in Hy. lra.
Qed.
Lemma clip_der G x d : -1 < x < 1 -> is_derive G x d <-> is_derive (clip G) x d.
Proof.
  intros Hx. split; intros H.
  - apply (is_derive_ext_loc G); [|exact H]. generalize (clip_locally G x Hx). apply filter_imp. auto.
  - apply (is_derive_ext_loc (clip G)); [|exact H]. apply clip_locally. exact Hx.
Qed.
Lemma extend_der_c c (f : vec) (G : R -> R) i : (i < 2 * h)%nat -> c * c = 1 -> (forall y, -1 < y < 1 -> G (- y) = - c * G y) ->
  (forall j, (j < h)%nat -> is_derive G (mu_ h j) (f j)) -> is_derive G (mu_full h i) (extend h c f i).
Proof.
  intros Hi Hc HG Hf. apply (proj2 (clip_der G _ _ (mu_full_range h i Hi))).
  apply extend_der; [exact Hi|exact Hc|apply clip_par; exact HG|]. intros j Hj. apply (proj1 (clip_der G _ _ (mu_lt_1 h j Hj))). apply Hf; exact Hj.
Qed.
Lemma F2_par y : -1 < y < 1 -> F2 (- y) = sgb (parity_ o) * F2 y.
Proof.
  intros Hy. pose proof (derivative_parity (clip F1) F2 (- sgb (parity_ o)) y) as Q.
  rewrite Q; [ring|apply clip_par; apply F1_par| | |].
  - pose proof (sgb_sq (parity_ o)). nra.
  - apply (proj1 (clip_der F1 _ _ Hy)). apply (rep_der _ _ _ _ _ _ _ _ HR y Hy).
  - apply (proj1 (clip_der F1 (- y) (F2 (- y)) ltac:(lra))). apply (rep_der _ _ _ _ _ _ _ _ HR (- y)). lra.
Qed.
Lemma Ht_par y : -1 < y < 1 -> Ht_of nu m F F1 (- y) = - sgb (parity_ o) * Ht_of nu m F F1 y.
Proof.
  intros Hy. unfold Ht_of. rewrite F1_par by exact Hy. rewrite (rep_par _ _ _ _ _ _ _ _ HR).
  replace ((- y) ^ 2) with (y ^ 2) by ring. unfold Rdiv. ring.
Qed.
Lemma Hp_par y : -1 < y < 1 -> Hp_of nu m F F1 (- y) = sgb (parity_ o) * Hp_of nu m F F1 y.
Proof.
  intros Hy. unfold Hp_of. rewrite F1_par by exact Hy. rewrite (rep_par _ _ _ _ _ _ _ _ HR).
  replace ((- y) ^ 2) with (y ^ 2) by ring. unfold Rdiv. ring.
Qed.
Lemma mu_in j : (j < h)%nat -> -1 < mu_ h j < 1. Proof. apply mu_lt_1. Qed.
Lemma D_full i : (i < 2 * h)%nat -> 1 - nu ^ 2 * mu_full h i ^ 2 <> 0.
Proof.
  intros Hi. destruct (mu_full_cases h i Hi) as (j & Hj & [[_ ->]|[_ ->]]); [|apply HD; exact Hj].
  replace ((- mu_ h j) ^ 2) with (mu_ h j ^ 2) by ring. apply HD; exact Hj.
Qed.
(** the definition-dependent factors *)
Definition sin_fac (x : R) : R := if sin_factor (o_ins o) then sqrt (1 - x ^ 2) else 1.
Definition phi_sgn : R := if adjust_phi_sign (o_ins o) then -1 else 1.
Lemma half_ht j : (j < h)%nat -> latitudinal X o hr j = sin_fac (mu_ h j) * Ht_of nu m F F1 (mu_ h j).
Proof.
  intros Hj. pose proof (s_pos h j Hj) as Hs. pose proof (HD j Hj) as Hd. unfold latitudinal, sin_fac. fold h nu m.
  assert (HA : apply_op h X hr (ht_coeff_0 nu m h) (ht_coeff_1 nu h) None (parity_ o) (pf_ o) j / s_ h j = Ht_of nu m F F1 (mu_ h j)).
  { rewrite apply_op_eq by exact Hj. rewrite (rep_1 _ _ _ _ _ _ _ _ HR j Hj), (rep_0 _ _ _ _ _ _ _ _ HR j Hj).
    unfold ht_coeff_0, ht_coeff_1, Ht_of. rewrite s2 by exact Hj. change (sqrt (1 - mu_ h j ^ 2)) with (s_ h j). rewrite denom_eq.
    field. split; solve [lra|exact Hd|replace ((nu * mu_ h j) ^ 2) with (nu ^ 2 * mu_ h j ^ 2) by ring; exact Hd]. }
  destruct (sin_factor (o_ins o)); cbv beta; rewrite HA; unfold s_; ring.
Qed.
Lemma half_hp j : (j < h)%nat -> azimuthal X o hr j = phi_sgn * sin_fac (mu_ h j) * Hp_of nu m F F1 (mu_ h j).
Proof.
  intros Hj. pose proof (s_pos h j Hj) as Hs. pose proof (HD j Hj) as Hd. unfold azimuthal, sin_fac, phi_sgn. fold h nu m.
  assert (HA : apply_op h X hr (hp_coeff_0 nu m h) (hp_coeff_1 nu h) None (parity_ o) (pf_ o) j / s_ h j = Hp_of nu m F F1 (mu_ h j)).
  { rewrite apply_op_eq by exact Hj. rewrite (rep_1 _ _ _ _ _ _ _ _ HR j Hj), (rep_0 _ _ _ _ _ _ _ _ HR j Hj).
    unfold hp_coeff_0, hp_coeff_1, Hp_of. rewrite s2 by exact Hj. change (sqrt (1 - mu_ h j ^ 2)) with (s_ h j). rewrite denom_eq.
    field. split; solve [lra|exact Hd|replace ((nu * mu_ h j) ^ 2) with (nu ^ 2 * mu_ h j ^ 2) by ring; exact Hd]. }
  destruct (sin_factor (o_ins o)), (adjust_phi_sign (o_ins o)); cbv beta; rewrite HA; unfold s_; ring.
Qed.
Lemma der_F j : (j < h)%nat -> is_derive F (mu_ h j) (F1 (mu_ h j)) /\ is_derive F1 (mu_ h j) (F2 (mu_ h j)).
Proof. intros Hj. apply (rep_der _ _ _ _ _ _ _ _ HR). apply mu_in; exact Hj. Qed.
Lemma s4 j : (j < h)%nat -> s_ h j ^ 4 = (1 - mu_ h j ^ 2) ^ 2.
Proof. intros Hj. rewrite <- s2 by exact Hj. ring. Qed.
Lemma half_htp j : (j < h)%nat ->
  is_derive (fun x => sin_fac x * Ht_of nu m F F1 x) (mu_ h j) (d_latitudinal X o hr (latitudinal X o hr) j).
Proof.
  intros Hj. pose proof (s_pos h j Hj) as Hs. pose proof (HD j Hj) as Hd. destruct (der_F j Hj) as [DF DF1].
  pose proof (der_Ht nu m F F1 (mu_ h j) _ (mu_in j Hj) Hd DF DF1) as HT.
  unfold d_latitudinal. fold h nu m.
  assert (HA : apply_op h X hr (htp_coeff_0 nu m h) (htp_coeff_1 nu m h) (Some (htp_coeff_2 nu h)) (parity_ o) (pf_ o) j / s_ h j ^ 3 =
     (m * nu * (2 * mu_ h j ^ 4 * nu ^ 2 - mu_ h j ^ 2 * nu ^ 2 - 1) / (1 - nu ^ 2 * mu_ h j ^ 2) ^ 2 * F (mu_ h j)
     + (1 - mu_ h j ^ 2) * (- m * nu * mu_ h j * (1 - nu ^ 2 * mu_ h j ^ 2) + mu_ h j + mu_ h j ^ 3 * nu ^ 2 - 2 * mu_ h j * nu ^ 2) / (1 - nu ^ 2 * mu_ h j ^ 2) ^ 2 * F1 (mu_ h j)
     + - ((1 - mu_ h j ^ 2) ^ 2) / (1 - nu ^ 2 * mu_ h j ^ 2) * F2 (mu_ h j)) / sqrt (1 - mu_ h j ^ 2) ^ 3).
  { rewrite apply_op_eq by exact Hj. rewrite (rep_2 _ _ _ _ _ _ _ _ HR j Hj), (rep_1 _ _ _ _ _ _ _ _ HR j Hj), (rep_0 _ _ _ _ _ _ _ _ HR j Hj).
    unfold htp_coeff_0, htp_coeff_1, htp_coeff_2. rewrite s4, s2 by exact Hj. rewrite denom_eq. change (sqrt (1 - mu_ h j ^ 2)) with (s_ h j). reflexivity. }
  unfold sin_fac. destruct (sin_factor (o_ins o)) eqn:Es.
  - cbv beta. rewrite HA, half_ht by exact Hj. unfold sin_fac. rewrite Es.
    pose proof (der_sqrt_mul _ _ _ (mu_in j Hj) HT) as Q.
    match type of Q with is_derive _ _ ?v => match goal with |- is_derive _ _ ?w => replace w with v; [exact Q|] end end.
    f_equal. change (sqrt (1 - mu_ h j ^ 2)) with (s_ h j). field. lra.
  - cbv beta. rewrite HA. apply (is_derive_ext (Ht_of nu m F F1)); [intros; eqR; ring|exact HT].
Qed.
(** the azimuthal derivative: off by a sign (and more) whenever the sign of hp was adjusted *)
Definition hpp_defect (x : R) : R :=
  if adjust_phi_sign (o_ins o) then (if sin_factor (o_ins o) then 2 * x * Hp_of nu m F F1 x / sqrt (1 - x ^ 2) else 0) else 0.
Lemma half_hpp j : (j < h)%nat ->
  is_derive (fun x => phi_sgn * sin_fac x * Hp_of nu m F F1 x) (mu_ h j)
    (phi_sgn * d_azimuthal X o hr (azimuthal X o hr) j + hpp_defect (mu_ h j)).
Proof.
  intros Hj. pose proof (s_pos h j Hj) as Hs. pose proof (HD j Hj) as Hd. destruct (der_F j Hj) as [DF DF1].
  pose proof (der_Hp nu m F F1 (mu_ h j) _ (mu_in j Hj) Hd DF DF1) as HT.
  unfold d_azimuthal. fold h nu m.
  match type of HT with is_derive _ _ ?v => set (V := v) in * end.
  assert (HA : apply_op h X hr (hpp_coeff_0 nu m h) (hpp_coeff_1 nu m h) (Some (hpp_coeff_2 nu h)) (parity_ o) (pf_ o) j / s_ h j ^ 3 = V).
  { rewrite apply_op_eq by exact Hj. rewrite (rep_2 _ _ _ _ _ _ _ _ HR j Hj), (rep_1 _ _ _ _ _ _ _ _ HR j Hj), (rep_0 _ _ _ _ _ _ _ _ HR j Hj).
    unfold V, hpp_coeff_0, hpp_coeff_1, hpp_coeff_2. rewrite s4, s2 by exact Hj. rewrite denom_eq. change (sqrt (1 - mu_ h j ^ 2)) with (s_ h j). reflexivity. }
  pose proof (der_sqrt_mul _ _ _ (mu_in j Hj) HT) as Q.
  unfold hpp_defect. unfold sin_fac, phi_sgn. destruct (sin_factor (o_ins o)) eqn:Es.
  - cbv beta. rewrite HA, half_hp by exact Hj. unfold sin_fac, phi_sgn. rewrite Es.
    apply (is_derive_ext (fun x => (if adjust_phi_sign (o_ins o) then -1 else 1) * (sqrt (1 - x ^ 2) * Hp_of nu m F F1 x))); [intros; eqR; ring|].
    pose proof (is_derive_scal _ _ (if adjust_phi_sign (o_ins o) then -1 else 1) _ Q) as Q2.
    match type of Q2 with is_derive _ _ ?v => match goal with |- is_derive _ _ ?w => replace w with v; [exact Q2|] end end.
    eqR. change (sqrt (1 - mu_ h j ^ 2)) with (s_ h j). destruct (adjust_phi_sign (o_ins o)); field; lra.
  - cbv beta. rewrite HA.
    apply (is_derive_ext (fun x => (if adjust_phi_sign (o_ins o) then -1 else 1) * Hp_of nu m F F1 x)); [intros; eqR; ring|].
    pose proof (is_derive_scal _ _ (if adjust_phi_sign (o_ins o) then -1 else 1) _ HT) as Q2.
    match type of Q2 with is_derive _ _ ?v => match goal with |- is_derive _ _ ?w => replace w with v; [exact Q2|] end end.
    eqR. destruct (adjust_phi_sign (o_ins o)); ring.
Qed.
End Rep.
