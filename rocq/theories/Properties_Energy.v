(** * Properties C103, C104: what the coupling coefficient is.
    Specification: Energy_Spec.v (gradient tensors of displacement fields in spherical
    components, the cubic interaction energy of Schenk et al. 2002 / Lee 2012). *)
From Coq Require Import Reals List ZArith Bool Lia Lra String.
From Coquelicot Require Import Complex.
From Verif Require Import Base Py NumInt_Model NumInt_Spec NumInt_Proofs Coupling_Model Coupling_Spec Coupling_Proofs.
From Verif Require Hough_Model.
From Verif Require Import Energy_Spec Energy_Proofs Energy_Point Energy_Kappa.
Import ListNotations.
Local Open Scope R_scope.

(** C103: every term of the coefficient, on every partial radial range, is the iterated quadrature
    of the corresponding density of the cubic interaction energy, for gradient tensors whose
    entries are those of the displacement fields except that the azimuthal derivative of the
    radial component carries the azimuthal order with the opposite sign; no complex conjugate is
    taken (all signs s are 1). *)
Theorem C103_coupling_is_interaction_energy : forall E stop, standard E -> e_self E = false ->
  linear (e_integ E) -> (2 <= stop)%nat -> (2 <= e_n E)%nat -> (2 <= e_nmu E)%nat ->
  signed_m_sum E = 0%Z -> hough_arrays E ->
  let G := grad_of E (fun p => - order E p) (order E) (order E) (fun _ => 1) in
  coupling_rot E stop = Ok {|
    cc_1 := quad E stop (fun i k => density_1 E (G i k) (div_of E i k) i);
    cc_2 := quad E stop (fun i k => density_2 E (div_of E i k) i);
    cc_3 := quad E stop (fun i k => density_3 E (G i k) i);
    cc_4 := quad E stop (fun i k => density_4 E (disp_of E (fun _ => 1) i k) i);
    cc_tot := energy E stop (fun p => - order E p) (order E) (order E) (fun _ => 1) |}.
Proof. intros. apply coupling_quad; try assumption. unfold good. auto. Qed.
(** the library's integrate() is linear, for every method and call history *)
Theorem C103_library_integrator_linear : forall hist method threads par,
  linear (fun es ys xs => match integrate RA hist method es ys xs threads par with Ok r => r | _ => 0 end).
Proof.
  intros hist method threads par es a c ys zs xs L1 L2 H2.
  assert (HB : in_bounds (String.eqb method "simpson") es (List.length xs) (List.length xs)).
  { unfold in_bounds. destruct es; [|right; lia].
    destruct (String.eqb method "simpson" && Nat.odd (List.length xs))%bool eqn:Eo; [|lia].
    apply andb_prop in Eo. destruct Eo as [_ Eo]. apply Nat.odd_spec in Eo. destruct Eo as [k Ek]. lia. }
  destruct (integrate_safety RA hist method es ys xs threads par) as [HS _]. rewrite L1 in HS. destruct (HS HB) as [r Hr].
  destruct (integrate_safety RA hist method es zs xs threads par) as [HT _]. rewrite L2 in HT. destruct (HT HB) as [q Hq].
  pose proof (integrate_linear hist method es a c ys zs xs threads par r q ltac:(congruence) Hr Hq) as HL.
  unfold lincomb in HL. rewrite (map_ext _ (fun '(x, y) => a * x + c * y)) by (intros [x y]; reflexivity). rewrite HL, Hr, Hq. reflexivity.
Qed.
(** the arrays of the Hough function class have these relations, after multiplication by any normalisation factor *)
Theorem C103_hough_arrays : forall o r f k, (k < 2 * Hough_Model.o_h o)%nat ->
  let m := IZR (Hough_Model.o_m o) in let mu := Hough_Model.mu_full (Hough_Model.o_h o) k in
  Hough_Model.hr_range_m o r k * f = - m * (Hough_Model.hr_range o r k * f) /\
  Hough_Model.theta_phi o r k * f = m * (Hough_Model.ht_range o r k * f) - mu * (Hough_Model.hp_range o r k * f) /\
  Hough_Model.phi_phi o r k * f = (mu * (Hough_Model.ht_range o r k * f) - m * (Hough_Model.hp_range o r k * f)) / sqrt (1 - mu ^ 2).
Proof.
  intros o r f k K m mu. unfold mu, m. unfold Hough_Model.hr_range_m, Hough_Model.theta_phi, Hough_Model.phi_phi, Hough_Model.ht_range, Hough_Model.hp_range, Hough_Model.hr_range, Hough_Model.extend, Hough_Model.mu_full, Hough_Model.concat_rev, Hough_Model.s_.
  destruct (k <? Hough_Model.o_h o)%nat; (split; [ring|]; split; [ring|]).
  - replace (1 - (-1 * Hough_Model.mu_ (Hough_Model.o_h o) k) ^ 2) with (1 - Hough_Model.mu_ (Hough_Model.o_h o) k ^ 2) by ring. unfold Rdiv. ring.
  - unfold Rdiv. ring.
Qed.

(** a concrete object: modes m = 2, 1, 1, the first one conjugated, Hr = Hp = 1, z_2 = z, all other radial functions 1 or 0 *)
Definition plain_sum (b : bool) (ys xs : list R) : R := fold_right Rplus 0 ys.
Definition ex_mu (k : nat) : R := match k with O => -3 / 5 | _ => 3 / 5 end.
Definition ex_m (p : nat) : R := match p with 1%nat => 2 | _ => 1 end.
Definition ex (z : R) (c : list bool) : cenv := {|
  e_n := 2; e_x := fun i => INR i; e_nmu := 2; e_mu := ex_mu;
  e_rad := fun t _ _ => match t with RZ1 | RDerXZ2c | RDiverg => RtoC 1 | RZ2c => RtoC z | _ => RtoC 0 end;
  e_ang := fun t p k => match t with Hr | Hp => 1 | MHr => - ex_m p | ThPh => - ex_mu k | PhPh => - ex_m p * (5 / 4) | _ => 0 end;
  e_m := [2; 1; 1]%Z; e_conj := ConjTuple c; e_self := false; e_complex := false;
  e_cheby := false; e_cheby_mul := 4; e_blow := false; e_blow_fac := 1000; e_poly := false;
  e_P := fun _ => 1; e_G1 := fun _ => 2; e_rhon := fun _ => 0; e_rho := fun _ => 1; e_adder := None;
  e_g1 := fun _ => 0; e_g2 := fun _ => 0; e_g3 := fun _ => 0; e_normP := 1; e_normrho := 1; e_R := 1;
  e_corot := fun _ => 1; e_surf := 1; e_integ := plain_sum |}.
Lemma ex_sin z c k : (k < 2)%nat -> sin_at (ex z c) k = 4 / 5.
Proof.
  intros K. unfold sin_at. cbn [ex e_mu]. replace (1 - ex_mu k ^ 2) with (Rsqr (4 / 5)).
  - apply sqrt_Rsqr. lra.
  - unfold Rsqr. destruct k as [|[|k]]; cbn; lra.
Qed.
Lemma ex_linear z c : linear (e_integ (ex z c)).
Proof.
  intros b a d ys zs xs L1 L2 _. cbn. unfold plain_sum. assert (L : List.length ys = List.length zs) by congruence. clear L1 L2 xs. revert zs L.
  induction ys as [|y ys IH]; intros [|z1 zs] L; cbn in *; try discriminate; [ring|]. rewrite IH by congruence. ring.
Qed.
Lemma ex_hough z c : hough_arrays (ex z c).
Proof.
  intros p k P K. rewrite ex_sin by exact K. unfold order. cbn [ex e_ang e_m e_mu].
  assert (p = 1 \/ p = 2 \/ p = 3)%nat as [-> | [-> | ->]] by lia; cbn; (split; [lra|split; lra]).
Qed.
Theorem C103_hypotheses_met : exists E, standard E /\ e_self E = false /\ linear (e_integ E) /\ (2 <= e_n E)%nat /\ (2 <= e_nmu E)%nat /\
  signed_m_sum E = 0%Z /\ hough_arrays E /\ e_conj E = ConjTuple [true; false; false].
Proof.
  exists (ex 1 [true; false; false]). split. { unfold standard. cbn. repeat split; do 3 eexists; reflexivity. }
  split; [reflexivity|]. split; [apply ex_linear|]. split; [cbn; lia|]. split; [cbn; lia|]. split; [reflexivity|]. split; [apply ex_hough|reflexivity].
Qed.

(** C104 (finding): the conjugation flags only decide whether a triad couples; whenever the azimuthal orders of two choices of flags
    both satisfy the rule, the coefficients are the same, although the interaction energies are those of different fields. *)
Theorem C104_conjugation_of_the_fields_ignored : forall E c1 c2 c3 stop, standard E ->
  signed_m_sum E = 0%Z -> signed_m_sum (with_conj [c1; c2; c3] E) = 0%Z ->
  coupling_rot (with_conj [c1; c2; c3] E) stop = coupling_rot E stop.
Proof.
  intros E c1 c2 c3 stop HS M M'. set (E' := with_conj [c1; c2; c3] E) in *.
  assert (HS' : standard E') by (destruct HS as (_ & H2 & H3 & H4 & H5); split; [do 3 eexists; reflexivity|]; split; [exact H2|]; split; [exact H3|]; split; assumption).
  assert (AV : forall t d s, angular_value E' t d s = angular_value E t d s).
  { intros [[h1 h2] h3] d [[p q] r]. unfold angular_value. rewrite M, M'. reflexivity. }
  assert (HA : forall d t, ang_int E' d t = ang_int E d t) by (intros; rewrite !ang_int_ok by assumption; rewrite AV; reflexivity).
  assert (HR : forall t w, rad_int E' t w stop = rad_int E t w stop) by reflexivity.
  assert (SA : forall l acc, sum_ang E' l acc = sum_ang E l acc).
  { induction l as [|[t d] l IH]; intros acc; cbn [sum_ang]; [reflexivity|]. rewrite HA. destruct (ang_int E d t); cbn [bind]; auto. }
  assert (SR : forall l w acc, sum_rad E' l w stop acc = sum_rad E l w stop acc).
  { induction l as [|t l IH]; intros w acc; cbn [sum_rad]; [reflexivity|]. rewrite HR. destruct (rad_int E t w stop); cbn [bind]; auto. }
  assert (ST : forall rt w at_ afac rfac, (List.length (rad_list rt) <= List.length rfac)%nat -> (List.length (ang_list at_) <= List.length afac)%nat ->
    (List.length (ang_list at_) <= List.length (div_list at_))%nat -> s_term E' rt w at_ afac rfac stop = s_term E rt w at_ afac rfac stop).
  { intros rt w at_ afac rfac L1 L2 L3. destruct (e_self E) eqn:Es.
    - unfold s_term. cbn [with_conj e_self E']. rewrite Es. destruct at_; rewrite ?SA, ?HA; destruct rt; rewrite ?SR; reflexivity.
    - rewrite !s_term_ok by assumption. apply (f_equal (@Ok R)). unfold S_value, sum_over. generalize assignments. induction l as [|s l IH]; cbn [fold_right]; [reflexivity|]. rewrite IH. f_equal. f_equal.
      unfold weighted_ang. induction (combine (combine (ang_list at_) (div_list at_)) afac) as [|p q IHq]; cbn [fold_right]; [reflexivity|]. rewrite IHq, AV. reflexivity. }
  unfold coupling_rot.
  assert (K1 : kappa_1 E' stop = kappa_1 E stop). { unfold kappa_1. rewrite !ST by (cbn; lia). reflexivity. }
  assert (K2 : kappa_2 E' stop = kappa_2 E stop). { unfold kappa_2. rewrite HR, HA. reflexivity. }
  assert (K3 : kappa_3 E' stop = kappa_3 E stop). { unfold kappa_3. rewrite !ST by (cbn; lia). rewrite !HR, !HA. reflexivity. }
  assert (K4 : kappa_4 E' stop = kappa_4 E stop). { unfold kappa_4. rewrite !ST by (cbn; lia). rewrite !HR, !HA. reflexivity. }
  rewrite K1, K2, K3, K4. reflexivity.
Qed.
Definition ex_value (mr m s : nat -> R) (z : R) : R :=
  let a1 := mr 1%nat in let a2 := mr 2%nat in let a3 := mr 3%nat in let m1 := m 1%nat in let m2 := m 2%nat in let m3 := m 3%nat in
  let s1 := s 1%nat in let s2 := s 2%nat in let s3 := s 3%nat in
  - (125 / 64) * z ^ 3 * (m1 * m2 * m3) - 5 / 4 * z ^ 2 * (s1 * s2 * m3 + s1 * s3 * m2 + s2 * s3 * m1) + 75 / 32 * z ^ 2 * (m1 * m2 + m1 * m3 + m2 * m3)
  + 25 / 32 * z * (s1 * s2 * (a1 + a2) * m3 + s1 * s3 * (a1 + a3) * m2 + s2 * s3 * (a2 + a3) * m1) + 2 * z * (s1 * s2 + s1 * s3 + s2 * s3)
  - 5 / 2 * z * (m1 + m2 + m3) - 5 / 4 * (s1 * s2 * (a1 + a2) + s1 * s3 * (a1 + a3) + s2 * s3 * (a2 + a3)) + 11 / 2.
Definition sparse (s b c d : R) : mat3 := fun j l =>
  match j, l with
  | 0%nat, 2%nat => Ci * RtoC s | 1%nat, 1%nat => RtoC 1 | 2%nat, 0%nat => Ci * RtoC b | 2%nat, 1%nat => Ci * RtoC c | 2%nat, 2%nat => RtoC d
  | _, _ => RtoC 0
  end%C.
Lemma Ci_sq : (Ci * Ci = - RtoC 1)%C.
Proof. unfold Ci, Cmult, Copp, RtoC. cbn [fst snd]. f_equal; ring. Qed.
Lemma tr2_sparse s1 b1 c1 d1 s2 b2 c2 d2 : tr2 (sparse s1 b1 c1 d1) (sparse s2 b2 c2 d2) = RtoC (1 - s1 * b2 - s2 * b1 + d1 * d2).
Proof. unfold tr2, sum3, sparse. rewrite !RtoC_plus, !RtoC_minus, !RtoC_mult. ring [Ci_sq]. Qed.
Lemma tr3_sparse s1 b1 c1 d1 s2 b2 c2 d2 s3 b3 c3 d3 : tr3 (sparse s1 b1 c1 d1) (sparse s2 b2 c2 d2) (sparse s3 b3 c3 d3) =
  RtoC (1 - s1 * d2 * b3 - b1 * s2 * d3 - d1 * b2 * s3 + d1 * d2 * d3).
Proof. unfold tr3, sum3, sparse. rewrite !RtoC_plus, !RtoC_minus, !RtoC_mult. ring [Ci_sq]. Qed.
Lemma ex_grad c mr m s z i k p a b : (k < 2)%nat ->
  grad_of (ex z c) mr m m s i k p a b = sparse (s p) (s p * (5 / 4 * mr p - z)) (- s p * z * (5 / 4) * ex_mu k) (1 - 5 / 4 * z * m p) a b.
Proof.
  intros K. unfold grad_of. rewrite ex_sin by exact K. cbn [ex e_ang e_rad e_mu].
  unfold grad, sparse. destruct a as [|[|[|a]]], b as [|[|[|b]]]; try reflexivity;
    unfold Cminus, Copp, Cplus, Cmult, RtoC, Ci; cbn [fst snd]; f_equal; field.
Qed.
Lemma tr2_ext A B A' B' : (forall a b, A a b = A' a b) -> (forall a b, B a b = B' a b) -> tr2 A B = tr2 A' B'.
Proof. intros H1 H2. unfold tr2, sum3. rewrite !H1, !H2. reflexivity. Qed.
Lemma tr3_ext A B D A' B' D' : (forall a b, A a b = A' a b) -> (forall a b, B a b = B' a b) -> (forall a b, D a b = D' a b) -> tr3 A B D = tr3 A' B' D'.
Proof. intros H1 H2 H3. unfold tr3, sum3. rewrite !H1, !H2, !H3. reflexivity. Qed.
Lemma ex_density c mr m s z i k : (k < 2)%nat ->
  let G := grad_of (ex z c) mr m m s i k in
  density_1 (ex z c) G (div_of (ex z c) i k) i + density_2 (ex z c) (div_of (ex z c) i k) i + density_3 (ex z c) G i + density_4 (ex z c) (disp_of (ex z c) s i k) i
  = INR i ^ 2 * ex_value mr m s z.
Proof.
  intros K G. unfold density_1, density_2, density_3, density_4, weight_p, gamma_term.
  assert (T2 : forall p q, tr2 (G p) (G q) = RtoC (1 - s p * (s q * (5 / 4 * mr q - z)) - s q * (s p * (5 / 4 * mr p - z)) + (1 - 5 / 4 * z * m p) * (1 - 5 / 4 * z * m q))).
  { intros p q. unfold G. rewrite (tr2_ext _ _ _ _ (fun a b => ex_grad c mr m s z i k p a b K) (fun a b => ex_grad c mr m s z i k q a b K)). apply tr2_sparse. }
  assert (T3 : forall p q r, tr3 (G p) (G q) (G r) = RtoC (1 - s p * (1 - 5 / 4 * z * m q) * (s r * (5 / 4 * mr r - z)) - (s p * (5 / 4 * mr p - z)) * s q * (1 - 5 / 4 * z * m r)
     - (1 - 5 / 4 * z * m p) * (s q * (5 / 4 * mr q - z)) * s r + (1 - 5 / 4 * z * m p) * (1 - 5 / 4 * z * m q) * (1 - 5 / 4 * z * m r))).
  { intros p q r. unfold G. rewrite (tr3_ext _ _ _ _ _ _ (fun a b => ex_grad c mr m s z i k p a b K) (fun a b => ex_grad c mr m s z i k q a b K) (fun a b => ex_grad c mr m s z i k r a b K)). apply tr3_sparse. }
  rewrite !T2, !T3. unfold div_of.
  cbn [ex e_normP e_R e_P e_x e_G1 e_rad e_ang e_rhon e_normrho e_adder e_poly].
  match goal with |- context [Re (contract3 ?a ?b ?c ?d)] => generalize (Re (contract3 a b c d)); intros q4 end.
  assert (RE : forall x, Re (RtoC x) = x) by reflexivity. rewrite <- !RtoC_mult, <- !RtoC_plus, !RE.
  unfold ex_value. cbv zeta.
  generalize (mr 1%nat), (mr 2%nat), (mr 3%nat), (m 1%nat), (m 2%nat), (m 3%nat), (s 1%nat), (s 2%nat), (s 3%nat), (INR i). intros. field.
Qed.
Lemma ex_energy c mr m s z : energy (ex z c) 2 mr m m s = 4 * PI * ex_value mr m s z.
Proof.
  unfold energy. rewrite (quad_ext_in _ _ _ (fun i k => INR i ^ 2 * ex_value mr m s z)) by (intros i k K; apply ex_density; exact K).
  unfold quad. cbn [ex e_integ e_n e_nmu seq map firstn]. unfold plain_sum. cbn [fold_right INR]. ring.
Qed.
(** ... and the coefficient is not the interaction energy of the displacement fields, for either sign of the azimuthal dependence, with or
    without conjugation *)
Theorem C104_not_an_interaction_energy : exists E r, standard E /\ e_self E = false /\ linear (e_integ E) /\ signed_m_sum E = 0%Z /\ hough_arrays E /\
  coupling_rot E (e_n E) = Ok r /\
  forall m s, (m = order E \/ m = fun p => - order E p) -> (s = conj_sign E \/ s = fun _ => 1) -> cc_tot r <> energy E (e_n E) m m m s.
Proof.
  exists (ex 1 [true; false; false]). eexists. split. { unfold standard. cbn. repeat split; do 3 eexists; reflexivity. }
  split; [reflexivity|]. split; [apply ex_linear|]. split; [reflexivity|]. split; [apply ex_hough|]. split.
  - apply C103_coupling_is_interaction_energy; try (cbn; lia); try reflexivity; [|apply ex_linear|apply ex_hough].
    unfold standard. cbn. repeat split; do 3 eexists; reflexivity.
  - intros m s Hm Hs. cbn [cc_tot]. change (e_n (ex 1 [true; false; false])) with 2%nat. rewrite !ex_energy. intros H.
    apply Rmult_eq_reg_l in H; [|pose proof PI_RGT_0; lra]. unfold ex_value in H.
    destruct Hm as [-> | ->], Hs as [-> | ->]; unfold order, conj_sign in H; cbn in H; lra.
Qed.
(** the coefficient is right for axisymmetric triads of modes without azimuthal displacement *)
Theorem C104_right_without_azimuthal_displacement : forall E stop r s, standard E -> e_self E = false -> linear (e_integ E) ->
  (2 <= stop)%nat -> (2 <= e_n E)%nat -> (2 <= e_nmu E)%nat -> hough_arrays E -> e_m E = [0; 0; 0]%Z ->
  (forall p k, e_ang E Hp p k = 0 /\ e_ang E DHp p k = 0) -> coupling_rot E stop = Ok r -> cc_tot r = energy E stop (order E) (order E) (order E) s.
Proof.
  intros E stop r s HS HE HL H1 H2 H3 HH HM HP HR.
  assert (M0 : signed_m_sum E = 0%Z). { destruct HS as ((c1 & c2 & c3 & Ec) & _). unfold signed_m_sum. rewrite Ec, HM. destruct c1, c2, c3; reflexivity. }
  rewrite (C103_coupling_is_interaction_energy E stop HS HE HL H1 H2 H3 M0 HH) in HR. injection HR as <-. cbn [cc_tot].
  assert (O : forall p, order E p = 0). { intros p. unfold order. rewrite HM. destruct (p - 1)%nat as [|[|[|[|q]]]]; reflexivity. }
  apply quad_ext. intros i k. cbv zeta.
  assert (G : forall p a b, grad_of E (fun p => - order E p) (order E) (order E) (fun _ => 1) i k p a b = grad_of E (order E) (order E) (order E) s i k p a b).
  { intros p a b. unfold grad_of, grad. destruct (HP p k) as [-> ->]. rewrite !O. destruct a as [|[|[|a]]], b as [|[|[|b]]]; try reflexivity;
      unfold Rdiv; rewrite ?Ropp_0, ?Rmult_0_l, ?Rmult_0_r, ?Rminus_0_r, ?Rmult_0_l; ring. }
  assert (D : forall p a, disp_of E (fun _ => 1) i k p a = disp_of E s i k p a).
  { intros p a. unfold disp_of, disp. destruct (HP p k) as [-> _]. destruct a as [|[|[|a]]]; try reflexivity; ring. }
  unfold density_1, density_3, density_4, tr2, tr3, contract3, sum3. rewrite !G, !D. reflexivity.
Qed.
