(** * C103: each of the four terms is the quadrature of its density. *)
From Coq Require Import Reals List ZArith Bool Lia Lra.
From Coquelicot Require Import Complex.
From Verif Require Import Base Py Coupling_Model Coupling_Spec Coupling_Proofs Energy_Spec Energy_Proofs Energy_Point.
Import ListNotations.
Local Open Scope R_scope.

Lemma Re_half z : Re (RtoC (1 / 2) * z)%C = 1 / 2 * Re z. Proof. destruct z; cbn. lra. Qed.
Lemma Re_real a z : Re (RtoC a * z)%C = a * Re z. Proof. destruct z; cbn. ring. Qed.
Lemma Re_add a b : Re (a + b)%C = Re a + Re b. Proof. reflexivity. Qed.
Lemma Re_2 z : Re ((RtoC 1 + RtoC 1) * z)%C = 2 * Re z. Proof. destruct z; cbn. ring. Qed.
Lemma Re_4 z : Re ((RtoC 1 + RtoC 1) * (RtoC 1 + RtoC 1) * z)%C = 4 * Re z. Proof. destruct z; cbn. ring. Qed.

Lemma kappa_1_quad E stop : standard E -> e_self E = false -> good E stop -> signed_m_sum E = 0%Z -> hough_arrays E ->
  kappa_1 E stop = Ok (quad E stop (fun i k => density_1 E (code_grad E i k) (div_of E i k) i)).
Proof.
  intros HS HE HG HM HH. unfold kappa_1. rewrite !s_term_ok by (assumption || (cbn; lia)). cbn [bind]. apply (f_equal (@Ok R)).
  rewrite !S_quad by assumption. cbv beta. set (w := fun i => e_P E i * (e_G1 E i - 1) * e_x E i ^ 2). set (dim := e_normP E * e_R E ^ 3).
  match goal with |- 1 / 2 * (1 / 2 * quad _ _ ?F1 + 1 / 2 * quad _ _ ?F2 + quad _ _ ?F3 + quad _ _ ?F4 + quad _ _ ?F5 + quad _ _ ?F6) * _ = _ =>
    rewrite (quad_ext_in E stop (fun i k => density_1 E (code_grad E i k) (div_of E i k) i)
      (fun i k => fold_right (fun p a => fst p * snd p i k + a) 0
         [(1 / 2 * dim * (1 / 2), F1); (1 / 2 * dim * (1 / 2), F2); (1 / 2 * dim, F3); (1 / 2 * dim, F4); (1 / 2 * dim, F5); (1 / 2 * dim, F6)])) end.
  - rewrite quad_comb by exact HG. cbn [fold_right fst snd]. ring.
  - intros i k K. cbn [fold_right fst snd]. unfold density_1, weight_p. rewrite <- point_1 by assumption. rewrite !Re_add, !Re_half. fold dim. ring.
Qed.
Lemma kappa_2_quad E stop : standard E -> good E stop -> signed_m_sum E = 0%Z ->
  kappa_2 E stop = Ok (quad E stop (fun i k => density_2 E (div_of E i k) i)).
Proof.
  intros HS HG HM. unfold kappa_2. rewrite rad_int_ok by apply HS. cbn [bind]. rewrite ang_int_ok by exact HS. cbn [bind]. apply (f_equal (@Ok R)).
  rewrite R_quad by assumption. set (dim := e_normP E * e_R E ^ 3).
  match goal with |- quad _ _ ?F * _ * _ = _ =>
    rewrite (quad_ext E stop (fun i k => density_2 E (div_of E i k) i)
      (fun i k => fold_right (fun p a => fst p * snd p i k + a) 0 [(1 / 2 * dim, F)])) end.
  - rewrite quad_comb by exact HG. cbn [fold_right fst snd]. ring.
  - intros i k. cbn [fold_right fst snd]. unfold density_2, weight_p, gamma_term, div_of. unfold rprod, aprod. cbn [over_sin].
    match goal with |- _ * Re ?a = _ * (_ * Re ?b) + _ => replace b with a by (rewrite !RtoC_mult; ring) end.
    fold dim. destruct (e_poly E); [ring|]. destruct (e_adder E); ring.
Qed.
Lemma kappa_3_quad E stop : standard E -> e_self E = false -> good E stop -> signed_m_sum E = 0%Z -> hough_arrays E ->
  kappa_3 E stop = Ok (quad E stop (fun i k => density_3 E (code_grad E i k) i)).
Proof.
  intros HS HE HG HM HH. unfold kappa_3. rewrite !s_term_ok by (assumption || (cbn; lia)). cbn [bind]. rewrite !rad_int_ok by apply HS. cbn [bind].
  rewrite !ang_int_ok by exact HS. cbn [bind]. apply (f_equal (@Ok R)).
  rewrite !S_quad by assumption. set (dim := e_normP E * e_R E ^ 3).
  match goal with |- 1 / 2 * (?a * (2 * ?q1 + 4 * ?q2) + 2 * ?q3 * (?b + ?c) + _) * _ = _ =>
    replace (a * (2 * q1 + 4 * q2) + 2 * q3 * (b + c)) with (2 * (q1 * a) + 4 * (q2 * a) + 2 * (q3 * b) + 2 * (q3 * c)) by ring end.
  rewrite !R_quad by assumption. cbv beta.
  match goal with |- 1 / 2 * (2 * quad _ _ ?G1 + 4 * quad _ _ ?G2 + 2 * quad _ _ ?G3 + 2 * quad _ _ ?G4 +
      (quad _ _ ?F1 + quad _ _ ?F2 + quad _ _ ?F3 + quad _ _ ?F4 + quad _ _ ?F5 + quad _ _ ?F6 + quad _ _ ?F7 + quad _ _ ?F8)) * _ = _ =>
    rewrite (quad_ext_in E stop (fun i k => density_3 E (code_grad E i k) i)
      (fun i k => fold_right (fun p a => fst p * snd p i k + a) 0
         [(1 / 2 * dim * 2, G1); (1 / 2 * dim * 4, G2); (1 / 2 * dim * 2, G3); (1 / 2 * dim * 2, G4);
          (1 / 2 * dim, F1); (1 / 2 * dim, F2); (1 / 2 * dim, F3); (1 / 2 * dim, F4); (1 / 2 * dim, F5); (1 / 2 * dim, F6); (1 / 2 * dim, F7); (1 / 2 * dim, F8)])) end.
  - rewrite quad_comb by exact HG. cbn [fold_right fst snd]. ring.
  - intros i k K. cbn [fold_right fst snd]. unfold density_3, weight_p. rewrite <- point_3 by assumption. rewrite !Re_add, Re_4, !Re_2. fold dim. ring.
Qed.
Lemma kappa_4_quad E stop : standard E -> e_self E = false -> good E stop -> signed_m_sum E = 0%Z ->
  kappa_4 E stop = Ok (quad E stop (fun i k => density_4 E (disp_of E one3 i k) i)).
Proof.
  intros HS HE HG HM. unfold kappa_4. rewrite !s_term_ok by (assumption || (cbn; lia)). cbn [bind]. rewrite !rad_int_ok by apply HS. cbn [bind].
  rewrite !ang_int_ok by exact HS. cbn [bind]. apply (f_equal (@Ok R)).
  rewrite !S_quad, R_quad by assumption. set (dim := e_normrho E * e_R E ^ 6). cbv beta.
  match goal with |- - (1 / 2) * (1 / 2 * quad _ _ ?F + quad _ _ ?G) * _ = _ =>
    rewrite (quad_ext E stop (fun i k => density_4 E (disp_of E one3 i k) i)
      (fun i k => fold_right (fun p a => fst p * snd p i k + a) 0 [(- (1 / 2) * dim * (1 / 2), F); (- (1 / 2) * dim, G)])) end.
  - rewrite quad_comb by exact HG. cbn [fold_right fst snd]. ring.
  - intros i k. cbn [fold_right fst snd]. unfold density_4, potential3. rewrite <- point_4. rewrite Re_add, !Re_real. fold dim.
    unfold Rdiv. ring.
Qed.
Lemma coupling_quad E stop : standard E -> e_self E = false -> good E stop -> signed_m_sum E = 0%Z -> hough_arrays E ->
  coupling_rot E stop = Ok {|
    cc_1 := quad E stop (fun i k => density_1 E (code_grad E i k) (div_of E i k) i);
    cc_2 := quad E stop (fun i k => density_2 E (div_of E i k) i);
    cc_3 := quad E stop (fun i k => density_3 E (code_grad E i k) i);
    cc_4 := quad E stop (fun i k => density_4 E (disp_of E one3 i k) i);
    cc_tot := energy E stop (fun p => - order E p) (order E) (order E) one3 |}.
Proof.
  intros HS HE HG HM HH. unfold coupling_rot. rewrite kappa_1_quad, kappa_2_quad, kappa_3_quad, kappa_4_quad by assumption. cbn [bind].
  apply (f_equal (@Ok _)). f_equal. unfold energy.
  match goal with |- quad _ _ ?F1 + quad _ _ ?F2 + quad _ _ ?F3 + quad _ _ ?F4 = _ =>
    transitivity (quad E stop (fun i k => fold_right (fun p a => fst p * snd p i k + a) 0 [(1, F1); (1, F2); (1, F3); (1, F4)])) end.
  - rewrite quad_comb by exact HG. cbn [fold_right fst snd]. ring.
  - apply quad_ext. intros i k. cbn [fold_right fst snd]. cbv beta zeta. change (grad_of E (fun p => - order E p) (order E) (order E) one3 i k) with (code_grad E i k). ring.
Qed.
