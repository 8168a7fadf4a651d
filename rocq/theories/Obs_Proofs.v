From Coq Require Import Reals List ZArith Lia Lra.
From Coquelicot Require Import Complex.
From Verif Require Import Base Py Stab_Model Stat_Model Obs_Model Obs_Spec.
Import ListNotations.
Local Open Scope R_scope.

Lemma ok_inj {A} (x y : A) : Ok x = Ok y -> x = y.
Proof. intros H. injection H as H. exact H. Qed.
Lemma np_mod_reduced x : reduced_angle x (np_mod x (2 * PI)).
Proof.
  assert (P := PI_RGT_0). unfold np_mod. set (q := x / (2 * PI)). assert (E : x = 2 * PI * q) by (unfold q; field; lra).
  destruct (base_Int_part q) as [A B]. split; [|exists (Int_part q); ring].
  split; [rewrite E at 1; nra|]. rewrite E at 1. nra.
Qed.
Lemma angle_abs x : np_angle (Rabs x) = 0.
Proof. unfold np_angle. destruct (Rlt_dec (Rabs x) 0) as [H|H]; [|reflexivity]. pose proof (Rabs_pos x). lra. Qed.
Lemma lum_zero s : rel_lum_phase (disc_factors s) = 0.
Proof. unfold rel_lum_phase, disc_factors. rewrite !angle_abs. ring. Qed.
Lemma az_sum a c :
  let az := azimuthal_factors a c in
  az 0%nat - (az 1%nat + az 2%nat) =
  IZR (m_mode c 0%nat - m_mode c 1%nat - m_mode c 2%nat) * match azimuth a with None => 0 | Some z => z end.
Proof.
  cbv zeta. unfold azimuthal_factors. rewrite !minus_IZR. destruct (azimuth a) as [z|]; [|ring].
  destruct (Req_EM_T z 0) as [->|N]; ring.
Qed.
Lemma nsqrt_pos x : 0 <= x -> nsqrt x = Some (sqrt x).
Proof. intros H. unfold nsqrt. destruct (Rlt_dec x 0) as [N|N]; [lra|reflexivity]. Qed.
Lemma nsqrt_neg x : x < 0 -> nsqrt x = None.
Proof. intros H. unfold nsqrt. destruct (Rlt_dec x 0) as [N|N]; [reflexivity|lra]. Qed.
