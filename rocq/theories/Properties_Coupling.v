(** * Properties C43-C47, C66-C70: quadratic coupling coefficients.
    Exact real arithmetic; the quadrature routine [e_integ] is arbitrary unless a theorem
    says otherwise. *)
From Coq Require Import Reals List ZArith Bool Lia Lra String.
From Coquelicot Require Import Coquelicot.
From Verif Require Import Base Py NumInt_Model NumInt_Spec NumInt_Proofs Coupling_Model Coupling_Spec Coupling_Proofs Coupling_Cheby.
Import ListNotations.
Local Open Scope R_scope.

(** a small concrete object: 3 radial points, 2 angular points, plain sums as quadrature,
    modes with different functions *)
Definition demo (integ : bool -> list R -> list R -> R) (ms : list Z) (f : nat -> R) (self : bool) : cenv := {|
  e_n := 3; e_x := fun i => INR i + 1; e_nmu := 2; e_mu := fun _ => 0;
  e_rad := fun _ i _ => RtoC (f i); e_ang := fun _ i _ => f i;
  e_m := ms; e_conj := ConjTuple [true; false; false]; e_self := self; e_complex := false;
  e_cheby := false; e_cheby_mul := 4; e_blow := false; e_blow_fac := 1000; e_poly := false;
  e_P := fun _ => 1; e_G1 := fun _ => 2; e_rhon := fun _ => 1; e_rho := fun _ => 1; e_adder := None;
  e_g1 := fun _ => 0; e_g2 := fun _ => 0; e_g3 := fun _ => 0; e_normP := 1; e_normrho := 1; e_R := 1;
  e_corot := fun _ => 1; e_surf := 1; e_integ := integ |}.
Definition plain_sum (b : bool) (ys xs : list R) : R := fold_right Rplus 0 ys.
Lemma demo_standard integ m1 m2 m3 f self : standard (demo integ [m1; m2; m3] f self).
Proof. repeat split; do 3 eexists; reflexivity. Qed.

(** C43: every symmetrised term is the sum over the six assignments of the modes to the three
    operators of (weighted radial integrals) x (weighted angular integrals), whatever operators
    coincide and whichever of the four single/multi-term variants is used. *)
Theorem C43_s_term_is_sum_over_assignments : forall E rt w at_ afac rfac stop,
  standard E -> e_self E = false ->
  (List.length (rad_list rt) <= List.length rfac)%nat -> (List.length (ang_list at_) <= List.length afac)%nat ->
  (List.length (ang_list at_) <= List.length (div_list at_))%nat ->
  s_term E rt w at_ afac rfac stop =
  Ok (sum_over assignments (fun s =>
        weighted_rad E (rad_list rt) rfac w stop s * weighted_ang E (ang_list at_) (div_list at_) afac s)).
Proof. exact s_term_ok. Qed.
(** ... and the six assignments are exactly the bijections of {1, 2, 3}, each once *)
Theorem C43_assignments_are_the_bijections :
  NoDup assignments /\ forall p q r, In (p, q, r) assignments <->
    (1 <= p <= 3 /\ 1 <= q <= 3 /\ 1 <= r <= 3 /\ p <> q /\ p <> r /\ q <> r)%nat.
Proof.
  split.
  - repeat constructor; cbn; intuition congruence.
  - intros p q r. split.
    + cbn. intros H. decompose [or] H; try (match goal with HH : (_, _, _) = _ |- _ => injection HH as <- <- <-; lia end). contradiction.
    + intros (H1 & H2 & H3 & H4 & H5 & H6). 
      assert (p = 1 \/ p = 2 \/ p = 3)%nat as Hp by lia. assert (q = 1 \/ q = 2 \/ q = 3)%nat as Hq by lia. assert (r = 1 \/ r = 2 \/ r = 3)%nat as Hr by lia.
      decompose [or] Hp; decompose [or] Hq; decompose [or] Hr; subst; cbn; try tauto; lia.
Qed.
(** ... missing weights are an IndexError, not a silent weight of one *)
Theorem C43_missing_weight_raises : forall E t u d d' r w f stop, standard E -> e_self E = false ->
  s_term E (RSingle r) w (AMulti [t; u] [d; d']) [f] [1] stop = Exc IndexError.
Proof.
  intros E t u d d' r w f stop Hs He. unfold s_term. rewrite He. cbn [determiner].
  assert (Hc : e_complex E = false) by apply Hs.
  pose proof (rad_columns_ok E w stop Hc [r] [] [1] ltac:(cbn; lia)) as HR. change (Z.of_nat (List.length (@nil R))) with 0%Z in HR. cbn [app] in HR.
  rewrite HR. cbn [bind].
  pose proof (ang_columns_ok E Hs [t] [] [] [d] [f] eq_refl ltac:(cbn; lia) ltac:(cbn; lia)) as HA. change (Z.of_nat (List.length (@nil R))) with 0%Z in HA. cbn [app] in HA.
  cbn [ang_columns] in *.
  destruct (column (triple_eqb aterm_beq) (fun key => (f0 <- py_get [f] 0; d0 <- py_get [d] 0; v <- ang_int E d0 key; Ok (f0 * v))%res) t) as [c| |] eqn:Ec;
    cbn [bind] in HA; try discriminate.
  replace (column (triple_eqb aterm_beq) (fun key => (f0 <- py_get [f] 0; d0 <- py_get [d; d'] 0; v <- ang_int E d0 key; Ok (f0 * v))%res) t) with (Ok c : res (list R)) by (symmetry; exact Ec).
  cbn [bind]. destruct u as [[a b] e]. unfold column, symmetry_mapping.
  assert (HF : forall dct arr, dct <> [] -> fill_dict (fun key : aterm * aterm * aterm => (f0 <- py_get [f] (0 + 1); d0 <- py_get [d; d'] (0 + 1); v <- ang_int E d0 key; Ok (f0 * v))%res) dct arr = Exc IndexError).
  { intros [|[k l] dct] arr N; [contradiction|]. reflexivity. }
  rewrite HF; [reflexivity|].
  assert (HD : forall X (eqb : X -> X -> bool) dct k i, dict_append eqb dct k i <> []).
  { intros X eqb [|[k' l] dct] k i; cbn; [discriminate|]. destruct (eqb k k'); discriminate. }
  cbn [permutations3 fold_left fst snd]. apply HD.
Qed.
Example C43_example : standard (demo plain_sum [2; 1; 1]%Z INR false) /\ e_self (demo plain_sum [2; 1; 1]%Z INR false) = false
  /\ signed_m_sum (demo plain_sum [2; 1; 1]%Z INR false) = 0%Z.
Proof. repeat split; do 3 eexists; reflexivity. Qed.
Print Assumptions C43_s_term_is_sum_over_assignments.
Print Assumptions C43_assignments_are_the_bijections.
Print Assumptions C43_missing_weight_raises.

(** C44: renaming the modes (their functions, azimuthal orders and conjugation flags together)
    changes none of the four terms, the total, nor any entry of the profile. *)
Theorem C44_coupling_invariant_under_relabelling : forall s E stop,
  standard E -> e_self E = false -> In s assignments ->
  coupling_rot (relabel s E) stop = coupling_rot E stop.
Proof. intros; apply coupling_rot_relabel; assumption. Qed.
Theorem C44_profile_invariant_under_relabelling : forall s E,
  standard E -> e_self E = false -> In s assignments -> coupling_profile (relabel s E) = coupling_profile E.
Proof.
  intros s E Hs He Hin. unfold coupling_profile. cbn [relabel e_n].
  assert (H : forall n i p, loopn n i (fun i p => r <- coupling_rot (relabel s E) (Z.to_nat i); Ok (store_profile p (Z.to_nat (i - 1)) r))%res p
                          = loopn n i (fun i p => r <- coupling_rot E (Z.to_nat i); Ok (store_profile p (Z.to_nat (i - 1)) r))%res p).
  { induction n as [|n IH]; intros i p; [reflexivity|]. cbn [loopn]. rewrite coupling_rot_relabel by assumption.
    destruct (coupling_rot E (Z.to_nat i)); cbn [bind]; [apply IH|reflexivity|reflexivity]. }
  apply H.
Qed.
(** ... but the normalised coefficient is divided by the energy of the mode in first place: it
    changes by the ratio of the energies. *)
Theorem C44_normalised_coefficient_depends_on_first_mode : forall s E k e1 e2,
  standard E -> e_self E = false -> In s assignments ->
  coupling_coefficient E = Ok k -> b_a_energy E 1 = Ok e1 -> b_a_energy E (perm_of s 1) = Ok e2 ->
  normed_coupling E = Ok (k / snd e1) /\ normed_coupling (relabel s E) = Ok (k / snd e2)
  /\ eta_lee E = Ok (2 * (k / snd e1)).
Proof.
  intros s E k e1 e2 Hs He Hin Hk H1 H2.
  assert (Hk' : coupling_coefficient (relabel s E) = Ok k).
  { unfold coupling_coefficient in *. change (e_n (relabel s E)) with (e_n E). rewrite coupling_rot_relabel by assumption. exact Hk. }
  assert (H2' : b_a_energy (relabel s E) 1 = Ok e2).
  { rewrite <- H2. rewrite !energy_ok by (assumption || apply standard_relabel; assumption). reflexivity. }
  unfold eta_lee, normed_coupling. rewrite Hk, Hk', H1, H2'. auto.
Qed.
Example C44_example : standard (demo plain_sum [2; 1; 1]%Z INR false) /\ In (2, 3, 1)%nat assignments
  /\ e_m (relabel (2, 3, 1)%nat (demo plain_sum [2; 1; 1]%Z INR false)) = [1; 1; 2]%Z
  /\ e_conj (relabel (2, 3, 1)%nat (demo plain_sum [2; 1; 1]%Z INR false)) = ConjTuple [false; false; true].
Proof. split; [apply demo_standard|]. cbn. intuition. Qed.
Print Assumptions C44_coupling_invariant_under_relabelling.
Print Assumptions C44_profile_invariant_under_relabelling.
Print Assumptions C44_normalised_coefficient_depends_on_first_mode.

(** C45: with self_coupling=True a term is 6 x (unweighted radial sum) x (unweighted angular
    sum) of the first assignment: the weights are ignored. *)
Theorem C45_self_coupling_term : forall E rt w at_ afac rfac stop, standard E -> e_self E = true ->
  s_term E rt w at_ afac rfac stop =
  Ok (6 * sum_over (rad_list rt) (fun t => radial_value E t w stop (1, 2, 3)%nat)
        * sum_over (combine (ang_list at_) (div_list at_)) (fun p => angular_value E (fst p) (snd p) (1, 2, 3)%nat)).
Proof. exact s_term_self. Qed.
(** For three identical modes and weights all one the shortcut agrees with the full sum. *)
Theorem C45_shortcut_right_for_unit_weights : forall E rt w at_ stop, standard E -> identical_modes E ->
  List.length (div_list at_) = List.length (ang_list at_) ->
  s_term (with_self true E) rt w at_ (repeat 1 (List.length (ang_list at_))) (repeat 1 (List.length (rad_list rt))) stop
  = s_term (with_self false E) rt w at_ (repeat 1 (List.length (ang_list at_))) (repeat 1 (List.length (rad_list rt))) stop.
Proof.
  intros E rt w at_ stop Hs Hi L. rewrite s_term_self by (exact Hs || reflexivity).
  rewrite s_term_ok; [|exact Hs|reflexivity|rewrite repeat_length; lia|rewrite repeat_length; lia|lia].
  apply (f_equal (@Ok R)). rewrite S_identical by exact Hi.
  assert (HR : weighted_rad (with_self false E) (rad_list rt) (repeat 1 (List.length (rad_list rt))) w stop (1,2,3)%nat = plain_rad (with_self true E) rt w stop).
  { unfold weighted_rad, plain_rad. induction (rad_list rt) as [|t l IH]; [reflexivity|]. cbn [List.length repeat combine fold_right fst snd].
    rewrite IH. change (radial_value (with_self false E)) with (radial_value (with_self true E)). ring. }
  assert (HA : weighted_ang (with_self false E) (ang_list at_) (div_list at_) (repeat 1 (List.length (ang_list at_))) (1,2,3)%nat = plain_ang (with_self true E) at_).
  { unfold weighted_ang, plain_ang. revert L. generalize (div_list at_). induction (ang_list at_) as [|t l IH]; intros [|d ds] L; try (cbn in L; lia); [reflexivity|]. cbn [List.length repeat combine fold_right fst snd].
    rewrite IH by (cbn in L; lia). change (angular_value (with_self false E)) with (angular_value (with_self true E)). ring. }
  rewrite HR, HA. reflexivity.
Qed.
(** The first coefficient term carries weights -2, -1, -1: for three identical modes the
    shortcut is off by the ignored parts, and by more than rounding in general. *)
Theorem C45_kappa_1_error : forall E stop v, standard E -> identical_modes E ->
  kappa_1 (with_self false E) stop = Ok v ->
  let w := fun i => e_P E i * (e_G1 E i - 1) in
  let Rv t := radial_value E t w stop (1, 2, 3)%nat in
  let Av t d := angular_value E t d (1, 2, 3)%nat in
  kappa_1 (with_self true E) stop =
  Ok (v + 3 * (e_normP E * e_R E ^ 3) *
        (3 / 2 * Rv (RZ2c, RZ2c, RDiverg) * Av (ThPh, DHp, Hr) true
         + 2 * Rv (RZ1, RDerXZ2c, RDiverg) * Av (MHr, Hp, Hr) true
         + 2 * Rv (RDiverg, RZ2c, RDerXZ2c) * Av (Hr, Ht, Ht) false)).
Proof.
  intros E stop v Hs Hi Hv w Rv Av. unfold kappa_1 in *.
  rewrite !s_term_ok in Hv by (exact Hs || reflexivity || (cbn; lia)). cbn [bind] in Hv.
  rewrite !(S_identical (with_self false E)) in Hv by exact Hi.
  injection Hv as <-.
  rewrite !s_term_self by (exact Hs || reflexivity). cbn [bind]. apply (f_equal (@Ok R)).
  unfold weighted_rad, weighted_ang, plain_rad, plain_ang. cbn [rad_list ang_list div_list combine fold_right fst snd].
  change (radial_value (with_self false E)) with (radial_value E). change (radial_value (with_self true E)) with (radial_value E).
  change (angular_value (with_self false E)) with (angular_value E). change (angular_value (with_self true E)) with (angular_value E).
  unfold Rv, Av, w. cbn [with_self e_P e_G1 e_normP e_R]. field.
Qed.
Example C45_refutation_ex : let E := demo plain_sum [0; 0; 0]%Z (fun _ => 1) true in
  standard E /\ identical_modes E /\ kappa_1 (with_self true E) 3 <> kappa_1 (with_self false E) 3.
Proof.
  intros E. assert (Hs : standard E) by apply demo_standard. assert (Hi : identical_modes E) by (split; reflexivity).
  split; [exact Hs|]. split; [exact Hi|].
  assert (Hok : exists v, kappa_1 (with_self false E) 3 = Ok v).
  { unfold kappa_1. rewrite !s_term_ok by (exact Hs || reflexivity || (cbn; lia)). cbn [bind]. eexists; reflexivity. }
  destruct Hok as [v Hv]. pose proof (C45_kappa_1_error E 3 v Hs Hi Hv) as HE. cbv zeta in HE. rewrite HE, Hv.
  assert (HR : forall t, radial_value E t (fun i => e_P E i * (e_G1 E i - 1)) 3 (1,2,3)%nat = 14).
  { intros [[a b] c]. unfold radial_value. cbn. unfold plain_sum, Re. cbn. ring. }
  assert (HA : forall t d, angular_value E t d (1,2,3)%nat = 4 * PI).
  { intros [[a b] c] d. unfold angular_value. cbn. unfold regular_theta, over_sin. cbn. unfold plain_sum. cbn.
    replace (1 - 0 * (0 * 1)) with 1 by ring. rewrite sqrt_1. destruct d; field. }
  cbv beta. rewrite !HR, !HA. intros HC. assert (Hinj : forall x y : R, Ok x = Ok y -> x = y) by (intros ? ? Q; injection Q; auto).
  apply Hinj in HC. cbn [E demo e_normP e_R] in HC. pose proof PI_RGT_0. lra.
Qed.
Print Assumptions C45_self_coupling_term.
Print Assumptions C45_shortcut_right_for_unit_weights.
Print Assumptions C45_kappa_1_error.

(** C46: the angular integral is 0 exactly by the azimuthal rule, else 2 pi times the theta
    integral; no rule is applied without azimuthal orders or with only_theta. *)
Theorem C46_azimuthal_rule : forall E ds c1 c2 c3 m1 m2 m3 div mul,
  angular_integral E ds (Some [m1; m2; m3]) false (ConjTuple [c1; c2; c3]) div mul
  = if ((if c1 then - m1 else m1) + (if c2 then - m2 else m2) + (if c3 then - m3 else m3) =? 0)%Z
    then (t <- theta_integral E ds div mul ; Ok (2 * PI * t))%res else Ok 0.
Proof. exact angular_integral_rule. Qed.
Theorem C46_other_conjugation_arguments : forall E ds m1 m2 m3 b div mul cj l,
  angular_integral E ds (Some [m1; m2; m3]) false (ConjBool b) div mul
    = angular_integral E ds (Some [m1; m2; m3]) false (ConjTuple [b; false; false]) div mul /\
  angular_integral E ds (Some [m1; m2; m3]) false ConjNone div mul
    = angular_integral E ds (Some [m1; m2; m3]) false (ConjTuple [false; false; false]) div mul /\
  (List.length l <> 3%nat -> angular_integral E ds (Some [m1; m2; m3]) false (ConjTuple l) div mul = Exc SystemExit) /\
  angular_integral E ds (Some [m1; m2; m3]) true cj div mul = (t <- theta_integral E ds div mul ; Ok (2 * PI * t))%res /\
  angular_integral E ds None false cj div mul = (t <- theta_integral E ds div mul ; Ok (2 * PI * t))%res /\
  init_conj ConjNone = ConjTuple [true; false; false] /\ init_conj (ConjBool false) = ConjTuple [true; false; false].
Proof.
  intros. repeat split; try reflexivity.
  intros Hl. unfold angular_integral. cbn [adapt_conj]. destruct (Nat.eqb_spec (List.length l) 3); [contradiction|reflexivity].
Qed.
(** the theta integral of the default configuration: the quadrature (called as if the grid were
    equally spaced) of the product of all named functions, times mu, over sin(theta) if asked *)
Theorem C46_theta_integral : forall E ds div mul, e_cheby E = false -> e_blow E = false ->
  theta_integral E ds div mul = Ok (regular_theta E (over_sin E div (fun i =>
    (if mul then e_mu E i else 1) * fold_right (fun d p => e_ang E (fst d) (snd d) i * p) 1 ds))).
Proof.
  intros E ds div mul H1 H2. rewrite theta_ok by assumption. apply (f_equal (@Ok R)). apply regular_ext. intros i. unfold over_sin.
  assert (HP : ang_prod E ds i = fold_right (fun d p => e_ang E (fst d) (snd d) i * p) 1 ds).
  { unfold ang_prod. enough (HG : forall a, fold_left (fun p d => p * e_ang E (fst d) (snd d) i) ds a = a * fold_right (fun d p => e_ang E (fst d) (snd d) i * p) 1 ds) by (rewrite HG; ring).
    induction ds as [|d l IH]; intros a; cbn [fold_left fold_right]; [ring|]. rewrite IH. ring. }
  rewrite HP. destruct div, mul; try (f_equal; ring); ring.
Qed.
(** ... hence a triad violating the rule has a coupling coefficient of exactly zero *)
Theorem C46_forbidden_triads_do_not_couple : forall E stop, standard E -> signed_m_sum E <> 0%Z ->
  coupling_rot E stop = Ok {| cc_1 := 0; cc_2 := 0; cc_3 := 0; cc_4 := 0; cc_tot := 0 |}.
Proof. exact coupling_forbidden. Qed.
Example C46_example : signed_m_sum (demo plain_sum [2; 1; 0]%Z INR false) = (-1)%Z /\ standard (demo plain_sum [2; 1; 0]%Z INR false).
Proof. split; [reflexivity|apply demo_standard]. Qed.
Print Assumptions C46_azimuthal_rule.
Print Assumptions C46_other_conjugation_arguments.
Print Assumptions C46_theta_integral.
Print Assumptions C46_forbidden_triads_do_not_couple.

(** C47: the coefficient is always computed, the profile has one entry per grid point, entry 0 is
    zero, entry i is the coefficient over the first i + 1 grid points and the last entry is the
    coupling coefficient itself; likewise for the four terms. *)
Theorem C47_profile : forall E, standard E -> (2 <= e_n E)%nat ->
  exists q k, coupling_profile E = Ok q /\ coupling_coefficient E = Ok k /\
    List.length (p_tot q) = e_n E /\ nth 0 (p_tot q) 0 = 0 /\ nth (e_n E - 1) (p_tot q) 0 = k /\
    forall i, (1 <= i < e_n E)%nat -> exists r, coupling_rot E (i + 1) = Ok r /\
      nth i (p_tot q) 0 = cc_tot r /\ nth i (p_1 q) 0 = cc_1 r /\ nth i (p_2 q) 0 = cc_2 r /\
      nth i (p_3 q) 0 = cc_3 r /\ nth i (p_4 q) 0 = cc_4 r /\ cc_tot r = cc_1 r + cc_2 r + cc_3 r + cc_4 r.
Proof.
  intros E Hs Hn. destruct (profile_ok E Hs ltac:(lia)) as (q & Hq & ((L1 & L2 & L3 & L4 & L5) & Hp)).
  destruct (coupling_total E (e_n E) Hs) as [r Hr].
  exists q, (cc_tot r). split; [exact Hq|]. split; [unfold coupling_coefficient; rewrite Hr; reflexivity|]. split; [exact L5|].
  split; [destruct (Hp 0%nat ltac:(lia)) as (_ & _ & _ & _ & H); exact H|].
  assert (HG : forall i, (1 <= i < e_n E)%nat -> ((1 <=? i) && (i <? e_n E))%nat = true).
  { intros i Hi. apply andb_true_intro. split; [apply Nat.leb_le|apply Nat.ltb_lt]; lia. }
  split.
  - destruct (Hp (e_n E - 1)%nat ltac:(lia)) as (_ & _ & _ & _ & H). rewrite H, HG by lia.
    replace (e_n E - 1 + 1)%nat with (e_n E) by lia. unfold tot. rewrite Hr. reflexivity.
  - intros i Hi. destruct (coupling_total E (i + 1) Hs) as [r' Hr']. exists r'. split; [exact Hr'|].
    destruct (Hp i ltac:(lia)) as (A & B & C & D & F). rewrite HG in * by lia. unfold tot in *. rewrite Hr' in *.
    repeat split; try assumption. unfold coupling_rot in Hr'.
    destruct (kappa_1 E (i + 1)); try discriminate; cbn [bind] in Hr'. destruct (kappa_2 E (i + 1)); try discriminate; cbn [bind] in Hr'.
    destruct (kappa_3 E (i + 1)); try discriminate; cbn [bind] in Hr'. destruct (kappa_4 E (i + 1)); try discriminate; cbn [bind] in Hr'.
    injection Hr' as <-. reflexivity.
Qed.
(** use_complex=True can never produce a coefficient *)
Theorem C47_complex_mode_never_works : forall E stop, e_complex E = true -> forall r, coupling_rot E stop <> Ok r.
Proof. intros E stop H r Hr. apply (coupling_complex E stop H). exists r. exact Hr. Qed.
Example C47_example : (2 <= e_n (demo plain_sum [2; 1; 1]%Z INR false))%nat. Proof. cbn; lia. Qed.
Print Assumptions C47_profile.
Print Assumptions C47_complex_mode_never_works.

(** C66: for eigenfunctions satisfying the (Cowling) oscillation equations the symbolic radial
    derivatives are the derivatives of x z1 and x z2 / (c1 omega^2), and the radial divergence is
    (1/x^2) d(x^3 z1)/dx - lambda z2/(c1 omega^2). *)
Theorem C66_symbolic_gradients : forall (z1 z2 c1 : R -> R) x V_2 Gamma_1 lam om As U rho M Rs dz1 dz2 dc1,
  x <> 0 -> c1 x <> 0 -> om <> 0 -> M <> 0 -> Rs <> 0 ->
  is_derive z1 x dz1 -> is_derive z2 x dz2 -> is_derive c1 x dc1 ->
  x * dz1 = (V_2 * x ^ 2 / Gamma_1 - 3) * z1 x + (lam / (c1 x * om ^ 2) - V_2 * x ^ 2 / Gamma_1) * z2 x ->
  x * dz2 = (c1 x * om ^ 2 - As) * z1 x + (1 - U + As) * z2 x ->
  x * dc1 = c1 x * (3 - U) -> U * M = 4 * PI * rho * Rs ^ 3 * c1 x ->
  is_derive (fun x => x * z1 x) x (rad_der_x_z_1 x V_2 Gamma_1 lam (c1 x) om (z1 x) (z2 x)) /\
  is_derive (fun x => x * (z2 x / (c1 x * om ^ 2))) x (rad_der_x_z_2_c_1_omega (c1 x) om As U rho M Rs (z1 x) (z2 x)) /\
  is_derive (fun x => x ^ 3 * z1 x) x (x ^ 2 * (rad_diverg x V_2 Gamma_1 (z1 x) (z2 x) + lam / (c1 x * om ^ 2) * z2 x)).
Proof.
  intros z1 z2 c1 x V_2 Gamma_1 lam om As U rho M Rs dz1 dz2 dc1 Hx Hc Ho HM HR H1 H2 H3 E1 E2 E3 E4. split; [|split].
  - eapply der_x_z1; eassumption.
  - eapply der_x_z2; eassumption.
  - eapply divergence_ok; eassumption.
Qed.
(** a uniform-density star (c1 = 1, U = 3, As = 0) with z1 = 3 x, z2 = x is an instance *)
Example C66_example : let z1 := fun x => 3 * x in let z2 := fun x : R => x in let c1 := fun _ : R => 1 in
  let x := 1 / 2 in
  is_derive z1 x 3 /\ is_derive z2 x 1 /\ is_derive c1 x 0 /\
  x * 3 = (0 * x ^ 2 / 1 - 3) * z1 x + (12 / (c1 x * 1 ^ 2) - 0 * x ^ 2 / 1) * z2 x /\
  x * 1 = (c1 x * 1 ^ 2 - 0) * z1 x + (1 - 3 + 0) * z2 x /\
  x * 0 = c1 x * (3 - 3) /\ 3 * 1 = 4 * PI * (3 / (4 * PI)) * 1 ^ 3 * c1 x.
Proof.
  cbv zeta. split; [auto_derive; [exact I|ring]|]. split; [auto_derive; [exact I|ring]|].
  split; [auto_derive; [exact I|ring]|]. split; [field|]. split; [ring|]. split; [ring|]. field. apply PI_neq0.
Qed.
(** C66: the structure derivatives are the derivatives of a star obeying dM/dr = 4 pi r^2 rho,
    hydrostatic equilibrium and the definition of the Brunt-Vaisala frequency. *)
Theorem C66_structure_derivatives : forall G (M rho P : R -> R) r Gamma_1 N2 drho_ drho2_ (drhof : R -> R),
  r <> 0 -> rho r <> 0 -> P r <> 0 -> Gamma_1 <> 0 -> dgravpot G (M r) r <> 0 ->
  (forall s, s <> 0 -> is_derive M s (4 * PI * s ^ 2 * rho s)) ->
  is_derive rho r drho_ -> drhof r = drho_ -> is_derive drhof r drho2_ ->
  is_derive P r (- dgravpot G (M r) r * rho r) ->
  N2 = dgravpot G (M r) r * (1 / Gamma_1 * ((- dgravpot G (M r) r * rho r) / P r) - drho_ / rho r) ->
  let g := fun s => dgravpot G (M s) s in
  let g2 := fun s => dgravpot2 G (rho s) (g s) s in
  let g3 := dgravpot3 G drho_ (g r) (g2 r) r in
  drho (rho r) (g r) Gamma_1 (P r) N2 = drho_ /\
  is_derive g r (g2 r) /\ is_derive g2 r g3 /\
  is_derive P r (dP (rho r) (g r)) /\
  is_derive (fun s => dP (rho s) (g s)) r (dP2 (rho r) drho_ (g r) (g2 r)) /\
  is_derive (fun s => dP2 (rho s) (drhof s) (g s) (g2 s)) r (dP3 (rho r) drho_ drho2_ (g r) (g2 r) g3).
Proof.
  intros G M rho P r Gamma_1 N2 drho_ drho2_ drhof Hr Hrho HP HG Hg HM Hd Hf Hd2 HPd HN g g2 g3.
  assert (Hg2 : is_derive g r (g2 r)) by (apply der_dgravpot; auto).
  assert (Hg3 : is_derive g2 r g3) by (apply der_dgravpot2; auto).
  split; [apply drho_brunt; assumption|]. split; [exact Hg2|]. split; [exact Hg3|].
  split; [exact HPd|]. split; [apply der_dP; assumption|].
  rewrite <- Hf. rewrite <- Hf in Hd. apply der_dP2; assumption.
Qed.
(** instance: M = 4 pi r^4, rho = 4 r, i.e. a star with density proportional to radius *)
Example C66_structure_example : let M := fun s => 4 * PI * s ^ 4 in let rho := fun s => 4 * s in
  (forall s, s <> 0 -> is_derive M s (4 * PI * s ^ 2 * rho s)) /\ is_derive rho 1 4 /\
  is_derive (fun s => - (4 * PI * (s ^ 4) * 4 / 4) + 100) 1 (- dgravpot 1 (M 1) 1 * rho 1).
Proof.
  cbv zeta. split; [|split].
  - intros s Hs. auto_derive; [exact I|]. ring.
  - auto_derive; [exact I|]. ring.
  - unfold dgravpot. auto_derive; [exact I|]. field.
Qed.
Print Assumptions C66_symbolic_gradients.
Print Assumptions C66_structure_derivatives.

(** C67: the stored norm, b_a and energy are 2 pi times the volume integrals they stand for:
    the azimuthal factor is applied by the angular integral and once more afterwards. *)
Theorem C67_mode_energy_counts_azimuth_twice : forall E mode, standard E ->
  let N := volume_value E mode RXZ1 Hr Hr false + volume_value E mode RXZ2c Ht Ht false + volume_value E mode RXZ2c Hp Hp false in
  let Cor := volume_value E mode RXZ2c Ht Hp true in
  let b := (2 * e_corot E mode * N + 4 * e_surf E * Cor) * (e_normrho E * e_R E ^ 5) in
  b_a_energy E mode = Ok (2 * PI * N, 2 * PI * b, 2 * PI * (e_corot E mode * b)).
Proof. exact energy_ok. Qed.
(** ... so Lee's eta is 1/(2 pi) of twice the coefficient over the mode energy *)
Theorem C67_eta_off_by_two_pi : forall E k, standard E -> coupling_coefficient E = Ok k ->
  let N := volume_value E 1 RXZ1 Hr Hr false + volume_value E 1 RXZ2c Ht Ht false + volume_value E 1 RXZ2c Hp Hp false in
  let Cor := volume_value E 1 RXZ2c Ht Hp true in
  let energy := e_corot E 1%nat * ((2 * e_corot E 1%nat * N + 4 * e_surf E * Cor) * (e_normrho E * e_R E ^ 5)) in
  energy <> 0 -> eta_lee E = Ok (2 * k / energy / (2 * PI)).
Proof.
  intros E k Hs Hk N Cor energy He. unfold eta_lee, normed_coupling. rewrite Hk. cbn [bind]. rewrite energy_ok by assumption. cbn [bind snd].
  apply (f_equal (@Ok R)). fold N. fold Cor. fold energy. field. split; [exact He|]. pose proof PI_RGT_0; lra.
Qed.
Example C67_example : volume_value (demo plain_sum [2; 1; 1]%Z INR false) 1 RXZ1 Hr Hr false = 56 * PI.
Proof. unfold volume_value, regular_theta. cbn. unfold plain_sum, Re. cbn. ring. Qed.
Print Assumptions C67_mode_energy_counts_azimuth_twice.
Print Assumptions C67_eta_off_by_two_pi.

(** C68: multiplying the radial functions of mode i by a_i multiplies every term and the
    coefficient by a_1 a_2 a_3. *)
Theorem C68_coupling_is_trilinear_in_amplitudes : forall a E stop, standard E -> homogeneous (e_integ E) ->
  (2 <= stop)%nat -> (2 <= e_n E)%nat ->
  exists r r', coupling_rot E stop = Ok r /\ coupling_rot (scale_modes a E) stop = Ok r' /\
    cc_1 r' = a 1%nat * a 2%nat * a 3%nat * cc_1 r /\ cc_2 r' = a 1%nat * a 2%nat * a 3%nat * cc_2 r /\
    cc_3 r' = a 1%nat * a 2%nat * a 3%nat * cc_3 r /\ cc_4 r' = a 1%nat * a 2%nat * a 3%nat * cc_4 r /\
    cc_tot r' = a 1%nat * a 2%nat * a 3%nat * cc_tot r.
Proof.
  intros a E stop Hs Hh H1 H2. destruct (coupling_scale a E stop Hs Hh H1 H2) as (r & Hr & r' & Hr' & H).
  exists r, r'. auto.
Qed.
(** the library's integrate() is such a quadrature, for every method and call history *)
Theorem C68_library_integrator_homogeneous : forall hist method threads par,
  homogeneous (fun es ys xs => match integrate RA hist method es ys xs threads par with Ok r => r | _ => 0 end).
Proof.
  intros hist method threads par es a ys xs L H2.
  assert (HB : in_bounds (String.eqb method "simpson") es (List.length ys) (List.length xs)).
  { rewrite <- L. unfold in_bounds. destruct es; [|right; lia].
    destruct (String.eqb method "simpson" && Nat.odd (List.length ys))%bool eqn:Eo; [|lia].
    apply andb_prop in Eo. destruct Eo as [_ Eo]. apply Nat.odd_spec in Eo. destruct Eo as [k Ek]. lia. }
  destruct (integrate_safety RA hist method es ys xs threads par) as [HS _]. destruct (HS HB) as [r Hr].
  pose proof (integrate_linear hist method es a 0 ys ys xs threads par r r eq_refl Hr Hr) as HL.
  replace (lincomb a 0 ys ys) with (map (Rmult a) ys) in HL.
  - rewrite HL, Hr. ring.
  - unfold lincomb. clear. induction ys as [|y l IH]; [reflexivity|]. cbn. rewrite IH. f_equal. ring.
Qed.
Example C68_example : homogeneous plain_sum /\ standard (demo plain_sum [2; 1; 1]%Z INR false).
Proof.
  split; [|apply demo_standard]. intros b a ys xs _ _. unfold plain_sum. induction ys as [|y l IH]; cbn; [ring|]. rewrite IH. ring.
Qed.
Print Assumptions C68_coupling_is_trilinear_in_amplitudes.
Print Assumptions C68_library_integrator_homogeneous.

(** C69: Chebyshev-Gauss quadrature of order N integrates f(x)/sqrt(1-x^2) over [-1,1] (that is
    f(cos t) over [0, pi]) exactly for every polynomial f of degree below 2N. *)
Theorem C69_chebyshev_gauss_exact : forall N cs, (1 <= N)%nat -> (List.length cs <= 2 * N)%nat ->
  exists v, cheby_gauss (fun x => Some (poly cs x)) N = Some v /\ is_RInt (fun t => poly cs (cos t)) 0 PI v.
Proof.
  intros N cs HN HL. eexists. split; [apply cheby_gauss_total|].
  pose proof (exact_poly N ltac:(lia) cs 0 ltac:(lia)) as HE. apply (exact_ext N _ (fun t => poly cs (cos t))) in HE; [exact HE|].
  intros t. cbn [pow]. ring.
Qed.
Example C69_example : poly [1; 0; 3] 2 = 13 /\ (List.length [1; 0; 3] <= 2 * 2)%nat.
Proof. split; [cbn; ring|cbn; lia]. Qed.
Print Assumptions C69_chebyshev_gauss_exact.

(** C70: on the grid on which the Hough functions live, with an order multiplier of 2 or more
    (default 4) the quadrature nodes leave the grid: Chebyshev integration always ends the
    process, and blow-up protection always returns the unprotected result. *)
Theorem C70_chebyshev_integration_never_succeeds : forall E h ds div mul,
  (1 <= h)%nat -> e_nmu E = (2 * h)%nat -> (forall i, (i < 2 * h)%nat -> e_mu E i = mu_range h i) ->
  (2 <= e_cheby_mul E)%nat ->
  (e_cheby E = true -> theta_integral E ds div mul = Exc SystemExit) /\
  (e_cheby E = false -> theta_integral E ds div mul = Ok (regular_theta E (over_sin E div (fun i =>
     (if mul then e_mu E i else 1) * fold_right (fun d p => e_ang E (fst d) (snd d) i * p) 1 ds)))).
Proof.
  intros E h ds div mul Hh Hn Hmu Hm. split; intros Hc.
  - unfold theta_integral. rewrite Hc, Hn, cheby_none by assumption. reflexivity.
  - destruct (e_blow E) eqn:Eb; [|apply C46_theta_integral; assumption].
    assert (HT : theta_integral E ds div mul = Ok (regular_theta E (over_sin E div (fun i => if mul then ang_prod E ds i * e_mu E i else ang_prod E ds i)))).
    { unfold theta_integral. rewrite Hc, Eb, Hn, cheby_none by assumption.
      assert (HV : forall b : bool, (if b then Ok (e_integ E true (tab (2 * h) (fun i => if div then (if mul then ang_prod E ds i * e_mu E i else ang_prod E ds i) / sin_mu (e_mu E) i else if mul then ang_prod E ds i * e_mu E i else ang_prod E ds i)) (tab (2 * h) (e_mu E))) else Ok (e_integ E true (tab (2 * h) (fun i => if div then (if mul then ang_prod E ds i * e_mu E i else ang_prod E ds i) / sin_mu (e_mu E) i else if mul then ang_prod E ds i * e_mu E i else ang_prod E ds i)) (tab (2 * h) (e_mu E))) : res R)
        = Ok (regular_theta E (over_sin E div (fun i => if mul then ang_prod E ds i * e_mu E i else ang_prod E ds i)))).
      { intros b. assert (HQ : e_integ E true (tab (2 * h) (fun i => if div then (if mul then ang_prod E ds i * e_mu E i else ang_prod E ds i) / sin_mu (e_mu E) i else if mul then ang_prod E ds i * e_mu E i else ang_prod E ds i)) (tab (2 * h) (e_mu E)) = regular_theta E (over_sin E div (fun i => if mul then ang_prod E ds i * e_mu E i else ang_prod E ds i))).
        { unfold regular_theta, tab, over_sin, sin_mu. rewrite Hn. f_equal. apply map_ext. intros i. destruct div; [|reflexivity]. repeat f_equal. ring. }
        rewrite HQ. destruct b; reflexivity. }
      destruct (Rlt_dec _ _); [exact (HV true)|exact (HV false)]. }
    rewrite HT. apply (f_equal (@Ok R)). apply regular_ext. intros i. unfold over_sin.
    assert (HP : ang_prod E ds i = fold_right (fun d p => e_ang E (fst d) (snd d) i * p) 1 ds).
    { unfold ang_prod. enough (HG : forall a, fold_left (fun p d => p * e_ang E (fst d) (snd d) i) ds a = a * fold_right (fun d p => e_ang E (fst d) (snd d) i * p) 1 ds) by (rewrite HG; ring).
      clear. induction ds as [|d l IH]; intros a; cbn [fold_left fold_right]; [ring|]. rewrite IH. ring. }
    rewrite HP. destruct div, mul; try (f_equal; ring); ring.
Qed.
(** hence use_cheby_integration=True ends every coupling coefficient of an allowed triad *)
Theorem C70_chebyshev_coupling_exits : forall E h stop c1 c2 c3 m1 m2 m3,
  (1 <= h)%nat -> e_nmu E = (2 * h)%nat -> (forall i, (i < 2 * h)%nat -> e_mu E i = mu_range h i) ->
  (2 <= e_cheby_mul E)%nat -> e_cheby E = true ->
  e_conj E = ConjTuple [c1; c2; c3] -> e_m E = [m1; m2; m3] -> signed_m_sum E = 0%Z ->
  coupling_rot E stop = Exc SystemExit.
Proof.
  intros E h stop c1 c2 c3 m1 m2 m3 Hh Hn Hmu Hm Hc Hcj Hms Hz.
  assert (HA : forall d t, ang_int E d t = Exc SystemExit).
  { intros d [[a b] c]. unfold ang_int. rewrite Hcj, Hms, angular_integral_rule. unfold signed_m_sum in Hz. rewrite Hcj, Hms in Hz.
    rewrite Hz, Z.eqb_refl.
    destruct (C70_chebyshev_integration_never_succeeds E h [(a, 1%nat); (b, 2%nat); (c, 3%nat)] d false Hh Hn Hmu Hm) as [HX _].
    rewrite (HX Hc). reflexivity. }
  assert (HK : kappa_1 E stop = Exc SystemExit).
  { assert (HS : forall mult, s_term E (RSingle (RDerXZ1, RDerXZ1, RDiverg)) mult (ASingle (Hr, Hr, Hr) false) [1] [1] stop = Exc SystemExit).
    { intros mult. unfold s_term. destruct (e_self E); [rewrite HA; reflexivity|].
      unfold determiner. cbn [ang_columns]. unfold column, symmetry_mapping. cbn [permutations3 fold_left fst snd dict_append].
      cbn [triple_eqb aterm_beq andb fill_dict fst snd dict_append]. change (py_get [1] 0) with (Ok 1); change (py_get [false] 0) with (Ok false); cbn [bind]; rewrite HA; reflexivity. }
    unfold kappa_1. rewrite HS. reflexivity. }
  unfold coupling_rot. rewrite HK. reflexivity.
Qed.
Example C70_example : (2 <= 4)%nat /\ mu_range 1 0 = - cos (PI / 4) /\ mu_range 1 1 = cos (PI / 4).
Proof.
  split; [lia|]. split; unfold mu_range, cheby_mu; cbn; [f_equal|]; f_equal; field.
Qed.
Print Assumptions C70_chebyshev_integration_never_succeeds.
Print Assumptions C70_chebyshev_coupling_exits.
