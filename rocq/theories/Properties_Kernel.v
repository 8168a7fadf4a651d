(** * Properties C105, C106: the kernels shown in a profile run.
    Specification: Kernel_Spec.v (which angular functions go with which radial kernel, quadrature
    of a kernel in ln r, what an angular label announces); permutations are those of the
    standard library. *)
From Coq Require Import Reals List ZArith Bool Lia Lra Permutation.
From Coquelicot Require Import Complex.
From Verif Require Import Base Py Coupling_Model Coupling_Spec Coupling_Proofs Energy_Spec Energy_Proofs Kernel_Model Kernel_Spec Kernel_Proofs.
Import ListNotations.
Local Open Scope R_scope.

(** C105: the radial kernels of contributions 1, 2, 3 are exactly what the corresponding term of
    the coupling coefficient integrates: its ln r quadrature over any initial radial range, summed
    with the angular integrals over the assignments of the modes, times half the energy norm,
    is that term; for contribution 4 it is minus that term. *)
Theorem C105_coefficient_from_radial_kernels : forall K ad stop, let E := k_E K in
  standard E -> e_self E = false -> linear (e_integ E) -> (2 <= stop)%nat -> (2 <= e_n E)%nat -> (2 <= e_nmu E)%nat ->
  consistent K -> e_poly E = false -> e_adder E = Some ad ->
  exists t1 t2 t3 t4, radial_kernels K 1 = Ok (Some t1) /\ radial_kernels K 2 = Ok (Some t2) /\
    radial_kernels K 3 = Ok (Some t3) /\ radial_kernels K 4 = Ok (Some t4) /\
    exists r, coupling_rot E stop = Ok r /\
    cc_1 r = k_energy K / 2 * from_kernels E stop t1 partners_1 /\
    cc_2 r = k_energy K / 2 * from_kernels E stop t2 partners_2 /\
    cc_3 r = k_energy K / 2 * from_kernels E stop t3 partners_3 /\
    cc_4 r = - (k_energy K / 2) * from_kernels E stop t4 partners_4.
Proof.
  intros K ad stop E HS HE HL H1 H2 H3 HC HP HA. assert (HG : good E stop) by (unfold good; auto).
  unfold radial_kernels. fold E. rewrite HA. cbn [radial_table]. do 4 eexists. do 4 (split; [reflexivity|]).
  unfold coupling_rot, E. rewrite (kernels_1 K ad stop HS HE HG HC), (kernels_2 K ad stop HS HG HC HP HA), (kernels_3 K ad stop HS HE HG HC), (kernels_4 K ad stop HS HE HG HC).
  cbn [bind]. eexists. split; [reflexivity|]. cbn [cc_1 cc_2 cc_3 cc_4]. tauto.
Qed.
(** the rows of a symmetrised radial or angular kernel: every distinct rearrangement of the three
    names, once each; the other kernels have a single row *)
Theorem C105_rows_radial : forall K nr l t, radial_kernels K nr = Ok (Some l) -> In t l ->
  exists names, let keys := map fst (t_rows t) in
  if t_sym t then NoDup keys /\ forall k, In k keys <-> Permutation (as_list names) (as_list k) else keys = [names].
Proof.
  intros K nr l t H I. unfold radial_kernels in H. destruct (e_adder (k_E K)) as [ad|]; [|discriminate]. injection H as H.
  destruct (radial_table nr) as [tb|]; [|discriminate]. injection H as <-. apply in_map_iff in I. destruct I as ([[[sym names] f] ps] & <- & _).
  exists names. unfold radial_kernel_term. destruct sym; cbn [t_rows t_sym map fst]; [|reflexivity].
  rewrite map_map. cbn [fst]. rewrite map_id. destruct (perm_keys_spec rterm_beq names rterm_beq_refl rterm_true) as [N M].
  split; [exact N|]. intros k. rewrite M. apply perm3_iff.
Qed.
Theorem C105_rows_angular : forall E nr l e, angular_kernels E nr = Some l -> In e l ->
  exists names, let keys := map fst (t_rows (a_term e)) in
  if t_sym (a_term e) then NoDup keys /\ forall k, In k keys <-> Permutation (as_list names) (as_list k) else keys = [names].
Proof.
  intros E nr l e H I. unfold angular_kernels in H.
  destruct (angular_table nr) as [tb|]; [|discriminate]. injection H as <-. apply in_map_iff in I. destruct I as ([[[sym names] d] f] & <- & _).
  exists names. unfold angular_kernel_term. destruct sym; cbn [a_term t_rows t_sym map fst]; [|reflexivity].
  rewrite map_map. cbn [fst]. rewrite map_id. destruct (perm_keys_spec aterm_beq names aterm_beq_refl aterm_true) as [N M].
  split; [exact N|]. intros k. rewrite M. apply perm3_iff.
Qed.
(** contribution numbers other than 1-4 give no kernels; a coupler without the adiabatic
    derivative profile (every polytrope) cannot give radial kernels at all *)
Theorem C105_other_numbers : forall K nr, ~ (1 <= nr <= 4)%Z -> angular_kernels (k_E K) nr = None /\
  (radial_kernels K nr = Ok None \/ radial_kernels K nr = Exc AttributeError).
Proof.
  intros K nr H. assert (HR : radial_table nr = None /\ angular_table nr = None).
  { unfold radial_table, angular_table. destruct nr as [|[[p|p|]|[[p|p|]|[p|p|]|]|]|]; cbn; try (split; reflexivity); lia. }
  destruct HR as [H1 H2]. unfold angular_kernels, radial_kernels. rewrite H1, H2. split; [reflexivity|]. destruct (e_adder (k_E K)); auto.
Qed.
Theorem C105_needs_derivative_profile : forall K nr, e_adder (k_E K) = None -> radial_kernels K nr = Exc AttributeError.
Proof. intros K nr H. unfold radial_kernels. rewrite H. reflexivity. Qed.

(** C106 (finding): the angular kernels are the plain products of the angular functions, so a row
    shows what its label announces only where the product vanishes or the announced factor,
    divided by sin(theta) when so announced, is 1. *)
Theorem C106_shown_is_announced_iff : forall E nr l e key f k, angular_kernels E nr = Some l -> In e l -> In (key, f) (t_rows (a_term e)) ->
  -1 < e_mu E k < 1 ->
  let '(a, b, c) := key in let product := e_ang E a 1%nat k * e_ang E b 2%nat k * e_ang E c 3%nat k in
  f k = RtoC product /\
  (f k = RtoC (announced E e key k) <-> product = 0 \/ a_factor e = if a_div e then sqrt (1 - e_mu E k ^ 2) else 1).
Proof.
  intros E nr l e [[a b] c] f k H I J M. unfold angular_kernels in H.
  destruct (angular_table nr) as [tb|]; [|discriminate]. injection H as <-. apply in_map_iff in I. destruct I as ([[[sym names] d] g] & <- & _).
  cbv zeta. set (product := e_ang E a 1%nat k * e_ang E b 2%nat k * e_ang E c 3%nat k).
  assert (F : f k = RtoC product).
  { unfold angular_kernel_term in J. cbn [a_term t_rows] in J. destruct sym.
    - apply in_map_iff in J. destruct J as (q & Q & _). injection Q as -> <-. reflexivity.
    - destruct J as [J | []]. injection J as -> <-. reflexivity. }
  split; [exact F|]. rewrite F. unfold announced, angular_kernel_term. cbn [a_factor a_mu a_div]. fold product. rewrite Rmult_1_r.
  assert (SQ : 0 < sqrt (1 - e_mu E k ^ 2)) by (apply sqrt_lt_R0; nra). set (s := if d then sqrt (1 - e_mu E k ^ 2) else 1).
  assert (S0 : s <> 0) by (unfold s; destruct d; lra). split.
  - intros Q. apply (f_equal Re) in Q. cbn in Q. destruct (Req_EM_T product 0) as [Z | Z]; [left; exact Z|right].
    apply (Rmult_eq_reg_r product); [|exact Z]. replace (s * product) with (s * (g * product / s)) by (rewrite <- Q; ring). field. exact S0.
  - intros [Z | Z]; apply (f_equal RtoC); [rewrite Z|rewrite Z]; field; exact S0.
Qed.
(** ... the labels of contributions 1, 2 and 4 announce the weights and the division by
    sin(theta) with which the coefficient uses the angular functions *)
Theorem C106_labels_1_2_4 : forall E nr ps l, In (nr, ps) [(1%Z, partners_1); (2%Z, partners_2); (4%Z, partners_4)] -> angular_kernels E nr = Some l ->
  forall names pt a d w, In (names, pt) ps -> In (a, d, w) pt ->
  exists e, In e l /\ In a (map fst (t_rows (a_term e))) /\ a_div e = d /\ a_factor e = w /\ a_mu e = false.
Proof.
  intros E nr ps l H HL names pt a d w H1 H2.
  assert (T : exists sym, In (sym, a, d, w) (match angular_table nr with Some tb => tb | None => [] end)).
  { cbn in H. repeat destruct H as [H | H]; try contradiction; injection H as <- <-; cbn [angular_table];
      cbn in H1; repeat destruct H1 as [H1 | H1]; try contradiction; injection H1 as <- <-;
      cbn in H2; repeat destruct H2 as [H2 | H2]; try contradiction; injection H2 as <- <- <-; eexists;
      cbn [angular_1 angular_2 angular_4 In]; tauto. }
  destruct T as [sym T]. unfold angular_kernels in HL. destruct (angular_table nr) as [tb|]; [|discriminate]. injection HL as <-.
  exists (angular_kernel_term E sym a d w). split; [apply in_map_iff; exists (sym, a, d, w); auto|].
  split; [|auto]. unfold angular_kernel_term. cbn [a_term t_rows]. destruct sym; cbn [map fst]; [|left; reflexivity].
  rewrite map_map. cbn [fst]. rewrite map_id. apply (perm_keys_spec aterm_beq a aterm_beq_refl aterm_true). destruct a as [[u v] x]. cbn. tauto.
Qed.
(** ... those of contribution 3 do not: of the entries that show MHr PhPh Hp none announces the
    weight -1 of the coefficient, and all that show Hr PhPh PhPh announce a division by
    sin(theta) that the coefficient does not make *)
Theorem C106_labels_3 : forall E, exists l, angular_kernels E 3 = Some l /\
  (exists names pt, In (names, pt) partners_3 /\ In ((MHr, PhPh, Hp), true, -1) pt) /\
  (forall e, In e l -> In (MHr, PhPh, Hp) (map fst (t_rows (a_term e))) -> a_factor e = 1) /\
  (exists names pt, In (names, pt) partners_3 /\ In ((Hr, PhPh, PhPh), false, 1) pt) /\
  (forall e, In e l -> In (Hr, PhPh, PhPh) (map fst (t_rows (a_term e))) -> a_div e = true).
Proof.
  intros E. eexists. split; [reflexivity|].
  split. { do 2 eexists. split; [do 2 right; left; reflexivity|]. cbn. tauto. }
  split. { intros e He Hk. apply in_map_iff in He. destruct He as ([[[sym t] d] f] & <- & He). cbn in He.
           repeat destruct He as [He | He]; try contradiction; injection He as <- <- <- <-; cbn in Hk |- *; try reflexivity;
             exfalso; repeat destruct Hk as [Hk | Hk]; try discriminate; contradiction. }
  split. { do 2 eexists. split; [do 7 right; left; reflexivity|]. cbn. tauto. }
  intros e He Hk. apply in_map_iff in He. destruct He as ([[[sym t] d] f] & <- & He). cbn in He.
  repeat destruct He as [He | He]; try contradiction; injection He as <- <- <- <-; cbn in Hk |- *; try reflexivity;
    exfalso; repeat destruct Hk as [Hk | Hk]; try discriminate; contradiction.
Qed.

(** a concrete coupler: three radii, two latitudes *)
Definition kex : kenv := {|
  k_E := {| e_n := 3; e_x := fun i => INR i + 1; e_nmu := 2; e_mu := fun k => match k with O => -3 / 5 | _ => 3 / 5 end;
    e_rad := fun t p i => RtoC (INR (p + i)); e_ang := fun t p k => match t with Hr => 1 | Hp => 2 | _ => INR p end;
    e_m := [2; 1; 1]%Z; e_conj := ConjTuple [true; false; false]; e_self := false; e_complex := false;
    e_cheby := false; e_cheby_mul := 4; e_blow := false; e_blow_fac := 1000; e_poly := false;
    e_P := fun i => INR i / 2; e_G1 := fun _ => 5 / 3; e_rhon := fun i => (INR i + 1) / 4; e_rho := fun i => INR i + 1; e_adder := Some (fun _ => 1);
    e_g1 := fun _ => 1; e_g2 := fun _ => 2; e_g3 := fun _ => 3; e_normP := 2; e_normrho := 4; e_R := 7;
    e_corot := fun _ => 1; e_surf := 1; e_integ := fun _ ys _ => fold_right Rplus 0 ys |};
  k_P := INR; k_energy := 11 |}.
Theorem C105_hypotheses_met : let E := k_E kex in standard E /\ e_self E = false /\ linear (e_integ E) /\ (2 <= 3)%nat /\ (2 <= e_n E)%nat /\ (2 <= e_nmu E)%nat /\
  consistent kex /\ e_poly E = false /\ exists ad, e_adder E = Some ad.
Proof.
  cbv zeta. split. { unfold standard. cbn. repeat split; do 3 eexists; reflexivity. } split; [reflexivity|]. split.
  { intros b a d ys zs xs L1 L2 _. cbn. assert (L : List.length ys = List.length zs) by congruence. clear L1 L2 xs. revert zs L.
    induction ys as [|y ys IH]; intros [|z1 zs] L; cbn in *; try discriminate; [ring|]. rewrite IH by congruence. ring. }
  split; [lia|]. split; [cbn; lia|]. split; [cbn; lia|]. split.
  { unfold consistent. cbn [kex k_E k_P k_energy e_normP e_normrho e_R e_P e_rhon e_rho e_x]. do 4 (split; [lra|]). split; [reflexivity|]. split; [reflexivity|].
    intros i _. pose proof (pos_INR i). lra. }
  split; [reflexivity|]. eexists. reflexivity.
Qed.
Theorem C106_hypotheses_met : exists l e f, angular_kernels (k_E kex) 1 = Some l /\ In e l /\ In ((ThPh, DHp, Hr), f) (t_rows (a_term e)) /\
  -1 < e_mu (k_E kex) 0 < 1 /\ f 0%nat <> RtoC (announced (k_E kex) e (ThPh, DHp, Hr) 0).
Proof.
  eexists. exists (angular_kernel_term (k_E kex) true (ThPh, DHp, Hr) true (-2)). exists (fun k => RtoC (ang_product (k_E kex) (ThPh, DHp, Hr) k)).
  split; [reflexivity|]. split; [do 3 right; left; reflexivity|]. split; [left; reflexivity|]. split; [cbn; lra|].
  unfold announced, angular_kernel_term. cbn [a_factor a_mu a_div]. cbn [kex k_E e_ang e_mu ang_product INR].
  intros H. apply (f_equal Re) in H. cbn in H.
  assert (S2 : sqrt (1 - -3 / 5 * (-3 / 5 * 1)) = 4 / 5).
  { replace (1 - -3 / 5 * (-3 / 5 * 1)) with (Rsqr (4 / 5)) by (unfold Rsqr; lra). apply sqrt_Rsqr. lra. }
  rewrite S2 in H. lra.
Qed.
