(** * Properties C48-C50, C71-C74: Hough functions.
    Exact real arithmetic; numpy's inv and eig enter through their contracts (inverses_ok,
    eig_ok).  The first is never vacuous: C71 proves that the inverses exist. *)
From Coq Require Import Reals List ZArith Bool Lia Lra String.
From Coquelicot Require Import Coquelicot.
From Verif Require Import Base NumInt_Model NumInt_Spec NumInt_Proofs Hough_Model Hough_Spec Hough_Proofs Hough_Inverse Hough_Main Hough_Select.
Import ListNotations.
Local Open Scope R_scope.

(** ** from a run to the function behind it *)
Lemma sgb_even z : sgb (Z.odd z) = if Z.even z then 1 else -1.
Proof. rewrite <- Z.negb_even. destruct (Z.even z); reflexivity. Qed.
Lemma theta_chain (G : R -> R) d t : 0 < t < PI -> is_derive G (cos t) d ->
  is_derive (fun u => G (cos u)) t (- sqrt (1 - cos t ^ 2) * d).
Proof.
  intros Ht H. assert (Hs : sqrt (1 - cos t ^ 2) = sin t).
  { replace (1 - cos t ^ 2) with (Rsqr (sin t)); [apply sqrt_Rsqr; left; apply sin_gt_0; lra|].
    pose proof (sin2_cos2 t) as Q. unfold Rsqr in *. lra. }
  rewrite Hs. assert (E : ex_derive G (cos t)) by (eexists; exact H).
  auto_derive; [exact E|]. change (fun x0 => G x0) with G. rewrite (is_derive_unique _ _ _ H). ring.
Qed.
Lemma sqrt_mu_full h i : (i < 2 * h)%nat -> exists j, (j < h)%nat /\ sqrt (1 - mu_full h i ^ 2) = s_ h j /\
  ((i = j /\ mu_full h i = - mu_ h j) \/ (i = (2 * h - 1 - j)%nat /\ mu_full h i = mu_ h j)).
Proof.
  intros Hi. destruct (mu_full_cases h i Hi) as (j & Hj & [[E ->]|[E ->]]); exists j; (split; [exact Hj|]); (split; [|tauto]).
  - unfold s_. f_equal. ring.
  - reflexivity.
Qed.
Lemma extend_theta h c f i : (i < 2 * h)%nat -> extend h c (fun k => - s_ h k * f k) i = - sqrt (1 - mu_full h i ^ 2) * extend h c f i.
Proof.
  intros Hi. destruct (sqrt_mu_full h i Hi) as (j & Hj & -> & [[-> _]|[-> _]]).
  - rewrite !extend_south by exact Hj. ring.
  - rewrite !extend_north by exact Hj. ring.
Qed.

Section Run.
Variables (X : invs) (eig : mat -> list epair) (o o' : hobj).
Hypothesis HW : well_posed X eig o.
Hypothesis HC : hf_call X eig o = Ok o'.

Lemma run_pick : exists ev v, o_res o' = Some (results X o ev v) /\ (exists i, (i < o_h o)%nat /\ v i <> 0) /\
  (forall i, (i < o_h o)%nat -> vsum (o_h o) (fun k => colloc_matrix X o i k * v k) = ev * v i).
Proof.
  destruct HW as (H1 & H2 & H3 & H4). destruct (call_inv _ _ _ _ HC) as (est & [ev v] & E & A & ->).
  destruct (argmin_spec _ _ _ A) as [Hin _]. apply keep_spec in Hin. destruct Hin as (e & He & Him & Hneg & -> & ->).
  exists (ep_re e), (ep_vre e). split; [reflexivity|]. destruct (H3 e He Him) as [HA HB]. split; assumption.
Qed.
Lemma run_rep : exists ev v F F1 F2, o_res o' = Some (results X o ev v) /\
  represents (o_h o) X (parity_ o) (pf_ o) (oriented (o_h o) v) F F1 F2 /\
  (forall j, (j < o_h o)%nat -> lte_0 (o_nu o) (IZR (o_m o)) (o_h o) j * F (mu_ (o_h o) j)
     + lte_1 (o_nu o) (o_h o) j * F1 (mu_ (o_h o) j) + lte_2 (o_nu o) (o_h o) j * F2 (mu_ (o_h o) j) = ev * F (mu_ (o_h o) j)).
Proof.
  destruct run_pick as (ev & v & Hr & Hnz & He). destruct HW as (H1 & H2 & H3 & H4).
  destruct (represented (o_h o) X (parity_ o) (pf_ o) (oriented (o_h o) v) H2) as (F & F1 & F2 & HR).
  exists ev, v, F, F1, F2. split; [exact Hr|]. split; [exact HR|]. intros j Hj.
  destruct (oriented_scale (o_h o) v Hnz) as (c & _ & HO & _).
  pose proof (eigen_pointwise X o ev v He c j Hj) as Q. cbv zeta in Q.
  assert (HE : forall D, vsum (o_h o) (fun k => D j k * (v k * c)) = vsum (o_h o) (fun k => D j k * oriented (o_h o) v k)).
  { intros D. apply vsum_ext. intros k _. rewrite HO. reflexivity. }
  rewrite <- (rep_1 _ _ _ _ _ _ _ _ HR j Hj), <- (rep_2 _ _ _ _ _ _ _ _ HR j Hj), <- (rep_0 _ _ _ _ _ _ _ _ HR j Hj).
  unfold diff1, diff2, mvec in *. rewrite !HE in Q. rewrite HO. exact Q.
Qed.
End Run.

Lemma rep_radial X o ev v F F1 F2 : represents (o_h o) X (parity_ o) (pf_ o) (oriented (o_h o) v) F F1 F2 ->
  radial_function o (results X o ev v) F F1 F2.
Proof.
  intros HR. split; [apply (rep_der _ _ _ _ _ _ _ _ HR)|]. split.
  - intros y. rewrite (rep_par _ _ _ _ _ _ _ _ HR y). unfold parity_. rewrite sgb_even. reflexivity.
  - split; intros i Hi.
    + unfold hr_range. apply extend_value; [exact Hi|apply (rep_0 _ _ _ _ _ _ _ _ HR)|].
      intros j _. rewrite sgn_k_parity. apply (rep_par _ _ _ _ _ _ _ _ HR).
    + unfold hrp_range. apply extend_value; [exact Hi|apply (rep_1 _ _ _ _ _ _ _ _ HR)|].
      intros j Hj. rewrite sgn_k1_parity. apply (F1_par o X (oriented (o_h o) v) F F1 F2 HR). apply mu_lt_1; exact Hj.
Qed.

Lemma tidal_full X o ev F F1 F2 hr : represents (o_h o) X (parity_ o) (pf_ o) hr F F1 F2 ->
  (forall j, (j < o_h o)%nat -> 1 - o_nu o ^ 2 * mu_ (o_h o) j ^ 2 <> 0) ->
  (forall j, (j < o_h o)%nat -> lte_0 (o_nu o) (IZR (o_m o)) (o_h o) j * F (mu_ (o_h o) j)
     + lte_1 (o_nu o) (o_h o) j * F1 (mu_ (o_h o) j) + lte_2 (o_nu o) (o_h o) j * F2 (mu_ (o_h o) j) = ev * F (mu_ (o_h o) j)) ->
  forall i, (i < 2 * o_h o)%nat -> tidal_equation (o_nu o) (IZR (o_m o)) F F1 ev (mu_full (o_h o) i).
Proof.
  intros HR HD HL i Hi. set (h := o_h o) in *. set (nu := o_nu o) in *. set (m := IZR (o_m o)) in *.
  set (x := mu_full h i). assert (Hx : -1 < x < 1) by (apply mu_full_range; exact Hi).
  assert (HDx : 1 - nu ^ 2 * x ^ 2 <> 0) by (apply (D_full o HD i Hi)).
  exists (-2 * x * (1 - nu ^ 2) / (1 - nu ^ 2 * x ^ 2) ^ 2 * F1 x + (1 - x ^ 2) / (1 - nu ^ 2 * x ^ 2) * F2 x). split.
  - apply der_flux; [exact HDx|]. apply (rep_der _ _ _ _ _ _ _ _ HR x Hx).
  - unfold x. destruct (mu_full_cases h i Hi) as (j & Hj & HJ). pose proof (HL j Hj) as Q.
    unfold lte_0, lte_1, lte_2 in Q. rewrite s2 in Q by exact Hj. unfold denom in Q.
    assert (Hm : mu_full h i ^ 2 = mu_ h j ^ 2) by (destruct HJ as [[_ ->]|[_ ->]]; ring).
    rewrite !Hm. destruct HJ as [[_ ->]|[_ ->]].
    + rewrite (rep_par _ _ _ _ _ _ _ _ HR), (F1_par o X _ F F1 F2 HR), (F2_par o X _ F F1 F2 HR) by (apply mu_lt_1; exact Hj).
      fold h nu m in Q. 
      transitivity (sgb (parity_ o) * ((nu * m * (1 + nu ^ 2 * mu_ h j ^ 2) / (1 - nu ^ 2 * mu_ h j ^ 2) ^ 2 - m ^ 2 / ((1 - mu_ h j ^ 2) * (1 - nu ^ 2 * mu_ h j ^ 2))) * F (mu_ h j)
        + -2 * mu_ h j * (1 - nu ^ 2) / (1 - nu ^ 2 * mu_ h j ^ 2) ^ 2 * F1 (mu_ h j) + (1 - mu_ h j ^ 2) / (1 - nu ^ 2 * mu_ h j ^ 2) * F2 (mu_ h j))).
      * unfold Rdiv. ring.
      * rewrite Q. ring.
    + rewrite <- Q. fold h nu m. ring.
Qed.
(** C50: after a successful call there is a function F of the parity of l - m whose values and
    first derivatives are the returned radial arrays over the whole grid, and which satisfies
    Laplace's tidal equation with the returned eigenvalue at every grid point, north and south. *)
Theorem C50_radial_function_solves_tidal_equation : forall X eig o o',
  well_posed X eig o -> hf_call X eig o = Ok o' ->
  exists r F F1 F2, o_res o' = Some r /\ radial_function o r F F1 F2 /\
    forall i, (i < 2 * o_h o)%nat -> tidal_equation (o_nu o) (IZR (o_m o)) F F1 (r_ev r) (mu_full (o_h o) i).
Proof.
  intros X eig o o' HW HC. destruct (run_rep X eig o o' HW HC) as (ev & v & F & F1 & F2 & Hr & HR & HL).
  exists (results X o ev v), F, F1, F2. split; [exact Hr|]. split; [apply rep_radial; exact HR|].
  apply (tidal_full X o ev F F1 F2 _ HR); [apply HW|exact HL].
Qed.


(** the full-grid arrays behind a result, for every definition *)
Section Full.
Variables (X : invs) (o : hobj) (ev : R) (v : vec) (F F1 F2 : R -> R).
Hypothesis HR : represents (o_h o) X (parity_ o) (pf_ o) (oriented (o_h o) v) F F1 F2.
Hypothesis HD : forall j, (j < o_h o)%nat -> 1 - o_nu o ^ 2 * mu_ (o_h o) j ^ 2 <> 0.
Let Ht := Ht_of (o_nu o) (IZR (o_m o)) F F1.
Let Hp := Hp_of (o_nu o) (IZR (o_m o)) F F1.
Let r := results X o ev v.
Lemma sin_fac_even y : sin_fac o (- y) = sin_fac o y.
Proof. unfold sin_fac. replace ((- y) ^ 2) with (y ^ 2) by ring. reflexivity. Qed.
Lemma full_ht : samples (o_h o) (ht_range o r) (fun x => sin_fac o x * Ht x).
Proof.
  intros i Hi. unfold ht_range. apply (extend_value (o_h o) (sgn_k1 o) (r_ht r) (fun x => sin_fac o x * Ht x) i Hi).
  - intros j Hj. apply (half_ht o X _ F F1 F2 HR HD j Hj).
  - intros j Hj. rewrite sin_fac_even, sgn_k1_parity. unfold Ht. rewrite (Ht_par o X _ F F1 F2 HR) by (apply mu_lt_1; exact Hj). ring.
Qed.
Lemma full_hp : samples (o_h o) (hp_range o r) (fun x => phi_sgn o * sin_fac o x * Hp x).
Proof.
  intros i Hi. unfold hp_range. apply (extend_value (o_h o) (sgn_k o) (r_hp r) (fun x => phi_sgn o * sin_fac o x * Hp x) i Hi).
  - intros j Hj. apply (half_hp o X _ F F1 F2 HR HD j Hj).
  - intros j Hj. rewrite sin_fac_even, sgn_k_parity. unfold Hp. rewrite (Hp_par o X _ F F1 F2 HR) by (apply mu_lt_1; exact Hj). ring.
Qed.
Lemma full_htp : derivative_samples (o_h o) (htp_range o r) (fun x => sin_fac o x * Ht x).
Proof.
  intros i Hi. unfold htp_range. apply (extend_der_c o (sgn_k o) (r_htp r) (fun x => sin_fac o x * Ht x) i Hi).
  - rewrite sgn_k_parity. apply sgb_sq.
  - intros y Hy. rewrite sin_fac_even, sgn_k_parity. unfold Ht. rewrite (Ht_par o X _ F F1 F2 HR) by exact Hy. ring.
  - intros j Hj. apply (half_htp o X _ F F1 F2 HR HD j Hj).
Qed.
Lemma defect_par y : -1 < y < 1 -> hpp_defect o F F1 (- y) = - sgb (parity_ o) * hpp_defect o F F1 y.
Proof.
  intros Hy. unfold hpp_defect. destruct (adjust_phi_sign (o_ins o)); [|ring]. destruct (sin_factor (o_ins o)); [|ring].
  rewrite (Hp_par o X _ F F1 F2 HR) by exact Hy. replace ((- y) ^ 2) with (y ^ 2) by ring. unfold Rdiv. ring.
Qed.
Lemma full_hpp i : (i < 2 * o_h o)%nat -> is_derive (fun x => phi_sgn o * sin_fac o x * Hp x) (mu_full (o_h o) i)
  (phi_sgn o * hpp_range o r i + hpp_defect o F F1 (mu_full (o_h o) i)).
Proof.
  intros Hi. replace (phi_sgn o * hpp_range o r i + hpp_defect o F F1 (mu_full (o_h o) i)) with
    (extend (o_h o) (sgn_k1 o) (fun j => phi_sgn o * r_hpp r j + hpp_defect o F F1 (mu_ (o_h o) j)) i).
  - apply (extend_der_c o (sgn_k1 o) _ (fun x => phi_sgn o * sin_fac o x * Hp x) i Hi).
    + rewrite sgn_k1_parity. pose proof (sgb_sq (parity_ o)). nra.
    + intros y Hy. rewrite sin_fac_even, sgn_k1_parity. unfold Hp. rewrite (Hp_par o X _ F F1 F2 HR) by exact Hy. ring.
    + intros j Hj. apply (half_hpp o X _ F F1 F2 HR HD j Hj).
  - eqR. destruct (mu_full_cases _ i Hi) as (j & Hj & [[-> Hm]|[-> Hm]]); rewrite Hm; unfold hpp_range.
    + rewrite !extend_south by exact Hj. rewrite defect_par by (apply mu_lt_1; exact Hj). rewrite sgn_k1_parity. ring.
    + rewrite !extend_north by exact Hj. reflexivity.
Qed.
Lemma full_theta (a b : vec) c (G : R -> R) : (forall j, a j = - s_ (o_h o) j * b j) ->
  derivative_samples (o_h o) (extend (o_h o) c b) G -> theta_derivative_samples (o_h o) (extend (o_h o) c a) G.
Proof.
  intros Ha HG i t Hi Ht' Hc. replace (extend (o_h o) c a i) with (- sqrt (1 - cos t ^ 2) * extend (o_h o) c b i).
  - apply theta_chain; [exact Ht'|]. rewrite Hc. apply HG; exact Hi.
  - eqR. rewrite Hc. rewrite <- extend_theta by exact Hi. unfold extend, concat_rev. destruct (Nat.ltb i (o_h o)); rewrite ?Ha; reflexivity.
Qed.
Lemma full_hrp : derivative_samples (o_h o) (hrp_range o r) F.
Proof.
  intros i Hi. destruct (rep_radial X o ev v F F1 F2 HR) as (HDer & _ & _ & H1). unfold r. rewrite (H1 i Hi).
  apply HDer. apply mu_full_range; exact Hi.
Qed.
End Full.

Lemma momentum nu m (F F1 : R -> R) x : -1 < x < 1 -> 1 - nu ^ 2 * x ^ 2 <> 0 ->
  Ht_of nu m F F1 x + nu * x * Hp_of nu m F F1 x = - sqrt (1 - x ^ 2) * F1 x /\
  Hp_of nu m F F1 x + nu * x * Ht_of nu m F F1 x = m * F x / sqrt (1 - x ^ 2).
Proof.
  intros Hx HD. destruct (sqrt_ok x Hx) as (Hpos & Hq & Hq2). unfold Ht_of, Hp_of. set (q := sqrt (1 - x ^ 2)) in *.
  assert (HE : 1 - (nu * x) ^ 2 <> 0) by (replace ((nu * x) ^ 2) with (nu ^ 2 * x ^ 2) by ring; exact HD).
  split.
  - set (D := 1 - nu ^ 2 * x ^ 2) in *. transitivity (- q ^ 2 * D * F1 x / (D * q)); [unfold D; rewrite Hq2; field; split; [lra|exact HE]|].
    field. split; lra.
  - set (D := 1 - nu ^ 2 * x ^ 2) in *. transitivity (D * (m * F x) / (D * q)); [unfold D; field; split; [lra|exact HE]|].
    field. split; lra.
Qed.
Lemma continuity nu m (F F1 : R -> R) ev x f1' : -1 < x < 1 -> 1 - nu ^ 2 * x ^ 2 <> 0 ->
  is_derive F x (F1 x) -> is_derive F1 x f1' -> tidal_equation nu m F F1 ev x ->
  exists d, is_derive (fun y => sqrt (1 - y ^ 2) * Ht_of nu m F F1 y) x d /\
         - d - m * Hp_of nu m F F1 x / sqrt (1 - x ^ 2) = ev * F x.
Proof.
  intros Hx HD H1 H2 (fl & Hfl & Heq). destruct (sqrt_ok x Hx) as (Hpos & Hq & Hq2).
  pose proof (der_flux nu F1 x f1' HD H2) as Hf2.
  assert (Efl : fl = -2 * x * (1 - nu ^ 2) / (1 - nu ^ 2 * x ^ 2) ^ 2 * F1 x + (1 - x ^ 2) / (1 - nu ^ 2 * x ^ 2) * f1')
    by (rewrite <- (is_derive_unique _ _ _ Hfl); apply is_derive_unique; exact Hf2).
  eexists. split; [apply der_sqrt_mul; [exact Hx|apply der_Ht; eassumption]|].
  rewrite <- Heq, Efl. unfold Ht_of, Hp_of. set (q := sqrt (1 - x ^ 2)) in *.
  set (D := 1 - nu ^ 2 * x ^ 2) in *.
  replace (1 + nu ^ 2 * x ^ 2) with (2 - D) by (unfold D; ring).
  assert (HX : x ^ 2 = 1 - q ^ 2) by lra.
  assert (Hxx : D = 1 - nu ^ 2 * (1 - q ^ 2)) by (unfold D; rewrite HX; reflexivity).
  replace (1 - x ^ 2) with (q ^ 2) by lra. 
  replace (x ^ 4) with ((1 - q ^ 2) ^ 2) by (rewrite <- HX; ring).
  replace (x ^ 3) with (x * (1 - q ^ 2)) by (rewrite <- HX; ring). rewrite HX.
  clearbody D. subst D. field_simplify_eq; [|split; [exact HD|lra]].
  rewrite HX. ring.
Qed.
(** C50: the returned latitudinal and azimuthal arrays (definition 'prat') solve the horizontal
    momentum equations  Ht + nu mu Hp = dF/dtheta,  Hp + nu mu Ht = m F / sin theta, and the
    returned derivative arrays are their exact mu- and theta-derivatives over the whole grid;
    together with the radial function they satisfy  - d(sin theta Ht)/dmu - m Hp / sin theta = ev F. *)
Theorem C50_horizontal_components : forall X eig o o',
  well_posed X eig o -> o_ins o = PRAT -> hf_call X eig o = Ok o' ->
  exists r F F1 F2 Ht Hp, o_res o' = Some r /\ radial_function o r F F1 F2 /\
    samples (o_h o) (ht_range o r) Ht /\ samples (o_h o) (hp_range o r) Hp /\
    (forall i, (i < 2 * o_h o)%nat -> let x := mu_full (o_h o) i in
       Ht x + o_nu o * x * Hp x = - sqrt (1 - x ^ 2) * F1 x /\
       Hp x + o_nu o * x * Ht x = IZR (o_m o) * F x / sqrt (1 - x ^ 2) /\
       exists d, is_derive (fun y => sqrt (1 - y ^ 2) * Ht y) x d /\
         - d - IZR (o_m o) * Hp x / sqrt (1 - x ^ 2) = r_ev r * F x) /\
    derivative_samples (o_h o) (htp_range o r) Ht /\ derivative_samples (o_h o) (hpp_range o r) Hp /\
    theta_derivative_samples (o_h o) (hrp_range_theta o r) F /\
    theta_derivative_samples (o_h o) (htp_range_theta o r) Ht /\
    theta_derivative_samples (o_h o) (hpp_range_theta o r) Hp.
Proof.
  intros X eig o o' HW HI HC. 
  destruct (run_rep X eig o o' HW HC) as (ev & v & F & F1 & F2 & Hr & HR & HL).
  assert (HT : forall i, (i < 2 * o_h o)%nat -> tidal_equation (o_nu o) (IZR (o_m o)) F F1 ev (mu_full (o_h o) i)) by (apply (tidal_full X o ev F F1 F2 _ HR); [apply HW|exact HL]).
  destruct HW as (_ & _ & _ & HD).
  assert (Es : forall x, sin_fac o x = 1) by (intros; unfold sin_fac; rewrite HI; reflexivity).
  assert (Ep : phi_sgn o = 1) by (unfold phi_sgn; rewrite HI; reflexivity).
  assert (Ed : forall x, hpp_defect o F F1 x = 0) by (intros; unfold hpp_defect; rewrite HI; reflexivity).
  set (Ht := Ht_of (o_nu o) (IZR (o_m o)) F F1). set (Hp := Hp_of (o_nu o) (IZR (o_m o)) F F1).
  assert (DT : derivative_samples (o_h o) (htp_range o (results X o ev v)) Ht).
  { intros i Hi. apply (is_derive_ext (fun x => sin_fac o x * Ht x)); [intros; eqR; rewrite Es; ring|]. apply (full_htp X o ev v F F1 F2 HR HD i Hi). }
  assert (DP : derivative_samples (o_h o) (hpp_range o (results X o ev v)) Hp).
  { intros i Hi. apply (is_derive_ext (fun x => phi_sgn o * sin_fac o x * Hp x)); [intros; eqR; rewrite Es, Ep; ring|].
    pose proof (full_hpp X o ev v F F1 F2 HR HD i Hi) as Q. rewrite Ep, Ed in Q.
    match type of Q with is_derive _ _ ?w => replace w with (hpp_range o (results X o ev v) i) in Q by (eqR; ring) end.
    rewrite Ep. exact Q. }
  exists (results X o ev v), F, F1, F2, Ht, Hp. split; [exact Hr|]. split; [apply rep_radial; exact HR|].
  split. { intros i Hi. rewrite (full_ht X o ev v F F1 F2 HR HD i Hi), Es. apply Rmult_1_l. }
  split. { intros i Hi. rewrite (full_hp X o ev v F F1 F2 HR HD i Hi), Es, Ep. change (1 * 1 * Hp (mu_full (o_h o) i) = Hp (mu_full (o_h o) i)). ring. }
  split.
  { intros i Hi x. assert (Hx : -1 < x < 1) by (apply mu_full_range; exact Hi).
    assert (HDx : 1 - o_nu o ^ 2 * x ^ 2 <> 0) by (apply (D_full o HD i Hi)).
    destruct (momentum (o_nu o) (IZR (o_m o)) F F1 x Hx HDx) as [M1 M2]. split; [exact M1|]. split; [exact M2|].
    destruct (rep_der _ _ _ _ _ _ _ _ HR x Hx) as [G1 G2].
    apply (continuity _ _ F F1 ev x _ Hx HDx G1 G2). apply HT; exact Hi. }
  split; [exact DT|]. split; [exact DP|].
  split; [apply (full_theta o (hrp_theta (o_h o) (results X o ev v)) (r_hrp (results X o ev v))); [reflexivity|apply (full_hrp X o ev v F F1 F2 HR)]|].
  split; [apply (full_theta o (htp_theta (o_h o) (results X o ev v)) (r_htp (results X o ev v))); [reflexivity|exact DT]|].
  apply (full_theta o (hpp_theta (o_h o) (results X o ev v)) (r_hpp (results X o ev v))); [reflexivity|exact DP].
Qed.

(** ** C48: both hemispheres *)
(** C48: for every definition the arrays over the full grid are samples of one function of the
    right parity each: the radial one and its mu-derivative (radial_function), the latitudinal
    one and its derivative, the azimuthal one; 'townsend' multiplies the horizontal ones with
    sin theta and both 'townsend' and 'lee_saio_equivalent' negate the azimuthal one. *)
Theorem C48_hemispheres_agree : forall X eig o o',
  well_posed X eig o -> hf_call X eig o = Ok o' ->
  exists r F F1 F2 Ht Hp, o_res o' = Some r /\ radial_function o r F F1 F2 /\
    samples (o_h o) (ht_range o r) Ht /\ derivative_samples (o_h o) (htp_range o r) Ht /\
    theta_derivative_samples (o_h o) (htp_range_theta o r) Ht /\
    samples (o_h o) (hp_range o r) Hp /\ theta_derivative_samples (o_h o) (hrp_range_theta o r) F /\
    (forall x, -1 < x < 1 ->
       let sg := if Z.even (o_l o - o_m o) then 1 else -1 in
       let sf := if sin_factor (o_ins o) then sqrt (1 - x ^ 2) else 1 in
       Ht x = sf * Ht_of (o_nu o) (IZR (o_m o)) F F1 x /\
       Hp x = (if adjust_phi_sign (o_ins o) then -1 else 1) * sf * Hp_of (o_nu o) (IZR (o_m o)) F F1 x /\
       Ht (- x) = - sg * Ht x /\ Hp (- x) = sg * Hp x) /\
    (forall i, (i < 2 * o_h o)%nat -> let x := mu_full (o_h o) i in
       hr_range_m o r i = - IZR (o_m o) * hr_range o r i /\
       theta_phi o r i = IZR (o_m o) * ht_range o r i - x * hp_range o r i /\
       phi_phi o r i = (x * ht_range o r i - IZR (o_m o) * hp_range o r i) / sqrt (1 - x ^ 2)).
Proof.
  intros X eig o o' HW HC. destruct (run_rep X eig o o' HW HC) as (ev & v & F & F1 & F2 & Hr & HR & HL).
  destruct HW as (_ & _ & _ & HD).
  exists (results X o ev v), F, F1, F2, (fun x => sin_fac o x * Ht_of (o_nu o) (IZR (o_m o)) F F1 x),
    (fun x => phi_sgn o * sin_fac o x * Hp_of (o_nu o) (IZR (o_m o)) F F1 x).
  split; [exact Hr|]. split; [apply rep_radial; exact HR|]. split; [apply (full_ht X o ev v F F1 F2 HR HD)|].
  split; [apply (full_htp X o ev v F F1 F2 HR HD)|].
  split; [apply (full_theta o (htp_theta (o_h o) (results X o ev v)) (r_htp (results X o ev v))); [reflexivity|apply (full_htp X o ev v F F1 F2 HR HD)]|].
  split; [apply (full_hp X o ev v F F1 F2 HR HD)|].
  split; [apply (full_theta o (hrp_theta (o_h o) (results X o ev v)) (r_hrp (results X o ev v))); [reflexivity|apply (full_hrp X o ev v F F1 F2 HR)]|].
  split.
  - intros x Hx. cbv zeta. split; [reflexivity|]. split; [reflexivity|]. rewrite !sin_fac_even.
    rewrite (Ht_par o X _ F F1 F2 HR x Hx), (Hp_par o X _ F F1 F2 HR x Hx). unfold parity_. rewrite sgb_even. split; ring.
  - intros i Hi x. split; [unfold hr_range_m; ring|]. unfold x. generalize (results X o ev v). intros r.
    unfold theta_phi, phi_phi, ht_range, hp_range, extend, mu_full, concat_rev, s_. destruct (Nat.ltb i (o_h o)).
    + replace ((-1 * mu_ (o_h o) i) ^ 2) with (mu_ (o_h o) i ^ 2) by ring. split; reflexivity.
    + split; reflexivity.
Qed.
(** C48: the second derivatives of the radial component are exact north of the equator and have
    the opposite sign south of it. *)
Theorem C48_second_derivative_wrong_sign_in_the_south : forall X eig o o',
  well_posed X eig o -> hf_call X eig o = Ok o' ->
  exists r F F1 F2, o_res o' = Some r /\ radial_function o r F F1 F2 /\
    forall i, (i < 2 * o_h o)%nat ->
      let sg := if (i <? o_h o)%nat then -1 else 1 in
      (mu_full (o_h o) i < 0 <-> (i < o_h o)%nat) /\
      hrpp_range o r i = sg * F2 (mu_full (o_h o) i) /\
      forall t, 0 < t < PI -> cos t = mu_full (o_h o) i ->
        is_derive (fun u => F (cos u)) t (- sin t * F1 (cos t)) /\
        is_derive (fun u => - sin u * F1 (cos u)) t (sg * hrpp_range_theta o r i).
Proof.
  intros X eig o o' HW HC. destruct (run_rep X eig o o' HW HC) as (ev & v & F & F1 & F2 & Hr & HR & HL).
  exists (results X o ev v), F, F1, F2. split; [exact Hr|]. split; [apply rep_radial; exact HR|].
  intros i Hi sg. set (h := o_h o) in *.
  assert (HP2 : forall j, (j < h)%nat -> F2 (- mu_ h j) = sgb (parity_ o) * F2 (mu_ h j)) by (intros j Hj; apply (F2_par o X _ F F1 F2 HR); apply mu_lt_1; exact Hj).
  assert (HP1 : forall j, (j < h)%nat -> F1 (- mu_ h j) = - sgb (parity_ o) * F1 (mu_ h j)) by (intros j Hj; apply (F1_par o X _ F F1 F2 HR); apply mu_lt_1; exact Hj).
  assert (HX : mu_full h i < 0 <-> (i < h)%nat).
  { unfold mu_full, concat_rev. destruct (Nat.ltb_spec i h) as [Hl|Hl].
    - pose proof (mu_pos h i Hl). split; [intros _; exact Hl|intros _; lra].
    - pose proof (mu_pos h (2 * h - 1 - i) ltac:(lia)). split; [lra|lia]. }
  split; [exact HX|].
  assert (HS : sg * sg = 1) by (unfold sg; destruct (Nat.ltb i h); lra).
  assert (H2 : hrpp_range o (results X o ev v) i = sg * F2 (mu_full h i)).
  { unfold hrpp_range, sg. fold h. destruct (mu_full_cases h i Hi) as (j & Hj & [[-> Hm]|[-> Hm]]); rewrite Hm.
    - rewrite extend_south by exact Hj. rewrite HP2, sgn_k1_parity by exact Hj. destruct (Nat.ltb_spec j h); [|lia].
      rewrite <- (rep_2 _ _ _ _ _ _ _ _ HR j Hj). cbn [results r_hrpp]. ring_simplify. reflexivity.
    - rewrite extend_north by exact Hj. destruct (Nat.ltb_spec (2 * h - 1 - j) h); [lia|].
      rewrite <- (rep_2 _ _ _ _ _ _ _ _ HR j Hj). cbn [results r_hrpp]. ring_simplify. reflexivity. }
  split; [exact H2|]. intros t Ht Hc. pose proof (mu_full_range h i Hi) as Hr1. rewrite <- Hc in Hr1.
  destruct (rep_der _ _ _ _ _ _ _ _ HR (cos t) Hr1) as [D1 D2].
  assert (X1 : ex_derive F (cos t)) by (eexists; exact D1). assert (X2 : ex_derive F1 (cos t)) by (eexists; exact D2).
  split.
  - auto_derive; [exact X1|]. change (fun x0 => F x0) with F. rewrite (is_derive_unique _ _ _ D1). ring.
  - assert (Q : is_derive (fun u => - sin u * F1 (cos u)) t (sin t ^ 2 * F2 (cos t) - cos t * F1 (cos t))).
    { auto_derive; [exact X2|]. change (fun x0 => F1 x0) with F1. rewrite (is_derive_unique _ _ _ D2). ring. }
    match goal with |- is_derive _ _ ?w => replace w with (sin t ^ 2 * F2 (cos t) - cos t * F1 (cos t)); [exact Q|] end.
    eqR. assert (HSin : sin t ^ 2 = 1 - cos t ^ 2) by (pose proof (sin2_cos2 t) as Z; unfold Rsqr in Z; lra).
    rewrite HSin, Hc. unfold hrpp_range_theta, hrpp_theta, sg. fold h. destruct (mu_full_cases h i Hi) as (j & Hj & [[-> Hm]|[-> Hm]]); rewrite Hm.
    + rewrite extend_south by exact Hj. rewrite HP2, HP1, sgn_k1_parity by exact Hj. destruct (Nat.ltb_spec j h); [|lia].
      rewrite s2 by exact Hj. cbn [results r_hrpp r_hrp]. fold h. rewrite (rep_2 _ _ _ _ _ _ _ _ HR j Hj), (rep_1 _ _ _ _ _ _ _ _ HR j Hj). ring.
    + rewrite extend_north by exact Hj. destruct (Nat.ltb_spec (2 * h - 1 - j) h); [lia|].
      rewrite s2 by exact Hj. cbn [results r_hrpp r_hrp]. fold h. rewrite (rep_2 _ _ _ _ _ _ _ _ HR j Hj), (rep_1 _ _ _ _ _ _ _ _ HR j Hj). ring.
Qed.

(** ** C74: the azimuthal derivative *)
(** C74: for 'lee_saio_equivalent' and 'townsend' the returned azimuthal derivative array is not
    the derivative of the returned azimuthal array: the derivative is minus the returned one,
    plus (townsend) 2 mu Hp / sin theta, Hp being the unadjusted component. *)
Theorem C74_azimuthal_derivative_of_adjusted_definitions : forall X eig o o',
  well_posed X eig o -> hf_call X eig o = Ok o' -> adjust_phi_sign (o_ins o) = true ->
  exists r G Hp0, o_res o' = Some r /\ samples (o_h o) (hp_range o r) G /\
    (forall x, -1 < x < 1 -> G x = - (if sin_factor (o_ins o) then sqrt (1 - x ^ 2) else 1) * Hp0 x) /\
    forall i, (i < 2 * o_h o)%nat -> let x := mu_full (o_h o) i in
      is_derive G x (- hpp_range o r i + if sin_factor (o_ins o) then 2 * x * Hp0 x / sqrt (1 - x ^ 2) else 0).
Proof.
  intros X eig o o' HW HC HA. destruct (run_rep X eig o o' HW HC) as (ev & v & F & F1 & F2 & Hr & HR & HL).
  destruct HW as (_ & _ & _ & HD).
  exists (results X o ev v), (fun x => phi_sgn o * sin_fac o x * Hp_of (o_nu o) (IZR (o_m o)) F F1 x), (Hp_of (o_nu o) (IZR (o_m o)) F F1).
  split; [exact Hr|]. split; [apply (full_hp X o ev v F F1 F2 HR HD)|].
  assert (Ep : phi_sgn o = -1) by (unfold phi_sgn; rewrite HA; reflexivity).
  split; [intros x _; rewrite Ep; unfold sin_fac; ring|]. intros i Hi x.
  pose proof (full_hpp X o ev v F F1 F2 HR HD i Hi) as Q. 
  match type of Q with is_derive _ _ ?w => match goal with |- is_derive _ _ ?z => replace z with w; [exact Q|] end end.
  eqR. rewrite Ep. unfold hpp_defect. rewrite HA. unfold x. ring.
Qed.

(** ** C72, C73: which eigenvalue *)
Lemma estimate_spec o est : estimate o = Ok est <-> wanted o est.
Proof.
  unfold estimate, wanted. destruct (o_lmbd o) as [[x|[|x l]]|].
  - split; [intros H; assert (G : (if o_adj o then x * -1 else x) = est) by (injection H; auto)|intros ->; apply (f_equal (@Ok R))]; destruct (o_adj o); lra.
  - split; [discriminate|tauto].
  - split; [intros H; assert (G : (if o_adj o then -1 * x else x) = est) by (injection H; auto)|intros ->; apply (f_equal (@Ok R))]; destruct (o_adj o); lra.
  - split; [intros H; assert (G : - IZR (o_l o) * (IZR (o_l o) + 1) = est) by (injection H; auto); lra|intros ->; apply (f_equal (@Ok R)); ring].
Qed.
(** C72: a successful call returns the real negative eigenvalue nearest to the estimate (the more
    negative one of two equally near ones); its radial array is that eigenvector scaled to a
    maximum of 1 with a nonnegative value at the grid point nearest to the equator.  It fails
    with ValueError exactly when no eigenvalue is real and negative. *)
Theorem C72_nearest_negative_eigenvalue : forall X eig o est, wanted o est ->
  let es := eig (colloc_matrix X o) in
  (eig_ok (o_h o) (colloc_matrix X o) es -> forall o', hf_call X eig o = Ok o' ->
     exists r v c, o_res o' = Some r /\ nearest_negative es est (r_ev r) v /\ c <> 0 /\
       (forall i, r_hr r i = v i * c) /\ 0 <= r_hr r (o_h o - 1)%nat /\
       (forall i, (i < o_h o)%nat -> Rabs (r_hr r i) <= 1) /\ exists i, (i < o_h o)%nat /\ Rabs (r_hr r i) = 1) /\
  ((forall e, In e es -> ep_im e = 0 -> 0 <= ep_re e) <-> hf_call X eig o = Exc ValueError) /\
  ((exists e, In e es /\ ep_im e = 0 /\ ep_re e < 0) <-> exists o', hf_call X eig o = Ok o').
Proof.
  intros X eig o est HE es. apply estimate_spec in HE.
  assert (HN : (exists e, In e es /\ ep_im e = 0 /\ ep_re e < 0) -> exists o', hf_call X eig o = Ok o').
  { intros (e & H1 & H2 & H3). unfold hf_call. rewrite HE. cbn [bind]. fold es.
    destruct (argmin est (sort (keep es))) as [p| |] eqn:A; cbn [bind]; [eauto| |];
      destruct (argmin_none est (keep es)) as [K _]; try (intros r Q; rewrite A in Q; discriminate);
      assert (Hin : In (ep_re e, ep_vre e) (keep es)) by (apply keep_spec; exists e; auto); rewrite K in Hin; contradiction. }
  assert (HZ : (forall e, In e es -> ep_im e = 0 -> 0 <= ep_re e) -> hf_call X eig o = Exc ValueError).
  { intros H. assert (K : keep es = []).
    { destruct (keep es) as [|[l v] t] eqn:K; [reflexivity|]. assert (Hin : In (l, v) (keep es)) by (rewrite K; left; reflexivity).
      apply keep_spec in Hin. destruct Hin as (e & H1 & H2 & H3 & _). specialize (H e H1 H2). lra. }
    unfold hf_call. rewrite HE. cbn [bind]. fold es. rewrite K. reflexivity. }
  assert (HM : forall o', hf_call X eig o = Ok o' -> exists e, In e es /\ ep_im e = 0 /\ ep_re e < 0).
  { intros o' HC. destruct (call_inv _ _ _ _ HC) as (est' & [l v] & _ & A & _).
    destruct (argmin_spec _ _ _ A) as [Hin _]. apply keep_spec in Hin. destruct Hin as (e & H1 & H2 & H3 & _). eauto. }
  split; [|split; split; auto].
  - intros HO o' HC. destruct (call_inv _ _ _ _ HC) as (est' & [ev v] & E & A & ->).
    assert (est' = est) by (rewrite E in HE; injection HE; auto). subst est'. fold es in A.
    destruct (argmin_spec _ _ _ A) as [Hin Hmin]. apply keep_spec in Hin.
    assert (HK : exists i, (i < o_h o)%nat /\ v i <> 0).
    { destruct Hin as (e & H1 & H2 & H3 & -> & ->). apply (HO e H1 H2). }
    destruct (oriented_scale (o_h o) v HK) as (c & Hc & HS & H0 & HMx).
    exists (results X o ev v), v, c. cbn [o_res fst snd]. split; [reflexivity|]. split.
    { split; [exact Hin|]. intros e H1 H2 H3. apply (Hmin (ep_re e, ep_vre e)). apply keep_spec. exists e; auto. }
    split; [exact Hc|]. split; [exact HS|]. split; [exact H0|]. split.
    + intros i Hi. rewrite <- HMx. apply (max_abs_le (o_h o) (oriented (o_h o) v) i Hi).
    + destruct HK as (i & Hi & _). destruct (max_abs_attained (o_h o) (oriented (o_h o) v) ltac:(lia)) as (k & Hk & Ek).
      exists k. split; [exact Hk|]. rewrite HMx in Ek. symmetry; exact Ek.
  - intros HC e H1 H2. destruct (Rlt_le_dec (ep_re e) 0) as [Hlt|Hge]; [|exact Hge].
    destruct (HN ltac:(eauto)) as [o' Q]. rewrite Q in HC. discriminate.
  - intros (o' & HC). eapply HM; exact HC.
Qed.
(** C72: construction fails for a list of estimates with use_complex=False, and for an unknown
    definition; each known definition selects its sign and sine conventions. *)
Theorem C72_construction : forall nu l m npts lmbd use_complex definition adj,
  (exists o, init nu l m npts lmbd use_complex definition adj = Ok o /\
     o_nu o = nu /\ o_l o = l /\ o_m o = m /\ o_h o = Nat.div npts 2 /\ o_lmbd o = lmbd /\ o_adj o = adj /\ o_res o = None /\
     (upper definition = "PRAT" /\ adjust_phi_sign (o_ins o) = false /\ sin_factor (o_ins o) = false \/
      upper definition = "LEE_SAIO_EQUIVALENT" /\ adjust_phi_sign (o_ins o) = true /\ sin_factor (o_ins o) = false \/
      upper definition = "TOWNSEND" /\ adjust_phi_sign (o_ins o) = true /\ sin_factor (o_ins o) = true)%string) \/
  (use_complex = false /\ (exists xs, lmbd = Some (LList xs)) /\ init nu l m npts lmbd use_complex definition adj = Exc AttributeError) \/
  (~ In (upper definition) ["PRAT"; "LEE_SAIO_EQUIVALENT"; "TOWNSEND"]%string /\ init nu l m npts lmbd use_complex definition adj = Exc SystemExit).
Proof.
  intros nu l m npts lmbd uc d adj. unfold init.
  assert (HG : get_instructions d = Exc SystemExit /\ ~ In (upper d) ["PRAT"; "LEE_SAIO_EQUIVALENT"; "TOWNSEND"]%string \/
    exists i, get_instructions d = Ok i /\ (upper d = "PRAT" /\ adjust_phi_sign i = false /\ sin_factor i = false \/
      upper d = "LEE_SAIO_EQUIVALENT" /\ adjust_phi_sign i = true /\ sin_factor i = false \/ upper d = "TOWNSEND" /\ adjust_phi_sign i = true /\ sin_factor i = true)%string).
  { unfold get_instructions. destruct (String.eqb_spec (upper d) "PRAT"); [right; eexists; split; [reflexivity|cbn; tauto]|].
    destruct (String.eqb_spec (upper d) "LEE_SAIO_EQUIVALENT"); [right; eexists; split; [reflexivity|cbn; tauto]|].
    destruct (String.eqb_spec (upper d) "TOWNSEND"); [right; eexists; split; [reflexivity|cbn; tauto]|].
    left. split; [reflexivity|]. cbn. intuition congruence. }
  destruct lmbd as [[x|xs]|]; destruct uc; cbn [bind]; try (right; left; split; [reflexivity|split; [eauto|reflexivity]]);
  (destruct HG as [[HG HN]|(i & HG & HI)]; rewrite HG; cbn [bind];
    [right; right; split; [exact HN|reflexivity]|left; eexists; split; [reflexivity|]; cbn; repeat (split; [reflexivity|]); exact HI]).
Qed.
(** C73: with adjust=True a second call of the same object looks for the eigenvalue nearest to
    the ORIGINAL positive number instead of its negative, hence returns the negative
    eigenvalue nearest to zero; with adjust=False a second call changes nothing. *)
Theorem C73_calling_twice : forall X eig o o1 x, o_lmbd o = Some (LFloat x) -> hf_call X eig o = Ok o1 ->
  (o_adj o = false -> hf_call X eig o1 = Ok o1) /\
  (o_adj o = true -> exists o2 r v, hf_call X eig o1 = Ok o2 /\ o_res o2 = Some r /\
     nearest_negative (eig (colloc_matrix X o)) x (r_ev r) v /\
     (0 <= x -> forall e, In e (eig (colloc_matrix X o)) -> ep_im e = 0 -> ep_re e < 0 -> ep_re e <= r_ev r) /\
     hf_call X eig o2 = Ok o1).
Proof.
  intros X eig o o1 x Hx HC. assert (W : wanted o (if o_adj o then - x else x)) by (unfold wanted; rewrite Hx; reflexivity).
  pose proof (proj2 (estimate_spec _ _) W) as HE. destruct (call_inv _ _ _ _ HC) as (est & p & E & A & ->).
  assert (est = (if o_adj o then - x else x)) by (rewrite E in HE; injection HE; auto). subst est. clear E W.
  split; intros Hadj; rewrite Hadj in *.
  - unfold hf_call, estimate. cbn [o_lmbd o_adj bind]. change (colloc_matrix X _) with (colloc_matrix X o). rewrite A. cbn [bind].
    cbn [o_nu o_l o_m o_h o_adj o_ins]. apply f_equal. f_equal. 
  - set (o1 := {| o_nu := o_nu o; o_l := o_l o; o_m := o_m o; o_h := o_h o; o_lmbd := Some (LFloat (- x)); o_adj := true; o_ins := o_ins o; o_res := Some (results X o (fst p) (snd p)) |}).
    assert (W1 : wanted o1 x) by (cbn; ring). assert (Hex : exists e, In e (eig (colloc_matrix X o)) /\ ep_im e = 0 /\ ep_re e < 0).
    { destruct p as [ev v]. destruct (argmin_spec _ _ _ A) as [Hin _]. apply keep_spec in Hin. destruct Hin as (e & H1 & H2 & H3 & _). eauto. }
    destruct (proj1 (proj2 (proj2 (C72_nearest_negative_eigenvalue X eig o1 x W1))) Hex) as [o2 H2].
    destruct (call_inv _ _ _ _ H2) as (est & [ev v] & E & A2 & ->).
    assert (est = x) by (pose proof (proj2 (estimate_spec _ _) W1) as Q; rewrite E in Q; injection Q; auto). subst est.
    destruct (argmin_spec _ _ _ A2) as [Hin Hmin]. apply keep_spec in Hin.
    assert (HNN : nearest_negative (eig (colloc_matrix X o)) x ev v).
    { split; [exact Hin|]. intros e G1 G2 G3. apply (Hmin (ep_re e, ep_vre e)). apply keep_spec. exists e; auto. }
    eexists _, (results X o1 ev v), v. split; [exact H2|]. split; [reflexivity|]. split; [exact HNN|]. split.
    + intros Hpos e G1 G2 G3. destruct HNN as [(e0 & _ & _ & K & KE & _) HM]. destruct (HM e G1 G2 G3) as [L _]. cbn [results r_ev].
      rewrite Rabs_right in L by lra. rewrite Rabs_right in L by lra. lra.
    + unfold hf_call, estimate. cbn [o_lmbd o_adj bind o1]. change (colloc_matrix X _) with (colloc_matrix X o).
      replace (x * -1) with (- x) by ring. rewrite A. reflexivity.
Qed.

(** ** C71: the collocation matrices *)
Theorem C71_collocation_matrices : forall h,
  (exists X, inverses_ok h X) /\
  (forall X Y, inverses_ok h X -> inverses_ok h Y ->
     forall parity pf i j, (i < h)%nat -> (j < h)%nat -> X parity pf i j = Y parity pf i j) /\
  (forall X parity pf a, inverses_ok h X -> exists F1 F2, derivatives (expansion h parity pf a) F1 F2 /\
     forall f, (forall i, (i < h)%nat -> f i = expansion h parity pf a (mu_ h i)) ->
     forall i, (i < h)%nat -> diff1 h X f parity pf i = F1 (mu_ h i) /\ diff2 h X f parity pf i = F2 (mu_ h i)).
Proof.
  intros h. split; [exists (the_inverse h); apply inverse_exists|]. split.
  - intros X Y HX HY parity pf i j Hi Hj. rewrite (inverse_unique h X HX), (inverse_unique h Y HY) by assumption. reflexivity.
  - intros X parity pf a HX. set (b := fun j => a j * (-1) ^ j_index parity j).
    assert (HE : forall x, E0 parity pf h b x = expansion h parity pf a x).
    { intros x. unfold E0, expansion, P0. assert (HV : vsum h (fun j => b j * ((-1) ^ j_index parity j * T (j_index parity j) x)) =
        vsum h (fun j => a j * T (if parity then 2 * j + 1 else 2 * j)%nat x)).
      { apply vsum_ext. intros j _. unfold b. rewrite Rmult_assoc, <- (Rmult_assoc _ _ (T _ _)), pm1_sq, Rmult_1_l. reflexivity. }
      rewrite HV. destruct pf; ring. }
    exists (E1 parity pf h b), (E2 parity pf h b). split.
    + intros x Hx. destruct (E_derivatives parity pf h b x Hx) as [A B]. split; [|exact B].
      apply (is_derive_ext (E0 parity pf h b)); [intros; apply HE|exact A].
    + intros f Hf i Hi. destruct (diff_exact h X parity pf b HX i Hi) as [A B]. rewrite <- A, <- B. unfold diff1, diff2, mvec.
      split; apply vsum_ext; intros k Hk; rewrite Hf, HE by exact Hk; reflexivity.
Qed.

(** C50, C71: the radial function is a polynomial of the parity of l - m, of degree below 2 h, times sqrt(1 - mu^2) exactly when the order is odd *)
Lemma E0_expansion parity pf h a x : E0 parity pf h a x = expansion h parity pf (fun j => a j * (-1) ^ j_index parity j) x.
Proof.
  unfold E0, expansion, P0. assert (HV : vsum h (fun j => a j * ((-1) ^ j_index parity j * T (j_index parity j) x)) =
        vsum h (fun j => a j * (-1) ^ j_index parity j * T (if parity then 2 * j + 1 else 2 * j)%nat x)).
  { apply vsum_ext. intros j _. rewrite Rmult_assoc. destruct parity; reflexivity. }
  rewrite HV. destruct pf; ring.
Qed.
Theorem C50_radial_function_is_an_expansion : forall X eig o o',
  well_posed X eig o -> hf_call X eig o = Ok o' ->
  exists r a F1 F2, o_res o' = Some r /\ let F := expansion (o_h o) (Z.odd (o_l o - o_m o)) (Z.odd (o_m o)) a in
    radial_function o r F F1 F2 /\
    forall i, (i < 2 * o_h o)%nat -> tidal_equation (o_nu o) (IZR (o_m o)) F F1 (r_ev r) (mu_full (o_h o) i).
Proof.
  intros X eig o o' HW HC. destruct (run_pick X eig o o' HW HC) as (ev & v & Hr & Hnz & He). destruct HW as (H1 & H2 & H3 & H4).
  set (hr := oriented (o_h o) v). set (a := mvec (o_h o) (X (parity_ o) (pf_ o)) hr).
  set (F := expansion (o_h o) (parity_ o) (pf_ o) (fun j => a j * (-1) ^ j_index (parity_ o) j)). set (F1 := E1 (parity_ o) (pf_ o) (o_h o) a). set (F2 := E2 (parity_ o) (pf_ o) (o_h o) a).
  assert (EQ : E0 (parity_ o) (pf_ o) (o_h o) a = F) by (apply FunctionalExtensionality.functional_extensionality; intros x; apply E0_expansion).
  assert (HR : represents (o_h o) X (parity_ o) (pf_ o) hr F F1 F2).
  { rewrite <- EQ. pose proof (interpolant (o_h o) X (parity_ o) (pf_ o) hr (H2 (parity_ o) (pf_ o))) as HI. cbv zeta in HI. fold a in HI.
    constructor; [apply E_derivatives|intros; apply E0_parity| | |]; intros j Hj; destruct (HI j Hj) as (A & B & C); auto. }
  exists (results X o ev v), (fun j => a j * (-1) ^ j_index (parity_ o) j), F1, F2. split; [exact Hr|]. cbv zeta. split; [apply rep_radial; exact HR|].
  apply (tidal_full X o ev F F1 F2 _ HR); [exact H4|]. intros j Hj.
  destruct (oriented_scale (o_h o) v Hnz) as (c & _ & HO & _). fold hr in HO.
  pose proof (eigen_pointwise X o ev v He c j Hj) as Q. cbv zeta in Q.
  assert (HE : forall D, vsum (o_h o) (fun k => D j k * (v k * c)) = vsum (o_h o) (fun k => D j k * hr k)).
  { intros D. apply vsum_ext. intros k _. rewrite HO. reflexivity. }
  rewrite <- (rep_1 _ _ _ _ _ _ _ _ HR j Hj), <- (rep_2 _ _ _ _ _ _ _ _ HR j Hj), <- (rep_0 _ _ _ _ _ _ _ _ HR j Hj).
  unfold diff1, diff2, mvec in *. rewrite !HE in Q. rewrite HO. exact Q.
Qed.

(** ** C49: normalisation *)
Lemma step_pos h : (1 <= h)%nat -> 0 < mu_full h 1%nat - mu_full h 0%nat.
Proof.
  intros Hh. unfold mu_full, concat_rev. destruct (Nat.ltb_spec 0 h); [|lia]. destruct (Nat.ltb_spec 1 h) as [H1|H1].
  - enough (mu_ h 1%nat < mu_ h 0%nat) by lra. unfold mu_. pose proof (theta_range h 0 ltac:(lia)). pose proof (theta_range h 1 H1).
    pose proof PI_RGT_0. apply cos_decreasing_1; try lra. unfold theta. assert (0 < INR (2 * h)) by (apply lt_0_INR; lia).
    cbn [INR]. assert (0 < PI / INR (2 * h)) by (apply Rdiv_lt_0_compat; lra). nra.
  - pose proof (mu_pos h 0 ltac:(lia)). pose proof (mu_pos h (2 * h - 1 - 1) ltac:(lia)). lra.
Qed.
Lemma pt_map_seq (f : nat -> R) n i : (i < n)%nat -> pt (map f (seq 0 n)) i = f i.
Proof. intros H. unfold pt. rewrite (nth_indep _ 0 (f 0%nat)) by (rewrite map_length, seq_length; exact H). rewrite map_nth, seq_nth by exact H. reflexivity. Qed.
Lemma Rsum_pos_at (f : nat -> R) n k : (forall i, (i < n)%nat -> 0 <= f i) -> (k < n)%nat -> 0 < f k -> 0 < Rsum f n.
Proof.
  intros Hf Hk Hp. assert (G : forall m, (m <= n)%nat -> 0 <= Rsum f m) by (induction m; intros Hm; cbn [Rsum]; [lra|]; pose proof (Hf m ltac:(lia)); pose proof (IHm ltac:(lia)); lra).
  induction n as [|n IH]; [lia|]. cbn [Rsum]. destruct (Nat.eq_dec k n) as [->|Hn].
  - pose proof (G n ltac:(lia)). lra.
  - pose proof (Hf n ltac:(lia)). assert (0 < Rsum f n) by (apply IH; [intros; apply Hf; lia|lia|intros; apply G; lia]). lra.
Qed.
Lemma lee_quadrature hist th par h (hr : vec) : (1 <= h)%nat -> (exists i, (i < 2 * h)%nat /\ hr i <> 0) ->
  exists q, 0 < q /\ forall hist' th' par' c,
    integrate RA hist' "trapz" true (map (fun i => (hr i * c) ^ 2) (seq 0 (2 * h))) (map (mu_full h) (seq 0 (2 * h))) th' par' = Ok (c ^ 2 * q) /\
    integrate RA hist "trapz" true (map (fun i => hr i ^ 2) (seq 0 (2 * h))) (map (mu_full h) (seq 0 (2 * h))) th par = Ok q.
Proof.
  intros Hh (k & Hk & Hv). set (n := (2 * h)%nat) in *. set (d := mu_full h 1%nat - mu_full h 0%nat). pose proof (step_pos h Hh) as Hd. fold d in Hd.
  set (q := Rsum (fun i => (hr (S i) ^ 2 + hr i ^ 2) / 2 * d) (n - 1)).
  assert (HQ : forall g hist' th' par', integrate RA hist' "trapz" true (map (fun i => g i ^ 2) (seq 0 n)) (map (mu_full h) (seq 0 n)) th' par' =
    Ok (Rsum (fun i => (g (S i) ^ 2 + g i ^ 2) / 2 * d) (n - 1))).
  { intros g hist' th' par'. rewrite integrate_char. cbn [String.eqb Ascii.eqb Bool.eqb]. unfold trapz.
    rewrite trapz_es_R by (rewrite map_length, seq_length; unfold n; lia). apply (f_equal (@Ok R)).
    rewrite map_length, seq_length. apply Rsum_ext. intros i Hi. rewrite !pt_map_seq by (unfold n in *; lia). reflexivity. }
  exists q. split.
  - unfold q. assert (P : forall i, 0 <= hr i ^ 2) by (intros; nra).
    assert (P2 : 0 < hr k ^ 2) by (rewrite <- Rsqr_pow2; apply Rsqr_pos_lt; exact Hv).
    destruct k as [|k].
    + apply (Rsum_pos_at _ (n - 1) 0); [intros; pose proof (P i); pose proof (P (S i)); nra|unfold n; lia|]. pose proof (P 1%nat). nra.
    + apply (Rsum_pos_at _ (n - 1) k); [intros; pose proof (P i); pose proof (P (S i)); nra|lia|]. pose proof (P k). nra.
  - intros hist' th' par' c. split; [|apply HQ]. rewrite (HQ (fun i => hr i * c)). apply (f_equal (@Ok R)). unfold q. rewrite <- Rsum_scal. apply Rsum_ext. intros; field.
Qed.
(** C49: on the full grid of 2h >= 2 points and for a radial array that is not identically zero,
    all arrays of a mode are multiplied with one positive factor; after 'prat2019' the maximum
    of |Hr| is 1, after 'lee2012' 2 pi times the library's trapezoidal integral of Hr^2 is 1
    whatever was integrated before and however it is run; any other name exits. *)
Theorem C49_normalisation : forall hist procedure threads par h (hr : vec) others,
  (1 <= h)%nat -> (exists i, (i < 2 * h)%nat /\ hr i <> 0) ->
  let run := normalize_houghs hist procedure threads par (2 * h) (mu_full h) hr others in
  (upper procedure = "PRAT2019"%string -> exists f, 0 < f /\ run = Ok (fun i => hr i * f, map (fun a i => a i * f) others) /\
     (forall i, (i < 2 * h)%nat -> Rabs (hr i * f) <= 1) /\ exists i, (i < 2 * h)%nat /\ Rabs (hr i * f) = 1) /\
  (upper procedure = "LEE2012"%string -> exists f q, 0 < f /\ run = Ok (fun i => hr i * f, map (fun a i => a i * f) others) /\
     (forall hist' threads' par', integrate RA hist' "trapz" true (map (fun i => (hr i * f) ^ 2) (seq 0 (2 * h)))
        (map (mu_full h) (seq 0 (2 * h))) threads' par' = Ok q) /\ 2 * PI * q = 1) /\
  (upper procedure <> "PRAT2019"%string -> upper procedure <> "LEE2012"%string -> run = Exc SystemExit).
Proof.
  intros hist procedure threads par h hr others Hh Hnz run. unfold run, normalize_houghs, get_norm_factor. split; [|split].
  - intros ->. cbn [String.eqb Ascii.eqb Bool.eqb bind]. destruct Hnz as (k & Hk & Hv).
    assert (HM : 0 < max_abs (2 * h) hr) by (eapply Rlt_le_trans; [apply Rabs_pos_lt; exact Hv|apply max_abs_le; exact Hk]).
    exists (prat_factor (2 * h) hr). unfold prat_factor. assert (HP : 0 < 1 / max_abs (2 * h) hr) by (apply Rdiv_lt_0_compat; lra).
    split; [exact HP|]. split; [reflexivity|].
    assert (HS : max_abs (2 * h) (fun i => hr i * (1 / max_abs (2 * h) hr)) = 1).
    { rewrite max_abs_scale, (Rabs_pos_eq (1 / _)) by lra. field. lra. }
    split.
    + intros i Hi. eapply Rle_trans; [|right; exact HS]. apply (max_abs_le (2 * h) (fun i => hr i * (1 / max_abs (2 * h) hr)) i Hi).
    + destruct (max_abs_attained (2 * h) (fun i => hr i * (1 / max_abs (2 * h) hr)) ltac:(lia)) as (i & Hi & E). exists i. split; [exact Hi|]. rewrite <- E. exact HS.
  - intros ->. cbn [String.eqb Ascii.eqb Bool.eqb]. unfold lee_factor. destruct (lee_quadrature hist threads par h hr Hh Hnz) as (q & Hq & HI).
    rewrite (proj2 (HI [] 0%Z false 0)). cbn [bind]. pose proof PI_RGT_0 as HPI.
    assert (H2 : 0 < 2 * PI * q) by nra. assert (Hs : 0 < sqrt (2 * PI * q)) by (apply sqrt_lt_R0; exact H2).
    exists (1 / sqrt (2 * PI * q)), ((1 / sqrt (2 * PI * q)) ^ 2 * q). split; [apply Rdiv_lt_0_compat; lra|]. split; [reflexivity|].
    split; [intros; apply HI|]. assert (Hsq : sqrt (2 * PI * q) ^ 2 = 2 * PI * q) by (rewrite <- Rsqr_pow2; apply Rsqr_sqrt; lra).
    replace ((1 / sqrt (2 * PI * q)) ^ 2) with (/ (2 * PI * q)) by (rewrite <- Hsq at 1; field; lra). field. split; [lra|apply PI_neq0].
  - intros H1 H2. destruct (String.eqb_spec (upper procedure) "LEE2012"); [contradiction|]. destruct (String.eqb_spec (upper procedure) "PRAT2019"); [contradiction|]. reflexivity.
Qed.

(** ** the hypotheses are satisfiable: nu = 0, l = 1, m = 0 on two points, where the exact
    solution is F = mu with eigenvalue -2 *)
Definition ex_eig : mat -> list epair := fun A => [{| ep_re := A 0%nat 0%nat; ep_im := 0; ep_vre := fun _ => 1; ep_vim := fun _ => 0 |}].
Definition ex_obj (i : instructions) : hobj := {| o_nu := 0; o_l := 1; o_m := 0; o_h := 1; o_lmbd := Some (LFloat 2); o_adj := true; o_ins := i; o_res := None |}.
Lemma ex_colloc i : colloc_matrix (the_inverse 1) (ex_obj i) 0%nat 0%nat = -2.
Proof.
  unfold colloc_matrix, full_matrix, d1, d2, mmul, the_inverse, t1, t2, lte_0, lte_1, lte_2, denom, ex_obj, parity_, pf_, wgt, j_index; cbn [o_h o_nu o_m o_l vsum Nat.eqb Z.odd Z.sub].
  change (Z.odd (1 - 0)) with true. change (Z.odd 0) with false. cbv iota.
  change (2 * 0 + 1)%nat with 1%nat. rewrite !cos_arg, !sin_arg by lia.
  assert (Hs : 0 < s_ 1 0) by (apply s_pos; lia). pose proof (s_sin 1 0 ltac:(lia)) as Es. pose proof (s2 1 0 ltac:(lia)) as E2.
  change (INR 1) with 1. rewrite !Rmult_1_l. rewrite <- Es. change (cos (theta 1 0)) with (mu_ 1 0).
  assert (Em : mu_ 1 0 ^ 2 = / 2).
  { unfold mu_, theta. replace (PI / INR (2 * 1) * (INR 0 + 1 / 2)) with (PI / 4) by (cbn [INR Nat.mul Nat.add]; field).
    rewrite cos_PI4. replace ((1 / sqrt 2) ^ 2) with (/ (sqrt 2 ^ 2)) by (field; apply Rgt_not_eq, sqrt_lt_R0; lra).
    rewrite <- Rsqr_pow2, Rsqr_sqrt by lra. reflexivity. }
  set (s := s_ 1 0) in *. set (x := mu_ 1 0) in *. cbn [pow].
  match goal with |- ?a = _ => transitivity (-4 * x ^ 2) end; [field; lra|rewrite Em; field].
Qed.
Example ex_well_posed i : well_posed (the_inverse 1) ex_eig (ex_obj i).
Proof.
  split; [cbn; lia|]. split; [apply inverse_exists|]. split.
  - intros e [<-|[]] _. cbn [ep_re ep_vre ex_obj o_h]. split.
    + intros k Hk. replace k with 0%nat by lia. cbn [vsum]. ring.
    + exists 0%nat. split; [lia|lra].
  - intros j _. cbn. lra.
Qed.
Example ex_runs i : exists o' r, hf_call (the_inverse 1) ex_eig (ex_obj i) = Ok o' /\ o_res o' = Some r /\ r_ev r = -2 /\ wanted (ex_obj i) (-2).
Proof.
  eexists _, _. split; [unfold hf_call, estimate; cbn [ex_obj o_lmbd o_adj bind]; fold (ex_obj i); unfold keep, ex_eig; cbn [filter ep_im ep_re map]|].
  - rewrite ex_colloc. destruct (Req_EM_T 0 0); [|lra]. destruct (Rlt_dec (-2) 0); [|lra]. cbn. reflexivity.
  - split; [reflexivity|]. split; [reflexivity|]. cbn. lra.
Qed.
Print Assumptions C50_horizontal_components.
Print Assumptions C48_second_derivative_wrong_sign_in_the_south.
Print Assumptions C49_normalisation.
Print Assumptions C71_collocation_matrices.
Print Assumptions C73_calling_twice.
