(** * Proofs: when constructing the object or cutting arrays fails *)
From Coq Require Import List ZArith Lia Reals Lra String Ascii Bool.
From Coquelicot Require Import Complex.
From Verif Require Import Base Py NumDeriv_Model NumDeriv_Proofs Load_Model Load_Proofs Load_Dim Coupling_Model Grid_Model Grid_Spec Grid_Interp Grid_Proofs Grid_Build Grid_Mesa Grid_Final Grid_Poly Grid_Analytic.
Import ListNotations.
Local Open Scope string_scope.

(** ** the first mode has fewer points than another one *)
Lemma longest_cases x1 x2 x3 : exists xs, longest_grid x1 x2 x3 xs.
Proof.
  unfold longest_grid. destruct (le_lt_dec (List.length x2) (List.length x1)); destruct (le_lt_dec (List.length x3) (List.length x1)); destruct (le_lt_dec (List.length x3) (List.length x2));
  try (exists x1; split; [lia|left; reflexivity]); try (exists x2; split; [lia|right; left; split; [lia|reflexivity]]);
  try (exists x3; split; [lia|right; right; split; [lia|split; [lia|reflexivity]]]).
Qed.
Lemma bcast_len {A B D} (h : A -> B -> D) x y z : bcast h x y = Ok z -> List.length x <> 1%nat -> List.length y = List.length x \/ List.length y = 1%nat.
Proof. intros H N. destruct (Nat.eq_dec (List.length y) 1); [right; assumption|]. destruct (Nat.eq_dec (List.length y) (List.length x)); [left; assumption|]. rewrite bcast_mismatch in H by auto. discriminate. Qed.
Section First.
Variable der : list R -> list R -> res (list (option (list R))).
Variables (d1 d2 d3 prof : gdict) (x1 x2 x3 : list R) (st : string -> list R) (Rs G : R) (rad N2 : list R).
Hypotheses (H1 : mode_ok d1 x1) (H2 : mode_ok d2 x2) (H3 : mode_ok d3 x3).
Hypothesis HS : forall k, In k ["M_r"; "rho"; "P"; "Gamma_1"] -> dget k d1 = Some (VArr (st k)) /\ List.length (st k) = List.length x1.
Hypotheses (HR : dget "R_star" d1 = Some (VNum Rs)) (HG : dget "G" d1 = Some (VNum G)).
Hypotheses (HP : profile_ok prof "radius" rad) (HN2 : dget "brunt_N2" prof = Some (VArr N2)).
Hypothesis Hlong : (List.length x1 < List.length x2 \/ List.length x1 < List.length x3)%nat.
Hypothesis H13 : List.length x1 <> 3%nat.
Theorem first_not_longest sym brunt : build_mesa der sym brunt d1 d2 d3 prof = Exc ValueError.
Proof.
  destruct (longest_cases x1 x2 x3) as (xs & HL). assert (HX : (List.length x1 < List.length xs)%nat).
  { destruct HL as ((L1 & L2 & L3) & _). lia. }
  destruct (modes_ok mesa_common d1 d2 d3 x1 x2 x3 H1 H2 H3) as (o1 & E1 & X1 & M1 & C1 & _).
  rewrite (longest_is _ _ _ _ HL) in X1, M1. unfold build_mesa. rewrite E1. cbn [bind].
  destruct (profile_mesa_ok prof rad xs o1 HP X1) as (o2 & E2 & P2 & U2). rewrite E2. cbn [bind].
  assert (C2 : forall a, In a ["M_r"; "rho"; "P"; "Gamma_1"; "R_star"] -> o2 ("_" ++ a) = Some (match dget a d1 with Some v => v | None => VNone end)).
  { intros a Ha. assert (Hc : In a mesa_common) by (apply has_iff; cbn in Ha; repeat (destruct Ha as [<-|Ha]; [reflexivity|]); destruct Ha).
    destruct (plain_common a Hc) as [(A & B & D)|E]; [|exfalso; subst a; cbn in Ha; repeat (destruct Ha as [Ha|Ha]; [discriminate|]); destruct Ha].
    rewrite U2; [apply C1; assumption| |exact D]. intros k v HI HSc E. cbn in E. injection E as ->.
    destruct (po_scalars _ _ _ HP k v HI HSc) as (_ & _ & F). apply F. cbn in Ha |- *. tauto. }
  assert (S2 : forall k, In k ["M_r"; "rho"; "P"; "Gamma_1"] -> o2 ("_" ++ k) = Some (VArr (st k))).
  { intros k Hk. rewrite C2 by (cbn in Hk |- *; tauto). destruct (HS k Hk) as [-> _]. reflexivity. }
  assert (X2 : o2 "_x" = Some (VArr xs)).
  { rewrite U2; [exact X1| |apply not_prof; reflexivity]. intros k v HI HSc E. cbn in E. injection E as <-.
    destruct (po_scalars _ _ _ HP "x" v HI HSc) as (_ & _ & F). apply F. cbn. tauto. }
  assert (R2 : o2 "_R_star" = Some (VNum Rs)).
  { change "_R_star" with ("_" ++ "R_star"). rewrite C2 by (cbn; tauto). rewrite HR. reflexivity. }
  assert (B2 : o2 "_brunt_N2_profile" = Some (VArr (on_grid false xs rad N2))) by (apply (P2 "brunt_N2"), HN2).
  unfold oget at 1 2. rewrite (S2 "P" ltac:(cbn; tauto) : o2 "_P" = _), (S2 "rho" ltac:(cbn; tauto) : o2 "_rho" = _). cbn [bind].
  unfold set_normalization, norm_factor. change (norm_slice true true) with (@kept R).
  destruct (le_lt_dec (List.length x1) 2) as [HS2|HB].
  { assert (K : kept (st "P") = []).
    { destruct (HS "P" ltac:(cbn; tauto)) as [_ L]. pose proof (kept_length (st "P")). destruct (kept (st "P")); [reflexivity|cbn in H; lia]. }
    rewrite K. reflexivity. }
  assert (NZ : forall k, In k ["M_r"; "rho"; "P"; "Gamma_1"] -> np_max (kept (st k)) = Ok (amax (kept (st k)))).
  { intros k Hk. unfold np_max. pose proof (kept_length (st k)) as L. destruct (HS k Hk) as [_ L']. destruct (kept (st k)); [cbn in L; lia|reflexivity]. }
  rewrite (NZ "P") by (cbn; tauto). rewrite (NZ "rho") by (cbn; tauto). cbn [bind].
  unfold dread at 1. rewrite HG. cbn [bind].
  set (o3 := oset (oset (oset o2 _ _) _ _) "_G" (VNum G)).
  assert (K3 : forall name, name <> "_norm_P" -> name <> "_norm_rho" -> name <> "_G" -> o3 name = o2 name).
  { intros name Q1 Q2 Q3. unfold o3. rewrite !oset_other by assumption. reflexivity. }
  unfold profiles_mesa, pre_profile_cuts.
  destruct (cut2_one "pre_profile_load_cuts" false ["_x"; "_M_r"; "_rho"; "_P"; "_Gamma_1"; "_brunt_N2_profile"] o3 eq_refl) as (o4 & E4 & A4).
  { apply nodupb_ok. reflexivity. }
  { assert (Q : forall k, In k ["M_r"; "rho"; "P"; "Gamma_1"] -> exists v, o3 ("_" ++ k) = Some v /\ samples v <> None).
    { intros k Hk. exists (VArr (st k)). split; [|discriminate]. rewrite K3; [apply S2; exact Hk| | |]; each Hk; discriminate. }
    intros c Hc. each Hc.
    - eexists. split; [exact X2|discriminate].
    - apply (Q "M_r"). cbn; tauto.
    - apply (Q "rho"). cbn; tauto.
    - apply (Q "P"). cbn; tauto.
    - apply (Q "Gamma_1"). cbn; tauto.
    - eexists. split; [exact B2|discriminate]. }
  rewrite E4. cbn [bind].
  assert (X4 : o4 "_x" = Some (VArr (kept xs))) by (rewrite A4, K3 by discriminate; rewrite X2; reflexivity).
  assert (M4 : o4 "_M_r" = Some (VArr (kept (st "M_r")))) by (rewrite A4, K3 by discriminate; rewrite (S2 "M_r" ltac:(cbn; tauto) : o2 "_M_r" = _); reflexivity).
  assert (R4 : o4 "_R_star" = Some (VNum Rs)) by (rewrite A4, K3 by discriminate; exact R2).
  assert (G4 : o4 "_G" = Some (VNum G)) by (rewrite A4; reflexivity).
  rewrite (oarr_arr _ _ _ X4), (oarr_num _ _ _ R4). cbn [bind]. rewrite (kept_tab xs 0%R _ eq_refl). unfold vmul at 1. rewrite bcast_right. cbn [bind].
  rewrite (oarr_num _ _ _ G4). cbn [bind]. rewrite (oarr_arr _ _ _ M4). cbn [bind]. destruct (HS "M_r" ltac:(cbn; tauto)) as [_ LM].
  rewrite (kept_tab (st "M_r") 0%R _ LM). unfold vmul at 1. rewrite bcast_left. cbn [bind]. unfold vmul at 1. rewrite bcast_tab. cbn [bind].
  unfold vdiv at 1. rewrite bcast_mismatch; [reflexivity|..]; rewrite ?tab_length; lia.
Qed.
End First.

(** ** polytropes whose structure has another number of points than the modes *)
Theorem poly_other_length der analytic sym brunt d1 d2 d3 prof x1 x2 x3 xs rad P0 :
  mode_ok d1 x1 -> mode_ok d2 x2 -> mode_ok d3 x3 -> longest_grid x1 x2 x3 xs ->
  NoDup (map fst prof) -> dget "r" prof = Some (VArr rad) -> (0 < List.length rad)%nat -> List.length rad <> List.length xs ->
  (forall k v, In (k, v) prof -> scalar v = false -> exists a, v = VArr a /\ List.length a = List.length rad) ->
  (forall k v, In (k, v) prof -> scalar v = true -> forall q, "_" ++ k <> of_profile q) ->
  dget "p0" prof = Some (VNum P0) ->
  build_poly der analytic sym brunt d1 d2 d3 prof = Exc AttributeError.
Proof.
  intros H1 H2 H3 HL HN Hr H0 Hne HC HSc HP.
  destruct (modes_ok poly_common d1 d2 d3 x1 x2 x3 H1 H2 H3) as (o1 & E1 & X1 & M1 & C1 & N1).
  rewrite (longest_is _ _ _ _ HL) in X1. unfold build_poly. rewrite E1. cbn [bind].
  unfold extract_profile. rewrite (norm_rad_ok true prof rad) by assumption. cbn [bind]. unfold oget at 1. rewrite X1. cbn [bind arr_len].
  rewrite nrad_length. rewrite (proj2 (Nat.eqb_neq _ _) Hne).
  destruct (profile_loop_interp true xs (nrad true rad) (List.length rad) (nrad_length _ _) H0 prof o1 HN HC) as (o2 & E2 & _ & _ & U2).
  { intros k v HI HS. apply (HSc k v HI HS). }
  cbn [bind] in E2. rewrite E2. cbn [bind]. unfold oget at 1. replace (o2 "_p0_profile") with (@None gval); [reflexivity|].
  rewrite U2.
  - symmetry. apply N1; [discriminate| |intros a Ha; each Ha; discriminate]. intros k i. destruct i as [|[|[|]]]; apply not_mode; reflexivity.
  - intros k v HI HS E. apply (HSc k v HI HS "p0"). symmetry. exact E.
  - intros k v HI HS E. change "_p0_profile" with (prof_attr "p0") in E. apply prof_attr_inj in E. subst k.
    rewrite (dget_in_nodup _ _ _ HN HI) in HP. injection HP as ->. discriminate.
Qed.
(** ** polytropes: numerical density gradient with symbolic profiles *)
Theorem poly_no_brunt der d1 d2 d3 prof x1 x2 x3 xs col G1 P0 rho0 Gp G Rs :
  poly_input d1 d2 d3 prof x1 x2 x3 xs col G1 P0 rho0 Gp G Rs ->
  build_poly der false true false d1 d2 d3 prof = Exc AttributeError.
Proof.
  intros I. destruct (poly_prefix _ _ _ _ _ _ _ _ _ _ _ _ _ _ _ I) as (o3 & (X3 & P3 & M3 & GG3 & G3 & R3 & GP3 & NP3 & NR3) & NRho & EB). rewrite EB. clear EB.
  assert (LC : forall k, In k poly_columns -> List.length (col k) = List.length xs) by (intros k Hk; apply (pi_cols _ _ _ _ _ _ _ _ _ _ _ _ _ _ _ I k Hk)).
  unfold profiles_poly, pre_profile_cuts.
  destruct (cut2_one "pre_profile_load_cuts" true pre_poly o3 eq_refl) as (o4 & E4 & A4).
  { apply nodupb_ok. reflexivity. }
  { intros c Hc. unfold pre_poly in Hc. each Hc.
    - eexists. split; [exact X3|discriminate].
    - eexists. split; [apply (P3 "mr"); cbn; tauto|discriminate].
    - eexists. split; [apply (P3 "rho"); cbn; tauto|discriminate].
    - eexists. split; [apply (P3 "r"); cbn; tauto|discriminate].
    - eexists. split; [apply (P3 "p"); cbn; tauto|discriminate].
    - eexists. split; [exact GG3|discriminate].
    - eexists. split; [apply (P3 "brunt_n2"); cbn; tauto|discriminate]. }
  rewrite E4. cbn [bind].
  assert (S4 : forall k, In k ["r"; "mr"; "rho"; "p"; "brunt_n2"] -> o4 (prof_attr k) = Some (VArr (kept (col k)))).
  { intros k Hk. assert (HP : In k poly_columns) by (cbn in Hk |- *; tauto). rewrite A4, P3 by exact HP. each Hk; reflexivity. }
  assert (KT : forall k, In k ["r"; "mr"; "rho"; "p"; "brunt_n2"] -> kept (col k) = tab (List.length xs - 2) (fun i => nth (S i) (col k) 0%R)).
  { intros k Hk. apply kept_tab, LC. cbn in Hk |- *; tauto. }
  rewrite (oarr_arr o4 "_r_profile" _ (S4 "r" ltac:(cbn; tauto))). cbn [bind].
  rewrite (oarr_num o4 "_G_profile" Gp) by (rewrite A4; exact GP3). cbn [bind].
  rewrite (oarr_arr o4 "_mr_profile" _ (S4 "mr" ltac:(cbn; tauto))). cbn [bind]. rewrite (KT "r"), (KT "mr") by (cbn; tauto).
  unfold vmul at 1. rewrite bcast_left. cbn [bind].
  unfold vmul at 1. rewrite bcast_tab. cbn [bind]. unfold vdiv at 1. rewrite bcast_tab. cbn [bind].
  rewrite (oarr_arr o4 "_rho_profile" _ (S4 "rho" ltac:(cbn; tauto))). cbn [bind]. rewrite (oarr_arr o4 "_p_profile" _ (S4 "p" ltac:(cbn; tauto))). cbn [bind].
  rewrite (oarr_arr o4 "_Gamma_1" (kept G1)) by (rewrite A4, GG3; reflexivity). cbn [bind]. rewrite (oarr_arr o4 "_brunt_n2_profile" _ (S4 "brunt_n2" ltac:(cbn; tauto))). cbn [bind].
  rewrite (oarr_num o4 "_G" G) by (rewrite A4; exact G3). cbn [bind].
  unfold structure_derivs. unfold oarr at 1. unfold oget at 1. replace (o4 "_rho") with (@None gval); [reflexivity|]. rewrite A4. symmetry. exact NRho.
Qed.

(** ** cutting *)
Lemma cut_missing s : forall names o,
  (exists pre c post, names = (pre ++ c :: post)%list /\ o c = None /\ ~ In c pre /\ forall k, In k pre -> exists v, o k = Some v /\ samples v <> None) ->
  foldM (fun o c => v <- oget o c ; w <- vslice s v ; Ok (oset o c w)) names o = Exc AttributeError.
Proof.
  intros names o (pre & c & post & -> & Hc & Hn & Hp). revert o Hc Hp. induction pre as [|k pre IH]; intros o Hc Hp.
  - cbn [app foldM]. unfold oget at 1. rewrite Hc. reflexivity.
  - cbn [app foldM]. destruct (Hp k (in_eq _ _)) as (v & Ev & Hv). unfold oget at 1. rewrite Ev. cbn [bind].
    destruct (gsl_ok s v Hv) as [-> Hv2]. cbn [bind]. apply IH.
    + intros Z. apply Hn. right. exact Z.
    + rewrite oset_other; [exact Hc|]. intros ->. apply Hn. left. reflexivity.
    + intros k1 I1. destruct (string_dec k1 k) as [->|Nk]; [rewrite oset_same; eauto|]. rewrite oset_other by exact Nk. apply Hp. right. exact I1.
Qed.
(** ** maxima *)
Lemma fold_max_spec : forall l c, let m := fold_left Rmax l c in (c <= m)%R /\ (forall v, In v l -> (v <= m)%R) /\ (m = c \/ In m l).
Proof.
  induction l as [|a l IH]; intros c; cbn [fold_left].
  - split; [lra|]. split; [intros ? []|left; reflexivity].
  - destruct (IH (Rmax c a)) as (A & B & D). pose proof (Rmax_l c a). pose proof (Rmax_r c a). split; [lra|]. split.
    + intros v [<-|Hv]; [lra|apply B, Hv].
    + destruct D as [D|D]; [|right; right; exact D]. rewrite D. unfold Rmax. destruct (Rle_dec c a); [right; left; reflexivity|left; reflexivity].
Qed.
Lemma amax_spec l : l <> [] -> In (amax l) l /\ forall v, In v l -> (v <= amax l)%R.
Proof.
  intros H. unfold amax. destruct l as [|a l]; [contradiction|]. cbn [hd]. destruct (fold_max_spec (a :: l) a) as (A & B & D). split; [|exact B].
  destruct D as [D|D]; [left; symmetry; exact D|exact D].
Qed.
(** ** differentiators *)
Lemma gradient_ok gradient n f : (forall x y, List.length x = n -> List.length y = n -> List.length (gradient y x) = n) ->
  derivative_ok (differentiate gradient GradientM 1 false f) n.
Proof. intros H x y Hx Hy. exists (Some y), (gradient y x). split; [reflexivity|apply H; assumption]. Qed.
Lemma stencil_ok gradient n f : derivative_ok (differentiate gradient (StencilM 2 CENTER) 1 false f) n.
Proof. intros x y Hx Hy. exists (Some y), (run_stencil center2 x y). split; [reflexivity|]. rewrite run_stencil_length. exact Hx. Qed.
