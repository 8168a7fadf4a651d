(** * Proofs: objects for polytropes *)
From Coq Require Import List ZArith Lia Reals Lra String Ascii Bool.
From Coquelicot Require Import Complex.
From Verif Require Import Base Py NumDeriv_Model Load_Model Load_Proofs Load_Dim Coupling_Model Grid_Model Grid_Spec Grid_Interp Grid_Proofs Grid_Build Grid_Mesa Grid_Final.
Import ListNotations.
Local Open Scope string_scope.

Lemma longest_is x1 x2 x3 xs : longest_grid x1 x2 x3 xs -> longest x1 x2 x3 = xs.
Proof.
  intros ((L1 & L2 & L3) & [-> | [(A & ->) | (A & B & ->)]]); unfold longest, lens_of; cbn [argmax argmax_from].
  - rewrite (proj2 (Z.ltb_ge _ _)) by lia. rewrite (proj2 (Z.ltb_ge _ _)) by lia. reflexivity.
  - rewrite (proj2 (Z.ltb_lt _ _)) by lia. rewrite (proj2 (Z.ltb_ge _ _)) by lia. reflexivity.
  - destruct (Z.ltb_spec (Z.of_nat (List.length x1)) (Z.of_nat (List.length x2))); rewrite (proj2 (Z.ltb_lt _ _)) by lia; reflexivity.
Qed.
Lemma profile_loop_poly : forall prof o, NoDup (map fst prof) ->
  exists o', foldM (fun o kv => let '(k, v) := kv in
      if has k poly_exclude then Ok o
      else if true || scalar v then Ok (oset o ("_" ++ k ++ "_profile") v)
      else w <- vrev v ; Ok (oset o ("_" ++ k ++ "_profile") w)) prof o = Ok o' /\
    (forall k v, In (k, v) prof -> has k poly_exclude = false -> o' (prof_attr k) = Some v) /\
    (forall name, (forall k, In k (map fst prof) -> name <> prof_attr k) -> o' name = o name).
Proof.
  induction prof as [|[k v] prof IH]; intros o HN.
  - exists o. cbn. split; [reflexivity|]. split; [intros ? ? []|auto].
  - cbn [map fst] in HN. inversion HN as [|? ? N1 N2]; subst. cbn [foldM]. destruct (has k poly_exclude) eqn:Ek.
    + cbn [bind]. destruct (IH o N2) as (o' & E & A & B). exists o'. split; [exact E|]. split.
      * intros k1 v1 [E1|I1] X1; [injection E1 as <- <-; congruence|apply A; assumption].
      * intros name H1. apply B. intros; apply H1; right; assumption.
    + cbn [bind orb]. destruct (IH (oset o ("_" ++ k ++ "_profile") v) N2) as (o' & E & A & B). exists o'. split; [exact E|]. split.
      * intros k1 v1 [E1|I1] X1; [|apply A; assumption]. injection E1 as <- <-. rewrite B; [apply oset_same|].
        intros k2 I2 E2. apply prof_attr_inj in E2. subst. contradiction.
      * intros name H1. rewrite B by (intros; apply H1; right; assumption). apply oset_other. apply H1. left. reflexivity.
Qed.
Lemma profile_poly_ok prof rad xs o : NoDup (map fst prof) -> dget "r" prof = Some (VArr rad) -> List.length rad = List.length xs -> (0 < List.length rad)%nat ->
  o "_x" = Some (VArr xs) ->
  exists o', extract_profile true prof o = Ok o' /\
    (forall k v, dget k prof = Some v -> has k poly_exclude = false -> o' (prof_attr k) = Some v) /\
    (forall name, (forall k, name <> prof_attr k) -> o' name = o name).
Proof.
  intros HN Hr HL H0 Hx. unfold extract_profile. rewrite (norm_rad_ok true prof rad) by assumption. cbn [bind]. unfold oget. rewrite Hx. cbn [bind arr_len].
  rewrite nrad_length, HL, Nat.eqb_refl. destruct (profile_loop_poly prof o HN) as (o' & E & A & B).
  exists o'. split; [exact E|]. split; [intros k v Hk; apply A, dget_in, Hk|]. intros name H. apply B. intros; apply H.
Qed.

Definition pre_poly : list string := ["_x"; "_mr_profile"; "_rho_profile"; "_r_profile"; "_p_profile"; "_Gamma_1"; "_brunt_n2_profile"].
Definition pre_analytic : list string := ["_x"; "_mr_profile"; "_rho_profile"; "_r_profile"; "_p_profile"; "_Gamma_1";
      "_brunt_n2_profile"; "_drho"; "_drho2"; "_drho3"; "_dP"; "_dP2"; "_dP3"; "_dgravpot"; "_dgravpot2"; "_dgravpot3"].
Definition poly_cuts : list string := ["_xi_h_mode_1"; "_xi_h_mode_2"; "_xi_h_mode_3"; "_xi_r_mode_1"; "_xi_r_mode_2"; "_xi_r_mode_3";
      "_y_1_mode_1"; "_y_1_mode_2"; "_y_1_mode_3"; "_y_2_mode_1"; "_y_2_mode_2"; "_y_2_mode_3"].
Ltac each H := cbn [In app] in H; repeat (destruct H as [<-|H]; [|]); [..|destruct H].
Ltac notin := let Z := fresh in intros Z; apply has_iff in Z; discriminate.

Section Poly.
Variables (d1 d2 d3 prof : gdict) (x1 x2 x3 xs : list R) (col : string -> list R) (G1 : list R) (P0 rho0 Gp G Rs : R).
Hypothesis I : poly_input d1 d2 d3 prof x1 x2 x3 xs col G1 P0 rho0 Gp G Rs.
Notation m := (List.length xs - 2)%nat.
Notation pt l := (fun i => nth (S i) l 0%R).
Notation in_mode i d xp := (In (i, d, xp) [(1%nat, d1, x1); (2%nat, d2, x2); (3%nat, d3, x3)]).

(** the object before the derivatives of the structure *)
Definition base (o : obj) : Prop :=
  o "_x" = Some (VArr xs) /\
  (forall k, In k poly_columns -> o (prof_attr k) = Some (VArr (col k))) /\
  (forall i d xp k v, in_mode i d xp -> dget k d = Some v -> In k mode_functions -> o (mode_attr k i) = Some (resample xs xp v)) /\
  o "_Gamma_1" = Some (VArr G1) /\ o "_G" = Some (VNum G) /\ o "_R_star" = Some (VNum Rs) /\ o "_G_profile" = Some (VNum Gp) /\
  o "_norm_P" = Some (VNum P0) /\ o "_norm_rho" = Some (VNum rho0).
Lemma poly_prefix : exists o, base o /\ o "_rho" = None /\ forall analytic sym brunt der, build_poly der analytic sym brunt d1 d2 d3 prof =
  (o <- (if analytic : bool then profiles_analytic true true prof o else profiles_poly der true true sym brunt o) ;
   o <- store_poly_coefficients o ; mode_structure_cuts true true true o).
Proof.
  destruct I as [I1 I2 I3 IG IL IF IG1 IGG IR IK IC IP0 IR0 IGp].
  destruct (modes_ok poly_common d1 d2 d3 x1 x2 x3 I1 I2 I3) as (o1 & E1 & X1 & M1 & C1 & N1).
  rewrite (longest_is _ _ _ _ IG) in X1, M1.
  destruct (IC "r" ltac:(cbn; tauto)) as [Hr HL].
  destruct (profile_poly_ok prof (col "r") xs o1 IK Hr HL ltac:(lia) X1) as (o2 & E2 & P2 & U2).
  assert (C2 : forall a v, In a poly_common -> dget a d1 = Some v -> o2 ("_" ++ a) = Some v).
  { intros a v Ha Hv. rewrite U2 by (apply not_prof; each Ha; reflexivity). rewrite C1, ?Hv; [reflexivity|exact Ha|each Ha; discriminate|].
    intros k i. destruct i as [|[|[|]]]; apply not_mode; each Ha; reflexivity. }
  exists (oset (oset o2 "_norm_P" (VNum P0)) "_norm_rho" (VNum rho0)). split.
  - unfold base. repeat match goal with |- _ /\ _ => split end.
    + look. rewrite U2 by (apply not_prof; reflexivity). exact X1.
    + intros k Hk. rewrite !oset_other by (apply not_eq_sym, not_prof; reflexivity).
      destruct (IC k Hk) as [Hv _]. apply P2; [exact Hv|each Hk; reflexivity].
    + intros i d xp k v H1 H2 H3. rewrite !oset_other.
      * rewrite U2 by apply mode_not_prof. eapply M1; eassumption.
      * apply not_eq_sym. destruct i as [|[|[|]]]; apply not_mode; reflexivity.
      * apply not_eq_sym. destruct i as [|[|[|]]]; apply not_mode; reflexivity.
    + look. apply (C2 "Gamma_1"); [cbn; tauto|exact IG1].
    + look. apply (C2 "G"); [cbn; tauto|exact IGG].
    + look. apply (C2 "R_star"); [cbn; tauto|exact IR].
    + look. apply (P2 "G"); [exact IGp|reflexivity].
    + look. reflexivity.
    + look. reflexivity.
  - split.
    + look. rewrite U2 by (apply not_prof; reflexivity). apply N1; [discriminate| |intros a Ha; each Ha; discriminate].
      intros k i. destruct i as [|[|[|]]]; apply not_mode; reflexivity.
    + intros analytic sym brunt der. unfold build_poly. rewrite E1. cbn [bind]. rewrite E2. cbn [bind].
      unfold oget at 1 2. rewrite (P2 "p0" _ IP0 eq_refl : o2 "_p0_profile" = _). rewrite (P2 "rho0" _ IR0 eq_refl : o2 "_rho0_profile" = _). cbn [bind].
      unfold set_normalization, norm_factor. cbn [bind]. reflexivity.
Qed.
Lemma in_mode_ok i d xp : in_mode i d xp -> In d [d1; d2; d3] /\ mode_ok d xp /\ (i = 1%nat \/ i = 2%nat \/ i = 3%nat).
Proof.
  cbn [In]. intros [E|[E|[E|[]]]]; injection E as <- <- <-; (split; [tauto|split; [apply I|tauto]]).
Qed.
(** the last part: structure coefficients and cuts of the modes *)
Lemma poly_suffix o : (forall k, In k ["c1"; "v2"; "as"; "u"] -> o (prof_attr k) = Some (VArr (col k))) ->
  (forall i d xp k v, in_mode i d xp -> dget k d = Some v -> In k mode_functions -> o (mode_attr k i) = Some (resample xs xp v)) ->
  exists o', (o <- store_poly_coefficients o ; mode_structure_cuts true true true o) = Ok o' /\
   (forall name k, In (name, k) [("_c_1", "c1"); ("_V_2", "v2"); ("_As", "as"); ("_U", "u")] -> o' name = Some (VArr (kept (col k)))) /\
   (forall i d xp k v, in_mode i d xp -> dget k d = Some v -> In k mode_functions ->
      o' (mode_attr k i) = Some (if has k poly_functions then gmid (resample xs xp v) else resample xs xp v)) /\
   (forall name, has name (poly_cuts ++ ["_c_1"; "_V_2"; "_As"; "_U"])%list = false -> o' name = o name).
Proof.
  intros HC HM. unfold store_poly_coefficients. cbn [foldM fst snd].
  unfold oget at 1. rewrite (HC "c1" ltac:(cbn; tauto) : o "_c1_profile" = _). cbn [bind].
  unfold oget at 1. look. rewrite (HC "v2" ltac:(cbn; tauto) : o "_v2_profile" = _). cbn [bind].
  unfold oget at 1. look. rewrite (HC "as" ltac:(cbn; tauto) : o "_as_profile" = _). cbn [bind].
  unfold oget at 1. look. rewrite (HC "u" ltac:(cbn; tauto) : o "_u_profile" = _). cbn [bind].
  set (o1 := oset _ "_U" _).
  assert (M1 : forall i d xp k v, in_mode i d xp -> dget k d = Some v -> In k mode_functions -> o1 (mode_attr k i) = Some (resample xs xp v)).
  { intros i d xp k v H1 H2 H3. unfold o1. rewrite !oset_other; [eapply HM; eassumption|..];
      apply not_eq_sym; destruct i as [|[|[|]]]; apply not_mode; reflexivity. }
  assert (RS : forall i d xp k, in_mode i d xp -> In k poly_functions -> exists v, o1 (mode_attr k i) = Some v /\ samples v <> None).
  { intros i d xp k H1 H2. destruct (in_mode_ok i d xp H1) as (Hd & MO & _).
    destruct (pi_funs _ _ _ _ _ _ _ _ _ _ _ _ _ _ _ I d k Hd H2) as (v & Hv). exists (resample xs xp v).
    assert (H3 : In k mode_functions) by (cbn in H2 |- *; tauto). split; [eapply M1; eassumption|].
    destruct (mo_funs _ _ MO k v (dget_in _ _ _ Hv) H3) as (s & Hs & _). destruct v; discriminate. }
  unfold mode_structure_cuts.
  destruct (cut2_two "polytropic_cuts" "structure_coefficient_cuts" false poly_cuts ["_c_1"; "_V_2"; "_As"; "_U"] o1 eq_refl eq_refl) as (o6 & E6 & A6).
  { apply nodupb_ok. vm_compute. reflexivity. }
  { intros c Hc. unfold poly_cuts in Hc. cbn [app In] in Hc.
    repeat (destruct Hc as [<-|Hc];
      [first [ apply (RS 1%nat d1 x1 "xi_h"); cbn; tauto | apply (RS 2%nat d2 x2 "xi_h"); cbn; tauto | apply (RS 3%nat d3 x3 "xi_h"); cbn; tauto
       | apply (RS 1%nat d1 x1 "xi_r"); cbn; tauto | apply (RS 2%nat d2 x2 "xi_r"); cbn; tauto | apply (RS 3%nat d3 x3 "xi_r"); cbn; tauto
       | apply (RS 1%nat d1 x1 "y_1"); cbn; tauto | apply (RS 2%nat d2 x2 "y_1"); cbn; tauto | apply (RS 3%nat d3 x3 "y_1"); cbn; tauto
       | apply (RS 1%nat d1 x1 "y_2"); cbn; tauto | apply (RS 2%nat d2 x2 "y_2"); cbn; tauto | apply (RS 3%nat d3 x3 "y_2"); cbn; tauto
       | eexists; split; [unfold o1; look; reflexivity|discriminate] ]|]).
    destruct Hc. }
  exists o6. split; [exact E6|]. split; [|split].
  - intros name k H. rewrite A6. cbn [In] in H. repeat (destruct H as [H|H]; [injection H as <- <-; unfold o1; look; reflexivity|]). destruct H.
  - intros i d xp k v H1 H2 H3. rewrite A6, (M1 i d xp k v H1 H2 H3). destruct (in_mode_ok i d xp H1) as (_ & _ & HI).
    clear H1 H2. unfold mode_functions in H3. cbn [In] in H3.
    repeat (destruct H3 as [<-|H3]; [destruct HI as [-> | [-> | ->]]; reflexivity|]). destruct H3.
  - intros name H. rewrite A6, H. unfold o1. rewrite !oset_eqb.
    rewrite has_app in H. apply orb_false_iff in H. destruct H as [_ H]. cbn [has existsb] in H.
    apply orb_false_iff in H. destruct H as [Q1 H]. apply orb_false_iff in H. destruct H as [Q2 H]. apply orb_false_iff in H. destruct H as [Q3 H].
    apply orb_false_iff in H. destruct H as [Q4 _]. rewrite Q1, Q2, Q3, Q4. reflexivity.
Qed.

Section Der.
Variable der : list R -> list R -> res (list (option (list R))).
Hypothesis Hder : derivative_ok der (List.length xs - 2).
Variables sym brunt : bool.
Hypothesis HG1 : List.length G1 = List.length xs.
Hypothesis Hflag : sym = false \/ brunt = true.
Theorem build_poly_ok : exists o g drho_ drho2_ drho3_ g2 g3 dP_ dP2_ dP3_,
  build_poly der false sym brunt d1 d2 d3 prof = Ok o /\
  o "_x" = Some (VArr (kept xs)) /\ o "_Gamma_1" = Some (VArr (kept G1)) /\
  (forall k, In k ["r"; "mr"; "rho"; "p"; "brunt_n2"] -> o (prof_attr k) = Some (VArr (kept (col k)))) /\
  (forall name k, In (name, k) [("_c_1", "c1"); ("_V_2", "v2"); ("_As", "as"); ("_U", "u")] -> o name = Some (VArr (kept (col k)))) /\
  (forall i d xp k v, in_mode i d xp -> dget k d = Some v -> In k mode_functions ->
     o (mode_attr k i) = Some (if has k poly_functions then gmid (resample xs xp v) else resample xs xp v)) /\
  o "_norm_P" = Some (VNum P0) /\ o "_norm_rho" = Some (VNum rho0) /\
  (forall name f, In (name, f) [("_dgravpot", g); ("_drho", drho_); ("_drho2", drho2_); ("_drho3", drho3_); ("_dgravpot2", g2); ("_dgravpot3", g3);
      ("_dP", dP_); ("_dP2", dP2_); ("_dP3", dP3_)] -> o name = Some (VArr (tab m f))) /\
  (forall name f, In (name, f) [("_P_normed", pt (col "p")); ("_dP_normed", dP_); ("_dP2_normed", dP2_); ("_dP3_normed", dP3_)] ->
      o name = Some (VArr (tab m (fun i => f i / P0)%R))) /\
  (forall name f, In (name, f) [("_rho_normed", pt (col "rho")); ("_drho_normed", drho_); ("_drho2_normed", drho2_); ("_drho3_normed", drho3_)] ->
      o name = Some (VArr (tab m (fun i => f i / rho0)%R))) /\
  (let r := tab m (pt (col "r")) in
   (forall i, g i = dgravpot Gp (pt (col "mr") i) (pt (col "r") i)) /\
   der1 der r (tab m drho_) = Ok (tab m drho2_) /\ der1 der r (tab m drho2_) = Ok (tab m drho3_) /\
   (sym = false -> der1 der r (tab m (pt (col "rho"))) = Ok (tab m drho_)) /\
   (sym = true -> forall i, drho_ i = drho (pt (col "rho") i) (g i) (pt G1 i) (pt (col "p") i) (pt (col "brunt_n2") i)) /\
   (sym = true -> forall i, g2 i = dgravpot2 Gp (pt (col "rho") i) (g i) (pt (col "r") i) /\ g3 i = dgravpot3 G (drho_ i) (g i) (g2 i) (pt (col "r") i) /\
     dP_ i = dP (pt (col "rho") i) (g i) /\ dP2_ i = dP2 (pt (col "rho") i) (drho_ i) (g i) (g2 i) /\
     dP3_ i = dP3 (pt (col "rho") i) (drho_ i) (drho2_ i) (g i) (g2 i) (g3 i)) /\
   (sym = false -> der1 der r (tab m g) = Ok (tab m g2) /\ der1 der r (tab m g2) = Ok (tab m g3) /\
     der1 der r (tab m (pt (col "p"))) = Ok (tab m dP_) /\ der1 der r (tab m dP_) = Ok (tab m dP2_) /\ der1 der r (tab m dP2_) = Ok (tab m dP3_))).
Proof.
  destruct poly_prefix as (o3 & (X3 & P3 & M3 & GG3 & G3 & R3 & GP3 & NP3 & NR3) & _ & EB). rewrite EB. clear EB.
  assert (LC : forall k, In k poly_columns -> List.length (col k) = List.length xs) by (intros k Hk; apply (pi_cols _ _ _ _ _ _ _ _ _ _ _ _ _ _ _ I k Hk)).
  unfold profiles_poly, pre_profile_cuts.
  destruct (cut2_one "pre_profile_load_cuts" true pre_poly o3 eq_refl) as (o4 & E4 & A4).
  { apply nodupb_ok. reflexivity. }
  { intros c Hc. unfold pre_poly in Hc. each Hc.
    - eexists. split; [exact X3|discriminate].
    - eexists. split; [apply (P3 "mr"); cbn; tauto|discriminate].
    - eexists. split; [apply (P3 "rho"); cbn; tauto|discriminate].
    - eexists. split; [apply (P3 "r"); cbn; tauto|discriminate].
    - eexists. split; [apply (P3 "p"); cbn; tauto|discriminate].
    - eexists. split; [exact GG3|discriminate].
    - eexists. split; [apply (P3 "brunt_n2"); cbn; tauto|discriminate]. }
  rewrite E4. cbn [bind].
  assert (KT : forall l, List.length l = List.length xs -> kept l = tab m (pt l)) by (intros; apply kept_tab; assumption).
  assert (S4 : forall k, In k ["r"; "mr"; "rho"; "p"; "brunt_n2"] -> o4 (prof_attr k) = Some (VArr (tab m (pt (col k))))).
  { intros k Hk. assert (HP : In k poly_columns) by (cbn in Hk |- *; tauto). rewrite A4, P3 by exact HP.
    rewrite <- KT by (apply LC; exact HP). each Hk; reflexivity. }
  assert (X4 : o4 "_x" = Some (VArr (tab m (pt xs)))) by (rewrite A4, X3, <- KT by reflexivity; reflexivity).
  assert (GG4 : o4 "_Gamma_1" = Some (VArr (tab m (pt G1)))) by (rewrite A4, GG3, <- KT by exact HG1; reflexivity).
  assert (G4 : o4 "_G" = Some (VNum G)) by (rewrite A4; exact G3).
  assert (GP4 : o4 "_G_profile" = Some (VNum Gp)) by (rewrite A4; exact GP3).
  rewrite (oarr_arr o4 "_r_profile" _ (S4 "r" ltac:(cbn; tauto))). cbn [bind].
  rewrite (oarr_num _ _ _ GP4). cbn [bind].
  rewrite (oarr_arr o4 "_mr_profile" _ (S4 "mr" ltac:(cbn; tauto))). cbn [bind]. unfold vmul at 1. rewrite bcast_left. cbn [bind].
  unfold vmul at 1. rewrite bcast_tab. cbn [bind]. unfold vdiv at 1. rewrite bcast_tab. cbn [bind].
  rewrite (oarr_arr o4 "_rho_profile" _ (S4 "rho" ltac:(cbn; tauto))). cbn [bind]. rewrite (oarr_arr o4 "_p_profile" _ (S4 "p" ltac:(cbn; tauto))). cbn [bind].
  rewrite (oarr_arr _ _ _ GG4). cbn [bind]. rewrite (oarr_arr o4 "_brunt_n2_profile" _ (S4 "brunt_n2" ltac:(cbn; tauto))). cbn [bind].
  rewrite (oarr_num _ _ _ G4). cbn [bind].
  set (g := fun i => (Gp * pt (col "mr") i / (pt (col "r") i * pt (col "r") i))%R).
  destruct (structure_derivs_ok der m Hder sym brunt (pt (col "r")) Gp G g (pt (col "rho")) (pt (col "p")) (pt G1)
    (pt (col "brunt_n2")) (oarr o4 "_rho")) as (drho_ & drho2_ & drho3_ & g2 & g3 & dP_ & dP2_ & dP3_ & ED & F1 & F2 & F3 & F4 & F5 & F6).
  { intros -> ->. destruct Hflag; discriminate. }
  rewrite ED. cbn [bind].
  destruct (normed_ok m (pt (col "p")) (pt (col "rho")) g drho_ drho2_ drho3_ g2 g3 dP_ dP2_ dP3_ P0 rho0 o4) as (o5 & E5 & U5 & D5 & Q5 & W5).
  { rewrite A4. exact NP3. } { rewrite A4. exact NR3. }
  rewrite E5. cbn [bind].
  destruct (poly_suffix o5) as (o6 & E6 & C6 & M6 & U6).
  { intros k Hk. rewrite U5 by (cbn in Hk; each Hk; notin). rewrite A4.
    assert (HP : In k poly_columns) by (cbn in Hk |- *; tauto). rewrite P3 by exact HP. each Hk; reflexivity. }
  { intros i d xp k v H1 H2 H3. assert (FN : forall s, endsb "_mode_1" s = false -> endsb "_mode_2" s = false -> endsb "_mode_3" s = false -> s <> mode_attr k i).
    { intros s Z1 Z2 Z3. destruct i as [|[|[|]]]; apply not_mode; assumption. }
    rewrite U5.
    - rewrite A4. replace (has (mode_attr k i) pre_poly) with false; [eapply M3; eassumption|].
      symmetry. apply has_false. intros Hd. unfold pre_poly in Hd. cbn [In] in Hd. repeat (destruct Hd as [Hd|Hd]; [revert Hd; apply FN; reflexivity|]). destruct Hd.
    - intros Hd. unfold derived in Hd. cbn [In] in Hd. repeat (destruct Hd as [Hd|Hd]; [revert Hd; apply FN; reflexivity|]). destruct Hd. }
  exists o6, g, drho_, drho2_, drho3_, g2, g3, dP_, dP2_, dP3_. split; [exact E6|].
  split. { rewrite U6 by reflexivity. rewrite U5 by notin. rewrite X4, KT by reflexivity. reflexivity. }
  split. { rewrite U6 by reflexivity. rewrite U5 by notin. rewrite GG4, KT by exact HG1. reflexivity. }
  split. { intros k Hk. rewrite U6 by (each Hk; reflexivity). rewrite U5 by (each Hk; notin). rewrite S4 by exact Hk. rewrite KT by (apply LC; cbn in Hk |- *; tauto). reflexivity. }
  split; [exact C6|]. split; [exact M6|].
  split. { rewrite U6 by reflexivity. rewrite U5 by notin. rewrite A4. exact NP3. }
  split. { rewrite U6 by reflexivity. rewrite U5 by notin. rewrite A4. exact NR3. }
  split. { intros name f H. rewrite U6; [apply D5; exact H|]. repeat (destruct H as [H|H]; [injection H as <- _; reflexivity|]). destruct H. }
  split. { intros name f H. rewrite U6; [apply Q5; exact H|]. repeat (destruct H as [H|H]; [injection H as <- _; reflexivity|]). destruct H. }
  split. { intros name f H. rewrite U6; [apply W5; exact H|]. repeat (destruct H as [H|H]; [injection H as <- _; reflexivity|]). destruct H. }
  cbv zeta. split. { intros i. unfold g, dgravpot. replace (pt (col "r") i * pt (col "r") i)%R with ((pt (col "r") i) ^ 2)%R by ring. reflexivity. }
  split; [exact F1|]. split; [exact F2|]. split; [intros Z; apply F3; left; exact Z|].
  split; [intros Z i; apply F4; [exact Z|destruct Hflag as [Z'|Z']; [congruence|exact Z']]|]. split; [exact F5|exact F6].
Qed.
End Der.
End Poly.
