(** * Proofs: polytropes with analytical derivatives *)
From Coq Require Import List ZArith Lia Reals Lra String Ascii Bool.
From Coquelicot Require Import Complex.
From Verif Require Import Base Py NumDeriv_Model Load_Model Load_Proofs Load_Dim Coupling_Model Grid_Model Grid_Spec Grid_Interp Grid_Proofs Grid_Build Grid_Mesa Grid_Final Grid_Poly.
Import ListNotations.
Local Open Scope string_scope.

Ltac pick := solve [cbn; repeat (first [left; reflexivity | right])].
(** storing the derivatives without interpolation *)
Definition dval (prof : gdict) (k : string) : gval := match dget k prof with Some v => v | None => VNone end.
Lemma store_derivs prof hr : forall l o, NoDup (map fst l) -> exists o',
  foldM (fun o t => v <- get_or_interp o (snd t) false prof hr ; Ok (oset o (fst t) v)) l o = Ok o' /\
  (forall name k, In (name, k) l -> o' name = Some (dval prof k)) /\ (forall name, ~ In name (map fst l) -> o' name = o name).
Proof.
  induction l as [|[name k] l IH]; intros o HN; [exists o; cbn; split; [reflexivity|]; split; [intros ? ? []|auto]|].
  cbn [map fst] in HN. inversion HN as [|? ? N1 N2]; subst. cbn [foldM fst snd get_or_interp bind].
  destruct (IH (oset o name (dval prof k)) N2) as (o' & E & A & B). exists o'. split; [exact E|]. split.
  - intros n1 k1 [E1|I1]; [|apply A; exact I1]. injection E1 as <- <-. rewrite B by exact N1. apply oset_same.
  - intros n1 H. rewrite B by (intros Z; apply H; right; exact Z). apply oset_other. intros ->. apply H. left. reflexivity.
Qed.
Lemma vdiv_arr a b : vdiv a [b] = Ok (map (fun z => (z / b)%R) a).
Proof.
  rewrite (tab_of a 0%R). unfold vdiv. rewrite bcast_right. f_equal. rewrite map_tab. reflexivity.
Qed.
(** the normalised arrays *)
Lemma norm_loop : forall (l : list (string * string * list R)) o,
  NoDup (map (fun t => fst (fst t)) l) ->
  (forall t s, In t l -> In s l -> fst (fst t) <> snd (fst s)) ->
  (forall t, In t l -> exists a b, o (snd (fst t)) = Some (VArr a) /\ snd t = [b]) ->
  exists o', foldM (fun o t => let '(name, src, nf) := t in v <- oget o src ; q <- opt_div v nf ; Ok (oset o name q)) l o = Ok o' /\
   (forall name src b a, In (name, src, [b]) l -> o src = Some (VArr a) -> o' name = Some (VArr (map (fun z => (z / b)%R) a))) /\
   (forall name, ~ In name (map (fun t => fst (fst t)) l) -> o' name = o name).
Proof.
  induction l as [|[[name src] nf] l IH]; intros o HN HD H; [exists o; cbn; split; [reflexivity|]; split; [intros ? ? ? ? []|auto]|].
  cbn [map fst] in HN. inversion HN as [|? ? N1 N2]; subst. cbn [foldM].
  destruct (H (name, src, nf) (in_eq _ _)) as (a & b & Hs & Hb). cbn [fst snd] in Hs, Hb. subst nf.
  unfold oget at 1. rewrite Hs. cbn [bind opt_div rarr]. rewrite vdiv_arr. cbn [bind].
  destruct (IH (oset o name (VArr (map (fun z => (z / b)%R) a))) N2) as (o' & E & A & B).
  - intros t s I1 I2. apply HD; right; assumption.
  - intros t I1. destruct (H t (in_cons _ _ _ I1)) as (a1 & b1 & Q1 & Q2). exists a1, b1. split; [|exact Q2]. rewrite oset_other; [exact Q1|].
    intros E. apply (HD (name, src, [b]) t (in_eq _ _) (in_cons _ _ _ I1)). symmetry. exact E.
  - exists o'. split; [exact E|]. split.
    + intros n1 s1 b1 a1 [E1|I1] Q.
      * injection E1 as <- <- <-. rewrite B by exact N1. rewrite oset_same. rewrite Hs in Q. injection Q as <-. reflexivity.
      * eapply A; [exact I1|]. rewrite oset_other; [exact Q|].
        intros E1. apply (HD (name, src, [b]) (n1, s1, [b1]) (in_eq _ _) (in_cons _ _ _ I1)). symmetry. exact E1.
    + intros n1 Q. rewrite B by (intros Z; apply Q; right; exact Z). apply oset_other. intros ->. apply Q. left. reflexivity.
Qed.
Definition norm_list (nP nr : R) : list (string * string * list R) :=
  [("_P_normed", "_p_profile", [nP]); ("_dP_normed", "_dP", [nP]); ("_dP2_normed", "_dP2", [nP]); ("_dP3_normed", "_dP3", [nP]);
     ("_rho_normed", "_rho_profile", [nr]); ("_drho_normed", "_drho", [nr]); ("_drho2_normed", "_drho2", [nr]);
     ("_drho3_normed", "_drho3", [nr])].
(** cutting when some entries are None *)
Lemma cut_none s : forall names o, NoDup names ->
  (forall c, In c names -> exists v, o c = Some v /\ (samples v <> None \/ v = VNone)) ->
  (exists c, In c names /\ o c = Some VNone) ->
  foldM (fun o c => v <- oget o c ; w <- vslice s v ; Ok (oset o c w)) names o = Exc TypeError.
Proof.
  induction names as [|c names IH]; intros o HN H (c0 & I0 & E0); [destruct I0|].
  inversion HN as [|? ? N1 N2]; subst. cbn [foldM]. destruct (H c (in_eq _ _)) as (v & Ev & Hv). unfold oget at 1. rewrite Ev. cbn [bind].
  destruct Hv as [Hv| ->]; [|reflexivity]. destruct (gsl_ok s v Hv) as [-> Hv2]. cbn [bind].
  apply IH; [exact N2| |].
  - intros c1 I1. destruct (H c1 (in_cons _ _ _ I1)) as (v1 & Q1 & Q2). exists v1. split; [|exact Q2]. rewrite oset_other; [exact Q1|intros ->; contradiction].
  - exists c0. destruct I0 as [<-|I0]; [rewrite E0 in Ev; injection Ev as <-; contradiction|]. split; [exact I0|]. rewrite oset_other; [exact E0|intros ->; contradiction].
Qed.

Section Poly.
Variables (d1 d2 d3 prof : gdict) (x1 x2 x3 xs : list R) (col : string -> list R) (G1 : list R) (P0 rho0 Gp G Rs : R).
Hypothesis I : poly_input d1 d2 d3 prof x1 x2 x3 xs col G1 P0 rho0 Gp G Rs.
Variable der : list R -> list R -> res (list (option (list R))).
Variables sym brunt : bool.
Notation m := (List.length xs - 2)%nat.
Notation in_mode i d xp := (In (i, d, xp) [(1%nat, d1, x1); (2%nat, d2, x2); (3%nat, d3, x3)]).
(** up to the cuts *)
Lemma analytic_prefix : exists o, base d1 d2 d3 x1 x2 x3 xs col G1 P0 rho0 Gp G Rs o /\
  (forall name k, In (name, k) poly_derivatives -> o name = Some (dval prof k)) /\
  build_poly der true sym brunt d1 d2 d3 prof =
  (o <- (o <- cut2 true true ["profile_load_cuts_analytic"] true o ;
   nP <- oarr o "_norm_P" ; nrho <- oarr o "_norm_rho" ;
   foldM (fun o t => let '(name, src, nf) := t in v <- oget o src ; q <- opt_div v nf ; Ok (oset o name q))
    [("_P_normed", "_p_profile", nP); ("_dP_normed", "_dP", nP); ("_dP2_normed", "_dP2", nP); ("_dP3_normed", "_dP3", nP);
     ("_rho_normed", "_rho_profile", nrho); ("_drho_normed", "_drho", nrho); ("_drho2_normed", "_drho2", nrho);
     ("_drho3_normed", "_drho3", nrho)] o) ;
   o <- store_poly_coefficients o ; mode_structure_cuts true true true o).
Proof.
  destruct (poly_prefix _ _ _ _ _ _ _ _ _ _ _ _ _ _ _ I) as (o & (X & P & M & GG & GG2 & Rs2 & GP & NP & NR) & _ & EB). rewrite EB. clear EB.
  unfold profiles_analytic. rewrite (oarr_arr o "_r_profile" _ (P "r" ltac:(cbn; tauto))). cbn [bind].
  rewrite (oarr_num _ _ _ Rs2). cbn [bind]. rewrite vdiv_arr. cbn [bind]. unfold oget at 1. rewrite X. cbn [bind arr_len].
  rewrite map_length. rewrite (proj2 (pi_cols _ _ _ _ _ _ _ _ _ _ _ _ _ _ _ I "r" ltac:(cbn; tauto))). rewrite Nat.eqb_refl. cbn [negb].
  destruct (store_derivs prof (map (fun z => (z / Rs)%R) (col "r")) poly_derivatives o) as (o' & E & A & B).
  { apply nodupb_ok. reflexivity. }
  unfold poly_derivatives in E. rewrite E. cbn [bind]. exists o'. split; [|split; [exact A|reflexivity]].
  assert (U : forall name, has name (map fst poly_derivatives) = false -> o' name = o name) by (intros; apply B, has_false; assumption).
  unfold base. repeat match goal with |- _ /\ _ => split end; try (rewrite U by reflexivity; assumption).
  - intros k Hk. rewrite U by (each Hk; reflexivity). apply P, Hk.
  - intros i d xp k v H1 H2 H3. rewrite B; [eapply M; eassumption|]. intros Hd. cbn [map fst poly_derivatives In] in Hd.
    repeat (destruct Hd as [Hd|Hd]; [revert Hd; destruct i as [|[|[|]]]; apply not_mode; reflexivity|]). destruct Hd.
Qed.
(** a missing analytical derivative *)
Theorem analytic_missing : (forall name k, In (name, k) poly_derivatives -> dget k prof = None \/ exists a, dget k prof = Some (VArr a)) ->
  (exists name k, In (name, k) poly_derivatives /\ dget k prof = None) ->
  build_poly der true sym brunt d1 d2 d3 prof = Exc TypeError.
Proof.
  intros HA (nm & k0 & I0 & E0).
  destruct analytic_prefix as (o & (X & P & M & GG & GG2 & Rs2 & GP & NP & NR) & A & EB). rewrite EB. clear EB.
  unfold cut2. cbn [foldM]. unfold cutter at 1.
  change (cut_names (CutName "profile_load_cuts_analytic") true) with (Ok pre_analytic). cbn [bind].
  rewrite (cut_none DropFirst pre_analytic o); [reflexivity| | |].
  - apply nodupb_ok. reflexivity.
  - intros c Hc. assert (D : forall name k, In (name, k) poly_derivatives -> exists v, o name = Some v /\ (samples v <> None \/ v = VNone)).
    { intros name k Hk. exists (dval prof k). split; [apply A, Hk|]. unfold dval. destruct (HA name k Hk) as [-> | (a & ->)]; [right; reflexivity|left; discriminate]. }
    assert (V : forall k, In k poly_columns -> exists v, o (prof_attr k) = Some v /\ (samples v <> None \/ v = VNone)).
    { intros k Hk. eexists. split; [apply P, Hk|left; discriminate]. }
    unfold pre_analytic in Hc. cbn [In] in Hc.
    repeat (destruct Hc as [<-|Hc]; [first [ eexists; split; [exact X|left; discriminate] | eexists; split; [exact GG|left; discriminate]
      | apply (V "mr"); cbn; tauto | apply (V "rho"); cbn; tauto | apply (V "r"); cbn; tauto | apply (V "p"); cbn; tauto | apply (V "brunt_n2"); cbn; tauto
      | eapply D; pick ]|]). destruct Hc.
  - exists nm. split; [|rewrite (A nm k0 I0); unfold dval; rewrite E0; reflexivity].
    cbn [poly_derivatives In] in I0. unfold pre_analytic. repeat (destruct I0 as [I0|I0]; [injection I0 as <- _; cbn; tauto|]). destruct I0.
Qed.

Hypothesis HD : forall name k, In (name, k) poly_derivatives -> dget k prof = Some (VArr (col k)).
Theorem build_analytic_ok : exists o,
  build_poly der true sym brunt d1 d2 d3 prof = Ok o /\
  o "_x" = Some (VArr (kept xs)) /\ o "_Gamma_1" = Some (VArr (kept G1)) /\
  (forall k, In k ["r"; "mr"; "rho"; "p"; "brunt_n2"] -> o (prof_attr k) = Some (VArr (kept (col k)))) /\
  (forall name k, In (name, k) [("_c_1", "c1"); ("_V_2", "v2"); ("_As", "as"); ("_U", "u")] -> o name = Some (VArr (kept (col k)))) /\
  (forall i d xp k v, in_mode i d xp -> dget k d = Some v -> In k mode_functions ->
     o (mode_attr k i) = Some (if has k poly_functions then gmid (resample xs xp v) else resample xs xp v)) /\
  o "_norm_P" = Some (VNum P0) /\ o "_norm_rho" = Some (VNum rho0) /\
  (forall name k, In (name, k) poly_derivatives -> o name = Some (VArr (kept (col k)))) /\
  (forall name k, In (name, k) [("_P_normed", "p"); ("_dP_normed", "dp"); ("_dP2_normed", "dp2"); ("_dP3_normed", "dp3")] ->
      o name = Some (VArr (map (fun z => z / P0)%R (kept (col k))))) /\
  (forall name k, In (name, k) [("_rho_normed", "rho"); ("_drho_normed", "drho"); ("_drho2_normed", "drho2"); ("_drho3_normed", "drho3")] ->
      o name = Some (VArr (map (fun z => z / rho0)%R (kept (col k))))).
Proof.
  destruct analytic_prefix as (o & (X & P & M & GG & GG2 & Rs2 & GP & NP & NR) & A & EB). rewrite EB. clear EB.
  assert (A' : forall name k, In (name, k) poly_derivatives -> o name = Some (VArr (col k))).
  { intros name k Hk. rewrite (A name k Hk). unfold dval. rewrite (HD name k Hk). reflexivity. }
  destruct (cut2_one "profile_load_cuts_analytic" true pre_analytic o eq_refl) as (o4 & E4 & A4).
  { apply nodupb_ok. reflexivity. }
  { intros c Hc. unfold pre_analytic in Hc. cbn [In] in Hc.
    repeat (destruct Hc as [<-|Hc]; [first [ eexists; split; [exact X|discriminate] | eexists; split; [exact GG|discriminate]
      | eexists; split; [apply (P "mr"); cbn; tauto|discriminate] | eexists; split; [apply (P "rho"); cbn; tauto|discriminate]
      | eexists; split; [apply (P "r"); cbn; tauto|discriminate] | eexists; split; [apply (P "p"); cbn; tauto|discriminate]
      | eexists; split; [apply (P "brunt_n2"); cbn; tauto|discriminate]
      | eexists; split; [eapply A'; pick|discriminate] ]|]). destruct Hc. }
  rewrite E4. cbn [bind]. rewrite (oarr_num o4 "_norm_P" P0) by (rewrite A4; exact NP). rewrite (oarr_num o4 "_norm_rho" rho0) by (rewrite A4; exact NR). cbn [bind].
  assert (D4 : forall name k, In (name, k) poly_derivatives -> o4 name = Some (VArr (kept (col k)))).
  { intros name k Hk. rewrite A4, (A' name k Hk). cbn [poly_derivatives In] in Hk. repeat (destruct Hk as [Hk|Hk]; [injection Hk as <- <-; reflexivity|]). destruct Hk. }
  assert (P4 : forall k, In k ["r"; "mr"; "rho"; "p"; "brunt_n2"] -> o4 (prof_attr k) = Some (VArr (kept (col k)))).
  { intros k Hk. rewrite A4, P by (cbn in Hk |- *; tauto). each Hk; reflexivity. }
  destruct (norm_loop (norm_list P0 rho0) o4) as (o5 & E5 & Q5 & U5).
  { apply nodupb_ok. reflexivity. }
  { assert (Q : forall t s, In t (map (fun t => fst (fst t)) (norm_list P0 rho0)) -> In s (map (fun t => snd (fst t)) (norm_list P0 rho0)) -> t <> s).
    { intros t s Ht Hs. cbn [map fst snd norm_list] in Ht, Hs. intros ->. apply has_iff in Ht. revert Ht. each Hs; discriminate. }
    intros t s Ht Hs. apply Q; [apply (in_map (fun t => fst (fst t))), Ht|apply (in_map (fun t => snd (fst t))), Hs]. }
  { intros t Ht. unfold norm_list in Ht. cbn [In] in Ht.
    repeat (destruct Ht as [<-|Ht]; [cbn [fst snd]; eexists; eexists; split; [first [apply (P4 "p"); cbn; tauto | apply (P4 "rho"); cbn; tauto | eapply D4; pick]|reflexivity]|]). destruct Ht. }
  unfold norm_list in E5. rewrite E5. cbn [bind].
  assert (U5' : forall name, has name (map (fun t => fst (fst t)) (norm_list P0 rho0)) = false -> o5 name = o4 name) by (intros; apply U5, has_false; assumption).
  destruct (poly_suffix _ _ _ _ _ _ _ _ _ _ _ _ _ _ _ I o5) as (o6 & E6 & C6 & M6 & U6).
  { intros k Hk. rewrite U5' by (each Hk; reflexivity). rewrite A4. rewrite P by (cbn in Hk |- *; tauto). each Hk; reflexivity. }
  { intros i d xp k v H1 H2 H3. assert (FN : forall s, endsb "_mode_1" s = false -> endsb "_mode_2" s = false -> endsb "_mode_3" s = false -> s <> mode_attr k i).
    { intros s Z1 Z2 Z3. destruct i as [|[|[|]]]; apply not_mode; assumption. }
    rewrite U5.
    - rewrite A4. replace (has (mode_attr k i) pre_analytic) with false; [eapply M; eassumption|].
      symmetry. apply has_false. intros Hd. unfold pre_analytic in Hd. cbn [In] in Hd. repeat (destruct Hd as [Hd|Hd]; [revert Hd; apply FN; reflexivity|]). destruct Hd.
    - intros Hd. cbn [map fst norm_list In] in Hd. repeat (destruct Hd as [Hd|Hd]; [revert Hd; apply FN; reflexivity|]). destruct Hd. }
  exists o6. split; [exact E6|].
  split. { rewrite U6, U5', A4, X by reflexivity. reflexivity. }
  split. { rewrite U6, U5', A4, GG by reflexivity. reflexivity. }
  split. { intros k Hk. rewrite U6, U5' by (each Hk; reflexivity). apply P4, Hk. }
  split; [exact C6|]. split; [exact M6|].
  split. { rewrite U6, U5', A4 by reflexivity. exact NP. }
  split. { rewrite U6, U5', A4 by reflexivity. exact NR. }
  split. { intros name k Hk. rewrite U6, U5'; [apply D4, Hk|..]; cbn [poly_derivatives In] in Hk; (repeat (destruct Hk as [Hk|Hk]; [injection Hk as <- _; reflexivity|])); destruct Hk. }
  split.
  - intros name k Hk. rewrite U6 by (cbn [In] in Hk; (repeat (destruct Hk as [Hk|Hk]; [injection Hk as <- _; reflexivity|])); destruct Hk).
    cbn [In] in Hk. repeat (destruct Hk as [Hk|Hk]; [injection Hk as <- <-;
      eapply Q5; [unfold norm_list; pick|first [apply (P4 "p"); cbn; tauto | apply D4; pick]]|]). destruct Hk.
  - intros name k Hk. rewrite U6 by (cbn [In] in Hk; (repeat (destruct Hk as [Hk|Hk]; [injection Hk as <- _; reflexivity|])); destruct Hk).
    cbn [In] in Hk. repeat (destruct Hk as [Hk|Hk]; [injection Hk as <- <-;
      eapply Q5; [unfold norm_list; pick|first [apply (P4 "rho"); cbn; tauto | apply D4; pick]]|]). destruct Hk.
Qed.
End Poly.
