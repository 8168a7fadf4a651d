(** * Proofs: the complete MESA + GYRE object *)
From Coq Require Import List ZArith Lia Reals Lra String Ascii Bool.
From Coquelicot Require Import Complex.
From Verif Require Import Base Py NumDeriv_Model Load_Model Load_Proofs Load_Dim Coupling_Model Grid_Model Grid_Spec Grid_Interp Grid_Proofs Grid_Build Grid_Mesa.
Import ListNotations.
Local Open Scope string_scope.

Definition derived : list string :=
  ["_dgravpot"; "_drho"; "_drho2"; "_drho3"; "_dgravpot2"; "_dgravpot3"; "_dP"; "_dP2"; "_dP3";
   "_P_normed"; "_dP_normed"; "_dP2_normed"; "_dP3_normed"; "_rho_normed"; "_drho_normed"; "_drho2_normed"; "_drho3_normed"].
Ltac look := rewrite ?oset_eqb; cbn [String.eqb Ascii.eqb Bool.eqb].
Lemma oarr_arr o k a : o k = Some (VArr a) -> oarr o k = Ok a.
Proof. intros H. unfold oarr, oget. rewrite H. reflexivity. Qed.
Lemma oarr_num o k a : o k = Some (VNum a) -> oarr o k = Ok [a].
Proof. intros H. unfold oarr, oget. rewrite H. reflexivity. Qed.
Lemma normed_ok n P rho g f1 f2 f3 f4 f5 f6 f7 f8 nP nr o : o "_norm_P" = Some (VNum nP) -> o "_norm_rho" = Some (VNum nr) ->
  exists o', normed (tab n P) (tab n rho) (osets [("_dgravpot", tab n g); ("_drho", tab n f1); ("_drho2", tab n f2); ("_drho3", tab n f3);
      ("_dgravpot2", tab n f4); ("_dgravpot3", tab n f5); ("_dP", tab n f6); ("_dP2", tab n f7); ("_dP3", tab n f8)] o) = Ok o' /\
   (forall name, ~ In name derived -> o' name = o name) /\
   (forall name f, In (name, f) [("_dgravpot", g); ("_drho", f1); ("_drho2", f2); ("_drho3", f3); ("_dgravpot2", f4); ("_dgravpot3", f5);
      ("_dP", f6); ("_dP2", f7); ("_dP3", f8)] -> o' name = Some (VArr (tab n f))) /\
   (forall name f, In (name, f) [("_P_normed", P); ("_dP_normed", f6); ("_dP2_normed", f7); ("_dP3_normed", f8)] ->
      o' name = Some (VArr (tab n (fun i => f i / nP)%R))) /\
   (forall name f, In (name, f) [("_rho_normed", rho); ("_drho_normed", f1); ("_drho2_normed", f2); ("_drho3_normed", f3)] ->
      o' name = Some (VArr (tab n (fun i => f i / nr)%R))).
Proof.
  intros H1 H2. unfold normed.
  set (q := osets _ o).
  assert (Q : forall name, q name = (fun name => osets [("_dgravpot", tab n g); ("_drho", tab n f1); ("_drho2", tab n f2); ("_drho3", tab n f3);
      ("_dgravpot2", tab n f4); ("_dgravpot3", tab n f5); ("_dP", tab n f6); ("_dP2", tab n f7); ("_dP3", tab n f8)] o name) name) by reflexivity.
  unfold osets in Q. cbn [fold_left fst snd] in Q.
  rewrite (oarr_num q "_norm_P" nP) by (rewrite Q; look; exact H1).
  rewrite (oarr_num q "_norm_rho" nr) by (rewrite Q; look; exact H2). cbn [bind].
  rewrite (oarr_arr q "_dP" (tab n f6)) by (rewrite Q; look; reflexivity).
  rewrite (oarr_arr q "_dP2" (tab n f7)) by (rewrite Q; look; reflexivity).
  rewrite (oarr_arr q "_dP3" (tab n f8)) by (rewrite Q; look; reflexivity).
  rewrite (oarr_arr q "_drho" (tab n f1)) by (rewrite Q; look; reflexivity).
  rewrite (oarr_arr q "_drho2" (tab n f2)) by (rewrite Q; look; reflexivity).
  rewrite (oarr_arr q "_drho3" (tab n f3)) by (rewrite Q; look; reflexivity).
  cbn [foldM bind]. unfold vdiv. rewrite !bcast_right. cbn [bind].
  eexists. split; [reflexivity|]. split; [|split; [|split]].
  - intros name Hn. unfold derived in Hn. cbn [In] in Hn.
    assert (forall k, In k derived -> String.eqb name k = false) as F.
    { intros k Hk. apply String.eqb_neq. intros ->. exact (Hn Hk). }
    rewrite !oset_eqb, Q, !oset_eqb. rewrite !F by (unfold derived; cbn; tauto). reflexivity.
  - intros name f H. rewrite !oset_eqb, Q, !oset_eqb.
    repeat (destruct H as [H|H]; [injection H as <- <-; reflexivity|]). destruct H.
  - intros name f H. rewrite !oset_eqb.
    repeat (destruct H as [H|H]; [injection H as <- <-; reflexivity|]). destruct H.
  - intros name f H. rewrite !oset_eqb.
    repeat (destruct H as [H|H]; [injection H as <- <-; reflexivity|]). destruct H.
Qed.

Section Mesa.
Variable der : list R -> list R -> res (list (option (list R))).
Variables (d1 d2 d3 prof : gdict) (x1 x2 x3 : list R) (st : string -> list R) (Rs G : R) (rad N2 ad : list R).
Hypothesis I : mesa_input d1 d2 d3 prof x1 x2 x3 st Rs G rad N2 ad.
Variables sym brunt : bool.
Hypothesis Hder : derivative_ok der (List.length x1 - 2).

Lemma longest_first : longest x1 x2 x3 = x1.
Proof.
  unfold longest, lens_of. rewrite (argmax_first (Z.of_nat (List.length x1)) [Z.of_nat (List.length x2); Z.of_nat (List.length x3)]); [reflexivity|].
  pose proof (mi_first _ _ _ _ _ _ _ _ _ _ _ _ _ I). intros y [<-|[<-|[]]]; lia.
Qed.
Notation n := (List.length x1).
Notation m := (List.length x1 - 2)%nat.
Notation pt l := (fun i => nth (S i) l 0%R).
Lemma plain_common a : In a mesa_common -> "_" ++ a <> "_x" /\ (forall k i, "_" ++ a <> mode_attr k i) /\ (forall q, "_" ++ a <> prof_attr q) \/ a = "x".
Proof.
  intros Ha. assert (K : Forall (fun a => ((negb (String.eqb ("_" ++ a) "_x") && negb (endsb "_mode_1" ("_" ++ a)) && negb (endsb "_mode_2" ("_" ++ a)) &&
     negb (endsb "_mode_3" ("_" ++ a)) && negb (endsb "_profile" ("_" ++ a))) || String.eqb a "x") = true) mesa_common).
  { repeat (constructor; [vm_compute; reflexivity|]). constructor. }
  rewrite Forall_forall in K. specialize (K a Ha). apply orb_prop in K. destruct K as [K|K]; [left|right; apply String.eqb_eq; exact K].
  apply andb_prop in K. destruct K as [K K5]. apply andb_prop in K. destruct K as [K K4]. apply andb_prop in K. destruct K as [K K3].
  apply andb_prop in K. destruct K as [K1 K2]. apply negb_true_iff in K1, K2, K3, K4, K5. apply String.eqb_neq in K1.
  split; [exact K1|]. split; [|apply not_prof, K5]. intros k i. destruct i as [|[|[|]]]; apply not_mode; assumption.
Qed.
Lemma scalar_not_mode k v : In (k, v) prof -> scalar v = true -> forall q i, mode_attr q i <> "_" ++ k.
Proof.
  intros HI HS q i E. destruct (po_scalars _ _ _ (mi_prof _ _ _ _ _ _ _ _ _ _ _ _ _ I) k v HI HS) as (A & _).
  apply (A q (mode_no i)); [destruct i as [|[|[|]]]; cbn; tauto|]. symmetry. exact E.
Qed.

Theorem build_mesa_ok : exists o g drho_ drho2_ drho3_ g2 g3 dP_ dP2_ dP3_,
  build_mesa der sym brunt d1 d2 d3 prof = Ok o /\
  o "_x" = Some (VArr (kept x1)) /\
  (forall k, In k structure_names -> o ("_" ++ k) = Some (VArr (kept (st k)))) /\
  (forall i d xp k v, In (i, d, xp) [(1%nat, d1, x1); (2%nat, d2, x2); (3%nat, d3, x3)] -> dget k d = Some v -> In k mode_functions ->
     o (mode_attr k i) = Some (if has k mesa_functions then gmid (resample x1 xp v) else resample x1 xp v)) /\
  o "_brunt_N2_profile" = Some (VArr (kept (on_grid false x1 rad N2))) /\
  o "_gamma_1_adDer_profile" = Some (VArr (kept (on_grid false x1 rad ad))) /\
  o "_norm_P" = Some (VNum (amax (kept (st "P")))) /\ o "_norm_rho" = Some (VNum (amax (kept (st "rho")))) /\
  (forall name f, In (name, f) [("_dgravpot", g); ("_drho", drho_); ("_drho2", drho2_); ("_drho3", drho3_); ("_dgravpot2", g2); ("_dgravpot3", g3);
      ("_dP", dP_); ("_dP2", dP2_); ("_dP3", dP3_)] -> o name = Some (VArr (tab m f))) /\
  (forall name f, In (name, f) [("_P_normed", pt (st "P")); ("_dP_normed", dP_); ("_dP2_normed", dP2_); ("_dP3_normed", dP3_)] ->
      o name = Some (VArr (tab m (fun i => f i / amax (kept (st "P"))))%R)) /\
  (forall name f, In (name, f) [("_rho_normed", pt (st "rho")); ("_drho_normed", drho_); ("_drho2_normed", drho2_); ("_drho3_normed", drho3_)] ->
      o name = Some (VArr (tab m (fun i => f i / amax (kept (st "rho"))))%R)) /\
  (let r := tab m (fun i => pt x1 i * Rs)%R in
   (forall i, g i = dgravpot G (pt (st "M_r") i) (pt x1 i * Rs)%R) /\
   der1 der r (tab m drho_) = Ok (tab m drho2_) /\ der1 der r (tab m drho2_) = Ok (tab m drho3_) /\
   (sym = false \/ brunt = false -> der1 der r (tab m (pt (st "rho"))) = Ok (tab m drho_)) /\
   (sym = true -> brunt = true -> forall i, (i < m)%nat -> drho_ i = drho (pt (st "rho") i) (g i) (pt (st "Gamma_1") i) (pt (st "P") i) (nth (S i) (on_grid false x1 rad N2) 0%R)) /\
   (sym = true -> forall i, g2 i = dgravpot2 G (pt (st "rho") i) (g i) (pt x1 i * Rs)%R /\ g3 i = dgravpot3 G (drho_ i) (g i) (g2 i) (pt x1 i * Rs)%R /\
     dP_ i = dP (pt (st "rho") i) (g i) /\ dP2_ i = dP2 (pt (st "rho") i) (drho_ i) (g i) (g2 i) /\
     dP3_ i = dP3 (pt (st "rho") i) (drho_ i) (drho2_ i) (g i) (g2 i) (g3 i)) /\
   (sym = false -> der1 der r (tab m g) = Ok (tab m g2) /\ der1 der r (tab m g2) = Ok (tab m g3) /\
     der1 der r (tab m (pt (st "P"))) = Ok (tab m dP_) /\ der1 der r (tab m dP_) = Ok (tab m dP2_) /\ der1 der r (tab m dP2_) = Ok (tab m dP3_))).
Proof.
  destruct (modes_ok mesa_common d1 d2 d3 x1 x2 x3 (mi_1 _ _ _ _ _ _ _ _ _ _ _ _ _ I) (mi_2 _ _ _ _ _ _ _ _ _ _ _ _ _ I) (mi_3 _ _ _ _ _ _ _ _ _ _ _ _ _ I)) as (o1 & E1 & X1 & M1 & C1 & _).
  rewrite longest_first in X1, M1. unfold build_mesa. rewrite E1. cbn [bind].
  destruct (profile_mesa_ok prof rad x1 o1 (mi_prof _ _ _ _ _ _ _ _ _ _ _ _ _ I) X1) as (o2 & E2 & P2 & U2). rewrite E2. cbn [bind].
  (* structure data of o2 *)
  assert (C2 : forall a, In a ["M_r"; "rho"; "P"; "Gamma_1"; "c_1"; "V_2"; "As"; "U"; "R_star"] -> o2 ("_" ++ a) = Some (match dget a d1 with Some v => v | None => VNone end)).
  { intros a Ha. assert (Hc : In a mesa_common) by (apply has_iff; cbn in Ha; repeat (destruct Ha as [<-|Ha]; [reflexivity|]); destruct Ha).
    destruct (plain_common a Hc) as [(A & B & D)|E]; [|exfalso; subst a; cbn in Ha; repeat (destruct Ha as [Ha|Ha]; [discriminate|]); destruct Ha].
    rewrite U2; [apply C1; assumption| |exact D]. intros k v HI HS E. cbn in E. injection E as ->.
    destruct (po_scalars _ _ _ (mi_prof _ _ _ _ _ _ _ _ _ _ _ _ _ I) k v HI HS) as (_ & _ & F). apply F. cbn in Ha |- *. tauto. }
  assert (S2 : forall k, In k structure_names -> o2 ("_" ++ k) = Some (VArr (st k))).
  { intros k Hk. rewrite C2 by (cbn in Hk |- *; tauto). destruct (mi_st _ _ _ _ _ _ _ _ _ _ _ _ _ I k Hk) as [-> _]. reflexivity. }
  assert (L2 : forall k, In k structure_names -> List.length (st k) = n) by (intros k Hk; apply (mi_st _ _ _ _ _ _ _ _ _ _ _ _ _ I k Hk)).
  assert (R2 : o2 "_R_star" = Some (VNum Rs)).
  { change "_R_star" with ("_" ++ "R_star"). rewrite C2 by (cbn; tauto). rewrite (mi_R _ _ _ _ _ _ _ _ _ _ _ _ _ I). reflexivity. }
  assert (X2 : o2 "_x" = Some (VArr x1)).
  { rewrite U2; [exact X1| |apply not_prof; reflexivity]. intros k v HI HS E. cbn in E. injection E as <-.
    destruct (po_scalars _ _ _ (mi_prof _ _ _ _ _ _ _ _ _ _ _ _ _ I) "x" v HI HS) as (_ & _ & F). apply F. cbn. tauto. }
  assert (M2 : forall i d xp k v, In (i, d, xp) [(1%nat, d1, x1); (2%nat, d2, x2); (3%nat, d3, x3)] -> dget k d = Some v -> In k mode_functions ->
     o2 (mode_attr k i) = Some (resample x1 xp v)).
  { intros i d xp k v H1 H2 H3. rewrite U2; [eapply M1; eassumption| |apply mode_not_prof]. intros q w HI HS. eapply scalar_not_mode; eassumption. }
  assert (B2 : o2 "_brunt_N2_profile" = Some (VArr (on_grid false x1 rad N2))) by (apply (P2 "brunt_N2"), (mi_N2 _ _ _ _ _ _ _ _ _ _ _ _ _ I)).
  assert (A2 : o2 "_gamma_1_adDer_profile" = Some (VArr (on_grid false x1 rad ad))) by (apply (P2 "gamma_1_adDer"), (mi_ad _ _ _ _ _ _ _ _ _ _ _ _ _ I)).
  pose proof (mi_first _ _ _ _ _ _ _ _ _ _ _ _ _ I) as Hn.
  assert (LB : List.length (on_grid false x1 rad N2) = n /\ List.length (on_grid false x1 rad ad) = n).
  { assert (Q : forall k a, dget k prof = Some (VArr a) -> List.length (on_grid false x1 rad a) = n).
    { intros k a Hk. apply dget_in in Hk. destruct (po_cols _ _ _ (mi_prof _ _ _ _ _ _ _ _ _ _ _ _ _ I) k (VArr a) Hk eq_refl) as (a' & E & L).
      injection E as <-. unfold on_grid. destruct (Nat.eqb_spec (List.length rad) n); [rewrite rev_length; lia|rewrite map_length; reflexivity]. }
    split; eapply Q; [apply (mi_N2 _ _ _ _ _ _ _ _ _ _ _ _ _ I)|apply (mi_ad _ _ _ _ _ _ _ _ _ _ _ _ _ I)]. }
  (* normalisation *)
  assert (NZ : forall k, In k structure_names -> np_max (norm_slice true true (st k)) = Ok (amax (kept (st k)))).
  { intros k Hk. change (norm_slice true true (st k)) with (kept (st k)). unfold np_max. pose proof (kept_length (st k)) as L. rewrite (L2 k Hk) in L.
    destruct (kept (st k)); [cbn in L; lia|reflexivity]. }
  unfold oget at 1 2. change "_P" with ("_" ++ "P"). change "_rho" with ("_" ++ "rho"). rewrite (S2 "P") by (cbn; tauto). rewrite (S2 "rho") by (cbn; tauto). cbn [bind].
  unfold set_normalization, norm_factor. rewrite (NZ "P") by (cbn; tauto). rewrite (NZ "rho") by (cbn; tauto). cbn [bind].
  unfold dread at 1. rewrite (mi_G _ _ _ _ _ _ _ _ _ _ _ _ _ I). cbn [bind].
  set (nP := amax (kept (st "P"))). set (nr := amax (kept (st "rho"))).
  set (o3 := oset (oset (oset o2 "_norm_P" (VNum nP)) "_norm_rho" (VNum nr)) "_G" (VNum G)).
  assert (K3 : forall name, name <> "_norm_P" -> name <> "_norm_rho" -> name <> "_G" -> o3 name = o2 name).
  { intros name Q1 Q2 Q3. unfold o3. rewrite !oset_other by assumption. reflexivity. }
  (* cuts before the profiles *)
  unfold profiles_mesa, pre_profile_cuts.
  destruct (cut2_one "pre_profile_load_cuts" false ["_x"; "_M_r"; "_rho"; "_P"; "_Gamma_1"; "_brunt_N2_profile"] o3 eq_refl) as (o4 & E4 & A4).
  { apply nodupb_ok. reflexivity. }
  { assert (Q : forall k, In k ["M_r"; "rho"; "P"; "Gamma_1"] -> exists v, o3 ("_" ++ k) = Some v /\ samples v <> None).
    { intros k Hk. exists (VArr (st k)). split; [|discriminate]. rewrite K3; [apply S2; cbn in Hk |- *; tauto| | |]; cbn in Hk; repeat (destruct Hk as [<-|Hk]; [discriminate|]); destruct Hk. }
    intros c Hc. cbn in Hc. destruct Hc as [<-|[<-|[<-|[<-|[<-|[<-|[]]]]]]].
    - eexists. split; [exact X2|discriminate].
    - apply (Q "M_r"). cbn; tauto.
    - apply (Q "rho"). cbn; tauto.
    - apply (Q "P"). cbn; tauto.
    - apply (Q "Gamma_1"). cbn; tauto.
    - eexists. split; [exact B2|discriminate]. }
  rewrite E4. cbn [bind].
  assert (S4 : forall k, In k ["M_r"; "rho"; "P"; "Gamma_1"] -> o4 ("_" ++ k) = Some (VArr (tab m (pt (st k))))).
  { intros k Hk. rewrite A4, K3; [rewrite S2 by (cbn in Hk |- *; tauto)| | |];
      [|cbn in Hk; repeat (destruct Hk as [<-|Hk]; [discriminate|]); destruct Hk ..].
    assert (HH : has ("_" ++ k) ["_x"; "_M_r"; "_rho"; "_P"; "_Gamma_1"; "_brunt_N2_profile"] = true) by (cbn in Hk; repeat (destruct Hk as [<-|Hk]; [reflexivity|]); destruct Hk).
    rewrite HH. cbn [option_map]. rewrite <- (kept_tab (st k) 0%R n) by (apply L2; cbn in Hk |- *; tauto). reflexivity. }
  assert (X4 : o4 "_x" = Some (VArr (tab m (pt x1)))).
  { rewrite A4, K3 by discriminate. rewrite X2. cbn [has existsb String.eqb Ascii.eqb Bool.eqb orb option_map]. rewrite <- (kept_tab x1 0%R n eq_refl). reflexivity. }
  assert (B4 : o4 "_brunt_N2_profile" = Some (VArr (tab m (pt (on_grid false x1 rad N2))))).
  { rewrite A4, K3 by discriminate. rewrite B2. cbn [has existsb String.eqb Ascii.eqb Bool.eqb orb option_map]. rewrite <- (kept_tab _ 0%R n (proj1 LB)). reflexivity. }
  assert (R4 : o4 "_R_star" = Some (VNum Rs)) by (rewrite A4, K3 by discriminate; exact R2).
  assert (G4 : o4 "_G" = Some (VNum G)) by (rewrite A4; reflexivity).
  rewrite (oarr_arr _ _ _ X4), (oarr_num _ _ _ R4). cbn [bind]. unfold vmul at 1. rewrite bcast_right. cbn [bind].
  rewrite (oarr_num _ _ _ G4). cbn [bind].
  rewrite (oarr_arr o4 "_M_r" _ (S4 "M_r" ltac:(cbn; tauto))). cbn [bind]. unfold vmul at 1. rewrite bcast_left. cbn [bind].
  unfold vmul at 1. rewrite bcast_tab. cbn [bind]. unfold vdiv at 1. rewrite bcast_tab. cbn [bind].
  change ("_" ++ "P") with "_P". change ("_" ++ "rho") with "_rho".
  rewrite (oarr_arr o4 "_rho" _ (S4 "rho" ltac:(cbn; tauto))). cbn [bind]. rewrite (oarr_arr o4 "_P" _ (S4 "P" ltac:(cbn; tauto))). cbn [bind].
  rewrite (oarr_arr o4 "_Gamma_1" _ (S4 "Gamma_1" ltac:(cbn; tauto))). cbn [bind]. rewrite (oarr_arr _ _ _ B4). cbn [bind].
  destruct (structure_derivs_ok der m Hder sym brunt (fun i => pt x1 i * Rs)%R G G (fun i => G * pt (st "M_r") i / (pt x1 i * Rs * (pt x1 i * Rs)))%R (pt (st "rho")) (pt (st "P")) (pt (st "Gamma_1"))
    (pt (on_grid false x1 rad N2)) (Ok (tab m (pt (st "rho")))) (fun _ _ => eq_refl)) as (drho_ & drho2_ & drho3_ & g2 & g3 & dP_ & dP2_ & dP3_ & ED & F1 & F2 & F3 & F4 & F5 & F6).
  rewrite ED. cbn [bind].
  destruct (normed_ok m (pt (st "P")) (pt (st "rho")) (fun i => G * pt (st "M_r") i / (pt x1 i * Rs * (pt x1 i * Rs)))%R drho_ drho2_ drho3_ g2 g3 dP_ dP2_ dP3_ nP nr o4) as (o5 & E5 & U5 & D5 & Q5 & W5).
  { rewrite A4. reflexivity. } { rewrite A4. reflexivity. }
  rewrite E5. cbn [bind].
  (* final cuts *)
  assert (K5 : forall name, ~ In name derived -> name <> "_norm_P" -> name <> "_norm_rho" -> name <> "_G" ->
     has name ["_x"; "_M_r"; "_rho"; "_P"; "_Gamma_1"; "_brunt_N2_profile"] = false -> o5 name = o2 name).
  { intros name N1 N2' N3 N4 N5. rewrite U5 by exact N1. rewrite A4, N5. apply K3; assumption. }
  assert (NM : forall q, endsb "_mode_1" q = true \/ endsb "_mode_2" q = true \/ endsb "_mode_3" q = true -> 
     ~ In q derived /\ q <> "_norm_P" /\ q <> "_norm_rho" /\ q <> "_G" /\ has q ["_x"; "_M_r"; "_rho"; "_P"; "_Gamma_1"; "_brunt_N2_profile"] = false).
  { intros q Hq. assert (FN : forall s, endsb "_mode_1" s = false -> endsb "_mode_2" s = false -> endsb "_mode_3" s = false -> q <> s).
    { intros s Z1 Z2 Z3 ->. rewrite Z1, Z2, Z3 in Hq. destruct Hq as [Hq|[Hq|Hq]]; discriminate. }
    split; [|split; [|split; [|split]]]; try (apply FN; reflexivity).
    - intros Hd. unfold derived in Hd. cbn [In] in Hd. repeat (destruct Hd as [Hd|Hd]; [revert Hd; apply not_eq_sym, FN; reflexivity|]). destruct Hd.
    - apply has_false. intros Hd. cbn [In] in Hd. repeat (destruct Hd as [Hd|Hd]; [revert Hd; apply not_eq_sym, FN; reflexivity|]). destruct Hd. }
  assert (M5 : forall i d xp k v, In (i, d, xp) [(1%nat, d1, x1); (2%nat, d2, x2); (3%nat, d3, x3)] -> dget k d = Some v -> In k mode_functions ->
     o5 (mode_attr k i) = Some (resample x1 xp v)).
  { intros i d xp k v H1 H2 H3. destruct (NM (mode_attr k i)) as (Z1 & Z2 & Z3 & Z4 & Z5).
    { pose proof (mode_attr_ends k i) as Z. destruct i as [|[|[|]]]; auto. }
    rewrite K5 by assumption. eapply M2; eassumption. }
  assert (RS : forall i d xp k, In (i, d, xp) [(1%nat, d1, x1); (2%nat, d2, x2); (3%nat, d3, x3)] -> In k mesa_functions ->
     exists v, o5 (mode_attr k i) = Some v /\ samples v <> None).
  { intros i d xp k H1 H2. assert (Hd : In d [d1; d2; d3]) by (cbn in H1 |- *; destruct H1 as [E|[E|[E|[]]]]; injection E as _ <- _; tauto).
    destruct (mi_funs _ _ _ _ _ _ _ _ _ _ _ _ _ I d k Hd H2) as (v & Hv). exists (resample x1 xp v).
    assert (H3 : In k mode_functions) by (cbn in H2 |- *; tauto). split; [eapply M5; eassumption|].
    assert (MO : mode_ok d xp) by (cbn in H1; destruct H1 as [E|[E|[E|[]]]]; injection E as _ <- <-; apply I).
    destruct (mo_funs _ _ MO k v (dget_in _ _ _ Hv) H3) as (s & Hs & _). destruct v; try discriminate. }
  unfold mode_structure_cuts.
  destruct (cut2_two "mesa_gyre_cuts" "structure_coefficient_cuts" false _ _ o5 eq_refl eq_refl) as (o6 & E6 & A6).
  { apply nodupb_ok. vm_compute. reflexivity. }
  { assert (Q : forall k, In k ["c_1"; "V_2"; "As"; "U"] -> exists v, o5 ("_" ++ k) = Some v /\ samples v <> None).
    { intros k Hk. exists (VArr (st k)). split; [|discriminate].
      rewrite K5; [apply S2; cbn in Hk |- *; tauto|..]; cbn in Hk; repeat (destruct Hk as [<-|Hk]; [first [discriminate|reflexivity|intros Z; apply has_iff in Z; discriminate]|]); destruct Hk. }
    intros c Hc. cbn [app In] in Hc.
    repeat (destruct Hc as [<-|Hc];
      [first [ apply (RS 1%nat d1 x1 "deul_phi"); cbn; tauto | apply (RS 2%nat d2 x2 "deul_phi"); cbn; tauto | apply (RS 3%nat d3 x3 "deul_phi"); cbn; tauto
       | apply (RS 1%nat d1 x1 "eul_phi"); cbn; tauto | apply (RS 2%nat d2 x2 "eul_phi"); cbn; tauto | apply (RS 3%nat d3 x3 "eul_phi"); cbn; tauto
       | apply (RS 1%nat d1 x1 "xi_h"); cbn; tauto | apply (RS 2%nat d2 x2 "xi_h"); cbn; tauto | apply (RS 3%nat d3 x3 "xi_h"); cbn; tauto
       | apply (RS 1%nat d1 x1 "xi_r"); cbn; tauto | apply (RS 2%nat d2 x2 "xi_r"); cbn; tauto | apply (RS 3%nat d3 x3 "xi_r"); cbn; tauto
       | apply (RS 1%nat d1 x1 "y_1"); cbn; tauto | apply (RS 2%nat d2 x2 "y_1"); cbn; tauto | apply (RS 3%nat d3 x3 "y_1"); cbn; tauto
       | apply (RS 1%nat d1 x1 "y_2"); cbn; tauto | apply (RS 2%nat d2 x2 "y_2"); cbn; tauto | apply (RS 3%nat d3 x3 "y_2"); cbn; tauto
       | apply (Q "c_1"); cbn; tauto | apply (Q "V_2"); cbn; tauto | apply (Q "As"); cbn; tauto | apply (Q "U"); cbn; tauto
       | exists (VArr (on_grid false x1 rad ad)); split; [rewrite K5; [exact A2|intros Z; apply has_iff in Z; discriminate|discriminate..|reflexivity]|discriminate] ]|]).
    destruct Hc. }
  rewrite E6. exists o6, (fun i => G * pt (st "M_r") i / (pt x1 i * Rs * (pt x1 i * Rs)))%R, drho_, drho2_, drho3_, g2, g3, dP_, dP2_, dP3_.
  split; [reflexivity|].
  assert (U6 : forall name, has name ["_deul_phi_mode_1"; "_deul_phi_mode_2"; "_deul_phi_mode_3"; "_eul_phi_mode_1"; "_eul_phi_mode_2";
      "_eul_phi_mode_3"; "_xi_h_mode_1"; "_xi_h_mode_2"; "_xi_h_mode_3"; "_xi_r_mode_1"; "_xi_r_mode_2"; "_xi_r_mode_3";
      "_y_1_mode_1"; "_y_1_mode_2"; "_gamma_1_adDer_profile"; "_y_1_mode_3"; "_y_2_mode_1"; "_y_2_mode_2"; "_y_2_mode_3"; "_c_1"; "_V_2"; "_As"; "_U"] = false -> o6 name = o5 name).
  { intros name Hh. rewrite A6. cbn [app]. rewrite Hh. reflexivity. }
  assert (KT : forall l, List.length l = n -> tab m (pt l) = kept l) by (intros; symmetry; apply kept_tab; assumption).
  split. { rewrite U6 by reflexivity. rewrite U5 by (intros Z; apply has_iff in Z; discriminate). rewrite X4, KT by reflexivity. reflexivity. }
  split.
  { intros k Hk. assert (Hk' : In k ["M_r"; "rho"; "P"; "Gamma_1"] \/ In k ["c_1"; "V_2"; "As"; "U"]) by (cbn in Hk |- *; tauto).
    destruct Hk' as [H|H].
    - rewrite U6 by (cbn in H; repeat (destruct H as [<-|H]; [reflexivity|]); destruct H).
      rewrite U5 by (cbn in H; repeat (destruct H as [<-|H]; [intros Z; apply has_iff in Z; discriminate|]); destruct H).
      rewrite S4 by exact H. rewrite KT by (apply L2; exact Hk). reflexivity.
    - rewrite A6. assert (HH : o5 ("_" ++ k) = Some (VArr (st k))).
      { rewrite K5; [apply S2; exact Hk|..]; cbn in H; repeat (destruct H as [<-|H]; [first [discriminate|reflexivity|intros Z; apply has_iff in Z; discriminate]|]); destruct H. }
      rewrite HH. cbn in H. repeat (destruct H as [<-|H]; [reflexivity|]). destruct H. }
  split.
  { intros i d xp k v H1 H2 H3. rewrite A6, (M5 i d xp k v H1 H2 H3).
    assert (HI : i = 1%nat \/ i = 2%nat \/ i = 3%nat) by (cbn in H1; destruct H1 as [E|[E|[E|[]]]]; injection E as <- _ _; auto).
    clear H1 H2. unfold mode_functions in H3. cbn [In] in H3.
    repeat (destruct H3 as [<-|H3]; [destruct HI as [-> | [-> | ->]]; reflexivity|]). destruct H3. }
  split. { rewrite U6 by reflexivity. rewrite U5 by (intros Z; apply has_iff in Z; discriminate). rewrite B4, KT by apply LB. reflexivity. }
  split. { rewrite A6. rewrite K5; [rewrite A2; reflexivity|intros Z; apply has_iff in Z; discriminate|discriminate..|reflexivity]. }
  split. { rewrite U6 by reflexivity. rewrite U5 by (intros Z; apply has_iff in Z; discriminate). rewrite A4. reflexivity. }
  split. { rewrite U6 by reflexivity. rewrite U5 by (intros Z; apply has_iff in Z; discriminate). rewrite A4. reflexivity. }
  split. { intros name f H. rewrite U6; [apply D5; exact H|]. repeat (destruct H as [H|H]; [injection H as <- _; reflexivity|]). destruct H. }
  split. { intros name f H. rewrite U6; [apply Q5; exact H|]. repeat (destruct H as [H|H]; [injection H as <- _; reflexivity|]). destruct H. }
  split. { intros name f H. rewrite U6; [apply W5; exact H|]. repeat (destruct H as [H|H]; [injection H as <- _; reflexivity|]). destruct H. }
  cbv zeta. split. { intros i. unfold dgravpot. replace (pt x1 i * Rs * (pt x1 i * Rs))%R with ((pt x1 i * Rs) ^ 2)%R by ring. reflexivity. }
  split; [exact F1|]. split; [exact F2|]. split; [exact F3|]. split; [intros Z1 Z2 i _; apply F4; assumption|]. split; [exact F5|exact F6].
Qed.
End Mesa.
