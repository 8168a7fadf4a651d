(** * The debug information of the MESA + GYRE object *)
From Coq Require Import List ZArith Lia Reals Lra String Ascii Bool.
From Coquelicot Require Import Complex.
From Verif Require Import Base Py NumDeriv_Model Load_Model Load_Spec Load_Proofs Grid_Model Grid_Spec Grid_Proofs Grid_Interp Grid_Build Grid_Mesa Grid_Final
  Debug_Model Debug_Spec Debug_Proofs Debug_Entries.
Import ListNotations.
Local Open Scope string_scope.

Lemma dbuild_mesa_inv der sym brunt d1 d2 d3 prof o' : dbuild_mesa der true sym brunt d1 d2 d3 prof = Ok o' ->
  exists o0 o1 o2 P rho o3 G o4, dextracted true mesa_common d1 d2 d3 = Ok o0 /\ dinterpolation_modes true [d1; d2; d3] o0 = Ok o1 /\
    extract_profile false prof o1 = Ok o2 /\ set_normalization true true P rho o2 = Ok o3 /\
    dprofiles_mesa der true true true sym brunt (oset o3 "_G" G) = Ok o4 /\ mode_structure_cuts true true false o4 = Ok o'.
Proof.
  intros H. unfold dbuild_mesa in H. inv1 H. inv1 H. inv1 H. inv1 H. inv1 H. inv1 H. inv1 H. inv1 H.
  eexists _, _, _, _, _, _, _, _. repeat (split; [first [reflexivity|eassumption]|]). exact H.
Qed.
Lemma entry_debug q : debug_attr (q ++ "_max_min").
Proof. exists (q ++ "_"), "". rewrite (sapp_assoc q "_"). reflexivity. Qed.
Lemma normed_debug q : debug_attr (q ++ "_max_min_normed").
Proof. exists (q ++ "_"), "_normed". rewrite (sapp_assoc q "_"). reflexivity. Qed.
(** what happens to an entry after the interpolation *)
Lemma after_interp der sym brunt prof o1 o2 P rho o3 G o4 o' k v : no_debug_keys prof -> debug_attr k ->
  (forall q, In q mesa_noted -> k <> q ++ "_max_min") -> (forall q, In q mesa_noted_normed -> k <> q ++ "_max_min_normed") ->
  extract_profile false prof o1 = Ok o2 -> set_normalization true true P rho o2 = Ok o3 ->
  dprofiles_mesa der true true true sym brunt (oset o3 "_G" G) = Ok o4 -> mode_structure_cuts true true false o4 = Ok o' ->
  o1 k = Some v -> o' k = Some v.
Proof.
  intros N D N1 N2 E2 E3 E4 E5 H. rewrite (mode_cuts_keep _ _ _ k _ _ D E5).
  destruct (dprofiles_mesa_entries _ _ _ _ _ _ _ E4) as (p & EP & _ & _ & _ & HK & _). apply HK; [|exact N1|exact N2].
  rewrite (profiles_mesa_keep _ _ _ _ _ k _ _ D EP). rewrite oset_keep; [|exact D|apply not_debug; vm_compute; reflexivity].
  rewrite (set_normalization_keep _ _ _ _ k _ _ D E3). rewrite (extract_profile_keep _ _ k _ _ N D E2). exact H.
Qed.
Lemma after_interp_none der sym brunt prof o1 o2 P rho o3 G o4 o' k : no_debug_keys prof -> debug_attr k ->
  (forall q, In q mesa_noted -> k <> q ++ "_max_min") -> (forall q, In q mesa_noted_normed -> k <> q ++ "_max_min_normed") -> ~ In k structure_debug ->
  extract_profile false prof o1 = Ok o2 -> set_normalization true true P rho o2 = Ok o3 ->
  dprofiles_mesa der true true true sym brunt (oset o3 "_G" G) = Ok o4 -> mode_structure_cuts true true false o4 = Ok o' ->
  o' k = o1 k.
Proof.
  intros N D N1 N2 N3 E2 E3 E4 E5. rewrite (mode_cuts_keep _ _ _ k _ _ D E5).
  destruct (dprofiles_mesa_entries _ _ _ _ _ _ _ E4) as (p & EP & _ & _ & HK & _). rewrite (HK k N1 N2 N3).
  rewrite (profiles_mesa_keep _ _ _ _ _ k _ _ D EP). rewrite oset_keep; [|exact D|apply not_debug; vm_compute; reflexivity].
  rewrite (set_normalization_keep _ _ _ _ k _ _ D E3). apply (extract_profile_keep _ _ k _ _ N D E2).
Qed.

(** ** entries of the structure data of the first mode *)
Lemma common_clean a : In a mesa_common -> ~ debug_attr ("_" ++ a).
Proof. intros H. apply not_debug. revert a H. assert (H := proj1 (forallb_forall (fun a => negb (is_in "max_min" ("_" ++ a))) mesa_common) eq_refl). intros a Ha. apply negb_true_iff, H, Ha. Qed.
Lemma us_inj (a b : string) : "_" ++ a = "_" ++ b -> a = b. Proof. cbn. intros H. injection H as H. exact H. Qed.
Lemma dextract_common_entry (d : gdict) : forall common o o' a v l, (forall b, In b common -> ~ debug_attr ("_" ++ b)) -> NoDup common ->
  dextract_common true common d o = Ok o' -> In a common -> has a ["Delta_p"; "Delta_g"] = false -> dget a d = Some v -> arr v = Some l ->
  exists m, summary l = Ok m /\ o' (("_" ++ a) ++ "_max_min") = Some m.
Proof.
  induction common as [|b common IH]; intros o o' a v l NC ND H Ha NE Ev Hl; [destruct Ha|]. unfold dextract_common in H. cbn [foldM] in H. inv1 H. rename a0 into o1.
  inversion ND as [|? ? N1 N2]; subst. destruct Ha as [->|Ha]; [|eapply IH; [intros; apply NC; right; assumption|exact N2|exact H|exact Ha|exact NE|exact Ev|exact Hl]].
  rewrite NE in E. cbn [negb andb] in E.
  destruct (note_entry _ _ _ _ _ ("_" ++ a) v l E) as (m & S1 & S2); [intros c [<-|[]]; apply NC; left; reflexivity|left; reflexivity| |exact Hl|].
  { rewrite oset_same, Ev. reflexivity. }
  exists m. split; [exact S1|]. change (debug_name ("_" ++ a) false false) with (("_" ++ a) ++ "_max_min") in S2. rewrite <- S2.
  revert H. apply foldM_keep. intros b s s' Hb E1.
  destruct (negb (has b ["Delta_p"; "Delta_g"])); cbn [andb] in E1.
  - rewrite (note_frame _ _ _ _ _ _ E1).
    + apply oset_keep; [|apply NC; right; exact Hb]. apply entry_debug.
    + intros c [<-|[]] Q. change (debug_name ("_" ++ b) false false) with (("_" ++ b) ++ "_max_min") in Q. apply app_inj_tail_s, us_inj in Q. subst. contradiction.
  - cbn [note] in E1. injection E1 as <-. apply oset_keep; [|apply NC; right; exact Hb]. apply entry_debug.
Qed.
Lemma mode_ends_digit k i : exists c, In c ["1"; "2"; "3"]%char /\ endsb (String c "") (mode_attr k i) = true.
Proof.
  destruct i as [|[|[|]]]; [exists "3"%char|exists "1"%char|exists "2"%char|exists "3"%char]; (split; [cbn; tauto|]); rewrite mode_attr_eq; cbn [mode_no];
    [exact (ends_char ("_" ++ k) "_mode_" "3")|exact (ends_char ("_" ++ k) "_mode_" "1")|exact (ends_char ("_" ++ k) "_mode_" "2")|exact (ends_char ("_" ++ k) "_mode_" "3")].
Qed.
Lemma mode_not_entry k i a : mode_attr k i <> a ++ "_max_min".
Proof.
  intros E. destruct (mode_ends_digit k i) as (c & Hc & H). rewrite E in H. pose proof (ends_char a "_max_mi" "n") as H2.
  change (endsb "n" (a ++ "_max_min") = true) in H2. pose proof (endsb_last_char "" _ c "n" H H2) as Q. rewrite Q in Hc. cbn in Hc. repeat destruct Hc as [Hc|Hc]; try discriminate; destruct Hc.
Qed.
(** steps of the modes keep the entries of other attributes *)
Lemma dextract_mode_keep common i d o o' a : (forall k, a <> mode_attr k i) -> dextract_mode true common i d o = Ok o' -> o' (a ++ "_max_min") = o (a ++ "_max_min").
Proof.
  intros N. unfold dextract_mode. apply foldM_keep. intros [k v] s s' _ E. cbn [fst snd] in E. destruct (has k common); [injection E as <-; reflexivity|].
  rewrite (note_frame _ _ _ _ _ _ E).
  - apply oset_other. intros Q. symmetry in Q. revert Q. apply mode_not_entry.
  - intros c [<-|[]] Q. change (debug_name (mode_attr k i) false false) with (mode_attr k i ++ "_max_min") in Q. apply app_inj_tail_s in Q. exact (N k Q).
Qed.
Lemma dinterpolator_keep i d x o o' a : (forall k, a <> mode_attr k i) -> dinterpolator true i d x o = Ok o' -> o' (a ++ "_max_min") = o (a ++ "_max_min").
Proof.
  intros N H. unfold dinterpolator in H. inv1 H. rename a0 into o1. rewrite (note_frame _ _ _ _ _ _ H).
  - unfold interpolator in E. transitivity (oset o "_x" x (a ++ "_max_min")).
    + revert E. apply foldM_keep. intros [k v] s s' _ E1. cbn [fst snd] in E1. destruct (has k to_interpolate); [|injection E1 as <-; reflexivity].
      inv1 E1. inv1 E1. injection E1 as <-. apply oset_other. intros Q. symmetry in Q. revert Q. apply mode_not_entry.
    + apply oset_other. intros Q. pose proof (ends_char a "_max_mi" "n") as H2. change (endsb "n" (a ++ "_max_min") = true) in H2. rewrite Q in H2. discriminate.
  - intros c Hc Q. apply in_map_iff in Hc. destruct Hc as (k & <- & _). change (debug_name (mode_attr k i) false false) with (mode_attr k i ++ "_max_min") in Q.
    apply app_inj_tail_s in Q. exact (N k Q).
Qed.
Lemma dinterpolation_inv d1 d2 d3 o o' : dinterpolation_modes true [d1; d2; d3] o = Ok o' ->
  exists x p1 p2, dinterpolator true 1 d1 x o = Ok p1 /\ dinterpolator true 2 d2 x p1 = Ok p2 /\ dinterpolator true 3 d3 x p2 = Ok o'.
Proof.
  intros H. unfold dinterpolation_modes in H. inv1 H. inv1 H. cbn [List.length seq combine foldM fst snd] in H. inv1 H. inv1 H. inv1 H. injection H as <-.
  eexists _, _, _. repeat (split; [first [eassumption|reflexivity]|]). first [eassumption|reflexivity].
Qed.
Lemma common_not_mode a : In a mesa_common -> forall k i, "_" ++ a <> mode_attr k i.
Proof.
  intros H k i. apply not_mode. revert a H.
  assert (H := proj1 (forallb_forall (fun a => negb (endsb "_mode_1" ("_" ++ a)) && negb (endsb "_mode_2" ("_" ++ a)) && negb (endsb "_mode_3" ("_" ++ a))) mesa_common) eq_refl).
  intros a Ha. specialize (H a Ha). apply andb_prop in H. destruct H as [H H3]. apply andb_prop in H. destruct H as [H1 H2]. apply negb_true_iff in H1, H2, H3.
  destruct i as [|[|[|]]]; assumption.
Qed.
Lemma noted_us q : In q mesa_noted -> In q (map (fun a => "_" ++ a) ["rho"; "P"; "drho"; "drho2"; "drho3"; "dgravpot"; "dgravpot2"; "dgravpot3"; "dP"; "dP2"; "dP3"]).
Proof. unfold mesa_noted. intros H. inl; subst q; cbn; tauto. Qed.
Theorem mesa_first_entry der sym brunt d1 d2 d3 prof o' a v l : dbuild_mesa der true sym brunt d1 d2 d3 prof = Ok o' -> no_debug_keys prof ->
  In a mesa_common -> ~ In a ["Delta_p"; "Delta_g"; "rho"; "P"] -> dget a d1 = Some v -> arr v = Some l ->
  exists m, summary l = Ok m /\ o' (("_" ++ a) ++ "_max_min") = Some m.
Proof.
  intros H N Ha NE Ev Hl. destruct (dbuild_mesa_inv _ _ _ _ _ _ _ _ H) as (o0 & o1 & o2 & P & rho & o3 & G & o4 & E0 & E1 & E2 & E3 & E4 & E5).
  unfold dextracted in E0. inv1 E0. rename a0 into q0. inv1 E0. rename a0 into q1. inv1 E0. rename a0 into q2.
  destruct (dextract_common_entry d1 mesa_common empty_obj q0 a v l common_clean) as (m & S1 & S2); [apply nodupb_ok; vm_compute; reflexivity|exact E|exact Ha| |exact Ev|exact Hl|].
  { apply has_false. intros Q. apply NE. inl; subst a; cbn; tauto. }
  exists m. split; [exact S1|]. destruct (dinterpolation_inv _ _ _ _ _ E1) as (x & p1 & p2 & I1 & I2 & I3).
  eapply after_interp; [exact N| | | |exact E2|exact E3|exact E4|exact E5|].
  - apply entry_debug.
  - intros q Hq Q. apply app_inj_tail_s in Q. subst q. apply noted_us, in_map_iff in Hq. destruct Hq as (b & Hb & Hi). apply us_inj in Hb. subst b. revert Ha.
    apply has_false. inl; subst a; try (vm_compute; reflexivity); exfalso; apply NE; cbn; tauto.
  - intros q _. apply suffix_ne.
  - rewrite (dinterpolator_keep _ _ _ _ _ _ (fun k => common_not_mode a Ha k 3) I3), (dinterpolator_keep _ _ _ _ _ _ (fun k => common_not_mode a Ha k 2) I2),
      (dinterpolator_keep _ _ _ _ _ _ (fun k => common_not_mode a Ha k 1) I1).
    rewrite (dextract_mode_keep _ _ _ _ _ _ (fun k => common_not_mode a Ha k 3) E0), (dextract_mode_keep _ _ _ _ _ _ (fun k => common_not_mode a Ha k 2) E7),
      (dextract_mode_keep _ _ _ _ _ _ (fun k => common_not_mode a Ha k 1) E6). exact S2.
Qed.
Theorem mesa_structure_entry der sym brunt d1 d2 d3 prof o' q a : dbuild_mesa der true sym brunt d1 d2 d3 prof = Ok o' ->
  In q mesa_noted -> o' q = Some (VArr a) -> exists m, summary (map RtoC a) = Ok m /\ o' (q ++ "_max_min") = Some m /\
    (In q mesa_noted_normed -> o' (q ++ "_max_min_normed") = Some m).
Proof.
  intros H Hq Ev. destruct (dbuild_mesa_inv _ _ _ _ _ _ _ _ H) as (o0 & o1 & o2 & P & rho & o3 & G & o4 & E0 & E1 & E2 & E3 & E4 & E5).
  destruct (dprofiles_mesa_entries _ _ _ _ _ _ _ E4) as (p & EP & AG & HE & _).
  assert (F : o' q = o4 q) by (apply (mode_cuts_frame _ _ _ _ _ _ E5); (unfold mesa_noted in Hq; inl; subst q; vm_compute; reflexivity)).
  rewrite F, <- (AG q (noted_clean q Hq)) in Ev. destruct (HE q (VArr a) (map RtoC a) Hq Ev eq_refl) as (m & S1 & S2 & S3). exists m. split; [exact S1|].
  rewrite (mode_cuts_keep _ _ _ (q ++ "_max_min") _ _) with (2 := E5); [|apply entry_debug]. split; [exact S2|].
  intros Hn. rewrite (mode_cuts_keep _ _ _ (q ++ "_max_min_normed") _ _) with (2 := E5); [apply S3, Hn|apply normed_debug].
Qed.
