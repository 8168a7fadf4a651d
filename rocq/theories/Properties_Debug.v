(** * Debug information (option get_debug_info): C163-C166 *)
From Coq Require Import List ZArith Lia Reals Lra String Ascii Bool.
From Coquelicot Require Import Complex.
From Verif Require Import Base Py NumDeriv_Model Load_Model Load_Spec Load_Proofs Grid_Model Grid_Spec Grid_Proofs Grid_Interp Grid_Build Grid_Mesa Grid_Final
  Properties_Grid Debug_Model Debug_Spec Debug_Proofs Debug_Entries Debug_Build Debug_Modes Debug_Late.
Import ListNotations.
Local Open Scope string_scope.

(** ** C163: asking for debug information changes no result *)
Theorem C163_off der sym brunt d1 d2 d3 prof :
  dbuild_mesa der false sym brunt d1 d2 d3 prof = build_mesa der sym brunt d1 d2 d3 prof /\
  forall analytic, dbuild_poly der false analytic sym brunt d1 d2 d3 prof = build_poly der analytic sym brunt d1 d2 d3 prof.
Proof. split; [apply dbuild_mesa_off|intros; apply dbuild_poly_off]. Qed.
Section Whole.
Variable radial : obj -> string -> nat -> res gval.
Variable hough : obj -> string -> nat -> res gval.
Variables mu theta : obj -> res gval.
Variables hfac rfac : obj -> nat -> res R.
Hypothesis BR : forall n i, blind (fun o => radial o n i).
Hypothesis BH : forall n i, blind (fun o => hough o n i).
Hypothesis BM : blind mu.
Hypothesis BT : blind theta.
Hypothesis BF : forall i, blind (fun o => hfac o i).
Hypothesis BG : forall i, blind (fun o => rfac o i).
Notation rest := (late radial hough mu theta hfac rfac).
Theorem C163_mesa der sym brunt d1 d2 d3 prof :
  unaffected (build_mesa der sym brunt d1 d2 d3 prof) (dbuild_mesa der true sym brunt d1 d2 d3 prof) /\
  unaffected (o <- build_mesa der sym brunt d1 d2 d3 prof ; rest false false o) (o <- dbuild_mesa der true sym brunt d1 d2 d3 prof ; rest false true o).
Proof.
  split; apply sim_unaffected; [apply dbuild_mesa_sim|]. apply sim_bind; [apply dbuild_mesa_sim|]. intros o o' H.
  exact (late_sim radial hough mu theta hfac rfac false BR BH BM BT BF BG o o' H).
Qed.
Theorem C163_poly der analytic sym brunt d1 d2 d3 prof :
  unaffected (build_poly der analytic sym brunt d1 d2 d3 prof) (dbuild_poly der true analytic sym brunt d1 d2 d3 prof) /\
  unaffected (o <- build_poly der analytic sym brunt d1 d2 d3 prof ; rest true false o) (o <- dbuild_poly der true analytic sym brunt d1 d2 d3 prof ; rest true true o).
Proof.
  split; apply sim_unaffected; [apply dbuild_poly_sim|]. apply sim_bind; [apply dbuild_poly_sim|]. intros o o' H.
  exact (late_sim radial hough mu theta hfac rfac true BR BH BM BT BF BG o o' H).
Qed.
End Whole.
Section Mesa.
Variable der : list R -> list R -> res (list (option (list R))).
Variables (d1 d2 d3 prof : gdict) (x1 x2 x3 : list R) (st : string -> list R) (Rs G : R) (rad N2 ad : list R).
Hypothesis I : mesa_input d1 d2 d3 prof x1 x2 x3 st Rs G rad N2 ad.
Hypothesis Hder : derivative_ok der (List.length x1 - 2).
Theorem C163_succeeds sym brunt : no_empty d1 -> no_empty d2 -> no_empty d3 ->
  exists o o', build_mesa der sym brunt d1 d2 d3 prof = Ok o /\ dbuild_mesa der true sym brunt d1 d2 d3 prof = Ok o' /\ same_results o o'.
Proof.
  intros H1 H2 H3. destruct (mesa_debug_succeeds der d1 d2 d3 prof x1 x2 x3 st Rs G rad N2 ad I sym brunt Hder H1 H2 H3) as (o' & E).
  pose proof (sim_unaffected _ _ (dbuild_mesa_sim der true sym brunt d1 d2 d3 prof)) as U. rewrite E in U. destruct U as (o & E1 & S). exists o, o'. auto.
Qed.
End Mesa.
Lemma dextract_mode_empty common i k v : has k common = false -> arr v = Some [] -> forall d o, In (k, v) d -> dextract_mode true common i d o = Exc ValueError.
Proof.
  intros HC HA d o H.
  assert (S : sim true (Ok (extract_mode common i d o)) (dextract_mode true common i d o)) by (apply dextract_mode_sim, agree_refl).
  destruct (dextract_mode true common i d o) as [o'| |e] eqn:E; [|discriminate S|destruct S as [S|[_ ->]]; [discriminate S|reflexivity]].
  exfalso. clear S. revert o E. induction d as [|[k1 v1] d IH]; intros o E; [destruct H|]. unfold dextract_mode in E. cbn [foldM fst snd] in E. inv1 E. destruct H as [H|H].
  - injection H as -> ->. rewrite HC in E0. unfold note in E0. cbn [foldM] in E0. unfold add_debug in E0. rewrite oset_same in E0. destruct v; try discriminate; cbn [arr] in HA; injection HA as HA.
    + rewrite HA in E0. discriminate.
    + rewrite HA in E0. discriminate.
  - exact (IH H a E).
Qed.
(** an empty array among the data of a mode stops a run with debug information *)
Theorem C163_empty_array der sym brunt d1 d2 d3 prof d k v : In d [d1; d2; d3] -> In (k, v) d -> ~ In k mesa_common -> v = VArr [] \/ v = VCpx [] ->
  dbuild_mesa der true sym brunt d1 d2 d3 prof = Exc ValueError.
Proof.
  intros Hd Hk HC HV. apply has_false in HC. assert (HA : arr v = Some []) by (destruct HV as [->| ->]; reflexivity).
  assert (E : dextracted true mesa_common d1 d2 d3 = Exc ValueError).
  { unfold dextracted.
    pose proof (dextract_common_sim true mesa_common d1 empty_obj empty_obj (agree_refl _)) as S. destruct (dextract_common true mesa_common d1 empty_obj) as [o| |e]; cbn [bind];
      [clear S|discriminate S|destruct S as [S|[_ ->]]; [discriminate S|reflexivity]].
    destruct Hd as [->|Hd]; [rewrite (dextract_mode_empty _ _ k v HC HA _ _ Hk); reflexivity|].
    pose proof (dextract_mode_sim true mesa_common 1 d1 o o (agree_refl _)) as S. destruct (dextract_mode true mesa_common 1 d1 o) as [p| |e]; cbn [bind];
      [clear S|discriminate S|destruct S as [S|[_ ->]]; [discriminate S|reflexivity]].
    destruct Hd as [->|[->|[]]]; [rewrite (dextract_mode_empty _ _ k v HC HA _ _ Hk); reflexivity|].
    pose proof (dextract_mode_sim true mesa_common 2 d2 p p (agree_refl _)) as S. destruct (dextract_mode true mesa_common 2 d2 p) as [q| |e]; cbn [bind];
      [clear S|discriminate S|destruct S as [S|[_ ->]]; [discriminate S|reflexivity]].
    apply (dextract_mode_empty _ _ k v HC HA _ _ Hk). }
  unfold dbuild_mesa. rewrite E. reflexivity.
Qed.

(** ** C164: what the entries of the structure and of the mode data describe *)
Theorem C164_structure der sym brunt d1 d2 d3 prof o' q a : dbuild_mesa der true sym brunt d1 d2 d3 prof = Ok o' ->
  In q (gravity_attrs ++ matter_attrs)%list -> o' q = Some (VArr a) ->
  entry o' (q ++ "_max_min") (map RtoC a) /\ (In q matter_attrs -> o' (q ++ "_max_min_normed") = o' (q ++ "_max_min")).
Proof.
  intros H Hq E.
  assert (Hq' : In q mesa_noted) by (revert Hq; clear; unfold gravity_attrs, matter_attrs, mesa_noted; cbn; intuition).
  destruct (mesa_structure_entry _ _ _ _ _ _ _ _ q a H Hq' E) as (m & S1 & S2 & S3). split.
  - exists m. split; [exact S2|apply summary_describes, S1].
  - intros Hm. rewrite S2. apply S3. exact Hm.
Qed.
Section Mesa2.
Variable der : list R -> list R -> res (list (option (list R))).
Variables (d1 d2 d3 prof : gdict) (x1 x2 x3 : list R) (st : string -> list R) (Rs G : R) (rad N2 ad : list R).
Hypothesis I : mesa_input d1 d2 d3 prof x1 x2 x3 st Rs G rad N2 ad.
Hypothesis Hder : derivative_ok der (List.length x1 - 2).
Variables (sym brunt : bool) (o' : obj).
Hypothesis NP : no_debug_keys prof.
Hypothesis E : dbuild_mesa der true sym brunt d1 d2 d3 prof = Ok o'.
Lemma plain_of : exists o, build_mesa der sym brunt d1 d2 d3 prof = Ok o /\ same_results o o'.
Proof. pose proof (sim_unaffected _ _ (dbuild_mesa_sim der true sym brunt d1 d2 d3 prof)) as U. rewrite E in U. exact U. Qed.
(** the entries of the grid and of the structure data of the first mode include the two points that are removed afterwards *)
Theorem C164_first_mode : entry o' "_x_max_min" (map RtoC x1) /\ o' "_x" = Some (VArr (kept x1)) /\
  forall k, In k ["M_r"; "Gamma_1"; "c_1"; "V_2"; "As"; "U"] -> entry o' ("_" ++ k ++ "_max_min") (map RtoC (st k)) /\ o' ("_" ++ k) = Some (VArr (kept (st k))).
Proof.
  destruct plain_of as (o & EO & S). destruct (C117_mesa_grid der d1 d2 d3 prof x1 x2 x3 st Rs G rad N2 ad I Hder sym brunt) as (p & EP & X & ST & _).
  assert (p = o) as -> by congruence. clear EP.
  split; [|split].
  - destruct (mesa_first_entry der sym brunt d1 d2 d3 prof o' "x" (VArr x1) (map RtoC x1) E NP) as (m & S1 & S2);
      [apply has_iff; vm_compute; reflexivity|apply has_false; vm_compute; reflexivity|apply (mo_x _ _ (mi_1 _ _ _ _ _ _ _ _ _ _ _ _ _ I))|reflexivity|].
    exists m. split; [exact S2|apply summary_describes, S1].
  - rewrite <- (S "_x"); [exact X|apply not_debug; vm_compute; reflexivity].
  - intros k Hk. assert (Hs : In k structure_names) by (revert Hk; clear; unfold structure_names; cbn; intuition). split.
    + destruct (mesa_first_entry der sym brunt d1 d2 d3 prof o' k (VArr (st k)) (map RtoC (st k)) E NP) as (m & S1 & S2).
      * revert Hk. clear. intros Hk. apply has_iff. cbn [In] in Hk. repeat (destruct Hk as [<-|Hk]; [vm_compute; reflexivity|]). destruct Hk.
      * revert Hk. clear. intros Hk. apply has_false. cbn [In] in Hk. repeat (destruct Hk as [<-|Hk]; [vm_compute; reflexivity|]). destruct Hk.
      * apply (mi_st _ _ _ _ _ _ _ _ _ _ _ _ _ I k Hs).
      * reflexivity.
      * exists m. rewrite sapp_assoc in S2. split; [exact S2|apply summary_describes, S1].
    + rewrite <- (S ("_" ++ k)); [apply ST, Hs|]. apply not_debug. revert Hk. clear. intros Hk. cbn [In] in Hk. repeat (destruct Hk as [<-|Hk]; [vm_compute; reflexivity|]). destruct Hk.
Qed.
(** the entry of a radial function of a mode describes it on the common grid, before the end points are removed *)
Theorem C164_modes i d xp k v : In (i, d, xp) [("1", d1, x1); ("2", d2, x2); ("3", d3, x3)] -> dget k d = Some v -> In k mode_functions ->
  exists w, resampled x1 xp v w /\ entry o' (of_mode k i ++ "_max_min") w /\
    (In k mesa_functions -> array_at o' (of_mode k i) (kept w)) /\ (~ In k mesa_functions -> array_at o' (of_mode k i) w).
Proof.
  intros H1 H2 H3. destruct plain_of as (o & EO & S).
  destruct (build_mesa_ok der d1 d2 d3 prof x1 x2 x3 st Rs G rad N2 ad I sym brunt Hder) as (p & g & drho_ & drho2_ & drho3_ & gg2 & gg3 & dP_ & dP2_ & dP3_ & EP & _ & _ & M & _).
  assert (p = o) as -> by congruence. clear EP.
  assert (HI : exists j, In (j, d, xp) [(1%nat, d1, x1); (2%nat, d2, x2); (3%nat, d3, x3)] /\ of_mode k i = mode_attr k j).
  { cbn in H1. destruct H1 as [E1|[E1|[E1|[]]]]; injection E1 as <- <- <-; [exists 1%nat|exists 2%nat|exists 3%nat]; (split; [cbn; tauto|reflexivity]). }
  destruct HI as (j & Hj & ->).
  pose proof (mode_ok_of d1 d2 d3 prof x1 x2 x3 st Rs G rad N2 ad I j d xp Hj) as MO.
  destruct (mo_funs _ _ MO k v (dget_in _ _ _ H2) H3) as (s & Hs & Ls).
  destruct (resample_ok x1 xp v s Hs Ls (mo_pos _ _ MO) (mo_incr _ _ MO)) as (w & Hw & HRw). exists w. split; [exact HRw|].
  pose proof (M j d xp k v Hj H2 H3) as HM.
  assert (CL : ~ debug_attr (mode_attr k j)) by (apply interp_clean, to_interpolate_iff, H3).
  split; [|split].
  - destruct (mesa_mode_entry der d1 d2 d3 prof x1 x2 x3 st Rs G rad N2 ad I sym brunt o' j d xp k v E NP Hj H2 H3) as (w' & m & W1 & W2 & W3).
    assert (w' = w) as -> by congruence. exists m. split; [exact W3|apply summary_describes, W2].
  - intros Hk. apply has_iff in Hk. rewrite Hk in HM. eexists. split; [rewrite <- (S _ CL); exact HM|]. apply gmid_samples, Hw.
  - intros Hk. apply has_false in Hk. rewrite Hk in HM. eexists. split; [rewrite <- (S _ CL); exact HM|exact Hw].
Qed.
End Mesa2.

(** ** C165: the entries of the radial and of the Hough functions *)
Section Late.
Variable radial : obj -> string -> nat -> res gval.
Variable hough : obj -> string -> nat -> res gval.
Variables mu theta : obj -> res gval.
Variables hfac rfac : obj -> nat -> res R.
Variables (poly : bool) (o o' : obj).
Hypothesis E : late radial hough mu theta hfac rfac poly true o = Ok o'.
Lemma vscale_samples c v w l : vscale c v = Ok w -> samples w = Some l -> arr w = Some l /\ exists l0, arr v = Some l0 /\ l = map (times c) l0.
Proof.
  destruct v; cbn; intros H; try discriminate; injection H as <-; cbn [arr samples]; intros Q; try discriminate; (split; [exact Q|]); injection Q as <-; eexists; (split; [reflexivity|]).
  - rewrite !map_map. apply map_ext. intros x. unfold times, RtoC. cbn [fst snd]. f_equal. ring.
  - reflexivity.
Qed.
(** the entry of a radial function describes it before the normalisation: the function that is kept is a multiple of what is shown *)
Theorem C165_radial n i l' : In n radial_functions -> In i [1; 2; 3]%nat -> array_at o' (of_mode n (digit i)) l' ->
  exists p c l, rfac p i = Ok c /\ l' = map (times c) l /\ entry o' (of_mode n (digit i) ++ "_max_min") l.
Proof.
  intros Hn Hi (w & Hw & L). assert (EN : of_mode n (digit i) = mode_attr n i) by (destruct Hi as [<-|[<-|[<-|[]]]]; reflexivity). rewrite EN in *.
  destruct (late_entries radial hough mu theta hfac rfac poly o o' E) as [HR _]. destruct (HR n i Hn Hi) as (p & c & v & w' & A1 & A2 & A3 & A4).
  assert (w' = w) as -> by congruence. destruct (vscale_samples _ _ _ _ A2 L) as (L' & l & L1 & L2). exists p, c, l. split; [exact A1|]. split; [exact L2|].
  destruct (A4 l L1) as (s & S1 & S2). exists s. split; [exact S2|apply summary_describes, S1].
Qed.
(** a Hough function has two entries: before the normalisation, and of the function that is kept *)
Theorem C165_hough n i l' : In n hough_functions -> In i [1; 2; 3]%nat -> array_at o' (of_mode n (digit i)) l' ->
  exists p c l, hfac p i = Ok c /\ l' = map (times c) l /\ entry o' (of_mode n (digit i) ++ "_max_min") l /\ entry o' (of_mode n (digit i) ++ "_max_min_normed") l'.
Proof.
  intros Hn Hi (w & Hw & L). assert (EN : of_mode n (digit i) = mode_attr n i) by (destruct Hi as [<-|[<-|[<-|[]]]]; reflexivity). rewrite EN in *.
  destruct (late_entries radial hough mu theta hfac rfac poly o o' E) as [_ HR]. destruct (HR n i Hn Hi) as (p & c & v & w' & A1 & A2 & A3 & A4 & A5).
  assert (w' = w) as -> by congruence. destruct (vscale_samples _ _ _ _ A2 L) as (L' & l & L1 & L2). exists p, c, l. split; [exact A1|]. split; [exact L2|].
  destruct (A4 l L1) as (s & S1 & S2). destruct (A5 l' L') as (s' & S3 & S4). split; [exists s; split; [exact S2|apply summary_describes, S1]|exists s'; split; [exact S4|apply summary_describes, S3]].
Qed.
End Late.

(** ** C166: what is shown *)
Theorem C166_shown k : shown k = true <-> debug_attr k /\ is_in "_attr_list" k = false.
Proof. unfold shown. rewrite andb_true_iff, negb_true_iff, is_in_debug. reflexivity. Qed.
(** the lists of names are enumerations whose members all have the same value: only the first one of each counts *)
Theorem C166_announced : structure_debug = ["_dgravpot_max_min"; "_dgravpot_max_min_normed"; "_dgravpot_max_min_poly"; "_dgravpot_max_min_normed_poly"] /\
  forall i, radial_debug i = [of_mode "z_1" (digit i) ++ "_max_min"] /\ hough_debug i = [of_mode "hr" (digit i) ++ "_max_min"; of_mode "hr" (digit i) ++ "_max_min_normed"].
Proof. split; [reflexivity|]. intros i. unfold radial_debug, hough_debug, of_mode, digit. destruct i as [|[|[|]]]; split; reflexivity. Qed.
(** each coupling coefficient shows the information once, a profile on n grid points n times *)
Theorem C166_profile_prints n : (1 <= n)%nat -> profile_prints true n = n /\ profile_prints false n = 0%nat.
Proof. intros H. unfold profile_prints. rewrite seq_length. lia. Qed.
(** without the option no debug information is kept *)
Lemma extract_common_plain d k l : (forall a, In a l -> ~ debug_attr ("_" ++ a)) -> debug_attr k -> forall o, extract_common l d o k = o k.
Proof.
  intros HL D. unfold extract_common. induction l as [|a l IH]; intros o; [reflexivity|]. cbn [fold_left]. rewrite IH by (intros; apply HL; right; assumption).
  apply oset_keep; [exact D|apply HL; left; reflexivity].
Qed.
Lemma extract_mode_plain common i d k : no_debug_keys d -> debug_attr k -> forall o, extract_mode common i d o k = o k.
Proof.
  intros N D. unfold extract_mode. unfold no_debug_keys in N. induction d as [|[a v] d IH]; intros o; [reflexivity|]. cbn [fold_left fst snd].
  rewrite IH by (intros q Hq; apply N; right; exact Hq). destruct (has a common); [reflexivity|].
  apply oset_keep; [exact D|]. intros Q. apply (N a); [left; reflexivity|]. apply mode_attr_debug in Q. exact Q.
Qed.
Lemma interpolator_plain i d x o o' k : debug_attr k -> interpolator i d x o = Ok o' -> o' k = o k.
Proof.
  intros D H. unfold interpolator in H. transitivity (oset o "_x" x k); [|apply oset_keep; [exact D|apply not_debug; vm_compute; reflexivity]].
  revert H. apply foldM_keep. intros [a v] s s' _ E. cbn [fst snd] in E. destruct (has a to_interpolate) eqn:Ha; [|injection E as <-; reflexivity].
  inv1 E. inv1 E. assert (s' = oset s (mode_attr a i) a1) as -> by congruence. apply oset_keep; [exact D|apply interp_clean, Ha].
Qed.
Theorem C166_none_without der sym brunt d1 d2 d3 prof o : build_mesa der sym brunt d1 d2 d3 prof = Ok o ->
  no_debug_keys d1 -> no_debug_keys d2 -> no_debug_keys d3 -> no_debug_keys prof -> forall k, shown k = true -> o k = None.
Proof.
  intros H N1 N2 N3 NP k Hk. apply C166_shown in Hk. destruct Hk as [D _]. unfold build_mesa in H.
  inv1 H. inv1 H. inv1 H. inv1 H. inv1 H. inv1 H. inv1 H.
  rewrite (mode_cuts_keep _ _ _ k _ _ D H), (profiles_mesa_keep _ _ _ _ _ k _ _ D E5). rewrite oset_keep; [|exact D|apply not_debug; vm_compute; reflexivity].
  rewrite (set_normalization_keep _ _ _ _ k _ _ D E3), (extract_profile_keep _ _ k _ _ NP D E0).
  transitivity (extracted mesa_common d1 d2 d3 k).
  - unfold interpolation_modes in E. inv1 E. inv1 E. revert E. apply foldM_keep. intros [i d] s s' _ Q. exact (interpolator_plain _ _ _ _ _ _ D Q).
  - unfold extracted. rewrite !extract_mode_plain by assumption. rewrite extract_common_plain; [reflexivity|exact common_clean|exact D].
Qed.
(** names of polytropic entries that were to be filled in: only the first is *)
Lemma poly_suffix_ne a b t : In t ["_max_min"; "_max_min_normed"] -> a ++ "_max_min_poly" <> b ++ t.
Proof.
  intros Ht Q. pose proof (ends_char a "_max_min_pol" "y") as H2. change (endsb "y" (a ++ "_max_min_poly") = true) in H2. destruct Ht as [<-|[<-|[]]].
  - pose proof (ends_char b "_max_mi" "n") as H1. change (endsb "n" (b ++ "_max_min") = true) in H1. rewrite Q in H2. pose proof (endsb_last_char "" _ _ _ H1 H2). discriminate.
  - pose proof (ends_char b "_max_min_norme" "d") as H1. change (endsb "d" (b ++ "_max_min_normed") = true) in H1. rewrite Q in H2. pose proof (endsb_last_char "" _ _ _ H1 H2). discriminate.
Qed.
Lemma poly_not_mode a k i : a ++ "_max_min_poly" <> mode_attr k i.
Proof.
  intros Q. pose proof (ends_char a "_max_min_pol" "y") as H2. change (endsb "y" (a ++ "_max_min_poly") = true) in H2. destruct (mode_ends_digit k i) as (c & Hc & H1). rewrite <- Q in H1.
  pose proof (endsb_last_char "" _ _ _ H1 H2) as Z. rewrite Z in Hc. cbn in Hc. repeat destruct Hc as [Hc|Hc]; try discriminate; destruct Hc.
Qed.
Lemma poly_debug a : debug_attr (a ++ "_max_min_poly").
Proof. exists (a ++ "_"), "_poly". rewrite (sapp_assoc a "_"). reflexivity. Qed.
Theorem C166_filled_in der sym brunt d1 d2 d3 prof o' : dbuild_mesa der true sym brunt d1 d2 d3 prof = Ok o' -> no_debug_keys prof ->
  o' "_dgravpot_max_min_poly" = Some VNone /\ forall q, q <> "_dgravpot" -> o' (q ++ "_max_min_poly") = None.
Proof.
  intros H N. destruct (dbuild_mesa_inv _ _ _ _ _ _ _ _ H) as (o0 & o1 & o2 & P & rho & o3 & G & o4 & E0 & E1 & E2 & E3 & E4 & E5).
  assert (Z : forall a, o1 (a ++ "_max_min_poly") = None).
  { intros a.
    assert (DM : forall i d s s', dextract_mode true mesa_common i d s = Ok s' -> s' (a ++ "_max_min_poly") = s (a ++ "_max_min_poly")).
    { intros i d s s'. unfold dextract_mode. apply foldM_keep. intros [k v] t t' _ Q. cbn [fst snd] in Q. destruct (has k mesa_common); [injection Q as <-; reflexivity|].
      rewrite (note_frame _ _ _ _ _ _ Q); [apply oset_other, poly_not_mode|]. intros b [<-|[]]. change (debug_name (mode_attr k i) false false) with (mode_attr k i ++ "_max_min"). apply poly_suffix_ne. cbn; tauto. }
    assert (DI : forall i d x s s', dinterpolator true i d x s = Ok s' -> s' (a ++ "_max_min_poly") = s (a ++ "_max_min_poly")).
    { intros i d x s s' Q. unfold dinterpolator in Q. inv1 Q. rewrite (note_frame _ _ _ _ _ _ Q); [apply (interpolator_plain _ _ _ _ _ _ (poly_debug a) E)|].
      intros b Hb. change (debug_name b false false) with (b ++ "_max_min"). apply poly_suffix_ne. cbn; tauto. }
    destruct (dinterpolation_inv _ _ _ _ _ E1) as (x & p1 & p2 & I1 & I2 & I3). rewrite (DI _ _ _ _ _ I3), (DI _ _ _ _ _ I2), (DI _ _ _ _ _ I1).
    unfold dextracted in E0. inv1 E0. inv1 E0. inv1 E0. rewrite (DM _ _ _ _ E0), (DM _ _ _ _ E7), (DM _ _ _ _ E6).
    transitivity (empty_obj (a ++ "_max_min_poly")); [|reflexivity]. revert E. unfold dextract_common. apply foldM_keep. intros b t t' Hb Q.
    assert (NB : a ++ "_max_min_poly" <> "_" ++ b) by (intros X; apply (common_clean b Hb); rewrite <- X; apply poly_debug).
    destruct (negb (has b ["Delta_p"; "Delta_g"])); cbn [andb] in Q.
    - rewrite (note_frame _ _ _ _ _ _ Q); [apply oset_other, NB|]. intros c [<-|[]]. change (debug_name ("_" ++ b) false false) with (("_" ++ b) ++ "_max_min"). apply poly_suffix_ne. cbn; tauto.
    - unfold note in Q. injection Q as <-. apply oset_other, NB. }
  split.
  - destruct (dprofiles_mesa_entries _ _ _ _ _ _ _ E4) as (p & EP & _ & _ & _ & _ & HS).
    rewrite (mode_cuts_keep _ _ _ _ _ _ (poly_debug "_dgravpot") E5 : o' "_dgravpot_max_min_poly" = o4 "_dgravpot_max_min_poly").
    unfold dprofiles_mesa in E4. inv1 E4. inv1 E4. inv1 E4. assert (o4 = fill_debug structure_debug a1) as -> by congruence. apply fill_sets; [cbn; tauto|].
    assert (a = p) as -> by congruence.
    rewrite (note_frame _ _ _ _ _ _ E7), (note_frame _ _ _ _ _ _ E6).
    + assert (D : debug_attr "_dgravpot_max_min_poly") by apply (poly_debug "_dgravpot").
      rewrite (profiles_mesa_keep _ _ _ _ _ _ _ _ D E). rewrite oset_keep; [|exact D|apply not_debug; vm_compute; reflexivity].
      rewrite (set_normalization_keep _ _ _ _ _ _ _ D E3). rewrite (extract_profile_keep _ _ _ _ _ N D E2). apply (Z "_dgravpot").
    + intros b _. apply (poly_suffix_ne "_dgravpot" b "_max_min"). cbn; tauto.
    + intros b _. apply (poly_suffix_ne "_dgravpot" b "_max_min_normed"). cbn; tauto.
  - intros q NQ. rewrite <- (Z q). eapply after_interp_none; [exact N|apply poly_debug| | | |exact E2|exact E3|exact E4|exact E5].
    + intros b _. apply poly_suffix_ne. cbn; tauto.
    + intros b _. apply poly_suffix_ne. cbn; tauto.
    + intros Q. unfold structure_debug in Q. cbn in Q. destruct Q as [Q|[Q|[Q|[Q|[]]]]].
      * symmetry in Q. revert Q. apply (poly_suffix_ne q "_dgravpot" "_max_min"). cbn; tauto.
      * symmetry in Q. revert Q. apply (poly_suffix_ne q "_dgravpot" "_max_min_normed"). cbn; tauto.
      * apply NQ. apply (app_inj_tail_s q "_dgravpot" "_max_min_poly"). symmetry. exact Q.
      * change ("_dgravpot_max_min_normed" ++ "_poly" = (q ++ "_max_min") ++ "_poly") in Q || idtac.
        assert (Q2 : "_dgravpot_max_min_normed" ++ "_poly" = (q ++ "_max_min") ++ "_poly") by (rewrite sapp_assoc; exact Q).
        apply app_inj_tail_s in Q2. symmetry in Q2. revert Q2. exact (suffix_ne q "_dgravpot").
Qed.

(** ** The hypotheses are met *)
Local Open Scope R_scope.
Lemma ex_no_empty x : x <> [] -> no_empty (ex_mode x) /\ no_empty (ex_first x).
Proof.
  intros HX. assert (HM : forall (f : R -> C), map f x <> []) by (intros f; destruct x; [congruence|discriminate]).
  assert (HR : forall (f : R -> R), map RtoC (map f x) <> []) by (intros f; destruct x; [congruence|discriminate]).
  assert (H1 : no_empty (ex_mode x)).
  { intros k v Hk. unfold ex_mode in Hk. dictcols Hk; cbn [samples]; try discriminate; intros Q; injection Q as Q; revert Q; apply HM. }
  split; [exact H1|]. intros k v Hk. unfold ex_first in Hk. apply in_app_iff in Hk. destruct Hk as [Hk|Hk]; [exact (H1 k v Hk)|].
  apply in_map_iff in Hk. destruct Hk as (q & Q & _). injection Q as _ <-. cbn [samples]. intros Q. injection Q as Q. revert Q. apply HR.
Qed.
Lemma ex_prof_no_debug : no_debug_keys ex_prof.
Proof. intros k Hk. apply not_debug. cbn in Hk. repeat (destruct Hk as [<-|Hk]; [vm_compute; reflexivity|]). destruct Hk. Qed.
Example C163_hypotheses_met der : derivative_ok der 2 -> exists o o', build_mesa der true true (ex_first [0; 1; 2; 4]) (ex_mode [0; 2; 4]) (ex_mode [0; 1; 1; 4]) ex_prof = Ok o /\
  dbuild_mesa der true true true (ex_first [0; 1; 2; 4]) (ex_mode [0; 2; 4]) (ex_mode [0; 1; 1; 4]) ex_prof = Ok o' /\ same_results o o'.
Proof.
  intros H. apply (C163_succeeds der _ _ _ _ _ _ _ _ _ _ _ _ _ C117_case H); apply ex_no_empty; discriminate.
Qed.
Example C164_hypotheses_met der : derivative_ok der 2 -> exists o', dbuild_mesa der true true true (ex_first [0; 1; 2; 4]) (ex_mode [0; 2; 4]) (ex_mode [0; 1; 1; 4]) ex_prof = Ok o' /\
  entry o' "_M_r_max_min" [RtoC (10 - 0); RtoC (10 - 1); RtoC (10 - 2); RtoC (10 - 4)] /\ o' "_M_r" = Some (VArr [10 - 1; 10 - 2]) /\
  (exists w, entry o' "_y_1_mode_2_max_min" w /\ array_at o' "_y_1_mode_2" (kept w) /\ List.length w = 4%nat).
Proof.
  intros H. destruct (C163_hypotheses_met der H) as (o & o' & _ & E & _). exists o'. split; [exact E|].
  destruct (C164_first_mode der _ _ _ _ _ _ _ _ _ _ _ _ _ C117_case H true true o' ex_prof_no_debug E) as (_ & _ & K). destruct (K "M_r" ltac:(cbn; tauto)) as [K1 K2]. split; [exact K1|]. split; [exact K2|].
  destruct (C164_modes der _ _ _ _ _ _ _ _ _ _ _ _ _ C117_case H true true o' ex_prof_no_debug E "2" (ex_mode [0; 2; 4]) [0; 2; 4] "y_1" (VComp (map (fun t => (t, 1)) [0; 2; 4])))
    as (w & (s & _ & _ & L & _) & W2 & W3 & _); [cbn; tauto|reflexivity|cbn; tauto|]. exists w. split; [exact W2|]. split; [apply W3; cbn; tauto|exact L].
Qed.
Example C165_hypotheses_met : exists o', late (fun _ _ _ => Ok (VArr [4])) (fun _ _ _ => Ok (VArr [5])) (fun _ => Ok (VArr [0])) (fun _ => Ok (VArr [0])) (fun _ _ => Ok 2) (fun _ _ => Ok 3) true true empty_obj = Ok o'.
Proof.
  assert (H : match late (fun _ _ _ => Ok (VArr [4])) (fun _ _ _ => Ok (VArr [5])) (fun _ => Ok (VArr [0])) (fun _ => Ok (VArr [0])) (fun _ _ => Ok 2) (fun _ _ => Ok 3) true true empty_obj with Ok _ => true | _ => false end = true).
  { vm_compute. reflexivity. }
  destruct (late _ _ _ _ _ _ _ _ _) as [o'| |]; [exists o'; reflexivity|discriminate H|discriminate H].
Qed.
