(** * The debug information of the modes *)
From Coq Require Import List ZArith Lia Reals Lra String Ascii Bool.
From Coquelicot Require Import Complex.
From Verif Require Import Base Py NumDeriv_Model Load_Model Load_Spec Load_Proofs Grid_Model Grid_Spec Grid_Proofs Grid_Interp Grid_Build Grid_Mesa Grid_Final
  Debug_Model Debug_Spec Debug_Proofs Debug_Entries Debug_Build.
Import ListNotations.
Local Open Scope string_scope.

Lemma interp_clean k i : has k to_interpolate = true -> ~ debug_attr (mode_attr k i).
Proof.
  intros H D. apply mode_attr_debug in D. apply is_in_debug in D. apply has_iff in H. revert k H D.
  assert (H := proj1 (forallb_forall (fun b => negb (is_in "max_min" b)) to_interpolate) eq_refl). intros k Hk D. specialize (H k Hk). apply negb_true_iff in H. congruence.
Qed.
Lemma resample_arr xs xp v s : samples v = Some s -> exists w, arr (resample xs xp v) = Some w /\ samples (resample xs xp v) = Some w /\ List.length w = List.length xs.
Proof.
  intros H. destruct v; try discriminate; cbn [resample arr samples]; eexists; (split; [reflexivity|]); (split; [reflexivity|]); unfold C; rewrite ?combine_length, ?map_length; try reflexivity; apply Nat.min_id.
Qed.
Lemma names_in k i (d : gdict) v : dget k d = Some v -> has k to_interpolate = true -> In (mode_attr k i) (map (fun k => mode_attr k i) (filter (fun k => has k to_interpolate) (map fst d))).
Proof. intros H Hk. apply (in_map (fun k => mode_attr k i)). apply filter_In. split; [|exact Hk]. apply dget_in in H. apply (in_map fst) in H. exact H. Qed.
Lemma names_out n i (d : gdict) : In n (map (fun k => mode_attr k i) (filter (fun k => has k to_interpolate) (map fst d))) -> exists k, n = mode_attr k i /\ In k (map fst d) /\ has k to_interpolate = true.
Proof. intros H. apply in_map_iff in H. destruct H as (k & <- & H). apply filter_In in H. exists k. tauto. Qed.
(** one mode *)
Lemma dinterpolator_entry i d xs xp o o' k v : mode_ok d xp -> dinterpolator true i d (VArr xs) o = Ok o' -> dget k d = Some v -> has k to_interpolate = true ->
  exists w m, arr (resample xs xp v) = Some w /\ summary w = Ok m /\ o' (mode_attr k i ++ "_max_min") = Some m.
Proof.
  intros M H Ev Hk. unfold dinterpolator in H. inv1 H. rename a into o1.
  destruct (interpolator_ok i d xs xp o (mo_x _ _ M) (mode_ok_funs _ _ M) (mo_pos _ _ M) (mo_keys _ _ M)) as (o2 & E2 & _ & A & _). rewrite E in E2. injection E2 as <-.
  destruct (mode_ok_funs _ _ M k v (dget_in _ _ _ Ev) Hk) as (s & Hs & _). destruct (resample_arr xs xp v s Hs) as (w & W1 & _).
  destruct (note_entry false false _ _ _ (mode_attr k i) (resample xs xp v) w H) as (m & S1 & S2).
  - intros b Hb. apply names_out in Hb. destruct Hb as (k' & -> & _ & Hk'). apply interp_clean, Hk'.
  - eapply names_in; eassumption.
  - apply A; [apply dget_in, Ev|exact Hk].
  - exact W1.
  - exists w, m. repeat split; assumption.
Qed.
Lemma dinterpolator_succeeds i d xs xp o : mode_ok d xp -> xs <> [] -> exists o', dinterpolator true i d (VArr xs) o = Ok o'.
Proof.
  intros M NX. unfold dinterpolator.
  destruct (interpolator_ok i d xs xp o (mo_x _ _ M) (mode_ok_funs _ _ M) (mo_pos _ _ M) (mo_keys _ _ M)) as (o2 & E2 & _ & A & _). rewrite E2. cbn [bind].
  apply note_ok.
  - intros b Hb. apply names_out in Hb. destruct Hb as (k' & -> & _ & Hk'). apply interp_clean, Hk'.
  - intros n u Hn Hu Q. apply names_out in Hn. destruct Hn as (k & -> & Hin & Hk). apply in_map_iff in Hin. destruct Hin as ([k1 v] & Ek & Hin). cbn [fst] in Ek. subst k1.
    rewrite (A k v Hin Hk) in Hu. injection Hu as <-. destruct (mode_ok_funs _ _ M k v Hin Hk) as (s & Hs & _).
    destruct (resample_arr xs xp v s Hs) as (w & W1 & _ & W2). rewrite W1 in Q. injection Q as ->. destruct xs; [congruence|discriminate].
Qed.

Section Mesa.
Variable der : list R -> list R -> res (list (option (list R))).
Variables (d1 d2 d3 prof : gdict) (x1 x2 x3 : list R) (st : string -> list R) (Rs G : R) (rad N2 ad : list R).
Hypothesis I : mesa_input d1 d2 d3 prof x1 x2 x3 st Rs G rad N2 ad.
Let M1 := mi_1 _ _ _ _ _ _ _ _ _ _ _ _ _ I.
Let M2 := mi_2 _ _ _ _ _ _ _ _ _ _ _ _ _ I.
Let M3 := mi_3 _ _ _ _ _ _ _ _ _ _ _ _ _ I.
Lemma dinterp_unfold o : dinterpolation_modes true [d1; d2; d3] o =
  (p <- dinterpolator true 1 d1 (VArr x1) o ; p <- dinterpolator true 2 d2 (VArr x1) p ; p <- dinterpolator true 3 d3 (VArr x1) p ; Ok p).
Proof.
  unfold dinterpolation_modes. cbn [mapM]. unfold dread at 1 2 3. rewrite (mo_n _ _ M1), (mo_n _ _ M2), (mo_n _ _ M3). cbn [bind as_int].
  rewrite argmax_first.
  - cbn [nth_error]. unfold dread. rewrite (mo_x _ _ M1). reflexivity.
  - pose proof (mi_first _ _ _ _ _ _ _ _ _ _ _ _ _ I). intros y [<-|[<-|[]]]; lia.
Qed.
Theorem mesa_mode_entry sym brunt o' i d xp k v : dbuild_mesa der true sym brunt d1 d2 d3 prof = Ok o' -> no_debug_keys prof ->
  In (i, d, xp) [(1%nat, d1, x1); (2%nat, d2, x2); (3%nat, d3, x3)] -> dget k d = Some v -> In k mode_functions ->
  exists w m, samples (resample x1 xp v) = Some w /\ summary w = Ok m /\ o' (mode_attr k i ++ "_max_min") = Some m.
Proof.
  intros H N Hi Ev Hk. apply to_interpolate_iff in Hk. destruct (dbuild_mesa_inv _ _ _ _ _ _ _ _ H) as (o0 & o1 & o2 & P & rho & o3 & G' & o4 & E0 & E1 & E2 & E3 & E4 & E5).
  assert (HM : exists w m, arr (resample x1 xp v) = Some w /\ summary w = Ok m /\ o1 (mode_attr k i ++ "_max_min") = Some m).
  { rewrite dinterp_unfold in E1. inv1 E1. inv1 E1. inv1 E1. assert (a1 = o1) by congruence. subst a1.
    destruct Hi as [Q|[Q|[Q|[]]]]; injection Q as <- <- <-.
    - destruct (dinterpolator_entry _ _ _ _ _ _ _ _ M1 E Ev Hk) as (w & m & W & S1 & S2). exists w, m. split; [exact W|]. split; [exact S1|].
      rewrite (dinterpolator_keep 3 _ _ _ _ (mode_attr k 1) ltac:(intros kk; apply mode_attr_other; lia) E7), (dinterpolator_keep 2 _ _ _ _ (mode_attr k 1) ltac:(intros kk; apply mode_attr_other; lia) E6). exact S2.
    - destruct (dinterpolator_entry _ _ _ _ _ _ _ _ M2 E6 Ev Hk) as (w & m & W & S1 & S2). exists w, m. split; [exact W|]. split; [exact S1|].
      rewrite (dinterpolator_keep 3 _ _ _ _ (mode_attr k 2) ltac:(intros kk; apply mode_attr_other; lia) E7). exact S2.
    - destruct (dinterpolator_entry _ _ _ _ _ _ _ _ M3 E7 Ev Hk) as (w & m & W & S1 & S2). exists w, m. repeat split; assumption. }
  destruct HM as (w & m & W & S1 & S2). exists w, m. split; [|split; [exact S1|]].
  - destruct (resample x1 xp v); cbn [arr samples] in W |- *; try discriminate; exact W.
  - eapply after_interp; [exact N|apply entry_debug| | |exact E2|exact E3|exact E4|exact E5|exact S2].
    + intros q Hq Q. apply app_inj_tail_s in Q. symmetry in Q. revert Q. apply not_mode. unfold mesa_noted in Hq. destruct i as [|[|[|]]]; inl; subst q; vm_compute; reflexivity.
    + intros q _. apply suffix_ne.
Qed.
(** the run with debug information succeeds *)
Lemma foldM_succ {A} (f : obj -> A -> res obj) l : (forall a s, In a l -> exists s', f s a = Ok s') -> forall s, exists s', foldM f l s = Ok s'.
Proof.
  induction l as [|a l IH]; intros H s; [eexists; reflexivity|]. cbn [foldM]. destruct (H a s (or_introl eq_refl)) as (s1 & ->). cbn [bind].
  apply IH. intros. apply H. right. assumption.
Qed.
Lemma note1_succ dbg normed poly a v o : ~ debug_attr a -> samples v <> Some [] -> exists o', note dbg normed poly [a] (oset o a v) = Ok o'.
Proof.
  intros N H. apply note_ok; [intros b [<-|[]]; exact N|]. intros b u [<-|[]]. rewrite oset_same. intros Q. injection Q as <-. destruct v; try discriminate; exact H.
Qed.
Lemma note1_succ' dbg normed poly a v o : samples v <> Some [] -> exists o', note dbg normed poly [a] (oset o a v) = Ok o'.
Proof.
  intros H. unfold note. destruct dbg; [|eexists; reflexivity]. cbn [foldM]. unfold add_debug. rewrite oset_same.
  destruct v; try (eexists; reflexivity); cbn [samples] in H.
  - destruct (summary_ok (map RtoC a0) ltac:(congruence)) as (s & ->). eexists. reflexivity.
  - destruct (summary_ok a0 ltac:(congruence)) as (s & ->). eexists. reflexivity.
Qed.
Lemma dextracted_succeeds : no_empty d1 -> no_empty d2 -> no_empty d3 -> exists o, dextracted true mesa_common d1 d2 d3 = Ok o.
Proof.
  intros H1 H2 H3. unfold dextracted.
  assert (HM : forall i d o, no_empty d -> exists o', dextract_mode true mesa_common i d o = Ok o').
  { intros i d o Hd. apply foldM_succ. intros [k v] s Hk. cbn [fst snd]. destruct (has k mesa_common); [eexists; reflexivity|]. apply note1_succ'. exact (Hd k v Hk). }
  assert (exists o, dextract_common true mesa_common d1 empty_obj = Ok o) as (o & ->).
  { apply foldM_succ. intros a s _. destruct (negb (has a ["Delta_p"; "Delta_g"])); cbn [andb]; [|eexists; reflexivity]. apply note1_succ'.
    destruct (dget a d1) as [v|] eqn:E; [|discriminate]. apply (H1 a v), dget_in, E. }
  cbn [bind]. destruct (HM 1%nat d1 o H1) as (p & ->). cbn [bind]. destruct (HM 2%nat d2 p H2) as (q & ->). cbn [bind]. apply HM, H3.
Qed.
Lemma sim_false_ok p d o : sim false p d -> p = Ok o -> exists o', d = Ok o' /\ agree o o'.
Proof. intros S ->. destruct d as [o'| |e]; cbn in S; [eauto|discriminate|destruct S as [S|[S _]]; discriminate]. Qed.
Theorem mesa_debug_succeeds sym brunt : derivative_ok der (List.length x1 - 2) -> no_empty d1 -> no_empty d2 -> no_empty d3 ->
  exists o', dbuild_mesa der true sym brunt d1 d2 d3 prof = Ok o'.
Proof.
  intros Hder H1 H2 H3.
  destruct (build_mesa_ok der d1 d2 d3 prof x1 x2 x3 st Rs G rad N2 ad I sym brunt Hder)
    as (o & g & drho_ & drho2_ & drho3_ & g2 & g3 & dP_ & dP2_ & dP3_ & E & X & S & _ & _ & _ & _ & _ & D & _).
  assert (LX : (3 <= List.length x1)%nat) by apply (mi_first _ _ _ _ _ _ _ _ _ _ _ _ _ I).
  destruct (dextracted_succeeds H1 H2 H3) as (p0 & F0). pose proof (dextracted_sim true mesa_common d1 d2 d3) as A0. rewrite F0 in A0. cbn [sim] in A0.
  assert (exists p1, dinterpolation_modes true [d1; d2; d3] p0 = Ok p1) as (p1 & F1).
  { assert (NX : x1 <> []) by (destruct x1; [cbn in LX; lia|discriminate]). rewrite dinterp_unfold.
    destruct (dinterpolator_succeeds 1 d1 x1 x1 p0 M1 NX) as (q1 & ->). cbn [bind]. destruct (dinterpolator_succeeds 2 d2 x1 x2 q1 M2 NX) as (q2 & ->). cbn [bind].
    destruct (dinterpolator_succeeds 3 d3 x1 x3 q2 M3 NX) as (q3 & ->). cbn [bind]. eexists. reflexivity. }
  pose proof (dinterpolation_sim true [d1; d2; d3] _ _ A0) as A1. rewrite F1 in A1.
  unfold dbuild_mesa. rewrite F0. cbn [bind]. rewrite F1. cbn [bind]. unfold build_mesa in E. inv1 E. cbn [sim] in A1.
  inv1 E. destruct (sim_false_ok _ _ _ (extract_profile_resp false prof _ _ A1) E1) as (p2 & F2 & A2). rewrite F2. cbn [bind].
  inv1 E. rewrite <- (agree_oget a0 p2 "_P" A2 ltac:(nodbg)), E2. cbn [bind]. inv1 E. rewrite <- (agree_oget a0 p2 "_rho" A2 ltac:(nodbg)), E3. cbn [bind].
  inv1 E. destruct (sim_false_ok _ _ _ (set_normalization_resp true true a1 a2 _ _ A2) E4) as (p3 & F3 & A3). rewrite F3. cbn [bind]. inv1 E. cbn [bind].
  inv1 E. destruct (sim_false_ok _ _ _ (profiles_mesa_resp der true true sym brunt _ _ (agree_oset _ _ "_G" a4 A3)) E6) as (p4 & F4 & A4).
  unfold dprofiles_mesa. rewrite F4. cbn [bind].
  assert (NE : forall q v, In q mesa_noted -> a5 q = Some v -> arr v <> Some []).
  { intros q v Hq Hv. rewrite <- (mode_cuts_frame _ _ _ _ _ _ E) in Hv by (unfold mesa_noted in Hq; inl; subst q; vm_compute; reflexivity).
    assert (HA : exists a, v = VArr a /\ List.length a = (List.length x1 - 2)%nat).
    { unfold mesa_noted in Hq. cbn [In] in Hq.
      assert (HS : forall n, In n structure_names -> q = "_" ++ n -> exists a, v = VArr a /\ List.length a = (List.length x1 - 2)%nat).
      { intros n Hn ->. rewrite (S n Hn) in Hv. injection Hv as <-. eexists. split; [reflexivity|]. rewrite kept_length.
        destruct (mi_st _ _ _ _ _ _ _ _ _ _ _ _ _ I n Hn) as [_ ->]. reflexivity. }
      assert (HD : forall f, In (q, f) [("_dgravpot", g); ("_drho", drho_); ("_drho2", drho2_); ("_drho3", drho3_); ("_dgravpot2", g2); ("_dgravpot3", g3);
         ("_dP", dP_); ("_dP2", dP2_); ("_dP3", dP3_)] -> exists a, v = VArr a /\ List.length a = (List.length x1 - 2)%nat).
      { intros f Hf. rewrite (D q f Hf) in Hv. injection Hv as <-. eexists. split; [reflexivity|]. apply tab_length. }
      destruct Hq as [<-|Hq]; [apply (HS "rho"); [cbn; tauto|reflexivity]|].
      do 6 (destruct Hq as [<-|Hq]; [eapply HD; repeat (first [left; reflexivity|right])|]).
      destruct Hq as [<-|Hq]; [apply (HS "P"); [cbn; tauto|reflexivity]|].
      do 3 (destruct Hq as [<-|Hq]; [eapply HD; repeat (first [left; reflexivity|right])|]). destruct Hq. }
    destruct HA as (a6 & -> & L). cbn [arr]. destruct a6; [cbn in L; lia|discriminate]. }
  assert (NE4 : forall q v, In q mesa_noted -> p4 q = Some v -> arr v <> Some []).
  { intros q v Hq Hv. rewrite <- (A4 q (noted_clean q Hq)) in Hv. exact (NE q v Hq Hv). }
  destruct (note_ok true false false mesa_noted p4 noted_clean NE4) as (p5 & F5). unfold mesa_noted in F5. rewrite F5. cbn [bind].
  destruct (note_ok true true false mesa_noted_normed p5 (fun b Hb => noted_clean b (normed_noted b Hb))) as (p6 & F6).
  { intros q v Hq Hv. apply normed_noted in Hq. rewrite (note_frame_plain _ _ _ _ _ q F5 (noted_clean q Hq)) in Hv. exact (NE4 q v Hq Hv). }
  unfold mesa_noted_normed in F6. rewrite F6. cbn [bind].
  assert (A6 : agree a5 (fill_debug structure_debug p6)).
  { pose proof (note_sim true false false mesa_noted a5 p4 A4) as S1. unfold mesa_noted in S1. rewrite F5 in S1.
    pose proof (note_sim true true false mesa_noted_normed a5 p5 S1) as S2. unfold mesa_noted_normed in S2. rewrite F6 in S2.
    apply (agree_trans _ _ _ S2 (fill_agree _ structure_debug_ok p6)). }
  destruct (sim_false_ok _ _ _ (mode_cuts_resp true true false _ _ A6) E) as (p7 & F7 & _). exists p7. exact F7.
Qed.
End Mesa.
