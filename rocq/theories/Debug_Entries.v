(** * The entries of the debug information *)
From Coq Require Import List ZArith Lia Reals Lra String Ascii Bool.
From Coquelicot Require Import Complex.
From Verif Require Import Base Py NumDeriv_Model Load_Model Load_Spec Load_Proofs Grid_Model Grid_Spec Grid_Proofs Grid_Interp Grid_Build Grid_Mesa Grid_Final
  Debug_Model Debug_Spec Debug_Proofs.
Import ListNotations.
Local Open Scope string_scope.

(** ** summaries *)
Lemma clt_false a b : clt a b = false -> lex_le b a.
Proof. unfold clt, lex_le. destruct (Rlt_dec (fst a) (fst b)), (Rlt_dec (fst b) (fst a)), (Rlt_dec (snd a) (snd b)); try discriminate; intros _; lra. Qed.
Lemma clt_true a b : clt a b = true -> lex_le a b.
Proof. unfold clt, lex_le. destruct (Rlt_dec (fst a) (fst b)), (Rlt_dec (fst b) (fst a)), (Rlt_dec (snd a) (snd b)); try discriminate; intros _; lra. Qed.
Lemma lex_refl a : lex_le a a. Proof. unfold lex_le. lra. Qed.
Lemma lex_trans a b c : lex_le a b -> lex_le b c -> lex_le a c. Proof. unfold lex_le. lra. Qed.
Lemma cmax_spec l : forall a, In (cmax a l) (a :: l) /\ forall b, In b (a :: l) -> lex_le b (cmax a l).
Proof.
  unfold cmax. induction l as [|c l IH]; intros a; cbn [fold_left].
  - split; [left; reflexivity|]. intros b [<-|[]]. apply lex_refl.
  - destruct (clt a c) eqn:E; [destruct (IH c) as [H1 H2]|destruct (IH a) as [H1 H2]]; split.
    + right. exact H1.
    + intros b [<-|Hb]; [|apply H2, Hb]. eapply lex_trans; [apply clt_true, E|apply H2; left; reflexivity].
    + destruct H1 as [H1|H1]; [left; exact H1|right; right; exact H1].
    + intros b [<-|[<-|Hb]]; [apply H2; left; reflexivity| |apply H2; right; exact Hb].
      eapply lex_trans; [apply clt_false, E|apply H2; left; reflexivity].
Qed.
Lemma cmin_spec l : forall a, In (cmin a l) (a :: l) /\ forall b, In b (a :: l) -> lex_le (cmin a l) b.
Proof.
  unfold cmin. induction l as [|c l IH]; intros a; cbn [fold_left].
  - split; [left; reflexivity|]. intros b [<-|[]]. apply lex_refl.
  - destruct (clt c a) eqn:E; [destruct (IH c) as [H1 H2]|destruct (IH a) as [H1 H2]]; split.
    + right. exact H1.
    + intros b [<-|Hb]; [|apply H2, Hb]. eapply lex_trans; [apply H2; left; reflexivity|apply clt_true, E].
    + destruct H1 as [H1|H1]; [left; exact H1|right; right; exact H1].
    + intros b [<-|[<-|Hb]]; [apply H2; left; reflexivity| |apply H2; right; exact Hb].
      eapply lex_trans; [apply H2; left; reflexivity|apply clt_false, E].
Qed.
Lemma summary_describes l v : summary l = Ok v -> describes l v.
Proof.
  destruct l as [|a l]; [discriminate|]. unfold summary. intros H. assert (v = VSum (cmax a l) (cmin a l) (skipn (List.length (a :: l) - 3) (a :: l)) (firstn 3 (a :: l))) as -> by congruence.
  eexists _, _, _, _. split; [reflexivity|]. split; [apply cmax_spec|]. split; [apply cmin_spec|].
  generalize (a :: l). intros m. split; [exists (firstn (List.length m - 3) m); symmetry; apply firstn_skipn|].
  split; [rewrite skipn_length; unfold C in *; lia|]. split; [exists (skipn 3 m); symmetry; apply firstn_skipn|]. rewrite firstn_length. unfold C in *. lia.
Qed.
Lemma summary_ok l : l <> [] -> exists v, summary l = Ok v.
Proof. destruct l; [congruence|]. intros _. eexists. reflexivity. Qed.

(** ** what note does *)
Definition arr (v : gval) : option (list C) := match v with VArr a => Some (map RtoC a) | VCpx a => Some a | _ => None end.
Lemma add_debug_frame normed poly a o o' k : add_debug normed poly a o = Ok o' -> k <> debug_name a normed poly -> o' k = o k.
Proof.
  unfold add_debug. intros H N.
  destruct (o a) as [[]|]; try (injection H as <-; first [reflexivity|apply oset_other, N]);
    (destruct (summary _) as [s| |e]; cbn [bind] in H; try discriminate; injection H as <-; apply oset_other, N).
Qed.
Lemma add_debug_entry normed poly a o o' v l : add_debug normed poly a o = Ok o' -> o a = Some v -> arr v = Some l ->
  exists s, summary l = Ok s /\ o' (debug_name a normed poly) = Some s.
Proof.
  unfold add_debug. intros H E L. rewrite E in H. destruct v; try discriminate; injection L as <-;
    (destruct (summary _) as [s| |e] eqn:S; cbn [bind] in H; try discriminate; injection H as <-; exists s; split; [first [exact S|reflexivity]|apply oset_same]).
Qed.
Lemma note_frame normed poly names o o' k : note true normed poly names o = Ok o' -> (forall a, In a names -> k <> debug_name a normed poly) -> o' k = o k.
Proof.
  unfold note. revert o. induction names as [|a l IH]; intros o H N; cbn [foldM] in H; [injection H as <-; reflexivity|].
  destruct (add_debug normed poly a o) as [o1| |e] eqn:E; cbn [bind] in H; try discriminate.
  rewrite (IH o1 H) by (intros; apply N; right; assumption). eapply add_debug_frame; [exact E|apply N; left; reflexivity].
Qed.
Lemma note_frame_plain normed poly names o o' k : note true normed poly names o = Ok o' -> ~ debug_attr k -> o' k = o k.
Proof. intros H N. eapply note_frame; [exact H|]. intros a _ E. apply N. rewrite E. apply debug_name_debug. Qed.
Lemma debug_name_inj a b normed poly : debug_name a normed poly = debug_name b normed poly -> a = b.
Proof. unfold debug_name. destruct poly, normed; cbn [andb]; apply app_inj_tail_s. Qed.
Lemma note_entry normed poly names o o' a v l : note true normed poly names o = Ok o' -> (forall b, In b names -> ~ debug_attr b) -> In a names ->
  o a = Some v -> arr v = Some l -> exists s, summary l = Ok s /\ o' (debug_name a normed poly) = Some s.
Proof.
  intros H N. revert o H. unfold note. induction names as [|b names IH]; intros o H Ha E L; [destruct Ha|]. cbn [foldM] in H.
  destruct (add_debug normed poly b o) as [o1| |e] eqn:E1; cbn [bind] in H; try discriminate.
  destruct (in_dec string_dec a names) as [Hi|Hi].
  - apply (IH (fun c Hc => N c (or_intror Hc)) o1 H Hi); [|exact L]. rewrite <- E. eapply add_debug_frame; [exact E1|].
    intros Q. apply (N a Ha). rewrite Q. apply debug_name_debug.
  - destruct Ha as [->|Ha]; [|contradiction]. destruct (add_debug_entry _ _ _ _ _ _ _ E1 E L) as (s & S1 & S2). exists s. split; [exact S1|].
    rewrite <- S2. change (foldM (fun o a => add_debug normed poly a o) names o1) with (note true normed poly names o1) in H.
    eapply note_frame; [exact H|]. intros c Hc Q. apply debug_name_inj in Q. subst. contradiction.
Qed.
Lemma note_ok dbg normed poly names o : (forall a, In a names -> ~ debug_attr a) ->
  (forall a v, In a names -> o a = Some v -> arr v <> Some []) -> exists o', note dbg normed poly names o = Ok o'.
Proof.
  intros N H. unfold note. destruct dbg; [|eexists; reflexivity]. revert o H. induction names as [|a names IH]; intros o H; [eexists; reflexivity|]. cbn [foldM].
  assert (exists o1, add_debug normed poly a o = Ok o1) as (o1 & E1).
  { unfold add_debug. pose proof (H a) as Ha. destruct (o a) as [v|]; [|eexists; reflexivity]. specialize (Ha v (or_introl eq_refl) eq_refl).
    destruct v; try (eexists; reflexivity); cbn [arr] in Ha; (destruct (summary_ok _ ltac:(intros Q; apply Ha; f_equal; exact Q)) as (s & ->); eexists; reflexivity). }
  rewrite E1. cbn [bind]. apply IH; [intros; apply N; right; assumption|]. intros b v Hb. rewrite (add_debug_frame _ _ _ _ _ b E1); [apply H; right; exact Hb|].
  intros Q. apply (N b (or_intror Hb)). rewrite Q. apply debug_name_debug.
Qed.
Lemma fill_keeps names k v : forall o, o k = Some v -> fill_debug names o k = Some v.
Proof.
  unfold fill_debug. induction names as [|a l IH]; intros o H; [exact H|]. cbn [fold_left]. apply IH. destruct (o a) eqn:E; [exact H|].
  rewrite oset_other; [exact H|]. intros ->. congruence.
Qed.
Lemma fill_other names k : ~ In k names -> forall o, fill_debug names o k = o k.
Proof.
  unfold fill_debug. induction names as [|a l IH]; intros H o; [reflexivity|]. cbn [fold_left]. rewrite IH by (intros Q; apply H; right; exact Q).
  destruct (o a); [reflexivity|]. apply oset_other. intros ->. apply H. left. reflexivity.
Qed.
Lemma fill_sets names k : In k names -> forall o, o k = None -> fill_debug names o k = Some VNone.
Proof.
  unfold fill_debug. induction names as [|a l IH]; intros Hk o Ho; [destruct Hk|]. cbn [fold_left]. destruct (string_dec a k) as [->|Na].
  - rewrite Ho. apply (fill_keeps l k VNone). apply oset_same.
  - destruct Hk as [->|Hk]; [congruence|]. apply IH; [exact Hk|]. destruct (o a); [exact Ho|]. rewrite oset_other; [exact Ho|congruence].
Qed.

(** ** names without debug information *)
Lemma app_split {A} (p q x y : list A) : (p ++ q = x ++ y)%list -> (exists z, p = (x ++ z)%list /\ y = (z ++ q)%list) \/ (exists z, x = (p ++ z)%list /\ q = (z ++ y)%list).
Proof.
  revert x. induction p as [|a p IH]; intros x H.
  - right. exists x. split; [reflexivity|exact H].
  - destruct x as [|b x]; [left; exists (a :: p); split; [reflexivity|symmetry; exact H]|]. cbn in H. injection H as -> H.
    destruct (IH x H) as [(z & -> & ->)|(z & -> & ->)]; [left|right]; exists z; split; reflexivity.
Qed.
Lemma debug_app a b : is_in "max_min" b = false ->
  (forall z z' y, list_ascii_of_string "max_min" = (z ++ z')%list -> list_ascii_of_string b = (z' ++ y)%list -> z' = []) ->
  debug_attr (a ++ b) -> debug_attr a.
Proof.
  intros Hb HS D. apply is_in_debug in D. apply is_in_debug. unfold is_in in *. rewrite contains_occurs in *. destruct D as (x & y & E). rewrite las_app in E.
  destruct (app_split _ _ _ _ E) as [(z & E1 & E2)|(z & E1 & E2)].
  - symmetry in E2. destruct (app_split _ _ _ _ E2) as [(z' & E3 & E4)|(z' & E3 & E4)].
    + exists x, z'. rewrite E1, E3. reflexivity.
    + rewrite (HS z z' y E3 E4) in E3. rewrite app_nil_r in E3. exists x, []. rewrite app_nil_r, E1, E3. reflexivity.
  - exfalso. assert (contains (list_ascii_of_string "max_min") (list_ascii_of_string b) = true).
    { apply contains_occurs. exists z, y. exact E2. } congruence.
Qed.
Ltac straddle :=
  let z := fresh in let z' := fresh in let y := fresh in let H1 := fresh in let H2 := fresh in
  intros z z' y H1 H2; cbn in H1;
  do 8 (destruct z as [|? z]; [cbn in H1; subst z'; first [reflexivity|cbn in H2; discriminate H2]|cbn in H1; try discriminate H1; injection H1 as ? H1]).
Lemma us_debug k : debug_attr ("_" ++ k) -> debug_attr k.
Proof.
  intros (a & b & E). destruct a as [|c a]; [cbn in E; discriminate|]. cbn in E. injection E as _ E. exists a, b. exact E.
Qed.
Lemma mode_attr_debug k i : debug_attr (mode_attr k i) -> debug_attr k.
Proof.
  rewrite mode_attr_eq. intros H. apply us_debug. revert H. apply debug_app.
  - destruct i as [|[|[|]]]; vm_compute; reflexivity.
  - destruct i as [|[|[|]]]; cbn [mode_no String.append]; straddle.
Qed.
Lemma prof_attr_debug k : debug_attr ("_" ++ k ++ "_profile") -> debug_attr k.
Proof.
  intros H. apply us_debug in H. revert H. apply debug_app; [vm_compute; reflexivity|]. straddle.
Qed.

(** ** the statements that compute do not touch debug information *)
Lemma foldM_keep {A} (f : obj -> A -> res obj) l k : (forall a s s', In a l -> f s a = Ok s' -> s' k = s k) ->
  forall s s', foldM f l s = Ok s' -> s' k = s k.
Proof.
  induction l as [|a l IH]; intros H s s' E; cbn [foldM] in E; [injection E as <-; reflexivity|].
  destruct (f s a) as [s1| |e] eqn:E1; cbn [bind] in E; try discriminate.
  rewrite (IH (fun b t t' Hb => H b t t' (or_intror Hb)) s1 s' E). eapply H; [left; reflexivity|exact E1].
Qed.
Ltac inv1 H := match type of H with
  | bind ?r _ = Ok _ => let a := fresh "a" in let E := fresh "E" in destruct r as [a| |] eqn:E; cbn [bind] in H; [|discriminate H|discriminate H]
  end.
Lemma oset_keep o n v k : debug_attr k -> ~ debug_attr n -> oset o n v k = o k.
Proof. intros D N. apply oset_other. intros ->. contradiction. Qed.
Lemma cutter_keep a s poly k o o' : cut_clean a poly -> debug_attr k -> cutter o a s poly = Ok o' -> o' k = o k.
Proof.
  intros HC D H. unfold cutter in H. inv1 H. revert H. apply foldM_keep. intros c t t' Hc E1. inv1 E1. inv1 E1. injection E1 as <-.
  apply oset_keep; [exact D|]. apply not_debug. eapply HC; eassumption.
Qed.
Lemma cut2_keep center surface l poly k o o' : (forall s, In s l -> cut_clean (CutName s) poly) -> debug_attr k -> cut2 center surface l poly o = Ok o' -> o' k = o k.
Proof.
  intros HC D H. unfold cut2 in H. inv1 H. transitivity (a k).
  - destruct surface; [|injection H as <-; reflexivity]. revert H. apply foldM_keep. intros s t t' Hs E1. eapply cutter_keep; [apply HC, Hs|exact D|exact E1].
  - destruct center; [|injection E as <-; reflexivity]. revert E. apply foldM_keep. intros s t t' Hs E1. eapply cutter_keep; [apply HC, Hs|exact D|exact E1].
Qed.
Lemma pre_cuts_keep c s poly k o o' : debug_attr k -> pre_profile_cuts c s poly o = Ok o' -> o' k = o k.
Proof. apply cut2_keep. intros n [<-|[]]. apply cut_clean_by. destruct poly; vm_compute; reflexivity. Qed.
Lemma mode_cuts_keep c s poly k o o' : debug_attr k -> mode_structure_cuts c s poly o = Ok o' -> o' k = o k.
Proof. apply cut2_keep. intros n [<-|[<-|[]]]; apply cut_clean_by; destruct poly; vm_compute; reflexivity. Qed.
Lemma osets_keep l k : (forall n a, In (n, a) l -> n <> k) -> forall o, osets l o k = o k.
Proof.
  unfold osets. induction l as [|[n a] l IH]; intros H o; [reflexivity|]. cbn [fold_left fst snd]. rewrite IH by (intros m b Hm; apply (H m b); right; exact Hm).
  apply oset_other. intros ->. apply (H n a); [left; reflexivity|reflexivity].
Qed.
Lemma structure_derivs_names der sym brunt r G G3 g rho P G1 N2 y l : structure_derivs der sym brunt r G G3 g rho P G1 N2 y = Ok l ->
  map fst l = ["_drho"; "_drho2"; "_drho3"; "_dgravpot2"; "_dgravpot3"; "_dP"; "_dP2"; "_dP3"].
Proof.
  unfold structure_derivs. intros H. inv1 H. inv1 H. inv1 H. inv1 H. destruct a2 as [g2 g3]. inv1 H. destruct a2 as [[p1 p2] p3]. injection H as <-. reflexivity.
Qed.
Lemma normed_keep P rho k o o' : has k ["_P_normed"; "_dP_normed"; "_dP2_normed"; "_dP3_normed"; "_rho_normed"; "_drho_normed"; "_drho2_normed"; "_drho3_normed"] = false ->
  normed P rho o = Ok o' -> o' k = o k.
Proof.
  intros D H. unfold normed in H. inv1 H. inv1 H. revert H. apply foldM_keep. intros [[n src] nf] t t' Ht E1. inv1 E1. inv1 E1. injection E1 as <-.
  apply oset_other. intros ->. apply has_false in D. apply D. inl; injection Ht as <- _ _; cbn; tauto.
Qed.
Lemma profiles_mesa_keep der c s sym brunt k o o' : debug_attr k -> profiles_mesa der c s sym brunt o = Ok o' -> o' k = o k.
Proof.
  intros D H. unfold profiles_mesa in H. inv1 H. rewrite <- (pre_cuts_keep _ _ _ k _ _ D E). clear E.
  repeat (inv1 H). match goal with E : structure_derivs _ _ _ _ _ _ _ _ _ _ _ _ = Ok _ |- _ => apply structure_derivs_names in E; rename E into EN end.
  rewrite (normed_keep _ _ k _ _) with (2 := H).
  - apply osets_keep. intros n b Hn ->. apply (in_map fst) in Hn. cbn [map fst] in Hn. rewrite EN in Hn. revert D. apply not_debug. inl; subst k; vm_compute; reflexivity.
  - apply has_false. intros Q. revert D. apply not_debug. inl; subst k; vm_compute; reflexivity.
Qed.
Lemma extract_profile_keep poly prof k o o' : no_debug_keys prof -> debug_attr k -> extract_profile poly prof o = Ok o' -> o' k = o k.
Proof.
  intros N D H. unfold extract_profile in H. inv1 H. inv1 H. inv1 H. 
  assert (NK : forall q w, In (q, w) prof -> ~ debug_attr ("_" ++ q) /\ ~ debug_attr ("_" ++ q ++ "_profile")).
  { intros q w Hq. apply (in_map fst) in Hq. split; intros Q; apply (N q Hq); [apply us_debug, Q|apply prof_attr_debug, Q]. }
  destruct (_ =? _)%nat; revert H; apply foldM_keep; intros [q w] t t' Hq E2.
  - destruct (has q _); [injection E2 as <-; reflexivity|]. destruct (poly || scalar w).
    + injection E2 as <-. apply oset_keep; [exact D|apply (NK q w Hq)].
    + inv1 E2. injection E2 as <-. apply oset_keep; [exact D|apply (NK q w Hq)].
  - destruct (scalar w).
    + injection E2 as <-. apply oset_keep; [exact D|apply (NK q w Hq)].
    + inv1 E2. inv1 E2. injection E2 as <-. apply oset_keep; [exact D|apply (NK q w Hq)].
Qed.
Lemma set_normalization_keep c s P rho k o o' : debug_attr k -> set_normalization c s P rho o = Ok o' -> o' k = o k.
Proof.
  intros D H. unfold set_normalization in H. inv1 H. inv1 H. injection H as <-. rewrite !oset_keep; try reflexivity; try exact D; apply not_debug; vm_compute; reflexivity.
Qed.
Lemma mode_cuts_frame c s poly k o o' : mode_structure_cuts c s poly o = Ok o' ->
  has k (match cut_names (CutName (if poly then "polytropic_cuts" else "mesa_gyre_cuts")) false with Ok l => l | _ => [] end) = false ->
  has k ["_c_1"; "_V_2"; "_As"; "_U"] = false -> o' k = o k.
Proof.
  intros H N1 N2.
  assert (CF : forall m sl l t t', cut_names (CutName m) false = Ok l -> has k l = false -> cutter t (CutName m) sl false = Ok t' -> t' k = t k).
  { intros m sl l t t' EL NL E1. unfold cutter in E1. rewrite EL in E1. cbn [bind] in E1. revert E1. apply foldM_keep. intros n u u' Hn E2. inv1 E2. inv1 E2. injection E2 as <-.
    apply oset_other. intros ->. apply has_false in NL. contradiction. }
  assert (CG : forall sl t t', foldM (fun o s => cutter o (CutName s) sl false) [if poly then "polytropic_cuts" else "mesa_gyre_cuts"; "structure_coefficient_cuts"] t = Ok t' -> t' k = t k).
  { intros sl t t'. apply foldM_keep. intros m u u' [<-|[<-|[]]] E2.
    - destruct poly; (eapply CF; [|exact N1|exact E2]; vm_compute; reflexivity).
    - eapply CF; [|exact N2|exact E2]. vm_compute. reflexivity. }
  unfold mode_structure_cuts, cut2 in H. inv1 H. transitivity (a k).
  - destruct s; [eapply CG; exact H|injection H as <-; reflexivity].
  - destruct c; [eapply CG; exact E|injection E as <-; reflexivity].
Qed.

(** ** the structure entries of the MESA object *)
Definition mesa_noted : list string := ["_rho"; "_drho"; "_drho2"; "_drho3"; "_dgravpot"; "_dgravpot2"; "_dgravpot3"; "_P"; "_dP"; "_dP2"; "_dP3"].
Definition mesa_noted_normed : list string := ["_P"; "_rho"; "_drho"; "_drho2"; "_drho3"; "_dP"; "_dP2"; "_dP3"].
Lemma not_in_by k l : has k l = false -> ~ In k l. Proof. apply has_false. Qed.
Lemma noted_clean b : In b mesa_noted -> ~ debug_attr b.
Proof. intros H. apply not_debug. revert b H. assert (H := proj1 (forallb_forall (fun b => negb (is_in "max_min" b)) mesa_noted) eq_refl). intros b Hb. apply negb_true_iff, H, Hb. Qed.
Lemma normed_noted b : In b mesa_noted_normed -> In b mesa_noted.
Proof. unfold mesa_noted_normed. intros H. inl; subst b; cbn; tauto. Qed.
Lemma ends_char a t c : endsb (String c "") (a ++ t ++ String c "") = true.
Proof. rewrite <- sapp_assoc. apply endsb_app. Qed.
Lemma suffix_ne a b : a ++ "_max_min" <> b ++ "_max_min_normed".
Proof.
  intros E. pose proof (ends_char a "_max_mi" "n") as H1. pose proof (ends_char b "_max_min_norme" "d") as H2. cbn [String.append] in H1, H2.
  change (endsb "n" (a ++ "_max_min") = true) in H1. change (endsb "d" (b ++ "_max_min_normed") = true) in H2. rewrite E in H1.
  pose proof (endsb_last_char "" _ "n" "d" H1 H2). discriminate.
Qed.
Lemma dprofiles_mesa_entries der c s sym brunt o o' : dprofiles_mesa der true c s sym brunt o = Ok o' ->
  exists p, profiles_mesa der c s sym brunt o = Ok p /\ agree p o' /\
   (forall q v l, In q mesa_noted -> p q = Some v -> arr v = Some l -> exists m, summary l = Ok m /\ o' (q ++ "_max_min") = Some m /\
      (In q mesa_noted_normed -> o' (q ++ "_max_min_normed") = Some m)) /\
   (forall k, (forall q, In q mesa_noted -> k <> q ++ "_max_min") -> (forall q, In q mesa_noted_normed -> k <> q ++ "_max_min_normed") -> ~ In k structure_debug -> o' k = p k) /\
   (forall k v, p k = Some v -> (forall q, In q mesa_noted -> k <> q ++ "_max_min") -> (forall q, In q mesa_noted_normed -> k <> q ++ "_max_min_normed") -> o' k = Some v) /\
   (forall k, In k structure_debug -> o' k <> None).
Proof.
  intros H. unfold dprofiles_mesa in H. inv1 H. rename a into p. inv1 H. rename a into p1. inv1 H. rename a into p2. assert (o' = fill_debug structure_debug p2) as -> by congruence. clear H. exists p. split; [reflexivity|]. split; [|split; [|split; [|split]]].
  - pose proof (note_sim true false false mesa_noted p p (agree_refl p)) as S1. unfold mesa_noted in S1. rewrite E0 in S1.
    pose proof (note_sim true true false mesa_noted_normed p p1 S1) as S2. unfold mesa_noted_normed in S2. rewrite E1 in S2.
    apply (agree_trans _ _ _ S2 (fill_agree _ structure_debug_ok p2)).
  - intros q v l Hq Ev Hl. destruct (note_entry _ _ _ _ _ q v l E0 noted_clean Hq Ev Hl) as (m & S1 & S2). exists m. split; [exact S1|].
    change (debug_name q false false) with (q ++ "_max_min") in S2. split.
    + apply fill_keeps. rewrite <- S2. eapply note_frame; [exact E1|]. intros b Hb. change (debug_name b true false) with (b ++ "_max_min_normed"). apply suffix_ne.
    + intros Hq2. apply fill_keeps. assert (E2 : p1 q = Some v) by (rewrite <- Ev; eapply note_frame_plain; [exact E0|apply noted_clean, Hq]).
      destruct (note_entry _ _ _ _ _ q v l E1 (fun b Hb => noted_clean b (normed_noted b Hb)) Hq2 E2 Hl) as (m' & S3 & S4). change (debug_name q true false) with (q ++ "_max_min_normed") in S4. congruence.
  - intros k N1 N2 N3. rewrite fill_other by exact N3. rewrite (note_frame _ _ _ _ _ k E1) by exact N2. apply (note_frame _ _ _ _ _ k E0). exact N1.
  - intros k v Ek N1 N2. apply fill_keeps. rewrite (note_frame _ _ _ _ _ k E1) by exact N2. rewrite (note_frame _ _ _ _ _ k E0) by exact N1. exact Ek.
  - intros k Hk Q. destruct (p2 k) as [v|] eqn:E2; [rewrite (fill_keeps _ _ _ _ E2) in Q; discriminate|]. rewrite (fill_sets _ _ Hk _ E2) in Q. discriminate.
Qed.
