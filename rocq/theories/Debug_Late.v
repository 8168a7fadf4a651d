(** * The debug information of the radial and Hough functions *)
From Coq Require Import List ZArith Lia Reals Lra String Ascii Bool.
From Coquelicot Require Import Complex.
From Verif Require Import Base Py NumDeriv_Model Load_Model Load_Spec Load_Proofs Grid_Model Grid_Spec Grid_Proofs Grid_Interp Grid_Build Grid_Mesa Grid_Final
  Debug_Model Debug_Spec Debug_Proofs Debug_Entries Debug_Build.
Import ListNotations.
Local Open Scope string_scope.

Definition radial_names : list string :=
  ["z_1"; "z_2"; "x_z_1"; "z_2_over_c_1_omega"; "x_z_2_over_c_1_omega"; "rad_der_x_z_1"; "rad_der_x_z_2_c_1_omega"; "rad_diverg"].

Section Sim.
Variable radial : obj -> string -> nat -> res gval.
Variable hough : obj -> string -> nat -> res gval.
Variables mu theta : obj -> res gval.
Variables hfac rfac : obj -> nat -> res R.
Variable poly : bool.
Hypothesis BR : forall n i, blind (fun o => radial o n i).
Hypothesis BH : forall n i, blind (fun o => hough o n i).
Hypothesis BM : blind mu.
Hypothesis BT : blind theta.
Hypothesis BF : forall i, blind (fun o => hfac o i).
Hypothesis BG : forall i, blind (fun o => rfac o i).
Lemma NS n i : In n (scaled poly) -> ~ debug_attr (mode_attr n i).
Proof.
  intros H D. apply mode_attr_debug, is_in_debug in D.
  assert (Q : forallb (fun b => negb (is_in "max_min" b)) (scaled poly) = true) by (destruct poly; vm_compute; reflexivity).
  rewrite forallb_forall in Q. specialize (Q n H). apply negb_true_iff in Q. congruence.
Qed.

Lemma hough_clean n i : In n hough_names -> ~ debug_attr (mode_attr n i).
Proof.
  intros H D. apply mode_attr_debug, is_in_debug in D.
  assert (Q := proj1 (forallb_forall (fun b => negb (is_in "max_min" b)) hough_names) eq_refl). specialize (Q n H). apply negb_true_iff in Q. congruence.
Qed.
Lemma set_all_resp names i : resp (set_all radial names i).
Proof.
  intros o o' H. unfold set_all. apply sim_foldM; [|exact H]. intros n p p' _ HP. apply sim_bindE; [exact (BR n i p p' HP)|]. intros v. apply agree_oset, HP.
Qed.
Lemma agree_get o o' k : agree o o' -> ~ debug_attr k -> oget o k = oget o' k.
Proof. intros H Hk. unfold oget. rewrite (H k Hk). reflexivity. Qed.
Definition lateD := late radial hough mu theta hfac rfac poly.
Lemma note_off normed po l o : note false normed po l o = Ok o. Proof. reflexivity. Qed.
Lemma radial_vectors_sim i o o' : agree o o' -> sim true (radial_vectors radial false i o) (radial_vectors radial true i o').
Proof. intros H. unfold radial_vectors. apply sim_bind; [apply sim_weak, set_all_resp, H|]. intros. rewrite note_off. apply note_sim. assumption. Qed.
Lemma radial_gradients_sim o o' : agree o o' -> sim true (radial_gradients radial false o) (radial_gradients radial true o').
Proof.
  intros H. unfold radial_gradients. apply sim_bind; [apply sim_foldM; [|exact H]; intros; apply sim_weak, set_all_resp; assumption|].
  intros. rewrite note_off. apply note_sim. assumption.
Qed.
Lemma divergence_sim i o o' : agree o o' -> sim true (divergence radial false i o) (divergence radial true i o').
Proof. intros H. unfold divergence. apply sim_bind; [apply sim_weak, set_all_resp, H|]. intros. rewrite note_off. apply note_sim. assumption. Qed.
Lemma store_houghs_sim o o' : agree o o' -> sim true (store_houghs hough mu theta false o) (store_houghs hough mu theta true o').
Proof.
  intros H. unfold store_houghs. apply sim_bind.
  - apply sim_foldM; [|exact H]. intros i p p' _ HP. apply sim_foldM; [|exact HP]. intros n q q' _ HQ. apply sim_bindE; [exact (BH n i q q' HQ)|]. intros v.
    rewrite note_off. apply note_sim, agree_oset, HQ.
  - clear o o' H. intros o o' H. apply sim_bindE; [exact (BM o o' H)|intros m]. apply sim_bindE; [exact (BT o o' H)|intros t]. rewrite note_off. apply note_sim, agree_oset, agree_oset, H.
Qed.
Lemma normalize_houghs_sim o o' : agree o o' -> sim true (normalize_houghs hfac false o) (normalize_houghs hfac true o').
Proof.
  intros H. unfold normalize_houghs. apply sim_foldM; [|exact H]. intros i p p' _ HP. apply sim_bindE; [exact (BF i p p' HP)|intros c].
  apply sim_foldM; [|exact HP]. intros n q q' Hn HQ. apply sim_bindE; [apply agree_get; [exact HQ|apply hough_clean, Hn]|intros v].
  apply sim_bindE; [reflexivity|intros w]. rewrite note_off. apply note_sim, agree_oset, HQ.
Qed.
Lemma normalize_radial_sim o o' : agree o o' -> sim true (normalize_radial rfac poly o) (normalize_radial rfac poly o').
Proof.
  intros H. unfold normalize_radial. apply sim_foldM; [|exact H]. intros i p p' _ HP. apply sim_bindE; [exact (BG i p p' HP)|intros c].
  apply sim_foldM; [|exact HP]. intros n q q' Hn HQ. apply sim_bindE; [apply agree_get; [exact HQ|apply NS, Hn]|intros v].
  apply sim_bindE; [reflexivity|intros w]. apply agree_oset, HQ.
Qed.
Lemma mode_debug_ok a : In a (flat_map radial_debug [1; 2; 3]%nat) \/ In a (flat_map hough_debug [1; 2; 3]%nat) -> debug_attr a.
Proof. intros H. apply is_in_debug. destruct H as [H|H]; revert a H; apply forallb_forall; vm_compute; reflexivity. Qed.
Lemma late_sim o o' : agree o o' -> sim true (lateD false o) (lateD true o').
Proof.
  intros H. unfold lateD, late.
  apply sim_bind; [apply sim_foldM; [intros; apply radial_vectors_sim; assumption|exact H]|clear o o' H; intros o o' H].
  apply sim_bind; [apply radial_gradients_sim, H|clear o o' H; intros o o' H].
  apply sim_bind; [apply sim_foldM; [intros; apply divergence_sim; assumption|exact H]|clear o o' H; intros o o' H].
  apply sim_bind; [apply store_houghs_sim, H|clear o o' H; intros o o' H].
  apply sim_bind; [apply normalize_houghs_sim, H|clear o o' H; intros o o' H].
  apply sim_bind; [apply normalize_radial_sim, H|clear o o' H; intros o o' H].
  unfold fill_modes. cbn [sim]. eapply agree_trans; [exact H|]. eapply agree_trans; [apply fill_agree|apply fill_agree]; intros a Ha; apply mode_debug_ok; tauto.
Qed.
End Sim.

(** ** entries *)
Definition noted (o : obj) (a : string) (normed : bool) (v : gval) : Prop :=
  forall l, arr v = Some l -> exists s, summary l = Ok s /\ o (debug_name a normed false) = Some s.
(** an array is computed, stored and noted *)
Lemma loop_note (F : obj -> string -> res gval) (A : string -> string) normed names : (forall n, In n names -> ~ debug_attr (A n)) ->
  (forall n m, In n names -> In m names -> A n = A m -> n = m) -> NoDup names -> forall o o',
  foldM (fun o n => v <- F o n ; note true normed false [A n] (oset o (A n) v)) names o = Ok o' ->
  (forall k, ~ In k (map A names) -> ~ In k (map (fun n => debug_name (A n) normed false) names) -> o' k = o k) /\
  (forall n, In n names -> exists p v, p (A n) = o (A n) /\ F p n = Ok v /\ o' (A n) = Some v /\ noted o' (A n) normed v).
Proof.
  induction names as [|n names IH]; intros HC HI ND o o' H; cbn [foldM] in H.
  - injection H as <-. split; [reflexivity|intros n []].
  - apply NoDup_cons_iff in ND. destruct ND as [NI ND]. inv1 H. inv1 E. 
    destruct (IH (fun m Hm => HC m (or_intror Hm)) (fun x y Hx Hy => HI x y (or_intror Hx) (or_intror Hy)) ND _ _ H) as [IF IE]. clear IH.
    rename a into o1. rename a0 into v.
    assert (FR : forall k, k <> A n -> k <> debug_name (A n) normed false -> o1 k = o k).
    { intros k K1 K2. rewrite (note_frame _ _ _ _ _ k E); [apply oset_other, K1|]. intros b [<-|[]]. exact K2. }
    assert (AN : forall m, In m names -> A m <> A n) by (intros m Hm Q; apply HI in Q; [subst; contradiction|right; exact Hm|left; reflexivity]).
    assert (KA : ~ In (A n) (map A names)) by (intros Q; apply in_map_iff in Q; destruct Q as (m & Q & Hm); exact (AN m Hm Q)).
    assert (KB : ~ In (A n) (map (fun n => debug_name (A n) normed false) names)).
    { intros Q. apply in_map_iff in Q. destruct Q as (m & Q & Hm). apply (HC n (or_introl eq_refl)). rewrite <- Q. apply debug_name_debug. }
    split.
    + intros k K1 K2. cbn [map In] in K1, K2. rewrite IF by tauto. apply FR; intros ->; tauto.
    + intros m [<-|Hm].
      * exists o, v. split; [reflexivity|]. split; [exact E0|]. split.
        -- rewrite IF by assumption. rewrite (note_frame_plain _ _ _ _ _ _ E (HC n (or_introl eq_refl))). apply oset_same.
        -- intros l L. destruct (note_entry normed false [A n] _ _ (A n) v l E) as (s & S1 & S2); [intros b [<-|[]]; apply HC; left; reflexivity|left; reflexivity|apply oset_same|exact L|].
           exists s. split; [exact S1|]. rewrite IF; [exact S2| |].
           ++ intros Q. apply in_map_iff in Q. destruct Q as (m & Q & Hm). apply (HC m (or_intror Hm)). rewrite Q. apply debug_name_debug.
           ++ intros Q. apply in_map_iff in Q. destruct Q as (m & Q & Hm). apply debug_name_inj in Q. exact (AN m Hm Q).
      * destruct (IE m Hm) as (p & w & P1 & P2 & P3 & P4). exists p, w. split; [|repeat split; assumption]. rewrite P1. apply FR; [apply AN, Hm|].
        intros Q. apply (HC m (or_intror Hm)). rewrite Q. apply debug_name_debug.
Qed.
(** an array is computed and stored *)
Lemma loop_set (F : obj -> string -> res gval) (A : string -> string) names : 
  (forall n m, In n names -> In m names -> A n = A m -> n = m) -> NoDup names -> forall o o',
  foldM (fun o n => v <- F o n ; Ok (oset o (A n) v)) names o = Ok o' ->
  (forall k, ~ In k (map A names) -> o' k = o k) /\
  (forall n, In n names -> exists p v, p (A n) = o (A n) /\ F p n = Ok v /\ o' (A n) = Some v).
Proof.
  induction names as [|n names IH]; intros HI ND o o' H; cbn [foldM] in H.
  - injection H as <-. split; [reflexivity|intros n []].
  - apply NoDup_cons_iff in ND. destruct ND as [NI ND]. inv1 H. inv1 E. rename a0 into v. assert (a = oset o (A n) v) as -> by congruence.
    destruct (IH (fun x y Hx Hy => HI x y (or_intror Hx) (or_intror Hy)) ND _ _ H) as [IF IE]. clear IH.
    assert (AN : forall m, In m names -> A m <> A n) by (intros m Hm Q; apply HI in Q; [subst; contradiction|right; exact Hm|left; reflexivity]).
    assert (KA : ~ In (A n) (map A names)) by (intros Q; apply in_map_iff in Q; destruct Q as (m & Q & Hm); exact (AN m Hm Q)).
    split.
    + intros k K1. cbn [map In] in K1. rewrite IF by tauto. apply oset_other. intros ->. tauto.
    + intros m [<-|Hm].
      * exists o, v. split; [reflexivity|]. split; [exact E0|]. rewrite IF by assumption. apply oset_same.
      * destruct (IE m Hm) as (p & w & P1 & P2 & P3). exists p, w. split; [|split; assumption]. rewrite P1. apply oset_other, AN, Hm.
Qed.

(** the attribute holds a value and, if this is an array, its entry describes it *)
Definition held (o : obj) (a : string) : Prop := exists v, o a = Some v /\ noted o a false v.
Lemma held_frame o o' a : o' a = o a -> o' (a ++ "_max_min") = o (a ++ "_max_min") -> held o a -> held o' a.
Proof. intros E1 E2 (v & H & N). exists v. rewrite E1. split; [exact H|]. intros l L. destruct (N l L) as (s & S1 & S2). exists s. split; [exact S1|]. cbn [debug_name andb] in *. rewrite E2. exact S2. Qed.
Lemma mode_attr_inj_name i n m : mode_attr n i = mode_attr m i -> n = m.
Proof. unfold mode_attr. intros H. injection H as H. apply app_inj_tail_s in H. exact H. Qed.
Definition keys (names : list string) (i : nat) : list string := flat_map (fun n => [mode_attr n i; mode_attr n i ++ "_max_min"]) names.
Definition keys_normed (names : list string) (i : nat) : list string := flat_map (fun n => [mode_attr n i; mode_attr n i ++ "_max_min_normed"]) names.
Lemma in_keys names i n : In n names -> In (mode_attr n i) (keys names i) /\ In (mode_attr n i ++ "_max_min") (keys names i).
Proof. intros H. unfold keys. split; apply in_flat_map; exists n; (split; [exact H|]); cbn [In]; tauto. Qed.
Lemma in_keys_normed names i n : In n names -> In (mode_attr n i) (keys_normed names i) /\ In (mode_attr n i ++ "_max_min_normed") (keys_normed names i).
Proof. intros H. unfold keys_normed. split; apply in_flat_map; exists n; (split; [exact H|]); cbn [In]; tauto. Qed.

Section Entries.
Variable radial : obj -> string -> nat -> res gval.
Variable hough : obj -> string -> nat -> res gval.
Variables mu theta : obj -> res gval.
Variables hfac rfac : obj -> nat -> res R.
Variable poly : bool.
Definition v5 : list string := ["z_1"; "z_2"; "x_z_1"; "z_2_over_c_1_omega"; "x_z_2_over_c_1_omega"].
Lemma set_then_note names i o o1 o' : (forall n, In n names -> ~ debug_attr (mode_attr n i)) -> NoDup names ->
  set_all radial names i o = Ok o1 -> note true false false (map (fun n => mode_attr n i) names) o1 = Ok o' ->
  (forall k, ~ In k (keys names i) -> o' k = o k) /\ (forall n, In n names -> held o' (mode_attr n i)).
Proof.
  intros HC ND H1 H2. destruct (loop_set (fun o n => radial o n i) (fun n => mode_attr n i) names (fun x y _ _ => mode_attr_inj_name i x y) ND o o1 H1) as [F E].
  split.
  - intros k K. rewrite (note_frame _ _ _ _ _ k H2).
    + apply F. intros Q. apply in_map_iff in Q. destruct Q as (n & <- & Hn). apply K, in_keys, Hn.
    + intros a Ha. apply in_map_iff in Ha. destruct Ha as (n & <- & Hn). intros ->. apply K, in_keys, Hn.
  - intros n Hn. destruct (E n Hn) as (p & v & _ & _ & V). exists v. split.
    + rewrite (note_frame_plain _ _ _ _ _ _ H2 (HC n Hn)). exact V.
    + intros l L. eapply note_entry; [exact H2| |apply (in_map (fun n => mode_attr n i)), Hn|exact V|exact L].
      intros b Hb. apply in_map_iff in Hb. destruct Hb as (m & <- & Hm). apply HC, Hm.
Qed.
Definition g2 : list string := ["rad_der_x_z_1"; "rad_der_x_z_2_c_1_omega"].
Definition i3 : list nat := [1; 2; 3]%nat.
Lemma clean_by l : forallb (fun b => negb (is_in "max_min" b)) l = true -> forall b, In b l -> ~ debug_attr b.
Proof. intros Q b H D. apply is_in_debug in D. rewrite forallb_forall in Q. specialize (Q b H). apply negb_true_iff in Q. congruence. Qed.
Lemma name_clean l i : forallb (fun b => negb (is_in "max_min" b)) l = true -> forall b, In b l -> ~ debug_attr (mode_attr b i).
Proof. intros Q b H D. apply mode_attr_debug in D. exact (clean_by l Q b H D). Qed.
Lemma gradients_entries o o' : radial_gradients radial true o = Ok o' ->
  (forall k, ~ In k (flat_map (keys g2) i3) -> o' k = o k) /\ (forall n i, In n g2 -> In i i3 -> held o' (mode_attr n i)).
Proof.
  intros H. unfold radial_gradients in H. inv1 H. rename a into q3. cbn [foldM] in E. inv1 E. rename a into q1. inv1 E. rename a into q2. inv1 E. assert (a = q3) as -> by congruence.
  assert (ND : NoDup g2) by (apply nodupb_ok; vm_compute; reflexivity).
  destruct (loop_set (fun o n => radial o n 1) (fun n => mode_attr n 1) g2 (fun x y _ _ => mode_attr_inj_name 1 x y) ND _ _ E0) as [F1 V1].
  destruct (loop_set (fun o n => radial o n 2) (fun n => mode_attr n 2) g2 (fun x y _ _ => mode_attr_inj_name 2 x y) ND _ _ E1) as [F2 V2].
  destruct (loop_set (fun o n => radial o n 3) (fun n => mode_attr n 3) g2 (fun x y _ _ => mode_attr_inj_name 3 x y) ND _ _ E2) as [F3 V3].
  set (L := flat_map (fun i => map (fun n => mode_attr n i) ["rad_der_x_z_1"; "rad_der_x_z_2_c_1_omega"]) [1; 2; 3]%nat) in *.
  assert (CL : forall b, In b L -> ~ debug_attr b) by (apply clean_by; vm_compute; reflexivity).
  split.
  - intros k K. rewrite (note_frame _ _ _ _ _ k H).
    + assert (K1 : forall i, In i i3 -> ~ In k (map (fun n => mode_attr n i) g2)).
      { intros i Hi Q. apply K. apply in_flat_map. exists i. split; [exact Hi|]. apply in_map_iff in Q. destruct Q as (n & <- & Hn). apply in_keys, Hn. }
      rewrite F3, F2, F1; [reflexivity|apply (K1 1%nat)|apply (K1 2%nat)|apply (K1 3%nat)]; cbn; tauto.
    + intros a Ha. unfold L in Ha. apply in_flat_map in Ha. destruct Ha as (i & Hi & Ha). apply in_map_iff in Ha. destruct Ha as (n & <- & Hn).
      intros ->. apply K. apply in_flat_map. exists i. split; [exact Hi|]. apply in_keys, Hn.
  - intros n i Hn Hi.
    assert (HV : exists v, q3 (mode_attr n i) = Some v).
    { destruct Hi as [<-|[<-|[<-|[]]]].
      - destruct (V1 n Hn) as (p & v & _ & _ & V). exists v. rewrite F3, F2; [exact V| |]; apply has_false; destruct Hn as [<-|[<-|[]]]; vm_compute; reflexivity.
      - destruct (V2 n Hn) as (p & v & _ & _ & V). exists v. rewrite F3; [exact V|]; apply has_false; destruct Hn as [<-|[<-|[]]]; vm_compute; reflexivity.
      - destruct (V3 n Hn) as (p & v & _ & _ & V). exists v. exact V. }
    destruct HV as (v & HV). assert (IL : In (mode_attr n i) L) by (unfold L; apply in_flat_map; exists i; split; [exact Hi|apply (in_map (fun n => mode_attr n i)), Hn]).
    exists v. split; [rewrite (note_frame_plain _ _ _ _ _ _ H (CL _ IL)); exact HV|]. intros l Hl. eapply note_entry; [exact H|exact CL|exact IL|exact HV|exact Hl].
Qed.
Lemma vectors_entries i o o' : radial_vectors radial true i o = Ok o' -> (forall k, ~ In k (keys v5 i) -> o' k = o k) /\ (forall n, In n v5 -> held o' (mode_attr n i)).
Proof.
  intros H. unfold radial_vectors in H. cbv zeta in H. inv1 H. apply (set_then_note v5 i o a o'); [apply name_clean; vm_compute; reflexivity|apply nodupb_ok; vm_compute; reflexivity|exact E|exact H].
Qed.
Lemma divergence_entries i o o' : divergence radial true i o = Ok o' -> (forall k, ~ In k (keys ["rad_diverg"] i) -> o' k = o k) /\ held o' (mode_attr "rad_diverg" i).
Proof.
  intros H. unfold divergence in H. inv1 H. destruct (set_then_note ["rad_diverg"] i o a o') as [F A]; [apply name_clean; vm_compute; reflexivity|apply nodupb_ok; vm_compute; reflexivity|exact E|exact H|].
  split; [exact F|]. apply A. left. reflexivity.
Qed.
Ltac outb := apply has_false; vm_compute; reflexivity.
(** after the radial functions *)
Definition early (o : obj) : res obj :=
  o <- foldM (fun o i => radial_vectors radial true i o) [1; 2; 3]%nat o ;
  o <- radial_gradients radial true o ;
  foldM (fun o i => divergence radial true i o) [1; 2; 3]%nat o.
Lemma early_entries o o' : early o = Ok o' -> forall n i, In n radial_names -> In i i3 -> held o' (mode_attr n i).
Proof.
  intros H. unfold early in H. inv1 H. rename a into q3. inv1 H. rename a into q4. cbn [foldM] in E, H. inv1 E. rename a into q1. inv1 E. rename a into q2. inv1 E. assert (a = q3) as -> by congruence.
  inv1 H. rename a into q5. inv1 H. rename a into q6. inv1 H. assert (a = o') as -> by congruence. clear H E.
  destruct (vectors_entries _ _ _ E1) as [F1 V1]. destruct (vectors_entries _ _ _ E2) as [F2 V2]. destruct (vectors_entries _ _ _ E3) as [F3 V3].
  destruct (gradients_entries _ _ E0) as [F4 V4]. destruct (divergence_entries _ _ _ E4) as [F5 V5]. destruct (divergence_entries _ _ _ E5) as [F6 V6]. destruct (divergence_entries _ _ _ E6) as [F7 V7].
  assert (T : forall a, ~ In a (flat_map (keys ["rad_diverg"]) i3) -> ~ In (a ++ "_max_min") (flat_map (keys ["rad_diverg"]) i3) -> held q4 a -> held o' a).
  { intros a A1 A2. assert (G : forall k, ~ In k (flat_map (keys ["rad_diverg"]) i3) -> o' k = q4 k).
    { intros k K. cbn [flat_map i3] in K. rewrite !in_app_iff in K. rewrite F7, F6, F5; tauto. }
    apply held_frame; apply G; assumption. }
  assert (T2 : forall a, ~ In a (flat_map (keys g2) i3) -> ~ In (a ++ "_max_min") (flat_map (keys g2) i3) -> held q3 a -> held q4 a) by (intros a A1 A2; apply held_frame; apply F4; assumption).
  intros n i Hn Hi. unfold radial_names in Hn.
  assert (C : In n v5 \/ In n g2 \/ n = "rad_diverg") by (revert Hn; clear; cbn; intuition).
  destruct C as [C|[C| ->]].
  - apply T; [| |apply T2].
    1-4: unfold v5 in C; cbn [In i3] in C, Hi; repeat (destruct C as [<-|C]; [repeat (destruct Hi as [<-|Hi]; [outb|]); destruct Hi|]); destruct C.
    destruct Hi as [<-|[<-|[<-|[]]]].
    + apply (held_frame q2); [apply F3| apply F3|apply (held_frame q1); [apply F2|apply F2|apply V1, C]]; clear - C; unfold v5 in C; cbn [In] in C; repeat (destruct C as [<-|C]; [outb|]); destruct C.
    + apply (held_frame q2); [apply F3| apply F3|apply V2, C]; clear - C; unfold v5 in C; cbn [In] in C; repeat (destruct C as [<-|C]; [outb|]); destruct C.
    + apply V3, C.
  - apply T; [| |apply V4; assumption]; unfold g2 in C; cbn [In i3] in C, Hi; repeat (destruct C as [<-|C]; [repeat (destruct Hi as [<-|Hi]; [outb|]); destruct Hi|]); destruct C.
  - destruct Hi as [<-|[<-|[<-|[]]]]; [|apply (held_frame q6); [apply F7; outb|apply F7; outb|exact V6]|exact V7].
    apply (held_frame q6); [apply F7; outb|apply F7; outb|]. apply (held_frame q5); [apply F6; outb|apply F6; outb|exact V5].
Qed.
Lemma hough_nodup : NoDup hough_names. Proof. apply nodupb_ok; vm_compute; reflexivity. Qed.
Lemma hough_clean' i : forall n, In n hough_names -> ~ debug_attr (mode_attr n i). Proof. apply name_clean. vm_compute. reflexivity. Qed.
Ltac hcases Hn := unfold hough_names in Hn; cbn [In] in Hn; repeat (destruct Hn as [<-|Hn]; [outb|]); destruct Hn.
Lemma not_keys (names : list string) i k : ~ In k (keys names i) -> ~ In k (map (fun n => mode_attr n i) names) /\ ~ In k (map (fun n => debug_name (mode_attr n i) false false) names).
Proof. intros K. split; intros Q; apply in_map_iff in Q; destruct Q as (n & <- & Hn); apply K, in_keys, Hn. Qed.
Lemma not_keys_normed (names : list string) i k : ~ In k (keys_normed names i) -> ~ In k (map (fun n => mode_attr n i) names) /\ ~ In k (map (fun n => debug_name (mode_attr n i) true false) names).
Proof. intros K. split; intros Q; apply in_map_iff in Q; destruct Q as (n & <- & Hn); apply K, in_keys_normed, Hn. Qed.
Definition mt_keys : list string := ["_mu_values"; "_theta_values"; "_mu_values_max_min"; "_theta_values_max_min"].
Lemma houghs_entries o o' : store_houghs hough mu theta true o = Ok o' ->
  (forall k, ~ In k (flat_map (keys hough_names) i3 ++ mt_keys)%list -> o' k = o k) /\ (forall n i, In n hough_names -> In i i3 -> held o' (mode_attr n i)).
Proof.
  intros H. unfold store_houghs in H. inv1 H. rename a into q3. cbn [foldM] in E. inv1 E. rename a into q1. inv1 E. rename a into q2. inv1 E. assert (a = q3) as -> by congruence. clear E.
  inv1 H. rename a into m. inv1 H. rename a into t.
  pose proof (fun i => loop_note (fun o n => hough o n i) (fun n => mode_attr n i) false hough_names (hough_clean' i) (fun x y _ _ => mode_attr_inj_name i x y) hough_nodup) as LN.
  destruct (LN 1%nat _ _ E0) as [F1 V1]. destruct (LN 2%nat _ _ E1) as [F2 V2]. destruct (LN 3%nat _ _ E2) as [F3 V3]. clear LN.
  assert (F4 : forall k, ~ In k mt_keys -> o' k = q3 k).
  { intros k K. unfold mt_keys in K. cbn [In] in K. rewrite (note_frame _ _ _ _ _ k H).
    - rewrite !oset_other; [reflexivity| |]; intros ->; tauto.
    - intros a [<-|[<-|[]]] ->; cbn in K; tauto. }
  split.
  - intros k K. rewrite in_app_iff in K. cbn [flat_map i3] in K. rewrite !in_app_iff in K. rewrite F4 by tauto.
    assert (K1 : ~ In k (keys hough_names 1)) by tauto. assert (K2 : ~ In k (keys hough_names 2)) by tauto. assert (K3 : ~ In k (keys hough_names 3)) by tauto.
    rewrite F3 by (apply not_keys, K3). rewrite F2 by (apply not_keys, K2). apply F1; apply not_keys, K1.
  - intros n i Hn Hi. apply (held_frame q3).
    1-2: apply F4; cbn [In i3] in Hi; repeat (destruct Hi as [<-|Hi]; [hcases Hn|]); destruct Hi.
    destruct Hi as [<-|[<-|[<-|[]]]].
    + destruct (V1 n Hn) as (p & v & _ & _ & A & B). apply (held_frame q2); [apply F3; hcases Hn|apply F3; hcases Hn|].
      apply (held_frame q1); [apply F2; hcases Hn|apply F2; hcases Hn|exists v; split; assumption].
    + destruct (V2 n Hn) as (p & v & _ & _ & A & B). apply (held_frame q2); [| |exists v; split; assumption]; apply F3; hcases Hn.
    + destruct (V3 n Hn) as (p & v & _ & _ & A & B). exists v; split; assumption.
Qed.
(** a normalised Hough function: its two entries *)
Definition hough_done (o : obj) (n : string) (i : nat) : Prop := exists p c v w, hfac p i = Ok c /\ vscale c v = Ok w /\ o (mode_attr n i) = Some w /\
  noted o (mode_attr n i) false v /\ noted o (mode_attr n i) true w.
Lemma hough_done_frame o o' n i : (forall k, In k [mode_attr n i; mode_attr n i ++ "_max_min"; mode_attr n i ++ "_max_min_normed"] -> o' k = o k) -> hough_done o n i -> hough_done o' n i.
Proof.
  intros F (p & c & v & w & H1 & H2 & H3 & H4 & H5). exists p, c, v, w. split; [exact H1|]. split; [exact H2|]. split; [rewrite F by (cbn; tauto); exact H3|].
  split; intros l L; [destruct (H4 l L) as (s & S1 & S2)|destruct (H5 l L) as (s & S1 & S2)]; exists s; (split; [exact S1|]); cbn [debug_name andb] in *; (rewrite F by (cbn; tauto)); exact S2.
Qed.
Lemma normalize_one i c o o' : In i i3 -> (exists p, hfac p i = Ok c) -> 
  foldM (fun o n => v <- oget o (mode_attr n i) ; w <- vscale c v ; note true true false [mode_attr n i] (oset o (mode_attr n i) w)) hough_names o = Ok o' ->
  (forall k, ~ In k (keys_normed hough_names i) -> o' k = o k) /\ ((forall n, In n hough_names -> held o (mode_attr n i)) -> forall n, In n hough_names -> hough_done o' n i).
Proof.
  intros Hi (p0 & P0) H.
  assert (H' : foldM (fun o n => w <- (v <- oget o (mode_attr n i) ; vscale c v) ; note true true false [mode_attr n i] (oset o (mode_attr n i) w)) hough_names o = Ok o').
  { rewrite <- H. apply foldM_ext. intros s n. destruct (oget s (mode_attr n i)); reflexivity. }
  destruct (loop_note (fun o n => v <- oget o (mode_attr n i) ; vscale c v) (fun n => mode_attr n i) true hough_names (hough_clean' i) (fun x y _ _ => mode_attr_inj_name i x y) hough_nodup _ _ H') as [F V].
  split; [intros k K; apply F; apply not_keys_normed, K|]. intros HH n Hn. destruct (HH n Hn) as (v & A & B). destruct (V n Hn) as (p & w & P1 & P2 & P3 & P4).
  unfold oget in P2. rewrite P1, A in P2. cbn [bind] in P2. exists p0, c, v, w. repeat (split; [assumption|]). split; [|exact P4].
  intros l L. destruct (B l L) as (s & S1 & S2). exists s. split; [exact S1|]. rewrite F; [exact S2| |]; cbn [i3 In] in Hi; clear - Hn Hi.
  - repeat (destruct Hi as [<-|Hi]; [hcases Hn|]); destruct Hi.
  - repeat (destruct Hi as [<-|Hi]; [hcases Hn|]); destruct Hi.
Qed.
Lemma normalize_entries o o' : normalize_houghs hfac true o = Ok o' -> (forall n i, In n hough_names -> In i i3 -> held o (mode_attr n i)) ->
  (forall k, ~ In k (flat_map (keys_normed hough_names) i3) -> o' k = o k) /\ (forall n i, In n hough_names -> In i i3 -> hough_done o' n i).
Proof.
  intros H HH. unfold normalize_houghs in H. cbn [foldM] in H. inv1 H. inv1 E. rename a0 into c1. rename a into q1. inv1 H. inv1 E1. rename a into q2. rename a0 into c2. inv1 H. inv1 E3. rename a0 into c3.
  assert (a = o') as -> by congruence. clear H.
  destruct (normalize_one 1 c1 o q1 ltac:(cbn; tauto) ltac:(eauto) E) as [F1 V1]. destruct (normalize_one 2 c2 q1 q2 ltac:(cbn; tauto) ltac:(eauto) E1) as [F2 V2].
  destruct (normalize_one 3 c3 q2 o' ltac:(cbn; tauto) ltac:(eauto) E3) as [F3 V3]. split.
  - intros k K. cbn [flat_map i3] in K. rewrite !in_app_iff in K. rewrite F3, F2, F1; tauto.
  - intros n i Hn Hi. destruct Hi as [<-|[<-|[<-|[]]]].
    + apply (hough_done_frame q2); [|apply (hough_done_frame q1)].
      1: intros k Hk; apply F3; cbn [In] in Hk; destruct Hk as [<-|[<-|[<-|[]]]]; hcases Hn.
      1: intros k Hk; apply F2; cbn [In] in Hk; destruct Hk as [<-|[<-|[<-|[]]]]; hcases Hn.
      apply V1; [|exact Hn]. intros m Hm. apply HH; [exact Hm|cbn; tauto].
    + apply (hough_done_frame q2); [intros k Hk; apply F3; cbn [In] in Hk; destruct Hk as [<-|[<-|[<-|[]]]]; hcases Hn|].
      apply V2; [|exact Hn]. clear n Hn. intros n Hn. apply (held_frame o); [apply F1; hcases Hn|apply F1; hcases Hn|apply HH; [exact Hn|cbn; tauto]].
    + apply V3; [|exact Hn]. clear n Hn. intros n Hn. apply (held_frame q1); [apply F2; hcases Hn|apply F2; hcases Hn|].
      apply (held_frame o); [apply F1; hcases Hn|apply F1; hcases Hn|apply HH; [exact Hn|cbn; tauto]].
Qed.
(** a normalised radial function: its entry *)
Definition radial_done (o : obj) (n : string) (i : nat) : Prop := exists p c v w, rfac p i = Ok c /\ vscale c v = Ok w /\ o (mode_attr n i) = Some w /\ noted o (mode_attr n i) false v.
Definition skeys (i : nat) : list string := map (fun n => mode_attr n i) (scaled poly).
Lemma scale_one i c o o' : (exists p, rfac p i = Ok c) ->
  foldM (fun o n => v <- oget o (mode_attr n i) ; w <- vscale c v ; Ok (oset o (mode_attr n i) w)) (scaled poly) o = Ok o' ->
  (forall k, ~ In k (skeys i) -> o' k = o k) /\ (forall n, In n (scaled poly) -> held o (mode_attr n i) -> radial_done o' n i).
Proof.
  intros (p0 & P0) H.
  assert (H' : foldM (fun o n => w <- (v <- oget o (mode_attr n i) ; vscale c v) ; Ok (oset o (mode_attr n i) w)) (scaled poly) o = Ok o').
  { rewrite <- H. apply foldM_ext. intros s n. destruct (oget s (mode_attr n i)); reflexivity. }
  destruct (loop_set (fun o n => v <- oget o (mode_attr n i) ; vscale c v) (fun n => mode_attr n i) (scaled poly) (fun x y _ _ => mode_attr_inj_name i x y)
    ltac:(apply nodupb_ok; destruct poly; vm_compute; reflexivity) _ _ H') as [F V].
  split; [exact F|]. intros n Hn (v & A & B). destruct (V n Hn) as (p & w & P1 & P2 & P3). unfold oget in P2. rewrite P1, A in P2. cbn [bind] in P2. exists p0, c, v, w.
  repeat (split; [assumption|]). intros l L. destruct (B l L) as (s & S1 & S2). exists s. split; [exact S1|]. rewrite F; [exact S2|].
  intros Q. apply in_map_iff in Q. destruct Q as (m & Q & Hm). apply (NS poly m i Hm). rewrite Q. apply debug_name_debug.
Qed.
Lemma scale_entries o o' : normalize_radial rfac poly o = Ok o' ->
  (forall k, ~ In k (flat_map skeys i3) -> o' k = o k) /\ (forall n i, In n radial_names -> In i i3 -> held o (mode_attr n i) -> radial_done o' n i).
Proof.
  intros H. unfold normalize_radial in H. cbn [foldM] in H. inv1 H. inv1 E. rename a0 into c1. rename a into q1. inv1 H. inv1 E1. rename a into q2. rename a0 into c2. inv1 H. inv1 E3. rename a0 into c3.
  assert (a = o') as -> by congruence. clear H.
  destruct (scale_one 1 c1 o q1 ltac:(eauto) E) as [F1 V1]. destruct (scale_one 2 c2 q1 q2 ltac:(eauto) E1) as [F2 V2]. destruct (scale_one 3 c3 q2 o' ltac:(eauto) E3) as [F3 V3].
  assert (RF : forall q q' n i, (forall k, In k [mode_attr n i; mode_attr n i ++ "_max_min"] -> q' k = q k) -> radial_done q n i -> radial_done q' n i).
  { intros q q' n i F (p & c & v & w & H1 & H2 & H3 & H4). exists p, c, v, w. split; [exact H1|]. split; [exact H2|]. split; [rewrite F by (cbn; tauto); exact H3|].
    intros l L. destruct (H4 l L) as (s & S1 & S2). exists s. split; [exact S1|]. cbn [debug_name andb] in *. rewrite F by (cbn; tauto). exact S2. }
  split.
  - intros k K. cbn [flat_map i3] in K. rewrite !in_app_iff in K. rewrite F3, F2, F1; tauto.
  - intros n i Hn Hi HH. assert (Hs : In n (scaled poly)) by (unfold scaled; apply in_app_iff; left; exact Hn).
    assert (O1 : forall j k, i <> j -> In j i3 -> In k [mode_attr n i; mode_attr n i ++ "_max_min"] -> ~ In k (skeys j)).
    { intros j k N Hj Hk Q. unfold skeys in Q. apply in_map_iff in Q. destruct Q as (m & Q & Hm). destruct Hk as [<-|[<-|[]]].
      - revert Q. apply mode_attr_other; [..|congruence]; cbn in Hi, Hj; lia.
      - apply (NS poly m j Hm). rewrite Q. apply entry_debug. }
    destruct Hi as [<-|[<-|[<-|[]]]].
    + apply (RF q2); [intros k Hk; apply F3, (O1 3%nat); [lia|cbn; tauto|exact Hk]|]. apply (RF q1); [intros k Hk; apply F2, (O1 2%nat); [lia|cbn; tauto|exact Hk]|]. apply V1; assumption.
    + apply (RF q2); [intros k Hk; apply F3, (O1 3%nat); [lia|cbn; tauto|exact Hk]|]. apply V2; [exact Hs|]. apply (held_frame o); [apply F1, (O1 1%nat)|apply F1, (O1 1%nat)|exact HH]; cbn; first [lia|tauto].
    + apply V3; [exact Hs|]. apply (held_frame q1); [apply F2, (O1 2%nat)|apply F2, (O1 2%nat)|]; [cbn; first [lia|tauto]..|].
      apply (held_frame o); [apply F1, (O1 1%nat)|apply F1, (O1 1%nat)|exact HH]; cbn; first [lia|tauto].
Qed.
Lemma late_early dbg o : late radial hough mu theta hfac rfac poly dbg o =
  (o <- (o <- foldM (fun o i => radial_vectors radial dbg i o) [1; 2; 3]%nat o ; o <- radial_gradients radial dbg o ; foldM (fun o i => divergence radial dbg i o) [1; 2; 3]%nat o) ;
   o <- store_houghs hough mu theta dbg o ; o <- normalize_houghs hfac dbg o ; o <- normalize_radial rfac poly o ; Ok (fill_modes dbg o)).
Proof.
  unfold late. destruct (foldM (fun o i => radial_vectors radial dbg i o) [1; 2; 3]%nat o) as [p| |e]; cbn [bind]; try reflexivity.
  destruct (radial_gradients radial dbg p); reflexivity.
Qed.
Theorem late_entries o o' : late radial hough mu theta hfac rfac poly true o = Ok o' ->
  (forall n i, In n radial_names -> In i i3 -> radial_done o' n i) /\ (forall n i, In n hough_names -> In i i3 -> hough_done o' n i).
Proof.
  intros H. rewrite late_early in H. inv1 H. rename a into q1. inv1 H. rename a into q2. inv1 H. rename a into q3. inv1 H. rename a into q4. assert (o' = fill_modes true q4) as -> by congruence. clear H.
  pose proof (early_entries _ _ E) as R1. destruct (houghs_entries _ _ E0) as [F2 H2]. destruct (normalize_entries _ _ E1 H2) as [F3 H3]. destruct (scale_entries _ _ E2) as [F4 R4].
  assert (FF : forall k v, q4 k = Some v -> fill_modes true q4 k = Some v) by (intros k v K; unfold fill_modes; apply fill_keeps, fill_keeps, K).
  assert (NF : forall a b v, noted q4 a b v -> noted (fill_modes true q4) a b v) by (intros a b v N l L; destruct (N l L) as (s & S1 & S2); exists s; split; [exact S1|apply FF, S2]).
  split.
  - intros n i Hn Hi. destruct (R4 n i Hn Hi) as (p & c & v & w & A1 & A2 & A3 & A4).
    + apply (held_frame q2); [apply F3; unfold radial_names in Hn; cbn [In i3] in Hn, Hi; repeat (destruct Hn as [<-|Hn]; [repeat (destruct Hi as [<-|Hi]; [outb|]); destruct Hi|]); destruct Hn|apply F3; unfold radial_names in Hn; cbn [In i3] in Hn, Hi; repeat (destruct Hn as [<-|Hn]; [repeat (destruct Hi as [<-|Hi]; [outb|]); destruct Hi|]); destruct Hn|].
      apply (held_frame q1); [apply F2; unfold radial_names in Hn; cbn [In i3] in Hn, Hi; repeat (destruct Hn as [<-|Hn]; [repeat (destruct Hi as [<-|Hi]; [outb|]); destruct Hi|]); destruct Hn|apply F2; unfold radial_names in Hn; cbn [In i3] in Hn, Hi; repeat (destruct Hn as [<-|Hn]; [repeat (destruct Hi as [<-|Hi]; [outb|]); destruct Hi|]); destruct Hn|apply R1; assumption].
    + exists p, c, v, w. split; [exact A1|]. split; [exact A2|]. split; [apply FF, A3|apply NF, A4].
  - intros n i Hn Hi. destruct (hough_done_frame q3 q4 n i) with (2 := H3 n i Hn Hi) as (p & c & v & w & A1 & A2 & A3 & A4 & A5).
    + intros k Hk. apply F4. cbn [In] in Hk. destruct Hk as [<-|Hk].
      * unfold skeys. cbn [In i3] in Hi. repeat (destruct Hi as [<-|Hi]; [destruct poly; hcases Hn|]); destruct Hi.
      * intros Q. apply in_flat_map in Q. destruct Q as (j & _ & Q). apply in_map_iff in Q. destruct Q as (m & Q & Hm). apply (NS poly m j Hm). rewrite Q.
        destruct Hk as [<-|[<-|[]]]; [apply entry_debug|apply normed_debug].
    + exists p, c, v, w. split; [exact A1|]. split; [exact A2|]. split; [apply FF, A3|]. split; apply NF; assumption.
Qed.
End Entries.
