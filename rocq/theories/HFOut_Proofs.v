(** * Lemmas about the stored Hough functions. *)
From Coq Require Import Reals List ZArith Bool String Ascii Lia Lra.
From Verif Require Import Base Py NumInt_Model Hough_Model Hough_Spec Hough_Proofs Hough_Main HFOut_Model HFOut_Spec.
Import ListNotations.
Local Open Scope string_scope.

Definition dict (o : hobj) (r : hres) : list (string * vec) :=
  [("hr", hr_range o r); ("ht", ht_range o r); ("hp", hp_range o r); ("theta_der_hr", hrp_range o r); ("theta_der_ht", htp_range o r);
   ("theta_der_hp", hpp_range o r); ("theta_phi", theta_phi o r); ("phi_phi", phi_phi o r); ("mhr", hr_range_m o r); ("theta_der2_hr", hrpp_range o r);
   ("theta_der_hr_theta", hrp_range_theta o r); ("theta_der2_hr_theta", hrpp_range_theta o r); ("theta_der_ht_theta", htp_range_theta o r);
   ("theta_der_hp_theta", hpp_range_theta o r)].
Lemma dict_ok o r : mapM (fun n => (v <- compute_term o r n ; Ok (lower n, v))%res) function_list = Ok (dict o r).
Proof. reflexivity. Qed.
Lemma dict_names o r n : In n (map fst (dict o r)) <-> In n names.
Proof. cbn. tauto. Qed.

(** attribute names *)
Definition mode_text := list_ascii_of_string "_mode_".
Definition dchar (i : nat) : ascii := match i with 1%nat => "1" | 2%nat => "2" | _ => "3" end%char.
Lemma list_app a b : list_ascii_of_string (a ++ b) = (list_ascii_of_string a ++ list_ascii_of_string b)%list.
Proof. induction a as [|c a IH]; [reflexivity|]. cbn. rewrite IH. reflexivity. Qed.
Lemma attr_list k i : list_ascii_of_string (attribute k i) = (("_"%char :: list_ascii_of_string k ++ mode_text) ++ [dchar i])%list.
Proof.
  unfold attribute. rewrite !list_app. assert (D : list_ascii_of_string (digit i) = [dchar i]) by (destruct i as [|[|[|i]]]; reflexivity).
  rewrite D. cbn. rewrite <- app_assoc. reflexivity.
Qed.
Lemma attr_inj k i k' j : attribute k i = attribute k' j -> (1 <= i <= 3)%nat -> (1 <= j <= 3)%nat -> k = k' /\ i = j.
Proof.
  intros E Hi Hj. apply (f_equal list_ascii_of_string) in E. rewrite !attr_list in E. apply app_inj_tail in E. destruct E as [E D].
  split.
  - injection E as E. apply app_inv_tail in E. rewrite <- (string_of_list_ascii_of_string k), E, string_of_list_ascii_of_string. reflexivity.
  - destruct i as [|[|[|[|i]]]]; try lia; destruct j as [|[|[|[|j]]]]; try lia; cbn in D; congruence.
Qed.
Lemma attr_not_value k i x : attribute k i <> x ++ "s".
Proof.
  intros E. apply (f_equal list_ascii_of_string) in E. rewrite attr_list, list_app in E. cbn [list_ascii_of_string] in E. apply app_inj_tail in E.
  destruct E as [_ E]. destruct i as [|[|[|i]]]; discriminate.
Qed.
Lemma attr_mu k i : attribute k i <> "_mu_values". Proof. exact (attr_not_value k i "_mu_value"). Qed.
Lemma attr_theta k i : attribute k i <> "_theta_values". Proof. exact (attr_not_value k i "_theta_value"). Qed.

(** storing one dictionary *)
Lemma store_other d i : forall s k, (forall n, In n (map fst d) -> k <> attribute n i) -> store_dict d i s k = s k.
Proof.
  unfold store_dict. induction d as [|[n v] d IH]; intros s k H; [reflexivity|]. cbn [fold_left fst snd]. rewrite IH.
  - unfold setattr. destruct (String.eqb_spec k (attribute n i)) as [E|]; [|reflexivity]. exfalso. exact (H n (or_introl eq_refl) E).
  - intros n' Hn. apply H. right. exact Hn.
Qed.
Lemma store_in d i : (1 <= i <= 3)%nat -> NoDup (map fst d) -> forall s n v, In (n, v) d -> store_dict d i s (attribute n i) = Some v.
Proof.
  intros Hi. unfold store_dict. induction d as [|[n0 v0] d IH]; intros N s n v I; [destruct I|]. cbn in N. inversion N; subst. cbn [fold_left fst snd].
  destruct I as [E|I]; [injection E as -> ->|apply IH; assumption].
  change (fold_left (fun s kv => setattr s (attribute (fst kv) i) (snd kv)) d) with (store_dict d i). rewrite store_other.
  - unfold setattr. rewrite String.eqb_refl. reflexivity.
  - intros n' Hn E. apply attr_inj in E; try assumption. destruct E as [-> _]. contradiction.
Qed.
Lemma names_nodup : NoDup names.
Proof. unfold names. repeat (constructor; [cbn; intuition discriminate|]). constructor. Qed.
Lemma dict_nodup o r : NoDup (map fst (dict o r)).
Proof. cbn. repeat (constructor; [cbn; intuition discriminate|]). constructor. Qed.

Section World.
Variables (X : invs) (eig : mat -> list epair) (npts : nat) (uc : bool).
(** one successful computation *)
Definition mode_run (md : mode) (o1 : hobj) (r : hres) : Prop :=
  let '(l, m, nu, lmb) := md in
  exists lmb1 o, first_estimate lmb = Ok lmb1 /\ init nu l m npts lmb1 uc "lee_saio_equivalent" true = Ok o /\ hf_call X eig o = Ok o1 /\ o_res o1 = Some r.
Lemma output_inv l m nu lmb d mu th : hough_output X eig nu l m npts lmb uc true "lee_saio_equivalent" = Ok (d, mu, th) ->
  exists o1 r, mode_run (l, m, nu, lmb) o1 r /\ d = dict o1 r /\ mu = mu_full (o_h o1) /\ th = thetas_range o1.
Proof.
  unfold hough_output. destruct (first_estimate lmb) as [l1| |] eqn:E1; cbn [bind]; try discriminate.
  destruct (init nu l m npts l1 uc "lee_saio_equivalent" true) as [o| |] eqn:E2; cbn [bind]; try discriminate.
  destruct (hf_call X eig o) as [o1| |] eqn:E3; cbn [bind]; try discriminate. destruct (o_res o1) as [r|] eqn:E4; [|discriminate].
  rewrite dict_ok. cbn [bind]. intros H. exists o1, r. split; [exists l1, o; auto|].
  change (compute_term o1 r "MU") with (Ok (mu_full (o_h o1))) in H. change (compute_term o1 r "THETAS") with (Ok (thetas_range o1)) in H. cbn [bind] in H.
  inversion H. auto.
Qed.
Lemma init_fields nu l m lmb def adj o : init nu l m npts lmb uc def adj = Ok o ->
  o_nu o = nu /\ o_l o = l /\ o_m o = m /\ o_h o = Nat.div npts 2.
Proof.
  unfold init. match goal with |- (bind ?x _ = _ -> _) => destruct x as [l1| |]; cbn [bind]; try discriminate end.
  destruct (get_instructions def) as [i| |]; cbn [bind]; try discriminate. intros H. injection H as <-. cbn. auto.
Qed.
Lemma call_fields o o1 : hf_call X eig o = Ok o1 ->
  o_nu o1 = o_nu o /\ o_l o1 = o_l o /\ o_m o1 = o_m o /\ o_h o1 = o_h o /\ o_ins o1 = o_ins o.
Proof.
  unfold hf_call. destruct (estimate o) as [e| |]; cbn [bind]; try discriminate. destruct (argmin e _) as [p| |]; cbn [bind]; try discriminate.
  intros H. injection H as <-. cbn. auto.
Qed.
Lemma loop_ok : forall l last s s' res,
  NoDup (map fst l) -> (forall i, In i (map fst l) -> (1 <= i <= 3)%nat) -> store_loop X eig npts uc l last s = (s', Ok res) ->
  (forall i md, In (i, md) l -> exists o r, mode_run md o r /\ forall n v, In (n, v) (dict o r) -> s' (attribute n i) = Some v) /\
  (l = [] -> res = last) /\ (l <> [] -> exists o, o_h o = Nat.div npts 2 /\ res = Some (mu_full (o_h o), thetas_range o)).
Proof.
  induction l as [|[i md] l IH]; intros last s s' res N B E.
  - cbn in E. injection E as <- <-. split; [intros ? ? []|]. split; [reflexivity|congruence].
  - cbn [store_loop] in E. destruct md as [[[l0 m0] nu0] lmb0]. destruct (hough_output X eig nu0 l0 m0 npts lmb0 uc true "lee_saio_equivalent") as [[[d mu] th]| |] eqn:H; try discriminate.
    apply output_inv in H. destruct H as (o1 & r & RU & -> & -> & ->). cbn in N. inversion N; subst.
    destruct (IH _ _ _ _ H2 (fun j Hj => B j (or_intror Hj)) E) as (A1 & A2 & A3).
    assert (OTH : forall l last s s' res, store_loop X eig npts uc l last s = (s', res) -> forall k, (forall n j, In j (map fst l) -> In n names -> k <> attribute n j) -> s' k = s k).
    { clear. induction l as [|[i md] l IH]; intros last s s' res E k K; cbn [store_loop] in E; [injection E as <- _; reflexivity|].
      destruct md as [[[l0 m0] nu0] lmb0]. destruct (hough_output X eig nu0 l0 m0 npts lmb0 uc true "lee_saio_equivalent") as [[[d mu] th]| |] eqn:H; try (injection E as <- _; reflexivity).
      apply output_inv in H. destruct H as (o1 & r & _ & -> & -> & ->). rewrite (IH _ _ _ _ E).
      - apply store_other. intros n Hn. apply (K n i (or_introl eq_refl)). apply dict_names in Hn. exact Hn.
      - intros n j Hj. apply K. right. exact Hj. }
    split; [|split; [discriminate|]].
    + intros j md [P|P]; [|apply A1; exact P]. injection P as <- <-. exists o1, r. split; [exact RU|]. intros n v I. rewrite (OTH _ _ _ _ _ E).
      * apply store_in; [apply B; left; reflexivity|apply dict_nodup|exact I].
      * intros n' j Hj _ Q. apply attr_inj in Q; [|apply B; left; reflexivity|apply B; right; exact Hj]. destruct Q as [_ ->]. contradiction.
    + intros _. destruct l as [|x l].
      * rewrite (A2 eq_refl). exists o1. split; [|reflexivity]. destruct RU as (l1 & o & _ & I & C & _). apply init_fields in I. apply call_fields in C. intuition congruence.
      * apply A3. discriminate.
Qed.
Lemma loop_other : forall l last s s' res, store_loop X eig npts uc l last s = (s', res) ->
  forall k, (forall n j, In j (map fst l) -> In n names -> k <> attribute n j) -> s' k = s k.
Proof.
  induction l as [|[i md] l IH]; intros last s s' res E k K; cbn [store_loop] in E; [injection E as <- _; reflexivity|].
  destruct md as [[[l0 m0] nu0] lmb0]. destruct (hough_output X eig nu0 l0 m0 npts lmb0 uc true "lee_saio_equivalent") as [[[d mu] th]| |] eqn:H; try (injection E as <- _; reflexivity).
  apply output_inv in H. destruct H as (o1 & r & _ & -> & -> & ->). rewrite (IH _ _ _ _ E).
  - apply store_other. intros n Hn. apply (K n i (or_introl eq_refl)). apply dict_names in Hn. exact Hn.
  - intros n j Hj. apply K. right. exact Hj.
Qed.
End World.
