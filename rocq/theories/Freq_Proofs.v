(** * Lemmas on the frequency handling. *)
From Coq Require Import Reals List String Ascii ZArith Bool Lia Lra.
From Verif Require Import Base Py Stab_Model Stat_Model Stat_Proofs Freq_Model Freq_Spec.
Import ListNotations.
Local Open Scope R_scope.
Local Open Scope string_scope.

Lemma two_pi_pos : 0 < 2 * PI. Proof. pose proof PI_RGT_0. lra. Qed.
Lemma two_pi_neq : 2 * PI <> 0. Proof. pose proof two_pi_pos. lra. Qed.

Lemma up_lo c : up_ascii (lo_ascii c) = up_ascii c.
Proof. destruct c as [[] [] [] [] [] [] [] []]; reflexivity. Qed.
Lemma lo_up c : lo_ascii (up_ascii c) = lo_ascii c.
Proof. destruct c as [[] [] [] [] [] [] [] []]; reflexivity. Qed.
Lemma upper_lower s : upper (lower s) = upper s.
Proof. unfold upper, lower. induction s; cbn; [reflexivity|]. rewrite up_lo, IHs. reflexivity. Qed.
Lemma lower_upper s : lower (upper s) = lower s.
Proof. unfold upper, lower. induction s; cbn; [reflexivity|]. rewrite lo_up, IHs. reflexivity. Qed.

Ltac cases_in H := repeat match type of H with context [?a =? ?b] =>
  let E := fresh "E" in destruct (a =? b) eqn:E; [apply String.eqb_eq in E|] end.
Lemma assoc_in {A} k (l : list (string * A)) v : assoc k l = Some v -> In (k, v) l.
Proof.
  induction l as [|[k' v'] l IH]; cbn; [discriminate|]. destruct (k =? k') eqn:E.
  - apply String.eqb_eq in E. subst. intros [= ->]. now left.
  - intros H. right. auto.
Qed.
Lemma assoc_none {A} k (l : list (string * A)) : assoc k l = None -> ~ In k (map fst l).
Proof.
  induction l as [|[k' v'] l IH]; cbn; [auto|]. destruct (k =? k') eqn:E; [discriminate|].
  apply String.eqb_neq in E. intros H [->|I]; [congruence|]. exact (IH H I).
Qed.

(** every table entry multiplies by the quotient of the unit sizes *)
Lemma table_ok u r b f : factor_from_str u r b = Ok (Some f) ->
  exists su sr, unit_size u = Some su /\ requested_size (upper r) = Some sr /\ 0 < su /\ 0 < sr /\ forall x, f x = x * su / sr.
Proof.
  unfold factor_from_str. destruct (assoc (upper r) requested_members) as [[t|]|] eqn:E; try discriminate.
  destruct (assoc u t) as [f'|] eqn:E2; [|destruct b; discriminate]. intros [= ->].
  apply assoc_in in E. apply assoc_in in E2.
  pose proof PI_RGT_0 as HP. pose proof two_pi_neq as H2.
  assert (0 < 1 / (2 * PI)) by (apply Rdiv_lt_0_compat; lra).
  repeat (destruct E as [E|E]; [try discriminate E; injection E as <- <-;
    repeat (destruct E2 as [E2|E2]; [injection E2 as <- <-; do 2 eexists; (split; [reflexivity|]); (split; [reflexivity|]); (split; [lra|]); (split; [lra|]); intros x; field; lra|]); destruct E2|]).
  destruct E.
Qed.
Lemma table_total u r b su sr : unit_size u = Some su -> requested_size (upper r) = Some sr ->
  exists f, factor_from_str u r b = Ok (Some f).
Proof.
  unfold requested_size, unit_size, factor_from_str. intros Hu Hr.
  assert (Eu : u = "HZ" \/ u = "UHZ" \/ u = "RAD_PER_SEC" \/ u = "CYC_PER_DAY").
  { cases_in Hu; auto. discriminate. }
  assert (Er : upper r = "CPD" \/ upper r = "HZ" \/ upper r = "UHZ" \/ upper r = "RAD_PER_SEC" \/ upper r = "CYC_PER_DAY").
  { cases_in Hr; auto 7. discriminate. }
  destruct Er as [->|[->|[->|[->| ->]]]]; cbn [assoc requested_members String.eqb Ascii.eqb Bool.eqb];
  destruct Eu as [->|[->|[->| ->]]]; eexists; reflexivity.
Qed.
Definition not_implemented : list string :=
  ["NONE"; "ACOUSTIC_DELTA"; "GRAVITY_DELTA"; "UPPER_DELTA"; "LOWER_DELTA"; "ACOUSTIC_CUTOFF"; "GRAVITY_CUTOFF"; "ROSSBY_I"; "ROSSBY_O"; "CRITICAL"].
(** full classification of the outcomes of the string look-up *)
Lemma from_str_cases u r b :
  match requested_size (upper r) with
  | Some _ => match unit_size u with
              | Some _ => exists f, factor_from_str u r b = Ok (Some f)
              | None => factor_from_str u r b = if b then Ok None else Exc SystemExit
              end
  | None => factor_from_str u r b = if existsb (String.eqb (upper r)) not_implemented then Exc TypeError else Exc KeyError
  end.
Proof.
  destruct (requested_size (upper r)) eqn:Hr.
  - destruct (unit_size u) eqn:Hu; [eapply table_total; eassumption|].
    unfold factor_from_str. destruct (assoc (upper r) requested_members) as [[t|]|] eqn:E.
    + destruct (assoc u t) as [f|] eqn:E2; [|reflexivity]. exfalso.
      assert (Hf : factor_from_str u r b = Ok (Some f)) by (unfold factor_from_str; rewrite E, E2; reflexivity).
      apply table_ok in Hf. destruct Hf as (su & _ & Hsu & _). congruence.
    + exfalso. apply assoc_in in E.
      repeat (destruct E as [E|E]; [try discriminate E; injection E as E; rewrite <- E in Hr; discriminate Hr|]). destruct E.
    + exfalso. apply assoc_none in E. apply E. unfold requested_size, unit_size in Hr.
      cases_in Hr; try discriminate; match goal with H : upper r = _ |- _ => rewrite H end; cbn; auto 20.
  - unfold factor_from_str. destruct (assoc (upper r) requested_members) as [[t|]|] eqn:E.
    + exfalso. apply assoc_in in E.
      repeat (destruct E as [E|E]; [try discriminate E; injection E as E _; rewrite <- E in Hr; discriminate Hr|]). destruct E.
    + apply assoc_in in E.
      repeat (destruct E as [E|E]; [try discriminate E; injection E as E; rewrite <- E; reflexivity|]). destruct E.
    + apply assoc_none in E. destruct (existsb _ _) eqn:X; [|reflexivity]. exfalso. apply E.
      apply existsb_exists in X. destruct X as (s & I & Es). apply String.eqb_eq in Es. rewrite Es.
      repeat (destruct I as [<-|I]; [cbn; auto 20|]). destruct I.
Qed.

Lemma angular_iff r sr : requested_size (upper r) = Some sr -> is_angular_frequency r = (upper r =? "RAD_PER_SEC").
Proof.
  intros H. unfold is_angular_frequency. cbv zeta.
  destruct (lower r =? "rps") eqn:E1; [apply String.eqb_eq in E1; exfalso; rewrite <- upper_lower, E1 in H; discriminate H|].
  destruct (lower r =? "rad_per_sec") eqn:E2; [apply String.eqb_eq in E2; rewrite <- upper_lower, E2; reflexivity|].
  destruct (lower r =? "rpd") eqn:E3; [apply String.eqb_eq in E3; exfalso; rewrite <- upper_lower, E3 in H; discriminate H|].
  destruct (lower r =? "rad_per_day") eqn:E4; [apply String.eqb_eq in E4; exfalso; rewrite <- upper_lower, E4 in H; discriminate H|].
  destruct (upper r =? "RAD_PER_SEC") eqn:E5; [|reflexivity].
  apply String.eqb_eq in E5. apply String.eqb_neq in E2. exfalso. apply E2. rewrite <- lower_upper, E5. reflexivity.
Qed.

Lemma cyclic_of_requested r sr : requested_size (upper r) = Some sr ->
  exists c, cyclic_size (upper r) = Some c /\ 0 < c /\
  (if is_angular_frequency r then c = 1 /\ sr = 1 / (2 * PI) else sr = c).
Proof.
  intros H. rewrite (angular_iff r sr H). unfold cyclic_size. pose proof two_pi_pos.
  destruct (upper r =? "RAD_PER_SEC") eqn:E.
  - apply String.eqb_eq in E. rewrite E in H. injection H as <-. exists 1. repeat split; lra.
  - exists sr. repeat split; auto. unfold requested_size, unit_size in H. rewrite E in H.
    cases_in H; try discriminate; injection H as <-; lra.
Qed.

(** the conversion function of a mode dictionary, in terms of cycles per second *)
Lemma from_dict_ok d r b f : factor_from_dict d r b = Ok f ->
  exists sr, requested_size (upper r) = Some sr /\ 0 < sr /\
  forall x, f x = stored_hz (freq_units d) (G d) (M_star d) (R_star d) x / sr.
Proof.
  unfold factor_from_dict, stored_hz. pose proof (from_str_cases (freq_units d) r b) as C.
  destruct (requested_size (upper r)) as [sr|] eqn:Hr.
  - destruct (unit_size (freq_units d)) as [su|] eqn:Hu.
    + destruct C as [g Hg]. rewrite Hg. intros [= <-]. apply table_ok in Hg. destruct Hg as (su' & sr' & Hu' & Hr' & ? & ? & Hf).
      exists sr. rewrite Hu in Hu'. rewrite Hr in Hr'. injection Hu' as <-. injection Hr' as <-. auto.
    + rewrite C. destruct b; [|discriminate].
      destruct (table_total "RAD_PER_SEC" r false (1 / (2 * PI)) sr eq_refl Hr) as [g Hg]. rewrite Hg. intros [= <-].
      apply table_ok in Hg. destruct Hg as (su' & sr' & Hu' & Hr' & ? & ? & Hf).
      rewrite Hr in Hr'. injection Hr' as <-. injection Hu' as <-. exists sr. repeat split; auto.
      intros x. rewrite Hf. unfold dyn_rate. pose proof two_pi_neq. field. lra.
  - rewrite C. pose proof (from_str_cases "RAD_PER_SEC" r false) as C2. rewrite Hr in C2. rewrite C2.
    destruct (existsb _ _); discriminate.
Qed.
Lemma from_dict_total d r sr : requested_size (upper r) = Some sr -> exists f, factor_from_dict d r true = Ok f.
Proof.
  intros Hr. unfold factor_from_dict. pose proof (from_str_cases (freq_units d) r true) as C. rewrite Hr in C.
  destruct (unit_size (freq_units d)).
  - destruct C as [f Hf]. rewrite Hf. eexists. reflexivity.
  - rewrite C. destruct (table_total "RAD_PER_SEC" r false (1 / (2 * PI)) sr eq_refl Hr) as [g Hg]. rewrite Hg. eexists. reflexivity.
Qed.

Definition mode_hz (d : mode_dict) (x : R) : R := stored_hz (freq_units d) (G d) (M_star d) (R_star d) x.

Section Pass.
  Variables (r : string) (sr c rps : R).
  Hypothesis Hr : requested_size (upper r) = Some sr.
  Hypothesis Hc : cyclic_size (upper r) = Some c.
  Let ang := is_angular_frequency r.
  Let rot := rps * (1 / (2 * PI)) / sr.
  Let W := rps / (2 * PI).

  Lemma pass_scale : 0 < c /\ 0 < sr /\ (if ang then c = 1 /\ sr = 1 / (2 * PI) else sr = c).
  Proof.
    destruct (cyclic_of_requested r sr Hr) as (c' & Hc' & P & E). rewrite Hc in Hc'. injection Hc' as <-.
    repeat split; auto. unfold ang. destruct (is_angular_frequency r); [|lra]. destruct E as [_ ->].
    pose proof two_pi_pos. apply Rdiv_lt_0_compat; lra.
  Qed.
  Lemma ocf_scale w : ocf ang (w / sr) = 2 * PI * w / c.
  Proof. destruct pass_scale as (? & ? & E). unfold ocf. pose proof two_pi_neq. destruct ang; [destruct E as [-> ->]|subst c]; field; lra. Qed.
  Lemma fcf_scale w : fcf ang (w / sr) = w / c.
  Proof. destruct pass_scale as (? & ? & E). unfold fcf. pose proof two_pi_neq. destruct ang; [destruct E as [-> ->]|subst c]; field; lra. Qed.

  Lemma nad_pass_ok d cff : (forall x, cff x = mode_hz d x / sr) ->
    let w := mode_hz d (fst (freq d)) in
    let ci := to_inertial (freq_frame d) (m d) W w in
    let cc := to_corotating (freq_frame d) (m d) W w in
    nad_pass ang rot d cff = ({| corot_f := cc / c; inert_f := ci / c; corot_o := 2 * PI * cc / c; inert_o := 2 * PI * ci / c |},
                              2 * PI * mode_hz d (snd (freq d)) / c).
  Proof.
    intros Hf w ci cc. unfold nad_pass. rewrite !Hf, !ocf_scale, !fcf_scale. fold w.
    unfold ci, cc, to_inertial, to_corotating, rot, W. destruct pass_scale as (? & ? & E). pose proof two_pi_neq.
    destruct (freq_frame d =? "INERTIAL"); destruct ang;
      (subst c || destruct E as [-> ->]); f_equal; f_equal; field; lra.
  Qed.
  Lemma mode_pass_ok g0 d cff : (forall x, cff x = mode_hz d x / sr) ->
    let w := mode_hz d (fst (freq d)) in
    let ci := to_inertial (freq_frame d) (m d) W w in
    let cc := to_corotating (freq_frame d) (m d) W w in
    mode_pass ang rot g0 d cff =
      {| corot_f := if (freq_frame d =? "INERTIAL") && ang then g0 / (2 * PI) else cc / c;
         inert_f := ci / c; corot_o := 2 * PI * cc / c; inert_o := 2 * PI * ci / c |}.
  Proof.
    intros Hf w ci cc. unfold mode_pass. rewrite !Hf, !ocf_scale, !fcf_scale. fold w.
    unfold ci, cc, to_inertial, to_corotating, rot, W. destruct pass_scale as (? & ? & E). pose proof two_pi_neq.
    destruct (freq_frame d =? "INERTIAL"); destruct ang;
      (subst c || destruct E as [-> ->]); cbn [andb]; f_equal; field; lra.
  Qed.
End Pass.

Lemma mode_loop_nth ang rot garbage l i k : nth_error (mode_loop ang rot garbage k l) i =
  match nth_error l i with Some (d, f) => Some (mode_pass ang rot (garbage (k + i)%nat) d f) | None => None end.
Proof.
  revert i k. induction l as [|[d f] l IH]; intros [|i] k; cbn; try reflexivity.
  - rewrite Nat.add_0_r. reflexivity.
  - rewrite IH. replace (S k + i)%nat with (k + S i)%nat by lia. reflexivity.
Qed.
Lemma mode_loop_length ang rot garbage l k : List.length (mode_loop ang rot garbage k l) = List.length l.
Proof. revert k. induction l as [|[d f] l IH]; intros k; cbn; [|rewrite IH]; reflexivity. Qed.

Lemma nth_error_combine {A B} (l : list A) (l' : list B) i : nth_error (combine l l') i =
  match nth_error l i, nth_error l' i with Some a, Some b => Some (a, b) | _, _ => None end.
Proof.
  revert l' i. induction l as [|a l IH]; intros l' i.
  - destruct i; reflexivity.
  - destruct l' as [|b l']; [destruct i; cbn; [reflexivity|destruct (nth_error l i); reflexivity]|].
    destruct i; cbn; [reflexivity|apply IH].
Qed.

Lemma store_cffs_ok ds r fs : store_cffs ds r = Ok fs -> List.length fs = List.length ds /\
  forall i d, nth_error ds i = Some d -> exists f sr, nth_error fs i = Some f /\ requested_size (upper r) = Some sr /\ 0 < sr /\ forall x, f x = mode_hz d x / sr.
Proof.
  intros H. apply mapM_inv in H. destruct H as [L H]. split; [exact L|]. intros i d Hi.
  destruct (nth_error fs i) as [f|] eqn:E.
  - destruct (H i f E) as (d' & Hd' & F). rewrite Hi in Hd'. injection Hd' as <-.
    destruct (from_dict_ok _ _ _ _ F) as (sr & Hsr & P & Hf). exists f, sr. auto.
  - exfalso. apply nth_error_None in E. assert (i < List.length ds)%nat by (apply nth_error_Some; congruence). lia.
Qed.

(** Everything a constructed handler stores, in cycles per second. *)
Lemma handler_ok garbage ds r h : set_mode_info garbage ds r = Ok h ->
  exists sr c, requested_size (upper r) = Some sr /\ cyclic_size (upper r) = Some c /\ 0 < c /\
  rotation_rps ds = Ok (h_rps h) /\ h_angular h = is_angular_frequency r /\
  h_rot h = h_rps h * (1 / (2 * PI)) / sr /\ List.length (h_modes h) = List.length ds /\
  h_dicts h = ds /\ h_requested h = r /\ store_cffs ds r = Ok (h_cffs h) /\
  (forall i d, nth_error ds i = Some d ->
     let W := h_rps h / (2 * PI) in
     let w := mode_hz d (fst (freq d)) in
     let ci := to_inertial (freq_frame d) (m d) W w in
     let cc := to_corotating (freq_frame d) (m d) W w in
     nth_error (h_modes h) i = Some
      {| corot_f := if (freq_frame d =? "INERTIAL") && h_angular h then garbage i / (2 * PI) else cc / c;
         inert_f := ci / c; corot_o := 2 * PI * cc / c; inert_o := 2 * PI * ci / c |}) /\
  h_spin h = map (fun x => spin_factor (h_angular h) (h_rot h) (corot_o x)) (h_modes h) /\
  dim_factor ds r = Ok (h_dimfac h) /\ detuning_of (map corot_o (h_modes h)) = Ok (h_detuning h).
Proof.
  unfold set_mode_info. destruct (store_cffs ds r) as [fs| |] eqn:Ef; try discriminate. cbn [bind].
  destruct (rotation_frequency ds r) as [[rps rot]| |] eqn:Er; try discriminate. cbn [bind fst snd].
  destruct (dim_factor ds r) as [df| |] eqn:Ed; try discriminate. cbn [bind].
  destruct (detuning_of _) as [det| |] eqn:Et; try discriminate. intros [= <-].
  cbn [h_angular h_rps h_rot h_modes h_spin h_dimfac h_detuning h_dicts h_requested h_cffs].
  unfold rotation_frequency in Er. destruct (factor_from_str "RAD_PER_SEC" r false) as [[f|]| |] eqn:Es; try discriminate.
  destruct (rotation_rps ds) as [rps'| |] eqn:Erps; try discriminate. injection Er as -> <-.
  destruct (table_ok _ _ _ _ Es) as (su & sr & Hsu & Hsr & _ & _ & Hf). injection Hsu as <-.
  destruct (cyclic_of_requested r sr Hsr) as (c & Hc & Pc & _).
  exists sr, c. destruct (store_cffs_ok _ _ _ Ef) as [L HF].
  repeat split; auto.
  - rewrite mode_loop_length, combine_length, L. apply Nat.min_id.
  - intros i d Hi. cbv zeta. rewrite mode_loop_nth, nth_error_combine, Hi. destruct (HF i d Hi) as (g & sr' & Hg & Hsr' & _ & Hg').
    rewrite Hsr in Hsr'. injection Hsr' as <-. rewrite Hg, Hf. cbn [Nat.add].
    f_equal. exact (mode_pass_ok r sr c rps Hsr Hc (garbage i) d g Hg').
Qed.

Lemma rsum_combo (a b : R) (l : list R) : rsum (map (fun x => a * x / b) l) = a * rsum l / b.
Proof. induction l; cbn; [unfold Rdiv; ring|]. rewrite IHl. unfold Rdiv. ring. Qed.
