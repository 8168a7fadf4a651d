(** * Frequencies and detunings as asked for by number (C187). *)
From Coq Require Import Reals List ZArith Bool Lia Lra String.
From Verif Require Import Base Py Freq_Model Freq_Spec Freq_Proofs Properties_Freq FreqGet_Model FreqGet_Spec.
Import ListNotations.
Local Open Scope R_scope.

Lemma numbered_py {A} (l : list A) nr : py_get l (nr - 1) = match numbered l nr with Some x => Ok x | None => Exc IndexError end.
Proof.
  unfold py_get, numbered. destruct (Z.ltb_spec (nr - 1) 0); destruct (Z.leb_spec 1 nr); try lia.
  - replace (nr - 1 + Z.of_nat (List.length l))%Z with (nr + Z.of_nat (List.length l) - 1)%Z by lia.
    destruct (Z.ltb_spec (nr + Z.of_nat (List.length l) - 1) 0); destruct (Z.leb_spec 0 (nr + Z.of_nat (List.length l) - 1)); try lia; reflexivity.
  - destruct (Z.ltb_spec (nr - 1) 0); [lia|reflexivity].
Qed.
Lemma numbered_map {A B} (f : A -> B) l nr : numbered (map f l) nr = option_map f (numbered l nr).
Proof. unfold numbered. rewrite map_length. destruct (1 <=? nr)%Z; [apply nth_error_map|]. destruct (0 <=? _)%Z; [apply nth_error_map|reflexivity]. Qed.
Lemma pair_map {A} (f g : A -> R) l nr : get_pair (map f l) (map g l) nr = match numbered l nr with Some x => Ok [[f x]; [g x]] | None => Exc IndexError end.
Proof. unfold get_pair. rewrite !numbered_py, !numbered_map. destruct (numbered l nr); reflexivity. Qed.
Lemma numbered_idx {A} (l : list A) nr x : numbered l nr = Some x -> exists i, nth_error l i = Some x /\ forall B (k : list B), List.length k = List.length l -> numbered k nr = nth_error k i.
Proof.
  unfold numbered. intros H. destruct (1 <=? nr)%Z.
  - eexists. split; [exact H|]. reflexivity.
  - destruct (0 <=? _)%Z eqn:E; [|discriminate]. eexists. split; [exact H|]. intros B k L. rewrite L, E. reflexivity.
Qed.
Lemma numbered_none {A B} (l : list A) (k : list B) nr : List.length k = List.length l -> numbered l nr = None -> numbered k nr = None.
Proof.
  unfold numbered. intros L H. destruct (1 <=? nr)%Z; [|destruct (0 <=? _)%Z eqn:E; rewrite L, E; [|reflexivity]];
  apply nth_error_None; rewrite L; apply nth_error_None; exact H.
Qed.

(** C187: a numbered mode's angular frequencies come as a column of two, the co-rotating one first, in the requested unit of time;
    a number that refers to no mode is an IndexError. *)
Theorem C187_angular_frequencies_of_a_numbered_mode : forall garbage ds r h nr, set_mode_info garbage ds r = Ok h ->
  exists c, cyclic_size (upper r) = Some c /\
  match numbered ds nr with
  | Some d => exists a b, get_inert_corot_o h nr = Ok [[a]; [b]] /\
      a * c = 2 * PI * cyc_corot (h_rps h) d /\ b * c = 2 * PI * cyc_inert (h_rps h) d
  | None => get_inert_corot_o h nr = Exc IndexError
  end.
Proof.
  intros garbage ds r h nr H. destruct (C41_stored_frequencies _ _ _ _ H) as (c & Hc & Hm). exists c. split; [exact Hc|].
  destruct (handler_ok _ _ _ _ H) as (_ & _ & _ & _ & _ & _ & _ & _ & Len & _).
  unfold get_inert_corot_o. rewrite pair_map. destruct (numbered ds nr) as [d|] eqn:E.
  - destruct (numbered_idx _ _ _ E) as (i & Hi & K). rewrite (K _ (h_modes h) Len). destruct (Hm i d Hi) as (x & Hx & _ & B & A & _).
    rewrite Hx. do 2 eexists. split; [reflexivity|]. split; [exact A|exact B].
  - rewrite (numbered_none ds (h_modes h) nr Len E). reflexivity.
Qed.

(** C187: the same for cyclic frequencies; the co-rotating entry is right unless an angular unit was asked for and the mode is stored in the
    inertial frame, when it is whatever memory held, divided by 2 pi. *)
Theorem C187_cyclic_frequencies_of_a_numbered_mode : forall garbage ds r h nr, set_mode_info garbage ds r = Ok h ->
  exists c, cyclic_size (upper r) = Some c /\
  match numbered ds nr with
  | Some d => exists a b, get_inert_corot_f h nr = Ok [[a]; [b]] /\ b * c = cyc_inert (h_rps h) d /\
      (freq_frame d <> "INERTIAL"%string \/ is_angular_frequency r = false -> a * c = cyc_corot (h_rps h) d) /\
      (freq_frame d = "INERTIAL"%string -> is_angular_frequency r = true -> exists i, a = garbage i / (2 * PI))
  | None => get_inert_corot_f h nr = Exc IndexError
  end.
Proof.
  intros garbage ds r h nr H. destruct (C41_stored_frequencies _ _ _ _ H) as (c & Hc & Hm). exists c. split; [exact Hc|].
  destruct (handler_ok _ _ _ _ H) as (_ & _ & _ & _ & _ & _ & _ & _ & Len & _).
  unfold get_inert_corot_f. rewrite pair_map. destruct (numbered ds nr) as [d|] eqn:E.
  - destruct (numbered_idx _ _ _ E) as (i & Hi & K). rewrite (K _ (h_modes h) Len). destruct (Hm i d Hi) as (x & Hx & B & _ & _ & A).
    rewrite Hx. do 2 eexists. split; [reflexivity|]. split; [exact B|]. split; [exact A|].
    intros F An. destruct (C41_uninitialised_corotating_frequency _ _ _ _ _ _ H Hi F An) as (x' & Hx' & G). rewrite Hx in Hx'. injection Hx' as <-.
    exists i. exact G.
  - rewrite (numbered_none ds (h_modes h) nr Len E). reflexivity.
Qed.

(** C187: dimensionless frequencies of a numbered mode, scaled with the first mode's star; wrong by the square of the
    requested time unit (C65). *)
Theorem C187_dimensionless_frequencies_of_a_numbered_mode : forall garbage d0 ds r h nr, set_mode_info garbage (d0 :: ds) r = Ok h ->
  exists c, cyclic_size (upper r) = Some c /\
  let rate := sqrt (R_star d0 ^ 3 / (G d0 * M_star d0)) in
  match numbered (d0 :: ds) nr with
  | Some d =>
      get_dimless_omegas h nr = Ok [[2 * PI * cyc_corot (h_rps h) d * rate / c ^ 2]; [2 * PI * cyc_inert (h_rps h) d * rate / c ^ 2]] /\
      exists a, get_dimless_freqs h nr = Ok [[a]; [cyc_inert (h_rps h) d * rate / c ^ 2]] /\
        (freq_frame d <> "INERTIAL"%string \/ is_angular_frequency r = false -> a = cyc_corot (h_rps h) d * rate / c ^ 2)
  | None => get_dimless_omegas h nr = Exc IndexError /\ get_dimless_freqs h nr = Exc IndexError
  end.
Proof.
  intros garbage d0 ds r h nr H.
  destruct (handler_ok _ _ _ _ H) as (_ & c & _ & Hc & _ & _ & _ & _ & Len & _). exists c. split; [exact Hc|]. intros rate.
  unfold get_dimless_omegas, get_dimless_freqs, dimless_corot_omegas, dimless_inert_omegas, dimless_corot_freqs, dimless_inert_freqs. rewrite !pair_map.
  destruct (numbered (d0 :: ds) nr) as [d|] eqn:E.
  - destruct (numbered_idx _ _ _ E) as (i & Hi & K). rewrite (K _ (h_modes h) Len).
    destruct (C65_dimensionless_frequencies _ _ _ _ _ _ _ H Hi) as (c1 & Hc1 & A1 & A2). rewrite Hc in Hc1. injection Hc1 as <-.
    destruct (C65_dimensionless_cyclic_frequencies _ _ _ _ _ _ _ H Hi) as (c2 & Hc2 & B1 & B2 & _). rewrite Hc in Hc2. injection Hc2 as <-.
    unfold dimless_corot_omegas in A1. unfold dimless_inert_omegas in A2. unfold dimless_inert_freqs in B1. unfold dimless_corot_freqs in B2.
    rewrite nth_error_map in A1, A2, B1. destruct (nth_error (h_modes h) i) as [x|] eqn:Ex; [|discriminate]. cbn [option_map] in A1, A2, B1.
    injection A1 as A1. injection A2 as A2. injection B1 as B1. rewrite A1, A2. split; [reflexivity|]. rewrite B1. eexists. split; [reflexivity|].
    intros F. specialize (B2 F). rewrite nth_error_map, Ex in B2. cbn [option_map] in B2. injection B2 as B2. exact B2.
  - rewrite (numbered_none (d0 :: ds) (h_modes h) nr Len E). split; reflexivity.
Qed.

(** C187: numbers: 1 is the first mode and the default; number n the n-th; 0 silently is the last mode, -1 the one before it. *)
Theorem C187_numbering : forall {A} (l : list A) nr,
  (numbered l nr <> None <-> (1 - Z.of_nat (List.length l) <= nr <= Z.of_nat (List.length l))%Z /\ l <> []) /\
  (forall a l', l = a :: l' -> numbered l default_nr = Some a) /\
  (forall a l', l = (l' ++ [a])%list -> numbered l 0 = Some a) /\
  ((1 <= nr <= Z.of_nat (List.length l))%Z -> numbered l (nr - Z.of_nat (List.length l)) = numbered l nr).
Proof.
  intros A l nr. split; [|split; [|split]].
  - unfold numbered. destruct (Z.leb_spec 1 nr).
    + rewrite nth_error_Some. destruct l; cbn [List.length]; split; intros; try lia. 
      * split; [lia|discriminate].
    + destruct (Z.leb_spec 0 (nr + Z.of_nat (List.length l) - 1)).
      * rewrite nth_error_Some. destruct l; cbn [List.length] in *; split; intros; try lia. split; [lia|discriminate].
      * split; [congruence|lia].
  - intros a l' ->. reflexivity.
  - intros a l' ->. unfold numbered. rewrite app_length. cbn [Z.leb Z.compare List.length]. 
    destruct (Z.leb_spec 0 (0 + Z.of_nat (List.length l' + 1) - 1)); [|lia].
    replace (Z.to_nat (0 + Z.of_nat (List.length l' + 1) - 1)) with (List.length l') by lia. rewrite nth_error_app2, Nat.sub_diag by lia. reflexivity.
  - intros B. unfold numbered. destruct (Z.leb_spec 1 nr); [|lia]. destruct (Z.leb_spec 1 (nr - Z.of_nat (List.length l))); [lia|].
    destruct (Z.leb_spec 0 (nr - Z.of_nat (List.length l) + Z.of_nat (List.length l) - 1)); [|lia]. f_equal. lia.
Qed.

(** C187: the detuning is reported as a column of two equal numbers, the first co-rotating angular frequency minus the others; with three
    modes the second number is the inertial detuning iff the azimuthal orders balance or the star does not rotate. *)
Theorem C187_detunings : forall garbage ds r h, set_mode_info garbage ds r = Ok h ->
  (exists c, cyclic_size (upper r) = Some c /\ exists x, get_detunings h = [[x]; [x]] /\
    x * c = detuned (map (fun d => 2 * PI * cyc_corot (h_rps h) d) ds)) /\
  (forall d1 d2 d3, ds = [d1; d2; d3] -> forall x y, get_detunings h = [[x]; [y]] -> forall c, cyclic_size (upper r) = Some c ->
    (y * c = detuned (map (fun d => 2 * PI * cyc_inert (h_rps h) d) ds) <-> (m d1 = m d2 + m d3)%Z \/ h_rps h = 0)).
Proof.
  intros garbage ds r h H.
  destruct (handler_ok _ _ _ _ H) as (sr & c & Hr & Hc & Pc & _ & _ & _ & Len & _ & _ & _ & HM & _ & _ & Hdet).
  assert (X : h_detuning h * c = detuned (map (fun d => 2 * PI * cyc_corot (h_rps h) d) ds)).
  { assert (E : map corot_o (h_modes h) = map (fun d => 2 * PI * cyc_corot (h_rps h) d / c) ds).
    { clear Hdet. apply (nth_ext _ _ 0 0); [rewrite !map_length; exact Len|]. intros i Hi. rewrite map_length, Len in Hi.
      destruct (nth_error ds i) as [d|] eqn:Ei; [|apply nth_error_None in Ei; lia].
      specialize (HM i d Ei). cbv zeta in HM. rewrite (nth_error_nth (map corot_o (h_modes h)) i 0 (map_nth_error corot_o i _ HM)).
      rewrite (nth_error_nth _ i 0 (map_nth_error (fun d => 2 * PI * cyc_corot (h_rps h) d / c) i _ Ei)). reflexivity. }
    rewrite E in Hdet. destruct ds as [|d ds]; [discriminate|]. unfold detuning_of in Hdet. change (py_get (map (fun d => 2 * PI * cyc_corot (h_rps h) d / c) (d :: ds)) 0) with (Ok (2 * PI * cyc_corot (h_rps h) d / c)) in Hdet.
    cbn [bind] in Hdet. injection Hdet as Hdet. rewrite <- Hdet. cbn [map tl detuned].
    assert (S1 : rsum (map (fun d => 2 * PI * cyc_corot (h_rps h) d / c) ds) * c = fold_right Rplus 0 (map (fun d => 2 * PI * cyc_corot (h_rps h) d) ds)).
    { induction ds as [|e l IH] in |- *; cbn [map rsum fold_right]; [lra|]. rewrite <- IH. field. lra. }
    rewrite <- S1. field. lra. }
  split.
  - exists c. split; [exact Hc|]. exists (h_detuning h). split; [reflexivity|exact X].
  - intros d1 d2 d3 Ed x y [= <- <-] c' Hc'. rewrite Hc in Hc'. injection Hc' as <-. rewrite X. subst ds. cbn [map detuned fold_right].
    assert (D : forall d, cyc_inert (h_rps h) d = cyc_corot (h_rps h) d + IZR (m d) * (h_rps h / (2 * PI))).
    { intros d. unfold cyc_inert, cyc_corot, to_inertial, to_corotating. destruct (_ =? _)%string; lra. }
    rewrite !D. pose proof two_pi_neq as NP. split.
    + intros E. assert (K : (IZR (m d1) - IZR (m d2) - IZR (m d3)) * h_rps h = 0).
      { assert (K2 : 2 * PI * ((IZR (m d1) - IZR (m d2) - IZR (m d3)) * (h_rps h / (2 * PI))) = 0) by lra.
        replace ((IZR (m d1) - IZR (m d2) - IZR (m d3)) * h_rps h) with (2 * PI * ((IZR (m d1) - IZR (m d2) - IZR (m d3)) * (h_rps h / (2 * PI)))) by (field; lra). exact K2. }
      apply Rmult_integral in K. destruct K as [K|K]; [left|right; exact K]. rewrite <- !minus_IZR in K. apply eq_IZR_R0 in K. lia.
    + intros [E|E]; [rewrite E, plus_IZR; lra|rewrite E; unfold Rdiv; rewrite !Rmult_0_l; lra].
Qed.

(** C187: non-adiabatic frequencies of a numbered mode, in the requested time unit and in both frames. *)
Theorem C187_nonadiabatic_frequencies_of_a_numbered_mode : forall garbage ds r h ns nd nr,
  set_mode_info garbage ds r = Ok h -> Forall2 same_star ds ns -> set_nonad h ns = Ok nd ->
  exists c, cyclic_size (upper r) = Some c /\
  match numbered ns nr with
  | Some d => exists a b, get_inert_corot_f_nad nd nr = Ok [[a]; [b]] /\ a * c = cyc_corot (h_rps h) d /\ b * c = cyc_inert (h_rps h) d /\
      exists a' b', get_inert_corot_o_nad nd nr = Ok [[a']; [b']] /\ a' * c = 2 * PI * cyc_corot (h_rps h) d /\ b' * c = 2 * PI * cyc_inert (h_rps h) d /\
      get_dimless_freqs_nad h nd nr = Ok [[a * h_dimfac h]; [b * h_dimfac h]] /\ get_dimless_omegas_nad h nd nr = Ok [[a' * h_dimfac h]; [b' * h_dimfac h]]
  | None => get_inert_corot_f_nad nd nr = Exc IndexError /\ get_inert_corot_o_nad nd nr = Exc IndexError /\
      get_dimless_freqs_nad h nd nr = Exc IndexError /\ get_dimless_omegas_nad h nd nr = Exc IndexError
  end.
Proof.
  intros garbage ds r h ns nd nr H FS HN. destruct (C41_nonadiabatic_frequencies _ _ _ _ _ _ H FS HN) as (c & Hc & HM). exists c. split; [exact Hc|].
  assert (Len : List.length (n_modes nd) = List.length ns).
  { unfold set_nonad in HN. destruct (negb _) eqn:EL; [discriminate|]. apply negb_false_iff, Nat.eqb_eq in EL.
    destruct (nad_conversion_functions h ns) as [fs| |] eqn:EF; try discriminate. cbn [bind] in HN.
    set (passes := map _ (combine ns fs)) in HN. destruct (detuning_of _) as [det| |]; try discriminate. cbn [bind] in HN.
    destruct (py_get _ 0) as [g0| |]; try discriminate. injection HN as <-. cbn [n_modes]. unfold passes. rewrite !map_length, combine_length.
    assert (LF : List.length fs = List.length ns).
    { unfold nad_conversion_functions in EF. destruct (handler_ok _ _ _ _ H) as (_ & _ & _ & _ & _ & _ & _ & _ & Lm & Hd & _ & Hcf & _).
      destruct (forallb _ _).
      - injection EF as <-. unfold store_cffs in Hcf. apply mapM_inv in Hcf. destruct Hcf as [L _]. rewrite L, EL, Hd. reflexivity.
      - apply mapM_inv in EF. destruct EF as [L _]. exact L. }
    rewrite LF. apply Nat.min_id. }
  unfold get_inert_corot_f_nad, get_inert_corot_o_nad, get_dimless_freqs_nad, get_dimless_omegas_nad. rewrite !pair_map.
  destruct (numbered ns nr) as [d|] eqn:E.
  - destruct (numbered_idx _ _ _ E) as (i & Hi & K). rewrite (K _ (n_modes nd) Len). destruct (HM i d Hi) as (x & g & Hx & _ & A & B & C & D & _).
    rewrite Hx. do 2 eexists. split; [reflexivity|]. split; [exact B|]. split; [exact A|]. do 2 eexists. split; [reflexivity|]. split; [exact D|]. split; [exact C|].
    split; reflexivity.
  - rewrite (numbered_none ns (n_modes nd) nr Len E). repeat apply conj; reflexivity.
Qed.

(** C187: the non-adiabatic detuning likewise, with the frequencies of the non-adiabatic files. *)
Theorem C187_nonadiabatic_detuning : forall garbage ds r h ns nd, set_mode_info garbage ds r = Ok h -> Forall2 same_star ds ns -> set_nonad h ns = Ok nd ->
  exists c, cyclic_size (upper r) = Some c /\ exists x, get_detunings_nad nd = [[x]; [x]] /\
    x * c = detuned (map (fun d => 2 * PI * cyc_corot (h_rps h) d) ns).
Proof.
  intros garbage ds r h ns nd H FS HN. destruct (C41_nonadiabatic_frequencies _ _ _ _ _ _ H FS HN) as (c & Hc & HM). exists c. split; [exact Hc|].
  exists (n_detuning nd). split; [reflexivity|].
  destruct (handler_ok _ _ _ _ H) as (sr & c' & _ & Hc' & Pc & _). rewrite Hc in Hc'. injection Hc' as <-.
  assert (D : detuning_of (map corot_o (n_modes nd)) = Ok (n_detuning nd) /\ List.length (n_modes nd) = List.length ns).
  { pose proof HN as HN'. unfold set_nonad in HN. destruct (negb _) eqn:EL; [discriminate|]. apply negb_false_iff, Nat.eqb_eq in EL.
    destruct (nad_conversion_functions h ns) as [fs| |] eqn:EF; try discriminate. cbn [bind] in HN.
    set (passes := map _ (combine ns fs)) in HN. destruct (detuning_of _) as [det| |] eqn:ED; try discriminate. cbn [bind] in HN.
    destruct (py_get _ 0) as [g0| |]; try discriminate. injection HN as <-. cbn [n_modes n_detuning]. split; [exact ED|]. unfold passes. rewrite !map_length, combine_length.
    assert (LF : List.length fs = List.length ns).
    { unfold nad_conversion_functions in EF. destruct (handler_ok _ _ _ _ H) as (_ & _ & _ & _ & _ & _ & _ & _ & Lm & Hd & _ & Hcf & _).
      destruct (forallb _ _).
      - injection EF as <-. unfold store_cffs in Hcf. apply mapM_inv in Hcf. destruct Hcf as [L _]. rewrite L, EL, Hd. reflexivity.
      - apply mapM_inv in EF. destruct EF as [L _]. exact L. }
    rewrite LF. apply Nat.min_id. }
  destruct D as [D Len].
  assert (E : map corot_o (n_modes nd) = map (fun d => 2 * PI * cyc_corot (h_rps h) d / c) ns).
  { apply (nth_ext _ _ 0 0); [rewrite !map_length; exact Len|]. intros i Hi. rewrite map_length, Len in Hi.
    destruct (nth_error ns i) as [d|] eqn:Ei; [|apply nth_error_None in Ei; lia].
    destruct (HM i d Ei) as (x & g & Hx & _ & _ & _ & _ & A & _).
    rewrite (nth_error_nth (map corot_o (n_modes nd)) i 0 (map_nth_error corot_o i _ Hx)).
    rewrite (nth_error_nth _ i 0 (map_nth_error (fun d => 2 * PI * cyc_corot (h_rps h) d / c) i _ Ei)).
    apply Rmult_eq_reg_r with c; [|lra]. rewrite A. unfold cyc_corot. field. lra. }
  rewrite E in D. destruct ns as [|d l]; [discriminate|]. unfold detuning_of in D.
  change (py_get (map (fun d => 2 * PI * cyc_corot (h_rps h) d / c) (d :: l)) 0) with (Ok (2 * PI * cyc_corot (h_rps h) d / c)) in D.
  cbn [bind] in D. injection D as D. rewrite <- D. cbn [map tl detuned].
  assert (S1 : rsum (map (fun d => 2 * PI * cyc_corot (h_rps h) d / c) l) * c = fold_right Rplus 0 (map (fun d => 2 * PI * cyc_corot (h_rps h) d) l)).
  { clear - Pc. induction l as [|e l IH]; cbn [map rsum fold_right]; [lra|]. rewrite <- IH. field. lra. }
  rewrite <- S1. field. lra.
Qed.

Example C187_example : exists h, set_mode_info (fun _ => 0) [C41_dict1; C41_dict2; C41_dict3] "CPD" = Ok h /\
  numbered [C41_dict1; C41_dict2; C41_dict3] 2 = Some C41_dict2 /\ numbered [C41_dict1; C41_dict2; C41_dict3] 0 = Some C41_dict3 /\
  get_inert_corot_f h 4 = Exc IndexError /\ exists x, get_detunings h = [[x]; [x]].
Proof. eexists. split; [reflexivity|]. repeat apply conj; try reflexivity. eexists. reflexivity. Qed.
