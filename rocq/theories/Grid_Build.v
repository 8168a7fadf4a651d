(** * Proofs: building the object *)
From Coq Require Import List ZArith Lia Reals Lra String Ascii Bool.
From Coquelicot Require Import Complex.
From Verif Require Import Base Py NumDeriv_Model Load_Model Load_Proofs Load_Dim Coupling_Model Grid_Model Grid_Spec Grid_Interp Grid_Proofs.
Import ListNotations.
Local Open Scope string_scope.

Lemma to_interpolate_iff k : has k to_interpolate = true <-> In k mode_functions.
Proof.
  rewrite has_iff. assert (A : forall x, In x to_interpolate -> has x mode_functions = true).
  { apply Forall_forall. repeat constructor. }
  assert (B : forall x, In x mode_functions -> has x to_interpolate = true).
  { apply Forall_forall. repeat constructor. }
  split; intros H; apply has_iff; auto.
Qed.
Lemma of_mode_attr k i : (1 <= i <= 3)%nat -> of_mode k (mode_no i) = mode_attr k i.
Proof. reflexivity. Qed.
Lemma dget_in_nodup {V} (d : dict V) k v : NoDup (map fst d) -> In (k, v) d -> dget k d = Some v.
Proof.
  induction d as [|[k' v'] d IH]; intros HN HI; [destruct HI|]. cbn in HN. inversion HN as [|? ? N1 N2]; subst. cbn [dget].
  destruct (string_dec k k') as [->|Ne].
  - destruct HI as [E|HI]; [injection E as ->; reflexivity|]. exfalso. apply N1. apply in_map_iff. exists (k', v). auto.
  - destruct HI as [E|HI]; [injection E as -> ->; contradiction|]. apply IH; assumption.
Qed.
Lemma dget_in {V} (d : dict V) k v : dget k d = Some v -> In (k, v) d.
Proof.
  induction d as [|[k' v'] d IH]; cbn; [discriminate|]. destruct (string_dec k k') as [->|Ne]; intros H.
  - injection H as ->. left. reflexivity.
  - right. auto.
Qed.

(** ** the three modes *)
Definition lens_of (x1 x2 x3 : list R) : list Z := [Z.of_nat (List.length x1); Z.of_nat (List.length x2); Z.of_nat (List.length x3)].
Definition longest (x1 x2 x3 : list R) : list R := nth (argmax (lens_of x1 x2 x3)) [x1; x2; x3] [].
Lemma mode_ok_funs d xp : mode_ok d xp ->
  forall k v, In (k, v) d -> has k to_interpolate = true -> exists s, samples v = Some s /\ List.length s = List.length xp.
Proof. intros M k v HI Hk. apply to_interpolate_iff in Hk. eapply mo_funs; eassumption. Qed.

Lemma modes_ok common d1 d2 d3 x1 x2 x3 : mode_ok d1 x1 -> mode_ok d2 x2 -> mode_ok d3 x3 ->
  let xs := longest x1 x2 x3 in
  exists o, interpolation_modes [d1; d2; d3] (extracted common d1 d2 d3) = Ok o /\
    o "_x" = Some (VArr xs) /\
    (forall i d xp k v, In (i, d, xp) [(1%nat, d1, x1); (2%nat, d2, x2); (3%nat, d3, x3)] -> dget k d = Some v -> In k mode_functions ->
       o (mode_attr k i) = Some (resample xs xp v)) /\
    (forall a, In a common -> "_" ++ a <> "_x" -> (forall k i, "_" ++ a <> mode_attr k i) ->
       o ("_" ++ a) = Some (match dget a d1 with Some v => v | None => VNone end)) /\
    (forall name, name <> "_x" -> (forall k i, name <> mode_attr k i) -> (forall a, In a common -> name <> "_" ++ a) -> o name = None).
Proof.
  intros M1 M2 M3 xs. unfold interpolation_modes. cbn [mapM]. unfold dread at 1 2 3.
  rewrite (mo_n _ _ M1), (mo_n _ _ M2), (mo_n _ _ M3). cbn [bind as_int].
  assert (EX : (match nth_error [d1; d2; d3] (argmax (lens_of x1 x2 x3)) with Some d => dread d "x" | None => Exc IndexError end) = Ok (VArr xs)).
  { unfold xs, longest. assert (argmax (lens_of x1 x2 x3) < 3)%nat.
    { cbn [argmax lens_of argmax_from]. repeat match goal with |- context [Z.ltb ?a ?b] => destruct (Z.ltb a b) end; lia. }
    destruct (argmax (lens_of x1 x2 x3)) as [|[|[|]]]; [| | |lia]; cbn [nth_error nth]; unfold dread.
    - rewrite (mo_x _ _ M1). reflexivity.
    - rewrite (mo_x _ _ M2). reflexivity.
    - rewrite (mo_x _ _ M3). reflexivity. }
  change [Z.of_nat (List.length x1); Z.of_nat (List.length x2); Z.of_nat (List.length x3)] with (lens_of x1 x2 x3).
  rewrite EX. cbn [bind List.length seq combine foldM fst snd].
  destruct (interpolator_ok 1 d1 xs x1 (extracted common d1 d2 d3) (mo_x _ _ M1) (mode_ok_funs _ _ M1) (mo_pos _ _ M1) (mo_keys _ _ M1)) as (o1 & E1 & X1 & A1 & B1).
  rewrite E1. cbn [bind].
  destruct (interpolator_ok 2 d2 xs x2 o1 (mo_x _ _ M2) (mode_ok_funs _ _ M2) (mo_pos _ _ M2) (mo_keys _ _ M2)) as (o2 & E2 & X2 & A2 & B2).
  rewrite E2. cbn [bind].
  destruct (interpolator_ok 3 d3 xs x3 o2 (mo_x _ _ M3) (mode_ok_funs _ _ M3) (mo_pos _ _ M3) (mo_keys _ _ M3)) as (o3 & E3 & X3 & A3 & B3).
  rewrite E3. cbn [bind]. exists o3. split; [reflexivity|]. split; [exact X3|]. split; [|split].
  - assert (NX : forall k i, mode_attr k i <> "_x").
    { intros k i E. symmetry in E. revert E. apply not_mode. destruct i as [|[|[|]]]; reflexivity. }
    intros i d xp k v [E|[E|[E|[]]]] Hd Hk; injection E as <- <- <-; apply dget_in in Hd; apply to_interpolate_iff in Hk.
    + rewrite B3, B2; [apply A1; assumption|apply NX| |apply NX|]; intros; apply mode_attr_other; lia.
    + rewrite B3; [apply A2; assumption|apply NX|]; intros; apply mode_attr_other; lia.
    + apply A3; assumption.
  - intros a Ha Na Nm. rewrite B3, B2, B1 by (try exact Na; intros; apply Nm).
    unfold extracted. rewrite !extract_mode_other by (intros; apply Nm). apply extract_common_get. exact Ha.
  - intros name Na Nm Nc. rewrite B3, B2, B1 by (try exact Na; intros; apply Nm).
    unfold extracted. rewrite !extract_mode_other by (intros; apply Nm). apply extract_common_other. exact Nc.
Qed.

(** ** profile *)
Definition nrad (poly : bool) (rad : list R) : list R :=
  let q := map (fun a => (a / amax rad)%R) rad in if poly then q else rev q.
Definition on_grid (poly : bool) (xs rad a : list R) : list R :=
  let w := if poly then a else rev a in
  if (List.length rad =? List.length xs)%nat then w else map (interp1 (combine (nrad poly rad) w)) xs.
Lemma nrad_length poly rad : List.length (nrad poly rad) = List.length rad.
Proof. unfold nrad. destruct poly; rewrite ?rev_length, map_length; reflexivity. Qed.
Lemma norm_rad_ok (poly : bool) (prof : gdict) rad : dget (if poly then "r" else "radius") prof = Some (VArr rad) -> (0 < List.length rad)%nat ->
  norm_rad poly prof = Ok (nrad poly rad).
Proof.
  intros Hr H0. unfold norm_rad, dread. rewrite Hr. cbn [bind]. unfold np_max. destruct rad as [|r rad]; [cbn in H0; lia|]. reflexivity.
Qed.
Lemma profile_loop_interp (poly : bool) xs nr m : List.length nr = m -> (0 < m)%nat -> forall prof o,
  NoDup (map fst prof) -> (forall k v, In (k, v) prof -> scalar v = false -> exists a, v = VArr a /\ List.length a = m) ->
  (forall k v, In (k, v) prof -> scalar v = true -> forall q, "_" ++ k <> of_profile q) ->
  exists o', foldM (fun o kv => let '(k, v) := kv in
      if scalar v then Ok (oset o ("_" ++ k) v)
      else w <- (if poly then Ok v else vrev v) ;
           u <- np_interp (VArr xs) (VArr nr) w ; Ok (oset o ("_" ++ k ++ "_profile") u)) prof o = Ok o' /\
    (forall k a, In (k, VArr a) prof -> o' (prof_attr k) = Some (VArr (map (interp1 (combine nr (if poly then a else rev a))) xs))) /\
    (forall k v, In (k, v) prof -> scalar v = true -> o' ("_" ++ k) = Some v) /\
    (forall name, (forall k v, In (k, v) prof -> scalar v = true -> name <> "_" ++ k) -> 
      (forall k v, In (k, v) prof -> scalar v = false -> name <> prof_attr k) -> o' name = o name).
Proof.
  intros HL H0. induction prof as [|[k v] prof IH]; intros o HN HC HS.
  - exists o. cbn. split; [reflexivity|]. split; [intros ? ? []|]. split; [intros ? ? []|auto].
  - cbn [map fst] in HN. inversion HN as [|? ? N1 N2]; subst.
    assert (HC' : forall k v, In (k, v) prof -> scalar v = false -> exists a, v = VArr a /\ List.length a = List.length nr) by (intros; eapply HC; [right; eassumption|assumption]).
    assert (HS' : forall k v, In (k, v) prof -> scalar v = true -> forall q, "_" ++ k <> of_profile q) by (intros; eapply HS; [right; eassumption|assumption]).
    cbn [foldM]. destruct (scalar v) eqn:Sv.
    + cbn [bind]. destruct (IH (oset o ("_" ++ k) v) N2 HC' HS') as (o' & E & A & A2 & B). exists o'. split; [exact E|]. split; [|split].
      * intros k1 a1 [E1|I1]; [injection E1 as <- ->; discriminate|apply A; exact I1].
      * intros k1 v1 [E1|I1] S1.
        -- injection E1 as <- <-. rewrite B; [apply oset_same| |].
           ++ intros k2 v2 I2 _ E2. cbn in E2. injection E2 as <-. apply N1. apply in_map_iff. exists (k, v2). auto.
           ++ intros k2 v2 I2 _. apply (HS k v (in_eq _ _) Sv).
        -- eapply A2; eassumption.
      * intros name H1 H2. rewrite B by (intros; eauto using in_cons). apply oset_other. eapply H1; [left; reflexivity|exact Sv].
    + destruct (HC k v (in_eq _ _) Sv) as (a & -> & La).
      assert (W : (if poly then Ok (VArr a) else vrev (VArr a)) = Ok (VArr (if poly then a else rev a))) by (destruct poly; reflexivity).
      rewrite W. cbn [bind]. unfold np_interp at 1, interp_list at 1.
      replace (List.length (if poly then a else rev a)) with (List.length nr) by (destruct poly; rewrite ?rev_length; lia).
      rewrite (proj2 (Nat.ltb_lt 0 _)) by exact H0. rewrite Nat.eqb_refl. cbn [andb bind].
      set (u := VArr (map (interp1 (combine nr (if poly then a else rev a))) xs)).
      destruct (IH (oset o ("_" ++ k ++ "_profile") u) N2 HC' HS') as (o' & E & A & A2 & B). exists o'. split; [exact E|]. split; [|split].
      * intros k1 a1 [E1|I1].
        -- injection E1 as <- <-. rewrite B; [apply oset_same| |].
           ++ intros k2 v2 I2 S2 E2. symmetry in E2. revert E2. apply (HS' k2 v2 I2 S2).
           ++ intros k2 v2 I2 _ E2. apply prof_attr_inj in E2. subst. apply N1. apply in_map_iff. exists (k2, v2). auto.
        -- apply A; exact I1.
      * intros k1 v1 [E1|I1] S1; [injection E1 as <- <-; discriminate|eapply A2; eassumption].
      * intros name H1 H2. rewrite B by (intros; eauto using in_cons). apply oset_other. eapply H2; [left; reflexivity|reflexivity].
Qed.
Lemma profile_loop_same_mesa : forall prof o,
  NoDup (map fst prof) -> (forall k v, In (k, v) prof -> scalar v = false -> exists a, v = VArr a) ->
  exists o', foldM (fun o kv => let '(k, v) := kv in
      if has k [] then Ok o
      else if false || scalar v then Ok (oset o ("_" ++ k ++ "_profile") v)
      else w <- vrev v ; Ok (oset o ("_" ++ k ++ "_profile") w)) prof o = Ok o' /\
    (forall k a, In (k, VArr a) prof -> o' (prof_attr k) = Some (VArr (rev a))) /\
    (forall name, (forall k, In k (map fst prof) -> name <> prof_attr k) -> o' name = o name).
Proof.
  induction prof as [|[k v] prof IH]; intros o HN HC.
  - exists o. cbn. split; [reflexivity|]. split; [intros ? ? []|auto].
  - cbn [map fst] in HN. inversion HN as [|? ? N1 N2]; subst.
    assert (HC' : forall k v, In (k, v) prof -> scalar v = false -> exists a, v = VArr a) by (intros; eapply HC; [right; eassumption|assumption]).
    cbn [foldM has existsb orb]. destruct (scalar v) eqn:Sv.
    + cbn [bind]. destruct (IH (oset o ("_" ++ k ++ "_profile") v) N2 HC') as (o' & E & A & B). exists o'. split; [exact E|]. split.
      * intros k1 a1 [E1|I1]; [injection E1 as <- ->; discriminate|apply A; exact I1].
      * intros name H1. rewrite B by (intros; apply H1; right; assumption). apply oset_other. apply H1. left. reflexivity.
    + destruct (HC k v (in_eq _ _) Sv) as (a & ->). cbn [vrev bind].
      destruct (IH (oset o ("_" ++ k ++ "_profile") (VArr (rev a))) N2 HC') as (o' & E & A & B). exists o'. split; [exact E|]. split.
      * intros k1 a1 [E1|I1]; [|apply A; exact I1]. injection E1 as <- <-. rewrite B; [apply oset_same|].
        intros k2 I2 E2. apply prof_attr_inj in E2. subst. contradiction.
      * intros name H1. rewrite B by (intros; apply H1; right; assumption). apply oset_other. apply H1. left. reflexivity.
Qed.
Lemma profile_mesa_ok prof rad xs o : profile_ok prof "radius" rad -> o "_x" = Some (VArr xs) ->
  exists o', extract_profile false prof o = Ok o' /\
    (forall k a, dget k prof = Some (VArr a) -> o' (prof_attr k) = Some (VArr (on_grid false xs rad a))) /\
    (forall name, (forall k v, In (k, v) prof -> scalar v = true -> name <> "_" ++ k) -> (forall k, name <> prof_attr k) -> o' name = o name).
Proof.
  intros P Hx. unfold extract_profile. rewrite (norm_rad_ok false prof rad) by (apply P). cbn [bind]. unfold oget. rewrite Hx. cbn [bind arr_len].
  rewrite nrad_length. unfold on_grid. destruct (Nat.eqb_spec (List.length rad) (List.length xs)) as [E|E].
  - destruct (profile_loop_same_mesa prof o (po_keys _ _ _ P)) as (o' & E' & A & B).
    { intros k v HI HS. destruct (po_cols _ _ _ P k v HI HS) as (a & -> & _). exists a. reflexivity. }
    exists o'. split; [exact E'|]. split; [intros k a Hk; apply A, dget_in, Hk|]. intros name _ H. apply B. intros; apply H.
  - destruct (profile_loop_interp false xs (nrad false rad) (List.length rad) (nrad_length _ _) (po_pos _ _ _ P) prof o (po_keys _ _ _ P) (po_cols _ _ _ P)) as (o' & E' & A & A2 & B).
    { intros k v HI HS. apply (po_scalars _ _ _ P k v HI HS). }
    exists o'. split; [exact E'|]. split; [intros k a Hk; apply A, dget_in, Hk|]. intros name H1 H2. apply B; [exact H1|intros; apply H2].
Qed.
