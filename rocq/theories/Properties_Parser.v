(** * C87-C96: inlist lookups, the generic parser and the run scripts. *)
From Coq Require Import List ZArith QArith Ascii String Bool Lia.
From Verif Require Import Base Py Inlist_Model Inlist_Proofs Parser_Model Parser_Spec Parser_Proofs.
Import ListNotations.
Local Open Scope string_scope.

(** ** C87: hierarchical lookup *)
(** a value that is there is returned; a key missing from an existing table gives None; looking for something inside None or
    a number raises TypeError; inside a string (or an array) a key that occurs there raises TypeError and any other gives None *)
Theorem C87_lookup : forall d pre v k post,
  (at_path d (k :: post) v -> get_ha d (IPath (k :: post)) = Ok v) /\
  (at_path d pre v ->
     (forall t, v = VTab t -> lacks t k -> get_ha d (IPath (pre ++ k :: post)) = Ok VNone) /\
     (unsearchable v -> get_ha d (IPath (pre ++ k :: post)) = Exc TypeError) /\
     (forall s, v = VStr s -> (within (str k) (str s) -> get_ha d (IPath (pre ++ k :: post)) = Exc TypeError) /\
                              (~ within (str k) (str s) -> get_ha d (IPath (pre ++ k :: post)) = Ok VNone)) /\
     (forall l, v = VArr l -> (In (VStr k) l -> get_ha d (IPath (pre ++ k :: post)) = Exc TypeError) /\
                              (~ In (VStr k) l -> get_ha d (IPath (pre ++ k :: post)) = Ok VNone))).
Proof.
  intros d pre v k post. split.
  - intros A. rewrite get_ha_path. apply lookup_at; [exact A|discriminate].
  - intros A. rewrite get_ha_path, (lookup_through d pre v k post A). split; [|split; [|split]].
    + intros t -> L. rewrite lookup_tab. apply tget_lacks in L. rewrite L. reflexivity.
    + intros [->|[(b & ->)|[(z & ->)|(q & ->)]]]; reflexivity.
    + intros s ->. cbn [lookup member bind]. split; intros W.
      * replace (containsb (str k) (str s)) with true; [reflexivity|]. symmetry. apply containsb_spec. exact W.
      * destruct (containsb (str k) (str s)) eqn:E; [|reflexivity]. apply containsb_spec in E. contradiction.
    + intros l ->. cbn [lookup member bind]. split; intros W.
      * replace (existsb _ l) with true; [reflexivity|]. symmetry. apply existsb_exists. exists (VStr k). split; [exact W|apply String.eqb_refl].
      * destruct (existsb _ l) eqn:E; [|reflexivity]. apply existsb_exists in E. destruct E as (x & Hx & Ex). destruct x; try discriminate. apply String.eqb_eq in Ex. subst. contradiction.
Qed.
Lemma ha_missing d pre t k post : at_path d pre (VTab t) -> lacks t k -> get_ha d (IPath (pre ++ k :: post)) = Ok VNone.
Proof. intros A L. destruct (C87_lookup d pre (VTab t) k post) as [_ H]. destruct (H A) as [X _]. exact (X t eq_refl L). Qed.
Lemma ha_blocked d pre v k post : at_path d pre v -> unsearchable v -> get_ha d (IPath (pre ++ k :: post)) = Exc TypeError.
Proof. intros A U. destruct (C87_lookup d pre v k post) as [_ H]. destruct (H A) as [_ [X _]]. exact (X U). Qed.
(** nothing else is ever returned or raised *)
Theorem C87_lookup_sound : forall d ks, ks <> [] ->
  (forall v, get_ha d (IPath ks) = Ok v -> at_path d ks v \/ v = VNone) /\
  ((exists v, get_ha d (IPath ks) = Ok v) \/ get_ha d (IPath ks) = Exc TypeError).
Proof.
  intros d ks N. rewrite get_ha_path. split; [intros v E; exact (lookup_cases v ks d N E)|apply lookup_exn].
Qed.
(** finding: a plain string instead of a list of keys is followed letter by letter, so unless there are one-letter keys,
    the documented value is not found *)
Theorem C87_string_index_is_read_letter_by_letter : forall t c s,
  lacks t (String c "") -> get_ha (VTab t) (IStr (String c s)) = Ok VNone.
Proof.
  intros t c s L. apply tget_lacks in L. destruct s as [|c2 s]; unfold get_ha; cbn [size String.length get_ha_n uncons]; cbn [member bind]; rewrite L; reflexivity.
Qed.
(** a string is the list of its letters *)
Fixpoint letters (s : string) : list string := match s with EmptyString => [] | String c t => String c "" :: letters t end.
Theorem C87_string_index_is_its_letters : forall d s, s <> "" -> get_ha d (IStr s) = get_ha d (IPath (letters s)).
Proof.
  intros d s. unfold get_ha. cbn [size]. assert (L : List.length (letters s) = String.length s) by (induction s; cbn; auto). rewrite L. clear L.
  revert d. induction s as [|c s IH]; intros d N; [congruence|]. destruct s as [|c2 s]; [reflexivity|].
  specialize (IH) as IH'. set (t := String c2 s) in *.
  change (String.length (String c t)) with (S (String.length t)). change (letters (String c t)) with (String c "" :: letters t).
  assert (U1 : uncons (IStr (String c t)) = Some (String c "", Some (IStr t))) by reflexivity.
  assert (U2 : uncons (IPath (String c "" :: letters t)) = Some (String c "", Some (IPath (letters t)))) by reflexivity.
  cbn [get_ha_n]. rewrite U1, U2. destruct (member (String c "") d) as [[|]| |]; cbn [bind]; try reflexivity.
  destruct (item (String c "") d) as [x| |]; cbn [bind]; try reflexivity. apply IH. discriminate.
Qed.
Example C87_example : let d := VTab [("a", VTab [("b", VInt 3); ("e", VNone)])] in
  at_path d ["a"; "b"] (VInt 3) /\ get_ha d (IPath ["a"; "b"]) = Ok (VInt 3) /\ get_ha d (IPath ["a"; "c"; "x"]) = Ok VNone /\ get_ha d (IPath ["a"; "e"; "x"]) = Exc TypeError
  /\ get_ha d (IPath ["a"; "b"; "x"]) = Exc TypeError /\ get_ha (VTab [("verbose", VBool true)]) (IStr "verbose") = Ok VNone.
Proof.
  cbn zeta. split; [|repeat split]. eapply below; [exists [], []; split; [reflexivity|intros []]|]. eapply below; [exists [], [("e", VNone)]; split; [reflexivity|intros []]|constructor].
Qed.

(** ** C88: None in toml inlists *)
Lemma has_adjust t k v : has t k v -> has (adjust_for_none t) k (adjust_val v).
Proof.
  intros (a & b & -> & H). exists (adjust_for_none a), (adjust_for_none b). split; [unfold adjust_for_none; rewrite map_app; reflexivity|]. intros X. apply H. unfold adjust_for_none in X. rewrite map_map in X. exact X.
Qed.
Lemma adjust_tab t : t <> [] -> adjust_val (VTab t) = VTab (adjust_for_none t).
Proof. destruct t; [contradiction|reflexivity]. Qed.
Lemma at_adjust d ks v : at_path d ks v -> forall t, d = VTab t -> ks <> [] -> at_path (VTab (adjust_for_none t)) ks (adjust_val v).
Proof.
  induction 1 as [v|t k ks v w H A IH]; intros t0 E N; [contradiction|]. injection E as <-. eapply below; [apply has_adjust, H|].
  destruct ks as [|k2 ks]; [inversion A; subst; constructor|]. inversion A; subst. rewrite adjust_tab. { apply IH; [reflexivity|discriminate]. } intros ->. match goal with X : has [] _ _ |- _ => destruct X as (a & b & E & _) end. destruct a; discriminate.
Qed.
Lemma lacks_adjust t k : lacks t k -> lacks (adjust_for_none t) k.
Proof. unfold lacks, adjust_for_none. rewrite map_map. exact (fun H => H). Qed.
(** what a toml inlist's lookups return: values as written, None for empty tables; missing keys of a table with entries are None,
    but asking for an entry of an empty table raises *)
Theorem C88_reading_toml : forall t ks,
  ks <> [] ->
  (forall v, at_path (VTab t) ks v -> ~ is_table v -> get_ha (VTab (adjust_for_none t)) (IPath ks) = Ok v) /\
  (at_path (VTab t) ks (VTab []) -> get_ha (VTab (adjust_for_none t)) (IPath ks) = Ok VNone) /\
  (forall sub, at_path (VTab t) ks (VTab sub) -> sub <> [] ->
     exists sub', get_ha (VTab (adjust_for_none t)) (IPath ks) = Ok (VTab sub') /\ map fst sub' = map fst sub) /\
  (forall sub k post, at_path (VTab t) ks (VTab sub) -> sub <> [] -> lacks sub k -> get_ha (VTab (adjust_for_none t)) (IPath (ks ++ k :: post)) = Ok VNone) /\
  (forall k post, at_path (VTab t) ks (VTab []) -> get_ha (VTab (adjust_for_none t)) (IPath (ks ++ k :: post)) = Exc TypeError).
Proof.
  intros t ks N. rewrite get_ha_path. split; [|split; [|split; [|split]]].
  - intros v A T. pose proof (at_adjust _ _ _ A t eq_refl N) as B. rewrite (lookup_at _ _ _ B N). destruct v; try reflexivity. exfalso. apply T. eexists. reflexivity.
  - intros A. exact (lookup_at _ _ _ (at_adjust _ _ _ A t eq_refl N) N).
  - intros sub A S. pose proof (at_adjust _ _ _ A t eq_refl N) as B. rewrite (adjust_tab sub S) in B. exists (adjust_for_none sub). split; [exact (lookup_at _ _ _ B N)|]. unfold adjust_for_none. rewrite map_map. reflexivity.
  - intros sub k post A S L. pose proof (at_adjust _ _ _ A t eq_refl N) as B. rewrite (adjust_tab sub S) in B. exact (ha_missing _ ks _ k post B (lacks_adjust _ _ L)).
  - intros k post A. pose proof (at_adjust _ _ _ A t eq_refl N) as B. exact (ha_blocked _ ks _ k post B (or_introl eq_refl)).
Qed.
(** a key missing from the top level is None *)
Theorem C88_missing_top_level : forall t k post, lacks t k -> get_ha (VTab (adjust_for_none t)) (IPath (k :: post)) = Ok VNone.
Proof. intros t k post L. exact (ha_missing _ [] _ k post (here _) (lacks_adjust _ _ L)). Qed.
(** empty tables inside arrays stay empty tables *)
Theorem C88_arrays_are_left_alone : forall t ks l, ks <> [] -> at_path (VTab t) ks (VArr l) -> get_ha (VTab (adjust_for_none t)) (IPath ks) = Ok (VArr l).
Proof. intros t ks l N A. apply C88_reading_toml; [exact N|exact A|]. intros (x & X). discriminate. Qed.
Example C88_example : let t := [("saving", VTab [("plot", VTab []); ("dirs", VArr [VTab []])])] in
  get_ha (VTab (adjust_for_none t)) (IPath ["saving"; "plot"]) = Ok VNone /\ get_ha (VTab (adjust_for_none t)) (IPath ["saving"; "plot"; "base_dir"]) = Exc TypeError /\
  get_ha (VTab (adjust_for_none t)) (IPath ["saving"; "solve"; "base_dir"]) = Ok VNone /\ get_ha (VTab (adjust_for_none t)) (IPath ["saving"; "dirs"]) = Ok (VArr [VTab []]).
Proof. repeat split. Qed.

(** ** C89: dictionaries of settings *)
Definition ekey (e : entry) : string := match e with E2 k _ => k | E3 k _ _ => k end.
Definition eindex (e : entry) : index := match e with E2 _ i => i | E3 _ i _ => i end.
Definition enegate (e : entry) : bool := match e with E2 _ _ => false | E3 _ _ n => n end.
Definition three (e : entry) : Prop := match e with E3 _ _ _ => True | E2 _ _ => False end.
(** what an entry asks for *)
Definition asked (e : entry) (x : val) : val := if enegate e then VBool (negb (truthy x)) else x.
Lemma fill (step : val -> entry -> table -> res table) (P : entry -> Prop) d l acc :
  (forall e a, P e -> step d e a = (v <- get_ha d (eindex e) ; Ok (tset a (ekey e) (asked e v)))%res) ->
  (forall e, In e l -> P e /\ exists v, get_ha d (eindex e) = Ok v) ->
  exists r, (fix go (l : list entry) (acc : table) : res table := match l with [] => Ok acc | e :: l' => acc' <- step d e acc ; go l' acc' end) l acc = Ok r /\
    (forall n, In n (map fst r) <-> In n (map fst acc) \/ In n (map ekey l)) /\
    (forall k, ~ In k (map ekey l) -> tget r k = tget acc k) /\
    (forall a e b, l = (a ++ e :: b)%list -> ~ In (ekey e) (map ekey b) -> exists v, get_ha d (eindex e) = Ok v /\ tget r (ekey e) = Some (asked e v)).
Proof.
  intros St. revert acc. induction l as [|e l IH]; intros acc H.
  - exists acc. split; [reflexivity|]. split; [cbn; tauto|]. split; [reflexivity|]. intros a e b E. destruct a; discriminate.
  - destruct (H e (or_introl eq_refl)) as [Pe [v Ev]]. rewrite (St e acc Pe), Ev. cbn [bind]. destruct (IH (tset acc (ekey e) (asked e v))) as (r & R1 & R2 & R3 & R4). { intros e' He'. apply H. right. exact He'. }
    exists r. split; [exact R1|]. split; [|split].
    + intros n. rewrite R2, tset_keys. cbn [map In]. intuition congruence.
    + intros k Hk. cbn [map In] in Hk. rewrite R3 by tauto. rewrite tget_tset. destruct (String.eqb_spec k (ekey e)) as [->|N]; [exfalso; apply Hk; left; reflexivity|reflexivity].
    + intros a e' b E Hb. destruct a as [|x a]; cbn in E; injection E as E1 E2.
      * subst e' b. exists v. split; [exact Ev|]. rewrite R3 by exact Hb. rewrite tget_tset, String.eqb_refl. reflexivity.
      * exact (R4 a e' b E2 Hb).
Qed.
Lemma loop2_fold d l acc : loop2 d l acc = (fix go (l : list entry) (acc : table) : res table := match l with [] => Ok acc | e :: l' => acc' <- put2 d e acc ; go l' acc' end) l acc.
Proof. revert acc. induction l as [|e l IH]; intros acc; [reflexivity|]. cbn [loop2]. destruct (put2 d e acc); cbn [bind]; [apply IH|reflexivity..]. Qed.
Lemma loop3_fold d l acc r : (fix go (l : list entry) (acc : table) : res table := match l with [] => Ok acc | e :: l' => acc' <- put3 d e acc ; go l' acc' end) l acc = Ok r -> loop3 d l acc = (r, Ok tt).
Proof. revert acc. induction l as [|e l IH]; intros acc E; [injection E as ->; reflexivity|]. cbn [loop3]. destruct (put3 d e acc); cbn [bind] in E; [apply IH, E|discriminate..]. Qed.
(** entries all with, or all without, the negation flag: every name gets the value at its position, negated on request;
    the last entry wins when a name is repeated; no other names *)
Theorem C89_settings_dictionary : forall d l,
  (forall e, In e l -> exists v, get_ha d (eindex e) = Ok v) -> (forall e, In e l -> three e) \/ (forall e, In e l -> ~ three e) ->
  exists r, read_in_to_dict d l = Ok r /\ (forall n, In n (map fst r) <-> In n (map ekey l)) /\
    forall a e b, l = (a ++ e :: b)%list -> ~ In (ekey e) (map ekey b) -> exists v, get_ha d (eindex e) = Ok v /\ has r (ekey e) (asked e v).
Proof.
  intros d l H K. unfold read_in_to_dict. destruct K as [K|K].
  - destruct (fill put3 three d l []) as (r & R1 & R2 & _ & R4). { intros [|k i n] a T; [destruct T|reflexivity]. } { intros e He. split; [exact (K e He)|exact (H e He)]. }
    rewrite (loop3_fold _ _ _ _ R1). exists r. split; [reflexivity|]. split; [intros n; rewrite R2; cbn; tauto|]. intros a e b E N. destruct (R4 a e b E N) as (v & V1 & V2). exists v. split; [exact V1|apply tget_has, V2].
  - destruct l as [|e l]. { exists []. split; [reflexivity|]. split; [intros n; cbn; tauto|]. intros a e b E. destruct a; discriminate. }
    assert (E3 : loop3 d (e :: l) [] = ([], Exc ValueError)). { destruct e; [reflexivity|]. exfalso. apply (K _ (or_introl eq_refl)). exact I. }
    rewrite E3, loop2_fold.
    destruct (fill put2 (fun e => ~ three e) d (e :: l) []) as (r & R1 & R2 & _ & R4). { intros [k i|k i n] a T; [reflexivity|]. exfalso. apply T. exact I. } { intros e' He. split; [exact (K e' He)|exact (H e' He)]. }
    rewrite R1. exists r. split; [reflexivity|]. split; [intros n; rewrite R2; cbn; tauto|]. intros a e' b E N. destruct (R4 a e' b E N) as (v & V1 & V2). exists v. split; [exact V1|apply tget_has, V2].
Qed.
(** mixing entries with and without the flag raises ValueError *)
Lemma loop3_mixed d l : forall acc, (forall e, In e l -> exists v, get_ha d (eindex e) = Ok v) -> (exists e, In e l /\ ~ three e) -> exists acc', loop3 d l acc = (acc', Exc ValueError).
Proof.
  induction l as [|e l IH]; intros acc H (x & Hx & T); [destruct Hx|]. cbn [loop3]. destruct e as [k i|k i n]; [eexists; reflexivity|].
  destruct (H _ (or_introl eq_refl)) as [v Ev]. cbn [eindex] in Ev. cbn [put3]. rewrite Ev. cbn [bind]. apply IH; [intros e He; apply H; right; exact He|]. exists x. split; [|exact T]. destruct Hx as [<-|Hx]; [exfalso; apply T; exact I|exact Hx].
Qed.
Lemma loop2_mixed d l : forall acc, (forall e, In e l -> exists v, get_ha d (eindex e) = Ok v) -> (exists e, In e l /\ three e) -> loop2 d l acc = Exc ValueError.
Proof.
  induction l as [|e l IH]; intros acc H (x & Hx & T); [destruct Hx|]. cbn [loop2]. destruct e as [k i|k i n]; [|reflexivity].
  destruct (H _ (or_introl eq_refl)) as [v Ev]. cbn [eindex] in Ev. cbn [put2]. rewrite Ev. cbn [bind]. apply IH; [intros e He; apply H; right; exact He|]. exists x. split; [|exact T]. destruct Hx as [<-|Hx]; [destruct T|exact Hx].
Qed.
Theorem C89_mixed_entries_raise : forall d l e2 e3,
  (forall e, In e l -> exists v, get_ha d (eindex e) = Ok v) -> In e3 l -> three e3 -> In e2 l -> ~ three e2 ->
  read_in_to_dict d l = Exc ValueError.
Proof.
  intros d l e2 e3 H I3 T3 I2 T2. unfold read_in_to_dict. destruct (loop3_mixed d l [] H (ex_intro _ e2 (conj I2 T2))) as [acc ->]. apply loop2_mixed; [exact H|]. exists e3. auto.
Qed.
(** finding: a negated switch that is missing from the inlist is read as True *)
Theorem C89_missing_negated_is_true : forall d k pre t key post, at_path d pre (VTab t) -> lacks t key ->
  read_in_to_dict d [E3 k (IPath (pre ++ key :: post)) true] = Ok [(k, VBool true)].
Proof.
  intros d k pre t key post A L. unfold read_in_to_dict. cbn [loop3 put3]. rewrite (ha_missing d pre t key post A L). reflexivity.
Qed.
(** a negated switch is True exactly when the value counts as false in Python *)
Theorem C89_negated_switch : forall d k ks v, at_path d ks v -> ks <> [] ->
  (falsy v -> read_in_to_dict d [E3 k (IPath ks) true] = Ok [(k, VBool true)]) /\ (~ falsy v -> read_in_to_dict d [E3 k (IPath ks) true] = Ok [(k, VBool false)]).
Proof.
  intros d k ks v A N. unfold read_in_to_dict. cbn [loop3 put3]. rewrite get_ha_path, (lookup_at _ _ _ A N). cbn [bind].
  split; intros F; [apply truthy_falsy in F|apply truthy_not_falsy in F]; rewrite F; reflexivity.
Qed.
Example C89_example : read_in_to_dict (VTab [("a", VTab [("b", VInt 3); ("c", VBool true)])]) [E3 "x" (IPath ["a"; "b"]) false; E3 "y" (IPath ["a"; "c"]) true; E3 "z" (IPath ["q"; "b"]) false]
  = Ok [("x", VInt 3); ("y", VBool false); ("z", VNone)].
Proof. reflexivity. Qed.

(** ** C90: lists of settings *)
Lemma mapM_first_exn {A B} (f : A -> res B) a x b e : (forall y, In y a -> exists z, f y = Ok z) -> f x = Exc e -> mapM f (a ++ x :: b) = Exc e.
Proof.
  induction a as [|y a IH]; intros H E; cbn [app mapM]; [rewrite E; reflexivity|]. destruct (H y (or_introl eq_refl)) as [z ->]. cbn [bind]. rewrite IH; [reflexivity| |exact E]. intros y' Hy. apply H. right. exact Hy.
Qed.
Lemma mapM_exists {A B} (f : A -> res B) l : (forall y, In y l -> exists z, f y = Ok z) -> exists r, mapM f l = Ok r.
Proof. induction l as [|y l IH]; intros H; [eexists; reflexivity|]. cbn. destruct (H y (or_introl eq_refl)) as [z ->]. destruct IH as [r ->]. { intros y' Hy. apply H. right. exact Hy. } eexists. reflexivity. Qed.
(** a list of positions of which one does not have exactly two keys: the values at these positions, in order; provided
    single letters are no keys of the dictionary *)
Definition no_single_letter_keys (t : table) : Prop := forall c, lacks t (String c "").
Lemma pair_is_found t k1 : no_single_letter_keys t -> exists z, get_ha (VTab t) (IStr k1) = Ok z \/ k1 = "".
Proof. intros H. destruct k1 as [|c s]; [exists VNone; auto|]. exists VNone. left. apply C87_string_index_is_read_letter_by_letter, H. Qed.
Theorem C90_settings_list : forall t paths bad, no_single_letter_keys t -> (forall ks, In ks paths -> ks <> [] /\ hd "" ks <> "") ->
  In bad paths -> List.length bad <> 2%nat ->
  read_in_to_list (VTab t) (map APath paths) = mapM (fun ks => get_ha (VTab t) (IPath ks)) paths.
Proof.
  intros t paths bad S K Hb Lb. unfold read_in_to_list.
  assert (F : mapM (fun a => (p <- unpack2 a ; v <- get_ha (VTab t) (fst p) ; Ok (if snd p : bool then VBool (negb (truthy v)) else v))%res) (map APath paths) = Exc ValueError).
  { clear -S K Hb Lb. induction paths as [|ks paths IH]; [destruct Hb|]. cbn [map mapM]. destruct ks as [|k1 [|k2 [|k3 ks]]].
    - reflexivity.
    - reflexivity.
    - destruct (K [k1; k2] (or_introl eq_refl)) as [_ N]. cbn in N. cbn [unpack2 bind fst snd]. destruct k1 as [|c s]; [contradiction|]. rewrite C87_string_index_is_read_letter_by_letter by apply S. cbn [bind].
      destruct Hb as [<-|Hb]; [exfalso; apply Lb; reflexivity|]. rewrite IH; [reflexivity| |exact Hb]. intros ks Hk. apply K. right. exact Hk.
    - reflexivity. }
  rewrite F. clear F. induction paths as [|ks paths IH]; [destruct Hb|]. clear. cbn [map mapM as_index bind].
  assert (E : forall l, mapM (fun a => (i <- as_index a ; get_ha (VTab t) i)%res) (map APath l) = mapM (fun ks => get_ha (VTab t) (IPath ks)) l).
  { induction l as [|x l IH]; [reflexivity|]. cbn [map mapM as_index bind]. rewrite IH. reflexivity. }
  rewrite E. reflexivity.
Qed.
(** finding: if all positions consist of two keys (the usual [table, key]), they are taken for pairs (key, negate): the
    settings are ignored and every value is True *)
Theorem C90_two_key_positions_are_misread : forall t paths, no_single_letter_keys t ->
  (forall ks, In ks paths -> exists k1 k2, ks = [k1; k2] /\ k1 <> "" /\ k2 <> "") ->
  read_in_to_list (VTab t) (map APath paths) = Ok (map (fun _ => VBool true) paths).
Proof.
  intros t paths S K. unfold read_in_to_list.
  assert (F : mapM (fun a => (p <- unpack2 a ; v <- get_ha (VTab t) (fst p) ; Ok (if snd p : bool then VBool (negb (truthy v)) else v))%res) (map APath paths) = Ok (map (fun _ => VBool true) paths)); [|rewrite F; reflexivity].
  induction paths as [|ks paths IH]; [reflexivity|]. destruct (K ks (or_introl eq_refl)) as (k1 & k2 & -> & N1 & N2). cbn [map mapM unpack2 bind fst snd]. destruct k1 as [|c s]; [contradiction|].
  rewrite C87_string_index_is_read_letter_by_letter by apply S. cbn [bind truthy negb]. destruct (String.eqb_spec k2 ""); [contradiction|]. cbn [negb]. rewrite IH; [reflexivity|]. intros ks Hk. apply K. right. exact Hk.
Qed.
Example C90_example : let t := [("verbosity-debug", VTab [("verbose", VBool false); ("debug", VBool false)]); ("rotation", VTab [("rot_percent", VInt 20)])] in
  no_single_letter_keys t /\
  read_in_to_list (VTab t) [APath ["verbosity-debug"; "verbose"]; APath ["verbosity-debug"; "debug"]] = Ok [VBool true; VBool true] /\
  read_in_to_list (VTab t) [APath ["verbosity-debug"; "verbose"]; APath ["rotation"]] = Ok [VBool false; VTab [("rot_percent", VInt 20)]].
Proof. split; [|split; reflexivity]. intros c [X|[X|[]]]; discriminate. Qed.

(** ** C91: which inlist is read *)
Lemma split_hd c s : (~ In c s /\ hd [] (split c s) = s) \/ exists r, s = (hd [] (split c s) ++ c :: r)%list /\ ~ In c (hd [] (split c s)).
Proof.
  induction s as [|a s IH]; [left; split; [intros []|reflexivity]|]. cbn [split]. destruct (Ascii.eqb_spec a c) as [->|N].
  - right. exists s. split; [reflexivity|intros []].
  - destruct (split c s) as [|w ws] eqn:E.
    + exfalso. destruct s as [|b s']; [discriminate|]. cbn [split] in E. destruct (Ascii.eqb b c); [discriminate|]. destruct (split c s'); discriminate.
    + cbn [hd] in *. destruct IH as [[H ->]|(r & H & H')].
      * left. split; [|reflexivity]. intros [X|X]; [congruence|exact (H X)].
      * right. exists r. split; [cbn; rewrite <- H; reflexivity|]. intros [X|X]; [congruence|exact (H' X)].
Qed.
Lemma split_last c s : (~ In c s /\ last (split c s) [] = s /\ exists w, split c s = [w]) \/
  exists r, s = (r ++ c :: last (split c s) [])%list /\ ~ In c (last (split c s) []) /\ exists w1 w2 ws, split c s = w1 :: w2 :: ws.
Proof.
  induction s as [|a s IH]; [left; split; [intros []|split; [reflexivity|eexists; reflexivity]]|]. cbn [split]. destruct (Ascii.eqb_spec a c) as [->|N].
  - right. destruct IH as [(H & L & w & E)|(r & H & H' & w1 & w2 & ws & E)]; rewrite E in *; cbn [last] in *.
    + exists []. subst w. split; [reflexivity|]. split; [exact H|]. eexists _, _, _. reflexivity.
    + exists (c :: r). split; [cbn [app]; f_equal; exact H|]. split; [exact H'|]. eexists _, _, _. reflexivity.
  - destruct IH as [(H & L & w & E)|(r & H & H' & w1 & w2 & ws & E)]; rewrite E in *; cbn [last] in *.
    + left. subst w. split; [intros [X|X]; [congruence|exact (H X)]|]. split; [reflexivity|eexists; reflexivity].
    + right. exists (a :: r). split; [cbn [app]; f_equal; exact H|]. split; [exact H'|]. eexists _, _, _. reflexivity.
Qed.
Lemma within_contains p s : containsb p s = true <-> within p s.
Proof. apply containsb_spec. Qed.
Lemma nearest_none base l : base <> [] -> (forall n, In n l -> ~ within base n) -> nearest base l = None.
Proof.
  intros N. induction l as [|n l IH]; intros H; cbn [nearest].
  - destruct base; [contradiction|reflexivity].
  - destruct (containsb base n) eqn:E; [apply within_contains in E; exfalso; exact (H n (or_introl eq_refl) E)|]. apply IH. intros x Hx. apply H. right. exact Hx.
Qed.
Lemma nearest_some base a n b : within base n -> (forall x, In x b -> ~ within base x) -> nearest base (rev (a ++ n :: b)) = Some (S (List.length a)).
Proof.
  intros W H. rewrite rev_app_distr. cbn [rev]. rewrite <- app_assoc. cbn [app].
  assert (G : forall l, (forall x, In x l -> ~ within base x) -> nearest base (l ++ n :: rev a) = Some (S (List.length a))).
  { induction l as [|x l IH]; intros Hl; cbn [app nearest].
    - apply within_contains in W. rewrite W. cbn [List.length]. rewrite rev_length. reflexivity.
    - destruct (containsb base x) eqn:E; [apply within_contains in E; exfalso; exact (Hl x (or_introl eq_refl) E)|]. apply IH. intros y Hy. apply Hl. right. exact Hy. }
  apply G. intros x Hx. apply H, in_rev, Hx.
Qed.
(** a path to the inlist is split at the nearest ancestor directory whose name contains the base name; name and suffix are the parts of
    the file name before the first and after the last dot; it takes precedence over explicitly given parts *)
Theorem C91_path_to_inlist : forall base a n b file base_dir name dir suffix,
  within base n -> (forall x, In x b -> ~ within base x) ->
  exists i, initialize_path_info base (Some (a ++ n :: b ++ [file])%list) base_dir name dir suffix = Ok i /\
    pi_base i = (a ++ [n])%list /\ pi_dir i = b /\ before_first_dot file (pi_name i) /\ after_last_dot file (pi_suffix i).
Proof.
  intros base a n b file base_dir name dir suffix W H. unfold initialize_path_info, mode_1.
  replace (a ++ n :: b ++ [file])%list with ((a ++ n :: b) ++ [file])%list by (rewrite <- app_assoc; reflexivity).
  rewrite rev_app_distr. cbn [rev app]. rewrite (nearest_some base a n b W H). rewrite rev_involutive. eexists. split; [reflexivity|]. cbn [pi_base pi_dir pi_name pi_suffix].
  replace (S (List.length a)) with (List.length (a ++ [n])) by (rewrite app_length; cbn; lia). replace (a ++ n :: b)%list with ((a ++ [n]) ++ b)%list by (rewrite <- app_assoc; reflexivity).
  split; [rewrite firstn_app, firstn_all, Nat.sub_diag; apply app_nil_r|]. split; [rewrite skipn_app, skipn_all, Nat.sub_diag; reflexivity|].
  split.
  - destruct (split_hd "." file) as [X|X]; [left; exact X|right; exact X].
  - destruct (split_last "." file) as [(X & Y & _)|(r & X & Y & _)]; [left; split; assumption|right; exists r; split; assumption].
Qed.
(** without such an ancestor, the explicitly given parts are used, with inlists/user_input as default directory; if base directory or name
    are missing as well, an exception group is raised *)
Theorem C91_without_base_directory : forall base p base_dir name dir suffix, base <> [] ->
  (forall q n, p = Some q -> In n (removelast q) -> ~ within base n) ->
  (forall bd nm, base_dir = Some bd -> name = Some nm ->
     exists i, initialize_path_info base p base_dir name dir suffix = Ok i /\ pi_base i = bd /\ pi_name i = nm /\ pi_suffix i = suffix /\
       (forall d, dir = Some d -> pi_dir i = d) /\ (dir = None -> pi_dir i = [str "inlists"; str "user_input"])) /\
  (base_dir = None \/ name = None -> initialize_path_info base p base_dir name dir suffix = Exc ExceptionGroup).
Proof.
  intros base p base_dir name dir suffix N H.
  assert (M : mode_1 p base = None).
  { unfold mode_1. destruct p as [q|]; [|reflexivity]. destruct (rev q) as [|f r] eqn:E; [reflexivity|]. rewrite (nearest_none base r N); [reflexivity|].
    intros n Hn. apply (H q n eq_refl). rewrite <- (rev_involutive q), E. cbn [rev]. rewrite removelast_last. apply -> in_rev. exact Hn. }
  unfold initialize_path_info. rewrite M. split.
  - intros bd nm -> ->. cbn. eexists. split; [reflexivity|]. cbn. repeat split; [intros d ->; reflexivity|intros ->; reflexivity].
  - intros [-> | ->]; [reflexivity|]. destruct base_dir; reflexivity.
Qed.
(** finding: the inlist that is read by default is the given file only if its name contains exactly one dot; otherwise the run exits, unless
    another file happens to be there *)
Lemma count_none (s : text) : ~ In "."%char s -> dots s = 0%nat.
Proof. apply count_occ_not_In. Qed.
Theorem C91_default_inlist : forall base a n b file is_file,
  within base n -> (forall x, In x b -> ~ within base x) ->
  let given := (a ++ n :: b ++ [file])%list in
  exists i, initialize_path_info base (Some given) None None None [] = Ok i /\
  (dots file = 1%nat -> default_inlist is_file i = if is_file given then Ok given else Exc SystemExit) /\
  (dots file <> 1%nat -> exists other, other <> given /\ default_inlist is_file i = if is_file other then Ok other else Exc SystemExit).
Proof.
  intros base a n b file is_file W H given. destruct (C91_path_to_inlist base a n b file None None None [] W H) as (i & Ei & B & D & Nm & Sf). exists i. split; [exact Ei|].
  unfold default_inlist. rewrite B, D.
  assert (G : given = ((a ++ [n]) ++ b ++ [file])%list) by (unfold given; rewrite <- app_assoc; reflexivity). split.
  - intros Dt. replace ((a ++ [n]) ++ b ++ [pi_name i ++ "."%char :: pi_suffix i])%list with given; [reflexivity|]. rewrite G. do 4 f_equal.
    destruct Nm as [[X _]|(r & X & X')]; [apply count_none in X; lia|]. destruct Sf as [[Y _]|(q & Y & Y')]; [apply count_none in Y; lia|].
    assert (R : ~ In "."%char r).
    { intros I. apply (count_occ_In ascii_dec) in I. unfold dots in Dt. rewrite X, count_occ_app in Dt. cbn in Dt. lia. }
    (* same dot *)
    rewrite X in Y. clear -X X' Y Y' R. assert (E : r = pi_suffix i); [|subst r; exact X].
    revert X' Y. generalize (pi_name i). clear X. intros w. revert q. induction w as [|x w IH]; intros q X' Y.
    + destruct q as [|y q]; cbn in Y; [congruence|]. injection Y as _ Y. exfalso. apply R. rewrite Y. apply in_app_iff. right. left. reflexivity.
    + destruct q as [|y q]; cbn in Y.
      * exfalso. apply X'. injection Y as Y _. left. exact Y.
      * injection Y as _ Y. apply (IH q); [intros Z; apply X'; right; exact Z|exact Y].
  - intros Dt. exists ((a ++ [n]) ++ b ++ [pi_name i ++ "."%char :: pi_suffix i])%list. split; [|reflexivity]. rewrite G. intros E. apply app_inv_head, app_inv_head in E. injection E as E.
    apply Dt. rewrite <- E. unfold dots. rewrite count_occ_app. cbn.
    assert (A0 : count_occ ascii_dec (pi_name i) "."%char = 0%nat). { apply count_occ_not_In. destruct Nm as [[X Y]|(r & X & Y)]; [rewrite Y; exact X|exact Y]. }
    assert (S0 : count_occ ascii_dec (pi_suffix i) "."%char = 0%nat). { apply count_occ_not_In. destruct Sf as [[X Y]|(r & X & Y)]; [rewrite Y; exact X|exact Y]. }
    rewrite A0, S0. reflexivity.
Qed.
Example C91_example : let p := map str ["home"; "AESolver"; "inlists"; "solve.v2.toml"] in
  exists i, initialize_path_info (str "AESolver") (Some p) None None None [] = Ok i /\
  default_inlist (fun q => if list_eq_dec (list_eq_dec ascii_dec) q p then true else false) i = Exc SystemExit.
Proof. cbn zeta. eexists. split; reflexivity. Qed.

(** ** C92: the solve run *)
Section Runs.
Variable parse_known_args : list string -> list string -> path -> res (list (string * val) * path).
Variable toml_load custom_load : path -> res table.
Variable is_file : path -> bool.
Variable from_cwd from_script : string -> option path.
Notation run := (perform_complete_solve_run parse_known_args toml_load custom_load is_file from_cwd from_script).
Notation analysis := (analysis_run parse_known_args toml_load custom_load is_file from_cwd from_script).
(** argparse only sets attributes for registered options *)
Hypothesis argparse : forall options argv default ns file, parse_known_args options argv default = Ok (ns, file) -> forall k, In k (map fst ns) -> In k options.

(** finding: whatever the command line, the inlist and the files, nothing is computed: the option for the name of the save file is never registered *)
Theorem C92_solve_run_never_computes : forall A B argv (compute : parser -> settings -> val -> res A) (compute' : parser -> settings -> val -> res B) r,
  run argv compute <> Ok r /\ (forall e, run argv compute = Exc e <-> run argv compute' = Exc e).
Proof.
  intros A B argv compute compute' r. unfold perform_complete_solve_run, solve_run.
  destruct (get_path_to_inlist from_cwd from_script argv) as [inl| |e]; cbn [bind]; [|split; [discriminate|split; discriminate]|split; [discriminate|intros e'; split; intros X; injection X as ->; reflexivity]].
  destruct (make_parser _ _ _ _ _ _ _ _) as [p| |e] eqn:E; cbn [bind]; [|split; [discriminate|split; discriminate]|split; [discriminate|intros e'; split; intros X; injection X as ->; reflexivity]].
  assert (NS : get_save_name p = Exc AttributeError).
  { unfold make_parser in E. destruct (initialize_path_info _ _ _ _ _ _) as [i| |]; cbn [bind] in E; try discriminate. destruct (default_inlist is_file i) as [q| |]; cbn [bind] in E; try discriminate.
    cbn [find_method solve_parser_methods generic_parser_methods find fst snd] in E. cbn in E. destruct (parse_known_args _ _ _) as [[ns f]| |] eqn:P; cbn [bind fst snd] in E; try discriminate.
    pose proof (argparse _ _ _ _ _ P "save_file_name") as NI.
    assert (T : tget ns "save_file_name" = None). { apply tget_lacks. intros X. specialize (NI X). cbn in NI. repeat (destruct NI as [NI|NI]; [discriminate|]). exact NI. }
    destruct (tget ns "no_inlist") as [v|]; cbn [bind] in E; [|discriminate].
    match type of E with (bind ?d _ = _) => destruct d as [data| |]; cbn [bind] in E; try discriminate end. injection E as <-. unfold get_save_name. cbn [p_args]. rewrite T. reflexivity. }
  destruct (read_args p) as [s| |e]; cbn [bind]; [rewrite NS; cbn [bind]; split; [discriminate|intros e'; split; intros X; injection X as <-; reflexivity]|split; [discriminate|split; discriminate]|split; [discriminate|intros e'; split; intros X; injection X as ->; reflexivity]].
Qed.
(** command lines other than "script --save_file_name NAME" and "script INLIST SUFFIX DIRECTORY --save_file_name NAME" are refused *)
Theorem C92_command_line : forall A argv (compute : parser -> settings -> val -> res A),
  (forall s n, argv <> [s; "--save_file_name"; n]) -> (forall s a b c n, argv <> [s; a; b; c; "--save_file_name"; n]) -> run argv compute = Exc RuntimeError.
Proof.
  intros A argv compute H3 H6. unfold perform_complete_solve_run, solve_run.
  assert (E : get_path_to_inlist from_cwd from_script argv = Exc RuntimeError); [|rewrite E; reflexivity].
  destruct argv as [|a0 [|a1 [|a2 [|a3 [|a4 [|a5 [|a6 l]]]]]]]; try reflexivity.
  - cbn. destruct (String.eqb_spec a1 "--save_file_name") as [->|N]; [exfalso; exact (H3 a0 a2 eq_refl)|reflexivity].
  - cbn. destruct (String.eqb_spec a4 "--save_file_name") as [->|N]; [exfalso; exact (H6 a0 a1 a2 a3 a5 eq_refl)|reflexivity].
Qed.
(** even with the option registered ([mro] any classes), only a run with a name for the save file, a toml inlist and a permitted command line computes *)
Theorem C92_computes_only_with_save_name : forall A mro argv (compute : parser -> settings -> val -> res A) r,
  solve_run parse_known_args toml_load custom_load is_file from_cwd from_script mro argv compute = Ok r ->
  (exists s n, argv = [s; "--save_file_name"; n]) \/ (exists s a b c n, argv = [s; a; b; c; "--save_file_name"; n]).
Proof.
  intros A mro argv compute r E. unfold solve_run in E.
  destruct argv as [|a0 [|a1 [|a2 [|a3 [|a4 [|a5 [|a6 l]]]]]]]; cbn in E; try discriminate.
  - left. destruct (String.eqb_spec a1 "--save_file_name") as [->|N]; [|discriminate]. exists a0, a2. reflexivity.
  - right. destruct (String.eqb_spec a4 "--save_file_name") as [->|N]; [|discriminate]. exists a0, a1, a2, a3, a5. reflexivity.
Qed.
Theorem C92_save_name_reaches_the_computation : forall A mro argv (compute : parser -> settings -> val -> res A) r,
  solve_run parse_known_args toml_load custom_load is_file from_cwd from_script mro argv compute = Ok r ->
  exists p s name, compute p s name = Ok r /\ name <> VNone /\ has (p_args p) "save_file_name" name /\
    p_suffix p = str "toml" /\ read_toml_args (VTab (p_data p)) = Ok s.
Proof.
  intros A mro argv compute r E. unfold solve_run in E. destruct (get_path_to_inlist from_cwd from_script argv) as [inl| |]; cbn [bind] in E; try discriminate.
  destruct (make_parser _ _ _ _ _ _ _ _) as [p| |]; cbn [bind] in E; try discriminate. unfold read_args in E. destruct (text_eqb (p_suffix p) (str "toml")) eqn:X; cbn [bind] in E; [|discriminate].
  destruct (read_toml_args (VTab (p_data p))) as [s| |] eqn:R; cbn [bind] in E; try discriminate. unfold get_save_name in E. destruct (tget (p_args p) "save_file_name") as [name|] eqn:N; cbn [bind] in E; [|discriminate].
  exists p, s, name. split; [destruct name; try discriminate; exact E|]. split; [intros ->; discriminate|]. split; [apply tget_has, N|]. split; [unfold text_eqb in X; destruct (list_eq_dec ascii_dec (p_suffix p) (str "toml")); [assumption|discriminate]|exact R].
Qed.
(** what a run that computes has read: the inlist named on the command line (or the default one) only fixes the base directory and the default of the
    option for the inlist; the settings are those of the file argparse returns, or, with no_inlist, the command-line options themselves *)
Theorem C92_inlist_that_is_read : forall A mro argv (compute : parser -> settings -> val -> res A) r,
  solve_run parse_known_args toml_load custom_load is_file from_cwd from_script mro argv compute = Ok r ->
  exists inlist i default options ns file no p s name,
    ((exists a n, argv = [a; "--save_file_name"; n] /\ found from_cwd from_script "./inlists//inlist.toml" inlist) \/
     (exists a w suffix dir n, argv = [a; w; suffix; dir; "--save_file_name"; n] /\ found from_cwd from_script (dir ++ "/" ++ w ++ "." ++ suffix) inlist)) /\
    initialize_path_info (str "AESolver") (Some inlist) None None None [] = Ok i /\ default_inlist is_file i = Ok default /\ is_file default = true /\
    parse_known_args options (tl argv) default = Ok (ns, file) /\ (forall o, In o ["no_verbose"; "debug"; "no_inlist"; "inlist_name"] -> In o options) /\
    has ns "no_inlist" no /\ p_args p = ns /\
    (falsy no -> exists t, toml_load file = Ok t /\ p_data p = adjust_for_none t) /\ (~ falsy no -> p_data p = ns) /\
    compute p s name = Ok r.
Proof.
  intros A mro argv compute r E. unfold solve_run in E. destruct (get_path_to_inlist from_cwd from_script argv) as [inl| |] eqn:G; cbn [bind] in E; try discriminate.
  destruct (make_parser _ _ _ _ _ _ _ _) as [p| |] eqn:M; cbn [bind] in E; try discriminate. unfold read_args in E. destruct (text_eqb (p_suffix p) (str "toml")) eqn:X; cbn [bind] in E; [|discriminate].
  destruct (read_toml_args (VTab (p_data p))) as [s| |] eqn:R; cbn [bind] in E; try discriminate. unfold get_save_name in E. destruct (tget (p_args p) "save_file_name") as [name|] eqn:N; cbn [bind] in E; [|discriminate].
  unfold make_parser in M. destruct (initialize_path_info _ _ _ _ _ _) as [i| |] eqn:I; cbn [bind] in M; try discriminate. destruct (default_inlist is_file i) as [q| |] eqn:D; cbn [bind] in M; try discriminate.
  destruct (find_method mro _) as [sp| |]; cbn [bind] in M; try discriminate. destruct (parse_known_args _ _ _) as [[ns f]| |] eqn:P; cbn [bind fst snd] in M; try discriminate.
  destruct (tget ns "no_inlist") as [no|] eqn:NO; cbn [bind] in M; [|discriminate].
  match type of M with (bind ?d _ = _) => destruct d as [data| |] eqn:DA; cbn [bind] in M; try discriminate end. injection M as <-. cbn [p_suffix p_args p_data] in *.
  exists inl, i, q, (generic_options ++ sp)%list, ns, f, no, (Parser (pi_suffix i) ns data), s, name.
  split.
  { destruct argv as [|a0 [|a1 [|a2 [|a3 [|a4 [|a5 [|a6 l]]]]]]]; cbn in G; try discriminate.
    - left. destruct (String.eqb_spec a1 "--save_file_name") as [->|]; [|discriminate]. exists a0, a2. split; [reflexivity|]. cbn [bind] in G. unfold resolve_path_to_file in G. unfold found. cbn in G |- *.
      destruct (from_cwd "./inlists//inlist.toml") as [z|]; [left; congruence|]. destruct (from_script "./inlists//inlist.toml") as [z|]; [right; split; congruence|discriminate].
    - right. destruct (String.eqb_spec a4 "--save_file_name") as [->|]; [|discriminate]. exists a0, a1, a2, a3, a5. split; [reflexivity|]. cbn [bind] in G. unfold resolve_path_to_file in G. unfold found. cbn in G |- *.
      destruct (from_cwd _) as [z|]; [left; congruence|]. destruct (from_script _) as [z|]; [right; split; congruence|discriminate]. }
  split; [exact I|]. split; [exact D|]. split. { unfold default_inlist in D. match type of D with (if ?c then _ else _) = _ => destruct c eqn:C end; [|discriminate]. injection D as <-. exact C. }
  split; [exact P|]. split; [intros o O; apply in_app_iff; left; exact O|]. split; [apply tget_has, NO|]. split; [reflexivity|].
  split; [|split; [|destruct name; try discriminate; exact E]].
  - intros F. apply truthy_falsy in F. rewrite F in DA. rewrite X in DA. destruct (toml_load f) as [t| |]; cbn [bind] in DA; try discriminate. injection DA as <-. exists t. split; reflexivity.
  - intros F. apply truthy_not_falsy in F. rewrite F in DA. injection DA as <-. reflexivity.
Qed.
(** ** C93: the names of the base directory differ between the run scripts *)
(** finding: the solve run needs a directory whose name contains AESolver above the inlist, the analysis and plot runs one whose name contains
    amplitude_equations_solver; in a directory with only the former, the latter always raise *)
Theorem C93_analysis_needs_other_directory : forall A argv inlist (compute : parser -> res A),
  get_path_to_inlist_analysis from_cwd from_script argv = Ok inlist ->
  (forall n, In n (removelast inlist) -> ~ within (str "amplitude_equations_solver") n) -> analysis argv compute = Exc ExceptionGroup.
Proof.
  intros A argv inl compute E H. unfold analysis_run. rewrite E. cbn [bind]. unfold make_parser.
  assert (X : initialize_path_info (str "amplitude_equations_solver") (Some inl) None None None [] = Exc ExceptionGroup); [|rewrite X; reflexivity].
  unfold initialize_path_info, mode_1. destruct (rev inl) as [|f r] eqn:R; [reflexivity|]. rewrite (nearest_none _ r); [reflexivity|discriminate|].
  intros n Hn. apply H. rewrite <- (rev_involutive inl), R. cbn [rev]. rewrite removelast_last. apply -> in_rev. exact Hn.
Qed.
(** the analysis and plot runs take an inlist name, suffix and directory, or nothing; anything else is refused *)
Theorem C93_analysis_command_line : forall A argv (compute : parser -> res A) r,
  (analysis argv compute = Ok r ->
   exists inlist, (exists a, argv = [a] /\ found from_cwd from_script "./inlists//inlist.toml" inlist) \/
     (exists a w suffix dir, argv = [a; w; suffix; dir] /\ found from_cwd from_script (dir ++ "/" ++ w ++ "." ++ suffix) inlist)) /\
  ((forall a, argv <> [a]) -> (forall a b c d, argv <> [a; b; c; d]) -> analysis argv compute = Exc RuntimeError) /\
  (forall inlist, (exists a, argv = [a] /\ found from_cwd from_script "./inlists//inlist.toml" inlist) \/
     (exists a w suffix dir, argv = [a; w; suffix; dir] /\ found from_cwd from_script (dir ++ "/" ++ w ++ "." ++ suffix) inlist) ->
   get_path_to_inlist_analysis from_cwd from_script argv = Ok inlist).
Proof.
  intros A argv compute r. split; [|split].
  - unfold analysis_run. destruct (get_path_to_inlist_analysis from_cwd from_script argv) as [inl| |] eqn:G; cbn [bind]; try discriminate. intros _. exists inl.
    destruct argv as [|a0 [|a1 [|a2 [|a3 [|a4 l]]]]]; cbn in G; try discriminate.
    + left. exists a0. split; [reflexivity|]. unfold resolve_path_to_file in G. unfold found. cbn in G |- *.
      destruct (from_cwd _) as [z|]; [left; congruence|]. destruct (from_script _) as [z|]; [right; split; congruence|discriminate].
    + right. exists a0, a1, a2, a3. split; [reflexivity|]. unfold resolve_path_to_file in G. unfold found. cbn in G |- *.
      destruct (from_cwd _) as [z|]; [left; congruence|]. destruct (from_script _) as [z|]; [right; split; congruence|discriminate].
  - intros H1 H4. unfold analysis_run.
    destruct argv as [|a0 [|a1 [|a2 [|a3 [|a4 l]]]]]; try reflexivity; [exfalso; exact (H1 a0 eq_refl)|exfalso; exact (H4 a0 a1 a2 a3 eq_refl)].
  - intros inl [(a & -> & F)|(a & w & suffix & dir & -> & F)]; cbn [get_path_to_inlist_analysis]; unfold resolve_path_to_file, found in *; cbn in F |- *; destruct F as [->|[-> ->]]; reflexivity.
Qed.
Theorem C93_solve_needs_directory : forall A argv inlist (compute : parser -> settings -> val -> res A),
  get_path_to_inlist from_cwd from_script argv = Ok inlist ->
  (forall n, In n (removelast inlist) -> ~ within (str "AESolver") n) -> run argv compute = Exc ExceptionGroup.
Proof.
  intros A argv inl compute E H. unfold perform_complete_solve_run, solve_run. rewrite E. cbn [bind]. unfold make_parser.
  assert (X : initialize_path_info (str "AESolver") (Some inl) None None None [] = Exc ExceptionGroup); [|rewrite X; reflexivity].
  unfold initialize_path_info, mode_1. destruct (rev inl) as [|f r] eqn:R; [reflexivity|]. rewrite (nearest_none _ r); [reflexivity|discriminate|].
  intros n Hn. apply H. rewrite <- (rev_involutive inl), R. cbn [rev]. rewrite removelast_last. apply -> in_rev. exact Hn.
Qed.
End Runs.

(** a world in which everything is in order except for the missing option: the run reads the inlist and then raises AttributeError; if the
    method that registers the option had the name that is called, the run would compute *)
Definition ex_inlist : table := [("coupling_coefficient", VTab [("terms_cc_conj", VArr [VBool false; VBool true; VBool true])])].
Definition ex_parse (options argv : list string) (default : path) : res (list (string * val) * path) :=
  Ok (map (fun k => (k, if String.eqb k "save_file_name" then VStr "out" else VBool false)) options, default).
Definition ex_load (p : path) : res table := Ok ex_inlist.
Definition ex_where (s : string) : option path := Some (map str ["home"; "AESolver"; "inlists"; "inlist.toml"]).
Lemma ex_argparse : forall options argv default ns file, ex_parse options argv default = Ok (ns, file) -> forall k, In k (map fst ns) -> In k options.
Proof. intros options argv default ns file E k I. injection E as <- _. rewrite map_map in I. cbn in I. rewrite map_id in I. exact I. Qed.
Example C92_example : forall compute : parser -> settings -> val -> res unit,
  perform_complete_solve_run ex_parse ex_load ex_load (fun _ => true) ex_where ex_where ["solve_quadratic.py"; "--save_file_name"; "out"] compute = Exc AttributeError.
Proof. intros compute. vm_compute. reflexivity. Qed.
Example C92_example_right_name :
  solve_run ex_parse ex_load ex_load (fun _ => true) ex_where ex_where [[("_set_up_specific_argparser_groups_arguments", ["save_file_name"])]; generic_parser_methods]
    ["solve_quadratic.py"; "--save_file_name"; "out"] (fun _ _ name => Ok name) = Ok (VStr "out").
Proof. vm_compute. reflexivity. Qed.
Example C93_example : forall compute : parser -> res unit,
  analysis_run ex_parse ex_load ex_load (fun _ => true) ex_where ex_where ["analyze_quadratic.py"] compute = Exc ExceptionGroup.
Proof. intros compute. vm_compute. reflexivity. Qed.

(** ** C94: the solve run's settings are those at the documented positions *)
Lemma setting_lookup d pos v : undot pos <> [] -> setting d pos v -> lookup d (undot pos) = Ok v.
Proof.
  intros N [v' A|pre k post t E A L]; [exact (lookup_at _ _ _ A N)|]. rewrite E, (lookup_through _ _ _ _ _ A), lookup_tab. apply tget_lacks in L. rewrite L. reflexivity.
Qed.
Lemma undot_cons pos : undot pos <> [].
Proof. destruct pos as [|c s]; [discriminate|]. cbn. destruct (Ascii.eqb c "."); [discriminate|]. destruct (undot s); discriminate. Qed.
Definition positions (doc : list (string * string)) : list (string * list string) := map (fun np => (fst np, undot (snd np))) doc.
Lemma NoDup_last {A} (f : A -> string) l e : NoDup (map f l) -> In e l -> exists a b, l = (a ++ e :: b)%list /\ ~ In (f e) (map f b).
Proof.
  induction l as [|x l IH]; intros N I; [destruct I|]. cbn in N. inversion N; subst. destruct I as [->|I].
  - exists [], l. split; [reflexivity|assumption].
  - destruct (IH H2 I) as (a & b & -> & Hb). exists (x :: a), b. split; [reflexivity|exact Hb].
Qed.
Lemma triples_not_pairs : triples <> pairs.
Proof. intros X. assert (Y : triples [("", [])] = pairs [("", [])]) by (rewrite X; reflexivity). discriminate. Qed.
Lemma read_entries d doc (mk : list (string * list string) -> list entry) :
  mk = triples \/ mk = pairs -> NoDup (map fst doc) -> (forall n pos, In (n, pos) doc -> exists v, lookup d (undot pos) = Ok v) ->
  exists r, read_in_to_dict d (mk (positions doc)) = Ok r /\ (forall n pos, In (n, pos) doc -> exists v, has r n v /\ lookup d (undot pos) = Ok v) /\
    (forall n, In n (map fst r) <-> In n (map fst doc)).
Proof.
  intros M N H.
  assert (Me : forall e, In e (mk (positions doc)) <-> exists n pos, In (n, pos) doc /\ ekey e = n /\ eindex e = IPath (undot pos) /\ enegate e = false /\ (mk = triples -> three e) /\ (mk = pairs -> ~ three e) /\ e = hd e (mk [(n, undot pos)])).
  { intros e. destruct M as [-> | ->]; unfold triples, pairs, positions; rewrite map_map, in_map_iff; cbn [fst snd].
    - split.
      + intros ([n pos] & <- & I). exists n, pos. cbn. repeat split; try exact I; try (intros _; exact Logic.I). intros X. exfalso. exact (triples_not_pairs X).
      + intros (n & pos & I & _ & _ & _ & _ & _ & E). exists (n, pos). cbn in E |- *. split; [symmetry; exact E|exact I].
    - split.
      + intros ([n pos] & <- & I). exists n, pos. cbn. repeat split; try exact I; try (intros _ X; exact X). intros X. exfalso. exact (triples_not_pairs (eq_sym X)).
      + intros (n & pos & I & _ & _ & _ & _ & _ & E). exists (n, pos). cbn in E |- *. split; [symmetry; exact E|exact I]. }
  assert (Ke : map ekey (mk (positions doc)) = map fst doc). { destruct M as [-> | ->]; unfold triples, pairs, positions; rewrite !map_map; reflexivity. }
  destruct (C89_settings_dictionary d (mk (positions doc))) as (r & R1 & R2 & R3).
  - intros e He. apply Me in He. destruct He as (n & pos & I & _ & -> & _). rewrite get_ha_path. exact (H n pos I).
  - destruct M as [M|M]; [left|right]; intros e He; apply Me in He; destruct He as (n & pos & I & _ & _ & _ & T3 & T2 & _); [exact (T3 M)|exact (T2 M)].
  - exists r. split; [exact R1|]. split.
    + intros n pos I. assert (He : In (hd (E2 "" (IPath [])) (mk [(n, undot pos)])) (mk (positions doc))).
      { destruct M as [-> | ->]; unfold triples, pairs, positions; rewrite map_map; apply in_map_iff; exists (n, pos); split; try reflexivity; exact I. }
      destruct (NoDup_last ekey _ _ ltac:(rewrite Ke; exact N) He) as (a & b & E & Hb). destruct (R3 a _ b E Hb) as (v & V1 & V2).
      assert (Q : eindex (hd (E2 "" (IPath [])) (mk [(n, undot pos)])) = IPath (undot pos) /\ ekey (hd (E2 "" (IPath [])) (mk [(n, undot pos)])) = n /\ asked (hd (E2 "" (IPath [])) (mk [(n, undot pos)])) v = v).
      { destruct M as [-> | ->]; repeat split. }
      destruct Q as (Q1 & Q2 & Q3). rewrite Q1, get_ha_path in V1. rewrite Q2, Q3 in V2. exists v. split; assumption.
    + intros n. rewrite R2, Ke. reflexivity.
Qed.
Lemma lookup_converted t ct x k ks : k <> "coupling_coefficient" \/ (exists k2, ks = [k2] /\ k2 <> "terms_cc_conj") -> tget t "coupling_coefficient" = Some (VTab ct) ->
  lookup (VTab (tset t "coupling_coefficient" (VTab (tset ct "terms_cc_conj" x)))) (k :: ks) = lookup (VTab t) (k :: ks).
Proof.
  intros H T. rewrite !lookup_tab, tget_tset. destruct (String.eqb_spec k "coupling_coefficient") as [->|N]; [|reflexivity]. rewrite T. destruct H as [H|(k2 & -> & N2)]; [contradiction|].
  rewrite !lookup_tab, tget_tset. destruct (String.eqb_spec k2 "terms_cc_conj"); [contradiction|reflexivity].
Qed.
Theorem C94_solve_settings : forall d l,
  at_path d ["coupling_coefficient"; "terms_cc_conj"] (VArr l) -> (forall pos, In pos all_positions -> exists v, setting d pos v) ->
  exists s, read_toml_args d = Ok s /\
    holds d (mode_info s) doc_mode_info [] /\ holds d (poly_select s) doc_poly_select [] /\
    holds d (mode_selection s) doc_mode_selection ["mode_l"; "mode_m"] /\ holds d (mode_computation s) doc_mode_computation ["terms_cc_conj"] /\
    holds d (comp s) doc_comp [] /\ holds d (save_info s) doc_save [] /\ holds d (poly_model s) doc_poly_model [] /\ holds d (a_i s) doc_angular [] /\
    holds d (cc_profile_selection s) doc_selection ["mode_l"; "mode_m"] /\ holds d (cc_profile_plot s) doc_plot [] /\
    has (mode_computation s) "terms_cc_conj" (VTup l) /\
    (exists ls ms, Forall2 (setting d) doc_l ls /\ Forall2 (setting d) doc_m ms /\
       has (mode_selection s) "mode_l" (VArr ls) /\ has (mode_selection s) "mode_m" (VArr ms) /\
       has (cc_profile_selection s) "mode_l" (VArr ls) /\ has (cc_profile_selection s) "mode_m" (VArr ms)) /\
    setting d "GYRE_selection.specifier.adiabatic" (ad s) /\ setting d "GYRE_selection.specifier.nonadiabatic" (nad s) /\
    setting d "POLY_selection.specifier.modes" (poly_modes s) /\ setting d "verbosity-debug.get_debug_info" (get_debug_info s).
Proof.
  intros d l A S. inversion A as [|t k ks v w Hc A2]; subst. inversion A2 as [|ct k2 ks2 v2 w2 Ht A3]; subst. inversion A3; subst. clear A2 A3.
  apply tget_has in Hc. apply tget_has in Ht. unfold read_toml_args, convert_toml_input_list_to_tuple. cbn [item]. rewrite Hc. cbn [bind item]. rewrite Ht. cbn [bind].
  set (d' := VTab (tset t "coupling_coefficient" (VTab (tset ct "terms_cc_conj" (VTup l))))).
  assert (SL : forall pos, In pos all_positions -> exists v, lookup d' (undot pos) = Ok v /\ setting (VTab t) pos v).
  { intros pos I. destruct (S pos I) as [v Sv]. exists v. split; [|exact Sv]. rewrite <- (setting_lookup _ _ _ (undot_cons pos) Sv).
    assert (K : exists k ks, undot pos = k :: ks /\ (k <> "coupling_coefficient" \/ exists k2, ks = [k2] /\ k2 <> "terms_cc_conj")).
    { assert (F : forallb (fun p => match undot p with k :: ks => negb (String.eqb k "coupling_coefficient") || match ks with [k2] => negb (String.eqb k2 "terms_cc_conj") | _ => false end | [] => false end) all_positions = true) by (vm_compute; reflexivity).
      rewrite forallb_forall in F. specialize (F pos I). clear -F. destruct (undot pos) as [|k ks]; [discriminate|]. exists k, ks. split; [reflexivity|]. apply orb_true_iff in F. destruct F as [F|F].
      - left. intros ->. discriminate.
      - right. destruct ks as [|k2 [|k3 ks]]; try discriminate. exists k2. split; [reflexivity|]. intros ->. discriminate. }
    destruct K as (k & ks & -> & K). exact (lookup_converted t ct (VTup l) k ks K Hc). }
  assert (Uniq : forall pos v, In pos all_positions -> lookup d' (undot pos) = Ok v -> setting (VTab t) pos v). { intros pos v I E. destruct (SL pos I) as (v' & E' & Sv). congruence. }
  assert (RD : forall doc mk, mk = triples \/ mk = pairs -> NoDup (map fst doc) -> incl (map snd doc) all_positions ->
     exists r, read_in_to_dict d' (mk (positions doc)) = Ok r /\ holds (VTab t) r doc [] /\ forall n pos, In (n, pos) doc -> exists v, has r n v).
  { intros doc mk M N I. destruct (read_entries d' doc mk M N) as (r & R1 & R2 & R3). { intros n pos H. destruct (SL pos) as (v & E & _); [apply I, in_map_iff; exists (n, pos); split; [reflexivity|exact H]|]. exists v. exact E. }
    exists r. split; [exact R1|]. split; [split|].
    - intros n pos H. destruct (R2 n pos H) as (v & V1 & V2). exists v. split; [exact V1|]. apply Uniq; [apply I, in_map_iff; exists (n, pos); split; [reflexivity|exact H]|exact V2].
    - intros n H. left. apply R3, H.
    - intros n pos H. destruct (R2 n pos H) as (v & V1 & _). exists v. exact V1. }
  assert (ND : forall l : list string, (if List.list_eq_dec string_dec (nodup string_dec l) l then true else false) = true -> NoDup l).
  { intros l0 E. destruct (list_eq_dec string_dec (nodup string_dec l0) l0) as [X|]; [|discriminate]. rewrite <- X. apply NoDup_nodup. }
  assert (INC : forall l : list string, forallb (fun x => if in_dec string_dec x all_positions then true else false) l = true -> incl l all_positions).
  { intros l0 E x Hx. rewrite forallb_forall in E. specialize (E x Hx). destruct (in_dec string_dec x all_positions); [assumption|discriminate]. }
  destruct (RD doc_mode_info triples ltac:(auto) ltac:(apply ND; vm_compute; reflexivity) ltac:(apply INC; vm_compute; reflexivity)) as (r1 & R1 & H1 & _).
  destruct (RD doc_poly_select triples ltac:(auto) ltac:(apply ND; vm_compute; reflexivity) ltac:(apply INC; vm_compute; reflexivity)) as (r2 & R2 & H2 & _).
  destruct (RD doc_mode_selection pairs ltac:(auto) ltac:(apply ND; vm_compute; reflexivity) ltac:(apply INC; vm_compute; reflexivity)) as (r3 & R3 & H3 & _).
  destruct (RD doc_comp triples ltac:(auto) ltac:(apply ND; vm_compute; reflexivity) ltac:(apply INC; vm_compute; reflexivity)) as (r5 & R5 & H5 & _).
  destruct (RD doc_save triples ltac:(auto) ltac:(apply ND; vm_compute; reflexivity) ltac:(apply INC; vm_compute; reflexivity)) as (r6 & R6 & H6 & _).
  destruct (RD doc_poly_model triples ltac:(auto) ltac:(apply ND; vm_compute; reflexivity) ltac:(apply INC; vm_compute; reflexivity)) as (r7 & R7 & H7 & _).
  destruct (RD doc_angular triples ltac:(auto) ltac:(apply ND; vm_compute; reflexivity) ltac:(apply INC; vm_compute; reflexivity)) as (r8 & R8 & H8 & _).
  destruct (RD doc_selection triples ltac:(auto) ltac:(apply ND; vm_compute; reflexivity) ltac:(apply INC; vm_compute; reflexivity)) as (r9 & R9 & H9 & _).
  destruct (RD doc_plot triples ltac:(auto) ltac:(apply ND; vm_compute; reflexivity) ltac:(apply INC; vm_compute; reflexivity)) as (r10 & R10 & H10 & _).
  (* the dictionary with the converted entry *)
  pose (doc4 := (firstn 5 doc_mode_computation ++ ("terms_cc_conj", "coupling_coefficient.terms_cc_conj") :: skipn 5 doc_mode_computation)%list).
  assert (L4 : lookup d' ["coupling_coefficient"; "terms_cc_conj"] = Ok (VTup l)). { unfold d'. rewrite lookup_tab, tget_tset. cbn [String.eqb Ascii.eqb Bool.eqb]. rewrite lookup_tab, tget_tset. reflexivity. }
  destruct (read_entries d' doc4 triples ltac:(auto) ltac:(apply ND; vm_compute; reflexivity)) as (r4 & R4 & H4 & K4).
  { intros n pos I. assert (X : In pos all_positions \/ pos = "coupling_coefficient.terms_cc_conj"). { assert (F : forallb (fun np => if in_dec string_dec (snd np) all_positions then true else String.eqb (snd np) "coupling_coefficient.terms_cc_conj") doc4 = true) by (vm_compute; reflexivity).
      rewrite forallb_forall in F. specialize (F (n, pos) I). cbn [snd] in F. destruct (in_dec string_dec pos all_positions); [left; assumption|right; apply String.eqb_eq, F]. }
    destruct X as [X| ->]; [destruct (SL pos X) as (v & E & _); exists v; exact E|exists (VTup l); exact L4]. }
  change mode_info_spec with (triples (positions doc_mode_info)). rewrite R1. cbn [bind].
  change mode_poly_spec with (triples (positions doc_poly_select)). rewrite R2. cbn [bind].
  change mode_selection_spec with (pairs (positions doc_mode_selection)). rewrite R3. cbn [bind].
  (* lists *)
  assert (LS : forall pos, incl pos all_positions -> (forall p, In p pos -> exists a b c, undot p = [a; b; c]) -> pos <> [] ->
     exists vs, read_in_to_list d' (map (fun p => APath (undot p)) pos) = Ok vs /\ Forall2 (setting (VTab t)) pos vs).
  { intros pos I T N. 
    assert (E : read_in_to_list d' (map (fun p => APath (undot p)) pos) = mapM (fun p => lookup d' (undot p)) pos).
    { destruct pos as [|p pos]; [contradiction|]. unfold read_in_to_list. destruct (T p (or_introl eq_refl)) as (a & b & c & Ep). cbn [map mapM]. rewrite Ep at 1. cbn [unpack2 bind].
      change (mapM (fun a0 => (i <- as_index a0 ; get_ha d' i)%res) (map (fun p0 => APath (undot p0)) (p :: pos)) = mapM (fun p0 => lookup d' (undot p0)) (p :: pos)).
      generalize (p :: pos) as q. induction q as [|x q IH]; [reflexivity|]. cbn [map mapM as_index bind]. rewrite get_ha_path, IH. reflexivity. }
    rewrite E. clear E T N. induction pos as [|p pos IH]; [exists []; split; [reflexivity|constructor]|]. destruct (SL p (I p (or_introl eq_refl))) as (v & Ev & Sv). cbn [mapM]. rewrite Ev. cbn [bind].
    destruct IH as (vs & -> & F). { intros x Hx. apply I. right. exact Hx. } exists (v :: vs). split; [reflexivity|constructor; assumption]. }
  destruct (LS doc_l) as (ls & Els & Fls). { apply INC; vm_compute; reflexivity. } { intros p Hp. cbn in Hp. repeat (destruct Hp as [<-|Hp]; [eexists _, _, _; reflexivity|]). destruct Hp. } { discriminate. }
  destruct (LS doc_m) as (ms & Ems & Fms). { apply INC; vm_compute; reflexivity. } { intros p Hp. cbn in Hp. repeat (destruct Hp as [<-|Hp]; [eexists _, _, _; reflexivity|]). destruct Hp. } { discriminate. }
  change l_spec with (map (fun p => APath (undot p)) doc_l). rewrite Els. cbn [bind]. change m_spec with (map (fun p => APath (undot p)) doc_m). rewrite Ems. cbn [bind].
  change mode_computation_spec with (triples (positions doc4)). rewrite R4. cbn [bind].
  change computation_spec with (triples (positions doc_comp)). rewrite R5. cbn [bind]. change save_spec with (triples (positions doc_save)). rewrite R6. cbn [bind].
  change poly_model_spec with (triples (positions doc_poly_model)). rewrite R7. cbn [bind]. change ang_integ_spec with (triples (positions doc_angular)). rewrite R8. cbn [bind].
  change cc_selection_spec with (triples (positions doc_selection)). rewrite R9. cbn [bind]. change cc_plot_spec with (triples (positions doc_plot)). rewrite R10. cbn [bind].
  destruct (SL "GYRE_selection.specifier.adiabatic") as (w1 & W1 & S1). { apply (INC ["GYRE_selection.specifier.adiabatic"]); [vm_compute; reflexivity|left; reflexivity]. }
  destruct (SL "GYRE_selection.specifier.nonadiabatic") as (w2 & W2 & S2). { apply (INC ["GYRE_selection.specifier.nonadiabatic"]); [vm_compute; reflexivity|left; reflexivity]. }
  destruct (SL "POLY_selection.specifier.modes") as (w3 & W3 & S3). { apply (INC ["POLY_selection.specifier.modes"]); [vm_compute; reflexivity|left; reflexivity]. }
  destruct (SL "verbosity-debug.get_debug_info") as (w4 & W4 & S4). { apply (INC ["verbosity-debug.get_debug_info"]); [vm_compute; reflexivity|left; reflexivity]. }
  assert (ER : read_in_to_list d' rest_spec = Ok [w1; w2; w3; w4]).
  { unfold read_in_to_list, rest_spec. cbn [mapM unpack2 bind as_index]. rewrite !get_ha_path. cbn -[lookup] in W1, W2, W3, W4. rewrite W1. cbn [bind]. rewrite W2. cbn [bind]. rewrite W3. cbn [bind]. rewrite W4. reflexivity. }
  rewrite ER. cbn [bind]. eexists. split; [reflexivity|]. cbn [mode_info poly_select mode_selection mode_computation comp save_info poly_model a_i cc_profile_selection cc_profile_plot ad nad poly_modes get_debug_info].
  assert (EXT : forall r doc x y, holds (VTab t) r doc [] -> ~ In "mode_l" (map fst doc) -> ~ In "mode_m" (map fst doc) -> holds (VTab t) (tset (tset r "mode_l" x) "mode_m" y) doc ["mode_l"; "mode_m"]).
  { intros r doc x y [P Q] Nl Nm. split.
    - intros n pos I. destruct (P n pos I) as (v & V1 & V2). exists v. split; [|exact V2]. apply tget_has. rewrite !tget_tset. assert (In n (map fst doc)) by (apply in_map_iff; exists (n, pos); split; [reflexivity|exact I]).
      destruct (String.eqb_spec n "mode_m"); [subst; contradiction|]. destruct (String.eqb_spec n "mode_l"); [subst; contradiction|]. apply tget_has, V1.
    - intros n I. rewrite !tset_keys in I. destruct I as [[I| ->]| ->]; [destruct (Q n I) as [X|[]]; left; exact X|right; left; reflexivity|right; right; left; reflexivity]. }
  split; [exact H1|]. split; [exact H2|]. split. { apply EXT; [exact H3| |]; intros X; cbn in X; repeat (destruct X as [X|X]; [discriminate|]); destruct X. }
  split.
  { assert (F : forall np, In np doc_mode_computation -> In np doc4). { intros np I. unfold doc4. rewrite <- (firstn_skipn 5 doc_mode_computation) in I. apply in_app_iff in I. apply in_app_iff. destruct I as [I|I]; [left; exact I|right; right; exact I]. }
    split.
    - intros n pos I. destruct (H4 n pos (F _ I)) as (v & V1 & V2). exists v. split; [exact V1|]. apply Uniq; [|exact V2]. apply (INC (map snd doc_mode_computation)); [vm_compute; reflexivity|]. apply in_map_iff. exists (n, pos). split; [reflexivity|exact I].
    - intros n I. apply K4 in I. apply in_map_iff in I. destruct I as ([n' pos] & E & I). cbn [fst] in E. subst n'. unfold doc4 in I. apply in_app_iff in I. destruct I as [I|[I|I]].
      + left. apply in_map_iff. exists (n, pos). split; [reflexivity|]. rewrite <- (firstn_skipn 5 doc_mode_computation). apply in_app_iff. left. exact I.
      + right. injection I as <- _. left. reflexivity.
      + left. apply in_map_iff. exists (n, pos). split; [reflexivity|]. rewrite <- (firstn_skipn 5 doc_mode_computation). apply in_app_iff. right. exact I. }
  split; [exact H5|]. split; [exact H6|]. split; [exact H7|]. split; [exact H8|]. split. { apply EXT; [exact H9| |]; intros X; cbn in X; repeat (destruct X as [X|X]; [discriminate|]); destruct X. }
  split; [exact H10|]. split.
  { destruct (H4 "terms_cc_conj" "coupling_coefficient.terms_cc_conj") as (v & V1 & V2). { unfold doc4. apply in_app_iff. right. left. reflexivity. } change (undot "coupling_coefficient.terms_cc_conj") with ["coupling_coefficient"; "terms_cc_conj"] in V2. rewrite L4 in V2. injection V2 as <-. exact V1. }
  split.
  { exists ls, ms. split; [exact Fls|]. split; [exact Fms|]. assert (M : forall r, has (tset (tset r "mode_l" (VArr ls)) "mode_m" (VArr ms)) "mode_l" (VArr ls) /\ has (tset (tset r "mode_l" (VArr ls)) "mode_m" (VArr ms)) "mode_m" (VArr ms)).
    { intros r. split; apply tget_has; rewrite !tget_tset; reflexivity. }
    split; [apply M|]. split; [apply M|]. split; apply M. }
  split; [exact S1|]. split; [exact S2|]. split; [exact S3|exact S4].
Qed.
(** finding: without an array of switches in coupling_coefficient.terms_cc_conj nothing can be read: a missing entry raises KeyError,
    one set to None or to a number TypeError *)
Theorem C94_terms_required : forall t,
  (lacks t "coupling_coefficient" -> read_toml_args (VTab t) = Exc KeyError) /\
  (forall ct, has t "coupling_coefficient" (VTab ct) ->
     (lacks ct "terms_cc_conj" -> read_toml_args (VTab t) = Exc KeyError) /\
     (forall v, has ct "terms_cc_conj" v -> unsearchable v -> read_toml_args (VTab t) = Exc TypeError)).
Proof.
  intros t. unfold read_toml_args, convert_toml_input_list_to_tuple. cbn [item]. split.
  - intros L. apply tget_lacks in L. rewrite L. reflexivity.
  - intros ct H. apply tget_has in H. rewrite H. cbn [bind item]. split.
    + intros L. apply tget_lacks in L. rewrite L. reflexivity.
    + intros v Hv U. apply tget_has in Hv. rewrite Hv. cbn [bind]. destruct U as [->|[(b & ->)|[(z & ->)|(q & ->)]]]; reflexivity.
Qed.
(** an inlist with no more than the mandatory entry meets the hypotheses *)
Example C94_example : (forall pos, In pos all_positions -> exists v, setting (VTab ex_inlist) pos v) /\ at_path (VTab ex_inlist) ["coupling_coefficient"; "terms_cc_conj"] (VArr [VBool false; VBool true; VBool true]).
Proof.
  split.
  - intros pos I. exists VNone.
    assert (F : forallb (fun p => match undot p with k :: ks => negb (String.eqb k "coupling_coefficient") || match ks with [k2] => negb (String.eqb k2 "terms_cc_conj") | _ => false end | [] => false end) all_positions = true) by (vm_compute; reflexivity).
    rewrite forallb_forall in F. specialize (F pos I). destruct (undot pos) as [|k ks] eqn:E; [discriminate|]. destruct (String.eqb_spec k "coupling_coefficient") as [->|N].
    + cbn in F. destruct ks as [|k2 [|k3 ks]]; try discriminate. apply (nothing_there _ _ ["coupling_coefficient"] k2 [] [("terms_cc_conj", VArr [VBool false; VBool true; VBool true])]); [exact E| |].
      * eapply below; [exists [], []; split; [reflexivity|intros []]|constructor].
      * intros [X|[]]. cbn in X. subst k2. discriminate.
    + apply (nothing_there _ _ [] k ks ex_inlist); [exact E|constructor|]. intros [X|[]]. cbn in X. congruence.
  - eapply below; [exists [], []; split; [reflexivity|intros []]|]. eapply below; [exists [], []; split; [reflexivity|intros []]|constructor].
Qed.

(** ** C95: the level of the log *)
Theorem C95_log_level : forall lv t dbg vb, has t "debug" dbg -> has t "verbose" vb ->
  exists lv' t', adjust_root_logger_level lv t = Ok (lv', t') /\
    (truthy dbg = true -> lv' = DEBUG) /\ (truthy dbg = false -> truthy vb = false -> lv' = WARNING) /\ (truthy dbg = false -> truthy vb = true -> lv' = lv) /\
    lacks t' "debug" /\ lacks t' "verbose" /\ (forall k v, k <> "debug" -> k <> "verbose" -> (has t' k v <-> has t k v)).
Proof.
  intros lv t dbg vb Hd Hv. apply tget_has in Hd, Hv. unfold adjust_root_logger_level. cbn [item]. rewrite Hd. cbn [bind].
  assert (P : forall t k, exists t', (tget t k <> None -> tpop t k = Ok t') /\ forall k', tget t' k' = if String.eqb k k' then None else tget t k').
  { clear. intros t k. exists (filter (fun kv => negb (String.eqb k (fst kv))) t). split.
    - intros N. unfold tpop. destruct (tget t k); [reflexivity|contradiction].
    - intros k'. induction t as [|[k0 v] t IH]; [cbn; destruct (String.eqb k k'); reflexivity|]. cbn [filter fst tget]. destruct (String.eqb_spec k k0) as [->|N]; cbn [negb tget]; rewrite IH.
      + destruct (String.eqb_spec k0 k') as [->|N']; [reflexivity|]. destruct (String.eqb_spec k' k0); [congruence|reflexivity].
      + destruct (String.eqb_spec k' k0) as [->|N']; [|reflexivity]. destruct (String.eqb_spec k k0); [contradiction|reflexivity]. }
  destruct (P t "debug") as (t1 & P1 & Q1). destruct (P t1 "verbose") as (t2 & P2 & Q2).
  assert (E1 : tpop t "debug" = Ok t1) by (apply P1; congruence).
  assert (E2 : tpop t1 "verbose" = Ok t2) by (apply P2; rewrite Q1; cbn; congruence).
  assert (T : lacks t2 "debug" /\ lacks t2 "verbose" /\ (forall k v, k <> "debug" -> k <> "verbose" -> (has t2 k v <-> has t k v))).
  { split; [apply tget_lacks; rewrite Q2, Q1; reflexivity|]. split; [apply tget_lacks; rewrite Q2; reflexivity|]. intros k v N1 N2. rewrite <- !tget_has, Q2, Q1. destruct (String.eqb_spec "verbose" k); [congruence|]. destruct (String.eqb_spec "debug" k); [congruence|]. reflexivity. }
  rewrite Hv. destruct (truthy dbg) eqn:D; cbn [bind].
  - rewrite E1. cbn [bind]. rewrite E2. cbn [bind]. eexists _, _. split; [reflexivity|]. repeat split; try discriminate; apply T; assumption.
  - destruct (truthy vb) eqn:V; rewrite E1; cbn [bind]; rewrite E2; cbn [bind]; eexists _, _; (split; [reflexivity|]); repeat split; try discriminate; apply T; assumption.
Qed.
(** which values count as switched on *)
Theorem C95_switches : forall lv t dbg vb, has t "debug" dbg -> has t "verbose" vb ->
  exists lv' t', adjust_root_logger_level lv t = Ok (lv', t') /\
    (~ falsy dbg -> lv' = DEBUG) /\ (falsy dbg -> falsy vb -> lv' = WARNING) /\ (falsy dbg -> ~ falsy vb -> lv' = lv).
Proof.
  intros lv t dbg vb Hd Hv. destruct (C95_log_level lv t dbg vb Hd Hv) as (lv' & t' & E & A & B & C & _). exists lv', t'. split; [exact E|].
  split; [intros F; apply A, truthy_not_falsy, F|]. split; [intros F V; apply B; [apply truthy_falsy, F|apply truthy_falsy, V]|].
  intros F N. apply C; [apply truthy_falsy, F|apply truthy_not_falsy, N].
Qed.
Example C95_example : adjust_root_logger_level INFO [("rot_pct", VInt 20); ("verbose", VNone); ("debug", VBool false)] = Ok (WARNING, [("rot_pct", VInt 20)]).
Proof. reflexivity. Qed.

(** ** C96: exactly one of grid and profile *)
Theorem C96_one_action : forall t g p, has t "compute_grid" g -> has t "compute_profile" p ->
  (truthy g = true -> truthy p = false -> choose_action t = Ok Grid) /\ (truthy g = false -> truthy p = true -> choose_action t = Ok Profile) /\
  (truthy g = truthy p -> choose_action t = Exc RuntimeError).
Proof.
  intros t g p Hg Hp. apply tget_has in Hg, Hp. unfold choose_action. cbn [item]. rewrite Hg, Hp. cbn [bind]. destruct (truthy g), (truthy p); repeat split; intros; congruence || reflexivity.
Qed.
Theorem C96_switches : forall t g p, has t "compute_grid" g -> has t "compute_profile" p ->
  (~ falsy g -> falsy p -> choose_action t = Ok Grid) /\ (falsy g -> ~ falsy p -> choose_action t = Ok Profile) /\
  ((falsy g <-> falsy p) -> choose_action t = Exc RuntimeError).
Proof.
  intros t g p Hg Hp. destruct (C96_one_action t g p Hg Hp) as (A & B & C). split; [|split].
  - intros G P. apply A; [apply truthy_not_falsy, G|apply truthy_falsy, P].
  - intros G P. apply B; [apply truthy_falsy, G|apply truthy_not_falsy, P].
  - intros [X Y]. apply C. rewrite <- !truthy_falsy in X, Y. destruct (truthy g), (truthy p); try reflexivity; solve [apply Y; reflexivity|symmetry; apply X; reflexivity|apply X; reflexivity].
Qed.
Example C96_example : choose_action [("compute_grid", VBool true); ("compute_profile", VNone)] = Ok Grid.
Proof. reflexivity. Qed.
