(** * Lemmas on the name of the save file. *)
From Coq Require Import Reals List String Ascii ZArith Bool Lia.
From Verif Require Import Base Py Saver_Model Saver_Spec.
Import ListNotations.
Local Open Scope string_scope.

Lemma sapp_assoc (a b c : string) : (a ++ b) ++ c = a ++ (b ++ c).
Proof. induction a; cbn; congruence. Qed.
Lemma sapp_nil_r (a : string) : a ++ "" = a.
Proof. induction a; cbn; congruence. Qed.
Lemma los_app a b : list_ascii_of_string (a ++ b) = (list_ascii_of_string a ++ list_ascii_of_string b)%list.
Proof. induction a; cbn; congruence. Qed.
Definition wordy (s : string) : Prop := forallb is_word (list_ascii_of_string s) = true.
Lemma wordy_app a b : wordy a -> wordy b -> wordy (a ++ b).
Proof. unfold wordy. intros A B. rewrite los_app, forallb_app, A, B. reflexivity. Qed.
Lemma wordy_cons c s : wordy (String c s) -> is_word c = true /\ wordy s.
Proof. unfold wordy. cbn. intros H. apply andb_true_iff in H. exact H. Qed.
Lemma word_not_slash c : is_word c = true -> Ascii.eqb c "/" = false.
Proof. intros H. destruct (Ascii.eqb_spec c "/"); [subst; discriminate|reflexivity]. Qed.
Lemma span_word_wordy w c t : wordy w -> is_word c = false -> span_word (w ++ String c t) = (w, String c t).
Proof.
  intros W H. induction w as [|a w IH]; cbn; [rewrite H; reflexivity|]. destruct (wordy_cons _ _ W) as [A B]. rewrite A. cbn in IH. rewrite IH by exact B. reflexivity.
Qed.
Lemma insert_last_no_slash q s : no_slash s -> insert_last q s = None.
Proof.
  unfold no_slash. induction s as [|c s IH]; [reflexivity|]. cbn. intros H. apply orb_false_iff in H. destruct H as [H1 H2].
  rewrite IH by exact H2. destruct (Ascii.eqb_spec c "/") as [->|]; [discriminate|reflexivity].
Qed.
Lemma wordy_no_slash s : wordy s -> no_slash s.
Proof.
  unfold no_slash. induction s as [|c s IH]; [reflexivity|]. intros H. destruct (wordy_cons _ _ H) as [A B]. cbn [list_ascii_of_string existsb]. rewrite (IH B).
  destruct (Ascii.eqb_spec "/" c) as [<-|]; [discriminate|reflexivity].
Qed.
Lemma no_slash_app a b : no_slash a -> no_slash b -> no_slash (a ++ b).
Proof. unfold no_slash. intros A B. rewrite los_app, existsb_app, A, B. reflexivity. Qed.
Lemma insert_last_word q d w x : word w -> wordy x -> x <> "" ->
  insert_last q (d ++ "/" ++ w ++ "." ++ x) = Some (d ++ "/" ++ w ++ q ++ "." ++ x).
Proof.
  intros [N W] X NX. induction d as [|c d IH].
  - cbn [append]. cbn [insert_last]. rewrite insert_last_no_slash.
    + cbn [insert_here]. change (Ascii.eqb "/" "/") with true. cbv iota.
      rewrite (span_word_wordy w "."%char x W eq_refl). destruct w as [|a w]; [contradiction|]. change (Ascii.eqb "." ".") with true. cbv iota.
      destruct x as [|e x]; [contradiction|]. destruct (wordy_cons _ _ X) as [E _]. rewrite E. reflexivity.
    + apply no_slash_app; [apply wordy_no_slash, W|]. apply (no_slash_app "."); [reflexivity|apply wordy_no_slash, X].
  - cbn [append insert_last]. cbn [append] in IH. rewrite IH. reflexivity.
Qed.
(** ** names that are left alone *)
Lemma span_nodot u r : no_dot u -> exists w c t, span_word (u ++ String "/" r) = (w, String c t) /\ c <> "."%char.
Proof.
  unfold no_dot. induction u as [|a u IH]; cbn; intros H.
  - exists "", "/"%char, r. split; [reflexivity|discriminate].
  - apply orb_false_iff in H. destruct H as [H1 H2]. destruct (is_word a) eqn:A.
    + destruct (IH H2) as (w & c & t & E & N). cbn in E. rewrite E. exists (String a w), c, t. auto.
    + exists "", a, (u ++ String "/" r). split; [reflexivity|]. intros ->. discriminate.
Qed.
Lemma insert_here_none q s : (forall w t, span_word s = (w, t) -> match t with String c _ => c <> "."%char | EmptyString => True end) -> insert_here q (String "/" s) = None.
Proof.
  intros H. cbn [insert_here]. change (Ascii.eqb "/" "/") with true. cbv iota. destruct (span_word s) as [w t]. specialize (H w t eq_refl).
  destruct w as [|a w]; [reflexivity|]. destruct t as [|c t]; [reflexivity|]. destruct (Ascii.eqb_spec c "."); [contradiction|reflexivity].
Qed.
Lemma insert_here_other q c s : Ascii.eqb c "/" = false -> insert_here q (String c s) = None.
Proof. intros H. cbn. rewrite H. reflexivity. Qed.
Lemma insert_last_prefix_none q d n : no_dot d -> insert_last q (String "/" n) = None -> insert_last q (d ++ String "/" n) = None.
Proof.
  unfold no_dot. induction d as [|c d IH]; intros D H; [exact H|]. cbn in D. apply orb_false_iff in D. destruct D as [D1 D2]. cbn [append insert_last].
  cbn [append] in IH. rewrite (IH D2 H). destruct (Ascii.eqb c "/") eqn:E; [|apply insert_here_other, E].
  apply Ascii.eqb_eq in E. subst c. apply insert_here_none. intros w t S. destruct (span_nodot d n D2) as (w' & c & t' & S' & N). cbn in S'. rewrite S' in S. inversion S; subst. exact N.
Qed.
Lemma insert_last_odd q d w c t : no_dot d -> wordy w -> is_word c = false -> c <> "."%char -> no_slash (w ++ String c t) ->
  insert_last q (d ++ "/" ++ w ++ String c t) = None.
Proof.
  intros D W C N S. apply insert_last_prefix_none; [exact D|]. cbn [append insert_last]. rewrite insert_last_no_slash by exact S.
  apply insert_here_none. intros w' t' E. rewrite span_word_wordy in E by assumption. inversion E; subst. exact N.
Qed.
(** the last component *)
Lemma no_slash_cons c s : no_slash (String c s) -> Ascii.eqb c "/" = false /\ no_slash s.
Proof. unfold no_slash. cbn. intros H. apply orb_false_iff in H. destruct H as [H1 H2]. split; [|exact H2]. destruct (Ascii.eqb_spec c "/") as [->|]; [discriminate|reflexivity]. Qed.
Lemma basename_no_slash s : no_slash s -> basename s = s.
Proof.
  intros H. destruct s as [|c s]; [reflexivity|]. destruct (no_slash_cons _ _ H) as [A B]. cbn [basename]. rewrite A. unfold no_slash in B. rewrite B. reflexivity.
Qed.
Lemma basename_app d s : no_slash s -> basename (d ++ "/" ++ s) = s.
Proof.
  intros H. induction d as [|c d IH].
  - change (basename ("" ++ "/" ++ s)) with (basename s). apply basename_no_slash, H.
  - cbn [append basename]. cbn [append] in IH. destruct (Ascii.eqb c "/"); [exact IH|].
    rewrite los_app. rewrite existsb_app. cbn [list_ascii_of_string existsb]. change (Ascii.eqb "/" "/") with true. cbn [orb]. rewrite orb_true_r. exact IH.
Qed.

(** ** integers in text *)
Definition digit_val (c : ascii) : Z := Z.of_nat (nat_of_ascii c) - 48.
Fixpoint decode (a : Z) (s : string) : Z := match s with EmptyString => a | String c s' => decode (10 * a + digit_val c) s' end.
Lemma digit_val_ok z : (0 <= z < 10)%Z -> digit_val (ascii_of_nat (48 + Z.to_nat z)) = z.
Proof. intros H. unfold digit_val. rewrite nat_ascii_embedding by lia. lia. Qed.
Lemma decode_pos : forall fuel z acc, (0 <= z < 10 ^ Z.of_nat fuel)%Z -> decode 0 (pos_digits fuel z acc) = decode z acc.
Proof.
  induction fuel as [|fuel IH]; intros z acc H; [cbn in H; replace z with 0%Z by lia; reflexivity|].
  cbn [pos_digits]. destruct (Z.ltb_spec z 10) as [L|L].
  - rewrite Z.mod_small by lia. cbn [decode]. rewrite digit_val_ok by lia. reflexivity.
  - rewrite IH.
    + cbn [decode]. rewrite digit_val_ok by (apply Z.mod_pos_bound; lia). f_equal. symmetry. apply Z.div_mod. lia.
    + split; [apply Z.div_pos; lia|]. apply Z.div_lt_upper_bound; [lia|]. replace (Z.of_nat (S fuel)) with (Z.succ (Z.of_nat fuel)) in H by lia. rewrite Z.pow_succ_r in H by lia. lia.
Qed.
Lemma fuel_enough z : (0 <= z)%Z -> (z < 10 ^ Z.of_nat (S (Z.to_nat (Z.log2 z))))%Z.
Proof.
  intros H. destruct (Z.eq_dec z 0) as [->|N]; [reflexivity|]. pose proof (Z.log2_spec z ltac:(lia)) as [_ B]. pose proof (Z.log2_nonneg z).
  replace (Z.of_nat (S (Z.to_nat (Z.log2 z)))) with (Z.succ (Z.log2 z)) by lia. eapply Z.lt_le_trans; [exact B|]. apply Z.pow_le_mono_l. lia.
Qed.
Definition is_dig (c : ascii) : bool := let n := nat_of_ascii c in ((48 <=? n) && (n <=? 57))%nat.
Lemma is_dig_ok z : (0 <= z < 10)%Z -> is_dig (ascii_of_nat (48 + Z.to_nat z)) = true.
Proof. intros H. unfold is_dig. rewrite nat_ascii_embedding by lia. apply andb_true_iff. split; apply Nat.leb_le; lia. Qed.
Definition alldig (s : string) : Prop := forallb is_dig (list_ascii_of_string s) = true.
Lemma pos_digits_dig : forall fuel z acc, (0 <= z)%Z -> alldig acc -> alldig (pos_digits fuel z acc).
Proof.
  induction fuel as [|fuel IH]; intros z acc H A; [exact A|]. cbn [pos_digits].
  assert (B : alldig (String (ascii_of_nat (48 + Z.to_nat (z mod 10))) acc)) by (unfold alldig; cbn; apply andb_true_iff; split; [apply is_dig_ok, Z.mod_pos_bound; lia|exact A]).
  destruct (z <? 10)%Z; [exact B|]. apply IH; [apply Z.div_pos; lia|exact B].
Qed.
Lemma str_of_Z_shape z : exists s, alldig s /\ ((0 <= z)%Z /\ str_of_Z z = s /\ decode 0 s = z \/ (z < 0)%Z /\ str_of_Z z = String "-" s /\ decode 0 s = (- z)%Z).
Proof.
  unfold str_of_Z. destruct (Z.ltb_spec z 0) as [L|L].
  - eexists. split; [|right; split; [exact L|split; [reflexivity|]]]; [apply pos_digits_dig; [lia|reflexivity]|].
    rewrite decode_pos by (split; [lia|apply fuel_enough; lia]). reflexivity.
  - eexists. split; [|left; split; [exact L|split; [reflexivity|]]]; [apply pos_digits_dig; [lia|reflexivity]|].
    rewrite decode_pos by (split; [lia|apply fuel_enough; lia]). reflexivity.
Qed.
Lemma str_of_Z_inj a b : str_of_Z a = str_of_Z b -> a = b.
Proof.
  destruct (str_of_Z_shape a) as (s & S & [(A1 & A2 & A3)|(A1 & A2 & A3)]); destruct (str_of_Z_shape b) as (t & T & [(B1 & B2 & B3)|(B1 & B2 & B3)]); rewrite A2, B2; intros E.
  - congruence.
  - exfalso. rewrite E in S. discriminate.
  - exfalso. rewrite <- E in T. discriminate.
  - inversion E; subst. lia.
Qed.
Definition is_num (c : ascii) : bool := is_dig c || Ascii.eqb c "-".
Lemma str_of_Z_num z : forallb is_num (list_ascii_of_string (str_of_Z z)) = true.
Proof.
  assert (K : forall s, alldig s -> forallb is_num (list_ascii_of_string s) = true).
  { intros s H. unfold alldig in H. rewrite forallb_forall in *. intros c I. unfold is_num. rewrite (H c I). reflexivity. }
  destruct (str_of_Z_shape z) as (s & S & [(A1 & A2 & A3)|(A1 & A2 & A3)]); rewrite A2; [apply K, S|]. cbn. apply K, S.
Qed.

(** ** the quantum-number text determines the quantum numbers *)
Fixpoint split_us (s cur : string) : list string :=
  match s with
  | EmptyString => [cur]
  | String c s' => if Ascii.eqb c "_" then cur :: split_us s' "" else split_us s' (cur ++ String c "")
  end.
Lemma split_us_num s : forall cur t, forallb is_num (list_ascii_of_string s) = true -> split_us (s ++ String "_" t) cur = (cur ++ s) :: split_us t "".
Proof.
  induction s as [|c s IH]; intros cur t H; cbn; [rewrite sapp_nil_r; reflexivity|]. cbn in H. apply andb_true_iff in H. destruct H as [A B].
  destruct (Ascii.eqb_spec c "_") as [->|_]; [discriminate|]. cbn in IH. rewrite IH by exact B. rewrite sapp_assoc. reflexivity.
Qed.
Lemma split_us_end s : forall cur, forallb is_num (list_ascii_of_string s) = true -> split_us s cur = [cur ++ s].
Proof.
  induction s as [|c s IH]; intros cur H; cbn; [rewrite sapp_nil_r; reflexivity|]. cbn in H. apply andb_true_iff in H. destruct H as [A B].
  destruct (Ascii.eqb_spec c "_") as [->|_]; [discriminate|]. rewrite IH by exact B. rewrite sapp_assoc. reflexivity.
Qed.
Lemma split_join l t : l <> [] -> split_us (join "_" (map str_of_Z l) ++ String "_" t) "" = (map str_of_Z l ++ split_us t "")%list.
Proof.
  induction l as [|z l IH]; intros N; [contradiction|]. destruct l as [|z' l].
  - cbn [map join]. rewrite split_us_num by apply str_of_Z_num. reflexivity.
  - change (join "_" (map str_of_Z (z :: z' :: l))) with (str_of_Z z ++ "_" ++ join "_" (map str_of_Z (z' :: l))).
    rewrite !sapp_assoc. change ("_" ++ ?x) with (String "_" x). rewrite split_us_num by apply str_of_Z_num. rewrite IH by discriminate. reflexivity.
Qed.
Lemma split_join_end l : l <> [] -> split_us (join "_" (map str_of_Z l)) "" = map str_of_Z l.
Proof.
  induction l as [|z l IH]; intros N; [contradiction|]. destruct l as [|z' l].
  - cbn [map join]. rewrite split_us_end by apply str_of_Z_num. reflexivity.
  - change (join "_" (map str_of_Z (z :: z' :: l))) with (str_of_Z z ++ "_" ++ join "_" (map str_of_Z (z' :: l))).
    change ("_" ++ ?x) with (String "_" x). rewrite split_us_num by apply str_of_Z_num. rewrite IH by discriminate. reflexivity.
Qed.
Lemma split_qnr k m : k <> [] -> m <> [] -> split_us (qnr_string k m) "" = ("" :: "k" :: map str_of_Z k ++ "m" :: map str_of_Z m)%list.
Proof.
  intros K M. unfold qnr_string. change ("_k_" ++ ?x) with (String "_" (String "k" (String "_" x))).
  change ("_m_" ++ ?x) with (String "_" (String "m" (String "_" x))). cbn [split_us]. change (Ascii.eqb "_" "_") with true. change (Ascii.eqb "k" "_") with false. cbv iota.
  rewrite split_join by exact K. cbn [split_us]. change (Ascii.eqb "m" "_") with false. change (Ascii.eqb "_" "_") with true. cbv iota.
  rewrite split_join_end by exact M. reflexivity.
Qed.
Lemma map_str_inj l : forall l', map str_of_Z l = map str_of_Z l' -> l = l'.
Proof. induction l as [|z l IH]; intros [|z' l'] H; try discriminate; [reflexivity|]. inversion H. f_equal; [apply str_of_Z_inj; assumption|apply IH; assumption]. Qed.
Lemma str_not_m z : str_of_Z z <> "m".
Proof. intros E. pose proof (str_of_Z_num z) as H. rewrite E in H. discriminate. Qed.
Lemma qnr_inj k m k' m' : k <> [] -> m <> [] -> k' <> [] -> m' <> [] -> qnr_string k m = qnr_string k' m' -> k = k' /\ m = m'.
Proof.
  intros K M K' M' E. assert (S : split_us (qnr_string k m) "" = split_us (qnr_string k' m') "") by congruence.
  rewrite !split_qnr in S by assumption. inversion S as [H]. clear S E K K'.
  assert (G : map str_of_Z k = map str_of_Z k' /\ map str_of_Z m = map str_of_Z m').
  { revert k' H. induction k as [|z k IH]; intros [|z' k'] H; cbn [map List.app] in H.
    - inversion H as [X]. auto.
    - exfalso. injection H as X Y. symmetry in X. apply (str_not_m z' X).
    - exfalso. injection H as X Y. apply (str_not_m z X).
    - injection H as X Y. destruct (IH k' Y) as [A B]. cbn. split; congruence. }
  destruct G as [G1 G2]. split; apply map_str_inj; assumption.
Qed.
Lemma append_inj_l a : forall b c, a ++ b = a ++ c -> b = c.
Proof. induction a; cbn; intros b c H; [exact H|]. inversion H. auto. Qed.
Lemma append_inj_r b : forall a c, a ++ b = c ++ b -> a = c.
Proof.
  intros a c H. assert (L : list_ascii_of_string (a ++ b) = list_ascii_of_string (c ++ b)) by congruence. rewrite !los_app in L.
  apply app_inv_tail in L. rewrite <- (string_of_list_ascii_of_string a), L. apply string_of_list_ascii_of_string.
Qed.
