From Coq Require Import List ZArith String Ascii Bool Lia.
From Verif Require Import Base Saver_Model Count_Model Count_Spec.
Import ListNotations.
Local Open Scope Z_scope.

Definition dch (z : Z) : ascii := ascii_of_nat (48 + Z.to_nat (z mod 10)).
Lemma pd_step f z acc : pos_digits (S f) z acc = if z <? 10 then String (dch z) acc else pos_digits f (z / 10) (String (dch z) acc).
Proof. reflexivity. Qed.
Lemma pd_fuel f : forall f' z acc, 0 <= z < 10 ^ (Z.of_nat f) -> 0 <= z < 10 ^ (Z.of_nat f') -> (0 < f)%nat -> (0 < f')%nat -> pos_digits f z acc = pos_digits f' z acc.
Proof.
  induction f as [|f IH]; intros f' z acc H H' P P'; [lia|]. destruct f' as [|f']; [lia|]. rewrite !pd_step. destruct (Z.ltb_spec z 10) as [L|L]; [reflexivity|].
  rewrite Nat2Z.inj_succ, Z.pow_succ_r in H, H' by lia.
  assert (Q : forall g, z < 10 * 10 ^ Z.of_nat g -> 0 <= z / 10 < 10 ^ Z.of_nat g /\ (0 < g)%nat).
  { intros g Hg. split; [split; [apply Z.div_pos; lia|apply Z.div_lt_upper_bound; lia]|]. destruct g; [cbn in Hg; lia|lia]. }
  apply IH; apply Q; lia.
Qed.
Lemma str_pos z f : 0 <= z < 10 ^ (Z.of_nat f) -> (0 < f)%nat -> str_of_Z z = pos_digits f z "".
Proof.
  intros H P. unfold str_of_Z. destruct (Z.ltb_spec z 0); [lia|]. apply pd_fuel; try lia.
  split; [lia|]. rewrite Nat2Z.inj_succ, Z2Nat.id by apply Z.log2_nonneg.
  destruct (Z.eq_dec z 0) as [->|N]; [cbn; lia|]. destruct (Z.log2_spec z) as (_ & L); [lia|]. eapply Z.lt_le_trans; [exact L|]. apply Z.pow_le_mono_l. lia.
Qed.
Fixpoint dl (f : nat) (z : Z) : list ascii :=
  match f with O => [] | S f' => (if z <? 10 then [] else dl f' (z / 10)) ++ [dch z] end%list.
Lemma pd_dl f : forall z acc, list_ascii_of_string (pos_digits f z acc) = (dl f z ++ list_ascii_of_string acc)%list.
Proof.
  induction f as [|f IH]; intros z acc; [reflexivity|]. rewrite pd_step. cbn [dl]. destruct (z <? 10); [reflexivity|]. rewrite IH, <- app_assoc. reflexivity.
Qed.
Definition big (z : Z) := S (Z.to_nat z).
Lemma pow10_big z : 0 <= z -> 0 <= z < 10 ^ Z.of_nat (big z).
Proof. intros H. unfold big. rewrite Nat2Z.inj_succ, Z2Nat.id by lia. split; [lia|]. apply Z.lt_le_trans with (2 ^ Z.succ z); [|apply Z.pow_le_mono_l; lia]. pose proof (Z.pow_gt_lin_r 2 (Z.succ z)). lia. Qed.
Definition digs (z : Z) : list ascii := list_ascii_of_string (str_of_Z z).
Lemma digs_dl z f : 0 <= z < 10 ^ (Z.of_nat f) -> (0 < f)%nat -> digs z = dl f z.
Proof. intros H P. unfold digs. rewrite (str_pos z f) by assumption. rewrite pd_dl. cbn. apply app_nil_r. Qed.
Lemma digs_step z : 10 <= z -> digs z = (digs (z / 10) ++ [dch z])%list.
Proof.
  intros H. rewrite (digs_dl z (S (big z))).
  - cbn [dl]. destruct (Z.ltb_spec z 10); [lia|]. rewrite <- (digs_dl (z / 10)); [reflexivity| |unfold big; lia].
    pose proof (pow10_big z ltac:(lia)). split; [apply Z.div_pos; lia|]. apply Z.le_lt_trans with z; [apply Z.div_le_upper_bound; lia|lia].
  - pose proof (pow10_big z ltac:(lia)). rewrite Nat2Z.inj_succ, Z.pow_succ_r; lia.
  - lia.
Qed.
Lemma digs_small z : 0 <= z < 10 -> digs z = [dch z].
Proof. intros H. rewrite (digs_dl z 1); [|cbn; lia|lia]. cbn [dl]. destruct (Z.ltb_spec z 10); [reflexivity|lia]. Qed.
Definition three (a : Z) : list ascii := [dch (a / 100); dch (a / 10); dch a].
Lemma dch_mod z k : dch (z * 10 + k) = dch k.
Proof. unfold dch. rewrite Z.add_comm, Z_mod_plus_full. reflexivity. Qed.
Lemma digs_thousand n a : 1 <= n -> 0 <= a < 1000 -> digs (1000 * n + a) = (digs n ++ three a)%list.
Proof.
  intros Hn Ha. rewrite digs_step by lia.
  replace ((1000 * n + a) / 10) with (100 * n + a / 10) by (apply Z.div_unique with (a mod 10); [left; apply Z.mod_pos_bound; lia|pose proof (Z.div_mod a 10); lia]).
  assert (0 <= a / 10 < 100) by (split; [apply Z.div_pos; lia|apply Z.div_lt_upper_bound; lia]).
  rewrite digs_step by lia.
  replace ((100 * n + a / 10) / 10) with (10 * n + a / 100).
  2:{ replace (a / 100) with (a / 10 / 10) by (rewrite Z.div_div by lia; reflexivity). apply Z.div_unique with ((a / 10) mod 10); [left; apply Z.mod_pos_bound; lia|pose proof (Z.div_mod (a / 10) 10); lia]. }
  assert (0 <= a / 100 < 10) by (split; [apply Z.div_pos; lia|apply Z.div_lt_upper_bound; lia]).
  rewrite digs_step by lia.
  replace ((10 * n + a / 100) / 10) with n by (apply Z.div_unique with (a / 100); lia).
  rewrite <- !app_assoc. cbn [app]. unfold three. f_equal.
  replace (10 * n + a / 100) with (n * 10 + a / 100) by lia. rewrite dch_mod.
  replace (100 * n + a / 10) with ((10 * n) * 10 + a / 10) by lia. rewrite dch_mod.
  replace (1000 * n + a) with ((100 * n) * 10 + a) by lia. rewrite dch_mod. reflexivity.
Qed.
Lemma digit_dch z : 0 <= z -> digit (dch z) = Ok (Z.to_nat (z mod 10)).
Proof.
  intros H. pose proof (Z.mod_pos_bound z 10 ltac:(lia)) as B. unfold dch. generalize dependent (z mod 10). intros d B.
  assert (E : exists k, (k < 10)%nat /\ Z.to_nat d = k) by (exists (Z.to_nat d); split; [lia|reflexivity]). destruct E as (k & Hk & ->).
  do 10 (destruct k as [|k]; [reflexivity|]). lia.
Qed.
Lemma not_sign z : Ascii.eqb (dch z) "-" || Ascii.eqb (dch z) "+" = false.
Proof.
  pose proof (Z.mod_pos_bound z 10 ltac:(lia)) as B. unfold dch. generalize dependent (z mod 10). intros d B.
  assert (E : exists k, (k < 10)%nat /\ Z.to_nat d = k) by (exists (Z.to_nat d); split; [lia|reflexivity]). destruct E as (k & Hk & ->).
  do 10 (destruct k as [|k]; [reflexivity|]). lia.
Qed.
(** the digits padded to whole groups *)
Lemma digs_head z : 0 <= z -> exists w r, digs z = (dch w :: r)%list.
Proof.
  intros H. remember (Z.to_nat z) as k eqn:E. revert z H E. induction k as [k IH] using lt_wf_ind. intros z H ->.
  destruct (Z.lt_ge_cases z 10) as [L|L]; [rewrite digs_small by lia; eauto|]. rewrite digs_step by lia.
  destruct (IH (Z.to_nat (z / 10))) with (z := z / 10) as (w & r & ->); try reflexivity.
  - apply Z2Nat.inj_lt; try lia; [apply Z.div_pos; lia|apply Z.div_lt; lia].
  - apply Z.div_pos; lia.
  - cbn [app]. eauto.
Qed.
Definition padded (z : Z) : list ascii := zfill (digs z) (3 * ((List.length (digs z) + 2) / 3)).
Lemma padded_eq z : 0 <= z -> padded z = (repeat "0"%char (3 * ((List.length (digs z) + 2) / 3) - List.length (digs z)) ++ digs z)%list.
Proof. intros H. unfold padded, zfill. destruct (digs_head z H) as (w & r & ->). rewrite not_sign. reflexivity. Qed.
Lemma padded_thousand n a : 1 <= n -> 0 <= a < 1000 -> padded (1000 * n + a) = (padded n ++ three a)%list.
Proof.
  intros Hn Ha. rewrite !padded_eq by lia. rewrite digs_thousand by assumption. rewrite app_length. change (List.length (three a)) with 3%nat.
  replace (List.length (digs n) + 3 + 2)%nat with (List.length (digs n) + 2 + 1 * 3)%nat by lia. rewrite Nat.div_add by lia. rewrite app_assoc. do 2 f_equal.
  f_equal. lia.
Qed.
Lemma padded_small a : 0 < a < 1000 -> padded a = three a.
Proof.
  intros Ha. assert (E : exists k, (k < 1000)%nat /\ a = Z.of_nat k) by (exists (Z.to_nat a); lia). destruct E as (k & Hk & ->). revert k Hk Ha.
  assert (A : forall k, (k < 1000)%nat -> (if list_eq_dec ascii_dec (padded (Z.of_nat k)) (three (Z.of_nat k)) then true else false) = true \/ k = 0%nat).
  { assert (F : forallb (fun k => (if list_eq_dec ascii_dec (padded (Z.of_nat k)) (three (Z.of_nat k)) then true else false) || Nat.eqb k 0) (seq 0 1000) = true) by (vm_compute; reflexivity).
    intros k Hk. rewrite forallb_forall in F. specialize (F k ltac:(apply in_seq; lia)). apply orb_true_iff in F. destruct F as [F|F]; [left; exact F|right; apply Nat.eqb_eq, F]. }
  intros k Hk Ha. destruct (A k Hk) as [B|B]; [|lia]. destruct list_eq_dec; [assumption|discriminate].
Qed.
(** groups *)
Definition gw (a : Z) : list string := group_words (Z.to_nat ((a / 100) mod 10)) (Z.to_nat ((a / 10) mod 10)) (Z.to_nat (a mod 10)).
Lemma groups_three a r : 0 <= a -> groups (three a ++ r) = bind (groups r) (fun ws => Ok (gw a ++ ws)%list).
Proof.
  intros H. unfold three. cbn [app groups]. rewrite !digit_dch; [reflexivity|lia|apply Z.div_pos; lia|apply Z.div_pos; lia].
Qed.
Lemma groups_app s r : (exists n, List.length s = 3 * n)%nat -> groups (s ++ r) = bind (groups s) (fun w => bind (groups r) (fun ws => Ok (w ++ ws)%list)).
Proof.
  intros (n & Hn). revert s Hn. induction n as [|n IH]; intros s Hn.
  - destruct s; [|cbn in Hn; lia]. cbn. destruct (groups r); reflexivity.
  - destruct s as [|a [|b [|c s]]]; cbn in Hn; try lia. cbn [app groups]. destruct (digit a); cbn [bind]; try reflexivity. destruct (digit b); cbn [bind]; try reflexivity.
    destruct (digit c); cbn [bind]; try reflexivity. rewrite IH by lia. destruct (groups s); cbn [bind]; try reflexivity. destruct (groups r); cbn [bind]; try reflexivity.
    rewrite app_assoc. reflexivity.
Qed.
Lemma padded_length z : 0 <= z -> exists n, List.length (padded z) = (3 * n)%nat.
Proof.
  intros H. rewrite padded_eq by exact H. rewrite app_length, repeat_length. exists ((List.length (digs z) + 2) / 3)%nat.
  pose proof (Nat.div_mod (List.length (digs z) + 2) 3 ltac:(lia)). pose proof (Nat.mod_upper_bound (List.length (digs z) + 2) 3 ltac:(lia)). lia.
Qed.
Definition wordsof (z : Z) : list string := match groups (padded z) with Ok w => w | _ => [] end.
Lemma words_ex z : 1 <= z -> groups (padded z) = Ok (wordsof z).
Proof.
  intros H. remember (Z.to_nat z) as k eqn:E. revert z H E. induction k as [k IH] using lt_wf_ind. intros z H ->. unfold wordsof.
  destruct (Z.lt_ge_cases z 1000) as [L|L].
  - rewrite padded_small by lia. rewrite <- (app_nil_r (three z)), groups_three by lia. reflexivity.
  - pose proof (Z.mod_pos_bound z 1000 ltac:(lia)) as B. pose proof (Z.div_mod z 1000 ltac:(lia)) as D. assert (1 <= z / 1000) by (apply Z.div_le_lower_bound; lia).
    rewrite D, padded_thousand by lia. rewrite groups_app by (apply padded_length; lia).
    rewrite (IH (Z.to_nat (z / 1000))); [|apply Z2Nat.inj_lt; try lia; apply Z.div_lt; lia|lia|reflexivity].
    rewrite <- (app_nil_r (three _)), groups_three by lia. reflexivity.
Qed.
Lemma count_ok z : 1 <= z -> count_string z = Ok (join " " (wordsof z)).
Proof. intros H. unfold count_string. destruct (Z.eqb_spec z 0); [lia|]. fold (digs z). fold (padded z). rewrite words_ex by exact H. reflexivity. Qed.
Lemma words_thousand n a : 1 <= n -> 0 <= a < 1000 -> wordsof (1000 * n + a) = (wordsof n ++ gw a)%list.
Proof.
  intros Hn Ha. assert (G := words_ex (1000 * n + a) ltac:(lia)). rewrite padded_thousand in G by assumption. rewrite groups_app in G by (apply padded_length; lia).
  rewrite words_ex in G by lia. rewrite <- (app_nil_r (three a)), groups_three in G by lia. cbn [bind groups] in G. rewrite app_nil_r in G.
  assert (forall A (x y : A), Ok x = Ok y -> x = y) as J by (intros ? ? ? X; injection X; auto). symmetry. apply J, G.
Qed.
Lemma words_small a : 0 < a < 1000 -> wordsof a = gw a.
Proof. intros H. unfold wordsof. rewrite padded_small by lia. rewrite <- (app_nil_r (three a)), groups_three by lia. cbn. apply app_nil_r. Qed.
Lemma gw_nonempty a : 0 < a < 1000 -> gw a <> [].
Proof.
  intros H E. assert (A : forallb (fun k => match gw (Z.of_nat k) with [] => Nat.eqb k 0 | _ => true end) (seq 0 1000) = true) by (vm_compute; reflexivity).
  rewrite forallb_forall in A. specialize (A (Z.to_nat a) ltac:(apply in_seq; lia)). rewrite Z2Nat.id in A by lia. rewrite E in A. apply Nat.eqb_eq in A. lia.
Qed.
Lemma words_nonempty z : 1 <= z -> wordsof z <> [].
Proof.
  intros H. remember (Z.to_nat z) as k eqn:E. revert z H E. induction k as [k IH] using lt_wf_ind. intros z H ->.
  destruct (Z.lt_ge_cases z 1000) as [L|L]; [rewrite words_small by lia; apply gw_nonempty; lia|].
  pose proof (Z.mod_pos_bound z 1000 ltac:(lia)) as B. pose proof (Z.div_mod z 1000 ltac:(lia)) as D. assert (1 <= z / 1000) by (apply Z.div_le_lower_bound; lia).
  rewrite D, words_thousand by lia. intros X. apply app_eq_nil in X. destruct X as (X & _). revert X. apply (IH (Z.to_nat (z / 1000))); [apply Z2Nat.inj_lt; try lia; apply Z.div_lt; lia|lia|reflexivity].
Qed.
Lemma sapp_assoc (a b c : string) : ((a ++ b) ++ c = a ++ (b ++ c))%string.
Proof. induction a as [|x a IH]; [reflexivity|]. cbn. rewrite IH. reflexivity. Qed.
Lemma join_app l m : l <> [] -> m <> [] -> join " " (l ++ m) = (join " " l ++ " " ++ join " " m)%string.
Proof.
  intros H N. induction l as [|x [|y l] IH]; [congruence| |].
  - destruct m; [congruence|]. reflexivity.
  - change (x ++ " " ++ join " " ((y :: l) ++ m) = (x ++ " " ++ join " " (y :: l)) ++ " " ++ join " " m)%string. rewrite IH by discriminate. rewrite !sapp_assoc. reflexivity.
Qed.
(** negative numbers *)
Lemma count_neg z : z < 0 -> count_string z = Exc ValueError.
Proof.
  intros H. unfold count_string. destruct (Z.eqb_spec z 0); [lia|]. unfold str_of_Z. destruct (Z.ltb_spec z 0); [|lia].
  set (w := pos_digits _ _ _). change (list_ascii_of_string ("-" ++ w)%string) with ("-"%char :: list_ascii_of_string w).
  set (l := list_ascii_of_string w). cbn [List.length]. unfold zfill.
  change (Ascii.eqb "-" "-" || Ascii.eqb "-" "+") with true. cbn iota.
  set (x := (repeat "0"%char _ ++ l)%list).
  assert (L : (2 <= List.length x)%nat).
  { unfold x. rewrite app_length, repeat_length. cbn [List.length]. pose proof (Nat.div_mod (S (List.length l) + 2) 3 ltac:(lia)). pose proof (Nat.mod_upper_bound (S (List.length l) + 2) 3 ltac:(lia)). lia. }
  destruct x as [|b [|c x]]; cbn in L; try lia. reflexivity.
Qed.

(** ** The poll *)
Lemma index_valid {A} (l : list A) k : (exists c, index l k = Some c) <-> valid (List.length l) k.
Proof.
  unfold index, valid. destruct (Z.leb_spec (- Z.of_nat (List.length l)) k) as [L1|L1]; cbn [andb].
  2:{ split; [intros (c & X); discriminate|lia]. }
  destruct (Z.ltb_spec k (Z.of_nat (List.length l))) as [L2|L2].
  2:{ split; [intros (c & X); discriminate|lia]. }
  split; [lia|]. intros _. destruct (nth_error l _) as [c|] eqn:E; [eauto|]. apply nth_error_None in E. destruct (Z.ltb_spec k 0); lia.
Qed.
Lemma index_dec {A} (l : list A) k : (exists c, index l k = Some c /\ valid (List.length l) k) \/ (index l k = None /\ ~ valid (List.length l) k).
Proof.
  destruct (index l k) as [c|] eqn:E.
  - left. exists c. split; [reflexivity|]. apply (index_valid l k). eauto.
  - right. split; [reflexivity|]. intros H. apply (index_valid l k) in H. destruct H as (c & H). congruence.
Qed.
Lemma poll_ok {A} nr (combos : list A) : forall script last k,
  snd (poll nr combos last script) = Some (Ok k) <->
  exists pre rest, script = (pre ++ (Some k, true) :: rest)%list /\ List.Forall (goes_on (List.length combos)) pre /\ valid (List.length combos) k /\
                   (last = None -> readable_first pre).
Proof.
  induction script as [|(line, yes) script IH]; intros last k.
  - cbn. split; [discriminate|]. intros (pre & rest & X & _). destruct pre; discriminate.
  - cbn [poll]. destruct line as [j|].
    + destruct (index_dec combos j) as [(c & Ej & Vj)|(Ej & Vj)]; rewrite Ej.
      * destruct yes.
        -- cbn [snd]. split.
           ++ intros X. injection X as <-. exists [], script. split; [reflexivity|]. split; [constructor|]. split; [exact Vj|exact (fun _ => I)].
           ++ intros (pre & rest & X & F & V & _). destruct pre as [|p pre].
              ** cbn in X. injection X as <- _. reflexivity.
              ** cbn in X. injection X as <- _. inversion F as [|? ? G _]; subst. cbn in G. destruct G; discriminate.
        -- specialize (IH (Some j) k). destruct (poll nr combos (Some j) script) as (ev & r). cbn [snd] in *. rewrite IH. split.
           ++ intros (pre & rest & -> & F & V & _). exists ((Some j, false) :: pre), rest. split; [reflexivity|]. split; [constructor; [split; [exact Vj|reflexivity]|exact F]|].
              split; [exact V|exact (fun _ => I)].
           ++ intros (pre & rest & X & F & V & _). destruct pre as [|p pre]; [cbn in X; discriminate|]. cbn in X. injection X as <- ->. inversion F; subst.
              exists pre, rest. repeat (split; [assumption || reflexivity|]). discriminate.
      * cbn [snd]. split; [discriminate|]. intros (pre & rest & X & F & V & _). destruct pre as [|p pre].
        -- cbn in X. injection X as -> _ _. contradiction.
        -- cbn in X. injection X as <- _. inversion F as [|? ? G _]; subst. cbn in G. destruct G; contradiction.
    + destruct last as [j|].
      * specialize (IH (Some j) k). destruct (poll nr combos (Some j) script) as (ev & r). cbn [snd] in *. rewrite IH. split.
        -- intros (pre & rest & -> & F & V & _). exists ((None, yes) :: pre), rest. split; [reflexivity|]. split; [constructor; [exact I|exact F]|]. split; [exact V|discriminate].
        -- intros (pre & rest & X & F & V & _). destruct pre as [|p pre]; [cbn in X; discriminate|]. cbn in X. injection X as <- ->. inversion F; subst.
           exists pre, rest. repeat (split; [assumption || reflexivity|]). discriminate.
      * cbn [snd]. split; [discriminate|]. intros (pre & rest & X & F & V & R). destruct pre as [|p pre]; [cbn in X; discriminate|]. cbn in X. injection X as <- ->. exfalso. exact (R eq_refl).
Qed.
Lemma poll_index {A} nr (combos : list A) : forall script last,
  snd (poll nr combos last script) = Some (Exc IndexError) <->
  exists pre k yes rest, script = (pre ++ (Some k, yes) :: rest)%list /\ List.Forall (goes_on (List.length combos)) pre /\ ~ valid (List.length combos) k /\
                   (last = None -> readable_first pre).
Proof.
  induction script as [|(line, yes) script IH]; intros last.
  - cbn. split; [discriminate|]. intros (pre & k & yes & rest & X & _). destruct pre; discriminate.
  - cbn [poll]. destruct line as [j|].
    + destruct (index_dec combos j) as [(c & Ej & Vj)|(Ej & Vj)]; rewrite Ej.
      * destruct yes.
        -- cbn [snd]. split; [discriminate|].
           intros (pre & k & y & rest & X & F & V & _). destruct pre as [|p pre]; cbn in X.
           ++ injection X as -> _ _. contradiction.
           ++ injection X as <- _. inversion F as [|? ? G _]; subst. cbn in G. destruct G; discriminate.
        -- specialize (IH (Some j)). destruct (poll nr combos (Some j) script) as (ev & r). cbn [snd] in *. rewrite IH. split.
           ++ intros (pre & k & y & rest & -> & F & V & _). exists ((Some j, false) :: pre), k, y, rest. split; [reflexivity|]. split; [constructor; [split; [exact Vj|reflexivity]|exact F]|].
              split; [exact V|exact (fun _ => I)].
           ++ intros (pre & k & y & rest & X & F & V & _). destruct pre as [|p pre]; cbn in X.
              ** injection X as -> _ _. contradiction.
              ** injection X as <- ->. inversion F; subst. exists pre, k, y, rest. repeat (split; [assumption || reflexivity|]). discriminate.
      * cbn [snd]. split; [|reflexivity]. intros _. exists [], j, yes, script. split; [reflexivity|]. split; [constructor|]. split; [exact Vj|exact (fun _ => I)].
    + destruct last as [j|].
      * specialize (IH (Some j)). destruct (poll nr combos (Some j) script) as (ev & r). cbn [snd] in *. rewrite IH. split.
        -- intros (pre & k & y & rest & -> & F & V & _). exists ((None, yes) :: pre), k, y, rest. split; [reflexivity|]. split; [constructor; [exact I|exact F]|]. split; [exact V|discriminate].
        -- intros (pre & k & y & rest & X & F & V & _). destruct pre as [|p pre]; cbn in X; [discriminate|]. injection X as <- ->. inversion F; subst.
           exists pre, k, y, rest. repeat (split; [assumption || reflexivity|]). discriminate.
      * cbn [snd]. split; [discriminate|]. intros (pre & k & y & rest & X & F & V & R). destruct pre as [|p pre]; cbn in X; [discriminate|]. injection X as <- ->. exfalso. exact (R eq_refl).
Qed.
Lemma poll_bound {A} nr (combos : list A) : forall script j e, snd (poll nr combos (Some j) script) = Some (Exc e) -> e = IndexError.
Proof.
  induction script as [|(line, yes) script IH]; intros j e; [discriminate|]. cbn [poll]. destruct line as [i|].
  - destruct (index combos i) as [c|]; [|cbn; intros X; injection X as <-; reflexivity]. destruct yes; [discriminate|].
    specialize (IH i e). destruct (poll nr combos (Some i) script). cbn [snd] in *. exact IH.
  - specialize (IH j e). destruct (poll nr combos (Some j) script). cbn [snd] in *. exact IH.
Qed.
(** the number shown for an unreadable line is the one typed last *)
Lemma poll_unknown {A} nr (combos : list A) : forall script last ev k post,
  fst (poll nr combos last script) = (ev ++ Unknown k :: post)%list ->
  last = Some k /\ (forall j c, ~ In (Selected j c) ev) \/ exists pre c mid, ev = (pre ++ Selected k c :: mid)%list /\ forall j d, ~ In (Selected j d) mid.
Proof.
  assert (H1 : forall (x : list (event A)) ev k post, x = (ev ++ Unknown k :: post)%list -> In (Unknown k) x) by (intros; subst; apply in_or_app; right; left; reflexivity).
  induction script as [|(line, yes) script IH]; intros last ev k post.
  - cbn. intros X. apply H1 in X. destruct X as [X|[]]; discriminate.
  - cbn [poll]. destruct line as [i|].
    + destruct (index combos i) as [c|]; [|cbn; intros X; apply H1 in X; destruct X as [X|[]]; discriminate].
      destruct yes; [cbn; intros X; apply H1 in X; repeat (destruct X as [X|X]; [discriminate|]); destruct X|].
      specialize (IH (Some i)). destruct (poll nr combos (Some i) script) as (ev' & r). cbn [fst] in *. intros X.
      destruct ev as [|e1 ev]; [discriminate|]. injection X as <- X. destruct ev as [|e2 ev]; [discriminate|]. injection X as <- X. destruct ev as [|e3 ev]; [discriminate|]. injection X as <- X.
      destruct (IH _ _ _ X) as [(E & N)|(pre & d & mid & -> & N)].
      * injection E as ->. right. exists [Prompt 0 (nr - 1)], c, (Asked :: ev). split; [reflexivity|]. intros j d [D|D]; [discriminate|exact (N j d D)].
      * right. exists (Prompt 0 (nr - 1) :: Selected i c :: Asked :: pre)%list, d, mid. split; [reflexivity|exact N].
    + destruct last as [i|]; [|cbn; intros X; apply H1 in X; destruct X as [X|[]]; discriminate].
      specialize (IH (Some i)). destruct (poll nr combos (Some i) script) as (ev' & r). cbn [fst] in *. intros X.
      destruct ev as [|e1 ev]; [discriminate|]. injection X as <- X. destruct ev as [|e2 ev].
      * injection X as -> _. left. split; [reflexivity|]. intros j c [D|[]]. discriminate.
      * injection X as <- X. destruct (IH _ _ _ X) as [(E & N)|(pre & d & mid & -> & N)].
        -- left. split; [exact E|]. intros j c [D|[D|D]]; [discriminate|discriminate|exact (N j c D)].
        -- right. exists (Prompt 0 (nr - 1) :: Unknown i :: pre)%list, d, mid. split; [reflexivity|exact N].
Qed.
