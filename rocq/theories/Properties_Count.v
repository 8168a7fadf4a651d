(** * Properties of the count words and of the profile poll (C179, C180). *)
From Coq Require Import List ZArith Lia String Bool.
From Verif Require Import Base Saver_Model Count_Model Count_Spec Count_Proofs.
Import ListNotations.
Local Open Scope Z_scope.

(** C179: below a thousand the words are those of the number exactly if the digit of the
    tens is 0 or 1, or equal to the digit of the hundreds. *)
Theorem C179_spelled_correctly :
  forall n, 0 <= n < 1000 ->
  (count_string n = Ok (english n) <-> n / 10 mod 10 <= 1 \/ n / 10 mod 10 = n / 100).
Proof.
  intros n H.
  assert (A : forallb (fun k => let z := Z.of_nat k in
     Bool.eqb (match count_string z with Ok s => String.eqb s (english z) | _ => false end) ((z / 10 mod 10 <=? 1) || (z / 10 mod 10 =? z / 100))) (seq 0 1000) = true) by (vm_compute; reflexivity).
  rewrite forallb_forall in A. specialize (A (Z.to_nat n) ltac:(apply in_seq; lia)). cbv zeta in A. rewrite Z2Nat.id in A by lia. apply Bool.eqb_prop in A.
  destruct (count_string n) as [s| |e]; (split; [intros E|intros E]).
  - injection E as ->. rewrite String.eqb_refl in A. symmetry in A. apply orb_true_iff in A. destruct A as [A|A]; [left; lia|right; lia].
  - assert (B : (n / 10 mod 10 <=? 1) || (n / 10 mod 10 =? n / 100) = true) by (apply orb_true_iff; destruct E; [left; lia|right; lia]). rewrite B in A. apply String.eqb_eq in A. subst. reflexivity.
  - discriminate.
  - assert (B : (n / 10 mod 10 <=? 1) || (n / 10 mod 10 =? n / 100) = true) by (apply orb_true_iff; destruct E; [left; lia|right; lia]). rewrite B in A. discriminate.
  - discriminate.
  - assert (B : (n / 10 mod 10 <=? 1) || (n / 10 mod 10 =? n / 100) = true) by (apply orb_true_iff; destruct E; [left; lia|right; lia]). rewrite B in A. discriminate.
Qed.
Print Assumptions C179_spelled_correctly.
(** twenty to ninety-nine: the word of the tens is missing *)
Theorem C179_no_tens :
  forall n, 20 <= n < 100 -> count_string n = Ok (if (n mod 10 =? 0)%Z then "" else " " ++ small (n mod 10))%string.
Proof.
  intros n H.
  assert (A : forallb (fun k => let z := Z.of_nat k in match count_string z with Ok s => String.eqb s (if (z mod 10 =? 0)%Z then "" else " " ++ small (z mod 10))%string | _ => false end) (seq 20 80) = true) by (vm_compute; reflexivity).
  rewrite forallb_forall in A. specialize (A (Z.to_nat n) ltac:(apply in_seq; lia)). cbv zeta in A. rewrite Z2Nat.id in A by lia.
  destruct (count_string n) as [s| |e]; try discriminate. apply String.eqb_eq in A. subst. reflexivity.
Qed.
Print Assumptions C179_no_tens.
(** every number from zero is answered; from a thousand on, the groups of three digits are
    spelled one after the other without a word for the thousands, so n and 1000 n read the
    same; negative numbers raise ValueError *)
Theorem C179_groups :
  forall n, 1 <= n -> exists w, count_string n = Ok w /\ count_string (1000 * n) = Ok w /\
  forall a, 1 <= a < 1000 -> exists v, count_string a = Ok v /\ count_string (1000 * n + a) = Ok (w ++ " " ++ v)%string.
Proof.
  intros n H. exists (join " " (wordsof n)). split; [apply count_ok, H|]. split.
  - rewrite count_ok by lia. replace (1000 * n) with (1000 * n + 0) by lia. rewrite words_thousand by lia. change (gw 0) with (@nil string). rewrite app_nil_r. reflexivity.
  - intros a Ha. exists (join " " (wordsof a)). split; [apply count_ok; lia|]. rewrite count_ok by lia. rewrite words_thousand by lia. rewrite <- words_small by lia.
    rewrite join_app by (apply words_nonempty; lia). reflexivity.
Qed.
Print Assumptions C179_groups.
Theorem C179_negative : forall n, n < 0 -> count_string n = Exc ValueError.
Proof. exact count_neg. Qed.
Print Assumptions C179_negative.

(** C180: the poll returns a number exactly if it was typed, is an index of the list of
    combinations in Python's sense, and was confirmed at once; all numbers before were
    declined, and the first line was readable. *)
Theorem C180_returned_number :
  forall A nr (combos : list A) script k,
  snd (poll_user nr combos script) = Some (Ok k) <->
  exists pre rest, script = (pre ++ (Some k, true) :: rest)%list /\ List.Forall (goes_on (List.length combos)) pre /\ valid (List.length combos) k /\ readable_first pre.
Proof.
  intros A nr combos script k. unfold poll_user. rewrite poll_ok. split; intros (pre & rest & X & F & V & R); exists pre, rest; auto.
Qed.
Print Assumptions C180_returned_number.
(** negative numbers down to minus the number of combinations are accepted although the
    prompt asks for numbers from 0, and the announced bound is not looked at *)
Theorem C180_announced_range_not_enforced :
  forall A nr nr' (combos : list A) script, snd (poll_user nr combos script) = snd (poll_user nr' combos script).
Proof.
  intros A nr nr' combos. unfold poll_user. generalize (@None Z). intros last script. revert last. induction script as [|(line, yes) script IH]; intros last; [reflexivity|]. cbn [poll].
  destruct line as [k|].
  - destruct (index combos k); [|reflexivity]. destruct yes; [reflexivity|]. specialize (IH (Some k)). destruct (poll nr combos (Some k) script), (poll nr' combos (Some k) script). exact IH.
  - destruct last as [k|]; [|reflexivity]. specialize (IH (Some k)). destruct (poll nr combos (Some k) script), (poll nr' combos (Some k) script). exact IH.
Qed.
Print Assumptions C180_announced_range_not_enforced.
(** errors: an unreadable first line ends the poll with UnboundLocalError, a number that is
    no index with IndexError, and nothing else does *)
Theorem C180_errors :
  forall A nr (combos : list A) script e, snd (poll_user nr combos script) = Some (Exc e) <->
  (e = UnboundLocalError /\ exists yes rest, script = (None, yes) :: rest) \/
  (e = IndexError /\ exists pre k yes rest, script = (pre ++ (Some k, yes) :: rest)%list /\ List.Forall (goes_on (List.length combos)) pre /\ ~ valid (List.length combos) k /\ readable_first pre).
Proof.
  intros A nr combos script e. unfold poll_user. split.
  - intros H. destruct script as [|(line, yes) script]; [discriminate|]. destruct line as [k|].
    + assert (e = IndexError).
      { cbn [poll] in H. destruct (index combos k); [|cbn in H; injection H as <-; reflexivity]. destruct yes; [discriminate|].
        pose proof (poll_bound nr combos script k e) as B. destruct (poll nr combos (Some k) script). cbn [snd] in *. exact (B H). }
      subst e. right. split; [reflexivity|]. apply poll_index in H. destruct H as (pre & j & y & rest & X & F & V & R). exists pre, j, y, rest. auto.
    + cbn in H. injection H as <-. left. split; [reflexivity|]. exists yes, script. reflexivity.
  - intros [(-> & yes & rest & ->)|(-> & pre & k & yes & rest & X & F & V & R)]; [reflexivity|]. apply poll_index. exists pre, k, yes, rest. auto.
Qed.
Print Assumptions C180_errors.
(** the message for an unreadable line names the number that was typed last instead of the line *)
Theorem C180_message_names_an_older_number :
  forall A nr (combos : list A) script ev k post, fst (poll_user nr combos script) = (ev ++ Unknown k :: post)%list ->
  exists pre c mid, ev = (pre ++ Selected k c :: mid)%list /\ forall j d, ~ In (Selected j d) mid.
Proof. intros A nr combos script ev k post H. destruct (poll_unknown _ _ _ _ _ _ _ H) as [(X & _)|X]; [discriminate|exact X]. Qed.
Print Assumptions C180_message_names_an_older_number.

(** Cases *)
Example C179_case : count_string 5 = Ok "five"%string /\ count_string 221 = Ok "two hundred twenty one"%string /\ count_string 321 = Ok "three hundred thirty one"%string
  /\ count_string 21 = Ok " one"%string /\ count_string 2000 = count_string 2 /\ english 321 = "three hundred twenty one"%string.
Proof. vm_compute. auto 10. Qed.
Example C180_case : let combos := ["a"; "b"; "c"]%string in
  poll_user 3 combos [(Some 1, false); (None, true); (Some (-1), true)] =
  ([Prompt 0 2; Selected 1 "b"%string; Asked; Prompt 0 2; Unknown 1; Prompt 0 2; Selected (-1) "c"%string; Asked], Some (Ok (-1))).
Proof. reflexivity. Qed.
