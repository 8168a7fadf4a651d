(** * A coupling object through its life (C188). *)
From Coq Require Import Reals List Arith ZArith Bool Lia Lra.
From Verif Require Import Base Coupling_Model Coupling_Spec Coupling_Proofs Properties_Coupling CoupState_Model.
Import ListNotations.
Local Open Scope R_scope.

Definition at_ (l : list R) (j : nat) : R := nth j l 0.
(** the coefficient over the first [k] grid points, and the same divided by the energy *)
Definition over_first (E : cenv) (k : nat) (x : R) : Prop := exists r, coupling_rot E k = Ok r /\ x = cc_tot r.

Definition sums (n : nat) (p : cc_profile) : Prop :=
  (List.length (p_1 p) = n /\ List.length (p_2 p) = n /\ List.length (p_3 p) = n /\ List.length (p_4 p) = n /\ List.length (p_tot p) = n) /\
  forall j, at_ (p_tot p) j = at_ (p_1 p) j + at_ (p_2 p) j + at_ (p_3 p) j + at_ (p_4 p) j.
Lemma nth_zero m k : nth k (repeat 0 m) 0 = 0.
Proof. revert k. induction m; intros [|k]; cbn; auto. Qed.
Lemma sums_zero n : sums n (zero_profile n).
Proof. split; [cbn; rewrite repeat_length; auto|]. intros j. unfold at_, zero_profile. cbn [p_1 p_2 p_3 p_4 p_tot]. rewrite !nth_zero. lra. Qed.
Lemma rot_sum E k r : coupling_rot E k = Ok r -> cc_tot r = cc_1 r + cc_2 r + cc_3 r + cc_4 r.
Proof.
  unfold coupling_rot. destruct (kappa_1 E k); try discriminate; cbn [bind]. destruct (kappa_2 E k); try discriminate; cbn [bind].
  destruct (kappa_3 E k); try discriminate; cbn [bind]. destruct (kappa_4 E k); try discriminate; cbn [bind]. intros H. injection H as <-. reflexivity.
Qed.
Lemma upd_at (l : list R) k v j : at_ (upd l k v) j = if (k =? j)%nat && (j <? List.length l)%nat then v else at_ l j.
Proof.
  unfold at_. revert k j. induction l as [|a l IH]; intros [|k] [|j]; cbn; try reflexivity.
  - rewrite andb_false_r. reflexivity.
  - rewrite IH. reflexivity.
Qed.
Lemma sums_store n p j r : sums n p -> cc_tot r = cc_1 r + cc_2 r + cc_3 r + cc_4 r -> sums n (store_profile p j r).
Proof.
  intros ((L1 & L2 & L3 & L4 & L5) & H) Hr. split; [cbn; rewrite !length_upd; auto|]. intros i. unfold store_profile. cbn [p_1 p_2 p_3 p_4 p_tot].
  rewrite !upd_at, L1, L2, L3, L4, L5. destruct (_ && _); [exact Hr|apply H].
Qed.
Lemma loop_sums E n : forall l cc p s r, sums n p -> profile_loop E l cc p = (s, r) -> exists q, s_prof s = Some q /\ sums n q.
Proof.
  induction l as [|i l IH]; intros cc p s r Hp H; cbn [profile_loop] in H.
  - injection H as <- _. exists p. split; [reflexivity|exact Hp].
  - destruct (coupling_rot E i) as [v| |e] eqn:Ei.
    + apply (IH _ _ _ _ (sums_store n p (i - 1) v Hp (rot_sum _ _ _ Ei)) H).
    + injection H as <- _. exists p. split; [reflexivity|exact Hp].
    + injection H as <- _. exists p. split; [reflexivity|exact Hp].
Qed.
Lemma after_app E l c : after E (l ++ [c]) = fst (step E (after E l) c).
Proof. unfold after. rewrite fold_left_app. reflexivity. Qed.
Lemma compute_prof E k s : s_prof (fst (compute E k s)) = s_prof s.
Proof. unfold compute. destruct (coupling_rot E _); reflexivity. Qed.
Lemma after_sums E l p : s_prof (after E l) = Some p -> sums (e_n E) p.
Proof.
  revert p. induction l as [|c l IH] using rev_ind; intros p H; [discriminate|]. rewrite after_app in H.
  destruct c; cbn [step] in H; try (rewrite compute_prof in H; apply IH, H).
  destruct (profile_loop E _ _ _) as [s r] eqn:EL. destruct (loop_sums E _ _ _ _ _ _ (sums_zero (e_n E)) EL) as (q & Hq & Sq).
  cbn [fst] in H. rewrite Hq in H. injection H as <-. exact Sq.
Qed.
Lemma at_div l en j : at_ (map (fun x => x / en) l) j = at_ l j / en.
Proof.
  unfold at_. replace 0 with (0 / en) at 1 by (unfold Rdiv; ring). apply (map_nth (fun x => x / en)).
Qed.

(** C188: whatever computations were run before, and wherever any of them failed, the normalised profile that is
    reported has one entry per grid point and is everywhere the sum of the four reported contributions; without a profile
    computation there is neither. *)
Theorem C188_contributions_add_up : forall E en history,
  let s := after E history in
  match get_normed_profile en s, get_normed_contributions en s with
  | Some p, Some (c1, c2, c3, c4) =>
      List.length p = e_n E /\ (forall j, (j < e_n E)%nat -> at_ p j = at_ c1 j + at_ c2 j + at_ c3 j + at_ c4 j) /\ In Profile history
  | None, None => ~ In Profile history
  | _, _ => False
  end.
Proof.
  intros E en history s. unfold get_normed_profile, get_normed_contributions. subst s.
  assert (HP : s_prof (after E history) = None <-> ~ In Profile history).
  { induction history as [|c l IH] using rev_ind; [cbn; tauto|]. rewrite after_app, in_app_iff. cbn [In].
    destruct c; cbn [step]; try (rewrite compute_prof, IH; split; [intros N [A|[A|[]]]; [tauto|discriminate]|tauto]).
    destruct (profile_loop E _ _ _) as [s r] eqn:EL. destruct (loop_sums E _ _ _ _ _ _ (sums_zero (e_n E)) EL) as (q & Hq & _). cbn [fst]. rewrite Hq.
    split; [discriminate|tauto]. }
  destruct (s_prof (after E history)) as [p|] eqn:Ep; cbn [option_map].
  - destruct (after_sums _ _ _ Ep) as ((_ & _ & _ & _ & L) & Hs). rewrite map_length. split; [exact L|]. split.
    + intros j _. rewrite !at_div, Hs. unfold Rdiv. ring.
    + destruct (in_dec (fun a b : call => ltac:(decide equality; apply Nat.eq_dec) : {a = b} + {a <> b}) Profile history) as [I0|N]; [exact I0|].
      apply HP in N. discriminate.
  - apply HP. reflexivity.
Qed.

Lemma run_profile E (Hs : standard E) : forall n i cc p, (1 <= i)%nat -> (i + n <= e_n E)%nat -> prof_inv E i p ->
  exists q, profile_loop E (seq (S i) n) cc p = (mkC (match n with O => cc | _ => Some (cc_tot (tot E (i + n))) end) (Some q), Ok tt) /\ prof_inv E (i + n) q.
Proof.
  induction n as [|n IH]; intros i cc p Hi Hn Hp; [exists p; rewrite Nat.add_0_r; split; [reflexivity|exact Hp]|].
  cbn [seq profile_loop]. destruct (coupling_total E (S i) Hs) as [r Hr]. rewrite Hr.
  destruct (IH (S i) (Some (cc_tot r)) (store_profile p (S i - 1) r)) as (q & Hq & Iq); [lia|lia| |].
  - destruct Hp as ((L1 & L2 & L3 & L4 & L5) & Hp). split; [cbn; rewrite !length_upd; auto|].
    intros j Hj. specialize (Hp j Hj). cbv zeta in *. unfold store_profile. cbn [p_1 p_2 p_3 p_4 p_tot].
    replace (S i - 1)%nat with i by lia. rewrite !nth_upd by lia. destruct (Nat.eq_dec i j) as [<-|N].
    + assert (((1 <=? i) && (i <? S i))%nat = true) as ->.
      { apply andb_true_intro. split; [apply Nat.leb_le; lia|apply Nat.ltb_lt; lia]. }
      unfold tot. replace (i + 1)%nat with (S i) by lia. rewrite Hr. auto.
    + replace (j <? S i)%nat with (j <? i)%nat; [exact Hp|]. destruct (Nat.ltb_spec j i), (Nat.ltb_spec j (S i)); lia || reflexivity.
  - exists q. replace (i + S n)%nat with (S i + n)%nat by lia. split; [|exact Iq]. rewrite Hq. f_equal. f_equal. destruct n; [|reflexivity].
    rewrite Nat.add_0_r. unfold tot. rewrite Hr. reflexivity.
Qed.
Lemma after_profile E history : standard E -> (2 <= e_n E)%nat ->
  exists q, after E (history ++ [Profile]) = mkC (Some (cc_tot (tot E (e_n E)))) (Some q) /\ prof_inv E (e_n E) q.
Proof.
  intros Hs Hn. rewrite after_app. cbn [step].
  destruct (run_profile E Hs (e_n E - 1) 1 (s_cc (after E history)) (zero_profile (e_n E))) as (q & Hq & Iq); [lia|lia| |].
  - split; [cbn; rewrite repeat_length; auto|]. intros j Hj. replace ((1 <=? j) && (j <? 1))%nat with false by (destruct j as [|[|j]]; reflexivity).
    cbn. rewrite !nth_zero. auto.
  - exists q. rewrite Hq. cbn [fst]. replace (1 + (e_n E - 1))%nat with (e_n E) in * by lia. split; [|exact Iq].
    destruct (e_n E - 1)%nat eqn:En; [lia|]. reflexivity.
Qed.
Lemma tot_over E k : standard E -> over_first E k (cc_tot (tot E k)).
Proof. intros Hs. unfold over_first, tot. destruct (coupling_total E k Hs) as [r Hr]. rewrite Hr. exists r. auto. Qed.

(** C188: right after a profile computation the normalised profile starts at zero, its entry j is the energy-normalised coefficient
    over the first j + 1 points, its last entry is the normalised coefficient reported, and Lee's coefficient is twice that;
    whatever was computed before. *)
Theorem C188_profile_ends_at_the_coefficient : forall E en history, standard E -> (2 <= e_n E)%nat ->
  let s := after E (history ++ [Profile]) in
  exists p k, get_normed_profile en s = Some p /\ get_normed en s = Some k /\ get_eta en s = Some (2 * k) /\
    at_ p 0 = 0 /\ at_ p (e_n E - 1) = k /\
    (forall j, (1 <= j < e_n E)%nat -> exists x, over_first E (j + 1) x /\ at_ p j = x / en) /\
    exists x, over_first E (e_n E) x /\ k = x / en.
Proof.
  intros E en history Hs Hn s. subst s. destruct (after_profile E history Hs Hn) as (q & -> & ((_ & _ & _ & _ & L) & Hq)).
  do 2 eexists. split; [reflexivity|]. split; [reflexivity|]. split; [reflexivity|].
  assert (T : forall j, (1 <= j < e_n E)%nat -> at_ (p_tot q) j = cc_tot (tot E (j + 1))).
  { intros j Hj. destruct (Hq j ltac:(lia)) as (_ & _ & _ & _ & H). cbv zeta in H.
    replace ((1 <=? j) && (j <? e_n E))%nat with true in H; [exact H|]. symmetry. apply andb_true_intro. split; [apply Nat.leb_le|apply Nat.ltb_lt]; lia. }
  rewrite !at_div. split.
  { destruct (Hq 0%nat ltac:(lia)) as (_ & _ & _ & _ & H). cbn in H. unfold at_. rewrite H. unfold Rdiv. ring. }
  split; [rewrite T by lia; replace (e_n E - 1 + 1)%nat with (e_n E) by lia; reflexivity|]. split.
  - intros j Hj. exists (cc_tot (tot E (j + 1))). split; [apply tot_over, Hs|]. rewrite at_div, T by exact Hj. reflexivity.
  - exists (cc_tot (tot E (e_n E))). split; [apply tot_over, Hs|reflexivity].
Qed.

(** C188: a later computation over the first k points leaves the profile alone, but the coefficient reported from then on is that of
    the inner k points (the profile's entry k - 1), until a full computation restores it. *)
Theorem C188_partial_computation_replaces_the_coefficient : forall E en history k, standard E -> (2 <= k <= e_n E)%nat ->
  let s := after E (history ++ [Profile]) in let s' := after E ((history ++ [Profile]) ++ [To k]) in
  let s'' := after E (((history ++ [Profile]) ++ [To k]) ++ [Full]) in
  get_normed_profile en s' = get_normed_profile en s /\
  (forall p, get_normed_profile en s = Some p -> get_normed en s' = Some (at_ p (k - 1)) /\ get_eta en s' = Some (2 * at_ p (k - 1))) /\
  s'' = s.
Proof.
  intros E en history k Hs Hk s s' s''.
  assert (R1 : forall j t, (j <= e_n E)%nat -> fst (compute E j t) = mkC (Some (cc_tot (tot E j))) (s_prof t)).
  { intros j t Hj. unfold compute, tot. rewrite Nat.min_l by exact Hj. destruct (coupling_total E j Hs) as [r Hr]. rewrite Hr. reflexivity. }
  assert (S1 : s' = mkC (Some (cc_tot (tot E k))) (s_prof s)).
  { unfold s'. rewrite after_app. cbn [step]. apply R1. lia. }
  split; [rewrite S1; reflexivity|]. split.
  - intros p Hp. rewrite S1. unfold s in Hp. destruct (after_profile E history Hs ltac:(lia)) as (q & Eq & ((_ & _ & _ & _ & L) & Hq)). rewrite Eq in Hp.
    injection Hp as <-. destruct (Hq (k - 1)%nat ltac:(lia)) as (_ & _ & _ & _ & H). cbv zeta in H.
    replace ((1 <=? k - 1) && (k - 1 <? e_n E))%nat with true in H.
    2: { symmetry. apply andb_true_intro. split; [apply Nat.leb_le|apply Nat.ltb_lt]; lia. }
    replace (k - 1 + 1)%nat with k in H by lia. unfold get_eta, get_normed. cbn [s_cc option_map]. rewrite at_div. unfold at_. rewrite H. split; reflexivity.
  - unfold s''. rewrite after_app. cbn [step]. fold s'. rewrite R1 by lia. rewrite S1. cbn [s_prof]. unfold s.
    destruct (after_profile E history Hs ltac:(lia)) as (q & Eq & _). rewrite Eq. reflexivity.
Qed.

(** C188: before any computation every getter reports None. *)
Theorem C188_nothing_computed_yet : forall E en, let s := after E [] in
  get_normed en s = None /\ get_eta en s = None /\ get_normed_profile en s = None /\ get_normed_contributions en s = None.
Proof. repeat split. Qed.
Example C188_example : (2 <= e_n (demo plain_sum [2; 1; 1]%Z INR false))%nat /\ standard (demo plain_sum [2; 1; 1]%Z INR false).
Proof. split; [cbn; lia|apply demo_standard]. Qed.
