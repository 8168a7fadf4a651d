(** * The estimate of the threshold of theta_2 (C145-C147). *)
From Coq Require Import Reals List Bool Permutation Lra Lia Psatz.
From Verif Require Import Base Stab_Model Stab_Proofs Thresh_Model Thresh_Spec Thresh_Proofs.
Import ListNotations.
Local Open Scope R_scope.

Lemma ratio_side ratio i : (i < length ratio)%nat ->
  nth_error (fst (get_difference_arrays ratio)) i = Some (if Rltb 1 (nth i ratio 0) then Some (nth i ratio 0 - 1) else None) /\
  nth_error (snd (get_difference_arrays ratio)) i = Some (if Rltb 1 (nth i ratio 0) then None else Some (nth i ratio 0 - 1)).
Proof.
  intros H. unfold get_difference_arrays. cbn [fst snd]. rewrite !nth_error_map, (nth_error_nth' ratio 0) by exact H. cbn [option_map].
  assert (E : Rltb 0 (nth i ratio 0 - 1) = Rltb 1 (nth i ratio 0)).
  { apply Bool.eq_true_iff_eq. rewrite !Rltb_spec. lra. }
  rewrite E. auto.
Qed.
Definition up_side (p : R * R) : bool := if Rlt_dec 1 (snd p) then true else false.
Definition down_side (p : R * R) : bool := if Rlt_dec 1 (snd p) then false else true.
Lemma map_snd_combine (t y : list R) : length t = length y -> map snd (combine t y) = y.
Proof. revert y. induction t as [|a t IH]; intros [|b y] H; cbn in *; try discriminate; [reflexivity|]. f_equal. apply IH. lia. Qed.
Lemma sides_total l : (length (above l) + length (below l) = length l)%nat.
Proof. unfold above, below. induction l as [|p l IH]; cbn; [reflexivity|]. destruct (Rlt_dec 1 (snd p)); cbn; lia. Qed.

(** what the run selects: with at least k points on either side the k closest ones, otherwise all of the
    side and as many arbitrary points of the other side as are missing *)
Definition selected (k : nat) (l side sel : list (R * R)) : Prop :=
  ((k <= length side)%nat -> closest k side sel) /\
  ((length side < k)%nat -> exists others, Permutation sel (side ++ others) /\ forall p, In p others -> ~ In p side /\ In p l).

Lemma threshold_points ap k theta ratio : argpartition_spec ap -> length theta = length ratio -> (k < length ratio)%nat ->
  let l := combine theta ratio in
  exists su sd, length su = k /\ length sd = k /\ selected k l (above l) su /\ selected k l (below l) sd /\
  incl (su ++ sd) l /\
  threshold ap k theta ratio = bind (perform_linear_regression (map fst (su ++ sd)) (map snd (su ++ sd))) (fun '(_, u, b) => Ok (b, u)).
Proof.
  intros AP Len K l. set (pos := fst (get_difference_arrays ratio)). set (neg := abs_arr (snd (get_difference_arrays ratio))).
  set (pt := fun i => (nth i theta 0, nth i ratio 0)).
  assert (Lpos : length pos = length ratio) by (unfold pos, get_difference_arrays; cbn; rewrite !map_length; reflexivity).
  assert (Lneg : length neg = length ratio) by (unfold neg, abs_arr, get_difference_arrays; cbn; rewrite !map_length; reflexivity).
  assert (RL : forall x, Rltb 1 x = if Rlt_dec 1 x then true else false) by reflexivity.
  destruct (one_side theta ratio Len ap k up_side pos AP Lpos K) as (I1 & L1 & C1 & S1).
  { intros i Hi. unfold pos. rewrite (proj1 (ratio_side ratio i Hi)). unfold up_side. cbn [snd]. rewrite RL.
    destruct (Rlt_dec 1 (nth i ratio 0)); [|reflexivity]. rewrite Rabs_right by lra. reflexivity. }
  destruct (one_side theta ratio Len ap k down_side neg AP Lneg K) as (I2 & L2 & C2 & S2).
  { intros i Hi. unfold neg, abs_arr. rewrite nth_error_map, (proj2 (ratio_side ratio i Hi)). unfold down_side. cbn [snd option_map]. rewrite RL.
    destruct (Rlt_dec 1 (nth i ratio 0)); reflexivity. }
  exists (map pt (firstn k (ap pos k))), (map pt (firstn k (ap neg k))).
  assert (IN : forall m, (forall i, In i m -> (i < length ratio)%nat) -> incl (map pt m) l).
  { intros m Hm p Ip. apply in_map_iff in Ip. destruct Ip as (i & <- & Ii). unfold l, pt. rewrite <- combine_nth by exact Len.
    apply nth_In. rewrite combine_length, Len, Nat.min_id. apply Hm, Ii. }
  rewrite !map_length. split; [exact L1|]. split; [exact L2|]. split; [|split; [|split]].
  - split; [exact C1|]. intros H. destruct (S1 H) as (o & P & O). exists o. split; [exact P|]. intros p Ip. split.
    + intros J. apply filter_In in J. destruct J as [_ J]. specialize (O p Ip). unfold up_side, down_side in O. rewrite O in J. discriminate.
    + apply (IN _ I1). eapply Permutation_in; [apply Permutation_sym, P|]. apply in_app_iff. auto.
  - split; [exact C2|]. intros H. destruct (S2 H) as (o & P & O). exists o. split; [exact P|]. intros p Ip. split.
    + intros J. apply filter_In in J. destruct J as [_ J]. specialize (O p Ip). unfold up_side, down_side in O. rewrite O in J. discriminate.
    + apply (IN _ I2). eapply Permutation_in; [apply Permutation_sym, P|]. apply in_app_iff. auto.
  - intros p Ip. apply in_app_iff in Ip. destruct Ip as [Ip|Ip]; [apply (IN _ I1), Ip|apply (IN _ I2), Ip].
  - unfold threshold. rewrite map_snd_combine by exact Len.
    destruct (get_difference_arrays ratio) as [dp dn] eqn:E. cbn [fst snd] in pos, neg. fold pos. unfold get_k_smallest_points_masks, argpartition. fold neg.
    change dp with pos. rewrite Lpos, Lneg. destruct (Nat.ltb_spec k (length ratio)); [|lia]. cbn [bind].
    unfold get_k_smallest_points. rewrite !take_at_ok by (intros i Hi; rewrite ?Len; auto).
    cbn [bind]. rewrite !map_app, !map_map. reflexivity.
Qed.

Lemma sides_differ k su sd l : (1 <= k)%nat -> (k <= length (above l))%nat -> (k <= length (below l))%nat ->
  closest k (above l) su -> closest k (below l) sd -> two_ratios (su ++ sd).
Proof.
  intros K U D (Lu & ru & Pu & _) (Ld & rd & Pd & _). destruct su as [|p su]; [cbn in Lu; lia|]. destruct sd as [|q sd]; [cbn in Ld; lia|].
  exists p, q. split; [left; reflexivity|]. split; [apply in_app_iff; right; left; reflexivity|].
  assert (P : In p (above l)) by (eapply Permutation_in; [exact Pu|left; reflexivity]).
  assert (Q : In q (below l)) by (eapply Permutation_in; [exact Pd|left; reflexivity]).
  apply filter_In in P. apply filter_In in Q. destruct P as [_ P], Q as [_ Q].
  destruct (Rlt_dec 1 (snd p)); [|discriminate]. destruct (Rlt_dec 1 (snd q)); [discriminate|]. lra.
Qed.

(** ** C145: the value at ratio 1 of the least-squares line through the k closest points of either side *)
Theorem C145_least_squares_estimate :
  forall ap k theta ratio, argpartition_spec ap -> length theta = length ratio -> (1 <= k)%nat ->
  let l := combine theta ratio in (k <= length (above l))%nat -> (k <= length (below l))%nat ->
  exists su sd A B boundary uncertainty, closest k (above l) su /\ closest k (below l) sd /\
    least_squares (su ++ sd) A B /\
    threshold ap k theta ratio = Ok (boundary, uncertainty) /\ boundary = A + B * 1.
Proof.
  intros ap k theta ratio AP Len K l U D.
  assert (KN : (k < length ratio)%nat). { pose proof (sides_total l) as T. unfold l in *. rewrite combine_length, Len, Nat.min_id in T. lia. }
  destruct (threshold_points ap k theta ratio AP Len KN) as (su & sd & Lu & Ld & (Su & _) & (Sd & _) & _ & E). fold l in Su, Sd.
  specialize (Su U). specialize (Sd D). pose proof (sides_differ k su sd l K U D Su Sd) as T.
  destruct (linregress_ok (su ++ sd) T) as (lr & EL & Es & Ei & _).
  exists su, sd, (A_of (su ++ sd)), (B_of (su ++ sd)), (intercept lr + slope lr), (sqrt (stderr lr ^ 2 + intercept_stderr lr ^ 2)).
  split; [exact Su|]. split; [exact Sd|]. split; [apply fit_least_squares, T|]. split.
  - rewrite E. unfold perform_linear_regression. rewrite EL. reflexivity.
  - rewrite Es, Ei. ring.
Qed.
Print Assumptions C145_least_squares_estimate.
(** a k that is not smaller than the number of points is refused *)
Theorem C145_too_few_points :
  forall ap k theta ratio, length theta = length ratio -> (length ratio <= k)%nat -> threshold ap k theta ratio = Exc ValueError.
Proof.
  intros ap k theta ratio Len K. unfold threshold. rewrite map_snd_combine by exact Len. unfold get_difference_arrays, get_k_smallest_points_masks, argpartition.
  rewrite !map_length. destruct (Nat.ltb_spec k (length ratio)); [lia|]. reflexivity.
Qed.
Print Assumptions C145_too_few_points.

(** ** C146: the choices left to the partition do not matter, unless points are missing *)
Lemma NoDup_app_first {A} (l k : list A) : NoDup (l ++ k) -> NoDup l.
Proof. induction l as [|a l IH]; cbn; [constructor|]. intros N. inversion N as [|? ? N1 N2]; subst. constructor; [|apply IH, N2]. intros I. apply N1, in_app_iff. auto. Qed.
Lemma pair_dec (a b : R * R) : {a = b} + {a <> b}.
Proof. decide equality; apply Req_EM_T. Qed.
Lemma some_outside (m s : list (R * R)) : (exists y, In y m /\ ~ In y s) \/ incl m s.
Proof.
  induction m as [|a m IH]; [right; intros x []|]. destruct (in_dec pair_dec a s) as [I|N]; [|left; exists a; cbn; auto].
  destruct IH as [(y & Y & NY)|IH]; [left; exists y; cbn; auto|right]. intros x [<-|X]; auto.
Qed.
Lemma closest_unique k l s s' : (forall p q, In p l -> In q l -> Rabs (snd p - 1) = Rabs (snd q - 1) -> p = q) -> NoDup l ->
  closest k l s -> closest k l s' -> Permutation s s'.
Proof.
  intros U ND (L & r & P & O) (L' & r' & P' & O').
  assert (N1 : NoDup (s ++ r)) by (eapply Permutation_NoDup; [apply Permutation_sym, P|exact ND]).
  assert (N2 : NoDup (s' ++ r')) by (eapply Permutation_NoDup; [apply Permutation_sym, P'|exact ND]).
  assert (Ns : NoDup s) by (apply NoDup_app_first in N1; exact N1). assert (Ns' : NoDup s') by (apply NoDup_app_first in N2; exact N2).
  assert (SI : forall x, In x s -> In x l) by (intros x I; eapply Permutation_in; [exact P|apply in_app_iff; auto]).
  assert (SI' : forall x, In x s' -> In x l) by (intros x I; eapply Permutation_in; [exact P'|apply in_app_iff; auto]).
  assert (Incl : incl s s').
  { intros x X. assert (Lx : In x (s' ++ r')) by (eapply Permutation_in; [apply Permutation_sym, P'|apply SI, X]).
    apply in_app_iff in Lx. destruct Lx as [Lx|Lx]; [exact Lx|]. exfalso.
    (* x is chosen by s and not by s'; then some y is chosen by s' and not by s *)
    assert (Nx : ~ In x s'). { intros Q. revert N2 Q Lx. clear. induction s' as [|a m IH]; cbn; [tauto|]. intros N [->|Q] R; inversion N as [|? ? N1 N2]; subst; [apply N1, in_app_iff; auto|apply IH; assumption]. }
    assert (Ex : exists y, In y s' /\ ~ In y s).
    { destruct (some_outside s' s) as [Q|Q]; [exact Q|]. exfalso. apply Nx. apply (NoDup_length_incl (l := s') (l' := s) Ns' ltac:(lia) Q); exact X. }
    destruct Ex as (y & Y & NY).
    assert (Ry : In y r). { assert (Q : In y (s ++ r)) by (eapply Permutation_in; [apply Permutation_sym, P|apply SI', Y]). apply in_app_iff in Q. tauto. }
    apply NY. rewrite <- (U x y (SI x X) (SI' y Y)); [exact X|]. apply Rle_antisym; [apply O; assumption|apply O'; assumption]. }
  apply NoDup_Permutation_bis; [exact Ns|lia|exact Incl].
Qed.

Lemma above_below_dup l : NoDup (map snd l) -> NoDup (above l) /\ NoDup (below l).
Proof. intros N. apply NoDup_map_inv in N. split; apply NoDup_filter, N. Qed.
Lemma snd_unique (l : list (R * R)) p q : NoDup (map snd l) -> In p l -> In q l -> snd p = snd q -> p = q.
Proof.
  induction l as [|a l IH]; cbn; [tauto|]. intros N [<-|P] [<-|Q] E; inversion N as [|? ? N1 N2]; subst; auto.
  - exfalso. apply N1. rewrite E. apply in_map, Q.
  - exfalso. apply N1. rewrite <- E. apply in_map, P.
Qed.
Theorem C146_independent_of_the_partition :
  forall ap ap' k theta ratio, argpartition_spec ap -> argpartition_spec ap' -> length theta = length ratio -> (1 <= k)%nat ->
  NoDup ratio -> let l := combine theta ratio in (k <= length (above l))%nat -> (k <= length (below l))%nat ->
  threshold ap k theta ratio = threshold ap' k theta ratio.
Proof.
  intros ap ap' k theta ratio AP AP' Len K ND l U D.
  assert (KN : (k < length ratio)%nat). { pose proof (sides_total l) as T. unfold l in *. rewrite combine_length, Len, Nat.min_id in T. lia. }
  destruct (threshold_points ap k theta ratio AP Len KN) as (su & sd & _ & _ & (Su & _) & (Sd & _) & _ & E). fold l in Su, Sd.
  destruct (threshold_points ap' k theta ratio AP' Len KN) as (su' & sd' & _ & _ & (Su' & _) & (Sd' & _) & _ & E'). fold l in Su', Sd'.
  assert (NDl : NoDup (map snd l)) by (unfold l; rewrite map_snd_combine by exact Len; exact ND).
  destruct (above_below_dup l NDl) as [Na Nb].
  assert (P : Permutation (su ++ sd) (su' ++ sd')).
  { apply Permutation_app.
    - apply (closest_unique k (above l)); auto. intros p q P Q H. apply filter_In in P. apply filter_In in Q. destruct P as [P P1], Q as [Q Q1].
      destruct (Rlt_dec 1 (snd p)); [|discriminate]. destruct (Rlt_dec 1 (snd q)); [|discriminate]. rewrite !Rabs_right in H by lra.
      apply (snd_unique l p q NDl P Q). lra.
    - apply (closest_unique k (below l)); auto. intros p q P Q H. apply filter_In in P. apply filter_In in Q. destruct P as [P P1], Q as [Q Q1].
      destruct (Rlt_dec 1 (snd p)); [discriminate|]. destruct (Rlt_dec 1 (snd q)); [discriminate|]. rewrite !Rabs_left1 in H by lra.
      apply (snd_unique l p q NDl P Q). lra. }
  rewrite E, E'. unfold perform_linear_regression. rewrite (linregress_perm _ _ P). reflexivity.
Qed.
Print Assumptions C146_independent_of_the_partition.
(** finding: with fewer than k points on one side the run silently fills up with points of the other side,
    and which ones is up to the partition *)
Theorem C146_missing_points_filled_from_the_other_side :
  forall ap k theta ratio, argpartition_spec ap -> length theta = length ratio -> (k < length ratio)%nat ->
  let l := combine theta ratio in (length (above l) < k)%nat ->
  exists su sd others, Permutation su (above l ++ others) /\ length others = (k - length (above l))%nat /\ incl others l /\
    (forall p, In p others -> snd p <= 1) /\ length sd = k /\ incl sd l /\
    threshold ap k theta ratio = bind (perform_linear_regression (map fst (su ++ sd)) (map snd (su ++ sd))) (fun '(_, u, b) => Ok (b, u)).
Proof.
  intros ap k theta ratio AP Len KN l S.
  destruct (threshold_points ap k theta ratio AP Len KN) as (su & sd & Lu & Ld & (_ & Su) & _ & I & E). fold l in Su, I.
  destruct (Su S) as (o & P & O). exists su, sd, o. split; [exact P|]. split; [|split; [|split; [|split; [exact Ld|split; [|exact E]]]]].
  - apply Permutation_length in P. rewrite app_length in P. lia.
  - intros p Ip. apply O, Ip.
  - intros p Ip. destruct (O p Ip) as [N J]. apply Rnot_lt_le. intros H. apply N. apply filter_In. split; [exact J|]. destruct (Rlt_dec 1 (snd p)); [reflexivity|contradiction].
  - intros p Ip. apply I, in_app_iff. auto.
Qed.
Print Assumptions C146_missing_points_filled_from_the_other_side.

(** ** C147: the uncertainty, and the published numbers *)
Theorem C147_uncertainty :
  forall ap k theta ratio, argpartition_spec ap -> length theta = length ratio -> (1 <= k)%nat ->
  let l := combine theta ratio in (k <= length (above l))%nat -> (k <= length (below l))%nat ->
  exists su sd A B boundary uncertainty, closest k (above l) su /\ closest k (below l) sd /\
    least_squares (su ++ sd) A B /\ threshold ap k theta ratio = Ok (boundary, uncertainty) /\ 0 <= uncertainty /\
    (k = 1%nat -> uncertainty = 0) /\
    ((2 <= k)%nat -> let m := mean_ratio (su ++ sd) in
       uncertainty ^ 2 = fitted_variance (su ++ sd) A B 1
         + 2 * m * (sum_sq (su ++ sd) A B / (INR (2 * k) - 2) / spread_about m (su ++ sd))).
Proof.
  intros ap k theta ratio AP Len K l U D.
  assert (KN : (k < length ratio)%nat). { pose proof (sides_total l) as T. unfold l in *. rewrite combine_length, Len, Nat.min_id in T. lia. }
  destruct (threshold_points ap k theta ratio AP Len KN) as (su & sd & Lu & Ld & (Su & _) & (Sd & _) & _ & E). fold l in Su, Sd.
  specialize (Su U). specialize (Sd D). pose proof (sides_differ k su sd l K U D Su Sd) as T.
  destruct (linregress_ok (su ++ sd) T) as (lr & EL & Es & Ei & H2 & H3).
  assert (LL : length (su ++ sd) = (2 * k)%nat) by (rewrite app_length; lia).
  exists su, sd, (A_of (su ++ sd)), (B_of (su ++ sd)), (intercept lr + slope lr), (sqrt (stderr lr ^ 2 + intercept_stderr lr ^ 2)).
  split; [exact Su|]. split; [exact Sd|]. split; [apply fit_least_squares, T|]. split.
  { rewrite E. unfold perform_linear_regression. rewrite EL. reflexivity. }
  split; [apply sqrt_pos|]. split.
  - intros ->. destruct (H2 LL) as [-> ->]. replace (0 ^ 2 + 0 ^ 2) with 0 by ring. apply sqrt_0.
  - intros K2 m. destruct H3 as [V1 V2]; [lia|]. rewrite pow2_sqrt by (pose proof (pow2_ge_0 (stderr lr)); pose proof (pow2_ge_0 (intercept_stderr lr)); lra).
    assert (EM : mean (map snd (su ++ sd)) = m). { unfold m, mean_ratio, mean. rewrite <- sx_sum_ratio, map_length. reflexivity. }
    pose proof (two_ratios_spread _ m T) as DP.
    rewrite V2, V1, EM, devy_spread. rewrite devy_spread in DP. unfold fitted_variance. fold m. rewrite LL.
    assert (N2 : 0 < INR (2 * k) - 2). { pose proof (lt_INR 2 (2 * k) ltac:(lia)) as Q. cbn [INR] in Q. lra. }
    field. lra.
Qed.
Print Assumptions C147_uncertainty.

(** there is such a partition: sorting *)
Definition nan_leb (a b : option R) : bool :=
  match a, b with _, None => true | None, Some _ => false | Some x, Some y => if Rle_dec x y then true else false end.
Lemma nan_leb_spec a b : nan_leb a b = true <-> nan_le a b.
Proof.
  destruct a as [x|], b as [y|]; cbn; [|split; auto|split; [discriminate|tauto]|split; auto].
  destruct (Rle_dec x y); split; auto; congruence || tauto.
Qed.
Definition key (a : list (option R)) (i : nat) : option R := nth i a None.
Fixpoint insert (a : list (option R)) (i : nat) (l : list nat) : list nat :=
  match l with [] => [i] | j :: l' => if nan_leb (key a i) (key a j) then i :: l else j :: insert a i l' end.
Definition sorting (a : list (option R)) (_ : nat) : list nat := fold_right (insert a) [] (seq 0 (length a)).
Inductive sorted (a : list (option R)) : list nat -> Prop :=
| sorted_nil : sorted a []
| sorted_cons i l : (forall j, In j l -> nan_le (key a i) (key a j)) -> sorted a l -> sorted a (i :: l).
Lemma insert_perm a i l : Permutation (insert a i l) (i :: l).
Proof. induction l as [|j l IH]; cbn; [auto|]. destruct (nan_leb (key a i) (key a j)); [auto|]. rewrite IH. apply perm_swap. Qed.
Lemma nan_total x y : nan_leb x y = false -> nan_le y x.
Proof. destruct x as [x|], y as [y|]; cbn; try discriminate; auto. destruct (Rle_dec x y); [discriminate|]. intros _. lra. Qed.
Lemma nan_trans x y z : nan_le x y -> nan_le y z -> nan_le x z.
Proof. destruct x as [x|], y as [y|], z as [z|]; cbn; try tauto. lra. Qed.
Lemma insert_sorted a i l : sorted a l -> sorted a (insert a i l).
Proof.
  induction 1 as [|j l H Hl IH]; cbn; [constructor; [intros ? []|constructor]|].
  destruct (nan_leb (key a i) (key a j)) eqn:E.
  - apply nan_leb_spec in E. constructor; [|constructor; assumption]. intros m [<-|M]; [exact E|]. eapply nan_trans; [exact E|apply H, M].
  - constructor; [|exact IH]. intros m M. apply (Permutation_in _ (insert_perm a i l)) in M. destruct M as [<-|M]; [apply nan_total, E|apply H, M].
Qed.
Lemma sorted_nth a l : sorted a l -> forall i j x y, (i <= j)%nat -> nth_error l i = Some x -> nth_error l j = Some y -> nan_le (key a x) (key a y).
Proof.
  induction 1 as [|m l H Hl IH]; intros i j x y L X Y; [destruct i; discriminate|].
  destruct i as [|i]; destruct j as [|j]; cbn in X, Y; try lia.
  - injection X as ->. injection Y as ->. apply nan_leb_spec. destruct (key a y) as [z|]; cbn; [destruct (Rle_dec z z); [reflexivity|lra]|reflexivity].
  - injection X as ->. apply H. eapply nth_error_In, Y.
  - apply (IH i j); [lia|exact X|exact Y].
Qed.
Lemma sorting_spec : argpartition_spec sorting.
Proof.
  intros a k K. unfold sorting. generalize (seq 0 (length a)). intros s. assert (P : Permutation (fold_right (insert a) [] s) s /\ sorted a (fold_right (insert a) [] s)).
  { induction s as [|i s [IHp IHs]]; cbn; [split; constructor|]. split; [rewrite insert_perm; constructor; exact IHp|apply insert_sorted, IHs]. }
  destruct P as [P S]. split; [exact P|]. intros i j x y u v L X Y U V.
  assert (KX : key a x = u) by (unfold key; apply nth_error_nth, U). assert (KY : key a y = v) by (unfold key; apply nth_error_nth, V).
  rewrite <- KX, <- KY. apply (sorted_nth a _ S i j); [lia|exact X|exact Y].
Qed.

(** the published table *)
Definition published_points : list (R * R) := combine theta_2 ratio_2_1.
Definition pub_above : list (R * R) := [(2771/100000, 202044/100000); (9346/100000, 205217/100000); (1816/100000, 253183/100000)].
Definition pub_below : list (R * R) := [(17994/100000, 91831/100000); (13080/100000, 84057/100000); (85748/100000, 79629/100000)].
Lemma above_in t y l : 1 < y -> above ((t, y) :: l) = (t, y) :: above l.
Proof. intros H. unfold above. cbn [filter snd]. destruct (Rlt_dec 1 y); [reflexivity|lra]. Qed.
Lemma above_out t y l : y <= 1 -> above ((t, y) :: l) = above l.
Proof. intros H. unfold above. cbn [filter snd]. destruct (Rlt_dec 1 y); [lra|reflexivity]. Qed.
Lemma below_in t y l : y <= 1 -> below ((t, y) :: l) = (t, y) :: below l.
Proof. intros H. unfold below. cbn [filter snd]. destruct (Rlt_dec 1 y); [lra|reflexivity]. Qed.
Lemma below_out t y l : 1 < y -> below ((t, y) :: l) = below l.
Proof. intros H. unfold below. cbn [filter snd]. destruct (Rlt_dec 1 y); [reflexivity|lra]. Qed.
Lemma published_above : above published_points = [(1816/100000, 253183/100000); (907/100000, 308804/100000); (2771/100000, 202044/100000); (9346/100000, 205217/100000)].
Proof.
  unfold published_points, theta_2, ratio_2_1. cbn [combine].
  repeat first [rewrite above_out by lra|rewrite above_in by lra]. reflexivity.
Qed.
Definition pub_rest : list (R * R) := [(76947/100000, 55605/100000); (92560/100000, 42858/100000); (30289/100000, 65585/100000);
  (206433/100000, 48298/100000); (127865/100000, 32000/100000); (76510/100000, 32190/100000); (387770/10000, 7627/100000);
  (358916/100000, 29260/100000); (21492/100000, 72069/100000); (92741/100000, 34623/100000); (99670/100000, 48095/100000);
  (41545/100000, 61223/100000); (158532/100000, 30289/100000); (180122/10000, 12459/100000)].
Lemma published_below : Permutation (pub_below ++ pub_rest) (below published_points).
Proof.
  unfold published_points, theta_2, ratio_2_1. cbn [combine].
  repeat first [rewrite below_in by lra|rewrite below_out by lra]. change (below []) with (@nil (R * R)). unfold pub_below, pub_rest. cbn [app].
  symmetry. 
  repeat match goal with
  | |- Permutation (?x :: ?l) (?x :: ?k) => apply perm_skip
  | |- Permutation (?x :: ?l) ?k => 
      let rec go pre m := lazymatch m with x :: ?m' => 
           apply (Permutation_cons_app pre m') ; cbn [app] | ?y :: ?m' => go constr:(pre ++ [y]) m' end in
      go constr:(@nil (R * R)) k
  end. apply perm_nil.
Qed.
Lemma published_closest : closest 3 (above published_points) pub_above /\ closest 3 (below published_points) pub_below.
Proof.
  split.
  - split; [reflexivity|]. exists [(907/100000, 308804/100000)]. split.
    + rewrite published_above. unfold pub_above. cbn [app].
      apply perm_trans with [(1816/100000, 253183/100000); (2771/100000, 202044/100000); (9346/100000, 205217/100000); (907/100000, 308804/100000)].
      * apply Permutation_sym. apply (Permutation_cons_app [(2771/100000, 202044/100000); (9346/100000, 205217/100000)]). reflexivity.
      * apply perm_skip. apply Permutation_sym. apply (Permutation_cons_app [(2771/100000, 202044/100000); (9346/100000, 205217/100000)]). reflexivity.
    + intros s r S [<-|[]]. cbn [snd]. rewrite (Rabs_right (308804/100000 - 1)) by lra. revert s S. apply Forall_forall. unfold pub_above.
      repeat (constructor; [cbn [snd]; rewrite Rabs_right by lra; lra|]). constructor.
  - split; [reflexivity|]. exists pub_rest. split; [exact published_below|].
    assert (S1 : forall s, In s pub_below -> Rabs (snd s - 1) <= 1 - 79629/100000).
    { apply Forall_forall. unfold pub_below. repeat (constructor; [cbn [snd]; rewrite Rabs_left1 by lra; lra|]). constructor. }
    assert (S2 : forall r, In r pub_rest -> 1 - 79629/100000 <= Rabs (snd r - 1)).
    { apply Forall_forall. unfold pub_rest. repeat (constructor; [cbn [snd]; rewrite Rabs_left1 by lra; lra|]). constructor. }
    intros s r S Rr. eapply Rle_trans; [apply S1, S|apply S2, Rr].
Qed.
Definition pub : list (R * R) := pub_above ++ pub_below.
Lemma NoDup_forall (x : R) l : List.Forall (fun y => x <> y) l -> NoDup l -> NoDup (x :: l).
Proof. intros H N. constructor; [|exact N]. intros I. rewrite Forall_forall in H. apply (H x I). reflexivity. Qed.
Lemma ratios_distinct : NoDup ratio_2_1.
Proof. unfold ratio_2_1. repeat (apply NoDup_forall; [repeat (constructor; [lra|]); constructor|]). constructor. Qed.
Lemma pub_mt : mean (map fst pub) = (8717/40000).
Proof. unfold mean, pub, pub_above, pub_below. cbn [app map fst total length]. replace (INR 6) with 6 by (cbn; lra). lra. Qed.
Lemma pub_my : mean (map snd pub) = (915961/600000).
Proof. unfold mean, pub, pub_above, pub_below. cbn [app map snd total length]. replace (INR 6) with 6 by (cbn; lra). lra. Qed.
Lemma pub_dev : dev (mean (map fst pub)) (mean (map snd pub)) pub = (-(2977431077)/4000000000).
Proof. rewrite pub_mt, pub_my. unfold dev, pub, pub_above, pub_below. cbn [app map fst snd total]. lra. Qed.
Lemma pub_devy : devy (mean (map snd pub)) pub = (174275742269/60000000000).
Proof. rewrite pub_my. unfold devy, pub, pub_above, pub_below. cbn [app map fst snd total]. lra. Qed.
Lemma pub_B : B_of pub = (-(44661466155)/174275742269).
Proof. unfold B_of. rewrite pub_dev, pub_devy. lra. Qed.
Lemma pub_A : A_of pub = (424637239207887/697102969076000).
Proof. unfold A_of. rewrite pub_B, pub_mt, pub_my. lra. Qed.
Lemma pub_ss : sum_sq pub (A_of pub) (B_of pub) = (69468000828966079279/217844677836250000000).
Proof. rewrite pub_A, pub_B. unfold pub, pub_above, pub_below. cbn [app sum_sq]. lra. Qed.
Lemma pub_len : INR (length pub) = 6.
Proof. change (length pub) with 6%nat. cbn [INR]. lra. Qed.
Lemma pub_boundary : 35287/100000 < A_of pub + B_of pub < 35288/100000.
Proof. rewrite pub_A, pub_B. lra. Qed.
Lemma pub_u2 : (32357/100000) ^ 2 < sum_sq pub (A_of pub) (B_of pub) / (INR (length pub) - 2) / devy (mean (map snd pub)) pub
  + sum_sq pub (A_of pub) (B_of pub) / (INR (length pub) - 2) / devy (mean (map snd pub)) pub * (devy (mean (map snd pub)) pub / INR (length pub) + mean (map snd pub) ^ 2) < (32358/100000) ^ 2.
Proof. rewrite pub_ss, pub_devy, pub_my, pub_len. lra. Qed.
Lemma pub_fv : 0 < fitted_variance pub (A_of pub) (B_of pub) 1 < (14457/100000) ^ 2.
Proof.
  assert (EM : mean_ratio pub = mean (map snd pub)). { unfold mean_ratio, mean. rewrite <- sx_sum_ratio, map_length. reflexivity. }
  unfold fitted_variance. rewrite EM, <- devy_spread, pub_ss, pub_devy, pub_my, pub_len. lra.
Qed.
Lemma pub_two : two_ratios pub.
Proof. exists (2771/100000, 202044/100000), (9346/100000, 205217/100000). split; [left; reflexivity|]. split; [right; left; reflexivity|]. cbn [snd]. lra. Qed.

Lemma pub_len_ok : length theta_2 = length ratio_2_1. Proof. reflexivity. Qed.
Lemma pub_k : (3 < length ratio_2_1)%nat. Proof. cbn; lia. Qed.
Lemma pub_na : (3 <= length (above published_points))%nat. Proof. rewrite published_above. cbn [length]. lia. Qed.
Lemma pub_nb : (3 <= length (below published_points))%nat. Proof. rewrite <- (Permutation_length published_below). cbn [length app pub_below pub_rest]. lia. Qed.
Lemma pub_nd : NoDup (map snd published_points).
Proof. unfold published_points. rewrite map_snd_combine by exact pub_len_ok. exact ratios_distinct. Qed.
Lemma pub_perm su sd : closest 3 (above published_points) su -> closest 3 (below published_points) sd -> Permutation (su ++ sd) pub.
Proof.
  intros Su Sd. destruct published_closest as [CU CD]. revert Su Sd CU CD. pose proof pub_nd as NDl. revert NDl.
  generalize published_points. unfold pub. generalize pub_above pub_below. intros pa pb l NDl Su Sd CU CD. destruct (above_below_dup _ NDl) as [Na Nb].
  apply Permutation_app.
    - apply (closest_unique 3 (above l)); auto. intros p q P Q H. apply filter_In in P. apply filter_In in Q. destruct P as [P P1], Q as [Q Q1].
      destruct (Rlt_dec 1 (snd p)); [|discriminate]. destruct (Rlt_dec 1 (snd q)); [|discriminate]. rewrite !Rabs_right in H by lra.
      apply (snd_unique _ p q NDl P Q). lra.
    - apply (closest_unique 3 (below l)); auto. intros p q P Q H. apply filter_In in P. apply filter_In in Q. destruct P as [P P1], Q as [Q Q1].
      destruct (Rlt_dec 1 (snd p)); [discriminate|]. destruct (Rlt_dec 1 (snd q)); [discriminate|]. rewrite !Rabs_left1 in H by lra.
      apply (snd_unique _ p q NDl P Q). lra.
Qed.
Lemma pub_run ap : argpartition_spec ap -> threshold ap 3 theta_2 ratio_2_1 =
  bind (perform_linear_regression (map fst pub) (map snd pub)) (fun '(_, u, b) => Ok (b, u)).
Proof.
  intros AP. destruct (threshold_points ap 3 theta_2 ratio_2_1 AP pub_len_ok pub_k) as (su & sd & _ & _ & (Su & _) & (Sd & _) & _ & E).
  rewrite E. unfold perform_linear_regression. rewrite (linregress_perm _ _ (pub_perm su sd (Su pub_na) (Sd pub_nb))). reflexivity.
Qed.
(** the estimate of the published table is 0.353 for every partition; the uncertainty given with it is 0.324,
    the standard error of the fitted value only 0.145 *)
Theorem C147_published_numbers :
  forall ap, argpartition_spec ap -> exists A B b u,
  least_squares [(2771/100000, 202044/100000); (9346/100000, 205217/100000); (1816/100000, 253183/100000);
                 (17994/100000, 91831/100000); (13080/100000, 84057/100000); (85748/100000, 79629/100000)] A B /\
  threshold ap 3 theta_2 ratio_2_1 = Ok (b, u) /\ b = A + B /\
  35287/100000 < b < 35288/100000 /\ 32357/100000 < u < 32358/100000 /\
  0 < fitted_variance pub A B 1 < (14457/100000) ^ 2.
Proof.
  intros ap AP. destruct (linregress_ok pub pub_two) as (lr & EL & Es & Ei & _ & H3). destruct H3 as [V1 V2]; [cbn; lia|].
  exists (A_of pub), (B_of pub), (intercept lr + slope lr), (sqrt (stderr lr ^ 2 + intercept_stderr lr ^ 2)).
  split; [exact (fit_least_squares pub pub_two)|]. split.
  { rewrite (pub_run ap AP). unfold perform_linear_regression. rewrite EL. reflexivity. }
  split; [rewrite Es, Ei; ring|]. split; [rewrite Es, Ei, Rplus_comm; rewrite Rplus_comm; exact pub_boundary|]. split; [|exact pub_fv].
  pose proof pub_u2 as [U1 U2]. rewrite V2, V1. split.
  - replace (32357/100000) with (sqrt ((32357/100000) ^ 2)) by (apply sqrt_pow2; lra). apply sqrt_lt_1; [apply pow2_ge_0| |exact U1].
    eapply Rle_trans; [apply pow2_ge_0|apply Rlt_le, U1].
  - replace (32358/100000) with (sqrt ((32358/100000) ^ 2)) by (apply sqrt_pow2; lra). apply sqrt_lt_1; [|apply pow2_ge_0|exact U2].
    eapply Rle_trans; [apply pow2_ge_0|apply Rlt_le, U1].
Qed.
Print Assumptions C147_published_numbers.

(** the hypotheses of C145-C147 are met by the published table, and by a sorting partition; with five points
    and k = 2 but only one ratio above 1 a point below 1 is used twice *)
Example C145_case : argpartition_spec sorting /\ length theta_2 = length ratio_2_1 /\ NoDup ratio_2_1 /\
  (3 <= length (above (combine theta_2 ratio_2_1)))%nat /\ (3 <= length (below (combine theta_2 ratio_2_1)))%nat /\
  (length (above (combine [1%R; 2%R; 3%R; 4%R] [2%R; (1/2)%R; (1/4)%R; (1/8)%R])) < 2)%nat.
Proof.
  split; [exact sorting_spec|]. split; [reflexivity|]. split; [exact ratios_distinct|].
  split; [exact pub_na|]. split; [exact pub_nb|].
  cbn [combine]. rewrite above_in by lra. rewrite !above_out by lra. cbn. lia.
Qed.
