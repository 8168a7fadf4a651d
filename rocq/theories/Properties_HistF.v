(** * Constant-width histograms in binary64 arithmetic (C181). *)
From Coq Require Import List ZArith Lia Reals Lra Bool.
From Flocq Require Import Core BinarySingleNaN.
From Verif Require Import Base Py Cmp_Model Cmp_Proofs NumInt_Model Round_Model Round_Proofs Hist_Model Hist_Spec Hist_Proofs Hist_More HistF_Model HistF_Spec HistF_Proofs.
Import ListNotations.
Local Open Scope R_scope.

(** C181: for finite data whose range neither overflows nor underflows when it is divided by
    the number of bins, each implementation returns n counts and counts every datum once, with
    or without the consistency checks. *)
Theorem C181_every_datum_counted_once :
  forall v data lo hi n checks, all_finite data -> minimum lo data -> maximum hi data ->
  (1 <= n)%nat -> (Z.of_nat n <= 2 ^ 30)%Z -> well_scaled lo hi n ->
  exists c, fcounts v data (fwidth (fptp data) n) zero n 0 checks None = Ok c /\
    List.length c = n /\ ntotal c = List.length data.
Proof.
  intros v data lo hi n ck HF Hlo Hhi H1 H30 WS. destruct (Nat.eq_dec n 1) as [->|N].
  - exists [List.length data]. repeat split. cbn. lia.
  - destruct (fcounts_ok v data lo hi n ck HF Hlo Hhi ltac:(lia) H30 WS) as (idx & E & A & _). eexists. split; [exact E|].
    split; [rewrite map_length, seq_length; reflexivity|]. apply ntotal_partition. intros x Hx. apply A, Hx.
Qed.
Print Assumptions C181_every_datum_counted_once.

(** ... in the right bin up to a 2^-49 th of the range: the smallest datum in the first,
    the greatest one in the last, and larger data never in an earlier bin *)
Theorem C181_bins_up_to_rounding :
  forall v data lo hi n checks, all_finite data -> minimum lo data -> maximum hi data ->
  (2 <= n)%nat -> (Z.of_nat n <= 2 ^ 30)%Z -> well_scaled lo hi n ->
  exists idx : double -> nat,
    fcounts v data (fwidth (fptp data) n) zero n 0 checks None =
      Ok (map (fun i => List.length (filter (fun x => Nat.eqb (idx x) i) data)) (seq 0 n)) /\
    (forall x, In x data -> (idx x < n)%nat /\ nearly_in lo hi n (idx x) (B2R x) /\
       (B2R x = lo -> idx x = 0%nat) /\ (B2R x = hi -> idx x = (n - 1)%nat)) /\
    (forall x y, In x data -> In y data -> B2R x <= B2R y -> (idx x <= idx y)%nat).
Proof. exact fcounts_ok. Qed.
Print Assumptions C181_bins_up_to_rounding.

Lemma range_positive lo hi n : (1 <= n)%nat -> well_scaled lo hi n -> lo < hi.
Proof.
  intros Hn (A & _). assert (0 < INR n) by (apply lt_0_INR; lia). pose proof (Cmp_Proofs.pow_pos 1000).
  assert (0 < INR n / 2 ^ 1000) by (apply Rdiv_lt_0_compat; lra). lra.
Qed.

(** ... hence exactly the histogram in real arithmetic when no datum lies within that
    distance of an interior edge *)
Theorem C181_exact_away_from_the_edges :
  forall v data lo hi n checks, all_finite data -> minimum lo data -> maximum hi data ->
  (2 <= n)%nat -> (Z.of_nat n <= 2 ^ 30)%Z -> well_scaled lo hi n ->
  (forall x, In x data -> inside lo hi n (B2R x)) ->
  exists c, fcounts v data (fwidth (fptp data) n) zero n 0 checks None = Ok c /\
    histogram_of lo hi n (map (fun x : double => B2R x) data) (map INR c).
Proof.
  intros v data lo hi n ck HF Hlo Hhi H2 H30 WS HI. destruct (fcounts_ok v data lo hi n ck HF Hlo Hhi H2 H30 WS) as (idx & E & A & _). eexists. split; [exact E|].
  assert (LT : lo < hi) by (apply (range_positive lo hi n); [lia|exact WS]).
  split; [rewrite !map_length, seq_length; reflexivity|]. intros i Hi. exists (List.length (filter (fun x => Nat.eqb (idx x) i) data)). split.
  - apply counted_filter. intros x Hx. destruct (A x Hx) as (I1 & I2 & _).
    assert (XR : lo <= B2R x <= hi) by (split; [apply Hlo, Hx|apply Hhi, Hx]).
    pose proof (inside_bin lo hi n (idx x) (B2R x) ltac:(lia) LT XR I1 I2 (HI x Hx)) as B.
    destruct (linear_bin_exists lo hi n (B2R x) LT ltac:(lia) XR) as (j & _ & _ & U).
    split.
    + intros B'. apply Nat.eqb_eq. rewrite (U i Hi B'). apply U; assumption.
    + intros E'. apply Nat.eqb_eq in E'. subst i. exact B.
  - rewrite map_map. rewrite (nth_indep _ 0 ((fun i => INR (List.length (filter (fun x => Nat.eqb (idx x) i) data))) 0%nat)) by (rewrite map_length, seq_length; exact Hi).
    rewrite (map_nth (fun i => INR (List.length (filter (fun x => Nat.eqb (idx x) i) data)))). rewrite seq_nth by exact Hi. reflexivity.
Qed.
Print Assumptions C181_exact_away_from_the_edges.

(** ... and the three implementations then return the same counts *)
Theorem C181_implementations_agree_away_from_the_edges :
  forall v v' data lo hi n checks checks', all_finite data -> minimum lo data -> maximum hi data ->
  (2 <= n)%nat -> (Z.of_nat n <= 2 ^ 30)%Z -> well_scaled lo hi n ->
  (forall x, In x data -> inside lo hi n (B2R x)) ->
  fcounts v data (fwidth (fptp data) n) zero n 0 checks None = fcounts v' data (fwidth (fptp data) n) zero n 0 checks' None.
Proof.
  intros v v' data lo hi n ck ck' HF Hlo Hhi H2 H30 WS HI.
  destruct (C181_exact_away_from_the_edges v data lo hi n ck HF Hlo Hhi H2 H30 WS HI) as (c & E & L & C).
  destruct (C181_exact_away_from_the_edges v' data lo hi n ck' HF Hlo Hhi H2 H30 WS HI) as (c' & E' & L' & C').
  rewrite E, E'. f_equal. rewrite map_length in L, L'. apply (nth_ext _ _ 0%nat 0%nat); [congruence|]. intros i Hi. rewrite L in Hi.
  destruct (C i Hi) as (k & K1 & K2). destruct (C' i Hi) as (k' & K1' & K2'). rewrite (counted_fun _ _ _ _ K1' K1) in K2'.
  change 0 with (INR 0) in K2, K2'. rewrite map_nth in K2, K2'. apply INR_eq. congruence.
Qed.
Print Assumptions C181_implementations_agree_away_from_the_edges.

(** ... findings. On an edge the implementations disagree although all the numbers are small
    integers: 49 is the middle of 0..98; blas_jacky multiplies by 1 / w, and 49 * (1 / 49) < 1. *)
Definition ints (l : list Z) : list double := map of_int l.
Definition hist v (l : list double) n := fcounts v l (fwidth (fptp l) n) zero n 0 true None.
Theorem C181_finding_implementations_disagree_on_an_edge :
  hist Cython (ints [0; 49; 98]%Z) 2 = Ok [1; 2]%nat /\ hist Numexpr (ints [0; 49; 98]%Z) 2 = Ok [1; 2]%nat /\
  hist Blas (ints [0; 49; 98]%Z) 2 = Ok [2; 1]%nat.
Proof. repeat split; vm_compute; reflexivity. Qed.
Print Assumptions C181_finding_implementations_disagree_on_an_edge.
(** Equal data give a width of zero and 0 / 0 is converted to an integer *)
Theorem C181_finding_equal_data :
  forall v, hist v (ints [5; 5; 5]%Z) 3 = UB.
Proof. intros []; vm_compute; reflexivity. Qed.
Print Assumptions C181_finding_equal_data.
(** Outside the assumed scale: a range that overflows, and one so small that its n parts are
    not representable, which gives more bins than were asked for. *)
Definition huge : double := B754_finite false 4503599627370496 971 (eq_refl : SpecFloat.bounded 53 1024 4503599627370496 971 = true).
Definition speck (m : positive) (B : SpecFloat.bounded 53 1024 m (-1074) = true) : double := B754_finite false m (-1074) B.
Definition specks : list double := [B754_zero false; speck 5 eq_refl].
Theorem C181_finding_scale :
  (forall v, hist v [Bopp huge; huge] 4 = UB) /\
  hist Cython specks 4 = Ok [1; 0; 0; 0; 0; 1]%nat.
Proof. split; [intros []|]; vm_compute; reflexivity. Qed.
Print Assumptions C181_finding_scale.

(** Non-vacuity *)
Definition sample : list double := ints [3; 0; 10; 6; 8]%Z.
Example C181_case : all_finite sample /\ minimum 0 sample /\ maximum 10 sample /\ well_scaled 0 10 4 /\ (forall x, In x sample -> inside 0 10 4 (B2R x)).
Proof.
  assert (V : map (fun x : double => B2R x) sample = [3; 0; 10; 6; 8]).
  { unfold sample, ints. cbn [map]. rewrite (proj2 (of_int_ok 3 ltac:(lia))), (proj2 (of_int_ok 0 ltac:(lia))), (proj2 (of_int_ok 10 ltac:(lia))), (proj2 (of_int_ok 6 ltac:(lia))), (proj2 (of_int_ok 8 ltac:(lia))). reflexivity. }
  assert (M : forall P : R -> Prop, P 3 -> P 0 -> P 10 -> P 6 -> P 8 -> forall x, In x sample -> P (B2R x)).
  { intros P P1 P2 P3 P4 P5 x Hx. assert (Hx' : In (B2R x) [3; 0; 10; 6; 8]) by (rewrite <- V; apply (in_map (fun x : double => B2R x)), Hx).
    cbn in Hx'. destruct Hx' as [<- | [<- | [<- | [<- | [<- | []]]]]]; assumption. }
  assert (PP : 1000 < 2 ^ 1000) by (apply Rlt_le_trans with (2 ^ 10); [simpl; lra|apply Rle_pow; [lra|lia]]).
  split; [|split; [|split; [|split]]].
  - intros x Hx. unfold sample, ints in Hx. apply in_map_iff in Hx. destruct Hx as (z & <- & Hz). apply of_int_ok. cbn in Hz. lia.
  - split; [|apply (M (fun y => 0 <= y)); lra]. assert (H : In 0 (map (fun x : double => B2R x) sample)) by (rewrite V; cbn; auto). apply in_map_iff in H. destruct H as (x & Ex & Hx). exists x. auto.
  - split; [|apply (M (fun y => y <= 10)); lra]. assert (H : In 10 (map (fun x : double => B2R x) sample)) by (rewrite V; cbn; auto). apply in_map_iff in H. destruct H as (x & Ex & Hx). exists x. auto.
  - split; [|lra]. simpl (INR 4). rewrite Rminus_0_r. apply Rmult_le_reg_r with (2 ^ 1000); [lra|]. unfold Rdiv. rewrite Rmult_assoc, Rinv_l by lra. lra.
  - assert (S49 : (10 - 0) / 2 ^ 49 < / 10). { rewrite (pow_IZR 2 49). change (Z.pow 2 (Z.of_nat 49)) with 562949953421312%Z. lra. }
    apply (M (fun y => inside 0 10 4 y)); intros i Hi; eapply Rlt_trans; try exact S49; assert (I : (i = 1 \/ i = 2 \/ i = 3)%nat) by lia; destruct I as [-> | [-> | ->]]; simpl (INR _); apply Rabs_def2b || idtac;
      match goal with |- _ < Rabs ?e => destruct (Rle_or_lt 0 e); [rewrite Rabs_pos_eq by assumption|rewrite Rabs_left by assumption]; lra end.
Qed.
Example C181_case_counts : hist Blas sample 4 = Ok [1; 1; 1; 2]%nat.
Proof. vm_compute. reflexivity. Qed.
