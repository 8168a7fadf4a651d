From Coq Require Import Reals List Bool Permutation Lra Lia Psatz.
From Coquelicot Require Import Coquelicot.
From Verif Require Import Base Stab_Model Stab_Proofs Thresh_Model Thresh_Spec.
Import ListNotations.
Local Open Scope R_scope.

(** ** regression *)
Lemma total_app l k : total (l ++ k) = total l + total k.
Proof. induction l as [|a l IH]; cbn; [lra|rewrite IH; lra]. Qed.
Lemma total_perm l k : Permutation l k -> total l = total k.
Proof. induction 1; cbn; lra. Qed.
Definition sx (l : list (R * R)) : R := total (map snd l).
Definition st (l : list (R * R)) : R := total (map fst l).
Definition dev (mt my : R) (l : list (R * R)) : R := total (map (fun p => (snd p - my) * (fst p - mt)) l).
Definition devy (my : R) (l : list (R * R)) : R := total (map (fun p => (snd p - my) * (snd p - my)) l).
Definition devt (mt : R) (l : list (R * R)) : R := total (map (fun p => (fst p - mt) * (fst p - mt)) l).

Lemma sum_sq_expand l A B mt my :
  sum_sq l A B = devt mt l - 2 * B * dev mt my l + B ^ 2 * devy my l
   + 2 * (mt - A - B * my) * (st l - INR (length l) * mt) - 2 * B * (mt - A - B * my) * (sx l - INR (length l) * my)
   + INR (length l) * (mt - A - B * my) ^ 2.
Proof.
  induction l as [|[t y] l IH]; unfold devt, dev, devy, st, sx in *.
  - cbn. ring.
  - cbn [sum_sq length map total fst snd]. rewrite IH, S_INR. ring.
Qed.
Lemma devy_spread m l : devy m l = spread_about m l.
Proof. unfold devy. induction l as [|[t y] l IH]; cbn [map total spread_about fst snd]; [reflexivity|]. rewrite IH. ring. Qed.
Lemma sx_sum_ratio l : sx l = sum_ratio l.
Proof. unfold sx. induction l as [|[t y] l IH]; cbn; [reflexivity|rewrite IH; reflexivity]. Qed.
Lemma devy_pos m l : 0 <= devy m l.
Proof. unfold devy. induction l as [|[t y] l IH]; cbn [map total fst snd]; [lra|]. pose proof (Rle_0_sqr (y - m)) as Q. unfold Rsqr in Q. lra. Qed.
Lemma devy_zero m l : devy m l = 0 -> forall p, In p l -> snd p = m.
Proof.
  induction l as [|[t y] l IH]; intros H p; cbn; [tauto|]. change (devy m ((t, y) :: l)) with ((y - m) * (y - m) + devy m l) in H.
  pose proof (devy_pos m l) as P. pose proof (Rle_0_sqr (y - m)) as Q. unfold Rsqr in Q.
  assert (Z : (y - m) * (y - m) = 0) by lra. intros [<-|I]; [|apply IH; [lra|exact I]].
  cbn. apply Rmult_integral in Z. lra.
Qed.
Lemma combine_snd_fst (l : list (R * R)) : combine (map snd l) (map fst l) = map (fun p => (snd p, fst p)) l.
Proof. induction l as [|[t y] l IH]; cbn; [reflexivity|rewrite IH; reflexivity]. Qed.
Lemma combine_same {A} (l : list A) : combine l l = map (fun a => (a, a)) l.
Proof. induction l as [|a l IH]; cbn; [reflexivity|rewrite IH; reflexivity]. Qed.
Lemma cov_yt l : cov (map snd l) (map fst l) = dev (mean (map fst l)) (mean (map snd l)) l / INR (length l).
Proof. unfold cov. unfold mean at 1. rewrite combine_snd_fst, !map_map, map_length. reflexivity. Qed.
Lemma cov_yy l : cov (map snd l) (map snd l) = devy (mean (map snd l)) l / INR (length l).
Proof. unfold cov. unfold mean at 1. rewrite combine_same, !map_map, map_length. reflexivity. Qed.
Lemma cov_tt l : cov (map fst l) (map fst l) = devt (mean (map fst l)) l / INR (length l).
Proof. unfold cov. unfold mean at 1. rewrite combine_same, !map_map, map_length. reflexivity. Qed.
Lemma all_same_spec l : all_same l = true <-> forall a b, In a l -> In b l -> a = b.
Proof.
  destruct l as [|x l]; cbn; [split; [tauto|reflexivity]|]. rewrite forallb_forall. split.
  - intros H. assert (K : forall a, In a (x :: l) -> a = x).
    { intros a [<-|I]; [reflexivity|]. specialize (H a I). destruct (Req_EM_T x a); [congruence|discriminate]. }
    intros a b Ia Ib. rewrite (K a Ia), (K b Ib). reflexivity.
  - intros H y I. destruct (Req_EM_T x y) as [_|N]; [reflexivity|]. exfalso. apply N. apply H; auto.
Qed.

(** the regression on a list of points with two different ratios *)
Definition two_ratios (l : list (R * R)) : Prop := exists p q, In p l /\ In q l /\ snd p <> snd q.
Definition B_of (l : list (R * R)) : R := dev (mean (map fst l)) (mean (map snd l)) l / devy (mean (map snd l)) l.
Definition A_of (l : list (R * R)) : R := mean (map fst l) - B_of l * mean (map snd l).
Lemma two_ratios_spread l m : two_ratios l -> 0 < devy m l.
Proof.
  intros (p & q & P & Q & N). pose proof (devy_pos m l). destruct (Req_EM_T (devy m l) 0) as [Z|Z]; [|lra].
  exfalso. apply N. rewrite (devy_zero _ _ Z p P), (devy_zero _ _ Z q Q). reflexivity.
Qed.
Lemma two_ratios_length l : two_ratios l -> (2 <= length l)%nat.
Proof. intros (p & q & P & Q & N). destruct l as [|a [|b l]]; cbn in *; [tauto| |lia]. destruct P as [<-|[]], Q as [<-|[]]. congruence. Qed.
Lemma mean_times l : l <> [] -> INR (length l) * mean l = total l.
Proof. intros N. unfold mean. field. apply not_0_INR. destruct l; cbn; congruence. Qed.

Lemma sum_sq_min l A B : two_ratios l ->
  sum_sq l A B = sum_sq l (A_of l) (B_of l) + devy (mean (map snd l)) l * (B - B_of l) ^ 2
   + INR (length l) * (mean (map fst l) - A - B * mean (map snd l)) ^ 2 /\
  sum_sq l (A_of l) (B_of l) = devt (mean (map fst l)) l - dev (mean (map fst l)) (mean (map snd l)) l ^ 2 / devy (mean (map snd l)) l.
Proof.
  intros T. pose proof (two_ratios_spread l (mean (map snd l)) T) as D. pose proof (two_ratios_length l T) as L.
  assert (E1 : st l - INR (length l) * mean (map fst l) = 0).
  { unfold st. rewrite <- (map_length fst l), mean_times by (destruct l; cbn in *; [lia|discriminate]). ring. }
  assert (E2 : sx l - INR (length l) * mean (map snd l) = 0).
  { unfold sx. rewrite <- (map_length snd l), mean_times by (destruct l; cbn in *; [lia|discriminate]). ring. }
  rewrite !(sum_sq_expand l _ _ (mean (map fst l)) (mean (map snd l))), E1, E2. unfold A_of, B_of.
  set (mt := mean (map fst l)) in *. set (my := mean (map snd l)) in *. split; field; lra.
Qed.
Lemma fit_least_squares l : two_ratios l -> least_squares l (A_of l) (B_of l).
Proof.
  intros T A B. destruct (sum_sq_min l A B T) as [E _]. pose proof (two_ratios_spread l (mean (map snd l)) T) as D.
  pose proof (two_ratios_length l T) as L. assert (N : 0 < INR (length l)) by (apply lt_0_INR; lia).
  rewrite E. set (x := B - B_of l) in *. set (y := mean (map fst l) - A - B * mean (map snd l)) in *. set (d := devy (mean (map snd l)) l) in *.
  assert (P1 : 0 <= d * x ^ 2) by (apply Rmult_le_pos; [lra|apply pow2_ge_0]).
  assert (P2 : 0 <= INR (length l) * y ^ 2) by (apply Rmult_le_pos; [lra|apply pow2_ge_0]).
  split; [lra|]. intros H. assert (Z1 : d * x ^ 2 = 0) by lra. assert (Z2 : INR (length l) * y ^ 2 = 0) by lra.
  assert (X : x = 0). { apply Rmult_integral in Z1. destruct Z1 as [Z1|Z1]; [lra|]. nra. }
  assert (Y : y = 0). { apply Rmult_integral in Z2. destruct Z2 as [Z2|Z2]; [lra|]. nra. }
  assert (EB : B = B_of l) by (unfold x in X; lra). split; [|exact EB]. unfold A_of. rewrite <- EB. unfold y in Y. lra.
Qed.
Lemma sum_sq_pos l A B : 0 <= sum_sq l A B.
Proof. induction l as [|[t y] l IH]; cbn [sum_sq]; [lra|]. pose proof (pow2_ge_0 (t - (A + B * y))). lra. Qed.
Lemma devt_pos m l : 0 <= devt m l.
Proof. unfold devt. induction l as [|[t y] l IH]; cbn [map total fst snd]; [lra|]. pose proof (Rle_0_sqr (t - m)) as Q. unfold Rsqr in Q. lra. Qed.
Lemma linregress_ok l : two_ratios l -> exists lr, linregress (map snd l) (map fst l) = Ok lr /\
  slope lr = B_of l /\ intercept lr = A_of l /\
  (length l = 2%nat -> stderr lr = 0 /\ intercept_stderr lr = 0) /\
  ((2 < length l)%nat -> stderr lr ^ 2 = sum_sq l (A_of l) (B_of l) / (INR (length l) - 2) / devy (mean (map snd l)) l /\
     intercept_stderr lr ^ 2 = stderr lr ^ 2 * (devy (mean (map snd l)) l / INR (length l) + mean (map snd l) ^ 2)).
Proof.
  intros T. pose proof (two_ratios_spread l (mean (map snd l)) T) as D. pose proof (two_ratios_length l T) as L.
  assert (N : 0 < INR (length l)) by (apply lt_0_INR; lia).
  unfold linregress. destruct (map snd l) as [|a m] eqn:M; [destruct l; cbn in *; [lia|discriminate]|]. rewrite <- M in *. clear a m M.
  destruct (all_same (map snd l)) eqn:S.
  { exfalso. destruct T as (p & q & P & Q & Z). apply Z. rewrite all_same_spec in S. apply S; apply in_map; assumption. }
  cbn [andb]. rewrite map_length, cov_yt, cov_yy, cov_tt. set (mt := mean (map fst l)) in *. set (my := mean (map snd l)) in *.
  assert (BE : dev mt my l / INR (length l) / (devy my l / INR (length l)) = B_of l).
  { unfold B_of. fold mt my. field. lra. }
  eexists. split; [reflexivity|]. cbn [slope intercept stderr intercept_stderr]. rewrite BE. split; [reflexivity|]. split; [reflexivity|]. split.
  - intros ->. cbn. auto.
  - intros L3. destruct (Nat.eqb_spec (length l) 2) as [Z|_]; [lia|].
    assert (N2 : 0 < INR (length l) - 2). { apply lt_INR in L3. cbn in L3. lra. }
    destruct (sum_sq_min l 0 0 T) as [_ SM]. fold mt my in SM.
    pose proof (sum_sq_pos l (A_of l) (B_of l)) as SP. pose proof (devt_pos mt l) as TP.
    set (n := INR (length l)) in *. set (dy := devy my l) in *. set (dt := devt mt l) in *. set (dd := dev mt my l) in *.
    set (V := (1 - _ ^ 2) * _ / _ / _).
    assert (EV : V = sum_sq l (A_of l) (B_of l) / (n - 2) / dy).
    { unfold V. destruct (Req_EM_T (dy / n * (dt / n)) 0) as [Z|Z].
      - assert (Dt : dt = 0).
        { assert (Q : dy / n * (dt / n) = dy / (n * n) * dt) by (field; lra). rewrite Q in Z. apply Rmult_integral in Z. destruct Z as [Z|Z]; [|exact Z].
          assert (0 < dy / (n * n)) by (apply Rdiv_lt_0_compat; nra). lra. }
        assert (Q : 0 <= dd ^ 2 / dy) by (apply Rdiv_le_0_compat; [apply pow2_ge_0|lra]). rewrite Dt in *.
        assert (E0 : sum_sq l (A_of l) (B_of l) = 0) by lra. rewrite E0. field. lra.
      - assert (NT : dt <> 0). { intros Q. apply Z. rewrite Q. field. lra. }
        assert (PP : 0 <= dy / n * (dt / n)). { apply Rmult_le_pos; apply Rdiv_le_0_compat; lra. }
        replace ((dd / n / sqrt (dy / n * (dt / n))) ^ 2) with (dd ^ 2 / (dy * dt)).
        + rewrite SM. field. lra.
        + assert (SQ : sqrt (dy / n * (dt / n)) <> 0) by (intros Q; apply sqrt_eq_0 in Q; lra).
          transitivity (dd ^ 2 / n ^ 2 / (sqrt (dy / n * (dt / n)) * sqrt (dy / n * (dt / n)))); [|field; split; [lra|exact SQ]].
          rewrite sqrt_sqrt by exact PP. field. lra. }
    assert (VP : 0 <= V). { rewrite EV. apply Rdiv_le_0_compat; [apply Rdiv_le_0_compat; lra|lra]. }
    split.
    + rewrite pow2_sqrt by exact VP. exact EV.
    + rewrite Rpow_mult_distr. f_equal. apply pow2_sqrt. assert (0 <= dy / n) by (apply Rdiv_le_0_compat; lra). pose proof (pow2_ge_0 my). lra.
Qed.

(** ** permutations of the points *)
Lemma mean_perm l k : Permutation l k -> mean l = mean k.
Proof. intros P. unfold mean. rewrite (total_perm _ _ P), (Permutation_length P). reflexivity. Qed.
Lemma linregress_perm l k : Permutation l k -> linregress (map snd l) (map fst l) = linregress (map snd k) (map fst k).
Proof.
  intros P. assert (Py := Permutation_map snd P). assert (Pt := Permutation_map fst P).
  assert (L := Permutation_length P).
  assert (AS : all_same (map snd l) = all_same (map snd k)).
  { apply Bool.eq_true_iff_eq. rewrite !all_same_spec. split; intros H a b Ia Ib; apply H; (eapply Permutation_in; [|eassumption]); auto using Permutation_sym. }
  unfold linregress. rewrite AS, !cov_yt, !cov_yy, !cov_tt, !map_length, (mean_perm _ _ Py), (mean_perm _ _ Pt), L.
  unfold dev, devy, devt. rewrite !(total_perm _ _ (Permutation_map _ P)).
  destruct l as [|a l]; destruct k as [|b k]; cbn in L; try discriminate; reflexivity.
Qed.

(** ** selection *)
Lemma filter_len {A} (f : A -> bool) l : (length (filter f l) <= length l)%nat.
Proof. induction l as [|a l IH]; cbn; [lia|]. destruct (f a); cbn; lia. Qed.
Section Selection.
Variables theta ratio : list R.
Hypothesis Len : length theta = length ratio.
Let pt (i : nat) : R * R := (nth i theta 0, nth i ratio 0).
Let n := length ratio.

Lemma points_seq : combine theta ratio = map pt (seq 0 n).
Proof.
  apply (nth_ext _ _ (0, 0) (0, 0)).
  - rewrite combine_length, map_length, seq_length, Len. unfold n. lia.
  - intros i Hi. rewrite combine_length, Len, Nat.min_id in Hi. rewrite combine_nth by exact Len.
    rewrite (nth_indep _ _ (pt 0)) by (rewrite map_length, seq_length; exact Hi). rewrite map_nth, seq_nth by exact Hi. reflexivity.
Qed.
Lemma take_at_ok X ix : (forall i, In i ix -> (i < length X)%nat) -> take_at X ix = Ok (map (fun i => nth i X 0) ix).
Proof.
  induction ix as [|i ix IH]; intros H; cbn; [reflexivity|]. rewrite (nth_error_nth' X 0) by (apply H; left; reflexivity).
  rewrite IH by (intros; apply H; right; assumption). reflexivity.
Qed.

(** one side: [a] holds the distance from 1 on the side, NaN off it *)
Lemma one_side ap k (side : R * R -> bool) (a : list (option R)) :
  argpartition_spec ap -> length a = n -> (k < n)%nat ->
  (forall i, (i < n)%nat -> nth_error a i = Some (if side (pt i) then Some (Rabs (snd (pt i) - 1)) else None)) ->
  let sel := map pt (firstn k (ap a k)) in
  (forall i, In i (firstn k (ap a k)) -> (i < n)%nat) /\ length (firstn k (ap a k)) = k /\
  ((k <= length (filter side (combine theta ratio)))%nat -> closest k (filter side (combine theta ratio)) sel) /\
  ((length (filter side (combine theta ratio)) < k)%nat ->
     exists others, Permutation sel (filter side (combine theta ratio) ++ others) /\ forall p, In p others -> side p = false).
Proof.
  intros AP La K Ha sel. destruct (AP a k) as [P O]; [lia|]. rewrite La in P. set (p := ap a k) in *.
  assert (Lp : length p = n) by (rewrite (Permutation_length P), seq_length; reflexivity).
  assert (Lt : forall i, In i p -> (i < n)%nat). { intros i I. apply (Permutation_in _ P) in I. apply in_seq in I. lia. }
  assert (Lf : length (firstn k p) = k) by (apply firstn_length_le; lia).
  assert (FS : forall x, In x (firstn k p) -> In x p) by (intros x I; rewrite <- (firstn_skipn k p); apply in_app_iff; auto).
  assert (SS : forall x, In x (skipn k p) -> In x p) by (intros x I; rewrite <- (firstn_skipn k p); apply in_app_iff; auto).
  assert (ORD : forall x y, In x (firstn k p) -> In y (skipn k p) ->
     nan_le (if side (pt x) then Some (Rabs (snd (pt x) - 1)) else None) (if side (pt y) then Some (Rabs (snd (pt y) - 1)) else None)).
  { intros x y X Y. destruct (In_nth_error _ _ X) as (i & Hi). destruct (In_nth_error _ _ Y) as (j & Hj).
    assert (I : (i < k)%nat) by (rewrite <- Lf; apply nth_error_Some; congruence).
    assert (Hi' : nth_error p i = Some x). { rewrite <- Hi. rewrite <- (firstn_skipn k p) at 1. apply nth_error_app1. rewrite Lf. exact I. }
    assert (Hj' : nth_error p (k + j) = Some y). { rewrite <- Hj. rewrite <- (firstn_skipn k p) at 1. rewrite nth_error_app2 by (rewrite Lf; lia). f_equal. lia. }
    apply (O i (k + j)%nat x y); [lia|exact Hi'|exact Hj'|apply Ha, Lt, FS, X|apply Ha, Lt, SS, Y]. }
  assert (PF : Permutation (filter side (map pt (firstn k p)) ++ filter side (map pt (skipn k p))) (filter side (combine theta ratio))).
  { rewrite <- filter_app, <- map_app, firstn_skipn, points_seq. clear -P. 
    assert (G : Permutation (map pt p) (map pt (seq 0 n))) by (apply Permutation_map, P).
    revert G. generalize (map pt p) (map pt (seq 0 n)). intros u v G. clear -G. induction G; cbn; auto.
    - destruct (side x); auto.
    - destruct (side x), (side y); auto. apply perm_swap.
    - eapply perm_trans; eassumption. }
  split; [intros i I; apply Lt, FS, I|]. split; [exact Lf|]. split.
  - intros C. 
    assert (AllS : forall x, In x (firstn k p) -> side (pt x) = true).
    { intros x X. destruct (side (pt x)) eqn:Sx; [reflexivity|exfalso].
      assert (N : filter side (map pt (skipn k p)) = []).
      { assert (G : forall y, In y (skipn k p) -> side (pt y) = false).
        { intros y Y. specialize (ORD x y X Y). rewrite Sx in ORD. destruct (side (pt y)); [destruct ORD|reflexivity]. }
        revert G. generalize (skipn k p). intros m G. induction m as [|y m IH]; cbn; [reflexivity|]. rewrite (G y) by (left; reflexivity). apply IH. intros; apply G; right; assumption. }
      rewrite N, app_nil_r in PF. rewrite <- (Permutation_length PF) in C.
      assert (F : forall m, In x m -> (length (filter side (map pt m)) < length m)%nat).
      { induction m as [|y m IH]; cbn; [tauto|]. intros [->|I].
        - rewrite Sx. assert (H := filter_len side (map pt m)). rewrite map_length in H. lia.
        - specialize (IH I). destruct (side (pt y)); cbn; lia. }
      specialize (F _ X). lia. }
    split; [unfold sel; rewrite map_length; exact Lf|]. exists (filter side (map pt (skipn k p))). split.
    + assert (E : filter side (map pt (firstn k p)) = sel).
      { unfold sel. revert AllS. generalize (firstn k p). intros m G. induction m as [|y m IH]; cbn; [reflexivity|].
        rewrite (G y) by (left; reflexivity). f_equal. apply IH. intros; apply G; right; assumption. }
      rewrite E in PF. exact PF.
    + intros s r Is Ir. unfold sel in Is. apply in_map_iff in Is. destruct Is as (x & <- & X).
      apply filter_In in Ir. destruct Ir as [Ir Sr]. apply in_map_iff in Ir. destruct Ir as (y & <- & Y).
      specialize (ORD x y X Y). rewrite (AllS x X), Sr in ORD. exact ORD.
  - intros C. exists (filter (fun p => negb (side p)) sel).
    assert (N : filter side (map pt (skipn k p)) = []).
    { assert (Ex : exists x, In x (firstn k p) /\ side (pt x) = false).
      { destruct (forallb (fun x => side (pt x)) (firstn k p)) eqn:FB.
        - exfalso. rewrite forallb_forall in FB. assert (H := Permutation_length PF). rewrite app_length in H.
          assert (E : forall m, (forall x, In x m -> side (pt x) = true) -> length (filter side (map pt m)) = length m).
          { induction m as [|y m IH]; cbn; [reflexivity|]. intros G. rewrite (G y) by (left; reflexivity). cbn. f_equal. apply IH. intros; apply G; right; assumption. }
          rewrite (E _ FB) in H. lia.
        - assert (E : forall m, forallb (fun x => side (pt x)) m = false -> exists x, In x m /\ side (pt x) = false).
          { induction m as [|y m IH]; cbn; [discriminate|]. destruct (side (pt y)) eqn:Sy; [|intros _; exists y; auto].
            cbn. intros G. destruct (IH G) as (x & X & Sx). exists x. auto. }
          apply E, FB. }
      destruct Ex as (x & X & Sx). assert (G : forall y, In y (skipn k p) -> side (pt y) = false).
      { intros y Y. specialize (ORD x y X Y). rewrite Sx in ORD. destruct (side (pt y)); [destruct ORD|reflexivity]. }
      revert G. generalize (skipn k p). intros m G. induction m as [|y m IH]; cbn; [reflexivity|]. rewrite (G y) by (left; reflexivity). apply IH. intros; apply G; right; assumption. }
    rewrite N, app_nil_r in PF. split.
    + rewrite <- PF. fold sel. clear. induction sel as [|x m IH]; cbn; [constructor|]. destruct (side x); cbn; [constructor; exact IH|]. apply Permutation_cons_app, IH.
    + intros q Iq. apply filter_In in Iq. destruct Iq as [_ Iq]. destruct (side q); [discriminate|reflexivity].
Qed.
End Selection.
