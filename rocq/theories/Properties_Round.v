(** * Properties of the numerical integrator in binary64 arithmetic (C175-C178). *)
From Coq Require Import List ZArith Lia Reals Lra String Bool Permutation.
From Coquelicot Require Import Coquelicot.
From Flocq Require Import Core BinarySingleNaN.
From Verif Require Import Base Cmp_Model NumInt_Model NumInt_Spec NumInt_Proofs Round_Model Round_Spec Round_Proofs.
Import ListNotations.
Local Open Scope R_scope.
Notation finite x := (is_finite x = true).

(** C175: rounding errors of the three rules. Whatever the data, if the returned number is
    finite, it differs from the exact value of the rule by at most n + 1 (Simpson, with
    n = 2 k + 3 points: k + 5) relative roundings of the sum of the magnitudes of its
    terms, and a contribution of underflow. *)
Theorem C175_trapezoid_error :
  forall hist f v threads par r, (1 <= List.length f)%nat ->
  integrate DA hist "trapz" false f v threads par = Ok r -> finite r ->
  ErrorAtMost (List.length f + 1)
    (total (cell (val v) (val f)) (List.length f - 1))
    (tiny * total (fun i => width (val v) i + 1) (List.length f - 1))
    (B2R r) (trapezoid_sum (val v) (val f) (List.length f)).
Proof.
  intros hist f v th p r Hn E F. rewrite integrate_char in E. cbn [String.eqb Ascii.eqb Bool.eqb] in E. unfold trapz in E.
  destruct (Nat.le_gt_cases (List.length f) (List.length v)) as [H|H].
  - apply trapz_ne_error; [lia|exact E|exact F].
  - destruct (Nat.le_gt_cases (List.length f) 1) as [H1|H1].
    + assert (E1 : List.length f = 1%nat) by lia. rewrite (trapz_ne_ok DA f v B754_nan) in E by lia. rewrite E1 in E |- *. apply ok_inj in E. subst r.
      change (fold_left _ _ _) with (nofZ DA 0). destruct lit0 as (_ & ->). unfold ErrorAtMost. cbn [Nat.sub total trapezoid_sum]. rewrite Rminus_diag_eq, Rabs_R0, !Rmult_0_r by reflexivity. lra.
    + rewrite trapz_ne_ub in E by lia. discriminate E.
Qed.
Print Assumptions C175_trapezoid_error.

Theorem C175_uniform_trapezoid_error :
  forall hist method f v threads par r, (2 <= List.length f)%nat -> (2 <= List.length v)%nat ->
  method <> "simpson"%string \/ Nat.odd (List.length f) = false ->
  integrate DA hist method true f v threads par = Ok r -> finite r ->
  ErrorAtMost (List.length f + 1)
    (uniform_trapezoid_magnitude (val v 1 - val v 0) (val f) (List.length f))
    (tiny * (Rabs (val v 1 - val v 0) + 1))
    (B2R r) (uniform_trapezoid (val v 1 - val v 0) (val f) (List.length f)).
Proof.
  intros hist m f v th p r Hf Hv Hm E F. apply trapz_es_error; [exact Hf|exact Hv| |exact F].
  rewrite integrate_char in E. destruct (String.eqb_spec m "simpson") as [->|N]; [|exact E].
  destruct Hm as [Hm|Hm]; [congruence|]. rewrite simpson_even in E by exact Hm. exact E.
Qed.
Print Assumptions C175_uniform_trapezoid_error.

Theorem C175_simpson_error :
  forall hist f v threads par r k, List.length f = (2 * k + 3)%nat -> (2 <= List.length v)%nat ->
  integrate DA hist "simpson" true f v threads par = Ok r -> finite r ->
  ErrorAtMost (k + 5)
    (Rabs (val v 1 - val v 0) / 3 * simpson_sum_magnitude (val f) k)
    (tiny * (simpson_sum_magnitude (val f) k + 1))
    (B2R r) (composite_simpson (val v 1 - val v 0) (val f) k).
Proof.
  intros hist f v th p r k Hf Hv E F. rewrite integrate_char in E. cbn [String.eqb Ascii.eqb Bool.eqb] in E. apply simpson_error; assumption.
Qed.
Print Assumptions C175_simpson_error.

(** ... hence the distance to the integral of every function that interpolates the data
    and is affine in between *)
Lemma trapezoid_sum_ext x x' y y' n : (forall i, (i < n)%nat -> x i = x' i /\ y i = y' i) -> trapezoid_sum x y n = trapezoid_sum x' y' n.
Proof.
  intros H. destruct n as [|n]; [reflexivity|]. induction n as [|n IH]; [reflexivity|].
  change (trapezoid_sum x y (S n) + (x (S n) - x n) * (y n + y (S n)) / 2 = trapezoid_sum x' y' (S n) + (x' (S n) - x' n) * (y' n + y' (S n)) / 2).
  rewrite IH by (intros i Hi; apply H; lia). destruct (H n) as (-> & ->); [lia|]. destruct (H (S n)) as (-> & ->); [lia|]. reflexivity.
Qed.
Lemma pt_val l i : (i < List.length l)%nat -> pt (reals l) i = val l i.
Proof. apply pt_reals. Qed.
Theorem C175_distance_to_the_integral :
  forall hist f v threads par r g, (1 <= List.length f <= List.length v)%nat ->
  piecewise_affine_interpolant (val v) (val f) (List.length f) g ->
  integrate DA hist "trapz" false f v threads par = Ok r -> finite r ->
  ErrorAtMost (List.length f + 1)
    (total (cell (val v) (val f)) (List.length f - 1))
    (tiny * total (fun i => width (val v) i + 1) (List.length f - 1))
    (B2R r) (RInt g (val v 0) (val v (List.length f - 1))).
Proof.
  intros hist f v th p r g Hn Hg E F.
  assert (Hg' : piecewise_affine_interpolant (pt (reals v)) (pt (reals f)) (List.length (reals f)) g).
  { replace (List.length (reals f)) with (List.length f) by (unfold reals; rewrite map_length; reflexivity). destruct Hg as (H1 & H2). split.
    - intros i Hi. rewrite !pt_val by lia. apply H1, Hi.
    - intros i Hi. destruct (H2 i Hi) as (a & b & H). exists a, b. intros t. rewrite !pt_val by lia. apply H. }
  destruct (trapz_exact []  (reals f) (reals v) th p g) as (s & _ & Es & HI); [unfold reals; split; rewrite !map_length; apply Hn|exact Hg'|].
  assert (LR : List.length (reals f) = List.length f) by (unfold reals; apply map_length). rewrite LR in HI, Es. rewrite !pt_val in HI by lia.
  rewrite (is_RInt_unique (V := R_CompleteNormedModule) _ _ _ _ HI), Es.
  rewrite (trapezoid_sum_ext _ (val v) _ (val f)); [|intros i Hi; rewrite !pt_val by lia; auto].
  apply (C175_trapezoid_error hist f v th p r); [lia|exact E|exact F].
Qed.
Print Assumptions C175_distance_to_the_integral.

(** C176: the OpenMP variants. For every distribution of the loop over threads, with at
    most L iterations per thread, in every order, the same bounds hold with L + number of
    threads + 3 (Simpson: + 5) roundings; so two schedules differ by at most the sum of
    their bounds. *)
Theorem C176_parallel_trapezoid_error :
  forall parts L d f v, (2 <= List.length f)%nat -> (2 <= List.length v)%nat ->
  Permutation (List.concat parts) (iterations 1 (Z.of_nat (List.length f) - 1)) ->
  List.Forall (fun p => (List.length p <= L)%nat) parts ->
  let r := trapz_parallel_es DA parts d (Z.of_nat (List.length f)) f v in finite r ->
  ErrorAtMost (L + List.length parts + 3)
    (uniform_trapezoid_magnitude (val v 1 - val v 0) (val f) (List.length f))
    (tiny * (Rabs (val v 1 - val v 0) + 1))
    (B2R r) (uniform_trapezoid (val v 1 - val v 0) (val f) (List.length f)).
Proof. exact trapz_par_error. Qed.
Print Assumptions C176_parallel_trapezoid_error.

Theorem C176_parallel_simpson_error :
  forall parts L d f v k, List.length f = (2 * k + 3)%nat -> (2 <= List.length v)%nat ->
  Permutation (List.concat parts) (iterations 1 (Z.of_nat k + 1)) ->
  List.Forall (fun p => (List.length p <= L)%nat) parts ->
  let r := simpson_parallel_es DA parts d (Z.of_nat (List.length f)) f v in finite r ->
  ErrorAtMost (L + List.length parts + 5)
    (Rabs (val v 1 - val v 0) / 3 * simpson_sum_magnitude (val f) k)
    (tiny * (simpson_sum_magnitude (val f) k + 1))
    (B2R r) (composite_simpson (val v 1 - val v 0) (val f) k).
Proof. exact simpson_par_error. Qed.
Print Assumptions C176_parallel_simpson_error.

Theorem C176_schedules_agree_up_to_rounding :
  forall parts L parts' L' d d' f v, (2 <= List.length f)%nat -> (2 <= List.length v)%nat ->
  Permutation (List.concat parts) (iterations 1 (Z.of_nat (List.length f) - 1)) ->
  Permutation (List.concat parts') (iterations 1 (Z.of_nat (List.length f) - 1)) ->
  List.Forall (fun p => (List.length p <= L)%nat) parts -> List.Forall (fun p => (List.length p <= L')%nat) parts' ->
  let r := trapz_parallel_es DA parts d (Z.of_nat (List.length f)) f v in
  let r' := trapz_parallel_es DA parts' d' (Z.of_nat (List.length f)) f v in
  let K := Nat.max (L + List.length parts) (L' + List.length parts') in
  finite r -> finite r' ->
  Rabs (B2R r - B2R r') <=
    2 * (((1 + unit_roundoff) ^ (K + 3) - 1) * uniform_trapezoid_magnitude (val v 1 - val v 0) (val f) (List.length f)
         + (1 + unit_roundoff) ^ (K + 3) * (tiny * (Rabs (val v 1 - val v 0) + 1))).
Proof.
  intros parts L parts' L' d d' f v Hf Hv HP HP' HL HL' r r' K F F'.
  assert (A : forall p l e, Permutation (List.concat p) (iterations 1 (Z.of_nat (List.length f) - 1)) -> List.Forall (fun q => (List.length q <= l)%nat) p -> (l + List.length p <= K)%nat ->
    finite (trapz_parallel_es DA p e (Z.of_nat (List.length f)) f v) ->
    ErrorAtMost (K + 3) (uniform_trapezoid_magnitude (val v 1 - val v 0) (val f) (List.length f)) (tiny * (Rabs (val v 1 - val v 0) + 1))
      (B2R (trapz_parallel_es DA p e (Z.of_nat (List.length f)) f v)) (uniform_trapezoid (val v 1 - val v 0) (val f) (List.length f))).
  { intros p l e Hp Hl Hk Fp. apply (trapz_par_error p (K - List.length p) e f v Hf Hv Hp) in Fp.
    - replace (K - List.length p + List.length p + 3)%nat with (K + 3)%nat in Fp by lia. exact Fp.
    - eapply List.Forall_impl; [|exact Hl]. cbn. intros q Hq. lia. }
  pose proof (A parts L d HP HL ltac:(lia) F) as E1. pose proof (A parts' L' d' HP' HL' ltac:(lia) F') as E2. unfold ErrorAtMost in E1, E2.
  fold r in E1. fold r' in E2. revert E1 E2. generalize (uniform_trapezoid (val v 1 - val v 0) (val f) (List.length f)). intros e E1 E2.
  replace (B2R r - B2R r') with ((B2R r - e) + - (B2R r' - e)) by ring. eapply Rle_trans; [apply Rabs_triang|]. rewrite Rabs_Ropp. lra.
Qed.
Print Assumptions C176_schedules_agree_up_to_rounding.

(** C177: order. On a grid that does not decrease every rule is monotone in the
    integrand, rounding included; and integrals of non-negative integrands are not
    negative. *)
Theorem C177_monotone :
  forall hist hist' method es f g v threads par threads' par' r s,
  List.length f = List.length g -> (forall i, (i < List.length f)%nat -> val f i <= val g i) ->
  (forall i, (S i < List.length v)%nat -> val v i <= val v (S i)) ->
  integrate DA hist method es f v threads par = Ok r -> integrate DA hist' method es g v threads' par' = Ok s ->
  finite r -> finite s -> B2R r <= B2R s.
Proof. intros hist hist' m es f g v th p th' p' r s. apply integrate_mono. Qed.
Print Assumptions C177_monotone.
Theorem C177_nonnegative :
  forall hist method es f v threads par r,
  (forall i, (i < List.length f)%nat -> 0 <= val f i) ->
  (forall i, (S i < List.length v)%nat -> val v i <= val v (S i)) ->
  integrate DA hist method es f v threads par = Ok r -> finite r -> 0 <= B2R r.
Proof. exact integrate_nonneg. Qed.
Print Assumptions C177_nonnegative.

(** C178: on data that are multiples of powers of two, with sums below 2^53 units, both
    trapezoid rules make no rounding error at all. *)
Theorem C178_exact_trapezoid :
  forall hist f v (a b : nat -> Z) p q threads par r, (1 <= List.length f <= List.length v)%nat ->
  let n := List.length f in
  (forall i, (i < n)%nat -> val f i = IZR (a i) * powerRZ 2 p /\ val v i = IZR (b i) * powerRZ 2 q) ->
  (-1073 <= p)%Z -> (-1074 <= q)%Z -> (-1073 <= p + q)%Z ->
  (forall i, (S i < n)%nat -> (Z.abs (a i + a (S i)) <= 2 ^ 53)%Z /\ (Z.abs (b (S i) - b i) <= 2 ^ 53)%Z) ->
  (ztotal (fun i => Z.abs ((a i + a (S i)) * (b (S i) - b i))) (n - 1) <= 2 ^ 53)%Z ->
  integrate DA hist "trapz" false f v threads par = Ok r -> finite r ->
  B2R r = trapezoid_sum (val v) (val f) n.
Proof.
  intros hist f v a b p q th pr r Hn n Hv Hp Hq Hpq Hs Ht E F. rewrite integrate_char in E. cbn [String.eqb Ascii.eqb Bool.eqb] in E.
  apply (trapz_ne_exact f v a b p q r Hn); try assumption. intros i Hi. rewrite !(bpow_powerRZ radix2). apply (Hv i Hi).
Qed.
Print Assumptions C178_exact_trapezoid.
Theorem C178_exact_uniform_trapezoid :
  forall hist f v (a : nat -> Z) b0 b1 p q threads par r, (2 <= List.length f)%nat -> (2 <= List.length v)%nat ->
  let n := List.length f in
  (forall i, (i < n)%nat -> val f i = IZR (a i) * powerRZ 2 p) ->
  val v 0 = IZR b0 * powerRZ 2 q -> val v 1 = IZR b1 * powerRZ 2 q ->
  (-1073 <= p)%Z -> (-1074 <= q)%Z -> (-1073 <= p + q)%Z -> (Z.abs (b1 - b0) <= 2 ^ 53)%Z ->
  (Z.abs (a 0%nat + a (n - 1)%nat) + ztotal (fun i => 2 * Z.abs (a (S i))) (n - 2) <= 2 ^ 53)%Z ->
  (Z.abs ((a 0%nat + a (n - 1)%nat + ztotal (fun i => 2 * a (S i)) (n - 2)) * (b1 - b0)) <= 2 ^ 53)%Z ->
  integrate DA hist "trapz" true f v threads par = Ok r -> finite r ->
  B2R r = uniform_trapezoid (val v 1 - val v 0) (val f) n.
Proof.
  intros hist f v a b0 b1 p q th pr r Hf Hv n Va V0 V1 Hp Hq Hpq Hb Hs Ht E F. rewrite integrate_char in E. cbn [String.eqb Ascii.eqb Bool.eqb] in E.
  apply (trapz_es_exact f v a b0 b1 p q r Hf Hv); try assumption; try (intros i Hi); rewrite (bpow_powerRZ radix2); auto.
Qed.
Print Assumptions C178_exact_uniform_trapezoid.

(** Cases *)
Definition num (z : Z) : double := of_int z.
Definition f3 : list double := map num [1; 3; 9]%Z.
Definition v3 : list double := map num [0; 1; 4]%Z.
Lemma val_num l i : (i < List.length l)%nat -> List.Forall (fun z => (Z.abs z <= 2 ^ 53)%Z) l -> val (map num l) i = IZR (nth i l 0%Z).
Proof.
  intros Hi Hl. unfold val. rewrite (nth_indep _ B754_nan (num 0)) by (rewrite map_length; exact Hi). rewrite map_nth.
  rewrite Forall_forall in Hl. specialize (Hl (nth i l 0%Z) (nth_In l 0%Z Hi)). apply (lit_small (nth i l 0%Z)). lia.
Qed.
Definition the (x : res double) : double := match x with Ok r => r | _ => B754_nan end.
Lemma the_ok x : (exists r : double, x = Ok r) -> x = Ok (the x).
Proof. intros (r & ->). reflexivity. Qed.
Example C175_case : exists r, integrate DA [] "trapz" false f3 v3 1 false = Ok r /\ finite r.
Proof.
  exists (the (integrate DA [] "trapz" false f3 v3 1 false)). split; [|vm_compute; reflexivity].
  apply the_ok, (proj1 (integrate_safety DA [] "trapz" false f3 v3 1%Z false)). cbn. lia.
Qed.
(** a sum that is not exact: 0.1 is the nearest binary64 number to one tenth *)
Definition tenth : double := Bdiv mode_NE (num 1) (num 10).
Example C175_case_rounding : let f := [tenth; tenth; tenth; tenth] in exists r, integrate DA [] "trapz" true f v3 1 false = Ok r /\ finite r /\
  (let r' := trapz_parallel_es DA [[2]; [1]]%Z tenth 4 f v3 in finite r' /\ Beqb r' (Bdiv mode_NE (num 3) (num 10)) = false).
Proof.
  intros f. exists (the (integrate DA [] "trapz" true f v3 1 false)). split.
  - apply the_ok, (proj1 (integrate_safety DA [] "trapz" true f v3 1%Z false)). cbn. lia.
  - split; [vm_compute; reflexivity|]. cbv zeta. split; vm_compute; reflexivity.
Qed.
Example C176_case : Permutation (List.concat [[2]; [1]]%Z) (iterations 1 (Z.of_nat 4 - 1)) /\ List.Forall (fun p => (List.length p <= 1)%nat) [[2]; [1]]%Z.
Proof. split; [cbn; apply perm_swap|repeat constructor]. Qed.
Example C177_case : (forall i, (S i < List.length v3)%nat -> val v3 i <= val v3 (S i)) /\ (forall i, (i < List.length f3)%nat -> 0 <= val f3 i).
Proof.
  assert (B : List.Forall (fun z => (Z.abs z <= 2 ^ 53)%Z) [0; 1; 4]%Z /\ List.Forall (fun z => (Z.abs z <= 2 ^ 53)%Z) [1; 3; 9]%Z) by (split; repeat (constructor; [cbn; lia|]); constructor).
  destruct B as (B1 & B2). split; intros i Hi; cbn in Hi; unfold v3, f3; rewrite !val_num by (cbn; solve [lia|assumption]);
    destruct i as [|[|[|i]]]; try lia; cbn [nth]; lra.
Qed.
Example C178_case : exists r, integrate DA [] "trapz" false f3 v3 1 false = Ok r /\ finite r /\ B2R r = 20.
Proof.
  destruct C175_case as (r & E & F). exists r. split; [exact E|]. split; [exact F|].
  assert (B1 : List.Forall (fun z => (Z.abs z <= 2 ^ 53)%Z) [0; 1; 4]%Z) by (repeat (constructor; [cbn; lia|]); constructor).
  assert (B2 : List.Forall (fun z => (Z.abs z <= 2 ^ 53)%Z) [1; 3; 9]%Z) by (repeat (constructor; [cbn; lia|]); constructor).
  rewrite (C178_exact_trapezoid [] f3 v3 (fun i => nth i [1; 3; 9] 0)%Z (fun i => nth i [0; 1; 4] 0)%Z 0 0 1 false r); try exact E; try exact F; try lia.
  - change (List.length f3) with 3%nat. cbn [trapezoid_sum]. unfold v3, f3. rewrite !val_num by (cbn; solve [lia|assumption]). cbn [nth]. lra.
  - cbn. lia.
  - intros i Hi. unfold v3, f3. cbn in Hi. rewrite !val_num by (cbn; solve [lia|assumption]). cbn [powerRZ]. lra.
  - intros i Hi. cbn in Hi. destruct i as [|[|i]]; cbn; lia.
  - cbn. lia.
Qed.
