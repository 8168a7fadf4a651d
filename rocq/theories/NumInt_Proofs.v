(** * Proofs about the numerical integrator model. *)
From Coq Require Import List ZArith Lia Reals Lra String Bool Permutation.
From Coquelicot Require Import Coquelicot.
From Verif Require Import Base NumInt_Model NumInt_Spec.
Import ListNotations.
Local Open Scope Z_scope.
Local Open Scope res_scope.

Local Notation len l := (Z.of_nat (List.length l)).

(** ** Global table *)
Definition table_ok (t : table) : Prop :=
  tlookup t "trapz" = Some opt_trapz /\ tlookup t "simpson" = Some opt_simpson /\
  (forall k z, tlookup t k = Some z -> k <> "simpson"%string -> z = opt_trapz).

Lemma table0_ok : table_ok table0.
Proof.
  repeat split; try reflexivity.
  intros k z. unfold table0, tlookup.
  destruct (String.eqb_spec k "trapz"); [intros [= <-]; reflexivity|].
  destruct (String.eqb_spec k "simpson"); [intros _ H; contradiction|discriminate].
Qed.

Lemma tindex_ok t k : table_ok t -> table_ok (fst (tindex t k)).
Proof.
  intros (H1 & H2 & H3). unfold tindex. destruct (tlookup t k) eqn:E; cbn [fst].
  - repeat split; assumption.
  - repeat split; cbn [tlookup].
    + destruct (String.eqb_spec "trapz" k); [subst; congruence|assumption].
    + destruct (String.eqb_spec "simpson" k); [subst; congruence|assumption].
    + intros k' z. destruct (String.eqb_spec k' k); [intros [= <-] _; reflexivity|apply H3].
Qed.

Lemma after_ok {num} (A : arith num) cs : table_ok (after A cs).
Proof.
  unfold after. assert (G : forall t, table_ok t ->
    table_ok (fold_left (fun t c => let '(m, es, f, v, th, p) := c in
       fst (integrate_st A t m es f v th p)) cs t)).
  { induction cs as [|c cs IH]; intros t Ht; [exact Ht|].
    cbn [fold_left]. apply IH. destruct c as [[[[[m es] f] v] th] p].
    unfold integrate_st. pose proof (tindex_ok t m Ht) as G.
    destruct (tindex t m). exact G. }
  apply G. exact table0_ok.
Qed.

Lemma tindex_val t k : table_ok t ->
  snd (tindex t k) = if String.eqb k "simpson" then opt_simpson else opt_trapz.
Proof.
  intros (H1 & H2 & H3). unfold tindex.
  destruct (String.eqb_spec k "simpson") as [->|Hk].
  - rewrite H2. reflexivity.
  - destruct (tlookup t k) eqn:E; cbn [snd]; [apply (H3 k z E Hk)|reflexivity].
Qed.

Lemma integrate_char {num} (A : arith num) hist m es f v th p :
  integrate A hist m es f v th p =
  if String.eqb m "simpson" then simpson A es (len f) f v else trapz A es (len f) f v.
Proof.
  unfold integrate, integrate_st. pose proof (tindex_val (after A hist) m (after_ok A hist)) as E.
  destruct (tindex (after A hist) m) as [t' sw]. cbn [snd] in *. subst sw.
  unfold dispatch. destruct (String.eqb m "simpson"); reflexivity.
Qed.

(** ** Safety *)
Lemma trapz_es_ok {num} (A : arith num) f v d :
  (1 <= List.length f)%nat -> (2 <= List.length v)%nat ->
  trapz_es A (len f) f v =
  Ok (nmul A (fold_left (fun s j => nadd A s (nth (Z.to_nat j) f d))
        (map (fun k => 1 + Z.of_nat k) (seq 0 (List.length f - 2)))
        (ndiv A (nadd A (nth 0 f d) (nth (List.length f - 1) f d)) (nofZ A 2)))
      (nsub A (nth 1 v d) (nth 0 v d))).
Proof.
  intros Hf Hv. unfold trapz_es.
  rewrite (rd_ok v 1 d), (rd_ok v 0 d), (rd_ok f 0 d), (rd_ok f _ d) by lia. cbn [bind].
  rewrite (for_fold 1 _ _ (fun j s => nadd A s (nth (Z.to_nat j) f d))).
  2:{ intros j s Hj. rewrite (rd_ok f j d) by lia. reflexivity. }
  cbn [bind]. replace (Z.to_nat (len f - 1 - 1)) with (List.length f - 2)%nat by lia.
  replace (Z.to_nat (len f - 1)) with (List.length f - 1)%nat by lia.
  reflexivity.
Qed.

Lemma trapz_ne_ok {num} (A : arith num) f v d :
  (List.length f <= 1 \/ List.length f <= List.length v)%nat ->
  trapz_ne A (len f) f v =
  Ok (fold_left (fun s j => nadd A s (nmul A
        (ndiv A (nadd A (nth (Z.to_nat j) f d) (nth (Z.to_nat (j - 1)) f d)) (nofZ A 2))
        (nsub A (nth (Z.to_nat j) v d) (nth (Z.to_nat (j - 1)) v d))))
      (map (fun k => 1 + Z.of_nat k) (seq 0 (List.length f - 1))) (nofZ A 0)).
Proof.
  intros H. unfold trapz_ne.
  rewrite (for_fold 1 _ _ (fun j s => nadd A s (nmul A
        (ndiv A (nadd A (nth (Z.to_nat j) f d) (nth (Z.to_nat (j - 1)) f d)) (nofZ A 2))
        (nsub A (nth (Z.to_nat j) v d) (nth (Z.to_nat (j - 1)) v d))))).
  2:{ intros j s Hj. rewrite (rd_ok v j d), (rd_ok v (j-1) d), (rd_ok f j d), (rd_ok f (j-1) d) by lia.
      reflexivity. }
  replace (Z.to_nat (len f - 1)) with (List.length f - 1)%nat by lia. reflexivity.
Qed.

Lemma simpson_odd_ok {num} (A : arith num) f v d k :
  List.length f = (2 * k + 3)%nat -> (2 <= List.length v)%nat ->
  simpson A true (len f) f v =
  Ok (nmul A (ndiv A (nsub A (nth 1 v d) (nth 0 v d)) (nofZ A 3))
     (nadd A (fold_left (fun s j => nadd A s
          (nadd A (nmul A (nofZ A 4) (nth (Z.to_nat (2 * j - 1)) f d))
                  (nmul A (nofZ A 2) (nth (Z.to_nat (2 * j)) f d))))
        (map (fun k => 1 + Z.of_nat k) (seq 0 k))
        (nadd A (nth 0 f d) (nth (2 * k + 2) f d)))
       (nmul A (nofZ A 4) (nth (2 * k + 1) f d)))).
Proof.
  intros Hf Hv. unfold simpson. rewrite Hf.
  replace (Z.of_nat (2 * k + 3) - 1) with (2 * (Z.of_nat k + 1)) by lia.
  rewrite Z.mul_comm, Z.rem_mul by lia. cbn [negb Z.eqb].
  rewrite (rd_ok v 1 d), (rd_ok v 0 d), (rd_ok f 0 d), (rd_ok f _ d) by lia. cbn [bind].
  replace (Z.of_nat (2 * k + 3) ÷ 2) with (Z.of_nat k + 1).
  2:{ rewrite Z.quot_div_nonneg by lia.
      replace (Z.of_nat (2 * k + 3)) with (1 + (Z.of_nat k + 1) * 2) by lia.
      rewrite Z.div_add by lia. reflexivity. }
  rewrite (for_fold 1 _ _ (fun j s => nadd A s
          (nadd A (nmul A (nofZ A 4) (nth (Z.to_nat (2 * j - 1)) f d))
                  (nmul A (nofZ A 2) (nth (Z.to_nat (2 * j)) f d))))).
  2:{ intros j s Hj. rewrite (rd_ok f (2*j-1) d), (rd_ok f (2*j) d) by lia. reflexivity. }
  cbn [bind]. rewrite (rd_ok f _ d) by lia. cbn [bind].
  replace (Z.to_nat (Z.of_nat k + 1 - 1)) with k by lia.
  replace (Z.to_nat ((Z.of_nat k + 1) * 2)) with (2 * k + 2)%nat by lia.
  replace (Z.to_nat ((Z.of_nat k + 1) * 2 - 1)) with (2 * k + 1)%nat by lia.
  reflexivity.
Qed.

Lemma bind_ub {X Y} (x : res X) (k : X -> res Y) : x = UB -> bind x k = UB.
Proof. intros ->. reflexivity. Qed.

Ltac rd_case l i :=
  let a := fresh "a" in let E := fresh "E" in
  destruct (rd l i) as [a| |e] eqn:E; cbn [bind];
  [|reflexivity|exfalso; exact (rd_not_exc l i e E)].

Lemma trapz_es_ub {num} (A : arith num) f v :
  ~ (1 <= List.length f /\ 2 <= List.length v)%nat -> trapz_es A (len f) f v = UB.
Proof.
  intros H. unfold trapz_es.
  destruct (le_lt_dec 2 (List.length v)) as [Hv|Hv]; [|rewrite (rd_ub v 1) by lia; reflexivity].
  rd_case v 1. rd_case v 0. rewrite (rd_ub f 0) by lia. reflexivity.
Qed.

Lemma trapz_ne_ub {num} (A : arith num) f v :
  (1 < List.length f)%nat -> (List.length v < List.length f)%nat -> trapz_ne A (len f) f v = UB.
Proof.
  intros H1 H2. unfold trapz_ne. apply (for_ub 1 _ (len f - 1)); [lia| |].
  - intros s. rewrite rd_ub by lia. reflexivity.
  - intros j s e. 
    destruct (rd v j) eqn:E1; cbn [bind]; [|discriminate|exfalso; eapply rd_not_exc; eassumption].
    destruct (rd v (j-1)) eqn:E2; cbn [bind]; [|discriminate|exfalso; eapply rd_not_exc; eassumption].
    destruct (rd f j) eqn:E3; cbn [bind]; [|discriminate|exfalso; eapply rd_not_exc; eassumption].
    destruct (rd f (j-1)) eqn:E4; cbn [bind]; [discriminate|discriminate|exfalso; eapply rd_not_exc; eassumption].
Qed.

Lemma nat_odd_form n : Nat.odd n = true -> exists k, n = (2 * k + 1)%nat.
Proof. intros H. apply Nat.odd_spec in H. exact H. Qed.

Lemma rem_even n : Nat.odd n = false -> negb (Z.rem (Z.of_nat n - 1) 2 =? 0) = true.
Proof.
  intros H. rewrite <- Nat.negb_even in H. apply negb_false_iff in H.
  apply Nat.even_spec in H. destruct H as [k ->].
  destruct (Z.eqb_spec (Z.rem (Z.of_nat (2 * k) - 1) 2) 0) as [E|]; [|reflexivity].
  pose proof (Z.quot_rem' (Z.of_nat (2 * k) - 1) 2). lia.
Qed.

Lemma simpson_even {num} (A : arith num) es f v : Nat.odd (List.length f) = false ->
  simpson A es (len f) f v = trapz A es (len f) f v.
Proof. intros H. unfold simpson. destruct es; [|reflexivity]. rewrite rem_even by exact H. reflexivity. Qed.

Lemma simpson_ne {num} (A : arith num) n f v : simpson A false n f v = trapz A false n f v.
Proof. reflexivity. Qed.

Lemma simpson_ub {num} (A : arith num) f v : Nat.odd (List.length f) = true ->
  ~ (3 <= List.length f /\ 2 <= List.length v)%nat -> simpson A true (len f) f v = UB.
Proof.
  intros Ho H. apply nat_odd_form in Ho. destruct Ho as [k Hk].
  unfold simpson. rewrite Hk.
  replace (Z.of_nat (2 * k + 1) - 1) with (Z.of_nat k * 2) by lia.
  rewrite Z.rem_mul by lia. cbn [negb Z.eqb].
  destruct (le_lt_dec 2 (List.length v)) as [Hv|Hv]; [|rewrite (rd_ub v 1) by lia; reflexivity].
  assert (k = 0)%nat by lia. subst k.
  rd_case v 1. rd_case v 0. rd_case f 0. rd_case f (Z.of_nat 0 * 2).
  rewrite for_empty by (cbn; lia). cbn [bind]. rewrite rd_ub by lia. reflexivity.
Qed.

Lemma head_default {X} (l : list X) : (1 <= List.length l)%nat -> exists d : X, True.
Proof. destruct l; simpl; [lia|eauto]. Qed.

Lemma integrate_safe {num} (A : arith num) hist m es f v th p :
  in_bounds (String.eqb m "simpson") es (List.length f) (List.length v) ->
  exists r, integrate A hist m es f v th p = Ok r.
Proof.
  rewrite integrate_char. unfold in_bounds. intros H.
  pose (d := nofZ A 0).
  destruct es.
  - destruct (String.eqb m "simpson"); cbn [andb] in H.
    + destruct (Nat.odd (List.length f)) eqn:Ho.
      * destruct (nat_odd_form _ Ho) as [k Hk].
        eexists. apply (simpson_odd_ok A f v d (k - 1)); lia.
      * rewrite simpson_even by exact Ho. eexists. apply (trapz_es_ok A f v d); lia.
    + eexists. apply (trapz_es_ok A f v d); lia.
  - assert (G : exists r, trapz A false (len f) f v = Ok r).
    { eexists. apply (trapz_ne_ok A f v d). lia. }
    destruct (String.eqb m "simpson"); [rewrite simpson_ne|]; exact G.
Qed.

Lemma integrate_unsafe {num} (A : arith num) hist m es f v th p :
  ~ in_bounds (String.eqb m "simpson") es (List.length f) (List.length v) ->
  integrate A hist m es f v th p = UB.
Proof.
  rewrite integrate_char. unfold in_bounds. intros H. destruct es.
  - destruct (String.eqb m "simpson"); cbn [andb] in H.
    + destruct (Nat.odd (List.length f)) eqn:Ho.
      * apply simpson_ub; [exact Ho|lia].
      * rewrite simpson_even by exact Ho. apply trapz_es_ub. lia.
    + apply trapz_es_ub. lia.
  - assert (G : trapz A false (len f) f v = UB).
    { apply trapz_ne_ub; lia. }
    destruct (String.eqb m "simpson"); [rewrite simpson_ne|]; exact G.
Qed.

Lemma integrate_safety {num} (A : arith num) hist m es f v th p :
  (in_bounds (String.eqb m "simpson") es (List.length f) (List.length v) ->
     exists r, integrate A hist m es f v th p = Ok r) /\
  (~ in_bounds (String.eqb m "simpson") es (List.length f) (List.length v) ->
     integrate A hist m es f v th p = UB).
Proof. split; [apply integrate_safe|apply integrate_unsafe]. Qed.

(** ** Exact arithmetic *)
Local Open Scope R_scope.

Fixpoint Rsum (g : nat -> R) (n : nat) : R :=
  match n with O => 0 | S k => Rsum g k + g k end.

Lemma Rsum_ext g h n : (forall i, (i < n)%nat -> g i = h i) -> Rsum g n = Rsum h n.
Proof. induction n; intros H; simpl; [reflexivity|]. rewrite IHn, H; auto. Qed.
Lemma Rsum_plus g h n : Rsum (fun i => g i + h i) n = Rsum g n + Rsum h n.
Proof. induction n; simpl; [lra|]. rewrite IHn. lra. Qed.
Lemma Rsum_scal c g n : Rsum (fun i => c * g i) n = c * Rsum g n.
Proof. induction n; simpl; [lra|]. rewrite IHn. lra. Qed.
Lemma Rsum_const c n : Rsum (fun _ => c) n = INR n * c.
Proof. induction n; [simpl; lra|]. rewrite S_INR. simpl Rsum. rewrite IHn. lra. Qed.
Lemma Rsum_shift g n : Rsum g (S n) = g O + Rsum (fun i => g (S i)) n.
Proof. induction n; [simpl; lra|]. change (Rsum g (S (S n))) with (Rsum g (S n) + g (S n)).
  rewrite IHn. simpl. lra. Qed.
Lemma Rsum_le g h n : (forall i, (i < n)%nat -> g i <= h i) -> Rsum g n <= Rsum h n.
Proof. induction n; intros H; simpl; [lra|]. assert (g n <= h n) by auto. assert (Rsum g n <= Rsum h n) by auto. lra. Qed.

Lemma fold_Rsum (t : Z -> R) n s :
  fold_left (fun s j => s + t j) (map (fun k => (1 + Z.of_nat k)%Z) (seq 0 n)) s
  = s + Rsum (fun i => t (Z.of_nat (S i))) n.
Proof.
  induction n; [simpl; lra|].
  rewrite seq_S, map_app, fold_left_app, IHn. cbn [map fold_left Rsum Nat.add].
  replace (1 + Z.of_nat n)%Z with (Z.of_nat (S n)) by lia. lra.
Qed.

Lemma nofZ_RA z : nofZ RA z = IZR z.
Proof. unfold nofZ. simpl. lra. Qed.

Lemma trapz_ne_R f v :
  (List.length f <= 1 \/ List.length f <= List.length v)%nat ->
  trapz_ne RA (len f) f v =
  Ok (Rsum (fun i => (pt f (S i) + pt f i) / 2 * (pt v (S i) - pt v i)) (List.length f - 1)).
Proof.
  intros H. rewrite (trapz_ne_ok RA f v 0 H). f_equal. rewrite !nofZ_RA. cbn [nadd nmul nsub ndiv RA].
  etransitivity; [apply (fold_Rsum (fun j => (nth (Z.to_nat j) f 0 + nth (Z.to_nat (j - 1)) f 0) / 2 *
     (nth (Z.to_nat j) v 0 - nth (Z.to_nat (j - 1)) v 0)))|].
  rewrite Rplus_0_l. apply Rsum_ext. intros i _. unfold pt.
  replace (Z.to_nat (Z.of_nat (S i))) with (S i) by lia.
  replace (Z.to_nat (Z.of_nat (S i) - 1)) with i by lia. reflexivity.
Qed.

Lemma trapezoid_sum_Rsum x y n :
  trapezoid_sum x y n = Rsum (fun i => (y (S i) + y i) / 2 * (x (S i) - x i)) (n - 1).
Proof.
  destruct n as [|n]; [reflexivity|]. replace (S n - 1)%nat with n by lia.
  induction n as [|n IH]; [reflexivity|].
  change (trapezoid_sum x y (S (S n))) with
    (trapezoid_sum x y (S n) + (x (S n) - x n) * (y n + y (S n)) / 2).
  rewrite IH. cbn [Rsum]. lra.
Qed.

Lemma trapz_es_R f v :
  (2 <= List.length f)%nat -> (2 <= List.length v)%nat ->
  trapz_es RA (len f) f v =
  Ok (Rsum (fun i => (pt f (S i) + pt f i) / 2 * (pt v 1 - pt v 0)) (List.length f - 1)).
Proof.
  intros Hf Hv. rewrite (trapz_es_ok RA f v 0) by lia. f_equal.
  rewrite !nofZ_RA. cbn [nadd nmul nsub ndiv RA].
  rewrite (fold_Rsum (fun j => nth (Z.to_nat j) f 0)).
  rewrite (Rsum_ext (fun i => nth (Z.to_nat (Z.of_nat (S i))) f 0) (fun i => pt f (S i))).
  2:{ intros i _. unfold pt. f_equal. lia. }
  change (nth 0 f 0) with (pt f 0). change (nth (List.length f - 1) f 0) with (pt f (List.length f - 1)).
  change (nth 1 v 0) with (pt v 1). change (nth 0 v 0) with (pt v 0).
 set (n := List.length f) in *. clearbody n.
  destruct n as [|[|n]]; try lia.
  replace (S (S n) - 2)%nat with n by lia. replace (S (S n) - 1)%nat with (S n) by lia.
  rewrite (Rsum_ext (fun i => (pt f (S i) + pt f i) / 2 * (pt v 1 - pt v 0))
             (fun i => (pt v 1 - pt v 0) * ((pt f (S i) + pt f i) / 2))) by (intros; ring).
  rewrite Rsum_scal, Rmult_comm. f_equal.
  clear Hf Hv. induction n as [|n IH]; [cbn [Rsum]; lra|].
  cbn [Rsum] in *. lra.
Qed.

Definition simpson_panels (f : list R) (h : R) (k : nat) : R :=
  Rsum (fun i => h / 3 * (pt f (2 * i) + 4 * pt f (2 * i + 1) + pt f (2 * i + 2))) (S k).

Lemma simpson_R f v k :
  List.length f = (2 * k + 3)%nat -> (2 <= List.length v)%nat ->
  simpson RA true (len f) f v = Ok (simpson_panels f (pt v 1 - pt v 0) k).
Proof.
  intros Hf Hv. rewrite (simpson_odd_ok RA f v 0 k Hf Hv). f_equal.
  rewrite !nofZ_RA. cbn [nadd nmul nsub ndiv RA].
  rewrite (fold_Rsum (fun j => 4 * nth (Z.to_nat (2 * j - 1)) f 0 + 2 * nth (Z.to_nat (2 * j)) f 0)).
  rewrite (Rsum_ext _ (fun i => 4 * pt f (2 * i + 1) + 2 * pt f (2 * i + 2))).
  2:{ intros i _. unfold pt. f_equal; f_equal; f_equal; lia. }
  change (nth 1 v 0) with (pt v 1). change (nth 0 v 0) with (pt v 0).
  change (nth 0 f 0) with (pt f 0).
  change (nth (2 * k + 2) f 0) with (pt f (2 * k + 2)).
  change (nth (2 * k + 1) f 0) with (pt f (2 * k + 1)).
  generalize (pt v 1 - pt v 0); intros h. unfold simpson_panels. rewrite Rsum_scal. f_equal.
  clear Hf Hv. induction k as [|k IH].
  - cbn [Rsum Nat.mul Nat.add]. lra.
  - cbn [Rsum] in *. replace (2 * S k)%nat with (2 * k + 2)%nat in * by lia.
    replace (2 * k + 2 + 1)%nat with (2 * k + 3)%nat in * by lia.
    lra.
Qed.

(** *** C02 *)
Lemma trapz_composite hist f v th p :
  (List.length f <= List.length v)%nat ->
  integrate RA hist "trapz" false f v th p = Ok (trapezoid_sum (pt v) (pt f) (List.length f)).
Proof.
  intros H. rewrite integrate_char. cbn [String.eqb Ascii.eqb Bool.eqb].
  unfold trapz. rewrite trapz_ne_R by lia. f_equal. symmetry. apply trapezoid_sum_Rsum.
Qed.

Lemma is_RInt_affine a b x y :
  is_RInt (fun t => a + b * t) x y ((y - x) * ((a + b * x) + (a + b * y)) / 2).
Proof.
  replace ((y - x) * (a + b * x + (a + b * y)) / 2)
     with (minus (a * y + b * y ^ 2 / 2) (a * x + b * x ^ 2 / 2)).
  2:{ unfold minus, plus, opp; simpl. field. }
  apply (is_RInt_derive (fun t => a * t + b * t ^ 2 / 2) (fun t => a + b * t)).
  - intros t _. auto_derive; [trivial|field].
  - intros t _. apply (continuous_plus (V := R_NormedModule)); [apply continuous_const|].
    apply (continuous_mult (K := R_AbsRing)); [apply continuous_const|apply continuous_id].
Qed.

Lemma trapz_interpolant x y n g :
  (1 <= n)%nat -> piecewise_affine_interpolant x y n g ->
  is_RInt g (x O) (x (n - 1)%nat) (trapezoid_sum x y n).
Proof.
  intros Hn (Hv & Ha). destruct n as [|n]; [lia|]. replace (S n - 1)%nat with n by lia. clear Hn.
  induction n as [|n IH].
  - simpl. apply (is_RInt_point g (x O)).
  - change (trapezoid_sum x y (S (S n))) with
      (trapezoid_sum x y (S n) + (x (S n) - x n) * (y n + y (S n)) / 2).
    apply (is_RInt_Chasles (V := R_NormedModule) g (x O) (x n) (x (S n))).
    + apply IH; intros; [apply Hv|apply Ha]; lia.
    + destruct (Ha n ltac:(lia)) as (a & b & Hab).
      apply is_RInt_ext with (f := fun t => a + b * t).
      * intros t Ht. symmetry. apply Hab. unfold between. lra.
      * assert (E1 : y n = a + b * x n).
        { rewrite <- Hv by lia. apply Hab. unfold between. split; [apply Rmin_l|apply Rmax_l]. }
        assert (E2 : y (S n) = a + b * x (S n)).
        { rewrite <- Hv by lia. apply Hab. unfold between. split; [apply Rmin_r|apply Rmax_r]. }
        rewrite E1, E2. apply is_RInt_affine.
Qed.

Lemma trapz_exact hist f v th p g :
  (1 <= List.length f <= List.length v)%nat ->
  piecewise_affine_interpolant (pt v) (pt f) (List.length f) g ->
  exists r, integrate RA hist "trapz" false f v th p = Ok r /\
    r = trapezoid_sum (pt v) (pt f) (List.length f) /\
    is_RInt g (pt v 0) (pt v (List.length f - 1)) r.
Proof.
  intros H Hg. eexists. split; [apply trapz_composite; lia|]. split; [reflexivity|].
  apply trapz_interpolant; [lia|exact Hg].
Qed.

(** *** C03 *)
Lemma uniform_length a h n : List.length (uniform a h n) = n.
Proof. unfold uniform. rewrite map_length, seq_length. reflexivity. Qed.
Lemma uniform_pt a h n i : (i < n)%nat -> pt (uniform a h n) i = a + INR i * h.
Proof.
  intros H. unfold pt, uniform.
  rewrite (nth_indep _ 0 (a + INR 0 * h)) by (rewrite map_length, seq_length; exact H).
  rewrite (map_nth (fun i => a + INR i * h)). rewrite seq_nth by exact H. reflexivity.
Qed.

Lemma trapz_uniform_agree hist hist' f a h th p th' p' :
  (2 <= List.length f)%nat ->
  integrate RA hist "trapz" true f (uniform a h (List.length f)) th p =
  integrate RA hist' "trapz" false f (uniform a h (List.length f)) th' p'.
Proof.
  intros H. rewrite !integrate_char. cbn [String.eqb Ascii.eqb Bool.eqb]. unfold trapz.
  rewrite trapz_es_R by (rewrite ?uniform_length; lia).
  rewrite trapz_ne_R by (rewrite ?uniform_length; lia).
  f_equal. apply Rsum_ext. intros i Hi.
  rewrite !uniform_pt by lia. rewrite !S_INR. simpl (INR 0). field.
Qed.

(** *** C04 *)
Definition cubic_prim (c0 c1 c2 c3 t : R) := c0 * t + c1 * t ^ 2 / 2 + c2 * t ^ 3 / 3 + c3 * t ^ 4 / 4.

Lemma is_RInt_cubic c0 c1 c2 c3 x y :
  is_RInt (cubic c0 c1 c2 c3) x y (cubic_prim c0 c1 c2 c3 y - cubic_prim c0 c1 c2 c3 x).
Proof.
  apply (is_RInt_derive (cubic_prim c0 c1 c2 c3) (cubic c0 c1 c2 c3)).
  - intros t _. unfold cubic_prim, cubic. auto_derive; [trivial|field].
  - intros t _. apply continuity_pt_filterlim. unfold cubic. reg.
Qed.

Lemma sample_pt g x i : (i < List.length x)%nat -> pt (sample g x) i = g (pt x i).
Proof.
  intros H. unfold pt, sample. rewrite (nth_indep _ 0 (g 0)) by (rewrite map_length; exact H).
  apply map_nth.
Qed.

Lemma simpson_cubic_exact hist c0 c1 c2 c3 a h n th p :
  (3 <= n)%nat -> Nat.odd n = true ->
  exists r, integrate RA hist "simpson" true (sample (cubic c0 c1 c2 c3) (uniform a h n))
              (uniform a h n) th p = Ok r /\
    is_RInt (cubic c0 c1 c2 c3) a (a + INR (n - 1) * h) r.
Proof.
  intros Hn Ho. rewrite integrate_char. cbn [String.eqb Ascii.eqb Bool.eqb].
  assert (Hex : exists k, n = (2 * k + 3)%nat).
  { destruct (nat_odd_form _ Ho) as [k' Hk']. exists (k' - 1)%nat. lia. }
  destruct Hex as [k Hk].
  eexists. split.
  - apply (simpson_R _ _ k).
    + unfold sample. rewrite map_length, uniform_length. exact Hk.
    + rewrite uniform_length. lia.
  - replace (simpson_panels _ _ _) with
      (cubic_prim c0 c1 c2 c3 (a + INR (n - 1) * h) - cubic_prim c0 c1 c2 c3 a).
    { apply is_RInt_cubic. }
    unfold simpson_panels. rewrite !(uniform_pt a h n) by lia.
    rewrite (Rsum_ext _ (fun i => cubic_prim c0 c1 c2 c3 (a + INR (2 * i + 2) * h)
                 - cubic_prim c0 c1 c2 c3 (a + INR (2 * i) * h))).
    2:{ intros i Hi. rewrite !sample_pt by (rewrite uniform_length; lia).
        rewrite !uniform_pt by lia. rewrite !plus_INR, !mult_INR.
        unfold cubic, cubic_prim. simpl INR. field. }
    subst n. replace (2 * k + 3 - 1)%nat with (2 * k + 2)%nat by lia.
    clear. induction k as [|k IH].
    + cbn [Rsum]. simpl INR. unfold cubic_prim. field.
    + cbn [Rsum] in *. replace (2 * S k)%nat with (2 * k + 2)%nat by lia.
      rewrite <- IH. lra.
Qed.

(** *** C05, C06, C08 *)
Lemma simpson_fallback {num} (A : arith num) hist hist' es f v th p th' p' :
  es = false \/ Nat.odd (List.length f) = false ->
  integrate A hist "simpson" es f v th p = integrate A hist' "trapz" es f v th' p'.
Proof.
  intros H. rewrite !integrate_char. cbn [String.eqb Ascii.eqb Bool.eqb].
  destruct H as [->|H]; [apply simpson_ne|apply simpson_even; exact H].
Qed.

Lemma threads_irrelevant {num} (A : arith num) hist m es f v th p th' p' :
  integrate A hist m es f v th p = integrate A hist m es f v th' p'.
Proof. rewrite !integrate_char. reflexivity. Qed.

Lemma unknown_method {num} (A : arith num) hist m es f v th p :
  m <> "simpson"%string ->
  integrate A hist m es f v th p = integrate A [] "trapz" es f v th p /\
  integrate A hist "simpson" es f v th p = integrate A [] "simpson" es f v th p.
Proof.
  intros H. rewrite !integrate_char. cbn [String.eqb Ascii.eqb Bool.eqb].
  destruct (String.eqb_spec m "simpson"); [contradiction|]. split; reflexivity.
Qed.

(** *** C07 *)
Definition lsum (t : Z -> R) (l : list Z) : R := fold_right (fun i s => t i + s) 0 l.
Lemma lsum_app t l1 l2 : lsum t (l1 ++ l2) = lsum t l1 + lsum t l2.
Proof. induction l1; simpl; [lra|]. unfold lsum in *. simpl. lra. Qed.
Lemma lsum_perm t l1 l2 : Permutation l1 l2 -> lsum t l1 = lsum t l2.
Proof. induction 1; simpl in *; unfold lsum in *; simpl; lra. Qed.
Lemma fold_lsum t l s : fold_left (fun s i => s + t i) l s = s + lsum t l.
Proof. revert s; induction l; intros s; simpl; [lra|]. rewrite IHl. unfold lsum. simpl. lra. Qed.

Lemma reduce_sched_R init t parts :
  reduce_sched RA init t parts = init + lsum t (List.concat parts).
Proof.
  unfold reduce_sched. cbn [RA nadd num]. revert init.
  induction parts as [|p ps IH]; intros init; [simpl; unfold lsum; simpl; lra|].
  cbn [fold_left List.concat]. rewrite IH. rewrite fold_lsum. rewrite lsum_app. rewrite nofZ_RA. simpl. lra.
Qed.


Lemma trapz_parallel_any_schedule parts f v :
  (1 <= List.length f)%nat -> (2 <= List.length v)%nat ->
  Permutation (List.concat parts) (iterations 1 (len f - 1)) ->
  trapz RA true (len f) f v = Ok (trapz_parallel_es RA parts 0 (len f) f v).
Proof.
  intros Hf Hv HP. unfold trapz. rewrite (trapz_es_ok RA f v 0) by assumption.
  f_equal. unfold trapz_parallel_es.
  rewrite reduce_sched_R. rewrite (lsum_perm _ _ _ HP).
  cbn [RA nadd nmul nsub ndiv]. rewrite fold_lsum.
  unfold iterations. replace (Z.to_nat (len f - 1 - 1)) with (List.length f - 2)%nat by lia.
  change (Z.to_nat 1) with 1%nat. change (Z.to_nat 0) with 0%nat.
  replace (Z.to_nat (len f - 1)) with (List.length f - 1)%nat by lia. reflexivity.
Qed.

Lemma simpson_parallel_any_schedule parts f v k :
  List.length f = (2 * k + 3)%nat -> (2 <= List.length v)%nat ->
  Permutation (List.concat parts) (iterations 1 (Z.of_nat k + 1)) ->
  simpson RA true (len f) f v = Ok (simpson_parallel_es RA parts 0 (len f) f v).
Proof.
  intros Hf Hv HP. rewrite (simpson_odd_ok RA f v 0 k) by assumption.
  f_equal. unfold simpson_parallel_es.
  rewrite reduce_sched_R. rewrite (lsum_perm _ _ _ HP).
  cbn [RA nadd nmul nsub ndiv].
  rewrite (fold_lsum (fun j => nofZ RA 4 * nth (Z.to_nat (2 * j - 1)) f 0 + nofZ RA 2 * nth (Z.to_nat (2 * j)) f 0)).
  unfold iterations. replace (Z.to_nat (Z.of_nat k + 1 - 1)) with k by lia.
  rewrite Hf. change (Z.to_nat 1) with 1%nat. change (Z.to_nat 0) with 0%nat.
  replace (Z.to_nat (Z.of_nat (2 * k + 3) - 1)) with (2 * k + 2)%nat by lia.
  replace (Z.to_nat (Z.of_nat (2 * k + 3) - 1 - 1)) with (2 * k + 1)%nat by lia.
  reflexivity.
Qed.

(** Race witness: f = [1;1;5], v = [0;1;3]; iterations 1 and 2 on two threads. *)
Lemma race_value :
  trapz_parallel_ne RA 0 2 (fun t => [Z.of_nat t + 1]%Z) [0;0;1;1;0;1]%nat [1;1;5] [0;1;3] = 12 /\
  trapz_parallel_ne RA 0 2 (fun t => [Z.of_nat t + 1]%Z) [0;0;0;1;1;1]%nat [1;1;5] [0;1;3] = 7 /\
  trapz RA false 3 [1;1;5] [0;1;3] = Ok 7.
Proof.
  repeat split.
  - cbv -[Rplus Rminus Rmult Rdiv IZR]. lra.
  - cbv -[Rplus Rminus Rmult Rdiv IZR]. lra.
  - change 3%Z with (Z.of_nat (List.length [1;1;5])). unfold trapz. rewrite trapz_ne_R by (simpl; lia).
    f_equal. cbv -[Rplus Rminus Rmult Rdiv IZR]. lra.
Qed.

Lemma race_witness :
  exists f v its il il',
    count_occ Nat.eq_dec il 0%nat = 3%nat /\ count_occ Nat.eq_dec il 1%nat = 3%nat /\
    count_occ Nat.eq_dec il' 0%nat = 3%nat /\ count_occ Nat.eq_dec il' 1%nat = 3%nat /\
    trapz_parallel_ne RA 0 2 its il f v = 12 /\
    trapz_parallel_ne RA 0 2 its il' f v = 7 /\
    trapz RA false 3 f v = Ok 7.
Proof.
  exists [1;1;5], [0;1;3], (fun t => [Z.of_nat t + 1]%Z), [0;0;1;1;0;1]%nat, [0;0;0;1;1;1]%nat.
  do 4 (split; [reflexivity|]). exact race_value.
Qed.

(** *** C09 *)
Lemma lincomb_length a b f g : List.length f = List.length g -> List.length (lincomb a b f g) = List.length f.
Proof. intros H. unfold lincomb. rewrite map_length, combine_length. lia. Qed.
Lemma lincomb_pt a b f g i : List.length f = List.length g ->
  pt (lincomb a b f g) i = a * pt f i + b * pt g i.
Proof.
  unfold pt, lincomb. revert g i; induction f as [|x f IH]; intros [|y g] [|i] H; simpl in *; try discriminate; try lra.
  apply IH. lia.
Qed.


Lemma in_bounds_em s es a b : in_bounds s es a b \/ ~ in_bounds s es a b.
Proof. unfold in_bounds. destruct es; [destruct (s && Nat.odd a)%bool|]; lia. Qed.

Lemma integrate_ok_inv {num} (A : arith num) hist m es f v th p r :
  integrate A hist m es f v th p = Ok r ->
  in_bounds (String.eqb m "simpson") es (List.length f) (List.length v).
Proof.
  intros H. destruct (in_bounds_em (String.eqb m "simpson") es (List.length f) (List.length v)) as [G|G]; [exact G|].
  rewrite integrate_unsafe in H by exact G. discriminate.
Qed.

(** Value of an in-bounds call, as one formula. *)
Definition value_es (n : nat) (f : nat -> R) (h : R) : R :=
  ((f 0%nat + f (n - 1)%nat) / 2 + Rsum (fun i => f (S i)) (n - 2)) * h.
Definition value_simpson (k : nat) (f : nat -> R) (h : R) : R :=
  Rsum (fun i => h / 3 * (f (2 * i)%nat + 4 * f (2 * i + 1)%nat + f (2 * i + 2)%nat)) (S k).

Lemma trapz_es_val f v :
  (1 <= List.length f)%nat -> (2 <= List.length v)%nat ->
  trapz_es RA (len f) f v = Ok (value_es (List.length f) (pt f) (pt v 1 - pt v 0)).
Proof.
  intros Hf Hv. rewrite (trapz_es_ok RA f v 0) by lia. f_equal.
  rewrite !nofZ_RA. cbn [nadd nmul nsub ndiv RA].
  rewrite (fold_Rsum (fun j => nth (Z.to_nat j) f 0)).
  rewrite (Rsum_ext (fun i => nth (Z.to_nat (Z.of_nat (S i))) f 0) (fun i => pt f (S i))).
  2:{ intros i _. unfold pt. f_equal. lia. }
  reflexivity.
Qed.

Lemma integrate_value hist m es f v th p :
  in_bounds (String.eqb m "simpson") es (List.length f) (List.length v) ->
  integrate RA hist m es f v th p =
  Ok (if es then
        if (String.eqb m "simpson" && Nat.odd (List.length f))%bool
        then value_simpson ((List.length f - 3) / 2) (pt f) (pt v 1 - pt v 0)
        else value_es (List.length f) (pt f) (pt v 1 - pt v 0)
      else trapezoid_sum (pt v) (pt f) (List.length f)).
Proof.
  intros H. rewrite integrate_char. unfold in_bounds in H. destruct es.
  - destruct (String.eqb m "simpson"); cbn [andb] in *.
    + destruct (Nat.odd (List.length f)) eqn:Ho.
      * destruct (nat_odd_form _ Ho) as [k Hk].
        rewrite (simpson_R f v (k - 1)) by lia. f_equal.
        replace ((List.length f - 3) / 2)%nat with (k - 1)%nat; [reflexivity|].
        replace (List.length f - 3)%nat with ((k - 1) * 2)%nat by lia.
        rewrite Nat.div_mul by lia. reflexivity.
      * rewrite simpson_even by exact Ho. apply trapz_es_val; lia.
    + apply trapz_es_val; lia.
  - assert (G : trapz RA false (len f) f v = Ok (trapezoid_sum (pt v) (pt f) (List.length f))).
    { unfold trapz. rewrite trapz_ne_R by lia. rewrite trapezoid_sum_Rsum. reflexivity. }
    destruct (String.eqb m "simpson"); [rewrite simpson_ne|]; exact G.
Qed.

Lemma integrate_linear hist m es a b f g v th p rf rg :
  List.length f = List.length g ->
  integrate RA hist m es f v th p = Ok rf ->
  integrate RA hist m es g v th p = Ok rg ->
  integrate RA hist m es (lincomb a b f g) v th p = Ok (a * rf + b * rg).
Proof.
  intros Hl Hf Hg.
  pose proof (integrate_ok_inv _ _ _ _ _ _ _ _ _ Hf) as Bf.
  pose proof (integrate_ok_inv _ _ _ _ _ _ _ _ _ Hg) as Bg.
  rewrite integrate_value in Hf by exact Bf. rewrite integrate_value in Hg by exact Bg.
  rewrite integrate_value by (rewrite lincomb_length by exact Hl; exact Bf).
  rewrite lincomb_length by exact Hl. rewrite <- Hl in Hg.
  injection Hf as <-. injection Hg as <-. f_equal.
  destruct es.
  - destruct (String.eqb m "simpson" && Nat.odd (List.length f))%bool.
    + unfold value_simpson. rewrite <- !Rsum_scal, <- Rsum_plus. apply Rsum_ext.
      intros i _. rewrite !lincomb_pt by exact Hl. lra.
    + unfold value_es. rewrite !lincomb_pt by exact Hl.
      rewrite (Rsum_ext (fun i => pt (lincomb a b f g) (S i)) (fun i => a * pt f (S i) + b * pt g (S i)))
        by (intros; apply lincomb_pt; exact Hl).
      rewrite Rsum_plus, !Rsum_scal. field.
  - rewrite !trapezoid_sum_Rsum. rewrite <- !Rsum_scal, <- Rsum_plus. apply Rsum_ext.
    intros i _. rewrite !lincomb_pt by exact Hl. field.
Qed.

Lemma pt_app1 l1 l2 i : (i < List.length l1)%nat -> pt (l1 ++ l2) i = pt l1 i.
Proof. intros H. unfold pt. apply app_nth1. exact H. Qed.
Lemma pt_app2 l1 l2 i : pt (l1 ++ l2) (List.length l1 + i) = pt l2 i.
Proof. unfold pt. rewrite app_nth2 by lia. f_equal. lia. Qed.

Lemma Rsum_app g a b : Rsum g (a + b) = Rsum g a + Rsum (fun i => g (a + i)%nat) b.
Proof. induction b; [rewrite Nat.add_0_r; simpl; lra|]. rewrite Nat.add_succ_r. simpl. rewrite IHb. lra. Qed.

(** Splitting the grid at a shared point (fm at vm). *)
Lemma pt_snoc l x y i : (i <= List.length l)%nat -> pt (l ++ x :: y) i = pt (l ++ [x]) i.
Proof.
  intros H. unfold pt. revert i H. induction l as [|b l IH]; intros [|i] H; simpl in *; try lia; auto.
  apply IH; lia.
Qed.

Lemma integrate_additive hist f1 f2 fm v1 v2 vm th p :
  List.length f1 = List.length v1 -> List.length f2 = List.length v2 ->
  exists r r1 r2,
    integrate RA hist "trapz" false (f1 ++ fm :: f2) (v1 ++ vm :: v2) th p = Ok r /\
    integrate RA hist "trapz" false (f1 ++ [fm]) (v1 ++ [vm]) th p = Ok r1 /\
    integrate RA hist "trapz" false (fm :: f2) (vm :: v2) th p = Ok r2 /\
    r = r1 + r2.
Proof.
  intros H1 H2. do 3 eexists.
  split; [|split; [|split]]; [apply trapz_composite; rewrite !app_length; simpl; lia
    |apply trapz_composite; rewrite !app_length; simpl; lia
    |apply trapz_composite; simpl; lia|].
  rewrite !trapezoid_sum_Rsum. rewrite !app_length. cbn [List.length].
  replace (List.length f1 + S (List.length f2) - 1)%nat with (List.length f1 + List.length f2)%nat by lia.
  replace (List.length f1 + 1 - 1)%nat with (List.length f1) by lia.
  replace (S (List.length f2) - 1)%nat with (List.length f2) by lia.
  rewrite Rsum_app. f_equal.
  - apply Rsum_ext. intros i Hi. rewrite (pt_snoc f1 fm f2 i), (pt_snoc f1 fm f2 (S i)), (pt_snoc v1 vm v2 i), (pt_snoc v1 vm v2 (S i)) by lia. reflexivity.
  - apply Rsum_ext. intros i Hi. rewrite <- Nat.add_succ_r. rewrite !pt_app2.
    rewrite H1. rewrite !pt_app2. reflexivity.
Qed.

(** *** C10 *)
Lemma ones_pt n i : (i < n)%nat -> pt (ones n) i = 1.
Proof.
  intros H. unfold pt, ones. revert i H. induction n; intros [|i] H; simpl; try lia; auto. apply IHn; lia.
Qed.
Lemma ones_length n : List.length (ones n) = n. Proof. apply repeat_length. Qed.

Lemma cos_shift_aux x : cos (PI - x) = - cos x.
Proof. rewrite cos_minus, cos_PI, sin_PI. ring. Qed.

Lemma cheb_mu_length m : List.length (cheb_mu m) = m.
Proof. unfold cheb_mu. rewrite map_length, seq_length. reflexivity. Qed.
Lemma cheb_grid_length m : List.length (cheb_grid m) = (2 * m)%nat.
Proof. unfold cheb_grid. rewrite app_length, map_length, rev_length, cheb_mu_length. lia. Qed.

Lemma cheb_mu_pt m i : (i < m)%nat -> pt (cheb_mu m) i = cos (PI / (2 * INR m) * (INR i + / 2)).
Proof.
  intros H. unfold pt, cheb_mu.
  rewrite (nth_indep _ 0 (cos (PI / (2 * INR m) * (INR 0 + / 2)))) by (rewrite map_length, seq_length; exact H).
  rewrite (map_nth (fun n => cos (PI / (2 * INR m) * (INR n + / 2)))). rewrite seq_nth by exact H. reflexivity.
Qed.

Lemma cheb_grid_pt m j : (j < 2 * m)%nat ->
  pt (cheb_grid m) j = - cos (PI / (2 * INR m) * (INR j + / 2)).
Proof.
  intros H. unfold cheb_grid.
  destruct (le_lt_dec m j) as [Hj|Hj].
  - replace j with (List.length (map Ropp (cheb_mu m)) + (j - m))%nat
      by (rewrite map_length, cheb_mu_length; lia).
    rewrite pt_app2. unfold pt. rewrite rev_nth by (rewrite cheb_mu_length; lia).
    rewrite cheb_mu_length. change (pt (cheb_mu m) (m - S (j - m)) =
      - cos (PI / (2 * INR m) * (INR (List.length (map Ropp (cheb_mu m)) + (j - m)) + / 2))).
    rewrite map_length, cheb_mu_length. rewrite cheb_mu_pt by lia.
    replace (m + (j - m))%nat with j by lia.
    replace (m - S (j - m))%nat with (2 * m - 1 - j)%nat by lia.
    rewrite <- cos_shift_aux. f_equal.
    rewrite !minus_INR by lia. rewrite mult_INR. simpl INR.
    assert (INR m <> 0) by (apply not_0_INR; lia). field. assumption.
  - rewrite pt_app1 by (rewrite map_length, cheb_mu_length; exact Hj).
    change (pt (map Ropp (cheb_mu m)) j) with (pt (sample Ropp (cheb_mu m)) j).
    rewrite sample_pt by (rewrite cheb_mu_length; exact Hj).
    rewrite cheb_mu_pt by exact Hj. reflexivity.
Qed.

Lemma cheb_increment m j : (S j < 2 * m)%nat ->
  pt (cheb_grid m) (S j) - pt (cheb_grid m) j =
  2 * sin (PI / (2 * INR m) * INR (S j)) * sin (PI / (2 * INR m) / 2).
Proof.
  intros H. rewrite !cheb_grid_pt by lia.
  set (t := PI / (2 * INR m)).
  replace (- cos (t * (INR (S j) + / 2)) - - cos (t * (INR j + / 2)))
    with (cos (t * INR (S j) - t / 2) - cos (t * INR (S j) + t / 2)).
  - rewrite cos_minus, cos_plus. ring.
  - rewrite S_INR. 
    replace (t * (INR j + 1) - t / 2) with (t * (INR j + / 2)) by field.
    replace (t * (INR j + 1 + / 2)) with (t * (INR j + 1) + t / 2) by field. ring.
Qed.

Lemma cheb_theta_pos m : (1 <= m)%nat -> 0 < PI / (2 * INR m).
Proof.
  intros H. assert (0 < INR m) by (apply lt_0_INR; lia). pose proof PI_RGT_0.
  apply Rdiv_lt_0_compat; lra.
Qed.

Lemma cheb_sin_ge m j : (1 <= j)%nat -> (j < 2 * m)%nat ->
  sin (PI / (2 * INR m)) <= sin (PI / (2 * INR m) * INR j).
Proof.
  intros H1 H2. pose proof PI_RGT_0 as HPI.
  assert (Hm : 0 < INR m) by (apply lt_0_INR; lia).
  pose proof (cheb_theta_pos m ltac:(lia)) as Ht. set (t := PI / (2 * INR m)) in *.
  assert (Hj1 : 1 <= INR j) by (apply (le_INR 1); lia).
  assert (Hj2 : INR j <= 2 * INR m - 1).
  { apply le_INR in H2. rewrite S_INR, mult_INR in H2. simpl in H2. lra. }
  assert (Htm : t * (2 * INR m) = PI) by (unfold t; field; lra).
  assert (Hm1 : 1 <= INR m) by (apply (le_INR 1); lia).
  assert (Ht2 : t <= PI / 2) by nra.
  assert (Hlo : t <= t * INR j) by nra.
  assert (Hhi : t * INR j <= PI - t) by nra.
  destruct (Rle_lt_dec (t * INR j) (PI / 2)) as [Hc|Hc].
  - apply sin_incr_1; lra.
  - rewrite <- (sin_PI_x (t * INR j)). apply sin_incr_1; lra.
Qed.

Lemma telescope (x : nat -> R) n : Rsum (fun i => x (S i) - x i) n = x n - x O.
Proof. induction n; simpl; [lra|]. rewrite IHn. lra. Qed.

Lemma cheb_es_wrong hist m th p th' p' :
  (2 <= m)%nat ->
  exists r,
    integrate RA hist "trapz" true (ones (2 * m)) (cheb_grid m) th p = Ok r /\
    integrate RA hist "trapz" false (ones (2 * m)) (cheb_grid m) th' p' =
      Ok (pt (cheb_grid m) (2 * m - 1) - pt (cheb_grid m) 0) /\
    r < pt (cheb_grid m) (2 * m - 1) - pt (cheb_grid m) 0 /\
    r <= PI ^ 2 / (2 * INR m).
Proof.
  intros Hm. eexists. split; [|split; [|split]].
  - rewrite integrate_char. cbn [String.eqb Ascii.eqb Bool.eqb]. unfold trapz.
    apply trapz_es_R; rewrite ?ones_length, ?cheb_grid_length; lia.
  - rewrite trapz_composite by (rewrite ones_length, cheb_grid_length; lia).
    rewrite trapezoid_sum_Rsum, ones_length. f_equal.
    rewrite <- (telescope (pt (cheb_grid m))). apply Rsum_ext. intros i Hi.
    rewrite !ones_pt by lia. field.
  - rewrite ones_length. rewrite <- (telescope (pt (cheb_grid m)) (2 * m - 1)).
    replace (2 * m - 1)%nat with (S (S (2 * m - 3))) by lia.
    rewrite !Rsum_shift.
    assert (HPI := PI_RGT_0).
    assert (Hmp : 0 < INR m) by (apply lt_0_INR; lia).
    assert (Hm2 : 2 <= INR m) by (apply (le_INR 2); lia).
    assert (Ht := cheb_theta_pos m ltac:(lia)).
    assert (Htm : PI / (2 * INR m) * (2 * INR m) = PI) by (field; lra).
    assert (Ht4 : 4 * (PI / (2 * INR m)) <= PI).
    { rewrite <- Htm at 2. rewrite (Rmult_comm 4). apply Rmult_le_compat_l; lra. }
    assert (Hs : 0 < sin (PI / (2 * INR m) / 2)) by (apply sin_gt_0; lra).
    assert (G : forall i, (i < 2 * m - 1)%nat ->
      (pt (ones (2 * m)) (S i) + pt (ones (2 * m)) i) / 2 * (pt (cheb_grid m) 1 - pt (cheb_grid m) 0)
      <= pt (cheb_grid m) (S i) - pt (cheb_grid m) i).
    { intros i Hi. rewrite !ones_pt by lia. rewrite !cheb_increment by lia.
      pose proof (cheb_sin_ge m (S i) ltac:(lia) ltac:(lia)) as Hg.
      simpl (INR 1). rewrite Rmult_1_r. nra. }
    assert (G1 : (pt (ones (2 * m)) 2 + pt (ones (2 * m)) 1) / 2 * (pt (cheb_grid m) 1 - pt (cheb_grid m) 0)
      < pt (cheb_grid m) 2 - pt (cheb_grid m) 1).
    { rewrite !ones_pt by lia. rewrite !cheb_increment by lia.
      assert (sin (PI / (2 * INR m)) < sin (PI / (2 * INR m) * 2)).
      { apply sin_increasing_1; lra. }
      change (INR 2) with (1 + 1). change (INR 1) with 1. rewrite Rmult_1_r.
      replace (1 + 1) with 2 by ring.
      apply Rle_lt_trans with (2 * sin (PI / (2 * INR m)) * sin (PI / (2 * INR m) / 2)); [lra|].
      apply Rmult_lt_compat_r; lra. }
    assert (G0 := G 0%nat ltac:(lia)).
    assert (G2 : Rsum (fun i => (pt (ones (2 * m)) (S (S (S i))) + pt (ones (2 * m)) (S (S i))) / 2 *
         (pt (cheb_grid m) 1 - pt (cheb_grid m) 0)) (2 * m - 3) <=
       Rsum (fun i => pt (cheb_grid m) (S (S (S i))) - pt (cheb_grid m) (S (S i))) (2 * m - 3)).
    { apply Rsum_le. intros i Hi. apply G. lia. }
    lra.
  - rewrite ones_length.
    assert (HPI := PI_RGT_0).
    assert (Hmp : 0 < INR m) by (apply lt_0_INR; lia).
    assert (Ht := cheb_theta_pos m ltac:(lia)).
    rewrite (Rsum_ext _ (fun _ => pt (cheb_grid m) 1 - pt (cheb_grid m) 0)).
    2:{ intros i Hi. rewrite !ones_pt by lia. field. }
    rewrite Rsum_const, cheb_increment by lia. change (INR 1) with 1. rewrite Rmult_1_r.
    assert (H1 : sin (PI / (2 * INR m)) < PI / (2 * INR m)) by (apply sin_lt_x; lra).
    assert (H2 : sin (PI / (2 * INR m) / 2) < PI / (2 * INR m) / 2) by (apply sin_lt_x; lra).
    assert (Hm2 : 2 <= INR m) by (apply (le_INR 2); lia).
    assert (Htm : PI / (2 * INR m) * (2 * INR m) = PI) by (field; lra).
    assert (Ht4 : 4 * (PI / (2 * INR m)) <= PI).
    { rewrite <- Htm at 2. rewrite (Rmult_comm 4). apply Rmult_le_compat_l; lra. }
    assert (H3 : 0 < sin (PI / (2 * INR m))) by (apply sin_gt_0; lra).
    assert (H4 : 0 < sin (PI / (2 * INR m) / 2)) by (apply sin_gt_0; lra).
    replace (PI ^ 2 / (2 * INR m)) with ((2 * INR m) * (2 * (PI / (2 * INR m)) * (PI / (2 * INR m) / 2)))
      by (field; lra).
    apply Rmult_le_compat.
    + apply pos_INR.
    + apply Rmult_le_pos; lra.
    + rewrite minus_INR by lia. rewrite mult_INR. simpl INR. lra.
    + apply Rmult_le_compat; lra.
Qed.

