From Coq Require Import List ZArith Reals Lia Lra Bool Znumtheory Psatz.
From Coquelicot Require Import Coquelicot.
From Verif Require Import Base Fornberg_Model Fornberg_Spec Fornberg_Proofs NumDeriv_Model.
Import ListNotations.
Local Open Scope R_scope.
Local Open Scope res_scope.

Lemma run_stencil_inner s x y k : (k < length x)%nat ->
  (st_lo s <= Z.of_nat k)%Z -> (Z.of_nat k + st_hi s < Z.of_nat (length x))%Z ->
  nth k (run_stencil s x y) 0 = st_kernel s (fun d => nthZ x (Z.of_nat k + d)) (fun d => nthZ y (Z.of_nat k + d)).
Proof.
  intros Hk H1 H2. unfold run_stencil.
  set (f := fun k0 => _). rewrite (nth_indep _ 0 (f 0%nat)) by (rewrite map_length, seq_length; exact Hk).
  rewrite map_nth, seq_nth by exact Hk. unfold f. rewrite Nat.add_0_l.
  destruct (Z.ltb_spec (Z.of_nat k - st_lo s) 0); [lia|].
  destruct (Z.leb_spec (Z.of_nat (length x)) (Z.of_nat k + st_hi s)); [lia|]. reflexivity.
Qed.
Lemma run_stencil_border s x y k :
  (Z.of_nat k < st_lo s \/ Z.of_nat (length x) <= Z.of_nat k + st_hi s)%Z ->
  nth k (run_stencil s x y) 0 = 0.
Proof.
  intros H. destruct (Nat.lt_ge_cases k (length x)) as [Hk|Hk].
  - unfold run_stencil.
    set (f := fun k0 => _). rewrite (nth_indep _ 0 (f 0%nat)) by (rewrite map_length, seq_length; exact Hk).
    rewrite map_nth, seq_nth by exact Hk. unfold f. rewrite Nat.add_0_l.
    destruct (Z.ltb_spec (Z.of_nat k - st_lo s) 0); [reflexivity|].
    destruct (Z.leb_spec (Z.of_nat (length x)) (Z.of_nat k + st_hi s)); [reflexivity|lia].
  - apply nth_overflow. unfold run_stencil. rewrite map_length, seq_length. exact Hk.
Qed.
Lemma run_stencil_length s x y : length (run_stencil s x y) = length x.
Proof. unfold run_stencil. rewrite map_length, seq_length. reflexivity. Qed.
Lemma nthZ_map p x k : (0 <= k < Z.of_nat (length x))%Z -> nthZ (map p x) k = p (nthZ x k).
Proof.
  intros H. unfold nthZ. rewrite (nth_indep _ 0 (p 0)) by (rewrite map_length; lia). apply map_nth.
Qed.

Lemma Derive1_peval a x : Derive (peval a) x = D 1 a x.
Proof. rewrite D_Derive_n. reflexivity. Qed.

(** ** fine grid *)
Lemma fold_min_asc l : forall c, (forall v, In v l -> c <= v) -> fold_left Rmin l c = c.
Proof.
  induction l as [|v l IH]; intros c H; [reflexivity|]. cbn. rewrite Rmin_left by (apply H; left; reflexivity).
  apply IH. intros; apply H; right; assumption.
Qed.
Lemma fold_max_asc l : forall c d, In d (c :: l) -> (forall v, In v (c :: l) -> v <= d) -> fold_left Rmax l c = d.
Proof.
  induction l as [|v l IH]; intros c d Hd H; cbn.
  - destruct Hd as [->|[]]. reflexivity.
  - apply IH.
    + unfold Rmax. destruct (Rle_dec c v) as [Hle|Hle].
      * destruct Hd as [->|Hd]; [|exact Hd]. left. assert (v <= d) by (apply H; right; left; reflexivity). lra.
      * destruct Hd as [->|[->|Hd]]; [left; reflexivity| |right; exact Hd]. left.
        assert (c <= d) by (apply H; left; reflexivity). lra.
    + intros w [<-|Hw]; [|apply H; right; right; exact Hw].
      apply Rmax_lub; apply H; [left|right; left]; reflexivity.
Qed.

Definition ugrid (a h : R) (n : nat) : list R := map (fun k => a + INR k * h) (seq 0 n).
Lemma ugrid_length a h n : length (ugrid a h n) = n.
Proof. unfold ugrid. rewrite map_length, seq_length. reflexivity. Qed.
Lemma ugrid_nth a h n k d : (k < n)%nat -> nth k (ugrid a h n) d = a + INR k * h.
Proof.
  intros H. unfold ugrid. rewrite (nth_indep _ d ((fun k => a + INR k * h) 0%nat)) by (rewrite map_length, seq_length; exact H).
  rewrite (map_nth (fun k => a + INR k * h)), seq_nth by exact H. reflexivity.
Qed.
Lemma ugrid_In a h n v : In v (ugrid a h n) <-> exists k, (k < n)%nat /\ v = a + INR k * h.
Proof.
  unfold ugrid. rewrite in_map_iff. split.
  - intros (k & <- & Hk). apply in_seq in Hk. exists k. split; [lia|reflexivity].
  - intros (k & Hk & ->). exists k. split; [reflexivity|]. apply in_seq. lia.
Qed.
Lemma ugrid_amin a h n : 0 < h -> (1 <= n)%nat -> amin (ugrid a h n) = a.
Proof.
  intros Hh Hn. unfold amin.
  assert (Eh : hd 0 (ugrid a h n) = a).
  { destruct n; [lia|]. cbn. ring. }
  rewrite Eh. apply fold_min_asc. intros v Hv. apply ugrid_In in Hv. destruct Hv as (k & Hk & ->).
  assert (0 <= INR k) by apply pos_INR. nra.
Qed.
Lemma ugrid_amax a h n : 0 < h -> (1 <= n)%nat -> amax (ugrid a h n) = a + INR (n - 1) * h.
Proof.
  intros Hh Hn. unfold amax.
  assert (Eh : hd 0 (ugrid a h n) = a). { destruct n; [lia|]. cbn. ring. }
  rewrite Eh. apply fold_max_asc.
  - right. apply ugrid_In. exists (n - 1)%nat. split; [lia|reflexivity].
  - intros v [<-|Hv].
    + assert (0 <= INR (n - 1)) by apply pos_INR. nra.
    + apply ugrid_In in Hv. destruct Hv as (k & Hk & ->).
      assert (INR k <= INR (n - 1)) by (apply le_INR; lia). nra.
Qed.

Lemma memR_In t l : memR t l = true <-> In t l.
Proof.
  unfold memR. rewrite existsb_exists. split.
  - intros (v & Hv & H). destruct (Req_EM_T t v) as [->|]; [exact Hv|discriminate].
  - intros H. exists t. split; [exact H|]. destruct (Req_EM_T t t); [reflexivity|congruence].
Qed.

(** point i of the fine grid is an original point iff i (n-1) = k M for some k < n *)
Lemma fine_retained a h n M i : 0 < h -> (2 <= n)%nat -> (1 <= M)%nat -> (i <= M)%nat ->
  In (a + INR i * ((a + INR (n - 1) * h - a) / INR M)) (ugrid a h n) <->
  exists k, (k < n)%nat /\ (i * (n - 1) = k * M)%nat.
Proof.
  intros Hh Hn HM Hi. rewrite ugrid_In.
  assert (0 < INR M) by (apply lt_0_INR; lia).
  split; intros (k & Hk & E); exists k; (split; [exact Hk|]).
  - assert (E2 : INR i * INR (n - 1) = INR k * INR M).
    { apply (Rmult_eq_reg_r (h / INR M)).
      - replace (INR i * INR (n - 1) * (h / INR M)) with (a + INR i * ((a + INR (n - 1) * h - a) / INR M) - a) by (field; lra).
        rewrite E. field. lra.
      - apply Rgt_not_eq. apply Rdiv_lt_0_compat; assumption. }
    rewrite <- !mult_INR in E2. apply INR_eq in E2. exact E2.
  - assert (E2 : INR i * INR (n - 1) = INR k * INR M) by (rewrite <- !mult_INR; f_equal; exact E).
    replace (INR i * ((a + INR (n - 1) * h - a) / INR M)) with (INR i * INR (n - 1) * h / INR M) by (field; lra).
    rewrite E2. field. lra.
Qed.


Lemma filter_multiples (d : nat) : (0 < d)%nat -> forall g,
  filter (fun i => Nat.eqb (i mod d) 0) (seq 0 (g * d + 1)) = map (fun t => (t * d)%nat) (seq 0 (g + 1)).
Proof.
  intros Hd. induction g as [|g IH].
  - cbn. rewrite Nat.mod_0_l by lia. reflexivity.
  - replace (S g * d + 1)%nat with ((g * d + 1) + d)%nat by lia.
    rewrite (seq_app (g * d + 1) d 0), filter_app, IH. replace (S g + 1)%nat with ((g + 1) + 1)%nat by lia.
    rewrite (seq_app (g + 1) 1 0), map_app. f_equal.
    change (0 + (g * d + 1))%nat with (g * d + 1)%nat. assert (Es : seq (g * d + 1) d = seq (g * d + 1) (d - 1) ++ seq (g * d + 1 + (d - 1)) 1).
    { rewrite <- seq_app. f_equal. lia. }
    rewrite Es, filter_app.
    assert (E : filter (fun i => Nat.eqb (i mod d) 0) (seq (g * d + 1) (d - 1)) = []).
    { clear IH. assert (Hall : forall i, In i (seq (g * d + 1) (d - 1)) -> Nat.eqb (i mod d) 0 = false).
      { intros i Hi. apply in_seq in Hi. apply Nat.eqb_neq.
        replace i with ((i - g * d) + g * d)%nat by lia. rewrite Nat.mod_add by lia. rewrite Nat.mod_small by lia. lia. }
      revert Hall. generalize (seq (g * d + 1) (d - 1)). intros l Hall. induction l as [|i l IH]; [reflexivity|].
      cbn. rewrite Hall by (left; reflexivity). apply IH. intros; apply Hall; right; assumption. }
    rewrite E. cbn [app]. replace (0 + g * d + 1 + (d - 1))%nat with ((g + 1) * d)%nat by lia.
    replace (g * d + 1 + (d - 1))%nat with ((g + 1) * d)%nat by lia.
    cbn [seq filter map]. rewrite Nat.mod_mul by lia. rewrite Nat.eqb_refl. reflexivity.
Qed.

Lemma filter_ext_in' {A} (f g : A -> bool) l : (forall a, In a l -> f a = g a) -> filter f l = filter g l.
Proof. induction l as [|a l IH]; intros H; cbn; [reflexivity|]. rewrite H by (left; reflexivity). rewrite IH by (intros; apply H; right; assumption). reflexivity. Qed.

(** existence of k iff i is a multiple of M / gcd *)
Lemma mult_gcd n M i : (2 <= n)%nat -> (1 <= M)%nat -> (i <= M)%nat ->
  (exists k, (k < n)%nat /\ (i * (n - 1) = k * M)%nat) <-> (i mod (M / Nat.gcd (n - 1) M) = 0)%nat.
Proof.
  intros Hn HM Hi. set (p := (n - 1)%nat) in *. set (g := Nat.gcd p M).
  assert (Hg : g <> 0%nat) by (intros E; apply Nat.gcd_eq_0_l in E; lia).
  destruct (Nat.gcd_divide_l p M) as [p' Hp]. destruct (Nat.gcd_divide_r p M) as [M' HM'].
  fold g in Hp, HM'.
  assert (HMg : (M / g = M')%nat) by (rewrite HM' at 1; apply Nat.div_mul; exact Hg). rewrite HMg.
  assert (M' <> 0)%nat by (intros ->; lia).
  assert (Hco : Nat.gcd p' M' = 1%nat).
  { assert (E := Nat.gcd_mul_mono_r p' M' g). rewrite <- Hp, <- HM' in E. fold g in E. nia. }
  split.
  - intros (k & Hk & E). apply Nat.mod_divide; [assumption|].
    assert (E2 : (i * p' = k * M')%nat) by nia.
    apply (Nat.gauss M' p' i); [|rewrite Nat.gcd_comm; exact Hco].
    exists k. lia.
  - intros E. apply Nat.mod_divide in E; [|assumption]. destruct E as [t Ht].
    exists (t * p')%nat. split; [|subst i; rewrite Hp at 1; rewrite HM' at 1; ring].
    assert (t <= g)%nat by nia. assert (t * p' <= g * p')%nat by nia. lia.
Qed.

Lemma gcd_nf n f : (2 <= n)%nat -> (2 <= f)%nat -> Nat.gcd (n - 1) (n * f - 2) = Nat.gcd (n - 1) (f - 2).
Proof.
  intros Hn Hf. replace (n * f - 2)%nat with ((f - 2) + f * (n - 1))%nat by nia. apply Nat.gcd_add_mult_diag_r.
Qed.

Lemma map_idx_uniform a h n f : 0 < h -> (2 <= n)%nat -> (2 <= f)%nat ->
  let g := Nat.gcd (n - 1) (f - 2) in
  map_idx (linspace (amin (ugrid a h n)) (amax (ugrid a h n)) (n * f - 1)) (ugrid a h n) =
  map (fun t => (t * ((n * f - 2) / g))%nat) (seq 0 (g + 1)).
Proof.
  intros Hh Hn Hf g. rewrite ugrid_amin, ugrid_amax by (assumption || lia).
  unfold map_idx. assert (Hnf : (4 <= n * f)%nat) by nia.
  set (M := (n * f - 2)%nat) in *.
  assert (Eg : g = Nat.gcd (n - 1) M) by (symmetry; apply gcd_nf; assumption).
  assert (Hg : g <> 0%nat) by (rewrite Eg; intros E; apply Nat.gcd_eq_0_l in E; lia).
  assert (HM : (M = g * (M / g))%nat).
  { destruct (Nat.gcd_divide_r (n - 1) M) as [M' HM']. rewrite <- Eg in HM'. rewrite HM' at 2. rewrite Nat.div_mul by exact Hg. lia. }
  assert (Hd : (0 < M / g)%nat) by (destruct (M / g)%nat; lia).
  unfold linspace at 2. rewrite map_length, seq_length.
  rewrite <- filter_multiples by exact Hd. rewrite <- HM.
  assert (EM : (n * f - 1 = M + 1)%nat) by lia.
  transitivity (filter (fun i => memR (nth i (linspace a (a + INR (n - 1) * h) (n * f - 1)) 0) (ugrid a h n)) (seq 0 (M + 1)));
    [rewrite EM; reflexivity|].
  apply filter_ext_in'. intros i Hi. apply in_seq in Hi.
  assert (En : nth i (linspace a (a + INR (n - 1) * h) (n * f - 1)) 0 = a + INR i * ((a + INR (n - 1) * h - a) / INR M)).
  { unfold linspace. set (ff := fun i0 => _). rewrite (nth_indep _ 0 (ff 0%nat)) by (rewrite map_length, seq_length; lia).
    rewrite map_nth, seq_nth by lia. unfold ff. rewrite Nat.add_0_l. do 4 f_equal. lia. }
  rewrite En. apply eq_true_iff_eq. rewrite memR_In, Nat.eqb_eq.
  rewrite fine_retained by (assumption || lia). rewrite Eg. apply mult_gcd; lia.
Qed.

Lemma interp_knot x : forall y k, (forall i, (S i < length x)%nat -> nth i x 0 < nth (S i) x 0) ->
  length y = length x -> (2 <= length x)%nat -> (k < length x)%nat -> interp x y (nth k x 0) = nth k y 0.
Proof.
  induction x as [|x0 x IH]; intros y k Hasc Hl H2 Hk; [cbn in Hk; lia|].
  destruct y as [|y0 y]; [discriminate|].
  destruct x as [|x1 x]; [cbn in H2; lia|]. destruct y as [|y1 y]; [discriminate|].
  assert (H01 : x0 < x1) by (apply (Hasc 0%nat); cbn; lia).
  assert (Hmon : forall j, (j < length (x1 :: x))%nat -> x1 <= nth j (x1 :: x) 0).
  { induction j as [|j IHj]; intros Hj; [cbn; lra|].
    eapply Rle_trans; [apply IHj; cbn in *; lia|]. left. apply (Hasc (S j)). cbn in *; lia. }
  assert (Hint : forall t, interp (x0 :: x1 :: x) (y0 :: y1 :: y) t = if Rle_dec t x1 then y0 + (t - x0) / (x1 - x0) * (y1 - y0) else interp (x1 :: x) (y1 :: y) t) by reflexivity.
  rewrite Hint. destruct k as [|[|k]].
  - cbn [nth]. destruct (Rle_dec x0 x1); [|lra]. replace (x0 - x0) with 0 by ring. unfold Rdiv. ring.
  - cbn [nth]. destruct (Rle_dec x1 x1); [|lra]. field. lra.
  - change (nth (S (S k)) (x0 :: x1 :: x) 0) with (nth (S k) (x1 :: x) 0).
    change (nth (S (S k)) (y0 :: y1 :: y) 0) with (nth (S k) (y1 :: y) 0).
    assert (Hlt : x1 < nth (S k) (x1 :: x) 0).
    { eapply Rle_lt_trans; [apply (Hmon k); cbn in *; lia|]. apply (Hasc (S k)). cbn in *; lia. }
    destruct (Rle_dec (nth (S k) (x1 :: x) 0) x1); [lra|].
    apply IH; [intros i Hi; apply (Hasc (S i)); cbn in *; lia|cbn in *; lia|cbn in *; lia|cbn in *; lia].
Qed.
