(** * Proofs about the histogram maker. *)
From Coq Require Import Reals List ZArith Bool Lia Lra.
From Verif Require Import Base Py Hist_Model Hist_Spec.
Import ListNotations.
Local Open Scope R_scope.
Local Open Scope res_scope.

(** ** extrema *)
Lemma fold_Rmin_spec : forall l a, (In (fold_left Rmin l a) (a :: l)) /\ (forall x, In x (a :: l) -> fold_left Rmin l a <= x).
Proof.
  induction l as [|y l IH]; intros a; cbn; [split; [left; reflexivity|intros x [<-|[]]; lra]|].
  destruct (IH (Rmin a y)) as [H1 H2]. split.
  - destruct H1 as [E|H1]; [|right; right; exact H1]. rewrite <- E. unfold Rmin. destruct (Rle_dec a y); [left|right; left]; reflexivity.
  - assert (H0 := H2 (Rmin a y) (or_introl eq_refl)). pose proof (Rmin_l a y) as La. pose proof (Rmin_r a y) as Lb.
    intros x [<-|[<-|H]]; [lra|lra|apply H2; right; exact H].
Qed.
Lemma fold_Rmax_spec : forall l a, (In (fold_left Rmax l a) (a :: l)) /\ (forall x, In x (a :: l) -> x <= fold_left Rmax l a).
Proof.
  induction l as [|y l IH]; intros a; cbn; [split; [left; reflexivity|intros x [<-|[]]; lra]|].
  destruct (IH (Rmax a y)) as [H1 H2]. split.
  - destruct H1 as [E|H1]; [|right; right; exact H1]. rewrite <- E. unfold Rmax. destruct (Rle_dec a y); [right; left|left]; reflexivity.
  - assert (H0 := H2 (Rmax a y) (or_introl eq_refl)). pose proof (Rmax_l a y) as La. pose proof (Rmax_r a y) as Lb.
    intros x [<-|[<-|H]]; [lra|lra|apply H2; right; exact H].
Qed.
Lemma dmin_is : forall l, l <> [] -> is_min (dmin l) l.
Proof.
  intros [|a l] H; [congruence|]. unfold dmin. cbn [hd]. destruct (fold_Rmin_spec (a :: l) a) as [H1 H2]. split.
  - destruct H1 as [E|H1]; [rewrite <- E; left; reflexivity|exact H1].
  - intros x Hx. apply H2. right. exact Hx.
Qed.
Lemma dmax_is : forall l, l <> [] -> is_max (dmax l) l.
Proof.
  intros [|a l] H; [congruence|]. unfold dmax. cbn [hd]. destruct (fold_Rmax_spec (a :: l) a) as [H1 H2]. split.
  - destruct H1 as [E|H1]; [rewrite <- E; left; reflexivity|exact H1].
  - intros x Hx. apply H2. right. exact Hx.
Qed.
Lemma in_ne {A} (x : A) l : In x l -> l <> [].
Proof. destruct l; [intros []|discriminate]. Qed.
Lemma dmin_eq : forall l m, is_min m l -> dmin l = m.
Proof.
  intros l m [H1 H2]. destruct (dmin_is l (in_ne _ _ H1)) as [H3 H4]. specialize (H4 _ H1). specialize (H2 _ H3). lra.
Qed.
Lemma dmax_eq : forall l m, is_max m l -> dmax l = m.
Proof.
  intros l m [H1 H2]. destruct (dmax_is l (in_ne _ _ H1)) as [H3 H4]. specialize (H4 _ H1). specialize (H2 _ H3). lra.
Qed.

(** ** floor *)
Lemma floorZ_spec : forall x, IZR (floorZ x) <= x < IZR (floorZ x) + 1.
Proof. intros x. unfold floorZ. rewrite minus_IZR. destruct (archimed x). lra. Qed.
Lemma floorZ_unique : forall x z, IZR z <= x < IZR z + 1 -> floorZ x = z.
Proof.
  intros x z H. pose proof (floorZ_spec x) as H1.
  assert (IZR (floorZ x) < IZR (z + 1)) by (rewrite plus_IZR; lra).
  assert (IZR z < IZR (floorZ x + 1)) by (rewrite plus_IZR; lra).
  apply lt_IZR in H0. apply lt_IZR in H2. lia.
Qed.
Lemma floorZ_nonneg : forall x, 0 <= x -> (0 <= floorZ x)%Z.
Proof.
  intros x H. pose proof (floorZ_spec x). assert (IZR (-1) < IZR (floorZ x)) by lra. apply lt_IZR in H1. lia.
Qed.
Lemma floorZ_lt : forall x z, x < IZR z -> (floorZ x < z)%Z.
Proof. intros x z H. pose proof (floorZ_spec x). apply lt_IZR. lra. Qed.
Lemma floorZ_ge : forall x z, IZR z <= x -> (z <= floorZ x)%Z.
Proof. intros x z H. pose proof (floorZ_spec x). assert (IZR z < IZR (floorZ x + 1)) by (rewrite plus_IZR; lra). apply lt_IZR in H1. lia. Qed.

(** ** bincount *)
Lemma sum_count : forall (l : list Z) n, (forall b, In b l -> (0 <= b < Z.of_nat n)%Z) ->
  sumR (map INR (map (fun i => count_occ Z.eq_dec l (Z.of_nat i)) (seq 0 n))) = INR (List.length l).
Proof.
  induction l as [|b l IH]; intros n H.
  - cbn [count_occ List.length]. generalize 0%nat at 2. revert n H. induction n as [|n IHn]; intros H s; cbn; [reflexivity|].
    unfold sumR in IHn. cbn in IHn. rewrite IHn; [lra|intros ? []].
  - assert (E : forall m s, sumR (map INR (map (fun i => count_occ Z.eq_dec (b :: l) (Z.of_nat i)) (seq s m)))
        = sumR (map INR (map (fun i => count_occ Z.eq_dec l (Z.of_nat i)) (seq s m)))
          + (if (Z.leb (Z.of_nat s) b && Z.ltb b (Z.of_nat (s + m)))%bool then 1 else 0)).
    { clear. induction m as [|m IHm]; intros s.
      - cbn. destruct (Z.leb_spec (Z.of_nat s) b); destruct (Z.ltb_spec b (Z.of_nat (s + 0))); cbn; try lra. lia.
      - cbn [seq map sumR fold_right]. fold sumR. change (fold_right Rplus 0) with sumR. rewrite IHm.
        cbn [count_occ]. destruct (Z.eq_dec b (Z.of_nat s)) as [->|N].
        + rewrite S_INR. destruct (Z.leb_spec (Z.of_nat (S s)) (Z.of_nat s)); [lia|].
          destruct (Z.leb_spec (Z.of_nat s) (Z.of_nat s)); [|lia]. destruct (Z.ltb_spec (Z.of_nat s) (Z.of_nat (s + S m))); [|lia]. cbn. lra.
        + replace (S s + m)%nat with (s + S m)%nat by lia.
          destruct (Z.leb_spec (Z.of_nat (S s)) b); destruct (Z.leb_spec (Z.of_nat s) b); try lia; cbn; lra. }
    rewrite E, IH by (intros; apply H; right; assumption). cbn [List.length]. rewrite S_INR.
    destruct (H b (or_introl eq_refl)). destruct (Z.leb_spec (Z.of_nat 0) b); [|lia]. destruct (Z.ltb_spec b (Z.of_nat (0 + n))); [|lia]. cbn. lra.
Qed.
Lemma fold_max_ge : forall l a, (a <= fold_left Nat.max l a)%nat /\ forall x, In x l -> (x <= fold_left Nat.max l a)%nat.
Proof.
  induction l as [|y l IH]; intros a; cbn; [split; [lia|intros ? []]|].
  destruct (IH (Nat.max a y)) as [H1 H2]. split; [lia|]. intros x [<-|H]; [lia|apply H2, H].
Qed.
Lemma fold_max_le : forall l a m, (a <= m)%nat -> (forall x, In x l -> (x <= m)%nat) -> (fold_left Nat.max l a <= m)%nat.
Proof.
  induction l as [|y l IH]; intros a m Ha H; cbn; [exact Ha|]. apply IH; [|intros; apply H; right; assumption].
  specialize (H y (or_introl eq_refl)). lia.
Qed.
Lemma existsb_neg : forall l, existsb (fun b => (b <? 0)%Z) l = false <-> forall b, In b l -> (0 <= b)%Z.
Proof.
  intros l. split.
  - intros H b Hb. destruct (Z.ltb_spec b 0) as [L|L]; [|exact L].
    assert (existsb (fun b => (b <? 0)%Z) l = true) by (apply existsb_exists; exists b; split; [exact Hb|apply Z.ltb_lt, L]). congruence.
  - intros H. destruct (existsb _ l) eqn:E; [|reflexivity]. apply existsb_exists in E. destruct E as (b & Hb & E). apply Z.ltb_lt in E. specialize (H b Hb). lia.
Qed.
Lemma bincount_sum : forall l m c, bincount l m = Ok c -> sumR (map INR c) = INR (List.length l).
Proof.
  intros l m c. unfold bincount. destruct (existsb _ l) eqn:E; [discriminate|]. intros H. injection H as <-.
  rewrite existsb_neg in E. apply sum_count. intros b Hb. split; [apply E, Hb|].
  destruct (fold_max_ge (map (fun b => S (Z.to_nat b)) l) 0%nat) as [_ H].
  specialize (H (S (Z.to_nat b)) (in_map _ _ _ Hb)). specialize (E b Hb). lia.
Qed.
Lemma bincount_exact : forall l n, (forall b, In b l -> (0 <= b < Z.of_nat n)%Z) -> (n = 0%nat \/ In (Z.of_nat n - 1)%Z l) ->
  bincount l 0 = Ok (map (fun i => count_occ Z.eq_dec l (Z.of_nat i)) (seq 0 n)).
Proof.
  intros l n H Hn. unfold bincount. replace (existsb _ l) with false by (symmetry; apply existsb_neg; intros; apply H; assumption).
  replace (Nat.max 0%nat (fold_left Nat.max (map (fun b => S (Z.to_nat b)) l) 0%nat)) with n; [reflexivity|].
  rewrite Nat.max_0_l. apply Nat.le_antisymm.
  - destruct Hn as [->|Hn]; [lia|]. destruct (fold_max_ge (map (fun b => S (Z.to_nat b)) l) 0%nat) as [_ M].
    specialize (M _ (in_map (fun b => S (Z.to_nat b)) _ _ Hn)). cbn beta in M. specialize (H _ Hn). lia.
  - apply fold_max_le; [lia|]. intros x Hx. apply in_map_iff in Hx. destruct Hx as (b & <- & Hb). specialize (H b Hb). lia.
Qed.
Lemma mapM_map {A B} (f : A -> B) l : mapM (fun x => Ok (f x)) l = Ok (map f l).
Proof. induction l as [|a l IH]; cbn; [reflexivity|]. rewrite IH. reflexivity. Qed.
Lemma mapM_ext {A B} (f g : A -> res B) l : (forall x, In x l -> f x = g x) -> mapM f l = mapM g l.
Proof.
  induction l as [|a l IH]; intros H; cbn; [reflexivity|]. rewrite (H a (or_introl eq_refl)), IH; [reflexivity|].
  intros x Hx. apply H. right. exact Hx.
Qed.
Lemma mapM_length {A B} (f : A -> res B) l r : mapM f l = Ok r -> List.length r = List.length l.
Proof.
  revert r. induction l as [|a l IH]; cbn; intros r H; [injection H as <-; reflexivity|].
  destruct (f a); cbn in H; try discriminate. destruct (mapM f l); cbn in H; try discriminate. injection H as <-. cbn. f_equal. apply IH. reflexivity.
Qed.
Lemma count_occ_filter : forall (f : R -> Z) (l : list R) z, count_occ Z.eq_dec (map f l) z = List.length (filter (fun x => Z.eqb (f x) z) l).
Proof.
  intros f l z. induction l as [|a l IH]; cbn; [reflexivity|]. destruct (Z.eq_dec (f a) z) as [E|N].
  - rewrite E, Z.eqb_refl. cbn. f_equal. exact IH.
  - destruct (Z.eqb_spec (f a) z); [contradiction|exact IH].
Qed.

(** ** the constant-width histograms agree with np.histogram *)
Definition clampZ (nb : nat) (b : Z) : Z := if Z.eqb b (Z.of_nat nb) then (Z.of_nat nb - 1)%Z else b.

Lemma nth_linspace : forall a b n i, (i <= n)%nat -> nth i (linspace a b n) 0 = a + INR i * ((b - a) / INR n).
Proof.
  intros a b n i H. unfold linspace. rewrite (nth_indep _ 0 (a + INR 0 * ((b - a) / INR n))) by (rewrite map_length, seq_length; lia).
  rewrite (map_nth (fun i => a + INR i * ((b - a) / INR n))). rewrite seq_nth by lia. reflexivity.
Qed.
Lemma truncZ_nonneg : forall x, 0 <= x -> truncZ x = floorZ x.
Proof. intros x H. unfold truncZ. destruct (Rle_dec 0 x); [reflexivity|contradiction]. Qed.
Lemma bin_index_phase0 : forall v low bw x, 0 < bw -> low <= x -> bin_index v low bw 0 x = Ok (floorZ ((x - low) / bw)).
Proof.
  intros v low bw x Hb Hx. unfold bin_index. destruct (Req_EM_T bw 0); [lra|]. apply (f_equal (@Ok Z)).
  assert (0 <= (x - low) / bw) by (apply Rmult_le_pos; [lra|left; apply Rinv_0_lt_compat; exact Hb]).
  destruct v; rewrite ?Rminus_0_r; [|rewrite truncZ_nonneg by lra|]; f_equal; unfold Rdiv; ring.
Qed.
Section Agree.
  Variables (lo hi : R) (nb : nat).
  Hypothesis Hlt : lo < hi.
  Hypothesis Hnb : (1 <= nb)%nat.
  Let w := (hi - lo) / INR nb.
  Lemma nb_pos : 0 < INR nb. Proof. apply lt_0_INR. lia. Qed.
  Lemma w_pos : 0 < w. Proof. unfold w. apply Rdiv_lt_0_compat; [lra|apply nb_pos]. Qed.
  Lemma w_nb : INR nb * w = hi - lo. Proof. unfold w. field. pose proof nb_pos. lra. Qed.
  Definition cell (x : R) : Z := clampZ nb (floorZ ((x - lo) / w)).
  Lemma quot_bounds x : lo <= x <= hi -> 0 <= (x - lo) / w <= INR nb.
  Proof.
    intros H. pose proof w_pos. pose proof w_nb. split; [apply Rmult_le_pos; [lra|left; apply Rinv_0_lt_compat; assumption]|].
    apply Rmult_le_reg_r with w; [assumption|]. unfold Rdiv. rewrite Rmult_assoc, Rinv_l, Rmult_1_r by lra. lra.
  Qed.
  Lemma cell_range x : lo <= x <= hi -> (0 <= cell x < Z.of_nat nb)%Z.
  Proof.
    intros H. destruct (quot_bounds x H) as [H1 H2]. unfold cell, clampZ. pose proof (floorZ_nonneg _ H1).
    assert (floorZ ((x - lo) / w) <= Z.of_nat nb)%Z.
    { assert (floorZ ((x - lo) / w) < Z.of_nat nb + 1)%Z; [|lia]. apply floorZ_lt. rewrite plus_IZR, <- INR_IZR_INZ. lra. }
    destruct (Z.eqb_spec (floorZ ((x - lo) / w)) (Z.of_nat nb)); lia.
  Qed.
  Lemma cell_hi : cell hi = (Z.of_nat nb - 1)%Z.
  Proof.
    unfold cell, clampZ. replace (floorZ ((hi - lo) / w)) with (Z.of_nat nb); [rewrite Z.eqb_refl; reflexivity|].
    symmetry. apply floorZ_unique. rewrite <- INR_IZR_INZ. replace ((hi - lo) / w) with (INR nb); [lra|].
    pose proof w_nb. pose proof w_pos. rewrite <- H. field. lra.
  Qed.
  Lemma cell_linear x i : lo <= x <= hi -> (i < nb)%nat -> (cell x = Z.of_nat i <-> linear_bin lo w nb i x).
  Proof.
    intros H Hi. pose proof w_pos as Hw. pose proof w_nb as Hn. unfold linear_bin.
    set (q := (x - lo) / w). assert (Eq : x = lo + q * w) by (unfold q; field; lra).
    pose proof (floorZ_spec q) as Hq. destruct (quot_bounds x H) as [Q0 Q1]. fold q in Q0, Q1.
    unfold cell, clampZ. fold q. destruct (Z.eqb_spec (floorZ q) (Z.of_nat nb)) as [E|N].
    - assert (q = INR nb). { rewrite E, <- INR_IZR_INZ in Hq. lra. }
      split.
      + intros E2. right. split; [lia|]. rewrite Eq, H0. reflexivity.
      + intros [[A B]|[A B]]; [|lia]. exfalso. rewrite Eq, H0 in B. assert (INR nb < INR (S i)) by (apply Rmult_lt_reg_r with w; lra).
        apply INR_lt in H1. lia.
    - split.
      + intros E. left. rewrite E, <- INR_IZR_INZ in Hq. rewrite S_INR, Eq. split; [|].
        * apply Rplus_le_compat_l, Rmult_le_compat_r; lra.
        * apply Rplus_lt_compat_l, Rmult_lt_compat_r; lra.
      + intros [[A B]|[A B]].
        * apply floorZ_unique. rewrite <- INR_IZR_INZ. rewrite Eq in A, B. rewrite S_INR in B. split.
          -- apply Rmult_le_reg_r with w; lra.
          -- apply Rmult_lt_reg_r with w; lra.
        * exfalso. apply N. apply floorZ_unique. rewrite <- INR_IZR_INZ. assert (q = INR nb) by (unfold q; rewrite B; field; lra). lra.
  Qed.
  Lemma in_bin_linear x i : lo <= x <= hi -> (i < nb)%nat -> (in_bin (linspace lo hi nb) nb i x = true <-> linear_bin lo w nb i x).
  Proof.
    intros H Hi. unfold in_bin. rewrite !nth_linspace by lia. fold w. unfold linear_bin. pose proof w_nb as Hn.
    destruct (Rle_dec (lo + INR i * w) x) as [A|A].
    - destruct (Rlt_dec x (lo + INR (S i) * w)) as [B|B]; [split; [left; lra|reflexivity]|].
      destruct (Nat.eqb_spec (S i) nb) as [E|E].
      + destruct (Rle_dec x (lo + INR (S i) * w)) as [D|D].
        * split; [intros _; right; split; [exact E|rewrite E in *; lra]|reflexivity].
        * split; [discriminate|intros [[_ ?]|[_ ?]]; [lra|rewrite E in *; lra]].
      + split; [discriminate|intros [[_ ?]|[? _]]; [lra|contradiction]].
    - split; [discriminate|]. intros [[? _]|[E ?]]; [lra|]. exfalso. apply A. rewrite H0. apply Rplus_le_compat_l, Rmult_le_compat_r.
      + left. apply w_pos.
      + apply le_INR. lia.
  Qed.
  Lemma in_bin_cell x i : lo <= x <= hi -> (i < nb)%nat -> in_bin (linspace lo hi nb) nb i x = Z.eqb (cell x) (Z.of_nat i).
  Proof.
    intros H Hi. apply Bool.eq_iff_eq_true. rewrite in_bin_linear by assumption. rewrite Z.eqb_eq. symmetry. apply cell_linear; assumption.
  Qed.
End Agree.

Lemma filter_counted {A} (f : A -> bool) (P : A -> Prop) l : (forall x, In x l -> (f x = true <-> P x)) -> counted P l (List.length (filter f l)).
Proof.
  induction l as [|a l IH]; intros H; cbn; [constructor|].
  destruct (f a) eqn:E.
  - cbn. constructor; [apply H; [left; reflexivity|exact E]|apply IH; intros; apply H; right; assumption].
  - constructor; [intros C; apply (H a (or_introl eq_refl)) in C; congruence|apply IH; intros; apply H; right; assumption].
Qed.

(** the two ends and a nonconstant data set *)
Definition spread (lo hi : R) (data : list R) : Prop := is_min lo data /\ is_max hi data /\ lo < hi.
Lemma spread_in lo hi data x : spread lo hi data -> In x data -> lo <= x <= hi.
Proof. intros ([_ A] & [_ B] & _) H. split; [apply A|apply B]; exact H. Qed.
Lemma spread_eqs lo hi data : spread lo hi data -> dmin data = lo /\ dmax data = hi /\ ptp data = hi - lo.
Proof. intros (A & B & _). unfold ptp. rewrite (dmin_eq _ _ A), (dmax_eq _ _ B). auto. Qed.

Lemma np_histogram_spread lo hi data nb : spread lo hi data -> (1 <= nb)%nat ->
  exists c, np_histogram data nb = Ok (c, linspace lo hi nb) /\ histogram_of lo hi nb data c.
Proof.
  intros S Hn. destruct (spread_eqs _ _ _ S) as (E1 & E2 & _). pose proof S as (_ & _ & Hlt).
  unfold np_histogram, np_edges. destruct (Nat.eqb_spec nb 0); [lia|]. rewrite E1, E2. destruct (Req_EM_T lo hi); [lra|].
  eexists. split; [reflexivity|]. split; [rewrite map_length, seq_length; reflexivity|].
  intros i Hi. exists (List.length (filter (in_bin (linspace lo hi nb) nb i) data)). split.
  - apply filter_counted. intros x Hx. apply in_bin_linear; [exact Hlt|exact Hn|exact (spread_in _ _ _ _ S Hx)|exact Hi].
  - rewrite (nth_indep _ 0 ((fun i => INR (List.length (filter (in_bin (linspace lo hi nb) nb i) data))) 0%nat)) by (rewrite map_length, seq_length; lia).
    rewrite (map_nth (fun i => INR (List.length (filter (in_bin (linspace lo hi nb) nb i) data)))). rewrite seq_nth by lia. reflexivity.
Qed.

Lemma negative_check_ok v data bins : (forall b, In b bins -> (0 <= b)%Z) -> negative_check v data bins = Ok bins.
Proof.
  intros H. unfold negative_check. replace (filter _ _) with (@nil nat); [reflexivity|].
  symmetry. assert (G : forall l, (forall i, In i l -> (i < List.length bins)%nat) -> filter (fun i => (nth i bins 0 <? 0)%Z) l = []).
  { induction l as [|i l IH]; intros Hl; cbn; [reflexivity|]. destruct (Z.ltb_spec (nth i bins 0%Z) 0) as [L|L].
    - assert (In (nth i bins 0%Z) bins) by (apply nth_In, Hl; left; reflexivity). specialize (H _ H0). lia.
    - apply IH. intros; apply Hl; right; assumption. }
  apply G. intros i Hi. apply in_seq in Hi. lia.
Qed.

Lemma one_bin_all lo hi data : spread lo hi data -> filter (in_bin (linspace lo hi 1) 1 0) data = data.
Proof.
  intros S. assert (G : forall l, (forall x, In x l -> lo <= x <= hi) -> filter (in_bin (linspace lo hi 1) 1 0) l = l).
  { induction l as [|a l IH]; intros H; cbn [filter]; [reflexivity|]. pose proof S as (_ & _ & Hlt).
    replace (in_bin (linspace lo hi 1) 1 0 a) with true; [f_equal; apply IH; intros; apply H; right; assumption|].
    symmetry. rewrite in_bin_linear; [|exact Hlt|lia|apply H; left; reflexivity|lia].
    unfold linear_bin. specialize (H a (or_introl eq_refl)). cbn [INR]. destruct (Req_dec a hi) as [->|N]; [right; split; [reflexivity|field]|left; lra]. }
  apply G. intros x Hx. exact (spread_in _ _ _ _ S Hx).
Qed.

Lemma histogram_counts_agree v lo hi data nb checks dm : spread lo hi data -> (1 <= nb)%nat -> (dm = None \/ dm = Some lo) ->
  exists c, histogram_counts v data (compute_bin_width (ptp data) nb) 0 nb 0 checks dm = Ok c /\
    np_histogram data nb = Ok (c, linspace lo hi nb).
Proof.
  intros S Hn Hdm. destruct (spread_eqs _ _ _ S) as (E1 & E2 & E3). pose proof S as (_ & Hmax & Hlt).
  unfold histogram_counts, np_histogram, np_edges. destruct (Nat.eqb_spec nb 0); [lia|]. rewrite E1, E2.
  destruct (Req_EM_T lo hi); [lra|]. destruct (Nat.eqb_spec nb 1) as [->|N1].
  - eexists. split; [reflexivity|]. cbn [seq map]. rewrite (one_bin_all lo hi data S). reflexivity.
  - set (bw := compute_bin_width (ptp data) nb). assert (Eb : bw = (hi - lo) / INR nb) by (unfold bw, compute_bin_width; rewrite E3; reflexivity).
    replace (match dm with None => lo | Some m => m end) with lo by (destruct Hdm as [->| ->]; reflexivity).
    rewrite (mapM_ext _ (fun x => Ok (floorZ ((x - lo) / bw)))).
    2:{ intros x Hx. apply bin_index_phase0; [rewrite Eb; apply w_pos; assumption|apply (spread_in _ _ _ _ S Hx)]. }
    rewrite mapM_map. cbn [bind]. rewrite map_map.
    assert (Ec : map (fun x => if Z.eqb (floorZ ((x - lo) / bw)) (Z.of_nat nb) then (Z.of_nat nb - 1)%Z else floorZ ((x - lo) / bw)) data
                 = map (cell lo hi nb) data) by (rewrite Eb; reflexivity).
    rewrite Ec.
    assert (Hr : forall b, In b (map (cell lo hi nb) data) -> (0 <= b < Z.of_nat nb)%Z).
    { intros b Hb. apply in_map_iff in Hb. destruct Hb as (x & <- & Hx). apply cell_range; [assumption..|apply (spread_in _ _ _ _ S Hx)]. }
    replace (if checks then negative_check v data (map (cell lo hi nb) data) else Ok (map (cell lo hi nb) data))
      with (Ok (map (cell lo hi nb) data)) by (destruct checks; [rewrite negative_check_ok; [reflexivity|intros b Hb; apply Hr, Hb]|reflexivity]).
    cbn [bind]. rewrite (bincount_exact _ nb Hr).
    2:{ right. rewrite <- (cell_hi lo hi nb) by assumption. apply in_map, Hmax. }
    cbn [bind]. eexists. split; [reflexivity|]. apply (f_equal (@Ok (list R * list R))). f_equal. rewrite map_map. apply map_ext_in.
    intros i Hi. apply in_seq in Hi. rewrite count_occ_filter. f_equal. f_equal. apply filter_ext_in.
    intros x Hx. apply in_bin_cell; [assumption..|apply (spread_in _ _ _ _ S Hx)|lia].
Qed.

(** ** conservation of mass whatever the phase, width and bin number *)
Lemma negative_check_length v data bins r : negative_check v data bins = Ok r -> List.length r = List.length bins.
Proof.
  unfold negative_check. destruct (filter _ _) as [|i [|j t]]; try discriminate.
  - intros E; injection E as <-; reflexivity.
  - destruct (Nat.eqb _ _); [|discriminate]. intros E. injection E as <-. apply map_length.
Qed.
Lemma histogram_counts_sum v data bw phase nb minb checks dm c :
  histogram_counts v data bw phase nb minb checks dm = Ok c -> sumR c = INR (List.length data).
Proof.
  unfold histogram_counts. destruct (Nat.eqb nb 1); [intros E; injection E as <-; cbn; lra|].
  destruct (Nat.eqb nb 0); [discriminate|]. destruct (mapM _ data) as [raw| |] eqn:E; cbn [bind]; try discriminate.
  apply mapM_length in E. set (top := map _ raw). assert (Lt : List.length top = List.length data) by (unfold top; rewrite map_length; exact E).
  destruct (if checks then negative_check v data top else Ok top) as [fx| |] eqn:F; cbn [bind]; try discriminate.
  assert (Lf : List.length fx = List.length data).
  { destruct checks; [rewrite (negative_check_length _ _ _ _ F); exact Lt|injection F as <-; exact Lt]. }
  destruct (bincount fx minb) as [k| |] eqn:B; cbn [bind]; try discriminate.
  intros H. injection H as <-. rewrite (bincount_sum _ _ _ B), Lf. reflexivity.
Qed.
Lemma total_sumR l : total l = sumR l.
Proof. induction l; cbn; [reflexivity|]. rewrite IHl. reflexivity. Qed.
