(** * Sums over zones and the adjusted profiles. *)
From Coq Require Import Reals List Bool Arith Lia Lra.
From Verif Require Import Base Tar_Model Tar_Spec Tar_Proofs.
Import ListNotations.
Local Open Scope nat_scope.

(** ** Selected points *)
Lemma filter_none {A} (f : A -> bool) l : (forall x, In x l -> f x = false) -> filter f l = [].
Proof. induction l as [|x l IH]; intros H; cbn; [reflexivity|]. rewrite (H x (or_introl eq_refl)). apply IH. intros y Y. apply H. right. exact Y. Qed.
Lemma filter_all {A} (f : A -> bool) l : (forall x, In x l -> f x = true) -> filter f l = l.
Proof. induction l as [|x l IH]; intros H; cbn; [reflexivity|]. rewrite (H x (or_introl eq_refl)). f_equal. apply IH. intros y Y. apply H. right. exact Y. Qed.
Lemma selected_zone n m a b : mz n m (a, b) -> a <= b -> b <= n -> selected n m = seq a (b - a).
Proof.
  intros M A B. unfold selected. replace n with (a + ((b - a) + (n - b))) at 2 by lia. rewrite !seq_app, !filter_app. cbn [Nat.add].
  rewrite (filter_none _ (seq 0 a)), (filter_all _ (seq a (b - a))), (filter_none _ (seq (a + (b - a)) (n - b))).
  - rewrite app_nil_r. reflexivity.
  - intros x X. apply in_seq in X. rewrite M by lia. cbn [fst snd]. apply andb_false_iff. right. apply Nat.ltb_ge. lia.
  - intros x X. apply in_seq in X. rewrite M by lia. cbn [fst snd]. apply andb_true_iff. split; [apply Nat.leb_le; lia|apply Nat.ltb_lt; lia].
  - intros x X. apply in_seq in X. rewrite M by lia. cbn [fst snd]. apply andb_false_iff. left. apply Nat.leb_gt. lia.
Qed.
Lemma alternates_points f n zs : forall lo ms, alternates f n lo zs -> Forall2 (mz n) ms zs ->
  flat_map (selected n) ms = filter f (seq lo (n - lo)).
Proof.
  induction zs as [|[a b] zs IH]; intros lo ms A M; inversion M as [|x z0 l zs0 Hm HM E1 E2]; subst; clear M.
  - destruct A as [L H]. cbn. symmetry. apply filter_none. intros x X. apply in_seq in X. apply H. lia.
  - cbn [alternates] in A. destruct A as (H0 & H1 & H2 & H3' & H4 & _ & A). cbn [flat_map]. rewrite (IH b l A) by assumption.
    rewrite (selected_zone n x a b) by (assumption || lia).
    replace (n - lo) with ((a - lo) + ((b - a) + (n - b))) by lia. rewrite !seq_app, !filter_app.
    rewrite (filter_none f (seq lo (a - lo))), (filter_all f (seq (lo + (a - lo)) (b - a))).
    + cbn [app]. replace (lo + (a - lo)) with a by lia. replace (a + (b - a)) with b by lia. reflexivity.
    + intros y Y. apply in_seq in Y. apply H4. lia.
    + intros y Y. apply in_seq in Y. apply H3'. lia.
Qed.

(** ** Sums *)
Fixpoint lost (y : nat -> R) (f : nat -> bool) (k : nat) : R :=
  match k with O => 0%R | S k' => (lost y f k' + (if f k' then y (S k') - y k' else 0))%R end.
Lemma kept_lost y v k : kept y v k = (y k - lost y (fun j => negb (nth j v false)) k)%R.
Proof. induction k as [|k IH]; cbn [kept lost]; [lra|]. rewrite IH. destruct (nth k v false); cbn [negb]; lra. Qed.
Lemma lost_in y f a b : (forall j, a <= j < b -> f j = true) -> a <= b -> (lost y f b = lost y f a + (y b - y a))%R.
Proof.
  induction b as [|b IH]; intros H L.
  - replace a with 0 by lia. lra.
  - destruct (Nat.eq_dec a (S b)) as [->|N]; [lra|]. cbn [lost]. rewrite (H b) by lia. rewrite IH; [lra|intros; apply H; lia|lia].
Qed.
Lemma lost_out y f a b : (forall j, a <= j < b -> f j = false) -> a <= b -> lost y f b = lost y f a.
Proof.
  induction b as [|b IH]; intros H L.
  - replace a with 0 by lia. reflexivity.
  - destruct (Nat.eq_dec a (S b)) as [->|N]; [reflexivity|]. cbn [lost]. rewrite (H b) by lia. rewrite IH; [lra|intros; apply H; lia|lia].
Qed.
(** the cumulative sums of the contributions are the losses at the ends of the zones *)
Lemma sums_lost y f n : forall zs lo, alternates f n lo zs -> lo < n ->
  cumsum (lost y f lo) (map (contribution y) (map (clip n) zs)) = map (fun z => lost y f (snd (clip n z))) zs.
Proof.
  induction zs as [|[a b] zs IH]; intros lo A L; [reflexivity|]. cbn [alternates] in A. destruct A as (H0 & H1 & H2 & H3 & H4 & H5 & A).
  cbn [map cumsum]. assert (E : (lost y f lo + contribution y (clip n (a, b)))%R = lost y f (snd (clip n (a, b)))).
  { unfold contribution, clip. cbn [fst snd]. rewrite (lost_in y f a (Nat.min b (n - 1))); [|intros; apply H4; lia|lia]. rewrite (lost_out y f lo a) by (assumption || lia). reflexivity. }
  rewrite E. f_equal. destruct (Nat.eq_dec b n) as [->|N].
  - destruct zs as [|[a' b'] zs]; [reflexivity|]. cbn [alternates] in A. lia.
  - unfold clip at 1. cbn [fst snd]. replace (Nat.min b (n - 1)) with b by lia. apply IH; [exact A|lia].
Qed.
Lemma last_lost y f n zs : forall lo, alternates f n lo zs -> lo < n ->
  last (lost y f lo :: map (fun z => lost y f (snd (clip n z))) zs) 0%R = lost y f (n - 1).
Proof.
  induction zs as [|[a b] zs IH]; intros lo A L.
  - cbn. destruct A as [_ H]. symmetry. apply lost_out; [intros; apply H; lia|lia].
  - cbn [alternates] in A. destruct A as (H0 & H1 & H2 & H3 & H4 & H5 & A). cbn [map].
    change (last (lost y f (snd (clip n (a, b))) :: map (fun z => lost y f (snd (clip n z))) zs) 0%R = lost y f (n - 1)).
    destruct (Nat.eq_dec b n) as [->|N].
    + destruct zs as [|[a' b'] zs]; [|cbn [alternates] in A; lia]. cbn [map last]. unfold clip. cbn [snd]. f_equal. lia.
    + unfold clip at 1. cbn [fst snd]. replace (Nat.min b (n - 1)) with b by lia. apply IH; [exact A|lia].
Qed.
(** losses before the i-th zone: the sum up to the zone before it *)
Lemma sums_before y f n zs : forall lo i a b, alternates f n lo zs -> nth_error zs i = Some (a, b) ->
  lost y f a = match i with O => lost y f lo | S p => nth p (map (fun z => lost y f (snd (clip n z))) zs) 0%R end.
Proof.
  induction zs as [|[a' b'] zs IH]; intros lo [|i] a b A N; cbn in N; try discriminate; cbn [alternates] in A; destruct A as (H0 & H1 & H2 & H3 & H4 & H5 & A).
  - inversion N; subst. apply lost_out; assumption.
  - rewrite (IH b' i a b A N). destruct i as [|i]; cbn [map nth]; [|reflexivity]. unfold clip. cbn [snd].
    destruct zs as [|[a2 b2] zs]; [discriminate|]. cbn [alternates] in A. f_equal. lia.
Qed.
Lemma zone_bounds f n zs : forall lo i a b, alternates f n lo zs -> nth_error zs i = Some (a, b) ->
  lo <= a /\ a < b /\ b <= n /\ (forall j, a <= j < b -> f j = true) /\ (b = n \/ f b = false) /\ (a = lo \/ 0 < a /\ f (a - 1) = false).
Proof.
  induction zs as [|[a' b'] zs IH]; intros lo [|i] a b A N; cbn in N; try discriminate; cbn [alternates] in A; destruct A as (H0 & H1 & H2 & H3 & H4 & H5 & A).
  - inversion N; subst. repeat (split; [assumption|]). destruct (Nat.eq_dec a lo) as [E|E]; [left; exact E|right; split; [lia|apply H3; lia]].
  - destruct (IH b' i a b A N) as (K1 & K2 & K3 & K4 & K5 & K6). repeat (split; [assumption || lia|]). destruct K6 as [->|K6]; [|right; exact K6].
    exfalso. destruct H5 as [H5|H5]; [lia|]. rewrite K4 in H5 by lia. discriminate.
Qed.
Lemma zone_of f n zs : forall lo k, alternates f n lo zs -> lo <= k < n -> f k = true -> exists i a b, nth_error zs i = Some (a, b) /\ a <= k < b.
Proof.
  induction zs as [|[a b] zs IH]; intros lo k A K F; cbn [alternates] in A.
  - destruct A as [_ A]. rewrite A in F by lia. discriminate.
  - destruct A as (H0 & H1 & H2 & H3 & H4 & H5 & A). destruct (Nat.lt_ge_cases k a); [rewrite H3 in F by lia; discriminate|].
    destruct (Nat.lt_ge_cases k b); [exists 0, a, b; split; [reflexivity|lia]|]. destruct (IH b k A ltac:(lia) F) as (i & a' & b' & N & X). exists (S i), a', b'. auto.
Qed.

(** ** Assignments *)
Lemma fill_valid_none n y k : forall ms a, (forall c m, In (c, m) ms -> in_mask n m k = false) -> fill_valid n y ms a k = a k.
Proof.
  induction ms as [|[c m] ms IH]; intros a H; [reflexivity|]. cbn [fill_valid]. rewrite IH by (intros c' m' I; apply (H c' m'); right; exact I).
  unfold assign. rewrite (H c m (or_introl eq_refl)). reflexivity.
Qed.
Lemma fill_invalid_none n sums k : forall ms i a, (forall c m, In (m, c) ms -> in_mask n m k = false) -> fill_invalid n sums i ms a k = a k.
Proof.
  induction ms as [|[m c] ms IH]; intros i a H; [reflexivity|]. cbn [fill_invalid]. rewrite IH by (intros c' m' I; apply (H c' m'); right; exact I).
  unfold assign. rewrite (H c m (or_introl eq_refl)). reflexivity.
Qed.
Lemma masks_after f n zs ms lo k : alternates f n lo zs -> Forall2 (mz n) ms zs -> k < n -> k < lo \/ f k = false -> forall m, In m ms -> in_mask n m k = false.
Proof.
  intros A M K H m I. revert lo A H. induction M as [|m' [a b] ms zs Hm M IH]; intros lo A H; [destruct I|]. cbn [alternates] in A.
  destruct A as (H0 & H1 & H2 & H3 & H4 & H5 & A). destruct I as [<-|I].
  - rewrite Hm by exact K. cbn [fst snd]. apply andb_false_iff. destruct H as [H|H]; [left; apply Nat.leb_gt; lia|].
    destruct (Nat.lt_ge_cases k a); [left; apply Nat.leb_gt; lia|]. right. apply Nat.ltb_ge. destruct (Nat.lt_ge_cases k b); [|lia]. rewrite H4 in H by lia. discriminate.
  - apply (IH I b A). destruct H as [H|H]; [left; lia|right; exact H].
Qed.
Lemma fill_valid_at f n y k : forall zs ms cs lo a0 t a b, alternates f n lo zs -> Forall2 (mz n) ms zs -> nth_error zs t = Some (a, b) -> a <= k < b -> t < length cs ->
  fill_valid n y (combine cs ms) a0 k = (y k - nth t cs 0)%R.
Proof.
  induction zs as [|[a' b'] zs IH]; intros ms cs lo a0 t a b A M N K T; [destruct t; discriminate|]. inversion M as [|m z0 ms' zs0 Hm HM E1 E2]; subst; clear M.
  destruct cs as [|c cs]; [cbn in T; lia|]. cbn [combine fill_valid]. cbn [alternates] in A. destruct A as (H0 & H1' & H2 & H3' & H4' & H5 & A). destruct t as [|t]; cbn in N.
  - inversion N; subst. rewrite fill_valid_none.
    + unfold assign. rewrite Hm by lia. cbn [fst snd nth]. destruct (Nat.leb_spec a k); [|lia]. destruct (Nat.ltb_spec k b); [|lia]. reflexivity.
    + intros c' m' I. apply in_combine_r in I. apply (masks_after f n zs ms' b k A HM); [lia|left; lia|exact I].
  - cbn [nth]. apply (IH ms' cs b' _ t a b A HM N K). cbn in T. lia.
Qed.
Lemma fill_invalid_at f n sums k : forall zs ms cs lo i a0 t a b, alternates f n lo zs -> Forall2 (mz n) ms zs -> length cs = length zs -> nth_error zs t = Some (a, b) -> a <= k < b ->
  fill_invalid n sums i (combine ms cs) a0 k = match i + t with O => nth t cs 0%R | S p => (nth t cs 0 - nth p sums 0)%R end.
Proof.
  induction zs as [|[a' b'] zs IH]; intros ms cs lo i a0 t a b A M Lc N K; [destruct t; discriminate|]. inversion M as [|m z0 ms' zs0 Hm HM E1 E2]; subst; clear M.
  destruct cs as [|c cs]; [discriminate|]. cbn [combine fill_invalid]. cbn [alternates] in A. destruct A as (H0 & H1' & H2 & H3' & H4' & H5 & A). destruct t as [|t]; cbn in N.
  - inversion N; subst. rewrite fill_invalid_none.
    + unfold assign. rewrite Hm by lia. cbn [fst snd nth]. destruct (Nat.leb_spec a k); [|lia]. destruct (Nat.ltb_spec k b); [|lia]. rewrite Nat.add_0_r. reflexivity.
    + intros c' m' I. apply in_combine_l in I. apply (masks_after f n zs ms' b k A HM); [lia|left; lia|exact I].
  - cbn [nth]. rewrite <- Nat.add_succ_comm. apply (IH ms' cs b' (S i) _ t a b A HM); [cbn in Lc; lia|exact N|exact K].
Qed.
