(** * Zones of boolean lists. *)
From Coq Require Import Reals List Bool Arith Lia Lra.
From Verif Require Import Base Tar_Model Tar_Spec.
Import ListNotations.
Local Open Scope nat_scope.

Fixpoint up (i : nat) (v : list bool) : list nat :=
  match v with a :: ((b :: _) as r) => (if negb a && b then [S i] else []) ++ up (S i) r | _ => [] end.
Lemma starts_up_aux v : forall i, map S (nonzero i (pairwise (fun a b => negb a && b) v)) = up i v.
Proof.
  induction v as [|a [|b r] IH]; intros i; [reflexivity|reflexivity|]. change (up i (a :: b :: r)) with ((if negb a && b then [S i] else []) ++ up (S i) (b :: r)). rewrite <- IH.
  change (pairwise (fun a b => negb a && b) (a :: b :: r)) with ((negb a && b) :: pairwise (fun a b => negb a && b) (b :: r)).
  cbn [nonzero]. destruct (negb a && b); reflexivity.
Qed.
Lemma starts_up v : starts v = up 0 v. Proof. apply starts_up_aux. Qed.
Lemma ends_up_aux v : forall i, map S (nonzero i (pairwise (fun a b => a && negb b) v)) = up i (map negb v).
Proof.
  induction v as [|a [|b r] IH]; intros i; [reflexivity|reflexivity|].
  change (up i (map negb (a :: b :: r))) with ((if negb (negb a) && negb b then [S i] else []) ++ up (S i) (map negb (b :: r))). rewrite <- IH, negb_involutive.
  change (pairwise (fun a b => a && negb b) (a :: b :: r)) with ((a && negb b) :: pairwise (fun a b => a && negb b) (b :: r)).
  cbn [nonzero]. destruct (a && negb b); reflexivity.
Qed.
Lemma ends_up v : map S (ends v) = up 0 (map negb v). Proof. apply ends_up_aux. Qed.

Definition st (i : nat) (v : list bool) : list nat := (if hd false v then [i] else []) ++ up i v.
Definition en (i : nat) (v : list bool) : list nat := up i (map negb v) ++ (if last v false then [i + length v] else []).
Fixpoint alternates (f : nat -> bool) (n lo : nat) (zs : list (nat * nat)) : Prop :=
  match zs with
  | [] => lo <= n /\ forall j, lo <= j < n -> f j = false
  | (a, b) :: zs' => lo <= a /\ a < b /\ b <= n /\ (forall j, lo <= j < a -> f j = false) /\ (forall j, a <= j < b -> f j = true) /\
      (b = n \/ f b = false) /\ alternates f n b zs'
  end.
Lemma alternates_ext f g n zs : forall lo, (forall j, lo <= j < n -> f j = g j) -> alternates f n lo zs -> alternates g n lo zs.
Proof.
  induction zs as [|[a b] zs IH]; intros lo E; cbn.
  - intros [L H]. split; [exact L|]. intros j J. rewrite <- E by lia. apply H. lia.
  - intros (H1 & H2 & H3 & H4 & H5 & H6 & H7). split; [exact H1|]. split; [exact H2|]. split; [exact H3|].
    split; [intros j J; rewrite <- E by lia; apply H4; lia|]. split; [intros j J; rewrite <- E by lia; apply H5; lia|].
    split; [|apply (IH b); [intros j J; apply E; lia|exact H7]].
    destruct H6 as [H6|H6]; [left; exact H6|]. destruct (Nat.eq_dec b n) as [->|N]; [left; reflexivity|right]. rewrite <- E by lia. exact H6.
Qed.
Lemma alternates_lower f n i zs : f i = false -> alternates f n (S i) zs -> alternates f n i zs.
Proof.
  intros F. destruct zs as [|[a b] zs]; cbn.
  - intros [L H]. split; [lia|]. intros j J. destruct (Nat.eq_dec j i) as [->|N]; [exact F|apply H; lia].
  - intros (H1 & H2 & H3 & H4 & H). split; [lia|]. split; [exact H2|]. split; [exact H3|]. split; [|exact H].
    intros j J. destruct (Nat.eq_dec j i) as [->|N]; [exact F|apply H4; lia].
Qed.
Lemma zones_alternate v : forall i, v <> [] -> length (st i v) = length (en i v) /\
  alternates (fun j => nth (j - i) v false) (i + length v) i (combine (st i v) (en i v)).
Proof.
  induction v as [|a [|b r] IH]; intros i NE; [contradiction| |].
  - unfold st, en. destruct a; cbn.
    + split; [reflexivity|]. split; [lia|]. split; [lia|]. split; [lia|]. split; [intros; lia|].
      split; [intros j J; replace (j - i) with 0 by lia; reflexivity|]. split; [left; reflexivity|]. split; [lia|intros; lia].
    + split; [reflexivity|]. split; [lia|]. intros j J. replace (j - i) with 0 by lia. reflexivity.
  - destruct (IH (S i) ltac:(discriminate)) as [L A]. clear IH.
    assert (E : forall j, S i <= j < S i + length (b :: r) -> nth (j - S i) (b :: r) false = nth (j - i) (a :: b :: r) false).
    { intros j J. replace (j - i) with (S (j - S i)) by lia. reflexivity. }
    pose proof (alternates_ext _ _ _ _ _ E A) as A'. clear E A. replace (S i + length (b :: r)) with (i + length (a :: b :: r)) in A' by (cbn; lia).
    assert (En : en i (a :: b :: r) = (if a && negb b then [S i] else []) ++ en (S i) (b :: r)).
    { unfold en. change (up i (map negb (a :: b :: r))) with ((if negb (negb a) && negb b then [S i] else []) ++ up (S i) (map negb (b :: r))).
      rewrite negb_involutive, <- app_assoc. change (last (a :: b :: r) false) with (last (b :: r) false). replace (i + length (a :: b :: r)) with (S i + length (b :: r)) by (cbn; lia). reflexivity. }
    assert (Si : st i (a :: b :: r) = (if a then [i] else []) ++ (if negb a && b then [S i] else []) ++ up (S i) (b :: r)) by reflexivity.
    rewrite En, Si. unfold st in L, A'. cbn [hd] in L, A'. destruct a, b; cbn [negb andb app] in *.
    + destruct (en (S i) (true :: r)) as [|e es]; [discriminate|]. cbn [combine alternates length] in *. split; [exact L|].
      destruct A' as (H1 & H2 & H3 & H4 & H5 & H6 & H7). split; [lia|]. split; [lia|]. split; [exact H3|]. split; [intros; lia|].
      split; [|split; [exact H6|exact H7]]. intros j J. destruct (Nat.eq_dec j i) as [->|N]; [rewrite Nat.sub_diag; reflexivity|apply H5; lia].
    + cbn [combine alternates length] in *. split; [lia|]. split; [lia|]. split; [lia|]. split; [lia|]. split; [intros; lia|].
      split; [intros j J; replace (j - i) with 0 by lia; reflexivity|]. split; [right; replace (S i - i) with 1 by lia; reflexivity|exact A'].
    + split; [exact L|]. apply alternates_lower; [rewrite Nat.sub_diag; reflexivity|exact A'].
    + split; [exact L|]. apply alternates_lower; [rewrite Nat.sub_diag; reflexivity|exact A'].
Qed.
Definition Tz (v : list bool) := combine (st 0 v) (en 0 v).
Definition Fz (v : list bool) := Tz (map negb v).
Lemma Tz_alt v : v <> [] -> alternates (fun j => nth j v false) (length v) 0 (Tz v).
Proof. intros N. destruct (zones_alternate v 0 N) as [_ A]. apply (alternates_ext _ (fun j => nth j v false)) in A; [exact A|]. intros j _. rewrite Nat.sub_0_r. reflexivity. Qed.
Lemma Fz_alt v : v <> [] -> alternates (fun j => negb (nth j v false)) (length v) 0 (Fz v).
Proof.
  intros N. assert (N' : map negb v <> []) by (destruct v; [contradiction|discriminate]). pose proof (Tz_alt _ N') as A. rewrite map_length in A.
  apply (alternates_ext _ (fun j => negb (nth j v false))) in A; [exact A|]. intros j J.
  rewrite (nth_indep _ false (negb false)) by (rewrite map_length; lia). apply map_nth.
Qed.
Lemma Tz_lengths v : v <> [] -> length (st 0 v) = length (en 0 v).
Proof. intros N. apply zones_alternate, N. Qed.
(** the masks of a list of zones *)
Definition mz (n : nat) (m : mask) (z : nat * nat) : Prop := forall k, k < n -> in_mask n m k = (fst z <=? k) && (k <? snd z).
Lemma mz_mid n a b : mz n (Slice (Some a) (Some b)) (a, b).
Proof. intros k K. cbn [in_mask fst snd]. apply Nat.ltb_lt in K. rewrite K. apply andb_true_r. Qed.
Lemma mz_low n b : mz n (Slice None (Some b)) (0, b).
Proof. intros k K. cbn [in_mask fst snd Nat.leb andb]. apply Nat.ltb_lt in K. rewrite K. apply andb_true_r. Qed.
Lemma mz_high n a : mz n (Slice (Some a) None) (a, n).
Proof. intros k K. cbn [in_mask fst snd]. rewrite andb_true_r. reflexivity. Qed.
Lemma mz_valid n s : forall e, Forall2 (mz n) (valid_slices s e) (combine s (map S e)).
Proof. induction s as [|a s IH]; intros [|b e]; cbn; constructor; [|apply IH]. rewrite Nat.add_1_r. apply mz_mid. Qed.
Lemma mz_invalid n e : forall s, Forall2 (mz n) (invalid_slices s e) (combine (map S e) s).
Proof. induction e as [|b e IH]; intros [|a s]; cbn; constructor; [|apply IH]. rewrite Nat.add_1_r. apply mz_mid. Qed.
Lemma pairs_eq e : forall s, invalid_pairs s e = combine (map S e) s.
Proof. induction e as [|b e IH]; intros [|a s]; cbn; try reflexivity. rewrite Nat.add_1_r. f_equal. apply IH. Qed.
Lemma combine_app {A B} (l1 : list A) : forall (k1 : list B) l2 k2, length l1 = length k1 -> combine (l1 ++ l2) (k1 ++ k2) = combine l1 k1 ++ combine l2 k2.
Proof. induction l1 as [|a l1 IH]; intros [|b k1] l2 k2 E; try discriminate; cbn; [reflexivity|]. f_equal. apply IH. cbn in E. lia. Qed.
Lemma final_ok {A} (l : list A) x : final (l ++ [x]) = Ok x.
Proof. unfold final. rewrite rev_app_distr. reflexivity. Qed.
Lemma up_low v : forall i x, In x (up i v) -> i < x.
Proof.
  induction v as [|a [|b r] IH]; intros i x H; [destruct H|destruct H|]. cbn [up] in H. apply in_app_or in H. destruct H as [H|H].
  - destruct (negb a && b); [destruct H as [<-|[]]; lia|destruct H].
  - specialize (IH (S i) x H). lia.
Qed.

Lemma hd_negb v : v <> [] -> hd false (map negb v) = negb (hd false v).
Proof. destruct v; [contradiction|reflexivity]. Qed.
Lemma last_negb v : v <> [] -> last (map negb v) false = negb (last v false).
Proof. induction v as [|a [|b r] IH]; intros N; [contradiction|reflexivity|]. change (last (map negb (b :: r)) false = negb (last (b :: r) false)). apply IH. discriminate. Qed.
Lemma negb_negb v : map negb (map negb v) = v.
Proof. rewrite map_map. rewrite <- (map_id v) at 2. apply map_ext, negb_involutive. Qed.
Lemma Tz_eq v : Tz v = combine ((if hd false v then [0] else []) ++ starts v) (map S (ends v) ++ (if last v false then [length v] else [])).
Proof. unfold Tz, st, en. rewrite starts_up, ends_up. reflexivity. Qed.
Lemma Fz_eq v : v <> [] -> Fz v = combine ((if hd false v then [] else [0]) ++ map S (ends v)) (starts v ++ (if last v false then [] else [length v])).
Proof.
  intros N. unfold Fz, Tz, st, en. rewrite hd_negb, last_negb, negb_negb, map_length, starts_up, ends_up by exact N. destruct (hd false v), (last v false); reflexivity.
Qed.
Lemma counts v : v <> [] -> length ((if hd false v then [0] else []) ++ starts v) = length (map S (ends v) ++ (if last v false then [length v] else [])).
Proof. intros N. pose proof (Tz_lengths v N) as L. unfold st, en in L. rewrite starts_up, ends_up. exact L. Qed.
Lemma starts_lt v x : v <> [] -> In x (starts v) -> x < length v.
Proof.
  intros N H. rewrite starts_up in H.
  assert (K : forall v i, In x (up i v) -> x < i + length v).
  { clear. induction v as [|a [|b r] IH]; intros i H; [destruct H|destruct H|]. cbn [up] in H. apply in_app_or in H. destruct H as [H|H].
    - destruct (negb a && b); [destruct H as [<-|[]]; cbn; lia|destruct H].
    - specialize (IH (S i) H). cbn in *. lia. }
  exact (K v 0 H).
Qed.
Definition clip (n : nat) (z : nat * nat) : nat * nat := (fst z, Nat.min (snd z) (n - 1)).
Lemma clip_id n l k : (forall x, In x k -> x < n) -> map (clip n) (combine l k) = combine l k.
Proof.
  intros H. rewrite <- (map_id (combine l k)) at 2. apply map_ext_in. intros [a b] I. unfold clip. cbn. apply in_combine_r in I. specialize (H b I). f_equal. lia.
Qed.
Lemma snoc {A} (l : list A) : l <> [] -> exists x, l = removelast l ++ [x].
Proof. intros N. destruct (exists_last N) as (l' & x & ->). exists x. rewrite removelast_last. reflexivity. Qed.
Lemma removelast_length {A} (l : list A) : length (removelast l) = length l - 1.
Proof. induction l as [|a [|b l] IH]; [reflexivity|reflexivity|]. change (S (length (removelast (b :: l))) = S (length (b :: l)) - 1). rewrite IH. cbn. lia. Qed.
Lemma first_start_end v : v <> [] -> forall s0 s' e0 e', starts v = s0 :: s' -> ends v = e0 :: e' -> (e0 <? s0) = hd false v.
Proof.
  intros N s0 s' e0 e' Es Ee. pose proof (Tz_alt v N) as T. rewrite Tz_eq, Es, Ee in T. destruct (hd false v) eqn:H.
  - cbn [app combine map alternates] in T. destruct T as (_ & _ & B & _ & _ & X & T). destruct (map S e' ++ (if last v false then [length v] else [])) as [|b bs] eqn:Q.
    + exfalso. pose proof (counts v N) as C. rewrite Es, Ee, H in C. cbn [map app] in C. rewrite Q in C. discriminate.
    + apply Nat.ltb_lt. cbn in T. destruct T as (H1 & H2 & H3 & H4 & H5 & _). destruct X as [X|X]; [lia|]. destruct (Nat.eq_dec (S e0) s0) as [E|E]; [|lia]. subst s0. rewrite H5 in X by lia. discriminate.
  - cbn [app combine map alternates] in T. destruct T as (_ & A & _). apply Nat.ltb_ge. lia.
Qed.

Lemma tar_zones_ok rot freq : let v := tar_valid rot freq in
  v <> [] -> starts v <> [] \/ ends v <> [] ->
  exists z, tar_zones true rot freq = Ok z /\ z_valid z = v /\ z_fully z = false /\
    Forall2 (mz (length v)) (z_valid_masks z) (Tz v) /\ Forall2 (mz (length v)) (z_invalid_masks z) (Fz v) /\ z_indices z = map (clip (length v)) (Fz v).
Proof.
  intros v N NE. pose proof (counts v N) as C. pose proof (starts_lt v) as SL. pose proof (first_start_end v N) as FE. rewrite (Tz_eq v), (Fz_eq v N).
  unfold tar_zones. fold v. set (n := length v) in *. cbn [negb]. clearbody n.
  assert (Sn : forall x, In x (starts v) -> x < n) by (intros x; apply SL, N). clear SL.
  rewrite !app_length, map_length in C.
  destruct (starts v) as [|s0 s'] eqn:Es, (ends v) as [|e0 e'] eqn:Ee.
  - destruct NE; contradiction.
  - (* no start: valid core, invalid surface, one end *)
    destruct (hd false v), (last v false); cbn in C; try discriminate; try (exfalso; clear - C; lia). destruct e' as [|? ?]; [|discriminate]. cbn.
    eexists. split; [reflexivity|]. cbn. split; [reflexivity|]. split; [reflexivity|]. rewrite Nat.add_1_r. split; [constructor; [apply mz_low|constructor]|].
    split; [constructor; [apply mz_high|constructor]|]. unfold clip. cbn [combine app map fst snd]. replace (Nat.min n (n - 1)) with (n - 1) by lia. reflexivity.
  - (* no end: invalid core, valid surface *)
    destruct (hd false v), (last v false); cbn in C; try discriminate; try (exfalso; clear - C; lia). destruct s' as [|? ?]; [|discriminate]. cbn.
    eexists. split; [reflexivity|]. cbn. split; [reflexivity|]. split; [reflexivity|]. split; [constructor; [apply mz_high|constructor]|].
    split; [constructor; [apply mz_low|constructor]|]. unfold clip. cbn. pose proof (Sn s0 (or_introl eq_refl)). replace (Nat.min s0 (n - 1)) with s0 by lia. reflexivity.
  - specialize (FE s0 s' e0 e' eq_refl eq_refl).
    assert (B : (length (s0 :: s') =? 0) && (length (e0 :: e') =? 0) = false) by reflexivity. rewrite B. clear B.
    destruct (snoc (s0 :: s') ltac:(discriminate)) as [sl Hsl]. destruct (snoc (e0 :: e') ltac:(discriminate)) as [el Hel].
    assert (Fs : final (s0 :: s') = Ok sl) by (rewrite Hsl; apply final_ok). assert (Fe : final (e0 :: e') = Ok el) by (rewrite Hel; apply final_ok).
    pose proof (removelast_length (s0 :: s')) as Rs. pose proof (removelast_length (e0 :: e')) as Re.
    destruct (hd false v) eqn:Hd, (last v false) eqn:Hl; cbn [length app] in C.
    + (* valid core, valid surface *)
      assert (L : length (s0 :: s') =? length (e0 :: e') = true) by (apply Nat.eqb_eq; cbn; lia). rewrite L. clear L. rewrite Fs, Fe. cbn [first bind]. rewrite FE.
      eexists. split; [reflexivity|]. cbn [z_valid z_fully z_valid_masks z_invalid_masks z_indices]. split; [reflexivity|]. split; [reflexivity|]. split; [|split].
      * cbn [tl map app]. rewrite Hsl. cbn [combine]. rewrite Nat.add_1_r. constructor; [apply mz_low|]. rewrite removelast_last.
        rewrite combine_app by (rewrite map_length, Rs; cbn in *; lia). apply Forall2_app; [apply mz_valid|]. constructor; [apply mz_high|constructor].
      * cbn [app]. rewrite app_nil_r. apply mz_invalid.
      * cbn [app]. rewrite app_nil_r, clip_id by exact Sn. apply pairs_eq.
    + (* valid core, invalid surface *)
      assert (L : length (s0 :: s') =? length (e0 :: e') = false) by (apply Nat.eqb_neq; cbn; lia). rewrite L. clear L.
      assert (L : length (s0 :: s') =? length (e0 :: e') + 1 = false) by (apply Nat.eqb_neq; cbn; lia). rewrite L. clear L.
      assert (L : length (s0 :: s') + 1 =? length (e0 :: e') = true) by (apply Nat.eqb_eq; cbn; lia). rewrite L. clear L. rewrite Fe. cbn [first bind].
      eexists. split; [reflexivity|]. cbn [z_valid z_fully z_valid_masks z_invalid_masks z_indices]. split; [reflexivity|]. split; [reflexivity|]. split; [|split].
      * cbn [tl map]. rewrite app_nil_r. rewrite Nat.add_1_r. change ([0] ++ s0 :: s') with (0 :: (s0 :: s')). cbn [combine app]. constructor; [apply mz_low|]. apply mz_valid.
      * change ([] ++ map S (e0 :: e')) with (map S (e0 :: e')). rewrite Hel at 2. rewrite map_app. rewrite combine_app by (rewrite map_length, Re; cbn in *; lia). apply Forall2_app; [apply mz_invalid|].
        rewrite Nat.add_1_r. constructor; [apply mz_high|constructor].
      * change ([] ++ map S (e0 :: e')) with (map S (e0 :: e')). rewrite Hel at 2. rewrite map_app. rewrite combine_app by (rewrite map_length, Re; cbn in *; lia). rewrite map_app, clip_id by exact Sn. rewrite pairs_eq. f_equal.
        unfold clip. cbn [combine map fst snd]. rewrite Nat.add_1_r. replace (Nat.min n (n - 1)) with (n - 1) by lia. reflexivity.
    + (* invalid core, valid surface *)
      assert (L : length (s0 :: s') =? length (e0 :: e') = false) by (apply Nat.eqb_neq; cbn; lia). rewrite L. clear L.
      assert (L : length (s0 :: s') =? length (e0 :: e') + 1 = true) by (apply Nat.eqb_eq; cbn; lia). rewrite L. clear L. rewrite Fs. cbn [first bind].
      eexists. split; [reflexivity|]. cbn [z_valid z_fully z_valid_masks z_invalid_masks z_indices]. split; [reflexivity|]. split; [reflexivity|]. split; [|split].
      * change ([] ++ s0 :: s') with (s0 :: s'). rewrite Hsl at 2. rewrite combine_app by (rewrite map_length, Rs; cbn in *; lia). apply Forall2_app; [apply mz_valid|]. constructor; [apply mz_high|constructor].
      * rewrite app_nil_r. cbn [app tl combine]. constructor; [apply mz_low|apply mz_invalid].
      * rewrite app_nil_r. rewrite clip_id by exact Sn. cbn [app tl combine]. f_equal. apply pairs_eq.
    + (* invalid core, invalid surface *)
      assert (L : length (s0 :: s') =? length (e0 :: e') = true) by (apply Nat.eqb_eq; cbn; lia). rewrite L. clear L. rewrite Fs, Fe. cbn [first bind]. rewrite FE.
      eexists. split; [reflexivity|]. cbn [z_valid z_fully z_valid_masks z_invalid_masks z_indices]. split; [reflexivity|]. split; [reflexivity|]. split; [|split].
      * cbn [app]. rewrite app_nil_r. apply mz_valid.
      * rewrite Hel at 2. rewrite map_app. change ((s0 :: s') ++ [n]) with (s0 :: (s' ++ [n])). cbn [app tl combine]. constructor; [apply mz_low|].
        rewrite combine_app by (rewrite map_length, Re; cbn in *; lia). apply Forall2_app; [apply mz_invalid|]. rewrite Nat.add_1_r. constructor; [apply mz_high|constructor].
      * rewrite Hel at 2. rewrite map_app. change ((s0 :: s') ++ [n]) with (s0 :: (s' ++ [n])). cbn [app tl combine].
        rewrite combine_app by (rewrite map_length, Re; cbn in *; lia). cbn [map]. rewrite map_app, clip_id by (intros x X; apply Sn; right; exact X). rewrite pairs_eq.
        pose proof (Sn s0 (or_introl eq_refl)). unfold clip. cbn [combine map fst snd]. rewrite Nat.add_1_r. replace (Nat.min n (n - 1)) with (n - 1) by lia. replace (Nat.min s0 (n - 1)) with s0 by lia. reflexivity.
Qed.
