(** * Theorems on TAR validity zones and adjusted coupling profiles: C100-C102. *)
From Coq Require Import Reals List Bool Arith Lia Lra.
From Verif Require Import Base Tar_Model Tar_Spec Tar_Proofs Tar_Adjust.
From Verif Require Stat_Model.
Import ListNotations.
Local Open Scope nat_scope.

(** ** C100: the zones *)
Lemma abs_gt_iff c n2 y : abs_gt c (brunt n2) y = true <-> (0 <= n2 /\ Rabs y < Rabs (c * sqrt n2))%R.
Proof.
  unfold abs_gt, brunt. destruct (Rlt_dec n2 0) as [H|H]; [split; [discriminate|intros [K _]; lra]|].
  destruct (Rlt_dec (Rabs y) (Rabs (c * sqrt n2))) as [L|L]; split; try discriminate; try reflexivity; try (intros _; split; [lra|exact L]). intros [_ K]. contradiction.
Qed.
Lemma combine_map_same {A B C} (f : A -> B) (g : A -> C) l : combine (map f l) (map g l) = map (fun x => (f x, g x)) l.
Proof. induction l as [|x l IH]; cbn; [reflexivity|]. rewrite IH. reflexivity. Qed.
(** the mask of valid points is the documented criterion, point by point *)
Theorem C100_validity_criterion surf conv omegas n2 i x : omegas <> [] -> nth_error n2 i = Some x ->
  exists b, nth_error (tar_valid (rotation_check surf n2) (frequency_check conv omegas n2)) i = Some b /\
    (b = true <-> tar_holds surf conv omegas x).
Proof.
  intros NE N. unfold tar_valid, rotation_check, frequency_check. rewrite combine_map_same, map_map. rewrite (map_nth_error _ _ _ N). eexists. split; [reflexivity|].
  cbn [fst snd]. rewrite andb_true_iff, forallb_forall, abs_gt_iff. unfold tar_holds. split.
  - intros [[P Rt] F]. split; [exact P|]. split.
    + rewrite (Rabs_pos_eq (0.1 * sqrt x)) in Rt; [exact Rt|]. pose proof (sqrt_pos x). lra.
    + intros w W. apply (proj1 (abs_gt_iff _ _ _)) in F || (specialize (F w W); apply abs_gt_iff in F; exact (proj2 F)).
  - intros (P & Rt & F). split.
    + split; [exact P|]. rewrite (Rabs_pos_eq (0.1 * sqrt x)); [exact Rt|]. pose proof (sqrt_pos x). lra.
    + intros w W. apply abs_gt_iff. split; [exact P|apply F, W].
Qed.
(** modes with a quality factor of at most 10 are always refused *)
Theorem C100_slow_modes_only c q : In q (i_quality c) -> (Rabs q <= 10)%R -> masking_info (Some c) = Exc PhysicsError.
Proof.
  intros I Q. unfold masking_info. assert (E : slow_manifold (i_quality c) = false).
  { unfold slow_manifold. apply not_true_is_false. intros H. rewrite forallb_forall in H. specialize (H q I). destruct (Rlt_dec 10 (Rabs q)); [lra|discriminate]. }
  rewrite E. reflexivity.
Qed.
(** Whenever there are valid and invalid points, the zones are returned: the validity masks select exactly the valid points,
    the other masks exactly the invalid ones, each once and in order; and no mask is claimed to be the whole star. *)
Theorem C100_masks_partition_the_star rot freq : let v := tar_valid rot freq in In true v -> In false v ->
  exists z, tar_zones true rot freq = Ok z /\ z_valid z = v /\ z_fully z = false /\
    flat_map (selected (length v)) (z_valid_masks z) = points true v /\
    flat_map (selected (length v)) (z_invalid_masks z) = points false v /\
    flat_map (fun ab => seq (fst ab) (snd ab - fst ab)) (z_indices z) = filter (fun j => j <? length v - 1) (points false v).
Proof.
  intros v T F. assert (N : v <> []) by (intros E; rewrite E in T; destruct T).
  assert (NE : starts v <> [] \/ ends v <> []).
  { destruct (starts v) eqn:Es; [|left; discriminate]. destruct (ends v) eqn:Ee; [|right; discriminate]. exfalso.
    pose proof (Tz_alt v N) as A. rewrite Tz_eq, Es, Ee in A. pose proof (counts v N) as C. rewrite Es, Ee in C.
    apply (In_nth _ _ false) in T, F. destruct T as (i & I & Ti), F as (j & J & Fj).
    destruct (hd false v), (last v false); cbn in C; try discriminate; cbn [app map combine alternates] in A.
    - destruct A as (_ & _ & _ & _ & A & _). rewrite A in Fj by lia. discriminate.
    - destruct A as (_ & A). rewrite A in Ti by lia. discriminate. }
  destruct (tar_zones_ok rot freq N NE) as (z & Z & V & Fu & M1 & M2 & Ix). fold v in M1, M2, V, Ix. exists z. split; [exact Z|]. split; [exact V|]. split; [exact Fu|].
  pose proof (alternates_points _ _ _ 0 _ (Fz_alt v N) M2) as PF. rewrite Nat.sub_0_r in PF.
  split; [|split].
  - rewrite (alternates_points _ _ _ 0 _ (Tz_alt v N) M1). rewrite Nat.sub_0_r. unfold points. apply filter_ext. intros j. destruct (nth j v false); reflexivity.
  - rewrite PF. unfold points. apply filter_ext. intros j. destruct (nth j v false); reflexivity.
  - rewrite Ix. clear - N. unfold points. pose proof (Fz_alt v N) as A.
    assert (K : forall zs lo, alternates (fun j => negb (nth j v false)) (length v) lo zs -> flat_map (fun ab => seq (fst ab) (snd ab - fst ab)) (map (clip (length v)) zs)
      = filter (fun j => j <? length v - 1) (filter (fun j => negb (nth j v false)) (seq lo (length v - lo)))).
    { clear A. induction zs as [|[a b] zs IH]; intros lo A; cbn [alternates] in A.
      - destruct A as [_ A]. rewrite (filter_none (fun j => negb _)); [reflexivity|]. intros x X. apply in_seq in X. apply A. lia.
      - destruct A as (H0 & H1 & H2 & H3 & H4 & H5 & A). cbn [map flat_map]. rewrite (IH b A). unfold clip. cbn [fst snd].
        replace (length v - lo) with ((a - lo) + ((b - a) + (length v - b))) by lia. rewrite !seq_app, !filter_app.
        rewrite (filter_none (fun j => negb _) (seq lo (a - lo))) by (intros x X; apply in_seq in X; apply H3; lia).
        rewrite (filter_all (fun j => negb _) (seq (lo + (a - lo)) (b - a))) by (intros x X; apply in_seq in X; apply H4; lia).
        cbn [app filter]. replace (lo + (a - lo)) with a by lia. replace (a + (b - a)) with b by lia. f_equal.
        destruct (Nat.eq_dec b (length v)) as [E|E].
        + replace (b - a) with ((Nat.min b (length v - 1) - a) + 1) by lia. rewrite seq_app, filter_app. rewrite filter_all by (intros x X; apply in_seq in X; apply Nat.ltb_lt; lia).
          rewrite filter_none by (intros x X; apply in_seq in X; apply Nat.ltb_ge; lia). rewrite app_nil_r. reflexivity.
        + rewrite filter_all by (intros x X; apply in_seq in X; apply Nat.ltb_lt; lia). f_equal. lia. }
    rewrite (K _ 0 A), Nat.sub_0_r. reflexivity.
Qed.
Lemma constant_no_change v b : (forall x, In x v -> x = b) -> starts v = [] /\ ends v = [].
Proof.
  intros H. assert (U : forall v i, (forall x, In x v -> x = b) -> up i v = []).
  { clear. induction v as [|a [|c r] IH]; intros i H; try reflexivity. change (up i (a :: c :: r)) with ((if negb a && c then [S i] else []) ++ up (S i) (c :: r)). rewrite (IH (S i)) by (intros x X; apply H; right; exact X).
    rewrite (H a (or_introl eq_refl)), (H c (or_intror (or_introl eq_refl))). destruct b; reflexivity. }
  split; [rewrite starts_up; apply U, H|]. assert (E : map S (ends v) = []).
  { rewrite ends_up. assert (G : forall v i, (forall x, In x v -> x = b) -> up i (map negb v) = []).
    { clear. induction v as [|a [|c r] IH]; intros i H; try reflexivity. change (up i (map negb (a :: c :: r))) with ((if negb (negb a) && negb c then [S i] else []) ++ up (S i) (map negb (c :: r))).
      rewrite (IH (S i)) by (intros x X; apply H; right; exact X).
      rewrite (H a (or_introl eq_refl)), (H c (or_intror (or_introl eq_refl))). destruct b; reflexivity. }
    apply G, H. }
  destruct (ends v); [reflexivity|discriminate].
Qed.
Lemma unique_const l b : l <> [] -> (forall x, In x l -> x = b) -> unique l = [b].
Proof.
  intros N H. unfold unique. destruct l as [|a l]; [contradiction|].
  assert (E1 : existsb negb (a :: l) = negb b).
  { apply eq_true_iff_eq. rewrite existsb_exists. split; [intros (x & I & X); rewrite (H x I) in X; exact X|intros X; exists a; split; [left; reflexivity|rewrite (H a (or_introl eq_refl)); exact X]]. }
  assert (E2 : existsb (fun x => x) (a :: l) = b).
  { apply eq_true_iff_eq. rewrite existsb_exists. split; [intros (x & I & X); rewrite (H x I) in X; exact X|intros X; exists a; split; [left; reflexivity|rewrite (H a (or_introl eq_refl)); exact X]]. }
  rewrite E1, E2. destruct b; reflexivity.
Qed.
Lemma valid_split (rot freq : list bool) : length rot = length freq -> (forall x, In x (tar_valid rot freq) -> x = true) -> (forall x, In x rot -> x = true) /\ forall x, In x freq -> x = true.
Proof.
  revert freq. induction rot as [|a rot IH]; intros [|c freq] L H; try discriminate; [split; intros x []|]. cbn in H.
  pose proof (H (a && c) (or_introl eq_refl)) as E. apply andb_true_iff in E. destruct E as [-> ->].
  destruct (IH freq ltac:(cbn in L; lia) (fun x X => H x (or_intror X))) as [P Q]. split; intros x [<-|X]; auto.
Qed.
(** Finding: a star in which the TAR holds everywhere is rejected with the message that no validity zones were found. *)
Theorem C100_fully_valid_star_rejected rot freq : length rot = length freq -> (forall x, In x (tar_valid rot freq) -> x = true) -> tar_zones true rot freq = Exc PhysicsError.
Proof.
  intros L H. unfold tar_zones. destruct (constant_no_change _ true H) as [-> ->]. cbn [negb length Nat.eqb andb]. destruct (valid_split rot freq L H) as [P Q]. unfold explain.
  destruct rot as [|a rot]; [destruct freq; [reflexivity|discriminate]|]. destruct freq as [|c freq]; [discriminate|].
  rewrite (unique_const (a :: rot) true), (unique_const (c :: freq) true) by (assumption || discriminate). reflexivity.
Qed.
(** A star in which the TAR holds nowhere gives one invalid zone when one of the two criteria fails everywhere and the other
    fails somewhere. *)
Theorem C100_fully_invalid_star rot freq : length rot = length freq -> rot <> [] -> (forall x, In x (tar_valid rot freq) -> x = false) ->
  (forall x, In x rot -> x = false) /\ In false freq \/ (forall x, In x freq -> x = false) /\ In false rot ->
  exists z, tar_zones true rot freq = Ok z /\ z_fully z = true /\ z_indices z = [(0, length rot - 1)] /\ flat_map (selected (length rot)) (z_invalid_masks z) = seq 0 (length rot).
Proof.
  intros L N H D. unfold tar_zones. destruct (constant_no_change _ false H) as [-> ->]. cbn [negb length Nat.eqb andb].
  assert (Nf : freq <> []) by (destruct freq; [destruct rot; [contradiction|discriminate]|discriminate]).
  assert (Lv : length (tar_valid rot freq) = length rot) by (unfold tar_valid; rewrite map_length, combine_length; lia).
  assert (E : explain rot freq = Ok tt).
  { unfold explain. assert (U : forall l, In false l -> unique l = [false] \/ unique l = [false; true]).
    { intros l I. unfold unique. assert (X : existsb negb l = true) by (apply existsb_exists; exists false; split; [exact I|reflexivity]). rewrite X. destruct (existsb (fun b => b) l); [right|left]; reflexivity. }
    destruct D as [[D I]|[D I]].
    - rewrite (unique_const rot false N D). destruct (U _ I) as [-> | ->]; reflexivity.
    - rewrite (unique_const freq false Nf D). destruct (U _ I) as [-> | ->]; reflexivity. }
  rewrite E. cbn [bind]. eexists. split; [reflexivity|]. cbn [z_fully z_indices z_invalid_masks]. split; [reflexivity|]. rewrite Lv. split; [reflexivity|].
  cbn [flat_map]. rewrite app_nil_r. unfold selected. apply filter_all. intros x X. apply in_seq in X. cbn. apply Nat.ltb_lt. lia.
Qed.
(** Finding: it is rejected when one criterion fails everywhere and the other holds everywhere, or when both hold somewhere. *)
Theorem C100_some_invalid_stars_rejected rot freq : length rot = length freq -> (forall x, In x (tar_valid rot freq) -> x = false) ->
  (forall x, In x rot -> x = false) /\ (forall x, In x freq -> x = true) \/ (forall x, In x freq -> x = false) /\ (forall x, In x rot -> x = true) \/
  In true rot /\ In true freq -> tar_zones true rot freq = Exc PhysicsError.
Proof.
  intros L H D. unfold tar_zones. destruct (constant_no_change _ false H) as [-> ->]. cbn [negb length Nat.eqb andb].
  assert (E : explain rot freq = Exc PhysicsError).
  { unfold explain. destruct rot as [|a rot], freq as [|c freq]; try discriminate; [reflexivity|]. destruct D as [[D1 D2]|[[D1 D2]|[D1 D2]]].
    - rewrite (unique_const (a :: rot) false), (unique_const (c :: freq) true) by (assumption || discriminate). reflexivity.
    - rewrite (unique_const (c :: freq) false), (unique_const (a :: rot) true) by (assumption || discriminate). reflexivity.
    - assert (U : forall l, In true l -> unique l = [true] \/ unique l = [false; true]).
      { intros l I. unfold unique. assert (X : existsb (fun b => b) l = true) by (apply existsb_exists; exists true; split; [exact I|reflexivity]). rewrite X. destruct (existsb negb l); [right|left]; reflexivity. }
      destruct (U _ D1) as [-> | ->], (U _ D2) as [-> | ->]; reflexivity. }
  rewrite E. reflexivity.
Qed.
(** Finding: without a coupling object (the pre-check failed) the request ends in an attribute error. *)
Theorem C100_no_coupling_object : masking_info None = Exc AttributeError.
Proof. reflexivity. Qed.
Definition ex_rot := [false; true; true; false; true].
Definition ex_freq := [true; true; true; true; true].
Theorem C100_hypotheses_met : In true (tar_valid ex_rot ex_freq) /\ In false (tar_valid ex_rot ex_freq) /\ length ex_rot = length ex_freq.
Proof. cbn. auto 10. Qed.

Lemma last_nth (v : list bool) : v <> [] -> last v false = nth (length v - 1) v false.
Proof. intros N. destruct (exists_last N) as (l & x & ->). rewrite last_last, app_length, app_nth2 by (cbn; lia). replace (length l + length [x] - 1 - length l) with 0 by (cbn; lia). reflexivity. Qed.
Lemma Fz_nonempty v : v <> [] -> starts v <> [] \/ ends v <> [] -> Fz v <> [].
Proof.
  intros N NE E. pose proof (Fz_alt v N) as A. rewrite E in A. destruct A as [_ A].
  destruct (constant_no_change v true) as [S0 E0]; [|rewrite S0, E0 in NE; destruct NE; contradiction].
  intros x I. apply (In_nth _ _ false) in I. destruct I as (j & J & <-). apply negb_false_iff, A. lia.
Qed.
Lemma adjusted_mixed rot freq y z : let v := tar_valid rot freq in v <> [] -> starts v <> [] \/ ends v <> [] -> tar_zones true rot freq = Ok z ->
  adj_value (adjust (length (z_valid z)) y z) = (y (length v - 1)%nat - lost y (fun j => negb (nth j v false)) (length v - 1)%nat)%R /\ z_valid z = v.
Proof.
  intros v N NE Z. destruct (tar_zones_ok rot freq N NE) as (z' & Z' & V & _ & _ & _ & Ix). fold v in V, Ix. rewrite Z in Z'. inversion Z'; subst z'. rewrite V. split; [|reflexivity].
  cbn [adjust adj_value]. rewrite Ix. pose proof (Fz_alt v N) as A. assert (P : 0 < length v) by (destruct v; [contradiction|cbn; lia]).
  f_equal. f_equal. change 0%R with (lost y (fun j => negb (nth j v false)) 0) at 1. rewrite (sums_lost y _ _ _ 0 A P).
  pose proof (last_lost y _ _ _ 0 A P) as K. pose proof (Fz_nonempty v N NE) as NF. destruct (Fz v) as [|z1 zs]; [contradiction|exact K].
Qed.

(** ** C101: adjusted coupling coefficients *)
(** The adjusted value keeps exactly the growth over the intervals that begin at a valid point. *)
Theorem C101_adjusted_value rot freq y z : length rot = length freq -> tar_zones true rot freq = Ok z ->
  adj_value (adjust (length (z_valid z)) y z) = kept y (z_valid z) (length (z_valid z) - 1) /\ plain (adjust (length (z_valid z)) y z) = y (length (z_valid z) - 1).
Proof.
  intros L Z. split; [|reflexivity]. set (v := tar_valid rot freq) in *. rewrite kept_lost.
  destruct (starts v) as [|s0 ss] eqn:Es, (ends v) as [|e0 es] eqn:Ee.
  - unfold tar_zones in Z. fold v in Z. rewrite Es, Ee in Z. cbn [negb length Nat.eqb andb] in Z.
    destruct (explain rot freq) as [[]| |e] eqn:X; try discriminate. inversion Z; subst z. clear Z. cbn [adjust adj_value z_indices z_valid].
    unfold contribution. cbn [map cumsum last fst snd]. f_equal. f_equal. rewrite Rplus_0_l.
    destruct v as [|a v'] eqn:Ev; [cbn; lra|]. assert (N : a :: v' <> []) by discriminate. pose proof (Fz_alt _ N) as A. rewrite (Fz_eq _ N), Es, Ee in A. pose proof (counts _ N) as C. rewrite Es, Ee in C. rewrite <- Ev in *.
    assert (Hd : hd false v = false).
    { destruct (hd false v) eqn:Hd; [|reflexivity]. exfalso.
      assert (T : forall x, In x v -> x = true).
      { destruct (last v false) eqn:Hl; [|cbn in C; discriminate]. pose proof (Tz_alt v ltac:(rewrite Ev; discriminate)) as T. rewrite Tz_eq, Es, Ee, Hd, Hl in T. cbn [app map combine alternates] in T.
        destruct T as (_ & _ & _ & _ & T & _). intros x I. apply (In_nth _ _ false) in I. destruct I as (j & J & <-). apply T. lia. }
      pose proof (C100_fully_valid_star_rejected rot freq L T) as K. unfold tar_zones in K. fold v in K. rewrite Es, Ee in K. cbn [negb length Nat.eqb andb] in K. rewrite X in K. discriminate. }
    rewrite Hd in *. destruct (last v false); [cbn in C; discriminate|]. cbn [app map combine alternates] in A. destruct A as (_ & _ & _ & _ & A & _).
    rewrite (lost_in y _ 0 (length v - 1)); [cbn [lost]; lra|intros j J; apply A; lia|lia].
  - assert (N : v <> []) by (intros Nv; rewrite Nv in Ee; discriminate).
    assert (NE : starts v <> [] \/ ends v <> []) by (right; rewrite Ee; discriminate).
    destruct (adjusted_mixed rot freq y z N NE Z) as [K V]. rewrite K, V. reflexivity.
  - assert (N : v <> []) by (intros Nv; rewrite Nv in Es; discriminate).
    assert (NE : starts v <> [] \/ ends v <> []) by (left; rewrite Es; discriminate).
    destruct (adjusted_mixed rot freq y z N NE Z) as [K V]. rewrite K, V. reflexivity.
  - assert (N : v <> []) by (intros Nv; rewrite Nv in Es; discriminate).
    assert (NE : starts v <> [] \/ ends v <> []) by (left; rewrite Es; discriminate).
    destruct (adjusted_mixed rot freq y z N NE Z) as [K V]. rewrite K, V. reflexivity.
Qed.

(** Where the core is invalid, the adjusted profile keeps exactly that growth at every radius. *)
Theorem C101_adjusted_profile_invalid_core rot freq y z k : let v := tar_valid rot freq in
  hd false v = false -> In true v -> tar_zones true rot freq = Ok z -> k < length v ->
  adj_profile (adjust (length v) y z) k = kept y v k.
Proof.
  intros v Hd T Z K. assert (N : v <> []) by (intros E; rewrite E in T; destruct T).
  assert (NE : starts v <> [] \/ ends v <> []).
  { destruct (starts v) eqn:Es; [|left; discriminate]. exfalso. pose proof (Tz_alt v N) as A. rewrite Tz_eq, Hd, Es in A. cbn [app combine alternates] in A. destruct A as [_ A].
    apply (In_nth _ _ false) in T. destruct T as (j & J & Tj). rewrite A in Tj by lia. discriminate. }
  destruct (tar_zones_ok rot freq N NE) as (z' & Z' & V & Fu & M1 & M2 & Ix). fold v in V, Fu, M1, M2, Ix. rewrite Z in Z'. inversion Z'; subst z'. clear Z'.
  pose proof (Fz_alt v N) as AF. pose proof (Tz_alt v N) as AT. assert (P : 0 < length v) by lia.
  cbn [adjust adj_profile]. rewrite Fu, Ix. change (cumsum 0) with (cumsum (lost y (fun j => negb (nth j v false)) 0)). rewrite (sums_lost y _ _ _ 0 AF P).
  set (sums := map (fun z => lost y (fun j => negb (nth j v false)) (snd (clip (length v) z))) (Fz v)). rewrite kept_lost.
  destruct (nth k v false) eqn:Vk.
  - destruct (zone_of _ _ _ 0 k AT ltac:(lia) Vk) as (t & a & b & Nt & Kt).
    assert (St : exists a', nth_error (Fz v) t = Some (a', a)).
    { rewrite (Fz_eq v N), Hd. rewrite Tz_eq, Hd in Nt. cbn [app] in Nt. pose proof (counts v N) as C. rewrite Hd in C. cbn [app] in C.
      assert (Na : nth_error (starts v) t = Some a).
      { clear - Nt. revert Nt. generalize (map S (ends v) ++ (if last v false then [length v] else [])). revert t. induction (starts v) as [|x l IH]; intros [|t] [|w m] H; cbn in *; try discriminate; [inversion H; reflexivity|apply (IH t m H)]. }
      assert (Lt : t < length (starts v)) by (apply nth_error_Some; congruence).
      assert (Lf : t < length ([0] ++ map S (ends v))).
      { rewrite app_length in C. cbn. destruct (last v false); cbn in C; lia. }
      destruct (nth_error ([0] ++ map S (ends v)) t) as [a'|] eqn:Na'; [|apply nth_error_None in Na'; lia]. exists a'.
      assert (Ns : nth_error (starts v ++ (if last v false then [] else [length v])) t = Some a) by (rewrite nth_error_app1 by exact Lt; exact Na).
      clear - Na' Ns. revert t Na' Ns. generalize ([0] ++ map S (ends v)). generalize (starts v ++ (if last v false then [] else [length v])).
      intros l m. revert l. induction m as [|x m IH]; intros [|w l] [|t] H1 H2; cbn in *; try discriminate; [congruence|apply (IH l t H1 H2)]. }
    destruct St as [a' St]. rewrite (fill_valid_at (fun j => nth j v false) _ y k _ _ sums 0 _ t a b AT M1 Nt Kt).
    + f_equal. f_equal. unfold sums. rewrite (nth_indep _ 0%R (lost y (fun j => negb (nth j v false)) (snd (clip (length v) (0, 0))))).
      * rewrite (map_nth (fun z => lost y (fun j => negb (nth j v false)) (snd (clip (length v) z)))). rewrite (nth_error_nth _ _ (0, 0) St). unfold clip. cbn [snd].
        destruct (zone_bounds _ _ _ 0 t a b AT Nt) as (B1 & B2 & B3 & B4 & _). replace (Nat.min a (length v - 1)) with a by lia.
        symmetry. apply lost_out; [|lia]. intros j J. rewrite B4 by lia. reflexivity.
      * rewrite map_length. apply nth_error_Some. congruence.
    + unfold sums. rewrite map_length. apply nth_error_Some. congruence.
  - rewrite fill_valid_none.
    2:{ intros c m I. apply in_combine_r in I. apply (masks_after _ _ _ _ 0 k AT M1); [lia|right; exact Vk|exact I]. }
    assert (Fk : negb (nth k v false) = true) by (rewrite Vk; reflexivity).
    destruct (zone_of _ _ _ 0 k AF ltac:(lia) Fk) as (t & a & b & Nt & Kt). destruct (zone_bounds _ _ _ 0 t a b AF Nt) as (B1 & B2 & B3 & B4 & _).
    rewrite (fill_invalid_at (fun j => negb (nth j v false)) _ sums k (Fz v) _ _ 0 0 _ t a b AF M2); [|rewrite !map_length; reflexivity|exact Nt|exact Kt].
    assert (Ya : nth t (map (fun x => y (fst x)) (map (clip (length v)) (Fz v))) 0%R = y a).
    { rewrite map_map. apply (map_nth_error (fun x => y (fst (clip (length v) x)))) in Nt. apply (nth_error_nth _ _ 0%R) in Nt. exact Nt. }
    rewrite Ya. pose proof (sums_before y _ _ _ 0 t a b AF Nt) as Sb. fold sums in Sb. rewrite (lost_in y (fun j => negb (nth j v false)) a k); [|intros; apply B4; lia|lia].
    rewrite Sb. cbn [Nat.add]. destruct t as [|p]; cbn [lost]; lra.
Qed.
(** Finding: where the core is valid, the contribution of the next invalid zone is subtracted too early, at every valid point
    in front of an invalid zone... *)
Theorem C101_adjusted_profile_valid_core rot freq y z k a b : let v := tar_valid rot freq in
  hd false v = true -> tar_zones true rot freq = Ok z -> nth k v false = true -> next_invalid v k a b ->
  adj_profile (adjust (length v) y z) k = (kept y v k - (y (Nat.min b (length v - 1)) - y a))%R.
Proof.
  intros v Hd Z Vk (I1 & I2 & I3 & I4 & I5 & I6). assert (N : v <> []) by (intros E; rewrite E in Hd; discriminate).
  assert (NE : starts v <> [] \/ ends v <> []).
  { right. intros Ee. pose proof (Fz_alt v N) as A. rewrite (Fz_eq v N), Hd, Ee in A. cbn [app map combine alternates] in A. destruct A as [_ A].
    specialize (A a ltac:(lia)). rewrite I5 in A by lia. discriminate. }
  destruct (tar_zones_ok rot freq N NE) as (z' & Z' & V & Fu & M1 & M2 & Ix). fold v in V, Fu, M1, M2, Ix. rewrite Z in Z'. inversion Z'; subst z'. clear Z'.
  pose proof (Fz_alt v N) as AF. pose proof (Tz_alt v N) as AT. assert (P : 0 < length v) by lia.
  cbn [adjust adj_profile]. rewrite Fu, Ix. change (cumsum 0) with (cumsum (lost y (fun j => negb (nth j v false)) 0)). rewrite (sums_lost y _ _ _ 0 AF P).
  set (sums := map (fun z => lost y (fun j => negb (nth j v false)) (snd (clip (length v) z))) (Fz v)). rewrite kept_lost.
  destruct (zone_of _ _ _ 0 k AT ltac:(lia) Vk) as (t & s & e & Nt & Kt). destruct (zone_bounds _ _ _ 0 t s e AT Nt) as (B1 & B2 & B3 & B4 & B5 & _).
  assert (Ea : e = a).
  { destruct (Nat.lt_trichotomy e a) as [H|[H|H]]; [|exact H|].
    - destruct B5 as [B5|B5]; [lia|]. rewrite I4 in B5 by lia. discriminate.
    - specialize (I5 a ltac:(lia)). rewrite B4 in I5 by lia. discriminate. }
  subst e.
  assert (St : exists b', nth_error (Fz v) t = Some (a, b')).
  { rewrite (Fz_eq v N), Hd. rewrite Tz_eq, Hd in Nt. cbn [app] in *. pose proof (counts v N) as C. rewrite Hd in C.
    assert (Na : nth_error (map S (ends v)) t = Some a).
    { assert (X : nth_error (map S (ends v) ++ (if last v false then [length v] else [])) t = Some a).
      { clear - Nt. revert Nt. generalize (0 :: starts v). generalize (map S (ends v) ++ (if last v false then [length v] else [])). intros l m. revert t l. induction m as [|x m IH]; intros [|t] [|w l] H; cbn in *; try discriminate; [inversion H; reflexivity|apply (IH t l H)]. }
      destruct (Nat.lt_ge_cases t (length (map S (ends v)))) as [L|L]; [rewrite nth_error_app1 in X by exact L; exact X|].
      rewrite nth_error_app2 in X by exact L. destruct (last v false); [|destruct (t - _); discriminate]. destruct (t - _) as [|[|]]; cbn in X; try discriminate. inversion X. lia. }
    assert (Lt : t < length (map S (ends v))) by (apply nth_error_Some; congruence).
    assert (Ls : t < length (starts v ++ (if last v false then [] else [length v]))).
    { rewrite app_length in *. cbn in C. rewrite app_length in C. destruct (last v false); cbn in *; lia. }
    destruct (nth_error (starts v ++ (if last v false then [] else [length v])) t) as [b'|] eqn:Nb; [|apply nth_error_None in Nb; lia]. exists b'.
    clear - Na Nb. revert t Na Nb. generalize (map S (ends v)). generalize (starts v ++ (if last v false then [] else [length v])).
    intros l m. revert l. induction m as [|x m IH]; intros [|w l] [|t] H1 H2; cbn in *; try discriminate; [congruence|apply (IH l t H1 H2)]. }
  destruct St as [b' St]. destruct (zone_bounds _ _ _ 0 t a b' AF St) as (D1 & D2 & D3 & D4 & D5 & _).
  assert (Eb : b' = b).
  { destruct (Nat.lt_trichotomy b' b) as [H|[H|H]]; [|exact H|].
    - destruct D5 as [D5|D5]; [lia|]. rewrite I5 in D5 by lia. discriminate.
    - destruct I6 as [I6|I6]; [lia|]. specialize (D4 b ltac:(lia)). rewrite I6 in D4. discriminate. }
  subst b'. rewrite (fill_valid_at (fun j => nth j v false) _ y k _ _ sums 0 _ t s a AT M1 Nt Kt) by (unfold sums; rewrite map_length; apply nth_error_Some; congruence).
  assert (Es : nth t sums 0%R = lost y (fun j => negb (nth j v false)) (Nat.min b (length v - 1))).
  { unfold sums. apply (map_nth_error (fun z => lost y (fun j => negb (nth j v false)) (snd (clip (length v) z)))) in St. apply (nth_error_nth _ _ 0%R) in St. exact St. }
  rewrite Es. rewrite (lost_in y _ a (Nat.min b (length v - 1))); [|intros; apply D4; lia|lia].
  rewrite (lost_out y _ k a); [lra| |lia]. intros j J. rewrite I4 by lia. reflexivity.
Qed.
(** ... and a valid surface zone is left at 0. *)
Theorem C101_valid_core_and_surface rot freq y z k : let v := tar_valid rot freq in
  hd false v = true -> In false v -> tar_zones true rot freq = Ok z -> k < length v -> (forall j, k <= j < length v -> nth j v false = true) ->
  adj_profile (adjust (length v) y z) k = 0%R.
Proof.
  intros v Hd F Z K Vs. assert (N : v <> []) by (intros E; rewrite E in Hd; discriminate).
  assert (NE : starts v <> [] \/ ends v <> []).
  { right. intros Ee. pose proof (Fz_alt v N) as A. rewrite (Fz_eq v N), Hd, Ee in A. cbn [app map combine alternates] in A. destruct A as [_ A].
    apply (In_nth _ _ false) in F. destruct F as (j & J & Fj). specialize (A j ltac:(lia)). rewrite Fj in A. discriminate. }
  destruct (tar_zones_ok rot freq N NE) as (z' & Z' & V & Fu & M1 & M2 & Ix). fold v in V, Fu, M1, M2, Ix. rewrite Z in Z'. inversion Z'; subst z'. clear Z'.
  pose proof (Fz_alt v N) as AF. pose proof (Tz_alt v N) as AT.
  cbn [adjust adj_profile]. rewrite Fu. rewrite fill_valid_none.
  - apply fill_invalid_none. intros c m I. apply in_combine_l in I. apply (masks_after _ _ _ _ 0 k AF M2); [lia|right; rewrite Vs by lia; reflexivity|exact I].
  - intros c m I.
    assert (Lst : exists pre, z_valid_masks z = pre ++ [Slice (Some (last (starts v) 0)) None] /\ length pre = length (z_indices z)).
    { clear - Z NE Hd N Vs K. assert (Hl : last v false = true) by (rewrite (last_nth v N); apply Vs; lia).
      pose proof (counts v N) as C. rewrite Hd, Hl in C. rewrite app_length, app_length, map_length in C. cbn in C. unfold tar_zones in Z. fold v in Z. cbn [negb] in Z.
      assert (E0 : (length (starts v) =? 0) && (length (ends v) =? 0) = false). { apply andb_false_iff. destruct NE as [NE|NE]; [left|right]; apply Nat.eqb_neq; intros Q; apply length_zero_iff_nil in Q; contradiction. }
      rewrite E0 in Z. assert (E1 : (length (starts v) =? length (ends v)) = true) by (apply Nat.eqb_eq; lia). rewrite E1 in Z.
      destruct (starts v) as [|s0 s'] eqn:Es; [destruct (ends v); cbn in C; [cbn in E0; discriminate|lia]|]. destruct (ends v) as [|e0 e'] eqn:Ee; [cbn in C; lia|].
      pose proof (first_start_end v N s0 s' e0 e' Es Ee) as FE. rewrite Hd in FE.
      destruct (snoc (s0 :: s') ltac:(discriminate)) as [sl Hsl]. destruct (snoc (e0 :: e') ltac:(discriminate)) as [el Hel].
      assert (Fs : final (s0 :: s') = Ok sl) by (rewrite Hsl; apply final_ok). assert (Fe : final (e0 :: e') = Ok el) by (rewrite Hel; apply final_ok).
      rewrite Fs, Fe in Z. cbn [first bind] in Z. rewrite FE in Z. inversion Z; subst z. cbn [z_valid_masks z_indices].
      exists ([Slice None (Some (e0 + 1))] ++ valid_slices (removelast (s0 :: s')) e'). split.
      - rewrite <- app_assoc. assert (Ls : last (s0 :: s') 0 = sl) by (rewrite Hsl; apply last_last). rewrite Ls. reflexivity.
      - unfold valid_slices, invalid_pairs. rewrite app_length, !map_length, !combine_length, removelast_length. cbn in *. lia. }
    destruct Lst as (pre & Ep & Lp).
    assert (Im : In m pre).
    { assert (G : combine (cumsum 0 (map (contribution y) (z_indices z))) (z_valid_masks z) = combine (cumsum 0 (map (contribution y) (z_indices z))) pre).
      { rewrite Ep. assert (Lc : forall l acc, length (cumsum acc l) = length l) by (induction l; intros; cbn; auto). 
        rewrite <- (app_nil_r (cumsum 0 (map (contribution y) (z_indices z)))) at 1. rewrite combine_app by (rewrite Lc, map_length; lia). apply app_nil_r. }
      rewrite G in I. apply in_combine_r in I. exact I. }
    destruct (in_mask (length v) m k) eqn:Mk; [|reflexivity]. exfalso.
    (* k lies in the last zone, so not in an earlier one *)
    rewrite Ep in M1. apply Forall2_app_inv_l in M1. destruct M1 as (z1 & z2 & P1 & P2 & E12). inversion P2 as [|m0 zl q1 q2 Hm Hn Q1 Q2]; subst. inversion Hn; subst. clear Hn P2.
    destruct (In_nth _ _ NewAxis Im) as (t & Lt & Et). assert (Tt : exists s e, nth_error z1 t = Some (s, e) /\ s <= k < e).
    { clear - P1 Lt Et Mk K. revert t Lt Et. induction P1 as [|m' [s e] ms zs Hm P IH]; intros [|t] Lt Et; cbn in *; try lia.
      - subst m'. exists s, e. split; [reflexivity|]. rewrite Hm in Mk by exact K. cbn in Mk. apply andb_true_iff in Mk. destruct Mk as [A B]. apply Nat.leb_le in A. apply Nat.ltb_lt in B. lia.
      - destruct (IH t ltac:(lia) Et) as (s' & e' & X). exists s', e'. exact X. }
    destruct Tt as (s & e & Nt & Kt).
    assert (Nt' : nth_error (Tz v) t = Some (s, e)) by (rewrite E12, nth_error_app1; [exact Nt|apply nth_error_Some; congruence]).
    destruct (zone_bounds _ _ _ 0 t s e AT Nt') as (_ & _ & B3 & _ & B5 & _). destruct (Nat.eq_dec e (length v)) as [Ee|Ee].
    2:{ destruct B5 as [B5|B5]; [lia|]. rewrite Vs in B5 by lia. discriminate. }
    (* the zone ends at the surface, but another zone follows *)
    subst e. destruct zl as [a2 b2].
    assert (Nl : nth_error (Tz v) (length z1) = Some (a2, b2)) by (rewrite E12, nth_error_app2, Nat.sub_diag by lia; reflexivity).
    assert (t < length z1) by (apply nth_error_Some; congruence).
    assert (G : forall zs lo t u a b a' b', alternates (fun j => nth j v false) (length v) lo zs -> nth_error zs t = Some (a, b) -> nth_error zs u = Some (a', b') -> t < u -> b <= a').
    { clear. induction zs as [|[x w] zs IH]; intros lo [|t] [|u] a b a' b' A H1 H2 L; cbn in H1, H2; try discriminate; try lia; cbn [alternates] in A; destruct A as (_ & _ & _ & _ & _ & _ & A).
      - inversion H1; subst. destruct (zone_bounds _ _ _ _ u a' b' A H2) as (B & _). exact B.
      - apply (IH w t u a b a' b' A H1 H2). lia. }
    pose proof (G _ 0 t (length z1) _ _ _ _ AT Nt' Nl H) as X. destruct (zone_bounds _ _ _ 0 _ a2 b2 AT Nl) as (_ & Y & Y' & _). lia.
Qed.

(** The adjusted values of the four terms add up to the adjusted coupling coefficient when the profiles do. *)
Theorem C101_terms_add_up n z (ys : list (nat -> R)) (y : nat -> R) : (forall k, y k = fold_right Rplus 0%R (map (fun f => f k) ys)) ->
  adj_value (adjust n y z) = fold_right Rplus 0%R (map (fun f => adj_value (adjust n f z)) ys).
Proof.
  assert (LS : forall l acc, l <> [] -> last (cumsum acc l) 0%R = (acc + fold_right Rplus 0 l)%R).
  { induction l as [|x [|w l] IH]; intros acc H; [contradiction|cbn; lra|]. change (last (cumsum acc (x :: w :: l)) 0%R) with (last (cumsum (acc + x) (w :: l)) 0%R). rewrite IH by discriminate. cbn. lra. }
  assert (AV : forall f, adj_value (adjust n f z) = (f (n - 1)%nat - fold_right Rplus 0 (map (contribution f) (z_indices z)))%R).
  { intros f. cbn [adjust adj_value]. destruct (z_indices z) as [|i l]; [reflexivity|]. rewrite LS by discriminate. lra. }
  intros H. rewrite AV. rewrite (map_ext _ _ AV). rewrite H.
  assert (CS : fold_right Rplus 0%R (map (contribution y) (z_indices z)) = fold_right Rplus 0%R (map (fun f => fold_right Rplus 0%R (map (contribution f) (z_indices z))) ys)).
  { assert (CY : forall i, contribution y i = fold_right Rplus 0%R (map (fun f => contribution f i) ys)).
    { intros i. unfold contribution. rewrite !H. clear H. induction ys as [|f ys IH]; cbn; [lra|]. rewrite <- IH. lra. }
    rewrite (map_ext _ _ CY). clear. induction ys as [|f ys IH]; cbn.
    - induction (z_indices z) as [|i l IH]; cbn; [reflexivity|]. rewrite IH. lra.
    - rewrite <- IH. clear IH. induction (z_indices z) as [|i l IH]; cbn; [lra|]. rewrite IH. lra. }
  rewrite CS. clear. induction ys as [|f ys IH]; cbn; [lra|]. rewrite <- IH. lra.
Qed.
(** an invalid core with a valid and an invalid zone above it; a valid core; both with zones that contribute *)
Theorem C101_hypotheses_met : exists z, tar_zones true ex_rot ex_freq = Ok z /\ hd false (tar_valid ex_rot ex_freq) = false /\ In true (tar_valid ex_rot ex_freq).
Proof. eexists. split; [reflexivity|]. split; [reflexivity|cbn; auto]. Qed.
Theorem C101_hypotheses_met_valid_core : let rot := [true; true; false; true] in let v := tar_valid rot [true; true; true; true] in
  exists z, tar_zones true rot [true; true; true; true] = Ok z /\ hd false v = true /\ In false v /\ next_invalid v 0 2 3 /\ (forall j, 3 <= j < length v -> nth j v false = true).
Proof.
  eexists. split; [reflexivity|]. split; [reflexivity|]. split; [cbn; auto|]. split.
  - unfold next_invalid. split; [lia|]. split; [lia|]. split; [cbn; lia|]. split; [intros [|[|j]] J; first [reflexivity | lia]|]. split; [intros [|[|[|j]]] J; first [lia | reflexivity]|]. right. reflexivity.
  - intros [|[|[|[|j]]]] J; cbn in *; first [reflexivity | lia].
Qed.

(** ** C102: amplitudes printed for the adjusted coupling coefficient *)
Definition adj_sign (ratio : R) : R := if Rlt_dec ratio 0 then (-1)%R else 1%R.
Lemma pre_factor (c e x r : R) : r <> 0%R -> (c * (1 / (Rabs (e * r) ^ 2 * x)) = (c * (1 / (Rabs e ^ 2 * x))) / r ^ 2)%R.
Proof.
  intros N. rewrite !RPow_abs, !(Rabs_pos_eq (_ ^ 2)) by apply pow2_ge_0. unfold Rdiv. rewrite !Rinv_mult. replace ((e * r) ^ 2)%R with (e ^ 2 * r ^ 2)%R by ring. rewrite Rinv_mult. ring.
Qed.
Lemma sqrt_scaled (x r : R) : r <> 0%R -> sqrt (x / r ^ 2) = (adj_sign r * (sqrt x / r))%R.
Proof.
  intros N. assert (P : (0 < r ^ 2)%R) by (rewrite <- Rsqr_pow2; apply Rsqr_pos_lt; exact N). rewrite sqrt_div_alt by exact P. replace (r ^ 2)%R with (Rsqr r) by (unfold Rsqr; ring). rewrite sqrt_Rsqr_abs.
  unfold adj_sign. destruct (Rlt_dec r 0) as [L|L]; [rewrite Rabs_left by exact L|rewrite Rabs_right by lra]; field; exact N.
Qed.
(** The printed adjusted amplitudes and thresholds are those of the adjusted coupling coefficient if it has the sign of the
    original one, and their negatives otherwise. *)
Theorem C102_adjusted_amplitudes products eta q qc cc adjusted : cc <> 0%R -> adjusted <> 0%R ->
  let ratio := adjust_ratio cc adjusted in
  let a := Stat_Model.theoretical_amps products (Rabs eta ^ 2) q qc in
  let a' := Stat_Model.theoretical_amps products (Rabs (eta * (adjusted / cc)) ^ 2) q qc in
  let ppm := fun x => (adj_sign (adjusted / cc) * (x * 1000000))%R in
  snd (printed_amps [Stat_Model.a1 a; Stat_Model.a2 a; Stat_Model.a3 a] ratio) = map ppm [Stat_Model.a1 a'; Stat_Model.a2 a'; Stat_Model.a3 a'] /\
  snd (printed_threshold (Stat_Model.acrit a) ratio) = ppm (Stat_Model.acrit a').
Proof.
  intros C A ratio a a' ppm. unfold a, a', ppm, printed_amps, printed_threshold, Stat_Model.theoretical_amps, ratio, adjust_ratio. cbn [Stat_Model.a1 Stat_Model.a2 Stat_Model.a3 Stat_Model.acrit map snd].
  assert (N : (adjusted / cc)%R <> 0%R) by (unfold Rdiv; apply Rmult_integral_contrapositive_currified; [exact A|apply Rinv_neq_0_compat, C]).
  set (r := (adjusted / cc)%R) in *.
  assert (P : forall c e x, (c * (1 / (Rabs (e * r) ^ 2 * x)) = (c * (1 / (Rabs e ^ 2 * x))) / r ^ 2)%R) by (intros; apply pre_factor; exact N).
  assert (O : forall c e x, (- (c * (1 / (Rabs (e * r) ^ 2 * x))))%R = ((- (c * (1 / (Rabs e ^ 2 * x)))) / r ^ 2)%R) by (intros; rewrite P; unfold Rdiv; ring).
  assert (SS : (adj_sign r * adj_sign r = 1)%R) by (unfold adj_sign; destruct (Rlt_dec r 0); lra).
  assert (E : forall x, (sqrt x / 2 * 1000000 / r = adj_sign r * (sqrt (x / r ^ 2) / 2 * 1000000))%R).
  { intros x. rewrite (sqrt_scaled x r N). replace (adj_sign r * (adj_sign r * (sqrt x / r) / 2 * 1000000))%R with ((adj_sign r * adj_sign r) * (sqrt x / r / 2 * 1000000))%R by (unfold Rdiv; ring). rewrite SS. field. exact N. }
  rewrite !O, !P. rewrite !E. split; reflexivity.
Qed.
(** The printed threshold luminosity fluctuation is the threshold amplitude times the parent's ratio of fluctuation to amplitude,
    and its adjusted version is divided by the same ratio as the adjusted threshold amplitude. *)
Theorem C102_adjusted_threshold_fluctuation acrit cc adjusted f1 fs a1 l : a1 <> 0%R ->
  let ratio := adjust_ratio cc adjusted in
  fst (printed_threshold_flux acrit ratio (f1 :: fs) (a1 :: l)) = (acrit * (f1 / a1) * 1000000)%R /\
  snd (printed_threshold_flux acrit ratio (f1 :: fs) (a1 :: l)) = (snd (printed_threshold acrit ratio) * (f1 / a1))%R.
Proof.
  intros A ratio. unfold printed_threshold_flux, printed_threshold. cbn [fst snd nth]. split; [field; exact A|].
  replace (f1 * 1000000 / (a1 * 1000000))%R with (f1 / a1)%R by (field; exact A). unfold Rdiv. ring.
Qed.
(** a coupling coefficient that changes sign when the invalid zones are removed: the printed amplitudes are negative *)
Theorem C102_hypotheses_met : exists cc adjusted acrit : R, cc <> 0%R /\ adjusted <> 0%R /\ (acrit > 0)%R /\
  adj_sign (adjusted / cc) = (-1)%R /\ (snd (printed_threshold acrit (adjust_ratio cc adjusted)) < 0)%R.
Proof.
  exists 1%R, (-1)%R, 1%R. split; [lra|]. split; [lra|]. split; [lra|]. split.
  - unfold adj_sign. destruct (Rlt_dec (-1 / 1) 0); lra.
  - unfold printed_threshold, adjust_ratio. cbn [snd]. lra.
Qed.
