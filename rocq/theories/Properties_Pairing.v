(** * Pairing functions (C21-C25). *)
From Coq Require Import List ZArith Reals Lia Lra Bool Psatz.
From Flocq Require Import Core.
From Verif Require Import Base Pairing_Model Pairing_Proofs.
From Coq Require Import Lia.
Local Open Scope Z_scope.

(** C21: over exact integers, for a numpy offset. *)
Theorem C21_cantor_bijection :
  forall lo : Z,
  (forall a b, lo <= a -> lo <= b -> exists n, 0 <= n /\
     cantor_pair exact Arr (a, b) (NpInt lo) = Ok n /\ invert_cantor_pair exact n (NpInt lo) = Ok (a, b)) /\
  (forall n, 0 <= n -> exists a b, lo <= a /\ lo <= b /\
     invert_cantor_pair exact n (NpInt lo) = Ok (a, b) /\ cantor_pair exact Arr (a, b) (NpInt lo) = Ok n).
Proof.
  intros lo.
  assert (Key : forall a b, lo <= a -> lo <= b -> exists n, 0 <= n /\ n = tri (a + b - 2 * lo) + (b - lo) /\
     cantor_pair exact Arr (a, b) (NpInt lo) = Ok n /\ invert_cantor_pair exact n (NpInt lo) = Ok (a, b)).
  { intros a b Ha Hb. set (s := a + b - 2 * lo). exists (tri s + (b - lo)).
    assert (T := tri2 s). assert (T' := tri_step s).
    assert (0 <= tri s) by nia. split; [lia|]. split; [reflexivity|]. split.
    - apply (cantor_value exact ((s + 2) * (s + 2)) (good_exact _) ltac:(unfold s; nia)); cbn [zof]; unfold s in *; try nia. left; reflexivity.
    - set (BB := (s + 2) * (s + 2) + Z.abs lo + s + 2).
      rewrite (inv_cantor_value exact BB (good_exact _) ltac:(unfold BB; nia) (tri s + (b - lo)) lo s);
        [do 2 f_equal; unfold s; lia| |lia|lia|unfold BB; nia|unfold BB; nia|unfold BB; nia].
      apply w_of_exact; lia. }
  split.
  - intros a b Ha Hb. destruct (Key a b Ha Hb) as (n & H1 & _ & H2 & H3). exists n. auto.
  - intros n Hn. destruct (tri_inv n Hn) as (w & Hw & Hr).
    assert (T' := tri_step w).
    destruct (Key (tri w + w - n + lo) (n - tri w + lo)) as (n' & _ & En & H2 & H3); [lia|lia|].
    replace (tri w + w - n + lo + (n - tri w + lo) - 2 * lo) with w in En by lia.
    replace n' with n in * by lia.
    exists (tri w + w - n + lo), (n - tri w + lo). repeat split; try lia; assumption.
Qed.
Print Assumptions C21_cantor_bijection.

(** The inverses are unusable with an ordinary Python integer offset (the default
    is the Python integer 0): tuple + int. *)
Theorem C21_inverse_needs_numpy_offset :
  forall (M : fpmode) n lo, 0 <= n ->
  invert_cantor_pair M n (PyInt lo) = Exc TypeError /\
  invert_symmetric_pair M n (PyInt lo) = Exc TypeError /\
  invert_xie_pair M n (PyInt lo) = Exc TypeError /\
  forall p, cantor_pair M Tup p (PyInt lo) = Exc TypeError.
Proof.
  intros M n lo Hn. unfold invert_cantor_pair, invert_symmetric_pair, invert_xie_pair, w_of.
  destruct (Z.ltb_spec n 0); [lia|]. repeat split.
Qed.
Print Assumptions C21_inverse_needs_numpy_offset.

(** Same unordered pair. *)
Definition same_unordered (p q : Z * Z) : Prop := p = q \/ p = (snd q, fst q).

Lemma sym_exact lo a b : zof lo <= a -> zof lo <= b ->
  symmetric_pair exact (a, b) lo = Ok (Z.min a b - zof lo + 1 + tri (Z.max a b - zof lo)).
Proof.
  intros Ha Hb. apply (symmetric_value exact ((Z.max a b - zof lo + 2) * (Z.max a b - zof lo + 2)) (good_exact _) ltac:(nia)); lia || nia.
Qed.
Lemma tri_lt_inv x y i j : 0 <= x -> 0 <= y -> 1 <= i <= x + 1 -> 1 <= j <= y + 1 ->
  i + tri x = j + tri y -> x = y /\ i = j.
Proof.
  intros Hx Hy Hi Hj E. assert (A := tri2 x). assert (B := tri2 y). assert (x = y) by nia. subst. lia.
Qed.

(** C22 *)
Theorem C22_symmetric_pairing :
  forall lo : pyint,
  (forall a b, symmetric_pair exact (a, b) lo = symmetric_pair exact (b, a) lo) /\
  (forall a b c d, zof lo <= a -> zof lo <= b -> zof lo <= c -> zof lo <= d ->
     symmetric_pair exact (a, b) lo = symmetric_pair exact (c, d) lo -> same_unordered (a, b) (c, d)) /\
  (forall a b, zof lo <= a -> zof lo <= b -> exists n, 1 <= n /\ symmetric_pair exact (a, b) lo = Ok n) /\
  (forall n, 1 <= n -> exists a b, zof lo <= a /\ zof lo <= b /\ symmetric_pair exact (a, b) lo = Ok n).
Proof.
  intros lo. split; [|split; [|split]].
  - intros a b. unfold symmetric_pair. cbn [fst snd].
    destruct (Z.leb_spec b a), (Z.leb_spec a b); try reflexivity; [|lia]. replace a with b by lia. reflexivity.
  - intros a b c d Ha Hb Hc Hd E. rewrite !sym_exact in E by assumption. injection E as E.
    apply tri_lt_inv in E; try lia. destruct E as [E1 E2]. unfold same_unordered. cbn [fst snd].
    destruct (Z_le_dec a b), (Z_le_dec c d); [left|right|right|left]; f_equal; lia.
  - intros a b Ha Hb. eexists. split; [|apply sym_exact; assumption].
    assert (T := tri2 (Z.max a b - zof lo)). nia.
  - intros n Hn. destruct (tri_inv (n - 1) ltac:(lia)) as (w & Hw & Hr). assert (T := tri_step w).
    exists (zof lo + (n - 1 - tri w)), (zof lo + w). split; [lia|]. split; [lia|].
    rewrite sym_exact by lia. f_equal. rewrite Z.min_l, Z.max_r by lia.
    replace (zof lo + w - zof lo) with w by lia. lia.
Qed.
Print Assumptions C22_symmetric_pairing.

Example C22_case : same_unordered (3, 7) (7, 3) /\ ~ same_unordered (3, 7) (7, 4).
Proof. split; [right; reflexivity|intros [H|H]; discriminate]. Qed.

(** C23: for every pair, the inverse applied to its code returns the (ascending)
    pair iff the elements differ; for equal elements a it returns (lo-1, a+1),
    whose first element is not even in the domain. *)
Theorem C23_symmetric_inverse_fails_exactly_on_diagonal :
  forall lo a b, lo <= a -> lo <= b -> exists n,
    symmetric_pair exact (a, b) (NpInt lo) = Ok n /\
    (a <> b -> invert_symmetric_pair exact n (NpInt lo) = Ok (Z.min a b, Z.max a b)) /\
    (a = b -> invert_symmetric_pair exact n (NpInt lo) = Ok (lo - 1, a + 1)) /\
    (a = b <-> exists k, 1 <= k /\ 2 * n = k * (k + 1)).
Proof.
  intros lo a b Ha Hb. eexists. split; [apply (sym_exact (NpInt lo)); assumption|]. cbn [zof].
  set (mx := Z.max a b). set (mn := Z.min a b). assert (Hmm : lo <= mn <= mx) by lia.
  remember (mx - lo) as w eqn:Ew. assert (T := tri2 w). assert (T' := tri_step w). assert (T2 := tri2 (w + 1)). assert (Hw0 : 0 <= w) by (lia).
  split; [|split].
  - intros Hne. set (BB := (w + 2) * (w + 2) + Z.abs lo + w + 2).
    rewrite (inv_symmetric_value exact BB (good_exact _) ltac:(unfold BB; nia) _ lo w); [do 2 f_equal; lia| | |lia| | |];
      try (unfold BB; nia).
    apply w_of_exact; lia.
  - intros He. assert (mn = mx) by lia. set (BB := (w + 3) * (w + 3) + Z.abs lo + w + 3).
    rewrite (inv_symmetric_value exact BB (good_exact _) ltac:(unfold BB; nia) _ lo (w + 1)); [do 2 f_equal; lia| | | | | |];
      try (unfold BB; nia).
    + apply w_of_exact; [lia|]. assert (T3 := tri_step (w + 1)). lia.
    + assert (T3 := tri_step (w + 1)). lia.
  - split.
    + intros He. exists (w + 1). split; lia.
    + intros (k & Hk & E). assert (Ei : 1 <= mn - lo + 1 <= w + 1) by (lia).
      assert (k = w + 1) by nia. subst k. assert (mn - lo + 1 = w + 1) by lia. lia.
Qed.
Print Assumptions C23_symmetric_inverse_fails_exactly_on_diagonal.

(** C24 *)
Theorem C24_xie_bijection :
  forall lo : Z,
  (forall a b, xie_pair exact (a, b) (NpInt lo) = xie_pair exact (b, a) (NpInt lo)) /\
  (forall a b, lo <= a -> lo <= b -> exists n, 1 <= n /\ xie_pair exact (a, b) (NpInt lo) = Ok n /\
      invert_xie_pair exact n (NpInt lo) = Ok (Z.max a b, Z.min a b)) /\
  (forall n, 1 <= n -> exists a b, lo <= b <= a /\
      invert_xie_pair exact n (NpInt lo) = Ok (a, b) /\ xie_pair exact (a, b) (NpInt lo) = Ok n).
Proof.
  intros lo.
  assert (Inv : forall a b, 1 <= b <= a -> invert_xie_pair exact (xcode a b) (NpInt lo) = Ok (a + lo - 1, b + lo - 1)).
  { intros a b Hab. assert (Hp := xcode_pos a b Hab).
    destruct (Z.sqrt_spec (xcode a b) ltac:(lia)) as [S1 S2].
    apply (inv_xie_value exact (a + Z.abs lo + 2) (good_exact _) ltac:(lia) lo a b (Z.sqrt (xcode a b))); try lia.
    apply root_exact; [apply Z.sqrt_nonneg|lia]. }
  assert (Val : forall a b, lo <= a -> lo <= b -> xie_pair exact (a, b) (NpInt lo) = Ok (xcode (Z.max a b - lo + 1) (Z.min a b - lo + 1))).
  { intros a b Ha Hb. apply (xie_value exact ((a + b - 2 * lo + 2) * (a + b - 2 * lo + 2)) (good_exact _) ltac:(nia)); cbn [zof]; nia. }
  split; [|split].
  - intros a b. unfold xie_pair. cbn [fst snd].
    destruct (Z.ltb_spec b a), (Z.ltb_spec a b); try reflexivity; [lia|]. replace a with b by lia. reflexivity.
  - intros a b Ha Hb. eexists. split; [|split; [apply Val; assumption|rewrite Inv by lia; do 2 f_equal; lia]].
    apply xcode_pos. lia.
  - intros n Hn. destruct (xcode_surj n Hn) as (a & b & Hab & E).
    exists (a + lo - 1), (b + lo - 1). split; [lia|]. rewrite <- E. split; [apply Inv; exact Hab|].
    rewrite Val by lia. do 2 f_equal; lia.
Qed.
Print Assumptions C24_xie_bijection.

(** C25, positive half: in IEEE double and int64 arithmetic, for elements within
    2^24 of the lowest integer, all three pairings give the exact codes and the
    Cantor and Xie inverses (and the symmetric one off the diagonal) recover the
    pair. *)
Theorem C25_ieee_agrees_below_bound :
  forall lo a b, - 2 ^ 50 <= lo <= 2 ^ 50 -> lo <= a < lo + 2 ^ 24 -> lo <= b < lo + 2 ^ 24 ->
  (exists n, cantor_pair ieee Arr (a, b) (NpInt lo) = Ok n /\ cantor_pair exact Arr (a, b) (NpInt lo) = Ok n /\
     invert_cantor_pair ieee n (NpInt lo) = Ok (a, b)) /\
  (exists n, symmetric_pair ieee (a, b) (NpInt lo) = Ok n /\ symmetric_pair exact (a, b) (NpInt lo) = Ok n /\
     (a <> b -> invert_symmetric_pair ieee n (NpInt lo) = Ok (Z.min a b, Z.max a b))) /\
  (exists n, xie_pair ieee (a, b) (NpInt lo) = Ok n /\ xie_pair exact (a, b) (NpInt lo) = Ok n /\
     invert_xie_pair ieee n (NpInt lo) = Ok (Z.max a b, Z.min a b)).
Proof.
  intros lo a b Hlo Ha Hb.
  set (B := 2 ^ 53 - 1). assert (GI := good_ieee). fold B in GI. assert (GE := good_exact B). assert (B2 : 2 <= B) by (unfold B; lia).
  assert (Hs : (a + b - 2 * lo + 2) * (a + b - 2 * lo + 2) <= B) by (unfold B; nia).
  split; [|split].
  - set (s := a + b - 2 * lo) in *. assert (T := tri2 s). assert (T' := tri_step s).
    exists (tri s + (b - lo)). split; [|split].
    + apply (cantor_value ieee B GI B2); cbn [zof]; try lia; try (left; reflexivity); try exact Hs.
    + apply (cantor_value exact B GE B2); cbn [zof]; try lia; try (left; reflexivity); try exact Hs.
    + rewrite (inv_cantor_value ieee B GI B2 (tri s + (b - lo)) lo s);
        [do 2 f_equal; unfold s; lia| |unfold s; lia|unfold s in *; lia|unfold B, s; nia|unfold B; lia|unfold B, s; lia].
      apply w_of_ieee; [unfold s; lia|unfold s in *; lia|]. unfold s in *; nia.
  - eexists. split; [|split].
    + apply (symmetric_value ieee B GI B2); cbn [zof]; try lia. unfold B. nia.
    + apply (symmetric_value exact B GE B2); cbn [zof]; try lia. unfold B. nia.
    + cbn [zof]. intros Hne. set (mx := Z.max a b). set (mn := Z.min a b). assert (Hmm : lo <= mn < mx) by lia.
      set (w := mx - lo). assert (T := tri2 w). assert (T' := tri_step w).
      rewrite (inv_symmetric_value ieee B GI B2 _ lo w);
        [do 2 f_equal; unfold w; lia| |unfold w; lia|unfold w in *; lia|unfold B, w; nia|unfold B; lia|unfold B, w; lia].
      apply w_of_ieee; [unfold w; lia|unfold w in *; lia|]. unfold w in *; nia.
  - eexists. split; [|split].
    + apply (xie_value ieee B GI B2); cbn [zof]; try lia.
    + apply (xie_value exact B GE B2); cbn [zof]; try lia.
    + cbn [zof]. set (mx := Z.max a b - lo + 1). set (mn := Z.min a b - lo + 1).
      assert (Hab : 1 <= mn <= mx) by (unfold mx, mn; lia). assert (Hp := xcode_pos mx mn Hab).
      destruct (Z.sqrt_spec (xcode mx mn) ltac:(lia)) as [S1 S2].
      rewrite (inv_xie_value ieee B GI B2 lo mx mn (Z.sqrt (xcode mx mn)));
        [do 2 f_equal; unfold mx, mn; lia|exact Hab|lia|apply Z.sqrt_nonneg| |unfold B; lia|unfold B, mx; lia].
      apply root_ieee; [apply Z.sqrt_nonneg|lia|].
      assert (Hc : xcode mx mn <= (mx + mn) * (mx + mn)).
      { unfold xcode. assert (Hm : 0 <= (mx + mn - 1) mod 2 < 2) by (apply Z.mod_pos_bound; lia).
        assert (((mx + mn - 1) * (mx + mn - 1) - (mx + mn - 1) mod 2) / 4 <= (mx + mn - 1) * (mx + mn - 1)) by (apply Z.div_le_upper_bound; nia). nia. }
      assert (mx + mn <= 2 ^ 25) by (unfold mx, mn; lia).
      assert ((mx + mn) * (mx + mn) <= 2 ^ 25 * 2 ^ 25) by nia.
      assert (Hc2 : xcode mx mn < (mx + mn) * (mx + mn)).
      { unfold xcode in *. assert (Hm : 0 <= (mx + mn - 1) mod 2 < 2) by (apply Z.mod_pos_bound; lia).
        assert (((mx + mn - 1) * (mx + mn - 1) - (mx + mn - 1) mod 2) / 4 <= (mx + mn - 1) * (mx + mn - 1)) by (apply Z.div_le_upper_bound; nia). nia. }
      lia.
Qed.
Print Assumptions C25_ieee_agrees_below_bound.

(** C25, negative half: distinct pairs of non-negative integers with equal codes. *)
Theorem C25_ieee_collisions :
  (exists n, cantor_pair ieee Arr (134217729, 0) (NpInt 0) = Ok n /\ cantor_pair ieee Arr (0, 134217728) (NpInt 0) = Ok n) /\
  (exists n, symmetric_pair ieee (0, 134217729) (NpInt 0) = Ok n /\ symmetric_pair ieee (134217728, 134217728) (NpInt 0) = Ok n) /\
  (exists n, xie_pair ieee (189812533, 0) (NpInt 0) = Ok n /\ xie_pair ieee (94906266, 94906266) (NpInt 0) = Ok n).
Proof.
  assert (D1 : int_div ieee 18014398912135170 2 = 9007199456067584)
    by (rewrite (int_div_tie 18014398912135170 4503599728033792 2 2 1); [reflexivity|lia|reflexivity|lia|lia|reflexivity|lia|reflexivity|lia]).
  assert (D3 : int_div ieee 36028798063501156 4 = 9007199515875288)
    by (rewrite (int_div_tie 36028798063501156 4503599757937644 3 4 2); [reflexivity|lia|reflexivity|lia|lia|reflexivity|lia|reflexivity|lia]).
  assert (D2 : int_div ieee 18014398643699712 2 = 9007199321849856) by (rewrite (int_div_exactly 4503599660924928 2 1); [reflexivity|lia|lia|split; reflexivity]).
  assert (D4 : int_div ieee 36028797683876088 4 = 9007199420969022) by (rewrite (int_div_exactly 4503599710484511 3 2); [reflexivity|lia|lia|split; reflexivity]).
  assert (D5 : int_div ieee 2 2 = 1) by (rewrite (int_div_ieee 2 2 1); [reflexivity|lia|reflexivity|lia|reflexivity|lia]).
  assert (D6 : int_div ieee 189812534 2 = 94906267) by (rewrite (int_div_ieee 189812534 2 1); [reflexivity|lia|reflexivity|lia|reflexivity|lia]).
  split; [|split].
  - exists 9007199456067584. split.
    + change (cantor_pair ieee Arr (134217729, 0) (NpInt 0)) with (Ok (wrap64 (int_div ieee (wrap64 (134217729 * 134217730)) 2 + 0))).
      change (wrap64 (134217729 * 134217730)) with 18014398912135170. rewrite D1. reflexivity.
    + change (cantor_pair ieee Arr (0, 134217728) (NpInt 0)) with (Ok (wrap64 (int_div ieee (wrap64 (134217728 * 134217729)) 2 + 134217728))).
      change (wrap64 (134217728 * 134217729)) with 18014398643699712. rewrite D2. reflexivity.
  - exists 9007199456067585. split.
    + change (symmetric_pair ieee (0, 134217729) (NpInt 0)) with (Ok (wrap64 (1 + int_div ieee (wrap64 (134217730 * 134217729)) 2))).
      change (wrap64 (134217730 * 134217729)) with 18014398912135170. rewrite D1. reflexivity.
    + change (symmetric_pair ieee (134217728, 134217728) (NpInt 0)) with (Ok (wrap64 (134217729 + int_div ieee (wrap64 (134217729 * 134217728)) 2))).
      change (wrap64 (134217729 * 134217728)) with 18014398643699712. rewrite D2. reflexivity.
  - exists 9007199515875289. split.
    + change (xie_pair ieee (189812533, 0) (NpInt 0)) with (Ok (int_div ieee (wrap64 (wrap64 (189812534 * 189812534) - 0)) 4 + int_div ieee 2 2)).
      change (wrap64 (wrap64 (189812534 * 189812534) - 0)) with 36028798063501156. rewrite D3, D5. reflexivity.
    + change (xie_pair ieee (94906266, 94906266) (NpInt 0)) with (Ok (int_div ieee (wrap64 (wrap64 (189812533 * 189812533) - 1)) 4 + int_div ieee 189812534 2)).
      change (wrap64 (wrap64 (189812533 * 189812533) - 1)) with 36028797683876088. rewrite D4, D6. reflexivity.
Qed.
Print Assumptions C25_ieee_collisions.
