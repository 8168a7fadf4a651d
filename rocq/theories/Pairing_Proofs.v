(** * Proofs about the pairing functions. *)
From Coq Require Import List ZArith Reals Lia Lra Bool Psatz.
From Flocq Require Import Core.
From Verif Require Import Base Pairing_Model.
From Coq Require Import Lia.
Local Open Scope Z_scope.
Local Open Scope res_scope.

(** ** what the float operations must deliver *)
Record good (M : fpmode) (B : Z) := Good {
  g_wrap : forall z, - B <= z <= B -> wrap M z = z;
  g_half : forall z, 0 <= z <= B -> Z.even z = true -> int_div M z 2 = z / 2;
  g_quarter : forall z, 0 <= z <= B -> z mod 4 = 0 -> int_div M z 4 = z / 4 }.

Definition tri (w : Z) : Z := w * (w + 1) / 2.
Lemma tri2 w : 2 * tri w = w * (w + 1).
Proof.
  unfold tri. assert (H : (w * (w + 1)) mod 2 = 0).
  { assert (E := Z.even_mul w (w + 1)). rewrite Z.even_add in E. change (Z.even 1) with false in E.
    rewrite Zeven_mod in *. destruct (Z.even w); cbn in E; apply Zeq_bool_eq; exact E. }
  assert (E := Z.div_mod (w * (w + 1)) 2 ltac:(lia)). lia.
Qed.
Lemma even_tri w : Z.even (w * (w + 1)) = true.
Proof. rewrite Z.even_mul, Z.even_add. destruct (Z.even w); reflexivity. Qed.

Lemma tri_step w : tri (w + 1) = tri w + w + 1.
Proof. assert (A := tri2 w). assert (B := tri2 (w + 1)). nia. Qed.

(** ** exact mode *)
Lemma int_div_exact2 z : 0 <= z -> Z.even z = true -> int_div exact z 2 = z / 2.
Proof.
  intros H He. unfold int_div, exact. cbn [fl].
  apply Z.even_spec in He. destruct He as [k ->].
  replace (IZR (2 * k) / 2)%R with (IZR k) by (rewrite mult_IZR; field).
  rewrite Ztrunc_IZR. rewrite Z.mul_comm, Z.div_mul by lia. reflexivity.
Qed.
Lemma int_div_exact4 z : 0 <= z -> z mod 4 = 0 -> int_div exact z 4 = z / 4.
Proof.
  intros H He. unfold int_div, exact. cbn [fl].
  assert (Ez : z = 4 * (z / 4)) by (rewrite (Z.div_mod z 4) at 1 by lia; lia).
  rewrite Ez at 1. replace (IZR (4 * (z / 4)) / 4)%R with (IZR (z / 4)) by (rewrite mult_IZR; field).
  apply Ztrunc_IZR.
Qed.
Lemma good_exact B : good exact B.
Proof. constructor; [reflexivity|intros; apply int_div_exact2; [lia|assumption]|intros; apply int_div_exact4; [lia|assumption]]. Qed.

(** the real w with 2w+1 <= sqrt(8n+1) < 2w+3 *)
Lemma w_bounds n w : tri w <= n < tri (w + 1) -> 0 <= w -> (2 * w + 1) * (2 * w + 1) <= 8 * n + 1 < (2 * w + 3) * (2 * w + 3).
Proof. intros H Hw. assert (A := tri2 w). assert (B := tri2 (w + 1)). nia. Qed.

Lemma tri_mono w v : 0 <= w <= v -> tri w <= tri v.
Proof. intros. assert (A := tri2 w). assert (B := tri2 v). nia. Qed.
Lemma tri_inv n : 0 <= n -> exists w, 0 <= w /\ tri w <= n < tri (w + 1).
Proof.
  intros Hn. pattern n. apply (Zlt_lower_bound_ind _ 0); [|exact Hn]. clear n Hn. intros n IH Hn.
  destruct (Z.eq_dec n 0) as [->|Hne].
  - exists 0. split; [lia|]. assert (A := tri2 0). assert (B := tri2 (0 + 1)). lia.
  - destruct (IH (n - 1)) as (w & Hw & Hl); [lia|].
    assert (E1 := tri_step w). assert (E2 := tri_step (w + 1)).
    destruct (Z_lt_dec n (tri (w + 1))); [exists w|exists (w + 1)]; lia.
Qed.

Lemma w_of_exact n w : 0 <= w -> tri w <= n < tri (w + 1) -> w_of exact n = Ok w.
Proof.
  intros Hw H. assert (A := tri2 w). unfold w_of.
  destruct (Z.ltb_spec n 0); [nia|]. f_equal. cbn [fl exact].
  destruct (w_bounds n w H Hw) as [B1 B2].
  apply Zfloor_imp. rewrite plus_IZR.
  assert (S : (0 <= sqrt (8 * IZR n + 1))%R) by apply sqrt_pos.
  assert (SS : (sqrt (8 * IZR n + 1) * sqrt (8 * IZR n + 1) = 8 * IZR n + 1)%R).
  { apply sqrt_sqrt. assert (0 <= IZR n)%R by (apply IZR_le; nia). lra. }
  apply IZR_le in B1. apply IZR_lt in B2. rewrite !mult_IZR, !plus_IZR, ?mult_IZR in B1, B2.
  assert (Hw' : (0 <= IZR w)%R) by (apply IZR_le; exact Hw).
  assert (T1 : (2 * IZR w + 1 <= sqrt (8 * IZR n + 1))%R).
  { apply Rnot_lt_le. intros C. nra. }
  assert (T2 : (sqrt (8 * IZR n + 1) < 2 * IZR w + 3)%R).
  { apply Rnot_le_lt. intros C. nra. }
  lra.
Qed.

Lemma root_exact n t : 0 <= t -> t * t <= n < (t + 1) * (t + 1) ->
  Zfloor (fl exact (sqrt (fl exact (IZR n)))) = t.
Proof.
  intros Ht [B1 B2]. cbn [fl exact]. apply Zfloor_imp. rewrite plus_IZR.
  assert (S : (0 <= sqrt (IZR n))%R) by apply sqrt_pos.
  assert (SS : (sqrt (IZR n) * sqrt (IZR n) = IZR n)%R) by (apply sqrt_sqrt, IZR_le; nia).
  apply IZR_le in B1. apply IZR_lt in B2. rewrite !mult_IZR in B1, B2. rewrite !plus_IZR in B2.
  assert (Ht' : (0 <= IZR t)%R) by (apply IZR_le; exact Ht).
  split; [apply Rnot_lt_le; intros C; nra|apply Rnot_le_lt; intros C].
  assert ((IZR t + 1) * (IZR t + 1) <= sqrt (IZR n) * sqrt (IZR n))%R by (apply Rmult_le_compat; lra). lra.
Qed.

(** ** results for any mode that is good up to B *)
Section Good.
Variable M : fpmode.
Variable B : Z.
Hypothesis HB : good M B.
Hypothesis HB2 : 2 <= B.
Let gw := g_wrap M B HB.

Lemma cantor_value k lo a b :
  (k = Arr \/ exists z, lo = NpInt z) ->
  zof lo <= a -> zof lo <= b -> (a + b - 2 * zof lo + 2) * (a + b - 2 * zof lo + 2) <= B ->
  cantor_pair M k (a, b) lo = Ok (tri (a + b - 2 * zof lo) + (b - zof lo)).
Proof.
  intros Hk Ha Hb Hs. set (l := zof lo) in *.
  assert (E : cantor_pair M k (a, b) lo =
    (let m0 := wrap M (a - l) in let m1 := wrap M (b - l) in
    let s := wrap M (m0 + m1) in
    Ok (wrap M (int_div M (wrap M (s * wrap M (s + 1))) 2 + m1)))).
  { destruct k, lo; try reflexivity. destruct Hk as [Hk|[? Hk]]; discriminate. }
  rewrite E. cbv zeta. clear E.
  rewrite (gw (a - l)), (gw (b - l)) by nia. set (s := a + b - 2 * l) in *.
  replace (a - l + (b - l)) with s by lia.
  assert (T := tri2 s). assert (0 <= s) by lia.
  rewrite (gw s), (gw (s + 1)) by nia. rewrite (gw (s * (s + 1))) by nia.
  rewrite (g_half M B HB) by (try nia; apply even_tri). fold (tri s). rewrite gw by nia. reflexivity.
Qed.

Lemma symmetric_value lo a b : let l := zof lo in
  l <= a -> l <= b -> (Z.max a b - l + 2) * (Z.max a b - l + 2) <= B ->
  symmetric_pair M (a, b) lo = Ok (Z.min a b - l + 1 + tri (Z.max a b - l)).
Proof.
  intros l Ha Hb Hs. unfold symmetric_pair. fold l. cbn [fst snd].
  set (q := if b <=? a then (b, a) else (a, b)).
  assert (Eq : q = (Z.min a b, Z.max a b)).
  { unfold q. destruct (Z.leb_spec b a); f_equal; lia. }
  rewrite Eq. cbn [fst snd].
  set (mn := Z.min a b) in *. set (mx := Z.max a b) in *. assert (l <= mn <= mx) by lia.
  rewrite (gw (mn - l)), (gw (mx - l)) by nia.
  rewrite (gw (mn - l + 1)), (gw (mx - l + 1)) by nia.
  replace (mx - l + 1 - 1) with (mx - l) by lia.
  assert (T := tri2 (mx - l)).
  rewrite (gw (mx - l)) by nia. replace ((mx - l + 1) * (mx - l)) with ((mx - l) * (mx - l + 1)) by ring.
  rewrite (gw ((mx - l) * (mx - l + 1))) by nia.
  rewrite (g_half M B HB) by (try nia; apply even_tri). fold (tri (mx - l)). rewrite gw by nia. reflexivity.
Qed.

(** the Xie code of a >= b >= 1 *)
Definition xcode (a b : Z) : Z := let s := a + b - 1 in (s * s - s mod 2) / 4 + b.
Lemma xcode_even a b j : a + b - 1 = 2 * j -> xcode a b = j * j + b.
Proof.
  intros E. unfold xcode. rewrite E. replace (2 * j) with (j * 2) by ring. rewrite Z.mod_mul by lia.
  replace (j * 2 * (j * 2) - 0) with (j * j * 4) by ring. rewrite Z.div_mul by lia. reflexivity.
Qed.
Lemma xcode_odd a b j : a + b - 1 = 2 * j + 1 -> xcode a b = j * j + j + b.
Proof.
  intros E. unfold xcode. rewrite E. replace ((2 * j + 1) mod 2) with 1 by (rewrite Z.add_comm, Z.mul_comm, Z.mod_add by lia; reflexivity).
  replace ((2 * j + 1) * (2 * j + 1) - 1) with ((j * j + j) * 4) by ring. rewrite Z.div_mul by lia. reflexivity.
Qed.

Lemma xie_value lo a b : let l := zof lo in
  l <= a -> l <= b -> (a + b - 2 * l + 2) * (a + b - 2 * l + 2) <= B ->
  xie_pair M (a, b) lo = Ok (xcode (Z.max a b - l + 1) (Z.min a b - l + 1)).
Proof.
  intros l Ha Hb Hs. unfold xie_pair. fold l. cbn [fst snd].
  set (q := if a <? b then (b, a) else (a, b)).
  assert (Eq : q = (Z.max a b, Z.min a b)).
  { unfold q. destruct (Z.ltb_spec a b); f_equal; lia. }
  rewrite Eq. cbn [fst snd].
  replace (a + b) with (Z.max a b + Z.min a b) in Hs by lia.
  set (mn := Z.min a b) in *. set (mx := Z.max a b) in *. assert (l <= mn <= mx) by lia.
  rewrite (gw (mn - l)), (gw (mx - l)) by nia.
  rewrite (gw (mn - l + 1)), (gw (mx - l + 1)) by nia.
  rewrite (gw (mx - l + 1 + (mn - l + 1))) by nia.
  rewrite (gw (mx - l + 1 + (mn - l + 1) - 1)) by nia.
  rewrite (gw (mx - l + 1 - (mn - l + 1))) by nia.
  set (s := mx - l + 1 + (mn - l + 1) - 1).
  replace (mx - l + 1 + (mn - l + 1) - Z.abs (mx - l + 1 - (mn - l + 1))) with (2 * (mn - l + 1)) by lia.
  rewrite (gw (2 * (mn - l + 1))) by nia.
  rewrite (g_half M B HB) by (try nia; rewrite Z.even_mul; reflexivity).
  rewrite (Z.mul_comm 2), Z.div_mul by lia.
  assert (Hm : 0 <= s mod 2 < 2) by (apply Z.mod_pos_bound; lia).
  rewrite (gw (s * s)) by (unfold s; nia). rewrite gw by (unfold s in *; nia).
  rewrite (g_quarter M B HB); [reflexivity|unfold s in *; nia|].
  rewrite (Z.div_mod s 2) at 1 2 by lia. set (j := s / 2). set (r := s mod 2) in *.
  assert (r = 0 \/ r = 1) as [-> | ->] by lia.
  - replace ((2 * j + 0) * (2 * j + 0) - 0) with (j * j * 4) by ring. apply Z.mod_mul. lia.
  - replace ((2 * j + 1) * (2 * j + 1) - 1) with ((j * j + j) * 4) by ring. apply Z.mod_mul. lia.
Qed.

Lemma tuple_plus_ok t lo c : - B <= fst t + lo <= B -> - B <= snd t + lo <= B ->
  - B <= fst t + lo + c <= B -> - B <= snd t + lo + c <= B ->
  tuple_plus M t (NpInt lo) c = Ok (fst t + lo + c, snd t + lo + c).
Proof. intros. unfold tuple_plus. rewrite !gw by (rewrite ?gw; assumption). reflexivity. Qed.

Lemma inv_cantor_value n lo w : w_of M n = Ok w -> 0 <= w -> tri w <= n < tri (w + 1) ->
  (w + 2) * (w + 2) <= B -> - B <= lo -> lo + w <= B ->
  invert_cantor_pair M n (NpInt lo) = Ok (tri w + w - n + lo, n - tri w + lo).
Proof.
  intros Hw H0 Hn Hb Hl1 Hl2. unfold invert_cantor_pair. rewrite Hw. cbn [bind].
  assert (T := tri2 w). assert (T' := tri_step w).
  replace (w * w + w) with (w * (w + 1)) by ring.
  rewrite (g_half M B HB) by (try nia; apply even_tri). fold (tri w).
  rewrite tuple_plus_ok; cbn [fst snd]; [do 2 f_equal; lia|lia..].
Qed.
Lemma inv_symmetric_value n lo w : w_of M n = Ok w -> 0 <= w -> tri w <= n < tri (w + 1) ->
  (w + 2) * (w + 2) <= B -> - B <= lo - 1 -> lo + w + 1 <= B ->
  invert_symmetric_pair M n (NpInt lo) = Ok (n - tri w + lo - 1, w + lo).
Proof.
  intros Hw H0 Hn Hb Hl1 Hl2. unfold invert_symmetric_pair. rewrite Hw. cbn [bind].
  assert (T := tri2 w). assert (T' := tri_step w).
  replace (w * w + w) with (w * (w + 1)) by ring.
  rewrite (g_half M B HB) by (try nia; apply even_tri). fold (tri w).
  rewrite tuple_plus_ok; cbn [fst snd]; [do 2 f_equal; lia|lia..].
Qed.

Lemma sgn_accent_value z : sgn_accent M z = if 0 <? z then 1 else 0.
Proof.
  assert (H0 : int_div M 0 2 = 0) by (rewrite (g_half M B HB); [reflexivity|lia|reflexivity]).
  assert (H2 : int_div M 2 2 = 1) by (rewrite (g_half M B HB); [reflexivity|lia|reflexivity]).
  unfold sgn_accent. destruct z as [|p|p].
  - exact H0.
  - exact H2.
  - exact H0.
Qed.

Lemma inv_xie_value lo a b t :
  1 <= b <= a -> t * t <= xcode a b < (t + 1) * (t + 1) -> 0 <= t ->
  Zfloor (fl M (sqrt (fl M (IZR (xcode a b))))) = t ->
  - B <= lo -> a + lo <= B ->
  invert_xie_pair M (xcode a b) (NpInt lo) = Ok (a + lo - 1, b + lo - 1).
Proof.
  intros Hab Ht Ht0 Hr Hl1 Hl2. unfold invert_xie_pair.
  assert (0 <= xcode a b) by nia. destruct (Z.ltb_spec (xcode a b) 0); [lia|].
  rewrite Hr. clear Hr. rewrite sgn_accent_value.
  set (N := xcode a b) in *. cbv zeta.
  assert (Hmn : (1 - Z.sgn (N - t * t)) * t + Z.sgn (N - t * t) * ((t + 1) * (t + 1 + (if 0 <? N - t * t - t then 1 else 0)) - N) = a /\
     (1 - Z.sgn (N - t * t)) * t + Z.sgn (N - t * t) * (N - t * (t + (if 0 <? N - t * t - t then 1 else 0))) = b).
  { set (s := a + b - 1). set (j := s / 2).
    assert (Hm : 0 <= s mod 2 < 2) by (apply Z.mod_pos_bound; lia).
    assert (Hs : s = 2 * j + s mod 2) by (unfold j; apply Z.div_mod; lia).
    assert (s mod 2 = 0 \/ s mod 2 = 1) as [E|E] by lia.
    - assert (EN : N = j * j + b) by (apply xcode_even; lia).
      assert (t = j) by nia. subst t. rewrite EN.
      replace (j * j + b - j * j) with b by ring. replace (Z.sgn b) with 1 by (symmetry; apply Z.sgn_pos; lia).
      destruct (Z.ltb_spec 0 (b - j)); [lia|]. split; [|lia]. nia.
    - assert (EN : N = j * j + j + b) by (apply xcode_odd; lia).
      destruct (Z.eq_dec b (j + 1)) as [Eb|Nb].
      + assert (t = j + 1) by nia. subst t. replace (N - (j + 1) * (j + 1)) with 0 by nia. cbn [Z.sgn]. split; lia.
      + assert (t = j) by nia. subst t. replace (N - j * j) with (j + b) by lia.
        replace (Z.sgn (j + b)) with 1 by (symmetry; apply Z.sgn_pos; lia).
        destruct (Z.ltb_spec 0 (j + b - j)); [|lia]. rewrite EN. split; nia. }
  destruct Hmn as [-> ->]. rewrite tuple_plus_ok; cbn [fst snd]; [do 2 f_equal; lia|lia..].
Qed.
End Good.

(** number theory of the codes *)
Lemma xcode_surj n : 1 <= n -> exists a b, 1 <= b <= a /\ xcode a b = n.
Proof.
  intros Hn. destruct (Z.sqrt_spec n ltac:(lia)) as [S1 S2]. set (t := Z.sqrt n) in *.
  assert (0 <= t) by apply Z.sqrt_nonneg.
  destruct (Z.eq_dec (t * t) n) as [E|E].
  - exists t, t. split; [nia|]. rewrite (xcode_odd t t (t - 1)) by lia. nia.
  - destruct (Z_le_dec (n - t * t) t) as [Hle|Hgt].
    + exists (2 * t + 1 - (n - t * t)), (n - t * t). split; [nia|]. rewrite (xcode_even _ _ t) by lia. lia.
    + exists (2 * t + 2 - (n - t * t - t)), (n - t * t - t). split; [nia|]. rewrite (xcode_odd _ _ t) by lia. lia.
Qed.
Lemma xcode_pos a b : 1 <= b <= a -> 1 <= xcode a b.
Proof.
  intros H. set (s := a + b - 1). set (j := s / 2).
  assert (Hm : 0 <= s mod 2 < 2) by (apply Z.mod_pos_bound; lia).
  assert (Hs : s = 2 * j + s mod 2) by (unfold j; apply Z.div_mod; lia).
  assert (s mod 2 = 0 \/ s mod 2 = 1) as [E|E] by lia;
    [rewrite (xcode_even a b j) by lia|rewrite (xcode_odd a b j) by lia]; nia.
Qed.

(** ** IEEE mode *)
Local Notation fmt := (generic_format radix2 (FLT_exp (-1074) 53)).
Local Instance prec53 : Prec_gt_0 53.
Proof. reflexivity. Qed.

Lemma fmt_dyadic m e : Z.abs m < 2 ^ 53 -> -1074 <= e -> fmt (IZR m * bpow radix2 e)%R.
Proof.
  intros Hm He. apply generic_format_FLT. exists (Float radix2 m e); [reflexivity|exact Hm|exact He].
Qed.
Lemma fmt_int z : Z.abs z < 2 ^ 53 -> fmt (IZR z).
Proof. intros H. replace (IZR z) with (IZR z * bpow radix2 0)%R by (simpl; ring). apply fmt_dyadic; [exact H|lia]. Qed.
Lemma rnd_id x : fmt x -> rnd64 x = x.
Proof. intros H. apply round_generic; [apply valid_rnd_N|exact H]. Qed.
Lemma rnd_mono x y : (x <= y)%R -> (rnd64 x <= rnd64 y)%R.
Proof. intros H. apply round_le; [apply FLT_exp_valid; reflexivity|apply valid_rnd_N|exact H]. Qed.
Lemma rnd_le x y : fmt y -> (x <= y)%R -> (rnd64 x <= y)%R.
Proof. intros Hy H. rewrite <- (rnd_id y Hy). apply rnd_mono, H. Qed.
Lemma rnd_ge x y : fmt y -> (y <= x)%R -> (y <= rnd64 x)%R.
Proof. intros Hy H. rewrite <- (rnd_id y Hy) at 1. apply rnd_mono, H. Qed.

Lemma wrap64_id z : - 2 ^ 63 <= z < 2 ^ 63 -> wrap64 z = z.
Proof. intros H. unfold wrap64. rewrite Z.mod_small by lia. lia. Qed.

Lemma int_div_ieee z d e : 0 <= z < 2 ^ 53 -> (IZR d = bpow radix2 e)%R -> 0 <= e <= 10 -> z mod d = 0 -> 0 < d ->
  int_div ieee z d = z / d.
Proof.
  intros Hz Hd He Hm Hd0. unfold int_div. cbn [fl ieee].
  rewrite (rnd_id (IZR z)) by (apply fmt_int; lia).
  assert (Ez : z = d * (z / d)) by (rewrite (Z.div_mod z d) at 1 by lia; lia).
  assert (Eq : (IZR z / IZR d = IZR (z / d))%R).
  { rewrite Ez at 1. rewrite mult_IZR. field. apply IZR_neq. lia. }
  rewrite Eq. rewrite rnd_id; [apply Ztrunc_IZR|]. apply fmt_int.
  assert (0 <= z / d <= z) by (split; [apply Z.div_pos; lia|apply Z.div_le_upper_bound; nia]). lia.
Qed.
Lemma good_ieee : good ieee (2 ^ 53 - 1).
Proof.
  constructor.
  - intros z Hz. apply wrap64_id. lia.
  - intros z Hz He. apply (int_div_ieee z 2 1); [lia|reflexivity|lia| |lia].
    rewrite Zeven_mod in He. apply Zeq_bool_eq. exact He.
  - intros z Hz Hm. apply (int_div_ieee z 4 2); [lia|reflexivity|lia|exact Hm|lia].
Qed.

Lemma w_of_ieee n w : 0 <= w -> tri w <= n < tri (w + 1) -> n < 2 ^ 50 -> w_of ieee n = Ok w.
Proof.
  intros Hw H Hn50. assert (A := tri2 w). assert (A' := tri2 (w + 1)).
  assert (Hn : 0 <= n) by nia. assert (Hwb : w < 2 ^ 26 - 4) by nia.
  unfold w_of. destruct (Z.ltb_spec n 0); [lia|]. f_equal. cbn [fl ieee].
  destruct (w_bounds n w H Hw) as [B1 B2].
  rewrite (rnd_id (IZR n)) by (apply fmt_int; lia).
  replace (8 * IZR n)%R with (IZR (8 * n)) by (rewrite mult_IZR; reflexivity).
  rewrite (rnd_id (IZR (8 * n))) by (apply fmt_int; lia).
  replace (IZR (8 * n) + 1)%R with (IZR (8 * n + 1)) by (rewrite plus_IZR; reflexivity).
  rewrite (rnd_id (IZR (8 * n + 1))) by (apply fmt_int; lia).
  set (q := sqrt (IZR (8 * n + 1))).
  assert (S : (0 <= q)%R) by apply sqrt_pos.
  assert (SS : (q * q = IZR (8 * n + 1))%R) by (apply sqrt_sqrt, IZR_le; lia).
  assert (Hw' : (0 <= IZR w)%R) by (apply IZR_le; exact Hw).
  assert (Hwr : (IZR w < 67108860)%R) by (apply IZR_lt; exact Hwb).
  (* the next square is at least 8 above *)
  assert (B3 : 8 * n + 1 <= (2 * w + 3) * (2 * w + 3) - 8) by nia.
  apply IZR_le in B1. apply IZR_le in B3. rewrite minus_IZR in B3. rewrite !mult_IZR in B1, B3. rewrite plus_IZR, mult_IZR in B1. rewrite !plus_IZR, !mult_IZR in B3.
  rewrite <- ?plus_IZR in SS.
  assert (SS' : (q * q = 8 * IZR n + 1)%R) by (rewrite SS, plus_IZR, mult_IZR; reflexivity).
  rewrite ?plus_IZR, ?mult_IZR in B1.
  assert (T1 : (IZR (2 * w + 1) <= q)%R).
  { rewrite plus_IZR, mult_IZR. apply Rnot_lt_le. intros C. nra. }
  set (d := bpow radix2 (-25)). assert (Ed : (d = / 33554432)%R) by reflexivity.
  assert (T2 : (q <= IZR ((2 * w + 3) * 2 ^ 25 - 1) * d)%R).
  { replace (IZR ((2 * w + 3) * 2 ^ 25 - 1) * d)%R with (2 * IZR w + 3 - d)%R
      by (rewrite minus_IZR, mult_IZR, plus_IZR, mult_IZR; change (2 ^ 25) with 33554432; rewrite Ed; field).
    apply Rnot_lt_le. intros C.
    assert ((2 * IZR w + 3 - d) * (2 * IZR w + 3 - d) < q * q)%R by (apply Rmult_le_0_lt_compat; rewrite ?Ed in *; lra).
    rewrite Ed in *. nra. }
  assert (R1 : (IZR (2 * w + 1) <= rnd64 q)%R) by (apply rnd_ge; [apply fmt_int; lia|exact T1]).
  assert (R2 : (rnd64 q <= IZR ((2 * w + 3) * 2 ^ 25 - 1) * d)%R).
  { apply rnd_le; [|exact T2]. apply fmt_dyadic; [|lia]. lia. }
  set (u := rnd64 (/ 2 * rnd64 q)).
  assert (U1 : (IZR (2 * w + 1) * bpow radix2 (-1) <= u)%R).
  { apply rnd_ge; [apply fmt_dyadic; lia|]. change (bpow radix2 (-1)) with (/ 2)%R. lra. }
  assert (U2 : (u <= IZR ((2 * w + 3) * 2 ^ 25 - 1) * bpow radix2 (-26))%R).
  { apply rnd_le; [apply fmt_dyadic; lia|]. change (bpow radix2 (-26)) with (/ 67108864)%R. rewrite Ed in R2. lra. }
  change (bpow radix2 (-1)) with (/ 2)%R in U1. change (bpow radix2 (-26)) with (/ 67108864)%R in U2.
  assert (V1 : (IZR w <= rnd64 (u - / 2))%R).
  { apply rnd_ge; [apply fmt_int; lia|]. rewrite plus_IZR, mult_IZR in U1. lra. }
  assert (V2 : (rnd64 (u - / 2) <= IZR ((w + 1) * 2 ^ 26 - 1) * bpow radix2 (-26))%R).
  { apply rnd_le; [apply fmt_dyadic; lia|]. change (bpow radix2 (-26)) with (/ 67108864)%R.
    rewrite minus_IZR, mult_IZR, plus_IZR in *. rewrite mult_IZR in U2.
    change (2 ^ 25) with 33554432 in U2. change (2 ^ 26) with 67108864. lra. }
  change (bpow radix2 (-26)) with (/ 67108864)%R in V2.
  apply Zfloor_imp. split; [exact V1|]. rewrite minus_IZR, mult_IZR, plus_IZR in V2. change (2 ^ 26) with 67108864 in V2.
  rewrite plus_IZR. lra.
Qed.

Lemma root_ieee n t : 0 <= t -> t * t <= n < (t + 1) * (t + 1) -> n < 2 ^ 50 ->
  Zfloor (fl ieee (sqrt (fl ieee (IZR n)))) = t.
Proof.
  intros Ht [B1 B2] Hn50. cbn [fl ieee]. assert (Htb : t < 2 ^ 26 - 4) by nia.
  rewrite (rnd_id (IZR n)) by (apply fmt_int; nia).
  set (q := sqrt (IZR n)).
  assert (S : (0 <= q)%R) by apply sqrt_pos.
  assert (SS : (q * q = IZR n)%R) by (apply sqrt_sqrt, IZR_le; nia).
  assert (Ht' : (0 <= IZR t)%R) by (apply IZR_le; exact Ht).
  assert (Htr : (IZR t < 67108860)%R) by (apply IZR_lt; exact Htb).
  assert (B3 : n <= (t + 1) * (t + 1) - 1) by lia.
  apply IZR_le in B1. apply IZR_le in B3. rewrite minus_IZR in B3. rewrite !mult_IZR in B1, B3. rewrite !plus_IZR in B3.
  assert (T1 : (IZR t <= q)%R) by (apply Rnot_lt_le; intros C; nra).
  assert (T2 : (q <= IZR ((t + 1) * 2 ^ 27 - 1) * bpow radix2 (-27))%R).
  { change (bpow radix2 (-27)) with (/ 134217728)%R. rewrite minus_IZR, mult_IZR, plus_IZR. change (2 ^ 27) with 134217728.
    replace (((IZR t + 1) * 134217728 - 1) * / 134217728)%R with (IZR t + 1 - / 134217728)%R by field.
    apply Rnot_lt_le. intros C.
    assert ((IZR t + 1 - / 134217728) * (IZR t + 1 - / 134217728) < q * q)%R by (apply Rmult_le_0_lt_compat; lra).
    nra. }
  apply Zfloor_imp. split.
  - apply rnd_ge; [apply fmt_int; lia|exact T1].
  - apply (Rle_lt_trans _ (IZR ((t + 1) * 2 ^ 27 - 1) * bpow radix2 (-27))).
    + apply rnd_le; [|exact T2]. apply fmt_dyadic; lia.
    + change (bpow radix2 (-27)) with (/ 134217728)%R. rewrite minus_IZR, mult_IZR, plus_IZR. change (2 ^ 27) with 134217728. lra.
Qed.

(** Rounding of a large integer halfway between two doubles, even candidate below. *)
Lemma rnd_tie_down z q e : 0 <= e <= 100 -> Z.even q = true -> 2 ^ 52 <= q -> q < 2 ^ 53 ->
  2 * z = (2 * q + 1) * 2 ^ e -> rnd64 (IZR z) = IZR (q * 2 ^ e).
Proof.
  intros He Hev Hq1 Hq2 Ez.
  assert (P : 0 < 2 ^ e) by (apply Z.pow_pos_nonneg; lia).
  assert (Ezr : (IZR z = (IZR q + / 2) * bpow radix2 e)%R).
  { rewrite <- IZR_Zpower by lia. change (radix_val radix2) with 2.
    apply (f_equal IZR) in Ez. rewrite !mult_IZR, plus_IZR, mult_IZR in Ez. lra. }
  assert (Pb : (0 < bpow radix2 e)%R) by apply bpow_gt_0.
  assert (Hq1r : (bpow radix2 52 <= IZR q)%R) by (change (bpow radix2 52) with (IZR (2 ^ 52)); apply IZR_le; exact Hq1).
  assert (Hq2r : (IZR q + 1 <= bpow radix2 53)%R).
  { change (bpow radix2 53) with (IZR (2 ^ 53)). rewrite <- plus_IZR. apply IZR_le. lia. }
  assert (Hmag : mag radix2 (IZR z) = (53 + e) :> Z).
  { apply mag_unique. rewrite Rabs_pos_eq.
    - replace (53 + e - 1) with (52 + e) by lia. rewrite !bpow_plus, Ezr. split.
      + apply Rmult_le_compat_r; lra.
      + apply Rmult_lt_compat_r; lra.
    - rewrite Ezr. apply Rmult_le_pos; [|lra]. assert (0 < bpow radix2 52)%R by apply bpow_gt_0. lra. }
  unfold rnd64, round. unfold scaled_mantissa, cexp. rewrite Hmag.
  replace (FLT_exp (-1074) 53 (53 + e)) with e by (unfold FLT_exp; lia).
  rewrite Ezr at 1. rewrite Rmult_assoc, <- bpow_plus. replace (e + - e) with 0 by lia. simpl (bpow radix2 0). rewrite Rmult_1_r.
  assert (Hn : ZnearestE (IZR q + / 2) = q).
  { unfold Znearest. assert (Ef : Zfloor (IZR q + / 2) = q) by (apply Zfloor_imp; rewrite plus_IZR; lra).
    rewrite Ef. replace (IZR q + / 2 - IZR q)%R with (/ 2)%R by ring. rewrite Rcompare_Eq by reflexivity. rewrite Hev. reflexivity. }
  rewrite Hn. unfold F2R. cbn [Fnum Fexp]. rewrite mult_IZR, <- IZR_Zpower by lia. reflexivity.
Qed.

Lemma int_div_tie z q e d k : 0 <= e <= 100 -> Z.even q = true -> 2 ^ 52 <= q -> q < 2 ^ 53 ->
  2 * z = (2 * q + 1) * 2 ^ e -> 0 <= k <= e -> (IZR d = bpow radix2 k)%R -> d <> 0 ->
  int_div ieee z d = q * 2 ^ (e - k).
Proof.
  intros He Hev Hq1 Hq2 Ez Hk Hd Hd0. unfold int_div. cbn [fl ieee].
  rewrite (rnd_tie_down z q e) by assumption.
  assert (Eq : (IZR (q * 2 ^ e) / IZR d = IZR (q * 2 ^ (e - k)))%R).
  { rewrite Hd. replace (2 ^ e) with (2 ^ (e - k) * 2 ^ k) by (rewrite <- Z.pow_add_r by lia; f_equal; lia).
    rewrite !mult_IZR. rewrite <- (IZR_Zpower radix2 k) by lia. change (radix_val radix2) with 2.
    field. apply IZR_neq. apply Z.pow_nonzero; lia. }
  rewrite Eq, rnd_id; [apply Ztrunc_IZR|].
  replace (IZR (q * 2 ^ (e - k))) with (IZR q * bpow radix2 (e - k))%R.
  - apply fmt_dyadic; lia.
  - rewrite mult_IZR, <- (IZR_Zpower radix2 (e - k)) by lia. reflexivity.
Qed.

(** Large integers that are exactly representable. *)
Lemma int_div_exactly m e k : 0 <= m < 2 ^ 53 -> 0 <= k <= e -> forall z d, 
  z = m * 2 ^ e /\ d = 2 ^ k -> int_div ieee z d = m * 2 ^ (e - k).
Proof.
  intros Hm Hk z d [-> ->]. unfold int_div. cbn [fl ieee].
  assert (Rep : forall j, 0 <= j -> fmt (IZR (m * 2 ^ j))).
  { intros j Hj. replace (IZR (m * 2 ^ j)) with (IZR m * bpow radix2 j)%R; [apply fmt_dyadic; lia|].
    rewrite mult_IZR, <- (IZR_Zpower radix2 j) by lia. reflexivity. }
  rewrite (rnd_id (IZR (m * 2 ^ e))) by (apply Rep; lia).
  assert (Eq : (IZR (m * 2 ^ e) / IZR (2 ^ k) = IZR (m * 2 ^ (e - k)))%R).
  { replace (2 ^ e) with (2 ^ (e - k) * 2 ^ k) by (rewrite <- Z.pow_add_r by lia; f_equal; lia).
    rewrite !mult_IZR. field. apply IZR_neq. apply Z.pow_nonzero; lia. }
  rewrite Eq, rnd_id; [apply Ztrunc_IZR|apply Rep; lia].
Qed.
