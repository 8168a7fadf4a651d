(** * Properties of the comparison and assertion helpers of the test utilities *)
From Coq Require Import List ZArith Reals Bool String Lra Lia.
From Flocq Require Import Core BinarySingleNaN.
From Verif Require Import Cmp_Model Cmp_Spec Cmp_Proofs.
Import ListNotations.
Local Open Scope R_scope.

(** ** C170: comparing two objects *)

(** Two objects that are no arrays always get an answer, and it is yes exactly if they
    are numbers of the same type within a relative distance 1e-9, equal infinities, two
    functions with the same bytecode, or two objects with a length that are equal or
    consist of functions with pairwise the same bytecode. *)
Theorem C170_objects a b :
  exists answer, value_comparison (VObj a) (VObj b) = Answer answer /\ (answer = true <-> Same a b).
Proof. exists (compare_objects a b). split; [reflexivity|apply compare_objects_spec]. Qed.

Lemma forall2_sym {A} (P : A -> A -> Prop) l m : (forall a b, In a l -> P a b -> P b a) -> Forall2 P l m -> Forall2 P m l.
Proof. intros H F. induction F; constructor; [apply H; [left; reflexivity|assumption]|apply IHF; intros a b I; apply H; right; exact I]. Qed.
Lemma has_in {A} k (v : A) d : Has k v d -> In (k, v) d.
Proof. induction 1; [left; reflexivity|right; assumption]. Qed.
Lemma in_has {A} k (v : A) d : NoDup (map fst d) -> In (k, v) d -> Has k v d.
Proof.
  induction d as [|(k', v') d IH]; [intros _ []|]. intros N [E|I].
  - injection E as -> ->. constructor.
  - inversion N; subst. apply has_later; [|apply IH; assumption]. intros ->. apply H1. apply (in_map fst) in I. exact I.
Qed.
Lemma equal_sym a : forall b, WfObj a -> WfObj b -> Equal a b -> Equal b a.
Proof.
  induction a as [ba|z|i x|s|i c|i|l IH|l IH|d IH] using obj_ind'; intros b Wa Wb E; inversion E; subst; try (econstructor; eassumption); try (econstructor; fail).
  - constructor. rename H0 into F. inversion Wa as [| | | | | |? Wl| |]; subst. inversion Wb as [| | | | | |? Wm| |]; subst.
    clear E Wa Wb. induction F as [|x y l m Exy F IHF]; constructor; inversion IH; subst.
    + apply H1; [apply Wl; left; reflexivity|apply Wm; left; reflexivity|exact Exy].
    + apply IHF; [assumption|intros q Iq; apply Wl; right; exact Iq|intros q Iq; apply Wm; right; exact Iq].
  - constructor. rename H0 into F. inversion Wa as [| | | | | | |? Wl|]; subst. inversion Wb as [| | | | | | |? Wm|]; subst.
    clear E Wa Wb. induction F as [|x y l m Exy F IHF]; constructor; inversion IH; subst.
    + apply H1; [apply Wl; left; reflexivity|apply Wm; left; reflexivity|exact Exy].
    + apply IHF; [assumption|intros q Iq; apply Wl; right; exact Iq|intros q Iq; apply Wm; right; exact Iq].
  - match goal with HL : _ = List.length _, HA : forall k v, In (k, v) d -> _ |- _ => rename HL into L, HA into A end. inversion Wa as [| | | | | | | |? Nd Wd]; subst. inversion Wb as [| | | | | | | |? Ne We]; subst.
    constructor; [symmetry; exact L|]. intros k w I.
    assert (K : incl (map fst e) (map fst d)).
    { apply NoDup_length_incl; [exact Nd|rewrite !map_length; lia|]. intros k' I'. apply in_map_iff in I'. destruct I' as ((k0, v0) & <- & I').
      destruct (A k0 v0 I') as (w0 & H0 & _). apply has_in in H0. apply (in_map fst) in H0. exact H0. }
    assert (Ik : In k (map fst d)) by (apply K; apply (in_map fst) in I; exact I).
    apply in_map_iff in Ik. destruct Ik as ((k0, v) & E0 & Iv). cbn in E0. subst k0.
    exists v. split; [apply in_has; assumption|]. destruct (A k v Iv) as (w' & Hw & Ew).
    assert (w' = w) by (apply in_has in I; [|exact Ne]; apply get_has in I, Hw; congruence). subst w'.
    rewrite Forall_forall in IH. apply (IH (k, v) Iv w); [exact (Wd k v Iv)|exact (We k w I)|exact Ew].
Qed.
Lemma same_sym a b : WfObj a -> WfObj b -> Same a b -> Same b a.
Proof.
  intros Wa Wb H. inversion H as [? ? r s T Ra Rb C|i j sg|? ? C|? ? l m Ia Ib C|? ? l m Ia Ib C]; subst.
  - apply (s_number b a s r); [inversion T; constructor|assumption..|]. unfold Close9 in *. rewrite (Rabs_minus_sym s r). tauto.
  - constructor.
  - apply s_code. inversion C. constructor.
  - apply (s_codes b a m l Ib Ia). apply (forall2_sym SameCode l m); [|exact C]. intros x y _ D. inversion D. constructor.
  - apply (s_equal b a m l Ib Ia). apply equal_sym; assumption.
Qed.

(** The order of the two objects does not matter. *)
Theorem C170_order_irrelevant a b : WfObj a -> WfObj b ->
  value_comparison (VObj a) (VObj b) = value_comparison (VObj b) (VObj a).
Proof.
  intros Wa Wb. cbn. f_equal. apply eq_true_iff_eq. rewrite !compare_objects_spec. split; apply same_sym; assumption.
Qed.

Lemma equal_refl a : WfObj a -> Equal a a.
Proof.
  induction a as [ba|z|i x|s|i c|i|l IH|l IH|d IH] using obj_ind'; intros W; try (constructor; fail).
  - apply (e_num _ _ _ (r_bool ba) (r_bool ba)).
  - apply (e_num _ _ _ (r_int z) (r_int z)).
  - destruct (is_finite x) eqn:F; [apply (e_num _ _ (B2R x)); constructor; exact F|]. destruct x; try discriminate; constructor.
  - constructor. inversion W as [| | | | | |? Wl| |]; subst. clear W. induction l as [|x l IHl]; constructor; inversion IH; subst.
    + apply H1. apply Wl. left. reflexivity.
    + apply IHl; [assumption|]. intros q I. apply Wl. right. exact I.
  - constructor. inversion W as [| | | | | | |? Wl|]; subst. clear W. induction l as [|x l IHl]; constructor; inversion IH; subst.
    + apply H1. apply Wl. left. reflexivity.
    + apply IHl; [assumption|]. intros q I. apply Wl. right. exact I.
  - inversion W as [| | | | | | | |? N Wd]; subst. constructor; [reflexivity|]. intros k v I. exists v. split; [apply in_has; assumption|].
    rewrite Forall_forall in IH. apply (IH (k, v) I). exact (Wd k v I).
Qed.
Lemma close9_refl r : Close9 r r.
Proof. left. rewrite Rminus_diag_eq, Rabs_R0, rnd_0 by reflexivity. apply rnd_nonneg. pose proof tol9_range. pose proof (Rabs_pos r). nra. Qed.

(** An object is found equal to itself unless it is not a number, an integer too large
    for a float, or an object that is neither a real number nor a function and has no
    length - such as None, a complex number or a class instance. *)
Theorem C170_itself a : WfObj a ->
  (value_comparison (VObj a) (VObj a) = Answer false <->
   (exists i, a = OFloat i B754_nan) \/ (exists what, a = OOther what) \/ (exists z, a = OInt z /\ 2 ^ 1024 <= Rabs (rnd (IZR z)))).
Proof.
  intros W. assert (T : forall o : obj, value_comparison (VObj o) (VObj o) = Answer false <-> ~ Same o o).
  { intros o. cbn. rewrite <- compare_objects_spec. destruct (compare_objects o o); split; intros HH; congruence. }
  rewrite T. split.
  - intros N. destruct a as [ba|z|i x|s|i c|i|l|l|d].
    + exfalso. apply N. destruct (represented_bool ba) as (_ & R). apply (s_number _ _ _ _ (t_bool ba ba) R R). apply close9_refl.
    + right. right. exists z. split; [reflexivity|]. destruct (of_int_cases z) as [(L & F & E)|(L & _)]; [exfalso|exact L].
      apply N. destruct (represented_int z (fin_not_inf _ F)) as (_ & _ & R). apply (s_number _ _ _ _ (t_int z z) R R). apply close9_refl.
    + destruct (is_finite x) eqn:F.
      * exfalso. apply N. pose proof (represented_float i x F) as R. apply (s_number _ _ _ _ (t_float i x i x) R R). apply close9_refl.
      * destruct x; try discriminate; [exfalso; apply N; constructor|left; eauto].
    + exfalso. apply N. apply (s_equal _ _ _ _ (i_str s) (i_str s)). constructor.
    + exfalso. apply N. apply s_code. constructor.
    + right. left. eauto.
    + exfalso. apply N. apply (s_equal _ _ _ _ (i_list l) (i_list l)). apply equal_refl. exact W.
    + exfalso. apply N. apply (s_equal _ _ _ _ (i_tuple l) (i_tuple l)). apply equal_refl. exact W.
    + exfalso. apply N. apply (s_equal _ _ _ _ (i_dict d) (i_dict d)). apply equal_refl. exact W.
  - intros H S. rewrite <- compare_objects_spec in S. destruct H as [(i & ->)|[(w & ->)|(z & -> & L)]]; try discriminate.
    unfold compare_objects, math_isclose, to_double in S. destruct (of_int_cases z) as [(L' & _)|(_ & I)]; [lra|]. rewrite I in S. discriminate.
Qed.

(** Numbers of different types, and a number and anything else, are different. *)
Theorem C170_types a b : value_comparison (VObj a) (VObj b) = Answer true ->
  (exists r, Real a r) \/ (exists r, Real b r) -> SameNumberType a b.
Proof.
  intros H N. cbn in H. assert (S : Same a b) by (apply compare_objects_spec; congruence). clear H.
  inversion S as [? ? r s T Ra Rb C|i j sg|? ? C|? ? l m Ia Ib C|? ? l m Ia Ib C]; subst; [assumption|constructor|..].
  - exfalso. inversion C; subst. destruct N as [(r & N)|(r & N)]; inversion N.
  - exfalso. destruct N as [(r & N)|(r & N)]; [inversion Ia|inversion Ib]; subst; inversion N.
  - exfalso. destruct N as [(r & N)|(r & N)]; [inversion Ia|inversion Ib]; subst; inversion N.
Qed.

(** ** C171: what comparing objects does not notice *)

Lemma rnd_int z : (Z.abs z <= 2 ^ 53)%Z -> rnd (IZR z) = IZR z.
Proof.
  intros H. unfold rnd. apply round_generic; [auto with typeclass_instances|].
  destruct (Z.eq_dec (Z.abs z) (2 ^ 53)) as [E|N].
  - assert (G : generic_format radix2 (FLT_exp (-1074) 53) (IZR (2 ^ 53))).
    { change (IZR (2 ^ 53)) with (bpow radix2 53). apply generic_format_bpow. cbv. discriminate. }
    destruct (Z.abs_eq_or_opp z) as [A|A]; rewrite A in E.
    + rewrite E. exact G.
    + replace z with (- 2 ^ 53)%Z by lia. rewrite opp_IZR. apply generic_format_opp. exact G.
  - apply generic_format_FLT. exists (Float radix2 z 0); [unfold F2R; cbn; lra|cbn [Fnum]; change (Zpower radix2 53) with (2 ^ 53)%Z; lia|cbn; lia].
Qed.
Lemma ints_same z w : (Z.abs z <= 2 ^ 53)%Z -> (Z.abs w <= 2 ^ 53)%Z ->
  (value_comparison (VObj (OInt z)) (VObj (OInt w)) = Answer true <-> Close9 (IZR z) (IZR w)).
Proof.
  intros Hz Hw. assert (R : forall q, (Z.abs q <= 2 ^ 53)%Z -> Represented (OInt q) (IZR q)).
  { intros q Hq. exists (IZR q). split; [constructor|]. split; [symmetry; apply rnd_int, Hq|].
    rewrite <- abs_IZR. apply Rle_lt_trans with (2 ^ 53); [|apply Rlt_pow; [lra|lia]]. rewrite (pow_IZR 2 53). apply IZR_le. exact Hq. }
  assert (E : value_comparison (VObj (OInt z)) (VObj (OInt w)) = Answer true <-> Same (OInt z) (OInt w)).
  { rewrite <- compare_objects_spec. cbn [value_comparison]. split; [intros H; congruence|intros ->; reflexivity]. }
  rewrite E. split.
  - intros S. inversion S as [? ? r s T Ra Rb C|i j sg|? ? C|? ? l m Ia Ib C|? ? l m Ia Ib C]; subst; try solve [inversion C]; try solve [inversion Ia].
    rewrite (represented_unique _ _ _ (R z Hz) Ra), (represented_unique _ _ _ (R w Hw) Rb). exact C.
  - intros C. apply (s_number _ _ _ _ (t_int z w) (R z Hz) (R w Hw) C).
Qed.

(** Integers are compared with a tolerance: below a hundred million different integers
    are told apart, ... *)
Theorem C171_small_integers z w : (Z.abs z < 10 ^ 8)%Z -> (Z.abs w < 10 ^ 8)%Z ->
  (value_comparison (VObj (OInt z)) (VObj (OInt w)) = Answer true <-> z = w).
Proof.
  intros Hz Hw. rewrite ints_same by lia. split; [|intros ->; apply close9_refl].
  intros C. destruct (Z.eq_dec z w) as [E|N]; [exact E|exfalso].
  assert (D : 1 <= rnd (Rabs (IZR z - IZR w))).
  { rewrite <- minus_IZR, <- abs_IZR, rnd_int by lia. apply (IZR_le 1). lia. }
  assert (B : forall q, (Z.abs q < 10 ^ 8)%Z -> rnd (tol9 * Rabs (IZR q)) < 1).
  { intros q Hq. apply Rle_lt_trans with (/ 2); [|lra].
    replace (/ 2) with (rnd (/ 2)).
    - apply rnd_mono. rewrite <- abs_IZR. assert (IZR (Z.abs q) <= 10 ^ 8) by (rewrite (pow_IZR 10 8); apply IZR_le; lia).
      assert (0 <= IZR (Z.abs q)) by (apply (IZR_le 0); lia). unfold tol9. lra.
    - unfold rnd. apply round_generic; [auto with typeclass_instances|]. change (/ 2) with (bpow radix2 (-1)). apply generic_format_bpow. cbv. discriminate. }
  pose proof (B z Hz). pose proof (B w Hw). destruct C; lra.
Qed.
(** ... but from two thousand million on an integer is found equal to its successor. *)
Theorem C171_large_integers z : (2 * 10 ^ 9 <= z < 2 ^ 53)%Z ->
  value_comparison (VObj (OInt z)) (VObj (OInt (z + 1))) = Answer true.
Proof.
  intros H. apply ints_same; [lia..|]. left. rewrite plus_IZR. replace (Rabs (IZR z - (IZR z + 1))) with 1 by (replace (IZR z - (IZR z + 1)) with (Ropp 1) by lra; rewrite Rabs_Ropp, Rabs_R1; reflexivity).
  apply rnd_mono. assert (2 * 10 ^ 9 <= IZR z) by (rewrite (pow_IZR 10 9), <- mult_IZR; apply IZR_le; lia).
  rewrite Rabs_pos_eq by lra. unfold tol9. lra.
Qed.
(** Functions are compared by their bytecode, which does not contain their constants
    or captured variables; so are lists of functions. *)
Theorem C171_functions i j c c' : value_comparison (VObj (OFun i c)) (VObj (OFun j c')) = Answer true <-> c = c'.
Proof. cbn. destruct (String.eqb_spec c c'); split; congruence. Qed.
Theorem C171_lists_of_functions l m :
  (forall x, In x l -> exists i c, x = OFun i c) ->
  (value_comparison (VObj (OList l)) (VObj (OList m)) = Answer true <-> Forall2 SameCode l m).
Proof.
  intros F. assert (E : value_comparison (VObj (OList l)) (VObj (OList m)) = Answer true <-> Same (OList l) (OList m)).
  { rewrite <- compare_objects_spec. cbn [value_comparison]. split; [intros H; congruence|intros ->; reflexivity]. }
  rewrite E. split.
  - intros S. inversion S as [? ? r s T Ra Rb C|i j sg|? ? C|? ? l' m' Ia Ib C|? ? l' m' Ia Ib C]; subst; try solve [inversion C]; try solve [inversion T].
    + inversion Ia; subst. inversion Ib; subst. exact C.
    + inversion C as [? ? ? R| | | | | |? ? C'| |]; subst; [inversion R|]. clear -F C'. induction C'; constructor.
      * destruct (F x (or_introl eq_refl)) as (i & c & ->). inversion H; subst; [inversion H0|]. constructor.
      * apply IHC'. intros q I. apply F. right. exact I.
  - intros C. apply (s_codes _ _ l m); [constructor..|exact C].
Qed.
(** Empty containers are all the same: strings, lists, tuples and dictionaries. *)
Theorem C171_empty a b : Iterates a [] -> Iterates b [] -> value_comparison (VObj a) (VObj b) = Answer true.
Proof. intros Ia Ib. cbn. f_equal. apply compare_objects_spec. apply (s_codes a b [] [] Ia Ib). constructor. Qed.
(** None is not found equal to None, nor is a complex number to any other. *)
Theorem C171_none_differs_from_everything w v : (exists b, v = VObj b) ->
  value_comparison (VObj (OOther w)) v = Answer false /\ value_comparison v (VObj (OOther w)) = Answer false.
Proof.
  intros (b & ->). split; cbn [value_comparison]; apply (f_equal Answer).
  - destruct b; reflexivity.
  - unfold compare_objects, math_isclose. destruct b; cbn [to_double]; try reflexivity. destruct (is_inf (of_int z)); reflexivity.
Qed.
(** Numbers inside a list, a tuple or a dictionary are compared without tolerance and
    without regard to their type. *)
Theorem C171_inside_containers a b : (exists r, Real a r) ->
  (value_comparison (VObj (OList [a])) (VObj (OList [b])) = Answer true <-> exists r, Real a r /\ Real b r).
Proof.
  intros (r & Ra). assert (E : value_comparison (VObj (OList [a])) (VObj (OList [b])) = Answer true <-> Same (OList [a]) (OList [b])).
  { rewrite <- compare_objects_spec. cbn [value_comparison]. split; [intros H; congruence|intros ->; reflexivity]. }
  rewrite E. split.
  - intros S. inversion S as [? ? r' s T Ra' Rb C|i j sg|? ? C|? ? l' m' Ia Ib C|? ? l' m' Ia Ib C]; subst; try solve [inversion C]; try solve [inversion T].
    + inversion Ia; subst. inversion Ib; subst. inversion C as [|? ? ? ? D _]; subst. inversion D; subst. inversion Ra.
    + inversion C as [? ? ? R| | | | | |? ? C'| |]; subst; [inversion R|]. inversion C' as [|? ? ? ? D _]; subst.
      inversion D; subst; try solve [inversion Ra]; eauto. all: inversion Ra; subst; discriminate.
  - intros (q & A & B). apply (s_equal _ _ [a] [b]); [constructor..|]. constructor. constructor; [exact (e_num _ _ q A B)|constructor].
Qed.

(** ** C172: comparing two arrays *)

(** Two arrays always get an answer, and it is yes exactly if they have the same data
    type, their axes can be combined, and at every position of the combined axes the
    difference is at most 1e-8 + 1e-5 times the second number, or both are the same
    infinity. *)
Theorem C172_arrays a b : WfArr a -> WfArr b ->
  exists answer, value_comparison (VArr a) (VArr b) = Answer answer /\ (answer = true <-> SameArrays a b).
Proof.
  intros Wa Wb. pose proof (arrays_spec a b Wa Wb) as H. cbn [value_comparison] in *.
  destruct (allclose a b) as [c|]; eexists; (split; [reflexivity|]); rewrite <- H; split; congruence.
Qed.

Lemma axes_diag s : Axes s s s.
Proof. induction s; [constructor|constructor; assumption]. Qed.
Lemma place_fun s pos j k : Place s pos j -> Place s pos k -> j = k.
Proof. intros H. revert k. induction H; intros k' H'; inversion H'; subst; try congruence; [apply IHPlace; assumption|]. f_equal. f_equal. apply IHPlace; assumption. Qed.
Lemma near_refl r : Near r r.
Proof.
  unfold Near. rewrite Rminus_diag_eq, Rabs_R0, rnd_0 by reflexivity. apply rnd_nonneg. assert (0 <= rnd (tol5 * Rabs r)) by (apply rnd_nonneg; pose proof (Rabs_pos r); unfold tol5; nra).
  unfold tol8. lra.
Qed.
(** row-major order reaches every datum *)
Lemma place_onto s : forall k, (k < size s)%nat -> exists pos, Inside pos s /\ Place s pos k.
Proof.
  induction s as [|n s IH]; intros k L; cbn in L.
  - exists []. split; [constructor|]. replace k with 0%nat by lia. constructor.
  - fold (size s) in L. assert (n <> 0)%nat by (intros ->; lia).
    destruct (IH (k / n)%nat) as (pos & I & P); [apply Nat.div_lt_upper_bound; lia|].
    exists ((k mod n)%nat :: pos). split; [constructor; [apply Nat.mod_upper_bound; assumption|exact I]|].
    destruct (Nat.eq_dec n 1) as [->|N].
    + rewrite Nat.div_1_r in P. constructor. exact P.
    + rewrite (Nat.div_mod k n) at 2 by assumption. rewrite Nat.add_comm. constructor; assumption.
Qed.

(** An array is found equal to itself exactly if it contains no NaN. *)
Theorem C172_itself a : WfArr a ->
  (value_comparison (VArr a) (VArr a) = Answer true <->
   forall k, (k < size (shape a))%nat -> (exists r, DataAt a k r) \/ (exists sg, InfAt a k sg)).
Proof.
  intros W. rewrite (arrays_spec a a W W). split.
  - intros (_ & axes & A & C) k L. assert (axes = rev (shape a)) by (pose proof (axes_diag (rev (shape a))) as D; apply broadcast_spec in A, D; congruence). subst axes.
    rewrite <- size_rev in L. destruct (place_onto _ k L) as (pos & I & P). destruct (C pos k k I P P) as [(r & s & D & _)|(sg & D & _)]; eauto.
  - intros H. split; [destruct a; constructor|]. exists (rev (shape a)). split; [apply axes_diag|]. intros pos j k I Pj Pk.
    assert (j = k) by exact (place_fun _ _ _ _ Pj Pk). subst j. pose proof (place_lt_left _ _ _ _ _ (axes_diag _) I Pk) as L. rewrite size_rev in L.
    destruct (H k L) as [(r & D)|(sg & D)]; [left; exists r, r; split; [exact D|]; split; [exact D|apply near_refl]|right; eauto].
Qed.

Lemma indices_1 n : indices [n] = map (fun i => [i]) (seq 0 n).
Proof. cbn. rewrite flat_map_concat_map. induction (seq 0 n) as [|i l IH]; cbn; [reflexivity|]. rewrite IH. reflexivity. Qed.
(** Shapes are not compared: a vector of any positive length whose numbers all equal x
    is found equal to an array of the single number x, of any number of axes. *)
Theorem C172_repeated x n axes : is_finite x = true ->
  let single := ArrF (repeat 1%nat axes) [x] in
  value_comparison (VArr (ArrF [n] (repeat x n))) (VArr single) = Answer true /\
  value_comparison (VArr single) (VArr (ArrF [n] (repeat x n))) = Answer true.
Proof.
  intros F single.
  assert (R : forall m, size (repeat 1%nat m) = 1%nat) by (induction m; cbn; [reflexivity|unfold size in IHm; rewrite IHm; reflexivity]).
  assert (Rr : forall m, rev (repeat 1%nat m) = repeat 1%nat m).
  { intros m. rewrite <- (rev_involutive (repeat 1%nat m)) at 2. f_equal. symmetry. 
    induction m as [|m IH]; [reflexivity|]. cbn [repeat rev]. rewrite IH. clear. induction m; cbn; [reflexivity|f_equal; exact IHm]. }
  assert (Wv : WfArr (ArrF [n] (repeat x n))) by (cbn; rewrite repeat_length; lia).
  assert (Ws : WfArr single) by (unfold single, WfArr; rewrite R; reflexivity).
  assert (P1 : forall m pos k, Place (repeat 1%nat m) pos k -> k = 0%nat).
  { induction m as [|m IH]; cbn [repeat]; intros pos k P; inversion P; subst; [reflexivity|eapply IH; eassumption|contradiction]. }
  assert (A1 : exists r, Axes [n] (repeat 1%nat axes) r).
  { destruct axes as [|m]; [eexists; apply a_right|]. cbn. exists (n :: repeat 1%nat m). apply a_one_right. constructor. }
  destruct A1 as (r & A).
  assert (S : shape single = repeat 1%nat axes) by reflexivity.
  assert (Dv : forall k, (k < n)%nat -> DataAt (ArrF [n] (repeat x n)) k (B2R x)).
  { intros k L. exists x. split; [|auto]. rewrite nth_error_nth' with (d := x) by (rewrite repeat_length; exact L). f_equal. apply nth_repeat. }
  assert (Ds : DataAt single 0 (B2R x)) by (exists x; auto).
  split; apply arrays_spec; try assumption; (split; [constructor|]).
  - exists r. rewrite S, Rr. split; [exact A|]. intros pos j k I Pj Pk. left. exists (B2R x), (B2R x).
    pose proof (place_lt_left _ _ _ _ _ A I Pj) as L. cbn in L. rewrite (P1 _ _ _ Pk). split; [apply Dv; lia|]. split; [exact Ds|apply near_refl].
  - exists r. rewrite S, Rr. split; [apply axes_sym; exact A|]. intros pos j k I Pj Pk. left. exists (B2R x), (B2R x).
    pose proof (place_lt_left _ _ _ _ _ A I Pk) as L. cbn in L. rewrite (P1 _ _ _ Pj). split; [exact Ds|]. split; [apply Dv; lia|apply near_refl].
Qed.
(** Nothing is compared when one array is empty and the other has an axis of length one. *)
Theorem C172_empty_array x : value_comparison (VArr (ArrF [0%nat] [])) (VArr (ArrF [1%nat] [x])) = Answer true.
Proof. reflexivity. Qed.

Definition one : double := B754_finite false 4503599627370496 (-52) (eq_refl : SpecFloat.bounded 53 1024 4503599627370496 (-52) = true).
Definition one_and_a_bit : double := B754_finite false 4503644708627946 (-52) (eq_refl : SpecFloat.bounded 53 1024 4503644708627946 (-52) = true).
(** The order of two arrays matters, as the tolerance is relative to the second:
    1 against 1.00001001005 is a yes, 1.00001001005 against 1 is a no. *)
Theorem C172_order_matters : exists x y : double, is_finite x = true /\ is_finite y = true /\
  value_comparison (VArr (ArrF [] [x])) (VArr (ArrF [] [y])) = Answer true /\
  value_comparison (VArr (ArrF [] [y])) (VArr (ArrF [] [x])) = Answer false.
Proof. exists one, one_and_a_bit. repeat split; vm_compute; reflexivity. Qed.
(** An array is different from every object that is none, unless both are empty, or
    nothing is decided because the comparison itself yields an array. *)
Theorem C172_mixed a o : 
  (value_comparison (VArr a) (VObj o) = Answer true \/ value_comparison (VObj o) (VArr a) = Answer true) ->
  (exists s, shape a = 0%nat :: s) /\ Iterates o [].
Proof.
  assert (H : forall b, compare_mixed a o b = Answer true -> (exists s, shape a = 0%nat :: s) /\ Iterates o []).
  { intros b. unfold compare_mixed. rewrite shape_shape.
    destruct (if b then _ else _); try discriminate.
    destruct (shape a) as [|n s] eqn:Es; [discriminate|]. destruct (items o) as [l|] eqn:Ei; [|discriminate].
    destruct n as [|n]; [|destruct l; discriminate]. intros E. destruct l as [|x l]; [|discriminate].
    split; [eauto|]. apply items_spec. exact Ei. }
  cbn. intros [E|E]; exact (H _ E).
Qed.

(** ** C173: comparing collections *)

Lemma alike_answer v w : Alike v w -> exists answer, value_comparison v w = Answer answer /\ (answer = true <-> SameValues v w).
Proof.
  intros K. inversion K as [a b|a b Wa Wb]; subst.
  - destruct (C170_objects a b) as (ans & E & S). exists ans. split; [exact E|]. rewrite S. split; [constructor; assumption|inversion 1; assumption].
  - destruct (C172_arrays a b Wa Wb) as (ans & E & S). exists ans. split; [exact E|]. rewrite S. split; [constructor; assumption|inversion 1; assumption].
Qed.
Lemma dict_loop_spec d e : forall acc, (forall k v w, In (k, v) d -> Has k w e -> Alike v w) ->
  (exists answer, dict_loop (Answer acc) d (CDict e) = Some (Answer answer) /\
     (answer = true <-> acc = true /\ forall k v, In (k, v) d -> exists w, Has k w e /\ SameValues v w)) \/
  (dict_loop (Answer acc) d (CDict e) = None /\ exists k v, In (k, v) d /\ forall w, ~ Has k w e).
Proof.
  induction d as [|(k, v) d IH]; intros acc K; cbn [dict_loop].
  - left. exists acc. split; [reflexivity|]. split; [intros ->; split; [reflexivity|intros ? ? []]|tauto].
  - destruct (get k e) as [w|] eqn:G.
    + apply get_has in G. destruct (alike_answer v w (K k v w (or_introl eq_refl) G)) as (ans & E & S). rewrite E. cbn [times].
      destruct (IH (acc && ans) (fun k' v' w' I => K k' v' w' (or_intror I))) as [(r & D & R)|(D & k' & v' & I & N)].
      * left. exists r. split; [exact D|]. rewrite R, andb_true_iff, S. split.
        -- intros ((A & B) & C). split; [exact A|]. intros k' v' [Eq|I]; [injection Eq as <- <-; eauto|apply C, I].
        -- intros (A & C). split; [split; [exact A|]|intros k' v' I; apply C; right; exact I].
           destruct (C k v (or_introl eq_refl)) as (w' & H & V). apply get_has in G, H. rewrite G in H. injection H as <-. exact V.
      * right. split; [exact D|]. exists k', v'. split; [right; exact I|exact N].
    + right. split; [reflexivity|]. exists k, v. split; [left; reflexivity|]. intros w H. apply get_has in H. congruence.
Qed.

(** Without enforcing the length: yes exactly if every entry of the first dictionary
    has a counterpart in the second; further entries of the second are ignored. *)
Theorem C173_entries_of_the_first d e : (forall k v w, In (k, v) d -> Has k w e -> Alike v w) ->
  exists answer, compare_dicts (CDict d) (CDict e) false = Answer answer /\ compare_elements (CDict d) (CDict e) = Answer answer /\
    (answer = true <-> forall k v, In (k, v) d -> exists w, Has k w e /\ SameValues v w).
Proof.
  intros K. cbn [compare_dicts andb compare_elements]. destruct (dict_loop_spec d e true K) as [(r & D & R)|(D & k & v & I & N)]; rewrite D.
  - exists r. split; [reflexivity|]. split; [reflexivity|]. rewrite R. tauto.
  - exists false. split; [reflexivity|]. split; [reflexivity|]. split; [discriminate|]. intros C. destruct (C k v I) as (w & H & _). destruct (N w H).
Qed.

(** With it (the default): yes exactly if the dictionaries have the same keys, with the
    same values. *)
Theorem C173_dictionaries d e : NoDup (map fst d) -> NoDup (map fst e) ->
  (forall k v w, Has k v d -> Has k w e -> Alike v w) ->
  exists answer, compare_dicts (CDict d) (CDict e) true = Answer answer /\
    (answer = true <-> (forall k, In k (map fst d) <-> In k (map fst e)) /\
                       (forall k v w, Has k v d -> Has k w e -> SameValues v w)).
Proof.
  intros Nd Ne K. unfold compare_dicts. cbn [clen andb].
  assert (KF : forall k, In k (map fst d) -> exists v, Has k v d).
  { intros k I. apply in_map_iff in I. destruct I as ((k', v) & <- & I). exists v. apply in_has; assumption. }
  destruct (Nat.eqb_spec (List.length d) (List.length e)) as [L|L]; cbn [negb].
  - destruct (C173_entries_of_the_first d e) as (r & _ & D & R); [intros k v w I H; apply (K k); [apply in_has; assumption|exact H]|].
    exists r. split; [exact D|]. rewrite R. split.
    + intros A.
      assert (I1 : incl (map fst d) (map fst e)).
      { intros k I. destruct (KF k I) as (v & H). destruct (A k v (has_in _ _ _ H)) as (w & H' & _). apply has_in in H'. apply (in_map fst) in H'. exact H'. }
      assert (I2 : incl (map fst e) (map fst d)) by (apply NoDup_length_incl; [exact Nd|rewrite !map_length; lia|exact I1]).
      split; [intros k; split; [apply I1|apply I2]|]. intros k v w H H'.
      destruct (A k v (has_in _ _ _ H)) as (w' & H2 & V). apply get_has in H', H2. rewrite H' in H2. injection H2 as <-. exact V.
    + intros (A & B) k v I. assert (I' : In k (map fst e)) by (apply A; apply (in_map fst) in I; exact I).
      apply in_map_iff in I'. destruct I' as ((k', w) & Ek & I'). cbn in Ek. subst k'. exists w.
      assert (H : Has k w e) by (apply in_has; assumption). split; [exact H|]. apply (B k v w); [apply in_has; assumption|exact H].
  - exists false. split; [reflexivity|]. split; [discriminate|]. intros (A & _). exfalso. apply L.
    rewrite <- (map_length fst d), <- (map_length fst e). apply Nat.le_antisymm; apply NoDup_incl_length; try assumption; intros k I; apply A; exact I.
Qed.

(** Lists: yes exactly if they have the same length and the same values. *)
Theorem C173_lists l m enforced : (forall v w, In (v, w) (combine l m) -> Alike v w) ->
  exists answer, compare_dicts (CList l) (CList m) enforced = Answer answer /\ (answer = true <-> Forall2 SameValues l m).
Proof.
  intros K.
  assert (G : forall l m acc, (forall v w, In (v, w) (combine l m) -> Alike v w) -> List.length l = List.length m ->
            exists answer, list_loop (Answer acc) l m = Answer answer /\ (answer = true <-> acc = true /\ Forall2 SameValues l m)).
  { clear. induction l as [|x l IH]; intros [|y m] acc K L; try discriminate; cbn [list_loop].
    - exists acc. split; [reflexivity|]. split; [intros ->; split; [reflexivity|constructor]|tauto].
    - destruct (alike_answer x y (K x y (or_introl eq_refl))) as (ans & E & S). rewrite E. cbn [times].
      destruct (IH m (acc && ans) (fun v w I => K v w (or_intror I)) ltac:(cbn in L; lia)) as (r & D & R).
      exists r. split; [exact D|]. rewrite R, andb_true_iff, S. split; [intros ((A & B) & C); split; [exact A|constructor; assumption]|intros (A & B); inversion B; auto]. }
  assert (G0 : forall l m, (forall v w, In (v, w) (combine l m) -> Alike v w) -> list_loop (Answer false) l m = Answer false).
  { clear. induction l as [|x l IH]; intros [|y m] K; try reflexivity. cbn [list_loop].
    destruct (alike_answer x y (K x y (or_introl eq_refl))) as (ans & E & _). rewrite E. cbn [times andb]. apply IH. intros v w I. apply K. right. exact I. }
  destruct (Nat.eqb_spec (List.length l) (List.length m)) as [L|L].
  - destruct (G l m true K L) as (r & D & R). exists r. unfold compare_dicts, compare_elements. cbn [clen elements]. rewrite L, Nat.eqb_refl, andb_false_r, D.
    split; [reflexivity|]. rewrite R. tauto.
  - exists false. unfold compare_dicts, compare_elements. cbn [clen elements]. apply Nat.eqb_neq in L. rewrite L, (G0 l m K). split.
    + destruct enforced; reflexivity.
    + split; [discriminate|]. intros F. exfalso. apply Nat.eqb_neq in L. apply L. clear -F. induction F; cbn; congruence.
Qed.

(** A dictionary with an entry is different from every list; without entries it is the
    same as every list unless the length is enforced. *)
Theorem C173_dictionary_and_list d l : 
  (compare_dicts (CDict d) (CList l) true = Answer true <-> d = [] /\ l = []) /\
  (compare_elements (CDict d) (CList l) = Answer true <-> d = []).
Proof.
  assert (E : compare_elements (CDict d) (CList l) = Answer true <-> d = []) by (destruct d as [|(k, v) d]; cbn; split; congruence).
  split; [|exact E]. unfold compare_dicts. destruct d as [|(k, v) d].
  - destruct l as [|x l]; cbn; (split; [intros HH; try discriminate HH; auto|intros (A & B); try discriminate B; reflexivity]).
  - destruct (_ && _); (split; [intros HH; discriminate HH|intros (A & B); discriminate A]).
Qed.

(** ** C174: checking assertions *)

Lemma andthen_passes a b : andthen a b = Passes <-> a = Passes /\ b = Passes.
Proof. destruct a; cbn; split; try tauto; try discriminate; intros (A & B); discriminate. Qed.
Lemma instance_spec v t : isinstance v t = true <-> Instance v t.
Proof.
  split.
  - destruct t; destruct v as [o|a]; cbn; try discriminate; try (constructor; fail); try (destruct o; cbn; try discriminate; constructor).
    + destruct a as [[|n s] d|s d]; try discriminate. constructor.
    + destruct a as [[|n s] d|[|n s] d]; try discriminate; intros _; eapply in_arr; reflexivity.
  - inversion 1; subst; try reflexivity; try (destruct v; reflexivity). cbn. rewrite shape_shape. rewrite H0. reflexivity.
Qed.
Lemma length_spec v n : length_of v = Some n <-> Length v (Z.of_nat n).
Proof.
  split.
  - destruct v as [o|a]; cbn.
    + destruct (items o) as [l|] eqn:E; [|discriminate]. injection 1 as <-. constructor. apply items_spec. exact E.
    + rewrite shape_shape. destruct (shape a) as [|m s] eqn:E; [discriminate|]. injection 1 as <-. econstructor. exact E.
  - inversion 1 as [o l Il|a m s Es]; subst.
    + apply Nat2Z.inj in H1. subst n. cbn. apply items_spec in Il. rewrite Il. reflexivity.
    + apply Nat2Z.inj in H1. subst m. cbn. rewrite shape_shape, Es. reflexivity.
Qed.
Lemma take_rows_concat {A} k (rows : list (list A)) : Forall (fun r => List.length r = k) rows ->
  take_rows k (List.length rows) (List.concat rows) = rows.
Proof.
  unfold take_rows. intros F.
  induction F as [|r rows L F IH]; [reflexivity|]. cbn [List.length seq map List.concat]. f_equal.
  - cbn. rewrite <- L. rewrite firstn_app, Nat.sub_diag, firstn_all. cbn. apply app_nil_r.
  - rewrite <- IH at 2. rewrite <- seq_shift, map_map. apply map_ext. intros i. f_equal. cbn [Nat.mul]. rewrite skipn_app.
    replace (k + i * k - List.length r)%nat with (i * k)%nat by lia. rewrite skipn_all2 by lia. reflexivity.
Qed.
Lemma skipn_add {A} (d : list A) : forall k m, skipn (k + m) d = skipn m (skipn k d).
Proof. induction d as [|x d IH]; intros [|k] m; cbn; try reflexivity; [destruct m; reflexivity|apply IH]. Qed.
Lemma take_rows_wf {A} k n (d : list A) : List.length d = (n * k)%nat ->
  List.concat (take_rows k n d) = d /\ List.length (take_rows k n d) = n /\ Forall (fun r => List.length r = k) (take_rows k n d).
Proof.
  revert d. induction n as [|n IH]; intros d L.
  - destruct d; [|discriminate]. repeat constructor.
  - unfold take_rows in *. cbn [seq map]. rewrite <- seq_shift, map_map.
    rewrite (map_ext _ (fun i => firstn k (skipn (i * k) (skipn k d)))) by (intros i; f_equal; cbn [Nat.mul]; apply skipn_add).
    destruct (IH (skipn k d)) as (E & Ln & F); [rewrite skipn_length; lia|]. cbn [Nat.mul skipn List.concat List.length]. rewrite E, Ln, firstn_skipn.
    split; [reflexivity|]. split; [reflexivity|]. constructor; [rewrite firstn_length; lia|exact F].
Qed.
Lemma elements_spec v vs : (match v with VArr a => WfArr a | _ => True end) -> (iterate v = Some vs <-> Elements v vs).
Proof.
  intros W. split.
  - destruct v as [o|[s d|s d]]; cbn.
    + destruct (items o) as [l|] eqn:E; [|discriminate]. injection 1 as <-. constructor. apply items_spec. exact E.
    + destruct s as [|n s]; [discriminate|]. injection 1 as <-. cbn in W. fold (size s) in *. destruct (take_rows_wf (size s) n d W) as (E & L & F).
      rewrite <- E at 1. apply el_float; assumption.
    + destruct s as [|n s]; [discriminate|]. injection 1 as <-. destruct W as (W & _). cbn in W. fold (size s) in *. destruct (take_rows_wf (size s) n d W) as (E & L & F).
      rewrite <- E at 1. apply el_int; assumption.
  - inversion 1 as [o l Il|n s rows L F|n s rows L F]; subst; cbn.
    + apply items_spec in Il. rewrite Il. reflexivity.
    + fold (size s). rewrite take_rows_concat by exact F. reflexivity.
    + fold (size s). rewrite take_rows_concat by exact F. reflexivity.
Qed.

Definition Meets (v : value) (t : option ty) (n : option Z) : Prop :=
  (forall t', t = Some t' -> Instance v t') /\ (forall n', n = Some n' -> n' <> 0%Z -> Length v n').
Lemma meets_spec v t n : check_type v t = Passes /\ check_length v n = Passes <-> Meets v t n.
Proof.
  assert (A : check_type v t = Passes <-> forall t', t = Some t' -> Instance v t').
  { destruct t as [t|]; cbn; [|split; [discriminate|reflexivity]]. split.
    - intros H t' E. injection E as <-. destruct (isinstance v t) eqn:E; [|discriminate]. apply instance_spec. exact E.
    - intros H. rewrite (proj2 (instance_spec v t) (H t eq_refl)). reflexivity. }
  assert (B : check_length v n = Passes <-> forall n', n = Some n' -> n' <> 0%Z -> Length v n').
  { destruct n as [n|]; cbn; [|split; [discriminate|reflexivity]]. destruct (Z.eqb_spec n 0) as [->|N].
    - split; [intros _ n' E; injection E as <-; contradiction|reflexivity].
    - split.
      + intros H n' E _. injection E as <-. destruct (length_of v) as [k|] eqn:E; [|discriminate]. destruct (Z.eqb_spec (Z.of_nat k) n) as [<-|]; [|discriminate].
        apply length_spec. exact E.
      + intros H. specialize (H n eq_refl N). assert (E : exists k, n = Z.of_nat k) by (inversion H; eauto). destruct E as (k & ->).
        apply length_spec in H. rewrite H, Z.eqb_refl. reflexivity. }
  rewrite A, B. reflexivity.
Qed.
Lemma check_all_spec vs t n : check_all vs t n = Passes <-> forall v, In v vs -> Meets v t n.
Proof.
  induction vs as [|v vs IH]; cbn; [split; [intros _ ? []|reflexivity]|]. rewrite !andthen_passes, IH. split.
  - intros (A & B & C) w [<-|I]; [apply meets_spec; auto|apply C, I].
  - intros H. destruct (proj2 (meets_spec v t n) (H v (or_introl eq_refl))). auto.
Qed.

(** The assertions pass exactly if the value has the given type and length and so does
    each of its elements - where a length of zero is not checked at all. *)
Theorem C174_passes v top_type top_length element_type element_length :
  (match v with VArr a => WfArr a | _ => True end) ->
  (check_assertions v top_type top_length element_type element_length = Passes <->
   ((forall t, top_type = Some t -> Instance v t) /\ (forall n, top_length = Some n -> n <> 0%Z -> Length v n)) /\
   (element_type <> None \/ element_length <> None ->
    exists vs, Elements v vs /\ forall w, In w vs ->
      (forall t, element_type = Some t -> Instance w t) /\ (forall n, element_length = Some n -> n <> 0%Z -> Length w n))).
Proof.
  intros W. fold (Meets v top_type top_length). unfold check_assertions. rewrite !andthen_passes, <- meets_spec.
  assert (E : (match element_type, element_length with
        | None, None => Passes
        | _, _ => match iterate v with None => RaisesTypeError | Some vs => check_all vs element_type element_length end
        end) = Passes <-> (element_type <> None \/ element_length <> None ->
    exists vs, Elements v vs /\ forall w, In w vs -> Meets w element_type element_length)).
  { assert (G : (match iterate v with None => RaisesTypeError | Some vs => check_all vs element_type element_length end) = Passes <->
                exists vs, Elements v vs /\ forall w, In w vs -> Meets w element_type element_length).
    { destruct (iterate v) as [vs|] eqn:I.
      - rewrite check_all_spec. apply (elements_spec v vs W) in I. split; [eauto|]. intros (vs' & I' & H). apply (elements_spec v _ W) in I, I'. rewrite I in I'. injection I' as <-. exact H.
      - split; [discriminate|]. intros (vs' & I' & _). apply (elements_spec v _ W) in I'. congruence. }
    destruct element_type as [t|], element_length as [n|]; try (rewrite G; split; [auto|intros H; apply H; (left; discriminate) || (right; discriminate)]).
    split; [intros _ [N|N]; contradiction|reflexivity]. }
  rewrite E. tauto.
Qed.

(** So asserting that a list is empty, or that its elements are, asserts nothing. *)
Theorem C174_zero_is_not_checked v top_type element_type :
  check_assertions v top_type (Some 0%Z) element_type None = check_assertions v top_type None element_type None /\
  (forall top_length t, check_assertions v top_type top_length (Some t) (Some 0%Z) = check_assertions v top_type top_length (Some t) None).
Proof.
  split; [reflexivity|]. intros tl t. unfold check_assertions. f_equal. f_equal. destruct (iterate v) as [vs|]; [|reflexivity].
  induction vs as [|w vs IH]; cbn; [reflexivity|]. rewrite IH. reflexivity.
Qed.
(** And the elements of an empty value pass every check. *)
Theorem C174_no_elements v t n : Elements v [] -> check_assertions v None None t n = Passes.
Proof.
  intros H. assert (I : iterate v = Some []).
  { inversion H as [o l Il E|n' s rows L F E|n' s rows L F E]; subst; cbn.
    - destruct l; [|discriminate]. apply items_spec in Il. rewrite Il. reflexivity.
    - destruct rows; [|discriminate]. reflexivity.
    - destruct rows; [|discriminate]. reflexivity. }
  unfold check_assertions. cbn. rewrite I. destruct t, n; reflexivity.
Qed.

(** ** Concrete cases *)
Example ex_close : value_comparison (VObj (OInt 3000000000)) (VObj (OInt 3000000001)) = Answer true
  /\ value_comparison (VObj (OInt 3)) (VObj (OInt 4)) = Answer false
  /\ value_comparison (VObj (OBool true)) (VObj (OInt 1)) = Answer false
  /\ value_comparison (VObj (OList [OInt 1])) (VObj (OList [OBool true])) = Answer true
  /\ value_comparison (VObj (OList [])) (VObj (ODict [])) = Answer true.
Proof. repeat split; vm_compute; reflexivity. Qed.
Example ex_functions : WfObj (OFun 1 "x+K") /\ value_comparison (VObj (OFun 1 "x+K")) (VObj (OFun 2 "x+K")) = Answer true
  /\ value_comparison (VObj (OFun 1 "x+K")) (VObj (OFun 2 "x*K")) = Answer false.
Proof. split; [constructor|split; reflexivity]. Qed.
Example ex_wf : WfObj (ODict [("a"%string, OList [OInt 1; OStr "b"]); ("b"%string, OTuple [])]).
Proof.
  constructor.
  - repeat constructor; cbn; intuition discriminate.
  - intros k a [E|[E|[]]]; injection E as <- <-; constructor; cbn; intros q; [intros [<-|[<-|[]]]; constructor|intros []].
Qed.
Definition two_by_two := ArrF [2; 2]%nat [one; one_and_a_bit; one; one_and_a_bit].
Definition row := ArrF [2]%nat [one; one_and_a_bit].
Example ex_arrays : WfArr two_by_two /\ WfArr row
  /\ value_comparison (VArr two_by_two) (VArr row) = Answer true
  /\ value_comparison (VArr two_by_two) (VArr (ArrF [2; 1]%nat [one; one])) = Answer false
  /\ value_comparison (VArr two_by_two) (VArr (ArrF [3]%nat [one; one; one])) = Answer false
  /\ value_comparison (VArr row) (VArr (ArrI [2]%nat [1; 1]%Z)) = Answer false.
Proof. repeat split; vm_compute; reflexivity. Qed.
Example ex_dicts : compare_dicts (CDict [("a"%string, VObj (OInt 1)); ("b"%string, VArr row)]) (CDict [("b"%string, VArr row); ("a"%string, VObj (OInt 1))]) true = Answer true
  /\ compare_dicts (CDict [("a"%string, VObj (OInt 1))]) (CDict [("b"%string, VArr row); ("a"%string, VObj (OInt 1))]) true = Answer false
  /\ compare_dicts (CDict [("a"%string, VObj (OInt 1))]) (CDict [("b"%string, VArr row); ("a"%string, VObj (OInt 1))]) false = Answer true.
Proof. repeat split; vm_compute; reflexivity. Qed.
Example ex_checks : check_assertions (VArr two_by_two) (Some TArr) (Some 2%Z) (Some TArr) (Some 2%Z) = Passes
  /\ check_assertions (VObj (OList [OInt 1])) (Some TList) (Some 0%Z) (Some TInt) None = Passes
  /\ check_assertions (VObj (OList [OInt 1])) (Some TList) (Some 2%Z) None None = AssertionFails
  /\ check_assertions (VObj (OInt 1)) (Some TInt) (Some 2%Z) None None = RaisesTypeError.
Proof. repeat split. Qed.
