From Coq Require Import List ZArith Reals Bool String Lra Lia.
From Flocq Require Import Core Plus_error BinarySingleNaN.
From Verif Require Import Cmp_Model Cmp_Spec.
Import ListNotations.
Local Open Scope R_scope.

(** ** Numbers *)
Lemma bpow_emax : bpow radix2 1024 = 2 ^ 1024.
Proof. change 1024%Z with (Z.of_nat 1024). rewrite (pow_IZR 2 1024), <- Zpower_nat_Z. reflexivity. Qed.

Lemma rnd_eq x : round radix2 (SpecFloat.fexp 53 1024) (round_mode mode_NE) x = rnd x.
Proof. reflexivity. Qed.

Global Instance exp_valid : Valid_exp (FLT_exp (-1074) 53).
Proof. apply FLT_exp_valid. reflexivity. Qed.

Lemma rnd_mono x y : x <= y -> rnd x <= rnd y.
Proof. apply round_le; auto with typeclass_instances. Qed.
Lemma rnd_0 : rnd 0 = 0.
Proof. apply round_0; auto with typeclass_instances. Qed.
Lemma rnd_B2R (x : double) : rnd (B2R x) = B2R x.
Proof. apply round_generic; [auto with typeclass_instances|]. apply (generic_format_B2R 53 1024). Qed.
Lemma rnd_abs x : rnd (Rabs x) = Rabs (rnd x).
Proof. apply round_NE_abs. auto with typeclass_instances. Qed.
Lemma rnd_nonneg x : 0 <= x -> 0 <= rnd x.
Proof. intros H. rewrite <- rnd_0. apply rnd_mono, H. Qed.
Lemma B2R_bound (x : double) : Rabs (B2R x) < 2 ^ 1024.
Proof. rewrite <- bpow_emax. apply (abs_B2R_lt_emax 53 1024). Qed.
Lemma pow_pos k : 0 < 2 ^ k.
Proof. apply pow_lt. lra. Qed.

Lemma rnd_0_inv x : rnd (Rabs x) <= 0 -> (exists y z : double, x = B2R y - B2R z) -> x = 0.
Proof.
  intros H (y & z & ->).
  destruct (Req_dec (B2R y - B2R z) 0) as [E|N]; [exact E|exfalso].
  rewrite rnd_abs in H. assert (E : rnd (B2R y - B2R z) = 0) by (pose proof (Rabs_pos (rnd (B2R y - B2R z))); apply Rabs_eq_R0; lra).
  apply (round_plus_neq_0 radix2 (FLT_exp (-1074) 53) ZnearestE (B2R y) (- B2R z)); [apply (generic_format_B2R 53 1024)|apply generic_format_opp, (generic_format_B2R 53 1024)|exact N|exact E].
Qed.

Lemma tol9_B : B2R rel9 = tol9.
Proof. unfold tol9, rel9. cbn [B2R cond_Zopp]. unfold F2R, Fnum, Fexp. change (bpow radix2 (-82)) with (/ IZR (2 ^ 82)). rewrite (pow_IZR 2 82). reflexivity. Qed.
Lemma tol5_B : B2R rtol5 = tol5.
Proof. unfold tol5, rtol5. cbn [B2R cond_Zopp]. unfold F2R, Fnum, Fexp. change (bpow radix2 (-69)) with (/ IZR (2 ^ 69)). rewrite (pow_IZR 2 69). reflexivity. Qed.
Lemma tol8_B : B2R atol8 = tol8.
Proof. unfold tol8, atol8. cbn [B2R cond_Zopp]. unfold F2R, Fnum, Fexp. change (bpow radix2 (-79)) with (/ IZR (2 ^ 79)). rewrite (pow_IZR 2 79). reflexivity. Qed.

(** the three tolerances are the binary64 numbers nearest to the decimal ones: their
    mantissas have 53 bits and they are at most half a unit away *)
Lemma tol9_nearest : (2 ^ 52 <= 4835703278458517 < 2 ^ 53)%Z /\ Rabs (tol9 - / 10 ^ 9) <= / 2 ^ 83.
Proof. split; [lia|]. unfold tol9. apply Rabs_le. split; lra. Qed.
Lemma tol5_nearest : (2 ^ 52 <= 5902958103587057 < 2 ^ 53)%Z /\ Rabs (tol5 - / 10 ^ 5) <= / 2 ^ 70.
Proof. split; [lia|]. unfold tol5. apply Rabs_le. split; lra. Qed.
Lemma tol8_nearest : (2 ^ 52 <= 6044629098073146 < 2 ^ 53)%Z /\ Rabs (tol8 - / 10 ^ 8) <= / 2 ^ 80.
Proof. split; [lia|]. unfold tol8. apply Rabs_le. split; lra. Qed.
Lemma tol9_range : 0 < tol9 < 1.
Proof. unfold tol9. lra. Qed.

(** product with a small constant does not overflow *)
Lemma mult_small (c x : double) : is_finite c = true -> 0 <= B2R c < 1 -> is_finite x = true ->
  is_finite (Bmult mode_NE c x) = true /\ B2R (Bmult mode_NE c x) = rnd (B2R c * B2R x).
Proof.
  intros Fc Hc Fx. pose proof (Bmult_correct 53 1024 p_prec p_emax mode_NE c x) as H.
  rewrite rnd_eq in H. rewrite Rlt_bool_true in H.
  - destruct H as (E & F & _). rewrite Fc, Fx in F. split; [exact F|rewrite E; reflexivity].
  - rewrite <- rnd_abs. rewrite bpow_emax.
    apply Rle_lt_trans with (rnd (Rabs (B2R x))); [|rewrite rnd_abs, rnd_B2R; apply B2R_bound].
    apply rnd_mono. rewrite Rabs_mult, (Rabs_pos_eq (B2R c)) by lra. pose proof (Rabs_pos (B2R x)). nra.
Qed.

(** absolute difference against a finite bound below 2^1024 *)
Lemma diff_le (x y t : double) (T : R) : is_finite x = true -> is_finite y = true -> is_finite t = true ->
  B2R t = T -> (Bleb (Babs (Bminus mode_NE x y)) t = true <-> rnd (Rabs (B2R x - B2R y)) <= T).
Proof.
  intros Fx Fy Ft <-. pose proof (Bminus_correct 53 1024 p_prec p_emax mode_NE x y Fx Fy) as H.
  rewrite rnd_eq in H. rewrite rnd_abs. destruct (Rlt_bool_spec (Rabs (rnd (B2R x - B2R y))) (bpow radix2 1024)) as [L|L].
  - destruct H as (E & F & _). rewrite Bleb_correct; [|rewrite is_finite_Babs; exact F|exact Ft].
    rewrite B2R_Babs, E. destruct (Rle_bool_spec (Rabs (rnd (B2R x - B2R y))) (B2R t)); split; intros; try lra; try discriminate; assumption || reflexivity.
  - destruct H as (E & _). split; intros H.
    + exfalso. destruct (Bminus mode_NE x y) as [s|s| |s m e B]; try discriminate E. destruct t as [s'|s'| |s' m e B]; try discriminate; destruct s; try discriminate H; destruct s'; discriminate H.
    + exfalso. rewrite bpow_emax in L. pose proof (B2R_bound t). pose proof (Rle_abs (B2R t)). lra.
Qed.

Lemma isclose_finite x y : is_finite x = true -> is_finite y = true -> (isclose x y = true <-> Close9 (B2R x) (B2R y)).
Proof.
  intros Fx Fy. unfold isclose. rewrite (Beqb_correct 53 1024 x y Fx Fy).
  assert (Ix : is_inf x = false) by (destruct x; try reflexivity; discriminate).
  assert (Iy : is_inf y = false) by (destruct y; try reflexivity; discriminate).
  destruct (Req_bool_spec (B2R x) (B2R y)) as [E|N].
  - split; [|reflexivity]. intros _. left. rewrite E, Rminus_diag_eq, Rabs_R0, rnd_0 by reflexivity. apply rnd_nonneg. pose proof tol9_range. pose proof (Rabs_pos (B2R y)). nra.
  - rewrite Ix, Iy. cbn [orb]. pose proof tol9_range as TR.
    destruct (mult_small rel9 x eq_refl ltac:(rewrite tol9_B; lra) Fx) as (F1 & E1).
    destruct (mult_small rel9 y eq_refl ltac:(rewrite tol9_B; lra) Fy) as (F2 & E2).
    rewrite tol9_B in E1, E2.
    pose proof (diff_le y x (Babs (Bmult mode_NE rel9 y)) (rnd (tol9 * Rabs (B2R y))) Fy Fx ltac:(rewrite is_finite_Babs; exact F2)) as D2.
    pose proof (diff_le y x (Babs (Bmult mode_NE rel9 x)) (rnd (tol9 * Rabs (B2R x))) Fy Fx ltac:(rewrite is_finite_Babs; exact F1)) as D1.
    pose proof (diff_le y x (B754_zero false) 0 Fy Fx eq_refl eq_refl) as D0.
    assert (A : forall r, Rabs (rnd (tol9 * r)) = rnd (tol9 * Rabs r)).
    { intros r. rewrite <- rnd_abs, Rabs_mult, (Rabs_pos_eq tol9) by lra. reflexivity. }
    specialize (D2 ltac:(rewrite B2R_Babs, E2; apply A)). specialize (D1 ltac:(rewrite B2R_Babs, E1; apply A)).
    rewrite !orb_true_iff, D2, D1, D0, (Rabs_minus_sym (B2R y) (B2R x)). unfold Close9.
    split; [|tauto]. intros [[H|H]|H]; [right; exact H|left; exact H|].
    exfalso. apply N. apply rnd_0_inv in H; [lra|]. exists x, y. reflexivity.
Qed.

Lemma isclose_infinite x y : is_finite x = false \/ is_finite y = false ->
  (isclose x y = true <-> exists s, x = B754_infinity s /\ y = B754_infinity s).
Proof.
  intros NF. unfold isclose. split.
  - destruct x as [sx|sx| |sx mx ex Hx], y as [sy|sy| |sy my ey Hy]; cbn in NF; try (destruct NF; discriminate); cbn;
      try destruct sx; try destruct sy; intros H; try discriminate H; eauto.
  - intros (s & -> & ->). destruct s; reflexivity.
Qed.

Lemma of_int_cases z :
  (Rabs (rnd (IZR z)) < 2 ^ 1024 /\ is_finite (of_int z) = true /\ B2R (of_int z) = rnd (IZR z)) \/
  (2 ^ 1024 <= Rabs (rnd (IZR z)) /\ is_inf (of_int z) = true).
Proof.
  pose proof (binary_normalize_correct 53 1024 p_prec p_emax mode_NE z 0 false) as H. cbv zeta in H.
  rewrite rnd_eq, bpow_emax in H. fold (of_int z) in H.
  assert (E : F2R (Float radix2 z 0) = IZR z) by (unfold F2R, Fnum, Fexp; rewrite Rmult_1_r; reflexivity).
  rewrite E in H. destruct (Rlt_bool_spec (Rabs (rnd (IZR z))) (2 ^ 1024)) as [L|L].
  - left. destruct H as (B & F & _). auto.
  - right. split; [exact L|]. destruct (of_int z); try discriminate H. reflexivity.
Qed.
Lemma fin_not_inf (x : double) : is_finite x = true -> is_inf x = false.
Proof. destruct x; [reflexivity|discriminate..|reflexivity]. Qed.

(** ** Equality of objects *)
Section ObjInd.
Variable P : obj -> Prop.
Hypothesis Hb : forall b, P (OBool b).
Hypothesis Hi : forall z, P (OInt z).
Hypothesis Hf : forall i x, P (OFloat i x).
Hypothesis Hs : forall s, P (OStr s).
Hypothesis Hu : forall i c, P (OFun i c).
Hypothesis Ho : forall i, P (OOther i).
Hypothesis Hl : forall l, Forall P l -> P (OList l).
Hypothesis Ht : forall l, Forall P l -> P (OTuple l).
Hypothesis Hd : forall d, Forall (fun kv => P (snd kv)) d -> P (ODict d).
Fixpoint obj_ind' (o : obj) : P o :=
  match o with
  | OBool b => Hb b | OInt z => Hi z | OFloat i x => Hf i x | OStr s => Hs s | OFun i c => Hu i c | OOther i => Ho i
  | OList l => Hl l ((fix go l := match l return Forall P l with [] => Forall_nil P | x :: l' => Forall_cons x (obj_ind' x) (go l') end) l)
  | OTuple l => Ht l ((fix go l := match l return Forall P l with [] => Forall_nil P | x :: l' => Forall_cons x (obj_ind' x) (go l') end) l)
  | ODict d => Hd d ((fix go d := match d return Forall (fun kv => P (snd kv)) d with [] => Forall_nil _ | x :: d' => Forall_cons x (obj_ind' (snd x)) (go d') end) d)
  end.
End ObjInd.

Fixpoint equals (l m : list obj) : bool :=
  match l, m with [], [] => true | x :: l', y :: m' => equal x y && equals l' m' | _, _ => false end.
Fixpoint matched (d e : list (string * obj)) : bool :=
  match d with [] => true | (k, v) :: d' => match get k e with Some w => equal v w && matched d' e | None => false end end.
Lemma equal_list l m : equal (OList l) (OList m) = equals l m.
Proof. reflexivity. Qed.
Lemma equal_tuple l m : equal (OTuple l) (OTuple m) = equals l m.
Proof. reflexivity. Qed.
Lemma equal_dict d e : equal (ODict d) (ODict e) = Nat.eqb (List.length d) (List.length e) && matched d e.
Proof. reflexivity. Qed.

Lemma get_has {A} k (v : A) d : get k d = Some v <-> Has k v d.
Proof.
  split.
  - induction d as [|(k', v') d IH]; cbn; [discriminate|]. destruct (String.eqb_spec k k') as [->|N].
    + injection 1 as ->. constructor.
    + intros H. apply has_later; [exact N|apply IH, H].
  - induction 1 as [d|k' v' d N H IH]; cbn; [rewrite String.eqb_refl; reflexivity|].
    destruct (String.eqb_spec k k'); [contradiction|exact IH].
Qed.

Lemma int_eq_float_spec z x : int_eq_float z x = true <-> is_finite x = true /\ B2R x = IZR z.
Proof.
  destruct x as [s|s| |s m e H]; cbn [int_eq_float is_finite B2R].
  - rewrite Z.eqb_eq. split; [intros ->; auto|]. intros (_ & E). apply eq_IZR. symmetry. exact E.
  - split; [discriminate|intros (E & _); discriminate].
  - split; [discriminate|intros (E & _); discriminate].
  - rewrite Z.eqb_eq. unfold F2R, Fnum, Fexp.
    assert (B : bpow radix2 e * IZR (2 ^ Z.max 0 (- e)) = IZR (2 ^ Z.max 0 e)).
    { change (IZR (2 ^ ?k)) with (IZR (Zpower radix2 k)). rewrite !(IZR_Zpower radix2) by lia. rewrite <- bpow_plus. f_equal. lia. }
    assert (P : 0 < IZR (2 ^ Z.max 0 (- e))) by (apply IZR_lt; apply Z.pow_pos_nonneg; lia).
    split.
    + intros E. split; [reflexivity|]. apply (Rmult_eq_reg_r (IZR (2 ^ Z.max 0 (- e)))); [|lra].
      rewrite Rmult_assoc, B, <- !mult_IZR, E. reflexivity.
    + intros (_ & E). apply eq_IZR. rewrite !mult_IZR, <- B, <- Rmult_assoc, E. reflexivity.
Qed.

Lemma int_of_real o z : int_of o = Some z -> Real o (IZR z).
Proof. destruct o; cbn; try discriminate; injection 1 as <-; [|constructor]. destruct b; [apply (r_bool true)|apply (r_bool false)]. Qed.
Lemma real_unique o r s : Real o r -> Real o s -> r = s.
Proof. intros H H'. inversion H; subst; inversion H'; subst; reflexivity. Qed.

Lemma forall2_equals l m : Forall (fun a => forall b, equal a b = true <-> Equal a b) l -> (equals l m = true <-> Forall2 Equal l m).
Proof.
  revert m. induction l as [|x l IH]; intros [|y m] H; cbn [equals].
  - split; [constructor|reflexivity].
  - split; [discriminate|inversion 1].
  - split; [discriminate|inversion 1].
  - inversion H as [|? ? H1 H2]; subst. rewrite andb_true_iff, H1, (IH m H2). split; [intros (A & B); constructor; assumption|inversion 1; auto].
Qed.
Lemma matched_spec d e : Forall (fun kv => forall b, equal (snd kv) b = true <-> Equal (snd kv) b) d ->
  (matched d e = true <-> forall k v, In (k, v) d -> exists w, Has k w e /\ Equal v w).
Proof.
  induction d as [|(k, v) d IH]; intros H; cbn [matched]; [split; [intros _ ? ? []|reflexivity]|].
  inversion H as [|? ? H1 H2]; subst. specialize (IH H2). cbn [snd] in H1.
  destruct (get k e) as [w|] eqn:G.
  - rewrite andb_true_iff, H1, IH. apply get_has in G. split.
    + intros (A & B) k' v' [E|I]; [injection E as <- <-; eauto|apply B, I].
    + intros A. split; [|intros k' v' I; apply A; right; exact I].
      destruct (A k v (or_introl eq_refl)) as (w' & G' & E). apply get_has in G, G'. rewrite G in G'. injection G' as <-. exact E.
  - split; [discriminate|]. intros A. destruct (A k v (or_introl eq_refl)) as (w' & G' & E). apply get_has in G'. congruence.
Qed.

Ltac noreal := match goal with H : Real _ _ |- _ => solve [inversion H] end.

Lemma equal_spec a : forall b, equal a b = true <-> Equal a b.
Proof.
  induction a as [ba|z|i x|s|i c|i|l IH|l IH|d IH] using obj_ind'; intros b.
  - destruct b as [bb|z|j y|t|j c'|j|m|m|e]; cbn [equal int_of]; try (split; [discriminate|inversion 1; subst; noreal]).
    + rewrite Z.eqb_eq. split.
      * intros E. apply (e_num _ _ (IZR (Z.b2z ba))); [apply int_of_real; reflexivity|rewrite E; apply int_of_real; reflexivity].
      * inversion 1 as [? ? r H1 H2| | | | | | | |]; subst. apply eq_IZR. rewrite (real_unique _ _ _ (int_of_real (OBool ba) _ eq_refl) H1), (real_unique _ _ _ (int_of_real (OBool bb) _ eq_refl) H2). reflexivity.
    + rewrite Z.eqb_eq. split.
      * intros E. apply (e_num _ _ (IZR (Z.b2z ba))); [apply int_of_real; reflexivity|rewrite E; apply int_of_real; reflexivity].
      * inversion 1 as [? ? r H1 H2| | | | | | | |]; subst. apply eq_IZR. rewrite (real_unique _ _ _ (int_of_real (OBool ba) _ eq_refl) H1), (real_unique _ _ _ (int_of_real (OInt z) _ eq_refl) H2). reflexivity.
    + rewrite int_eq_float_spec. split.
      * intros (F & E). apply (e_num _ _ (IZR (Z.b2z ba))); [apply int_of_real; reflexivity|rewrite <- E; constructor; exact F].
      * inversion 1 as [? ? r H1 H2| | | | | | | |]; subst. inversion H2; subst. split; [assumption|]. apply (real_unique (OBool ba)); [exact H1|apply int_of_real; reflexivity].
  - destruct b as [bb|z'|j y|t|j c'|j|m|m|e]; cbn [equal int_of]; try (split; [discriminate|inversion 1; subst; noreal]).
    + rewrite Z.eqb_eq. split.
      * intros E. apply (e_num _ _ (IZR z)); [apply int_of_real; reflexivity|rewrite E; apply int_of_real; reflexivity].
      * inversion 1 as [? ? r H1 H2| | | | | | | |]; subst. apply eq_IZR. rewrite (real_unique _ _ _ (int_of_real (OInt z) _ eq_refl) H1), (real_unique _ _ _ (int_of_real (OBool bb) _ eq_refl) H2). reflexivity.
    + rewrite Z.eqb_eq. split.
      * intros ->. apply (e_num _ _ (IZR z')); constructor.
      * inversion 1 as [? ? r H1 H2| | | | | | | |]; subst. inversion H1; subst. inversion H2; subst. apply eq_IZR. congruence.
    + rewrite int_eq_float_spec. split.
      * intros (F & E). apply (e_num _ _ (IZR z)); [constructor|rewrite <- E; constructor; exact F].
      * inversion 1 as [? ? r H1 H2| | | | | | | |]; subst. inversion H2; subst. split; [assumption|]. apply (real_unique (OInt z)); [exact H1|constructor].
  - destruct b as [bb|z'|j y|t|j c'|j|m|m|e]; cbn [equal int_of]; try (split; [discriminate|inversion 1; subst; noreal]).
    + rewrite int_eq_float_spec. split.
      * intros (F & E). apply (e_num _ _ (B2R x)); [constructor; exact F|rewrite E; apply int_of_real; reflexivity].
      * inversion 1 as [? ? r H1 H2| | | | | | | |]; subst. inversion H1; subst. split; [assumption|]. apply (real_unique (OBool bb)); [exact H2|apply int_of_real; reflexivity].
    + rewrite int_eq_float_spec. split.
      * intros (F & E). apply (e_num _ _ (B2R x)); [constructor; exact F|rewrite E; constructor].
      * inversion 1 as [? ? r H1 H2| | | | | | | |]; subst. inversion H1; subst. inversion H2; subst. split; [assumption|congruence].
    + rewrite !orb_true_iff, andb_true_iff, orb_true_iff, andb_true_iff, Nat.eqb_eq. split.
      * assert (B : Beqb x y = true -> Equal (OFloat i x) (OFloat j y)).
        { intros E. destruct (is_finite x) eqn:Fx, (is_finite y) eqn:Fy.
          - rewrite (Beqb_correct 53 1024 x y Fx Fy) in E. destruct (Req_bool_spec (B2R x) (B2R y)) as [E'|]; [|discriminate].
            apply (e_num _ _ (B2R x)); [constructor; exact Fx|rewrite E'; constructor; exact Fy].
          - destruct x as [sx|sx| |sx mx ex Hx], y as [sy|sy| |sy my ey Hy]; try discriminate; cbn in E; try destruct sx; try destruct sy; discriminate.
          - destruct x as [sx|sx| |sx mx ex Hx], y as [sy|sy| |sy my ey Hy]; try discriminate; cbn in E; try destruct sx; try destruct sy; discriminate.
          - destruct x as [sx|sx| |sx mx ex Hx], y as [sy|sy| |sy my ey Hy]; try discriminate; cbn in E; destruct sx, sy; try discriminate; apply e_inf. }
        intros [(-> & [E|(Nx & Ny)])|E]; [exact (B E)| |exact (B E)].
        destruct x; try discriminate. destruct y; try discriminate. constructor.
      * inversion 1 as [? ? r H1 H2|? ? sg|? |? |? ? |? |? ? |? ? |? ? ]; subst.
        -- right. inversion H1; subst. inversion H2; subst. rewrite (Beqb_correct 53 1024) by assumption. destruct (Req_bool_spec (B2R x) (B2R y)); congruence.
        -- right. destruct sg; reflexivity.
        -- left. split; [reflexivity|]. right. split; reflexivity.
  - destruct b as [bb|z'|j y|t|j c'|j|m|m|e]; cbn [equal int_of]; try (split; [discriminate|inversion 1; subst; noreal]).
    rewrite String.eqb_eq. split; [intros ->; constructor|inversion 1; subst; [noreal|reflexivity]].
  - destruct b as [bb|z'|j y|t|j c'|j|m|m|e]; cbn [equal int_of]; try (split; [discriminate|inversion 1; subst; noreal]).
    rewrite andb_true_iff, Nat.eqb_eq, String.eqb_eq. split; [intros (-> & ->); constructor|inversion 1; subst; [noreal|auto]].
  - destruct b as [bb|z'|j y|t|j c'|j|m|m|e]; cbn [equal int_of]; try (split; [discriminate|inversion 1; subst; noreal]).
    rewrite Nat.eqb_eq. split; [intros ->; constructor|inversion 1; subst; [noreal|auto]].
  - destruct b as [bb|z'|j y|t|j c'|j|m|m|e]; try (cbn [equal int_of]; split; [discriminate|inversion 1; subst; noreal]).
    rewrite equal_list, (forall2_equals l m IH). split; [constructor; assumption|inversion 1; subst; [noreal|assumption]].
  - destruct b as [bb|z'|j y|t|j c'|j|m|m|e]; try (cbn [equal int_of]; split; [discriminate|inversion 1; subst; noreal]).
    rewrite equal_tuple, (forall2_equals l m IH). split; [constructor; assumption|inversion 1; subst; [noreal|assumption]].
  - destruct b as [bb|z'|j y|t|j c'|j|m|m|e]; try (cbn [equal int_of]; split; [discriminate|inversion 1; subst; noreal]).
    rewrite equal_dict, andb_true_iff, Nat.eqb_eq, (matched_spec d e IH). split.
    + intros (L & A). constructor; assumption.
    + inversion 1; subst; [noreal|auto].
Qed.

(** ** The verdict on two objects *)
Lemma items_spec o l : items o = Some l <-> Iterates o l.
Proof.
  split.
  - destruct o; cbn; try discriminate; injection 1 as <-; constructor.
  - inversion 1; reflexivity.
Qed.
Lemma iterates_unique o l m : Iterates o l -> Iterates o m -> l = m.
Proof. intros A B. apply items_spec in A, B. congruence. Qed.

Lemma zip_codes_false l m c : zip_codes false l m = (c, false) -> c = false.
Proof.
  revert m. induction l as [|x l IH]; intros [|y m]; cbn; try (injection 1 as <-; reflexivity).
  destruct x; try discriminate. destruct y; try discriminate. apply IH.
Qed.
Lemma zip_codes_done l m c b : zip_codes b l m = (c, false) -> List.length l = List.length m ->
  (c = true <-> b = true /\ Forall2 SameCode l m).
Proof.
  revert m b. induction l as [|x l IH]; intros [|y m] b; cbn; try discriminate.
  - injection 1 as <-. intros _. split; [auto|tauto].
  - destruct x as [| | | |i cx| | | |]; try discriminate. destruct y as [| | | |j cy| | | |]; try discriminate.
    intros H L. injection L as L. rewrite (IH _ _ H L), andb_true_iff, String.eqb_eq. split.
    + intros ((-> & ->) & F). split; [reflexivity|]. constructor; [constructor|exact F].
    + intros (-> & F). inversion F as [|? ? ? ? A B]; subst. inversion A; subst. auto.
Qed.
Lemma zip_codes_broken l m c b : zip_codes b l m = (c, true) -> Forall2 SameCode l m -> False.
Proof.
  revert m b. induction l as [|x l IH]; intros [|y m] b; cbn; try discriminate.
  intros H F. inversion F as [|? ? ? ? A B]; subst. inversion A; subst. exact (IH _ _ H B).
Qed.
Lemma zip_codes_prefix l m c b : zip_codes b l m = (c, true) -> b = true -> Forall2 Equal l m -> c = true.
Proof.
  revert m b. induction l as [|x l IH]; intros [|y m] b; cbn; try discriminate.
  intros H -> F. inversion F as [|? ? ? ? A B]; subst.
  destruct x as [| | | |i cx| | | |]; try (injection H as <-; reflexivity).
  destruct y as [| | | |j cy| | | |]; try (injection H as <-; reflexivity).
  apply (IH _ _ H); [|exact B]. inversion A; subst; [noreal|]. apply String.eqb_refl.
Qed.
Lemma zip_codes_equal l m c : zip_codes true l m = (c, false) -> Forall2 Equal l m -> Forall2 SameCode l m.
Proof.
  revert m. induction l as [|x l IH]; intros [|y m]; cbn; try discriminate; try solve [intros _ F; inversion F; constructor].
  intros H F. inversion F as [|? ? ? ? A B]; subst.
  destruct x as [| | | |i cx| | | |]; try discriminate.
  destruct y as [| | | |j cy| | | |]; try discriminate.
  inversion A; subst; [noreal|]. rewrite String.eqb_refl in H. constructor; [constructor|apply IH; assumption].
Qed.

Lemma chars_str s : items (OStr s) = Some (chars s).
Proof. reflexivity. Qed.
(** equal objects with a length iterate over pairwise equal items, or are dictionaries
    of the same size, whose keys are strings *)
Lemma equal_items a b l m : Iterates a l -> Iterates b m -> Equal a b ->
  List.length l = List.length m /\ (Forall2 Equal l m \/ (forall x, In x l -> exists s, x = OStr s)).
Proof.
  intros Ia Ib E. inversion E; subst; try (inversion Ia; fail); try (inversion Ib; fail).
  - inversion H; subst; inversion Ia.
  - rewrite (iterates_unique _ _ _ Ia Ib). split; [reflexivity|]. right. inversion Ib; subst. intros x I. apply in_map_iff in I. destruct I as (c & <- & _). eauto.
  - inversion Ia; subst. inversion Ib; subst. split; [clear -H; induction H; cbn; congruence|]. left. exact H.
  - inversion Ia; subst. inversion Ib; subst. split; [clear -H; induction H; cbn; congruence|]. left. exact H.
  - inversion Ia; subst. inversion Ib; subst. split; [rewrite !map_length; assumption|]. right. intros x I. apply in_map_iff in I. destruct I as (kv & <- & _). eauto.
Qed.

Lemma zip_codes_strings l m b : (forall x, In x l -> exists s, x = OStr s) -> zip_codes b l m = (b, false) \/ zip_codes b l m = (b, true).
Proof. intros A. destruct l as [|x l], m as [|y m]; cbn; auto. destruct (A x (or_introl eq_refl)) as (s & ->). auto. Qed.

Lemma compare_sized_spec a b : compare_sized a b = true <->
  exists l m, Iterates a l /\ Iterates b m /\ (Forall2 SameCode l m \/ Equal a b).
Proof.
  unfold compare_sized. destruct (items a) as [l|] eqn:Ia; [|split; [discriminate|]].
  2: { intros (l & m & H & _). apply items_spec in H. congruence. }
  destruct (items b) as [m|] eqn:Ib; [|split; [discriminate|]].
  2: { intros (l' & m & _ & H & _). apply items_spec in H. congruence. }
  assert (U : (exists l0 m0, Iterates a l0 /\ Iterates b m0 /\ (Forall2 SameCode l0 m0 \/ Equal a b)) <-> (Forall2 SameCode l m \/ Equal a b)).
  { split.
    - intros (l0 & m0 & A & B & C). apply items_spec in A, B. rewrite A in Ia. rewrite B in Ib. injection Ia as ->. injection Ib as ->. exact C.
    - intros C. exists l, m. rewrite <- !items_spec. auto. }
  rewrite U. apply items_spec in Ia, Ib.
  destruct (zip_codes (Nat.eqb (List.length l) (List.length m)) l m) as [c [|]] eqn:Z.
  - rewrite andb_true_iff, equal_spec. split; [tauto|].
    intros [F|E]; [destruct (zip_codes_broken _ _ _ _ Z F)|]. split; [|exact E].
    destruct (equal_items a b l m Ia Ib E) as (L & [F|S]).
    + apply (zip_codes_prefix _ _ _ _ Z); [apply Nat.eqb_eq; exact L|exact F].
    + rewrite L, Nat.eqb_refl in Z. destruct (zip_codes_strings l m true S) as [Z'|Z']; rewrite Z' in Z; [discriminate|]. injection Z as <-. reflexivity.
  - destruct (Nat.eqb_spec (List.length l) (List.length m)) as [L|N].
    + rewrite (zip_codes_done l m c true Z L). split; [tauto|]. intros [F|E]; [auto|]. split; [reflexivity|].
      destruct (equal_items a b l m Ia Ib E) as (_ & [F|S]); [exact (zip_codes_equal _ _ _ Z F)|].
      destruct l as [|x l], m as [|y m]; try discriminate L; [constructor|]. exfalso.
      destruct (S x (or_introl eq_refl)) as (s & ->). cbn in Z. discriminate.
    + apply zip_codes_false in Z. subst c. split; [discriminate|]. intros [F|E].
      * exfalso. apply N. clear -F. induction F; cbn; congruence.
      * exfalso. apply N. exact (proj1 (equal_items a b l m Ia Ib E)).
Qed.

Lemma represented_int z : is_inf (of_int z) = false -> is_finite (of_int z) = true /\ B2R (of_int z) = rnd (IZR z) /\ Represented (OInt z) (rnd (IZR z)).
Proof.
  intros H. destruct (of_int_cases z) as [(L & F & E)|(L & I)]; [|congruence].
  split; [exact F|]. split; [exact E|]. exists (IZR z). split; [constructor|]. auto.
Qed.
Lemma small_int z : (- 2 ^ 63 <= z <= 2 ^ 63)%Z -> is_finite (of_int z) = true /\ B2R (of_int z) = rnd (IZR z).
Proof.
  intros H. destruct (of_int_cases z) as [(L & F & E)|(L & I)]; [auto|exfalso].
  rewrite <- rnd_abs, <- abs_IZR in L. assert (B : rnd (IZR (Z.abs z)) <= 2 ^ 63).
  { replace (2 ^ 63) with (rnd (bpow radix2 63)).
    - apply rnd_mono. change (bpow radix2 63) with (IZR (2 ^ 63)). apply IZR_le. lia.
    - unfold rnd. rewrite round_generic; [|auto with typeclass_instances|apply generic_format_bpow; cbv; discriminate]. change (bpow radix2 63) with (IZR (2 ^ 63)). rewrite (pow_IZR 2 63). reflexivity. }
  assert (2 ^ 63 < 2 ^ 1024) by (apply Rlt_pow; [lra|lia]). lra.
Qed.
Lemma represented_float i x : is_finite x = true -> Represented (OFloat i x) (B2R x).
Proof. intros F. exists (B2R x). split; [constructor; exact F|]. split; [symmetry; apply rnd_B2R|apply B2R_bound]. Qed.
Lemma represented_bool b : is_finite (of_int (Z.b2z b)) = true /\ Represented (OBool b) (B2R (of_int (Z.b2z b))).
Proof.
  destruct (small_int (Z.b2z b)) as (F & E); [destruct b; cbn; lia|]. split; [exact F|].
  exists (if b then 1 else 0). split; [constructor|]. split; [rewrite E; destruct b; reflexivity|apply B2R_bound].
Qed.

(** a number that converts *)
Lemma to_double_num o x : to_double o = CNum x -> (is_finite x = true /\ Represented o (B2R x)) \/ (exists i, o = OFloat i x /\ is_finite x = false).
Proof.
  destruct o as [b|z|i y|s|i c|i|l|l|d]; cbn; try discriminate.
  - injection 1 as <-. left. apply (represented_bool b).
  - destruct (is_inf (of_int z)) eqn:I; [discriminate|]. injection 1 as <-. left. destruct (represented_int z I) as (F & E & R). rewrite E. auto.
  - injection 1 as <-. destruct (is_finite y) eqn:F; [left; split; [reflexivity|apply represented_float; exact F]|right; eauto].
Qed.
Lemma represented_unique o r s : Represented o r -> Represented o s -> r = s.
Proof. intros (q & H & -> & _) (q' & H' & -> & _). rewrite (real_unique _ _ _ H H'). reflexivity. Qed.
Lemma represented_num o r : Represented o r -> exists x, to_double o = CNum x /\ is_finite x = true /\ B2R x = r.
Proof.
  intros (q & H & -> & L). inversion H; subst; cbn [to_double].
  - destruct (represented_bool b) as (F & R). exists (of_int (Z.b2z b)). split; [reflexivity|]. split; [exact F|].
    apply (represented_unique (OBool b)); [exact R|]. eexists. split; [constructor|]. auto.
  - destruct (of_int_cases z) as [(_ & F & E)|(L' & _)]; [|lra]. rewrite (fin_not_inf _ F). eauto.
  - exists x. rewrite rnd_B2R. auto.
Qed.
Lemma same_num_type_spec a b : same_num_type a b = true <-> SameNumberType a b.
Proof. split; [|inversion 1; reflexivity]. destruct a, b; cbn; try discriminate; constructor. Qed.

Lemma iterates_no_num a l : Iterates a l -> to_double a = CType.
Proof. inversion 1; reflexivity. Qed.
Lemma compare_objects_spec a b : compare_objects a b = true <-> Same a b.
Proof.
  unfold compare_objects, math_isclose. split.
  - destruct (to_double a) as [| |x] eqn:Ta.
    + intros H. destruct a as [ |z|i x|s|i c|i|l|l|d] eqn:Ea; try discriminate; try (rewrite <- Ea in *; apply compare_sized_spec in H;
        destruct H as (l0 & m0 & I1 & I2 & [C|C]); [exact (s_codes _ _ _ _ I1 I2 C)|exact (s_equal _ _ _ _ I1 I2 C)]).
      destruct b as [ |z'|j y|t|j c'|j|m|m|e]; try discriminate. apply String.eqb_eq in H. subst. apply s_code. constructor.
    + discriminate.
    + destruct (to_double b) as [| |y] eqn:Tb.
      * intros H. exfalso. destruct a; cbn in Ta; try discriminate; discriminate H.
      * discriminate.
      * rewrite andb_true_iff, same_num_type_spec. intros (C & T).
        destruct (to_double_num _ _ Ta) as [(Fx & Rx)|(i & -> & Fx)], (to_double_num _ _ Tb) as [(Fy & Ry)|(j & -> & Fy)].
        -- apply (s_number a b _ _ T Rx Ry). apply (isclose_finite x y Fx Fy). exact C.
        -- apply isclose_infinite in C; [|auto]. destruct C as (s & -> & ->). discriminate.
        -- apply isclose_infinite in C; [|auto]. destruct C as (s & -> & ->). discriminate.
        -- apply isclose_infinite in C; [|auto]. destruct C as (s & -> & ->). apply s_infinite.
  - intros H. inversion H as [? ? r s T Ra Rb C|i j sg|? ? C|? ? l m Ia Ib C|? ? l m Ia Ib C]; subst.
    + destruct (represented_num _ _ Ra) as (x & Ta & Fx & <-). destruct (represented_num _ _ Rb) as (y & Tb & Fy & <-).
      rewrite Ta, Tb, (proj2 (isclose_finite x y Fx Fy) C), (proj2 (same_num_type_spec a b) T). reflexivity.
    + destruct sg; reflexivity.
    + inversion C; subst. cbn. apply String.eqb_refl.
    + rewrite (iterates_no_num _ _ Ia). assert (E : compare_sized a b = true) by (apply compare_sized_spec; eauto 6). inversion Ia; subst; exact E.
    + rewrite (iterates_no_num _ _ Ia). assert (E : compare_sized a b = true) by (apply compare_sized_spec; eauto 6). inversion Ia; subst; exact E.
Qed.

(** ** Arrays *)
Lemma bpow_pow n : bpow radix2 (Z.of_nat n) = 2 ^ n.
Proof. rewrite <- (IZR_Zpower radix2) by lia. rewrite (pow_IZR 2 n). reflexivity. Qed.
Lemma rnd_pow n : rnd (2 ^ n) = 2 ^ n.
Proof. rewrite <- bpow_pow. unfold rnd. apply round_generic; [auto with typeclass_instances|]. apply generic_format_bpow. unfold FLT_exp. lia. Qed.

Lemma np_isclose_finite x y : is_finite x = true -> is_finite y = true -> (np_isclose x y = true <-> Near (B2R x) (B2R y)).
Proof.
  intros Fx Fy. unfold np_isclose. rewrite Fy, andb_true_r.
  assert (T5 : 0 < tol5 < 1) by (unfold tol5; lra). assert (T8 : 0 < tol8 < 1) by (unfold tol8; lra).
  destruct (mult_small rtol5 (Babs y) eq_refl ltac:(rewrite tol5_B; lra) ltac:(rewrite is_finite_Babs; exact Fy)) as (F1 & E1).
  rewrite tol5_B, B2R_Babs in E1.
  pose proof (Bplus_correct 53 1024 p_prec p_emax mode_NE atol8 (Bmult mode_NE rtol5 (Babs y)) eq_refl F1) as H.
  rewrite rnd_eq, tol8_B, E1 in H.
  assert (N5 : 0 <= rnd (tol5 * Rabs (B2R y))) by (apply rnd_nonneg; pose proof (Rabs_pos (B2R y)); nra).
  assert (B : rnd (tol5 * Rabs (B2R y)) <= 2 ^ 1022).
  { rewrite <- (rnd_pow 1022). apply rnd_mono. pose proof (B2R_bound y) as By. pose proof (Rabs_pos (B2R y)).
    assert (P : 2 ^ 1024 = 4 * 2 ^ 1022) by (replace 1024%nat with (2 + 1022)%nat by reflexivity; rewrite pow_add; lra).
    assert (0 < 2 ^ 1022) by apply pow_pos. unfold tol5. lra. }
  assert (B' : rnd (tol8 + rnd (tol5 * Rabs (B2R y))) <= 2 ^ 1023).
  { rewrite <- (rnd_pow 1023). apply rnd_mono.
    assert (P : 2 ^ 1023 = 2 * 2 ^ 1022) by (replace 1023%nat with (1 + 1022)%nat by reflexivity; rewrite pow_add; lra).
    assert (1 <= 2 ^ 1022) by (apply pow_R1_Rle; lra). lra. }
  rewrite Rlt_bool_true in H.
  2: { rewrite bpow_emax, Rabs_pos_eq by (apply rnd_nonneg; lra).
       assert (2 ^ 1023 < 2 ^ 1024) by (apply Rlt_pow; [lra|lia]). lra. }
  destruct H as (E2 & F2 & _). rewrite orb_true_iff, (diff_le x y _ _ Fx Fy F2 E2). unfold Near.
  split; [|auto]. intros [H|H]; [exact H|]. rewrite (Beqb_correct 53 1024 x y Fx Fy) in H.
  destruct (Req_bool_spec (B2R x) (B2R y)) as [E|]; [|discriminate]. rewrite E, Rminus_diag_eq, Rabs_R0, rnd_0 by reflexivity.
  apply rnd_nonneg. lra.
Qed.
Lemma np_isclose_infinite x y : is_finite x = false \/ is_finite y = false ->
  (np_isclose x y = true <-> exists s, x = B754_infinity s /\ y = B754_infinity s).
Proof.
  intros NF. unfold np_isclose. split.
  - rewrite orb_true_iff, andb_true_iff. intros [(L & F)|E].
    + exfalso. destruct NF as [N|N]; [|congruence]. destruct x as [sx|sx| |sx mx ex Hx]; try discriminate N.
      * assert (D : Babs (Bminus mode_NE (B754_infinity sx) y) = B754_infinity false) by (destruct y; try discriminate F; reflexivity).
        rewrite D in L.
        destruct (mult_small rtol5 (Babs y) eq_refl) as (F1 & E1); [rewrite tol5_B; unfold tol5; lra|rewrite is_finite_Babs; exact F|].
        destruct (Bplus mode_NE atol8 (Bmult mode_NE rtol5 (Babs y))) as [s|s| |s m e B] eqn:P; try discriminate L.
        destruct s; try discriminate L.
        pose proof (Bplus_correct 53 1024 p_prec p_emax mode_NE atol8 (Bmult mode_NE rtol5 (Babs y)) eq_refl F1) as H.
        rewrite rnd_eq, tol8_B, E1, tol5_B, B2R_Babs in H.
        assert (T5 : 0 < tol5 < 1) by (unfold tol5; lra). assert (T8 : 0 < tol8 < 1) by (unfold tol8; lra).
        assert (N5 : 0 <= rnd (tol5 * Rabs (B2R y))) by (apply rnd_nonneg; pose proof (Rabs_pos (B2R y)); nra).
        rewrite Rlt_bool_true in H; [destruct H as (_ & F2 & _); rewrite P in F2; discriminate|].
        rewrite bpow_emax, Rabs_pos_eq by (apply rnd_nonneg; lra).
        apply Rle_lt_trans with (2 ^ 1023); [|apply Rlt_pow; [lra|lia]].
        rewrite <- (rnd_pow 1023). apply rnd_mono.
        assert (Q : rnd (tol5 * Rabs (B2R y)) <= 2 ^ 1022).
        { rewrite <- (rnd_pow 1022). apply rnd_mono. pose proof (B2R_bound y). pose proof (Rabs_pos (B2R y)).
          assert (P' : 2 ^ 1024 = 4 * 2 ^ 1022) by (replace 1024%nat with (2 + 1022)%nat by reflexivity; rewrite pow_add; lra).
          assert (0 < 2 ^ 1022) by apply pow_pos. unfold tol5. lra. }
        assert (P' : 2 ^ 1023 = 2 * 2 ^ 1022) by (replace 1023%nat with (1 + 1022)%nat by reflexivity; rewrite pow_add; lra).
        assert (1 <= 2 ^ 1022) by (apply pow_R1_Rle; lra). lra.
      * destruct y; discriminate L.
    + destruct x as [sx|sx| |sx mx ex Hx], y as [sy|sy| |sy my ey Hy]; cbn in NF; try (destruct NF; discriminate); cbn in E;
      try destruct sx; try destruct sy; try discriminate E; eauto.
  - intros (s & -> & ->). destruct s; reflexivity.
Qed.

Lemma broadcast_spec s : forall t r, broadcast_rev s t = Some r <-> Axes s t r.
Proof.
  induction s as [|m s IH]; intros t r.
  - cbn. split; [injection 1 as <-; constructor|inversion 1; reflexivity].
  - destruct t as [|n t]; [cbn; split; [injection 1 as <-; constructor|inversion 1; reflexivity]|].
    cbn [broadcast_rev]. split.
    + destruct (broadcast_rev s t) as [q|] eqn:E; [|discriminate]. apply IH in E.
      destruct (Nat.eqb_spec m n) as [->|N]; [injection 1 as <-; constructor; exact E|].
      destruct (Nat.eqb_spec m 1) as [->|N1]; [injection 1 as <-; constructor; exact E|].
      destruct (Nat.eqb_spec n 1) as [->|N2]; [injection 1 as <-; constructor; exact E|discriminate].
    + inversion 1 as [| |? ? ? q A|? ? ? q A|? ? ? q A]; subst; apply IH in A; rewrite A.
      * rewrite Nat.eqb_refl. reflexivity.
      * destruct (Nat.eqb_spec 1 n) as [<-|_]; reflexivity.
      * destruct (Nat.eqb_spec m 1) as [->|_]; reflexivity.
Qed.

Lemma indices_spec s pos : In pos (indices s) <-> Inside pos s.
Proof.
  revert pos. induction s as [|n s IH]; intros pos; cbn.
  - split; [intros [<-|[]]; constructor|inversion 1; auto].
  - rewrite in_flat_map. split.
    + intros (i & Ii & H). apply in_map_iff in H. destruct H as (p & <- & Ip). apply in_seq in Ii. constructor; [lia|apply IH, Ip].
    + inversion 1 as [|i ? p ? L F]; subst. exists i. split; [apply in_seq; lia|]. apply in_map, IH, F.
Qed.

Lemma offset_place s : forall pos k stride, Place s pos k -> offset s pos stride = (stride * k)%nat.
Proof.
  induction s as [|n s IH]; intros pos k stride; inversion 1; subst; cbn [offset].
  - lia.
  - cbn [Nat.eqb]. rewrite (IH _ _ _ H4). lia.
  - destruct (Nat.eqb_spec n 1); [contradiction|]. rewrite (IH _ _ (stride * n)%nat H5). lia.
Qed.
Lemma place_exists s : forall pos, (List.length s <= List.length pos)%nat -> exists k, Place s pos k.
Proof.
  induction s as [|n s IH]; intros pos L; [exists 0%nat; constructor|]. destruct pos as [|i pos]; [cbn in L; lia|].
  destruct (IH pos ltac:(cbn in L; lia)) as (k & P). destruct (Nat.eq_dec n 1) as [->|N]; eexists; constructor; eauto.
Qed.
(** positions of the combined axes are in range for both operands *)
Lemma place_lt_left s t r pos k : Axes s t r -> Inside pos r -> Place s pos k -> (k < size s)%nat.
Proof.
  intros A. revert pos k. induction A; intros pos k I P.
  - inversion P; subst. cbn. lia.
  - assert (G : forall s pos k, Inside pos s -> Place s pos k -> (k < size s)%nat).
    { clear. induction s as [|n s IH]; intros pos k I P; [inversion P; cbn; lia|].
      inversion I as [|i ? p ? L F]; subst. inversion P as [|? ? p' q' Q|? ? ? p' q' N Q]; subst; specialize (IH _ _ F Q); cbn [size fold_right]; fold (size s); nia. }
    apply (G (m :: s) pos k I P).
  - inversion I as [|i ? p ? L F]; subst. inversion P as [|? ? p' q' Q|? ? ? p' q' N Q]; subst; specialize (IHA _ _ F Q); cbn [size fold_right]; fold (size s); nia.
  - inversion I as [|i ? p ? L F]; subst. inversion P as [|? ? p' q' Q|? ? ? p' q' N Q]; subst; specialize (IHA _ _ F Q); cbn [size fold_right]; fold (size s); nia.
  - inversion I as [|i ? p ? L F]; subst. inversion P as [|? ? p' q' Q|? ? ? p' q' N Q]; subst; specialize (IHA _ _ F Q); cbn [size fold_right]; fold (size s); nia.
Qed.
Lemma axes_sym s t r : Axes s t r -> Axes t s r.
Proof. induction 1; try (constructor; assumption). destruct t; constructor. Qed.
Lemma axes_length s t r : Axes s t r -> List.length r = Nat.max (List.length s) (List.length t).
Proof. induction 1; cbn [List.length]; lia. Qed.
Lemma inside_length pos r : Inside pos r -> List.length pos = List.length r.
Proof. induction 1; cbn; congruence. Qed.

Lemma size_rev s : size (rev s) = size s.
Proof.
  unfold size. induction s as [|n s IH]; [reflexivity|]. cbn [rev fold_right]. rewrite fold_right_app. cbn [fold_right]. rewrite Nat.mul_1_r.
  rewrite <- IH. generalize (rev s). intros l. clear IH. revert n. induction l as [|m l IH]; intros n; cbn [fold_right]; [lia|]. rewrite IH. lia.
Qed.
Lemma wf_length a : WfArr a -> List.length (data_of a) = size (shape a).
Proof. destruct a; cbn; [auto|]. intros (L & _). rewrite map_length. exact L. Qed.

(** the number at a place *)
Lemma datum a k : WfArr a -> (k < size (shape a))%nat ->
  let x := nth k (data_of a) B754_nan in
  (is_finite x = true <-> exists r, DataAt a k r) /\
  (forall r, DataAt a k r -> r = B2R x) /\
  (forall sg, InfAt a k sg <-> x = B754_infinity sg).
Proof.
  intros W L x. pose proof (wf_length a W) as LW. rewrite <- LW in L.
  pose proof (nth_error_nth' (data_of a) B754_nan L) as E. fold x in E. destruct a as [s d|s d]; cbn [data_of DataAt InfAt] in *.
  - split; [|split].
    + split; [intros F; exists (B2R x), x; auto|intros (r & y & E' & F & _); congruence].
    + intros r (y & E' & F & ->). congruence.
    + intros sg. rewrite E. split; [injection 1 as ->; reflexivity|intros ->; reflexivity].
  - rewrite map_length in L. destruct (nth_error d k) as [z|] eqn:Ez; [|apply nth_error_None in Ez; lia].
    assert (X : x = of_int z) by (rewrite (map_nth_error of_int k d Ez) in E; congruence).
    destruct W as (_ & W). assert (Hz : (- 2 ^ 63 <= z < 2 ^ 63)%Z) by (rewrite Forall_forall in W; apply W; eapply nth_error_In; exact Ez).
    destruct (small_int z ltac:(lia)) as (F & B). rewrite X. split; [|split].
    + split; [intros _; exists (rnd (IZR z)), z; auto|intros _; exact F].
    + intros r (z' & E' & ->). rewrite B. congruence.
    + intros sg. split; [intros []|]. intros Y. rewrite Y in F. discriminate.
Qed.

Lemma same_dtype_spec a b : same_dtype a b = true <-> SameDtype a b.
Proof. split; [|inversion 1; reflexivity]. destruct a, b; cbn; try discriminate; constructor. Qed.
Lemma shape_shape a : shape_of a = shape a.
Proof. destruct a; reflexivity. Qed.

Lemma arrays_spec a b : WfArr a -> WfArr b ->
  (value_comparison (VArr a) (VArr b) = Answer true <-> SameArrays a b).
Proof.
  intros Wa Wb. cbn [value_comparison]. unfold allclose, SameArrays. rewrite (shape_shape a), (shape_shape b).
  destruct (broadcast_rev (rev (shape a)) (rev (shape b))) as [axes|] eqn:E.
  - apply broadcast_spec in E. split.
    + intros H. cbv beta iota in H. apply (f_equal (fun o => match o with Answer b => b | Odd => false end)) in H. cbv beta iota in H. apply andb_true_iff in H. destruct H as (D & C). split; [apply same_dtype_spec; exact D|].
      exists axes. split; [exact E|]. intros pos j k I Pj Pk. rewrite forallb_forall in C. specialize (C pos (proj2 (indices_spec axes pos) I)).
      unfold element in C. rewrite (shape_shape a), (shape_shape b), (offset_place _ _ _ 1 Pj), (offset_place _ _ _ 1 Pk), !Nat.mul_1_l in C.
      pose proof (place_lt_left _ _ _ _ _ E I Pj) as Lj. pose proof (place_lt_left _ _ _ _ _ (axes_sym _ _ _ E) I Pk) as Lk. rewrite size_rev in Lj, Lk.
      destruct (datum a j Wa Lj) as (F1 & R1 & I1). destruct (datum b k Wb Lk) as (F2 & R2 & I2).
      set (x := nth j (data_of a) B754_nan) in *. set (y := nth k (data_of b) B754_nan) in *.
      destruct (is_finite x) eqn:Fx, (is_finite y) eqn:Fy.
      * destruct (proj1 F1 eq_refl) as (r & Dr). destruct (proj1 F2 eq_refl) as (s & Ds). left. exists r, s. split; [exact Dr|]. split; [exact Ds|].
        rewrite (R1 r Dr), (R2 s Ds). apply np_isclose_finite; assumption.
      * apply np_isclose_infinite in C; [|auto]. destruct C as (sg & X & Y). right. exists sg. rewrite I1, I2. auto.
      * apply np_isclose_infinite in C; [|auto]. destruct C as (sg & X & Y). right. exists sg. rewrite I1, I2. auto.
      * apply np_isclose_infinite in C; [|auto]. destruct C as (sg & X & Y). right. exists sg. rewrite I1, I2. auto.
    + intros (D & axes' & A & C). apply broadcast_spec in A. apply broadcast_spec in E. assert (axes' = axes) by congruence. subst axes'. apply broadcast_spec in E.
      rewrite (proj2 (same_dtype_spec a b) D). cbn [andb]. f_equal. apply forallb_forall. intros pos I. apply indices_spec in I.
      pose proof (axes_length _ _ _ E) as AL. pose proof (inside_length _ _ I) as IL.
      destruct (place_exists (rev (shape a)) pos) as (j & Pj); [lia|]. destruct (place_exists (rev (shape b)) pos) as (k & Pk); [lia|].
      unfold element. rewrite (shape_shape a), (shape_shape b), (offset_place _ _ _ 1 Pj), (offset_place _ _ _ 1 Pk), !Nat.mul_1_l.
      pose proof (place_lt_left _ _ _ _ _ E I Pj) as Lj. pose proof (place_lt_left _ _ _ _ _ (axes_sym _ _ _ E) I Pk) as Lk. rewrite size_rev in Lj, Lk.
      destruct (datum a j Wa Lj) as (F1 & R1 & I1). destruct (datum b k Wb Lk) as (F2 & R2 & I2).
      set (x := nth j (data_of a) B754_nan) in *. set (y := nth k (data_of b) B754_nan) in *.
      destruct (C pos j k I Pj Pk) as [(r & s & Dr & Ds & N)|(sg & X & Y)].
      * rewrite (R1 r Dr), (R2 s Ds) in N. apply np_isclose_finite; [apply F1; eauto|apply F2; eauto|exact N].
      * apply I1 in X. apply I2 in Y. rewrite X, Y. destruct sg; reflexivity.
  - split; [discriminate|]. intros (_ & axes & A & _). apply broadcast_spec in A. congruence.
Qed.
