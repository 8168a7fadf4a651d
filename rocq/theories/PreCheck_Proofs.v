From Coq Require Import Reals ZArith List Lia Lra Bool Permutation.
From Coquelicot Require Import Coquelicot.
From Verif Require Import Base Py Stab_Model Stab_Proofs PreCheck_Model PreCheck_Spec.
Import ListNotations.
Local Open Scope R_scope.

Lemma longitude_integral_val : forall M, longitude_integral M = if (M =? 0)%Z then 2 * PI else 0.
Proof.
  intros M. unfold longitude_integral. destruct (Z.eqb_spec M 0) as [->|H].
  - rewrite (RInt_ext _ (fun _ => 1)).
    + rewrite RInt_const. unfold scal; simpl; unfold mult; simpl. ring.
    + intros x _. rewrite Rmult_0_l. apply cos_0.
  - assert (HM : IZR M <> 0) by (apply not_0_IZR, H).
    assert (I : is_RInt (fun phi => cos (IZR M * phi)) 0 (2 * PI) (sin (IZR M * (2 * PI)) / IZR M - sin (IZR M * 0) / IZR M)).
    { apply (is_RInt_derive (fun phi => sin (IZR M * phi) / IZR M)).
      - intros x _. auto_derive; [trivial|]. field. exact HM.
      - intros x _. apply (@ex_derive_continuous R_AbsRing R_NormedModule). auto_derive. trivial. }
    apply (is_RInt_unique (V := R_CompleteNormedModule)) in I. rewrite I. rewrite Rmult_0_r, sin_0.
    replace (sin (IZR M * (2 * PI))) with 0; [field; exact HM|].
    symmetry. apply sin_eq_0_1. exists (2 * M)%Z. rewrite mult_IZR. ring.
Qed.

Lemma odd_integral : forall f : R -> R, (forall x, continuous f x) -> (forall x, f (- x) = - f x) -> RInt f (-1) 1 = 0.
Proof.
  intros f C O.
  assert (E : forall a b, ex_RInt f a b) by (intros; apply (ex_RInt_continuous (V := R_CompleteNormedModule)); intros; apply C).
  assert (H : is_RInt f (- (1)) (- (-1)) (RInt f (-1) 1)).
  { replace (- (1)) with (-1) by ring. replace (- (-1)) with 1 by ring. apply (RInt_correct (V := R_CompleteNormedModule)), E. }
  apply is_RInt_comp_opp in H.
  assert (H2 : is_RInt f 1 (-1) (RInt f (-1) 1)).
  { apply (is_RInt_ext (fun y => opp (f (- y)))); [|exact H]. intros x _. rewrite O. unfold opp; simpl. ring. }
  apply is_RInt_swap in H2. apply (is_RInt_unique (V := R_CompleteNormedModule)) in H2. unfold opp in H2; simpl in H2. lra.
Qed.

Lemma zsum3 : forall a b c, zsum [a; b; c] = (a + b + c)%Z.
Proof. intros. unfold zsum. cbn. lia. Qed.

Lemma azimuthal_rule_iff : forall m1 m2 m3 c1 c2 c3,
  azimuthal_rule [m1; m2; m3] [c1; c2; c3] = true <-> (signed c1 m1 + signed c2 m2 + signed c3 m3 = 0)%Z.
Proof. intros. unfold azimuthal_rule. cbn [adapt_conj]. rewrite zsum3, Z.eqb_eq. unfold signed, conjer_m. reflexivity. Qed.

Lemma meridional_rule_iff : forall a b c, meridional_rule [a; b; c] = Z.even (a + b + c).
Proof. intros. unfold meridional_rule. rewrite zsum3. rewrite Zmod_even. destruct (Z.even (a + b + c)); reflexivity. Qed.

(** one triad (1,2,3) of three modes *)
Lemma info_123 : forall a b c rest, relevant_info (a :: b :: c :: rest) [1; 2; 3]%Z =
  Ok ([ml a; ml b; ml c], [mm a; mm b; mm c],
      [k_grav_in (ml a) (mm a); k_grav_in (ml b) (mm b); k_grav_in (ml c) (mm c)]).
Proof. reflexivity. Qed.

Lemma generic_123 : forall a b c rest t cs, t = None \/ t = Some [[1; 2; 3]%Z] -> 
  forall l, conj_triads cs = Ok (l :: nil) ->
  generic_check (a :: b :: c :: rest) t cs =
  Ok (azimuthal_rule [mm a; mm b; mm c] l && meridional_rule [k_grav_in (ml a) (mm a); k_grav_in (ml b) (mm b); k_grav_in (ml c) (mm c)]).
Proof.
  intros a b c rest t cs Ht l Hl. unfold generic_check. rewrite Hl.
  destruct Ht; subst t; cbn [bind mapM]; rewrite info_123; cbn; rewrite andb_true_r; reflexivity.
Qed.

Ltac perm3 := first [apply Permutation_refl | apply perm_swap | (apply perm_skip, perm_swap)
  | (eapply perm_trans; [apply perm_swap|apply perm_skip, perm_swap])
  | (eapply perm_trans; [apply perm_skip, perm_swap|apply perm_swap])
  | (eapply perm_trans; [apply perm_swap|]; eapply perm_trans; [apply perm_skip, perm_swap|]; apply perm_swap)].
(** any permutation of (1,2,3) *)
Lemma info_perm : forall a b c rest t, Permutation t [1; 2; 3]%Z ->
  exists ll lm lk, relevant_info (a :: b :: c :: rest) t = Ok (ll, lm, lk) /\
  lm = map (fun g => mm (nth (Z.to_nat (g - 1)) [a; b; c] a)) t /\
  Permutation lk [k_grav_in (ml a) (mm a); k_grav_in (ml b) (mm b); k_grav_in (ml c) (mm c)].
Proof.
  intros a b c rest t H.
  assert (L := Permutation_length H). destruct t as [|x [|y [|z [|? ?]]]]; try discriminate L. clear L.
  assert (X : In x [1;2;3]%Z) by (eapply Permutation_in; [exact H|left; reflexivity]).
  assert (Y : In y [1;2;3]%Z) by (eapply Permutation_in; [exact H|right; left; reflexivity]).
  assert (Z : In z [1;2;3]%Z) by (eapply Permutation_in; [exact H|right; right; left; reflexivity]).
  assert (N : NoDup [x; y; z]) by (apply (Permutation_NoDup (Permutation_sym H)); repeat constructor; simpl; intuition discriminate).
  assert (N1 : x <> y /\ x <> z /\ y <> z).
  { inversion N as [|? ? A B]; subst. inversion B as [|? ? C D]; subst. simpl in A, C. intuition congruence. }
  clear N H. cbn in X, Y, Z.
  destruct X as [<-|[<-|[<-|[]]]]; destruct Y as [<-|[<-|[<-|[]]]]; try (exfalso; lia); destruct Z as [<-|[<-|[<-|[]]]]; try (exfalso; lia);
    (do 3 eexists; split; [reflexivity|split; [reflexivity|]]); perm3.
Qed.
