(** * Pointwise identities for C103: sums over the assignments are contractions of gradient tensors. *)
From Coq Require Import Reals List ZArith Bool Lia Lra.
From Coquelicot Require Import Complex.
From Verif Require Import Base Py Coupling_Model Coupling_Spec Coupling_Proofs Energy_Spec Energy_Proofs.
Import ListNotations.
Local Open Scope R_scope.

Definition one3 (p : nat) : R := 1.
(** the tensor that the terms of the code contain *)
Definition code_grad (E : cenv) (i k p : nat) : mat3 :=
  grad_of E (fun p => - order E p) (order E) (order E) one3 i k p.
Lemma Ci2 : (Ci * Ci = - RtoC 1)%C.
Proof. unfold Ci, Cmult, Copp, RtoC. cbn. f_equal; ring. Qed.
Lemma RtoC_add a b : RtoC (a + b) = (RtoC a + RtoC b)%C. Proof. apply RtoC_plus. Qed.
Lemma RtoC_neg a : RtoC (- a) = (- RtoC a)%C. Proof. apply RtoC_opp. Qed.
Lemma RtoC_sub a b : RtoC (a - b) = (RtoC a - RtoC b)%C. Proof. apply RtoC_minus. Qed.
Lemma RtoC_mul a b : RtoC (a * b) = (RtoC a * RtoC b)%C. Proof. apply RtoC_mult. Qed.
Lemma two_half : (RtoC (1 / 2) * (RtoC 1 + RtoC 1) = RtoC 1)%C.
Proof. rewrite <- RtoC_add, <- RtoC_mul. f_equal. lra. Qed.

(** tensor entries with the derived angular arrays *)
Lemma code_entries E i k p : hough_arrays E -> (1 <= p <= 3)%nat -> (k < e_nmu E)%nat ->
  let u := / sin_at E k in
  code_grad E i k p 2%nat 0%nat = (Ci * (e_rad E RZ1 p i * RtoC (e_ang E MHr p k * u) - e_rad E RZ2c p i * RtoC (e_ang E Hp p k)))%C /\
  code_grad E i k p 2%nat 1%nat = (Ci * e_rad E RZ2c p i * RtoC (e_ang E ThPh p k * u))%C /\
  code_grad E i k p 2%nat 2%nat = (e_rad E RZ2c p i * RtoC (e_ang E PhPh p k) + e_rad E RZ1 p i * RtoC (e_ang E Hr p k))%C.
Proof.
  intros H P K u. destruct (H p k P K) as (H1 & H2 & H3). rewrite H1, H2, H3. unfold code_grad, grad_of, grad, one3. split; [|split].
  - unfold Rdiv. fold u. ring.
  - unfold Rdiv. fold u. ring.
  - reflexivity.
Qed.
Lemma over_true E f k : over_sin E true f k = f k * / sin_at E k.
Proof. reflexivity. Qed.

Ltac atoms E i k :=
  repeat match goal with |- context [e_rad E ?t ?p i] => let z := fresh "z" in set (z := e_rad E t p i) in *; clearbody z end;
  repeat match goal with |- context [e_ang E ?t ?p k] => let a := fresh "a" in set (a := e_ang E t p k) in *; clearbody a end.
Ltac entries E i k H K :=
  rewrite ?(proj1 (code_entries E i k 1 H ltac:(lia) K)), ?(proj1 (code_entries E i k 2 H ltac:(lia) K)), ?(proj1 (code_entries E i k 3 H ltac:(lia) K));
  rewrite ?(proj1 (proj2 (code_entries E i k 1 H ltac:(lia) K))), ?(proj1 (proj2 (code_entries E i k 2 H ltac:(lia) K))), ?(proj1 (proj2 (code_entries E i k 3 H ltac:(lia) K)));
  rewrite ?(proj2 (proj2 (code_entries E i k 1 H ltac:(lia) K))), ?(proj2 (proj2 (code_entries E i k 2 H ltac:(lia) K))), ?(proj2 (proj2 (code_entries E i k 3 H ltac:(lia) K))).
Ltac point E i k H K :=
  unfold tr2, tr3, sum3; entries E i k H K; unfold code_grad, grad_of, grad, one3;
  unfold cterm, rprod, asum, assignments, div_of; cbn [fold_right ang_list div_list combine fst snd]; unfold aprod; rewrite ?over_true; cbn [over_sin];
  set (u := / sin_at E k); clearbody u; atoms E i k; rewrite ?RtoC_add, ?RtoC_sub, ?RtoC_mul, ?RtoC_neg, ?RtoC_add, ?RtoC_sub, ?RtoC_mul, ?RtoC_neg.

Lemma two_nz : (RtoC 1 + RtoC 1 <> RtoC 0)%C.
Proof. rewrite <- RtoC_add. intros H. apply RtoC_inj in H. lra. Qed.
Lemma half_inv : (RtoC (1 / 2) = / (RtoC 1 + RtoC 1))%C.
Proof. rewrite <- RtoC_add, <- RtoC_inv by lra. f_equal. lra. Qed.
Ltac consts :=
  replace (RtoC (-1)) with (- RtoC 1)%C by (rewrite <- RtoC_neg; reflexivity);
  replace (RtoC (-2)) with (- (RtoC 1 + RtoC 1))%C by (rewrite <- RtoC_add, <- RtoC_neg; f_equal; lra);
  rewrite ?half_inv; pose proof Ci2 as J; set (j := Ci) in *; clearbody j.
Lemma point_1 E i k : hough_arrays E -> (k < e_nmu E)%nat ->
  (RtoC (1 / 2) * cterm E (RDerXZ1, RDerXZ1, RDiverg) (ASingle (Hr, Hr, Hr) false) [1%R] i k
   + RtoC (1 / 2) * cterm E (RZ2c, RZ2c, RDiverg) (AMulti [(DHt, DHt, Hr); (PhPh, PhPh, Hr); (ThPh, DHp, Hr)] [false; false; true]) [1; 1; -2]%R i k
   + cterm E (RZ1, RZ1, RDiverg) (ASingle (Hr, Hr, Hr) false) [1%R] i k
   + cterm E (RZ2c, RZ1, RDiverg) (AMulti [(DHt, Hr, Hr); (PhPh, Hr, Hr)] [false; false]) [1; 1]%R i k
   + cterm E (RZ1, RDerXZ2c, RDiverg) (AMulti [(DHr, Ht, Hr); (MHr, Hp, Hr)] [false; true]) [1; -1]%R i k
   + cterm E (RDiverg, RZ2c, RDerXZ2c) (AMulti [(Hr, Ht, Ht); (Hr, Hp, Hp)] [false; false]) [-1; 1]%R i k
  = tr2 (code_grad E i k 1) (code_grad E i k 2) * div_of E i k 3 + tr2 (code_grad E i k 1) (code_grad E i k 3) * div_of E i k 2
    + tr2 (code_grad E i k 2) (code_grad E i k 3) * div_of E i k 1)%C.
Proof.
  intros H K. point E i k H K. consts. 
  field [J]. exact two_nz.
Qed.
Lemma point_3 E i k : hough_arrays E -> (k < e_nmu E)%nat ->
  (cterm E (RDerXZ1, RZ1, RDerXZ2c) (AMulti [(Hr, DHr, Ht); (Hr, MHr, Hp)] [false; true]) [1; -1]%R i k
   + cterm E (RDerXZ1, RZ2c, RDerXZ2c) (AMulti [(Hr, Ht, Ht); (Hr, Hp, Hp)] [false; false]) [-1; 1]%R i k
   + cterm E (RZ1, RZ1, RDerXZ2c) (AMulti [(DHr, Hr, Ht); (MHr, Hr, Hp)] [false; true]) [1; -1]%R i k
   + cterm E (RZ1, RZ2c, RDerXZ2c) (AMulti [(Hr, Ht, Ht); (DHr, DHt, Ht); (Hr, Hp, Hp); (MHr, PhPh, Hp); (MHr, DHp, Ht); (DHr, ThPh, Hp)]
                  [false; false; false; true; true; true]) [-1; 1; 1; -1; -1; -1]%R i k
   + cterm E (RZ2c, RZ2c, RDerXZ2c) (AMulti [(Ht, DHt, Ht); (Hp, PhPh, Hp); (Hp, DHp, Ht); (ThPh, Ht, Hp)]
                  [false; false; false; true]) [-1; 1; 1; 1]%R i k
   + cterm E (RZ1, RZ2c, RZ2c) (AMulti [(Hr, ThPh, DHp); (Hr, PhPh, PhPh); (Hr, DHt, DHt)] [true; false; false]) [-2; 1; 1]%R i k
   + cterm E (RZ2c, RZ2c, RZ2c) (AMulti [(DHt, ThPh, DHp); (DHp, ThPh, PhPh)] [true; true]) [-1; -1]%R i k
   + cterm E (RZ1, RZ1, RZ2c) (AMulti [(Hr, Hr, DHt); (Hr, Hr, PhPh)] [false; false]) [1; 1]%R i k
   + (RtoC 1 + RtoC 1) * (rprod E (RDerXZ1, RDerXZ1, RDerXZ1) (1, 2, 3)%nat i * RtoC (aprod E (Hr, Hr, Hr) false (1, 2, 3)%nat k))
   + (RtoC 1 + RtoC 1) * (RtoC 1 + RtoC 1) * (rprod E (RZ1, RZ1, RZ1) (1, 2, 3)%nat i * RtoC (aprod E (Hr, Hr, Hr) false (1, 2, 3)%nat k))
   + (RtoC 1 + RtoC 1) * (rprod E (RZ2c, RZ2c, RZ2c) (1, 2, 3)%nat i * RtoC (aprod E (PhPh, PhPh, PhPh) false (1, 2, 3)%nat k))
   + (RtoC 1 + RtoC 1) * (rprod E (RZ2c, RZ2c, RZ2c) (1, 2, 3)%nat i * RtoC (aprod E (DHt, DHt, DHt) false (1, 2, 3)%nat k))
  = tr3 (code_grad E i k 1) (code_grad E i k 2) (code_grad E i k 3) + tr3 (code_grad E i k 1) (code_grad E i k 3) (code_grad E i k 2))%C.
Proof.
  intros H K. point E i k H K. consts. ring [J].
Qed.
Lemma point_4 E i k (c : R) (g3 : R) :
  let T := fun a b d => match a, b, d with
    | 0%nat, 0%nat, 0%nat => g3
    | 0%nat, 1%nat, 1%nat | 1%nat, 0%nat, 1%nat | 1%nat, 1%nat, 0%nat | 0%nat, 2%nat, 2%nat | 2%nat, 0%nat, 2%nat | 2%nat, 2%nat, 0%nat => c
    | _, _, _ => 0 end in
  (RtoC (e_x E i ^ 3 * c) * (RtoC (1 / 2) * cterm E (RZ1, RZ2c, RZ2c) (AMulti [(Hr, Ht, Ht); (Hr, Hp, Hp)] [false; false]) [1; -1]%R i k)
   + RtoC (e_x E i ^ 3 * g3) * (rprod E (RZ1, RZ1, RZ1) (1, 2, 3)%nat i * RtoC (aprod E (Hr, Hr, Hr) false (1, 2, 3)%nat k))
  = contract3 T (disp_of E one3 i k 1) (disp_of E one3 i k 2) (disp_of E one3 i k 3))%C.
Proof.
  intros T. unfold contract3, sum3, disp_of, disp, one3, T, cterm, rprod, asum, assignments. cbn [fold_right ang_list div_list combine fst snd]. unfold aprod. cbn [over_sin].
  atoms E i k. replace (e_x E i ^ 3) with (e_x E i * e_x E i * e_x E i) by ring.
  rewrite ?RtoC_add, ?RtoC_sub, ?RtoC_mul, ?RtoC_neg. consts. field [J]. exact two_nz.
Qed.
