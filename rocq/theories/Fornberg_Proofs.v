(** * Proofs about the Fornberg finite-difference weights. *)
From Coq Require Import List ZArith Reals Lia Lra Bool.
From Coquelicot Require Import Coquelicot.
From Verif Require Import Base Fornberg_Model Fornberg_Spec.
Import ListNotations.
Local Open Scope R_scope.
Local Open Scope res_scope.

Local Lemma Rmd (r : R) : r - r = 0.
Proof. ring. Qed.

(** ** Polynomial derivatives *)
Fixpoint D (m : nat) (a : list R) (x : R) : R :=
  match a with
  | [] => 0
  | c :: a' => (if Nat.eqb m 0 then c else 0) + x * D m a' x + INR m * D (pred m) a' x
  end.

Lemma D0 a x : D 0 a x = peval a x.
Proof. induction a as [|c a IH]; [reflexivity|]. cbn -[INR]. rewrite <- IH. simpl INR. ring. Qed.

Lemma D_derive a : forall m x, is_derive (D m a) x (D (S m) a x).
Proof.
  induction a as [|c a IH]; intros m x.
  - apply (is_derive_ext (fun _ => 0)); [reflexivity|]. cbn. apply (@is_derive_const R_AbsRing).
  - cbn [D Nat.eqb pred].
    apply (is_derive_ext (fun t => (if Nat.eqb m 0 then c else 0) + (t * D m a t + INR m * D (pred m) a t))).
    { intros t. symmetry. apply Rplus_assoc. }
    replace (0 + x * D (S m) a x + INR (S m) * D m a x)
      with (0 + ((1 * D m a x + x * D (S m) a x) + INR m * D m a x)) by (rewrite S_INR; ring).
    apply (@is_derive_plus R_AbsRing); [apply (@is_derive_const R_AbsRing)|].
    apply (@is_derive_plus R_AbsRing).
    + apply (is_derive_mult (fun t => t) (D m a)); [apply (@is_derive_id R_AbsRing)|apply IH|apply Rmult_comm].
    + destruct m as [|m].
      * apply (is_derive_ext (fun _ => 0)); [intros t; simpl; ring|].
        simpl INR. rewrite Rmult_0_l. apply (@is_derive_const R_AbsRing).
      * cbn [pred]. apply is_derive_scal. apply IH.
Qed.

Lemma D_Derive_n a : forall m x, D m a x = Derive_n (peval a) m x.
Proof.
  induction m as [|m IH]; intros x; [apply D0|].
  cbn [Derive_n]. symmetry. apply is_derive_unique.
  apply (is_derive_ext (D m a)); [exact IH|]. apply D_derive.
Qed.

Fixpoint padd (a b : list R) : list R :=
  match a, b with
  | [], _ => b
  | _, [] => a
  | c :: a', d :: b' => (c + d) :: padd a' b'
  end.
Definition pscale (k : R) (a : list R) := map (fun c => k * c) a.
Definition pmulx (r : R) (q : list R) := padd (0 :: q) (pscale (- r) q).

Lemma D_padd a : forall b m x, D m (padd a b) x = D m a x + D m b x.
Proof.
  induction a as [|c a IH]; intros [|d b] m x; cbn [padd D]; try ring.
  rewrite !IH. destruct (Nat.eqb m 0); ring.
Qed.
Lemma D_pscale k a : forall m x, D m (pscale k a) x = k * D m a x.
Proof.
  induction a as [|c a IH]; intros m x; cbn [pscale map D]; try ring.
  fold (pscale k a). rewrite !IH. destruct (Nat.eqb m 0); ring.
Qed.
Lemma D_pmulx r q m x : D m (pmulx r q) x = (x - r) * D m q x + INR m * D (pred m) q x.
Proof.
  unfold pmulx. rewrite D_padd, D_pscale. cbn [D]. destruct (Nat.eqb m 0); ring.
Qed.
Lemma peval_pmulx r q x : peval (pmulx r q) x = (x - r) * peval q x.
Proof. rewrite <- !D0, D_pmulx. simpl INR. ring. Qed.
Lemma peval_padd a b x : peval (padd a b) x = peval a x + peval b x.
Proof. rewrite <- !D0. apply D_padd. Qed.
Lemma padd_length a : forall b, length (padd a b) = Nat.max (length a) (length b).
Proof. induction a as [|c a IH]; intros [|d b]; cbn; auto. Qed.
Lemma pmulx_length r q : length (pmulx r q) = S (length q).
Proof. unfold pmulx. rewrite padd_length. unfold pscale. rewrite map_length. cbn [length]. lia. Qed.

(** synthetic division *)
Fixpoint quo (r : R) (p : list R) : list R :=
  match p with
  | [] => []
  | _ :: p' => match p' with [] => [] | _ => peval p' r :: quo r p' end
  end.
Lemma quo_length r p : length (quo r p) = pred (length p).
Proof.
  induction p as [|c [|d p] IH]; [reflexivity|reflexivity|].
  change (quo r (c :: d :: p)) with (peval (d :: p) r :: quo r (d :: p)).
  cbn [length]. rewrite IH. reflexivity.
Qed.
Lemma quo_spec r p : forall m x, D m p x = D m [peval p r] x + D m (pmulx r (quo r p)) x.
Proof.
  induction p as [|c [|d p] IH]; intros m x.
  - cbn [peval quo]. rewrite D_pmulx. cbn [D]. destruct (Nat.eqb m 0); ring.
  - cbn [peval quo]. rewrite D_pmulx. cbn [D]. destruct (Nat.eqb m 0); ring.
  - change (quo r (c :: d :: p)) with (peval (d :: p) r :: quo r (d :: p)).
    change (peval (c :: d :: p) r) with (c + r * peval (d :: p) r).
    change (D m (c :: d :: p) x) with ((if Nat.eqb m 0 then c else 0) + x * D m (d :: p) x + INR m * D (pred m) (d :: p) x).
    rewrite !IH. rewrite !D_pmulx. set (v := peval (d :: p) r). set (q := quo r (d :: p)).
    cbn [D]. rewrite ?D_pmulx. destruct m as [|[|m]]; cbn [Nat.eqb pred]; rewrite ?S_INR; simpl INR; ring.
Qed.

(** ** The recurrence *)
Section Rec.
Variable x : nat -> R.
Variable x0 : R.

Fixpoint prodto (r : R) (k : nat) : R :=   (* prod_{j<k} (r - x j) *)
  match k with O => 1 | S k' => prodto r k' * (r - x k') end.
Definition cc (n : nat) : R := prodto (x n) n.

Fixpoint F (n m nu : nat) : R :=
  match n with
  | O => if Nat.eqb m 0 && Nat.eqb nu 0 then 1 else 0
  | S n' =>
    if Nat.leb nu n' then
      1 / (x n - x nu) * ((x n - x0) * F n' m nu - INR m * F n' (pred m) nu)
    else if Nat.eqb nu n then
      cc n' / cc n * (INR m * F n' (pred m) n' - (x n' - x0) * F n' m n')
    else 0
  end.

Lemma F_high n : forall m nu, (n < m)%nat -> F n m nu = 0.
Proof.
  induction n as [|n IH]; intros m nu H; cbn [F].
  - destruct m; [lia|]. reflexivity.
  - destruct (Nat.leb nu n).
    + rewrite !IH by lia. ring.
    + destruct (Nat.eqb nu (S n)); [|reflexivity]. rewrite !IH by lia. ring.
Qed.

Fixpoint omega (k : nat) : list R :=
  match k with O => [1] | S k' => pmulx (x k') (omega k') end.
Lemma omega_length k : length (omega k) = S k.
Proof. induction k; cbn [omega]; [reflexivity|]. rewrite pmulx_length. lia. Qed.
Lemma omega_eval k r : peval (omega k) r = prodto r k.
Proof. induction k as [|k IH]; cbn [omega prodto]; [cbn; ring|]. rewrite peval_pmulx, IH. ring. Qed.
Lemma prodto_zero k j : (j < k)%nat -> prodto (x j) k = 0.
Proof.
  induction k as [|k IH]; intros H; [lia|]. cbn [prodto].
  destruct (Nat.eq_dec j k) as [->|Hn]; [rewrite Rmd; ring|]. rewrite IH by lia. ring.
Qed.
Lemma prodto_nz k r : (forall j, (j < k)%nat -> r <> x j) -> prodto r k <> 0.
Proof.
  induction k as [|k IH]; intros H; cbn [prodto]; [lra|].
  apply Rmult_integral_contrapositive. split; [apply IH; intros; apply H; lia|].
  assert (r <> x k) by (apply H; lia). lra.
Qed.

Definition distinct_to (n : nat) := forall i j, (i <= n)%nat -> (j <= n)%nat -> i <> j -> x i <> x j.

Lemma cc_nz n : distinct_to n -> cc n <> 0.
Proof. intros H. apply prodto_nz. intros j Hj. apply H; lia. Qed.

Lemma F_last n : forall m, distinct_to n -> F n m n = D m (omega n) x0 / cc n.
Proof.
  induction n as [|n IH]; intros m Hd.
  - cbn [F omega]. unfold cc. cbn [prodto]. replace (D m [1] x0 / 1) with (D m [1] x0) by field. cbn [Nat.eqb]. rewrite andb_true_r.
    cbn [D]. destruct (Nat.eqb m 0); ring.
  - assert (Hd' : distinct_to n) by (intros i j ? ? ?; apply Hd; lia).
    cbn [F]. destruct (Nat.leb_spec (S n) n); [lia|]. rewrite Nat.eqb_refl.
    rewrite !IH by exact Hd'. cbn [omega]. rewrite D_pmulx.
    field. split; apply cc_nz; assumption.
Qed.

Fixpoint rsum (k : nat) (f : nat -> R) : R :=
  match k with O => 0 | S k' => rsum k' f + f k' end.
Lemma rsum_ext k f g : (forall j, (j < k)%nat -> f j = g j) -> rsum k f = rsum k g.
Proof. induction k as [|k IH]; intros H; cbn; [reflexivity|]. rewrite IH, H by (try (intros; apply H); lia). reflexivity. Qed.
Lemma rsum_lin k f g a b : rsum k (fun j => a * f j + b * g j) = a * rsum k f + b * rsum k g.
Proof. induction k as [|k IH]; cbn; [ring|]. rewrite IH. ring. Qed.
Lemma rsum_0 k f : (forall j, (j < k)%nat -> f j = 0) -> rsum k f = 0.
Proof. induction k as [|k IH]; intros H; cbn; [reflexivity|]. rewrite IH, H by (try (intros; apply H); lia). ring. Qed.

Definition Sg (n m : nat) (p : list R) : R := rsum (S n) (fun nu => F n m nu * peval p (x nu)).

Lemma Sg_lin n m p q r a b : (forall t, peval p t = a * peval q t + b * peval r t) ->
  Sg n m p = a * Sg n m q + b * Sg n m r.
Proof.
  intros H. unfold Sg. rewrite <- rsum_lin. apply rsum_ext. intros j _. rewrite H. ring.
Qed.

Lemma Sg_shift n m q : distinct_to (S n) ->
  Sg (S n) m (pmulx (x (S n)) q) = (x0 - x (S n)) * Sg n m q + INR m * Sg n (pred m) q.
Proof.
  intros Hd. unfold Sg at 1. cbn [rsum].
  rewrite (peval_pmulx (x (S n)) q (x (S n))). rewrite Rmd, Rmult_0_l, Rmult_0_r, Rplus_0_r.
  unfold Sg. rewrite <- rsum_lin.
  change (rsum n (fun nu => F (S n) m nu * peval (pmulx (x (S n)) q) (x nu)) +
    F (S n) m n * peval (pmulx (x (S n)) q) (x n)) with (rsum (S n) (fun nu => F (S n) m nu * peval (pmulx (x (S n)) q) (x nu))).
  apply rsum_ext. intros j Hj. rewrite peval_pmulx. cbn [F].
  destruct (Nat.leb_spec j n); [|lia].
  assert (x (S n) <> x j) by (apply Hd; lia).
  field. lra.
Qed.

Theorem Sg_exact n : forall m p, distinct_to n -> (length p <= S n)%nat -> Sg n m p = D m p x0.
Proof.
  induction n as [|n IH]; intros m p Hd Hl.
  - destruct p as [|c [|d p]]; [| |cbn in Hl; lia]; unfold Sg; cbn [rsum F peval D Nat.eqb];
      rewrite ?andb_true_r; destruct (Nat.eqb m 0); ring.
  - assert (Hd' : distinct_to n) by (intros i j ? ? ?; apply Hd; lia).
    assert (Hq : forall m q, (length q <= S n)%nat -> Sg (S n) m (pmulx (x (S n)) q) = D m (pmulx (x (S n)) q) x0).
    { intros m' q Hlq. rewrite Sg_shift by exact Hd. rewrite !IH by assumption. rewrite D_pmulx. ring. }
    assert (Hdiv : forall m p, (length p <= S (S n))%nat ->
      Sg (S n) m p - D m p x0 = peval p (x (S n)) * (Sg (S n) m [1] - D m [1] x0)).
    { intros m' p' Hl'.
      assert (E := quo_spec (x (S n)) p').
      rewrite (Sg_lin _ _ p' [1] (pmulx (x (S n)) (quo (x (S n)) p')) (peval p' (x (S n))) 1).
      - rewrite Hq by (rewrite quo_length; lia). rewrite (E m' x0).
        cbn [D]. destruct (Nat.eqb m' 0); ring.
      - intros t. specialize (E O t). rewrite !D0 in E. rewrite E. cbn [peval]. ring. }
    assert (Hw : Sg (S n) m (omega (S n)) = D m (omega (S n)) x0).
    { unfold Sg. cbn [rsum]. rewrite rsum_0, (omega_eval (S n) (x n)), prodto_zero, (omega_eval (S n) (x (S n))) by
        (try lia; intros j Hj; rewrite omega_eval, prodto_zero by lia; ring).
      rewrite F_last by exact Hd. fold (cc (S n)). field. apply cc_nz; exact Hd. }
    assert (H1 : Sg (S n) m [1] - D m [1] x0 = 0).
    { assert (E := Hdiv m (omega (S n)) ltac:(rewrite omega_length; lia)).
      rewrite Hw, Rmd in E. rewrite omega_eval in E. fold (cc (S n)) in E.
      symmetry in E. apply Rmult_integral in E. destruct E as [E|E]; [|exact E].
      exfalso. exact (cc_nz _ Hd E). }
    assert (E := Hdiv m p Hl). rewrite H1, Rmult_0_r in E. lra.
Qed.
End Rec.

(** ** Array accesses *)
Section Acc.
Context {num : Type} (A : arith num).

Lemma w_in_true i j k : (1 <= i <= 8)%Z -> (1 <= j <= 20)%Z -> (1 <= k <= 20)%Z -> w_in i j k = true.
Proof.
  intros. unfold w_in, mmax, nmax.
  repeat (apply andb_true_intro; split); apply Z.leb_le; lia.
Qed.
Lemma wget_ok (w : wtab) i j k : (1 <= i <= 8)%Z -> (1 <= j <= 20)%Z -> (1 <= k <= 20)%Z ->
  wget (num:=num) w i j k = Ok (w i j k).
Proof. intros. unfold wget. rewrite w_in_true by assumption. reflexivity. Qed.
Definition wput (w : wtab) (i j k : Z) (x : num) : wtab :=
  fun a b c => if (a =? i)%Z && (b =? j)%Z && (c =? k)%Z then x else w a b c.
Lemma wset_ok (w : wtab) i j k (x : num) : (1 <= i <= 8)%Z -> (1 <= j <= 20)%Z -> (1 <= k <= 20)%Z ->
  wset w i j k x = Ok (wput w i j k x).
Proof. intros. unfold wset. rewrite w_in_true by assumption. reflexivity. Qed.
Lemma wput_eq w i j k x : wput w i j k x i j k = x.
Proof. unfold wput. rewrite !Z.eqb_refl. reflexivity. Qed.
Lemma wput_ne w i j k x a b c : (a <> i \/ b <> j \/ c <> k)%Z -> wput w i j k x a b c = w a b c.
Proof.
  unfold wput. intros H. destruct (Z.eqb_spec a i), (Z.eqb_spec b j), (Z.eqb_spec c k); cbn; try reflexivity.
  exfalso. lia.
Qed.
Lemma wget_noexc (w : wtab) i j k e : wget (num:=num) w i j k <> Exc e.
Proof. unfold wget. destruct (w_in i j k); discriminate. Qed.
Lemma wset_noexc (w : wtab) i j k (x : num) e : wset w i j k x <> Exc e.
Proof. unfold wset. destruct (w_in i j k); discriminate. Qed.

Ltac noexc := repeat (first
  [ apply bind_noexc; intros | apply wget_noexc | apply wset_noexc | apply for_noexc; intros
  | discriminate | assumption | solve [auto] ]).

Lemma nu_body_noexc g x0 nm nn nu st e : (forall k e, g k <> Exc e) -> nu_body A g x0 nm nn nu st <> Exc e.
Proof. intros Hg. destruct st as [w c2]. unfold nu_body. noexc. Qed.
Lemma nn_body_noexc g x0 nm nn st e : (forall k e, g k <> Exc e) -> nn_body A g x0 nm nn st <> Exc e.
Proof.
  intros Hg. destruct st as [w c1]. unfold nn_body. apply bind_noexc.
  - intros e'. apply for_noexc. intros. apply nu_body_noexc, Hg.
  - intros [w' c2] e'. noexc.
Qed.
Lemma fdcoef_noexc mord nord x0 g e : (forall k e, g k <> Exc e) -> fdcoef A mord nord x0 g <> Exc e.
Proof.
  intros Hg. unfold fdcoef. apply bind_noexc; [intros; apply wset_noexc|]. intros w0 e0.
  apply bind_noexc; [intros e1; apply for_noexc; intros; apply nn_body_noexc, Hg|].
  intros [w c] e1. apply for_noexc. intros. apply bind_noexc; [intros; apply wget_noexc|].
  intros. destruct (_ <=? _)%Z; discriminate.
Qed.

(** Faults of fdcoef. *)
Lemma fdcoef_ub_mord mord nord x0 g : (forall k e, g k <> Exc e) -> (1 <= nord)%Z ->
  (mord < 1 \/ 8 < mord \/ 20 < nord)%Z -> fdcoef A mord nord x0 g = UB.
Proof.
  intros Hg Hn H. unfold fdcoef. rewrite wset_ok by lia. cbn [bind].
  destruct (for_ 2 (nord + 1) _ _) as [[w c]| |e] eqn:E; cbn [bind]; [|reflexivity|].
  - apply (for_ub 1 (nord + 1) 1); [lia| |].
    + intros s. assert (Hw : w_in mord nord 1 = false).
      { unfold w_in, mmax, nmax.
        destruct (Z.leb_spec 1 mord), (Z.leb_spec mord 8), (Z.leb_spec 1 nord), (Z.leb_spec nord 20); cbn; try reflexivity; lia. }
      unfold wget. rewrite Hw. reflexivity.
    + intros j s e. apply bind_noexc; [intros; apply wget_noexc|]. intros. destruct (_ <=? _)%Z; discriminate.
  - exfalso. revert E. apply for_noexc. intros. apply nn_body_noexc, Hg.
Qed.
Lemma fdcoef_ub_grid mord nord x0 g : (forall k e, g k <> Exc e) -> (2 <= nord)%Z ->
  g nord = UB -> fdcoef A mord nord x0 g = UB.
Proof.
  intros Hg Hn H. unfold fdcoef. rewrite wset_ok by lia. cbn [bind].
  rewrite (for_ub 2 (nord + 1) nord); [reflexivity|lia| |intros; apply nn_body_noexc, Hg].
  intros [w c1]. unfold nn_body. rewrite (for_ub 1 nord 1); [reflexivity|lia| |intros; apply nu_body_noexc, Hg].
  intros [w' c2]. unfold nu_body. rewrite H. reflexivity.
Qed.

(** Success of fdcoef in any arithmetic. *)
Lemma fdcoef_total mord nord x0 g : (1 <= mord <= 8)%Z -> (1 <= nord <= 20)%Z ->
  (forall k, (1 <= k <= nord)%Z -> exists v, g k = Ok v) ->
  exists cs, fdcoef A mord nord x0 g = Ok cs /\ List.length cs = Z.to_nat nord.
Proof.
  intros Hm Hn Hg. unfold fdcoef. rewrite wset_ok by lia. cbn [bind].
  destruct (for_inv (fun _ (_ : wtab * num) => True) 2 (nord + 1)
      (fun nn st => nn_body A g x0 (Z.min nord mord) nn st) (wput (fun _ _ _ => nofZ A 0) 1 1 1 (nofZ A 1), nofZ A 1))
    as ([w c] & E & _); [lia|exact I| |].
  - intros nn [w c1] Hnn _. unfold nn_body.
    destruct (for_inv (fun _ (_ : wtab * num) => True) 1 nn
       (fun nu st => nu_body A g x0 (Z.min nord mord) nn nu st) (w, nofZ A 1)) as ([w' c2] & E' & _); [lia|exact I| |].
    + intros nu [w1 c2] Hnu _. unfold nu_body.
      destruct (Hg nn ltac:(lia)) as (v1 & ->). destruct (Hg nu ltac:(lia)) as (v2 & ->). cbn [bind].
      rewrite wget_ok by lia. cbn [bind]. rewrite wset_ok by lia. cbn [bind].
      destruct (for_inv (fun _ (_ : wtab) => True) 2 (Z.min nord mord + 1)
        (fun mm w => a <- wget w mm (nn - 1) nu ; b <- wget w (mm - 1) (nn - 1) nu ;
           wset w mm nn nu (nmul A (ndiv A (nofZ A 1) (nsub A v1 v2)) (nsub A (nmul A (nsub A v1 x0) a) (nmul A (nofZ A (mm - 1)) b))))
        (wput w1 1 nn nu (nmul A (ndiv A (nofZ A 1) (nsub A v1 v2)) (nmul A (nsub A v1 x0) (w1 1%Z (nn - 1)%Z nu))))) as (w2 & E2 & _); [lia|exact I| |].
      * intros mm w2 Hmm _. rewrite !wget_ok by lia. cbn [bind]. rewrite wset_ok by lia. eexists. split; [reflexivity|exact I].
      * rewrite E2. cbn [bind]. eexists. split; [reflexivity|exact I].
    + rewrite E'. cbn [bind]. destruct (Hg (nn - 1)%Z ltac:(lia)) as (v & ->). cbn [bind].
      rewrite wget_ok by lia. cbn [bind]. rewrite wset_ok by lia. cbn [bind].
      match goal with |- context [for_ ?lo ?hi ?b ?s] =>
        destruct (for_inv (fun _ (_ : wtab) => True) lo hi b s) as (w2 & E2 & _); [lia|exact I| |] end.
      * intros mm w2 Hmm _. rewrite !wget_ok by lia. cbn [bind]. rewrite wset_ok by lia. eexists. split; [reflexivity|exact I].
      * rewrite E2. cbn [bind]. eexists. split; [reflexivity|exact I].
  - rewrite E. cbn [bind].
    match goal with |- context [for_ ?lo ?hi ?b ?s] =>
      destruct (for_inv (fun i (l : list num) => List.length l = Z.to_nat (i - 1)) lo hi b s) as (cs & E2 & Hl); [lia|reflexivity| |] end.
    + intros nu cs Hnu Hl. rewrite wget_ok by lia. cbn [bind].
      unfold iaccuracy_max. destruct (Z.leb_spec nu 20); [|lia].
      eexists. split; [reflexivity|]. rewrite app_length, Hl. cbn [List.length]. lia.
    + exists cs. split; [exact E2|]. rewrite Hl. f_equal. lia.
Qed.
End Acc.

(** ** Refinement of the recurrence, exact arithmetic *)
Lemma nofZ_RA z : nofZ RA z = IZR z.
Proof. unfold nofZ. cbn [RA nofQ]. field. Qed.

Section Refine.
Variable xs : nat -> R.
Variable x0 : R.
Variables mord nord : Z.
Hypothesis Hm : (1 <= mord <= 8)%Z.
Hypothesis Hn : (1 <= nord <= 20)%Z.
Variable g : Z -> res R.
Hypothesis Hg : forall k, (1 <= k <= nord)%Z -> g k = Ok (xs (Z.to_nat (k - 1))).
Let nm := Z.min nord mord.
Local Notation N z := (Z.to_nat z).
Local Notation "[[ w ]]" := w (only parsing).

Definition FZ (k mm nu : Z) : R := F xs x0 (N (k - 1)) (N (mm - 1)) (N (nu - 1)).
Definition zero_high (w : wtab) := forall mm k nu, (nm < mm)%Z -> w mm k nu = 0.
Definition lev_ok (w : wtab) (k hi : Z) := forall mm nu, (1 <= mm <= nm)%Z -> (1 <= nu <= hi)%Z -> w mm k nu = FZ k mm nu.

Lemma FZ_lt nn mm nu : (2 <= nn)%Z -> (1 <= mm)%Z -> (1 <= nu < nn)%Z ->
  FZ nn mm nu = 1 / (xs (N (nn - 1)) - xs (N (nu - 1))) *
     ((xs (N (nn - 1)) - x0) * FZ (nn - 1) mm nu - IZR (mm - 1) * FZ (nn - 1) (mm - 1) nu).
Proof.
  intros H1 Hmm H2. unfold FZ.
  replace (N (nn - 1)) with (S (N (nn - 1 - 1))) by lia.
  replace (IZR (mm - 1)) with (INR (N (mm - 1))) by (rewrite INR_IZR_INZ; f_equal; lia).
  replace (N (mm - 1 - 1)) with (pred (N (mm - 1))) by lia.
  cbn [F]. destruct (Nat.leb_spec (N (nu - 1)) (N (nn - 1 - 1))); [reflexivity|lia].
Qed.
Lemma FZ_eq nn mm : (2 <= nn)%Z -> (1 <= mm)%Z ->
  FZ nn mm nn = cc xs (N (nn - 2)) / cc xs (N (nn - 1)) *
     (IZR (mm - 1) * FZ (nn - 1) (mm - 1) (nn - 1) - (xs (N (nn - 2)) - x0) * FZ (nn - 1) mm (nn - 1)).
Proof.
  intros H1 Hmm. unfold FZ.
  replace (N (nn - 1)) with (S (N (nn - 1 - 1))) by lia.
  replace (IZR (mm - 1)) with (INR (N (mm - 1))) by (rewrite INR_IZR_INZ; f_equal; lia).
  replace (N (mm - 1 - 1)) with (pred (N (mm - 1))) by lia.
  replace (N (nn - 2)) with (N (nn - 1 - 1)) by lia.
  cbn [F]. destruct (Nat.leb_spec (S (N (nn - 1 - 1))) (N (nn - 1 - 1))); [lia|].
  rewrite Nat.eqb_refl. reflexivity.
Qed.

Definition nuP (nn nu : Z) (st : wtab * R) : Prop :=
  snd st = prodto xs (xs (N (nn - 1))) (N (nu - 1)) /\
  lev_ok (fst st) (nn - 1) (nn - 1) /\ lev_ok (fst st) nn (nu - 1) /\ zero_high (fst st).

Lemma nu_step nn nu st : (2 <= nn <= nord)%Z -> (1 <= nu < nn)%Z -> nuP nn nu st ->
  exists st', nu_body RA g x0 nm nn nu st = Ok st' /\ nuP nn (nu + 1) st'.
Proof.
  intros Hnn Hnu. destruct st as [w c2]. intros (Hc & Hl1 & Hl2 & Hz). cbn [fst snd] in *.
  unfold nu_body. rewrite !Hg by lia. cbn [bind].
  rewrite wget_ok by lia. cbn [bind]. rewrite wset_ok by lia. cbn [bind].
  cbn [RA nadd nsub nmul ndiv nopp]. rewrite !nofZ_RA.
  match goal with |- context [for_ ?lo ?hi ?b ?s] =>
    destruct (for_inv (fun mm (w' : wtab) => lev_ok w' (nn - 1) (nn - 1) /\ lev_ok w' nn (nu - 1) /\ zero_high w' /\
        forall m', (1 <= m' < mm)%Z -> w' m' nn nu = FZ nn m' nu) lo hi b s) as (w2 & E2 & Hw2 & Hw3 & Hw4 & Hw5) end.
  - lia.
  - repeat split.
    + intros mm nu' H1 H2. rewrite wput_ne by lia. apply Hl1; lia.
    + intros mm nu' H1 H2. rewrite wput_ne by lia. apply Hl2; lia.
    + intros mm k nu' H1. rewrite wput_ne by lia. apply Hz; lia.
    + intros m' H1. replace m' with 1%Z by lia. rewrite wput_eq, FZ_lt by lia.
      rewrite (Hl1 1%Z nu) by lia. change (1 - 1)%Z with 0%Z. ring.
  - intros mm w' Hmm (H1 & H2 & H3 & H4).
    rewrite !wget_ok by lia. cbn [bind]. rewrite wset_ok by lia. eexists. split; [reflexivity|].
    repeat split.
    + intros m' nu' ? ?. rewrite wput_ne by lia. apply H1; lia.
    + intros m' nu' ? ?. rewrite wput_ne by lia. apply H2; lia.
    + intros m' k nu' ?. rewrite wput_ne by lia. apply H3; lia.
    + intros m' Hm'. destruct (Z.eq_dec m' mm) as [->|Hne].
      * rewrite wput_eq, FZ_lt by lia. rewrite (H1 mm nu), (H1 (mm - 1)%Z nu) by lia. rewrite nofZ_RA. reflexivity.
      * rewrite wput_ne by lia. apply H4; lia.
  - rewrite E2. cbn [bind]. eexists. split; [reflexivity|]. repeat split; cbn [fst snd].
    + replace (N (nu + 1 - 1)) with (S (N (nu - 1))) by lia. cbn [prodto]. rewrite Hc. reflexivity.
    + exact Hw2.
    + intros m' nu' ? ?. destruct (Z.eq_dec nu' nu) as [->|]; [apply Hw5; lia|apply Hw3; lia].
    + exact Hw4.
Qed.

Definition nnP (nn : Z) (st : wtab * R) : Prop :=
  snd st = cc xs (N (nn - 2)) /\ lev_ok (fst st) (nn - 1) (nn - 1) /\ zero_high (fst st).

Lemma nn_step nn st : (2 <= nn <= nord)%Z -> nnP nn st -> zero_high (fst st) ->
  exists st', nn_body RA g x0 nm nn st = Ok st' /\ nnP (nn + 1) st'.
Proof.
  intros Hnn. destruct st as [w c1]. intros (Hc & Hl & Hz) _. cbn [fst snd] in *.
  unfold nn_body.
  destruct (for_inv (nuP nn) 1 nn (fun nu st => nu_body RA g x0 nm nn nu st) (w, nofZ RA 1)) as ([w' c2] & E & Hc2 & Hl1 & Hl2 & Hz2).
  - lia.
  - repeat split; cbn [fst snd]; [rewrite nofZ_RA; reflexivity|exact Hl|intros ? ? ? ?; lia|exact Hz].
  - intros j s Hj HP. apply nu_step; [lia|lia|exact HP].
  - rewrite E. cbn [bind fst snd] in *. rewrite Hg by lia. cbn [bind].
    rewrite wget_ok by lia. cbn [bind]. rewrite wset_ok by lia. cbn [bind].
    replace (N (nn - 1 - 1)) with (N (nn - 2)) by lia.
    cbn [RA nadd nsub nmul ndiv nopp].
    match goal with |- context [for_ ?lo ?hi ?b ?s] =>
      destruct (for_inv (fun mm (w' : wtab) => lev_ok w' (nn - 1) (nn - 1) /\ lev_ok w' nn (nn - 1) /\ zero_high w' /\
        forall m', (1 <= m' < mm)%Z -> w' m' nn nn = FZ nn m' nn) lo hi b s) as (w2 & E2 & Hw2 & Hw3 & Hw4 & Hw5) end.
    + lia.
    + repeat split.
      * intros mm nu' H1 H2. rewrite wput_ne by lia. apply Hl1; lia.
      * intros mm nu' H1 H2. rewrite wput_ne by lia. apply Hl2; lia.
      * intros mm k nu' H1. rewrite wput_ne by lia. apply Hz2; lia.
      * intros m' H1. replace m' with 1%Z by lia. rewrite wput_eq, FZ_eq by lia.
        rewrite (Hl1 1%Z (nn - 1)%Z) by lia. change (1 - 1)%Z with 0%Z. rewrite Hc, Hc2. fold (cc xs (N (nn - 1))).
        unfold Rdiv. ring.
    + intros mm w3 Hmm (H1 & H2 & H3 & H4).
      rewrite !wget_ok by lia. cbn [bind]. rewrite wset_ok by lia. eexists. split; [reflexivity|].
      repeat split.
      * intros m' nu' ? ?. rewrite wput_ne by lia. apply H1; lia.
      * intros m' nu' ? ?. rewrite wput_ne by lia. apply H2; lia.
      * intros m' k nu' ?. rewrite wput_ne by lia. apply H3; lia.
      * intros m' Hm'. destruct (Z.eq_dec m' mm) as [->|Hne].
        -- rewrite wput_eq, FZ_eq by lia. rewrite (H1 mm (nn - 1)%Z), (H1 (mm - 1)%Z (nn - 1)%Z) by lia.
           rewrite nofZ_RA, Hc, Hc2. reflexivity.
        -- rewrite wput_ne by lia. apply H4; lia.
    + rewrite E2. cbn [bind]. eexists. split; [reflexivity|]. repeat split; cbn [fst snd].
      * replace (N (nn + 1 - 2)) with (N (nn - 1)) by lia. rewrite Hc2. reflexivity.
      * replace (nn + 1 - 1)%Z with nn by lia. intros m' nu' ? ?.
        destruct (Z.eq_dec nu' nn) as [->|]; [apply Hw5; lia|apply Hw3; lia].
      * exact Hw4.
Qed.

Lemma fdcoef_F :
  fdcoef RA mord nord x0 g =
    Ok (map (fun j => F xs x0 (N (nord - 1)) (N (mord - 1)) j) (seq 0 (N nord))).
Proof.
  unfold fdcoef. rewrite wset_ok by lia. cbn [bind]. fold nm.
  destruct (for_inv nnP 2 (nord + 1) (fun nn st => nn_body RA g x0 nm nn st)
     (wput (fun _ _ _ => nofZ RA 0) 1 1 1 (nofZ RA 1), nofZ RA 1)) as ([w c] & E & Hc & Hl & Hz).
  - lia.
  - repeat split; cbn [fst snd].
    + rewrite nofZ_RA. reflexivity.
    + intros mm nu H1 H2. change (2 - 1)%Z with 1%Z in *. replace nu with 1%Z in * by lia.
      unfold FZ. cbn [F]. change (N (1 - 1)) with O. cbn [F]. rewrite Nat.eqb_refl, andb_true_r.
      destruct (Z.eq_dec mm 1) as [->|Hne].
      * rewrite wput_eq, nofZ_RA. reflexivity.
      * rewrite wput_ne by lia. destruct (Nat.eqb_spec (N (mm - 1)) 0); [lia|]. apply nofZ_RA.
    + intros mm k nu H. rewrite wput_ne by lia. apply nofZ_RA.
  - intros j s Hj HP. apply nn_step; [lia|exact HP|apply HP].
  - rewrite E. cbn [bind fst snd] in *.
    match goal with |- for_ ?lo ?hi ?b ?s = _ =>
      destruct (for_inv (fun i l => l = map (fun j => F xs x0 (N (nord - 1)) (N (mord - 1)) j) (seq 0 (N (i - 1)))) lo hi b s) as (cs & E2 & Hcs) end.
    + lia.
    + reflexivity.
    + intros nu cs Hnu ->. rewrite wget_ok by lia. cbn [bind].
      unfold iaccuracy_max. destruct (Z.leb_spec nu 20); [|lia]. eexists. split; [reflexivity|].
      replace (N (nu + 1 - 1)) with (S (N (nu - 1))) by lia.
      rewrite seq_S, map_app. f_equal. cbn [map]. f_equal. rewrite Nat.add_0_l.
      replace (nord + 1 - 1)%Z with nord in * by lia.
      destruct (Z_le_dec mord nord) as [Hle|Hgt].
      * rewrite Hl by lia. reflexivity.
      * rewrite Hz by lia. symmetry. apply F_high. lia.
    + rewrite E2, Hcs. replace (nord + 1 - 1)%Z with nord by lia. reflexivity.
Qed.
End Refine.

Lemma apply_weights_rsum p : forall n f nodes off, (off + n = length nodes)%nat ->
  apply_weights (map f (seq off n)) p (skipn off nodes) = rsum n (fun j => f (off + j)%nat * p (nth (off + j) nodes 0)).
Proof.
  induction n as [|n IH]; intros f nodes off Hl; [reflexivity|].
  assert (Hs : skipn off nodes = nth off nodes 0 :: skipn (S off) nodes).
  { clear -Hl. revert off Hl. induction nodes as [|a l IHl]; intros [|off] Hl; cbn in *; try lia; [reflexivity|].
    apply IHl. lia. }
  cbn [seq map]. rewrite Hs. cbn [apply_weights]. rewrite IH by lia.
  clear. replace (f off * p (nth off nodes 0)) with (f (off + 0)%nat * p (nth (off + 0) nodes 0)) by (rewrite Nat.add_0_r; reflexivity).
  induction n as [|n IH]; [cbn; ring|].
  cbn [rsum] in *. rewrite <- IH. replace (S off + n)%nat with (off + S n)%nat by lia. ring.
Qed.

Lemma weights_exact nodes k x0 : NoDup nodes -> (1 <= length nodes <= 20)%nat -> (k <= 7)%nat ->
  exists w, fdcoef RA (Z.of_nat k + 1) (Z.of_nat (length nodes)) x0 (fun i => rd nodes (i - 1)) = Ok w /\
    length w = length nodes /\
    forall a, (length a <= length nodes)%nat -> apply_weights w (peval a) nodes = Derive_n (peval a) k x0.
Proof.
  intros Hd Hl Hk. set (xs := fun j => nth j nodes 0).
  eexists. split.
  - apply (fdcoef_F xs); [lia|lia|]. intros i Hi. apply (rd_ok nodes (i - 1) 0). lia.
  - split; [rewrite map_length, seq_length; lia|]. intros a Ha.
    rewrite Nat2Z.id.
    assert (E := apply_weights_rsum (peval a) (length nodes) (fun j => F xs x0 (Z.to_nat (Z.of_nat (length nodes) - 1)) (Z.to_nat (Z.of_nat k + 1 - 1)) j) nodes 0 eq_refl).
    change (skipn 0 nodes) with nodes in E. etransitivity; [exact E|]. clear E.
    rewrite <- D_Derive_n. rewrite <- (Sg_exact xs x0 (length nodes - 1) k a).
    + unfold Sg. replace (S (length nodes - 1)) with (length nodes) by lia. apply rsum_ext. intros j Hj.
      replace (Z.to_nat (Z.of_nat (length nodes) - 1)) with (length nodes - 1)%nat by lia.
      replace (Z.to_nat (Z.of_nat k + 1 - 1)) with k by lia. reflexivity.
    + intros i j Hi Hj Hij E. apply Hij. eapply (proj1 (NoDup_nth nodes 0)); try exact E; try assumption; lia.
    + lia.
Qed.

(** ** dot products and windows *)
Lemma dot_weights cs u off n : length cs = n -> (off + n <= length u)%nat ->
  dot RA cs u (Z.of_nat off) = Ok (rsum n (fun j => nth j cs 0 * nth (off + j) u 0)).
Proof.
  intros Hl Hu. unfold dot.
  destruct (for_inv (fun i s => s = rsum (Z.to_nat i) (fun j => nth j cs 0 * nth (off + j) u 0)) 0 (Z.of_nat (length cs))
     (fun j s => c <- rd cs j ; x <- rd u (Z.of_nat off + j) ; Ok (nadd RA s (nmul RA c x))) (nofZ RA 0)) as (s & E & ->).
  - lia.
  - rewrite nofZ_RA. reflexivity.
  - intros j s Hj ->. rewrite (rd_ok cs j 0), (rd_ok u (Z.of_nat off + j) 0) by lia. cbn [bind].
    eexists. split; [reflexivity|]. replace (Z.to_nat (j + 1)) with (S (Z.to_nat j)) by lia. cbn [rsum RA nadd nmul].
    do 3 f_equal. lia.
  - rewrite E. rewrite Nat2Z.id, Hl. reflexivity.
Qed.

Lemma point_exact k acc grid a i base :
  NoDup grid -> (k <= 7)%nat -> (acc <= 19)%nat -> (length a <= acc + 1)%nat ->
  (1 <= i <= length grid)%nat -> (1 <= base)%nat -> (base + acc <= length grid)%nat ->
  point RA (Z.of_nat k) (Z.of_nat acc) grid (map (peval a) grid) (Z.of_nat i) (Z.of_nat base) =
    Ok (Derive_n (peval a) k (nth (i - 1) grid 0)).
Proof.
  intros Hd Hk Hacc Ha Hi Hb1 Hb2. unfold point.
  rewrite (rd_ok grid (Z.of_nat i - 1) 0) by lia. cbn [bind].
  replace (Z.to_nat (Z.of_nat i - 1)) with (i - 1)%nat by lia.
  set (x0 := nth (i - 1) grid 0). set (xs := fun j => nth (base - 1 + j) grid 0).
  rewrite (fdcoef_F xs); [|lia|lia|].
  2:{ intros j Hj. rewrite (rd_ok grid _ 0) by lia. unfold xs. do 2 f_equal. lia. }
  cbn [bind]. replace (Z.of_nat base - 1)%Z with (Z.of_nat (base - 1)) by lia.
  rewrite (dot_weights _ _ (base - 1) (acc + 1)); [|rewrite map_length, seq_length; lia|rewrite map_length; lia].
  f_equal. rewrite <- D_Derive_n. rewrite <- (Sg_exact xs x0 acc k a).
  - unfold Sg. replace (acc + 1)%nat with (S acc) by lia. apply rsum_ext. intros j Hj.
    rewrite (nth_indep _ 0 (F xs x0 (Z.to_nat (Z.of_nat acc + 1 - 1)) (Z.to_nat (Z.of_nat k + 1 - 1)) 0%nat)) by (rewrite map_length, seq_length; lia).
    rewrite map_nth, seq_nth by lia.
    replace (Z.to_nat (Z.of_nat acc + 1 - 1)) with acc by lia.
    replace (Z.to_nat (Z.of_nat k + 1 - 1)) with k by lia. cbn [Nat.add]. f_equal.
    rewrite (nth_indep _ 0 (peval a 0)) by (rewrite map_length; lia). rewrite map_nth. reflexivity.
  - intros p q Hp Hq Hpq E. unfold xs in E.
    assert (base - 1 + p = base - 1 + q)%nat by (eapply (proj1 (NoDup_nth grid 0)); try exact E; try assumption; lia). lia.
  - lia.
Qed.

Lemma imid_jend acc : (0 <= acc)%Z -> exists imid jend : nat,
  (if (Z.rem acc 2 =? 0)%Z then (Z.quot acc 2, Z.quot acc 2) else (Z.quot acc 2 + 1, Z.quot acc 2)%Z) = (Z.of_nat imid, Z.of_nat jend) /\
  (Z.of_nat imid + Z.of_nat jend = acc)%Z /\ ((1 <= acc)%Z -> (1 <= imid)%nat).
Proof.
  intros H. assert (Hq := Z.quot_rem' acc 2). assert (Hr := Z.rem_bound_pos acc 2 H ltac:(lia)).
  assert (0 <= Z.quot acc 2)%Z by (apply Z.quot_pos; lia).
  exists (Z.to_nat (if (Z.rem acc 2 =? 0)%Z then Z.quot acc 2 else Z.quot acc 2 + 1)%Z), (Z.to_nat (Z.quot acc 2)).
  destruct (Z.eqb_spec (Z.rem acc 2) 0); (split; [f_equal; lia|]); lia.
Qed.

Lemma grid_derivative_exact k acc grid a :
  NoDup grid -> (k <= 7)%nat -> (acc <= 19)%nat -> (acc + 1 <= length grid)%nat -> (length a <= acc + 1)%nat ->
  grid_derivative RA (Z.of_nat k) (Z.of_nat acc) grid (map (peval a) grid) =
    Ok (map (Derive_n (peval a) k) grid).
Proof.
  intros Hd Hk Hacc Hlen Ha. unfold grid_derivative, iaccuracy_max.
  destruct (Z.ltb_spec 20 (Z.of_nat acc)); [lia|].
  destruct (imid_jend (Z.of_nat acc) ltac:(lia)) as (imid & jend & -> & Hs & _).
  set (P := fun (i : Z) (l : list R) => l = map (Derive_n (peval a) k) (firstn (Z.to_nat (i - 1)) grid)).
  assert (Step : forall i base l, (1 <= i <= Z.of_nat (length grid))%Z -> (1 <= base)%Z -> (base + Z.of_nat acc <= Z.of_nat (length grid))%Z ->
    P i l -> exists l', (y <- point RA (Z.of_nat k) (Z.of_nat acc) grid (map (peval a) grid) i base ; Ok (l ++ [y])) = Ok l' /\ P (i + 1)%Z l').
  { intros i base l Hi Hb1 Hb2 ->.
    assert (Ep : point RA (Z.of_nat k) (Z.of_nat acc) grid (map (peval a) grid) i base = Ok (Derive_n (peval a) k (nth (Z.to_nat i - 1) grid 0))).
    { rewrite <- (point_exact k acc grid a (Z.to_nat i) (Z.to_nat base)) by (assumption || lia). f_equal; lia. }
    rewrite Ep. cbn [bind]. eexists. split; [reflexivity|].
    unfold P. replace (Z.to_nat (i + 1 - 1)) with (S (Z.to_nat (i - 1))) by lia.
    assert (Hf : forall n, (n < length grid)%nat -> firstn (S n) grid = firstn n grid ++ [nth n grid 0]).
    { clear. induction grid as [|c l IH]; intros n Hn; [cbn in Hn; lia|]. destruct n as [|n]; [reflexivity|].
      cbn [firstn nth app]. f_equal. apply IH. cbn in Hn. lia. }
    rewrite Hf by lia. rewrite map_app. cbn [map]. do 3 f_equal. f_equal. lia. }
  destruct (for_inv P 1 (Z.of_nat imid + 1)
    (fun i du => y <- point RA (Z.of_nat k) (Z.of_nat acc) grid (map (peval a) grid) i 1 ; Ok (du ++ [y])) []) as (d1 & E1 & H1);
    [lia|reflexivity| |].
  { intros j s Hj HP. apply Step; [lia|lia|lia|exact HP]. }
  rewrite E1. cbn [bind].
  destruct (for_inv P (Z.of_nat imid + 1) (Z.of_nat (length grid) - Z.of_nat jend + 1)
    (fun i du => y <- point RA (Z.of_nat k) (Z.of_nat acc) grid (map (peval a) grid) i (i - Z.of_nat imid) ; Ok (du ++ [y])) d1) as (d2 & E2 & H2);
    [lia|exact H1| |].
  { intros j s Hj HP. apply Step; [lia|lia|lia|exact HP]. }
  rewrite E2. cbn [bind].
  destruct (for_inv P (Z.of_nat (length grid) - Z.of_nat jend + 1) (Z.of_nat (length grid) + 1)
    (fun i du => y <- point RA (Z.of_nat k) (Z.of_nat acc) grid (map (peval a) grid) i (Z.of_nat (length grid) - Z.of_nat acc) ; Ok (du ++ [y])) d2) as (d3 & E3 & H3);
    [lia|exact H2| |].
  { intros j s Hj HP. apply Step; [lia|lia|lia|exact HP]. }
  rewrite E3. rewrite H3. unfold P. f_equal. rewrite firstn_all2 by lia. reflexivity.
Qed.

(** ** Definedness *)
Section Defd.
Context {num : Type} (A : arith num).

Lemma dot_noexc cs u s e : dot (num:=num) A cs u s <> Exc e.
Proof. unfold dot. apply for_noexc. intros. repeat (apply bind_noexc; [intros; apply rd_not_exc|intros]). discriminate. Qed.
Lemma point_noexc k acc (grid u : list num) i b e : point A k acc grid u i b <> Exc e.
Proof.
  unfold point. apply bind_noexc; [intros; apply rd_not_exc|]. intros x0 e0.
  apply bind_noexc; [intros; apply fdcoef_noexc; intros; apply rd_not_exc|]. intros. apply dot_noexc.
Qed.
Lemma point_total (k acc i base : Z) (grid u : list num) :
  (0 <= k <= 7)%Z -> (0 <= acc <= 19)%Z -> length u = length grid ->
  (1 <= i <= Z.of_nat (length grid))%Z -> (1 <= base)%Z -> (base + acc <= Z.of_nat (length grid))%Z ->
  exists y, point A k acc grid u i base = Ok y.
Proof.
  intros Hk Ha Hu Hi Hb1 Hb2. unfold point.
  destruct (proj2 (rd_inv grid (i - 1)) ltac:(lia)) as (x0 & ->). cbn [bind].
  destruct (fdcoef_total A (k + 1) (acc + 1) x0 (fun j => rd grid (base - 1 + (j - 1)))) as (cs & -> & Hl); [lia|lia| |].
  { intros j Hj. apply rd_inv. lia. }
  cbn [bind]. unfold dot.
  destruct (for_inv (fun _ (_ : num) => True) 0 (Z.of_nat (length cs))
     (fun j s => c <- rd cs j ; x <- rd u (base - 1 + j) ; Ok (nadd A s (nmul A c x))) (nofZ A 0)) as (s & E & _).
  - lia.
  - exact I.
  - intros j s Hj _. destruct (proj2 (rd_inv cs j) ltac:(lia)) as (c & ->).
    destruct (proj2 (rd_inv u (base - 1 + j)) ltac:(lia)) as (x & ->). cbn [bind]. eexists. split; [reflexivity|exact I].
  - exists s. exact E.
Qed.

Lemma grid_derivative_total k acc (grid u : list num) :
  (0 <= k <= 7)%Z -> (0 <= acc <= 19)%Z -> length u = length grid -> (acc + 1 <= Z.of_nat (length grid))%Z ->
  exists du, grid_derivative A k acc grid u = Ok du /\ length du = length grid.
Proof.
  intros Hk Ha Hu Hlen. unfold grid_derivative, iaccuracy_max.
  destruct (Z.ltb_spec 20 acc); [lia|].
  destruct (imid_jend acc ltac:(lia)) as (imid & jend & -> & Hs & _).
  set (P := fun (i : Z) (l : list num) => length l = Z.to_nat (i - 1)).
  assert (Step : forall i base l, (1 <= i <= Z.of_nat (length grid))%Z -> (1 <= base)%Z -> (base + acc <= Z.of_nat (length grid))%Z ->
    P i l -> exists l', (y <- point A k acc grid u i base ; Ok (l ++ [y])) = Ok l' /\ P (i + 1)%Z l').
  { intros i base l Hi Hb1 Hb2 HP. destruct (point_total k acc i base grid u) as (y & ->); try assumption.
    cbn [bind]. eexists. split; [reflexivity|]. unfold P in *. rewrite app_length, HP. cbn [length]. lia. }
  destruct (for_inv P 1 (Z.of_nat imid + 1)
    (fun i du => y <- point A k acc grid u i 1 ; Ok (du ++ [y])) []) as (d1 & E1 & H1);
    [lia|reflexivity| |].
  { intros j s Hj HP. apply Step; [lia|lia|lia|exact HP]. }
  rewrite E1. cbn [bind].
  destruct (for_inv P (Z.of_nat imid + 1) (Z.of_nat (length grid) - Z.of_nat jend + 1)
    (fun i du => y <- point A k acc grid u i (i - Z.of_nat imid) ; Ok (du ++ [y])) d1) as (d2 & E2 & H2);
    [lia|exact H1| |].
  { intros j s Hj HP. apply Step; [lia|lia|lia|exact HP]. }
  rewrite E2. cbn [bind].
  destruct (for_inv P (Z.of_nat (length grid) - Z.of_nat jend + 1) (Z.of_nat (length grid) + 1)
    (fun i du => y <- point A k acc grid u i (Z.of_nat (length grid) - acc) ; Ok (du ++ [y])) d2) as (d3 & E3 & H3);
    [lia|exact H2| |].
  { intros j s Hj HP. apply Step; [lia|lia|lia|exact HP]. }
  exists d3. split; [exact E3|]. unfold P in H3. lia.
Qed.

Lemma grid_derivative_ub k acc (grid u : list num) :
  (1 <= acc <= 20)%Z ->
  (k < 0 \/ 7 < k \/ acc = 20 \/ Z.of_nat (length grid) < acc + 1)%Z ->
  grid_derivative A k acc grid u = UB.
Proof.
  intros Ha H. unfold grid_derivative, iaccuracy_max.
  destruct (Z.ltb_spec 20 acc); [lia|].
  destruct (imid_jend acc ltac:(lia)) as (imid & jend & -> & Hs & Hi).
  rewrite (for_ub 1 (Z.of_nat imid + 1) 1); [reflexivity|lia| |].
  2:{ intros. apply bind_noexc; [intros; apply point_noexc|intros; discriminate]. }
  intros s. assert (E : point A k acc grid u 1 1 = UB); [|rewrite E; reflexivity].
  unfold point. destruct (rd grid (1 - 1)) as [x0| |e] eqn:Er; cbn [bind]; [|reflexivity|exfalso; exact (rd_not_exc _ _ _ Er)].
  destruct (Z_lt_dec (Z.of_nat (length grid)) (acc + 1)) as [Hl|Hl].
  - rewrite fdcoef_ub_grid; [reflexivity|intros; apply rd_not_exc|lia|]. apply rd_ub. lia.
  - rewrite fdcoef_ub_mord; [reflexivity|intros; apply rd_not_exc|lia|lia].
Qed.
End Defd.
