(** * Proofs for the eigenfunction normaliser. *)
From Coq Require Import Reals List ZArith Bool String Lia Lra.
From Coquelicot Require Import Complex.
From Verif Require Import Base Py EigenNorm_Model EigenNorm_Spec.
Import ListNotations.
Local Open Scope R_scope.
Local Open Scope res_scope.

Lemma forM_inv {S} (P : S -> Prop) (f : nat -> S -> res S) l : forall s s',
  (forall x s s', In x l -> P s -> f x s = Ok s' -> P s') -> P s -> forM l f s = Ok s' -> P s'.
Proof.
  induction l as [|x l IH]; intros s s' H H0 E; cbn [forM] in E.
  - injection E as <-. exact H0.
  - destruct (f x s) as [s1| |] eqn:E1; try discriminate. cbn [bind] in E.
    apply (IH s1 s'); [|eapply H; [left; reflexivity|exact H0|exact E1]|exact E].
    intros y t t' Hy. apply H. right. exact Hy.
Qed.
Lemma forM_seq_inv {S} (P : nat -> S -> Prop) (f : nat -> S -> res S) n : forall k s s',
  (forall j s s', (k <= j < k + n)%nat -> P j s -> f j s = Ok s' -> P (j + 1)%nat s') ->
  P k s -> forM (seq k n) f s = Ok s' -> P (k + n)%nat s'.
Proof.
  induction n as [|n IH]; intros k s s' H H0 E; cbn [seq forM] in E.
  - injection E as <-. rewrite Nat.add_0_r. exact H0.
  - destruct (f k s) as [s1| |] eqn:E1; try discriminate. cbn [bind] in E.
    replace (k + Datatypes.S n)%nat with (Datatypes.S k + n)%nat by lia. apply (IH (Datatypes.S k) s1 s'); [|replace (Datatypes.S k) with (k + 1)%nat by lia; eapply H; [|exact H0|exact E1]; lia|exact E].
    intros j t t' Hj. apply H. lia.
Qed.
Lemma forM_seq_ok {S} (P : nat -> S -> Prop) (f : nat -> S -> res S) n : forall k s,
  (forall j s, (k <= j < k + n)%nat -> P j s -> exists s', f j s = Ok s' /\ P (j + 1)%nat s') ->
  P k s -> exists s', forM (seq k n) f s = Ok s' /\ P (k + n)%nat s'.
Proof.
  induction n as [|n IH]; intros k s H H0; cbn [seq forM].
  - exists s. rewrite Nat.add_0_r. auto.
  - destruct (H k s ltac:(lia) H0) as (s1 & E1 & H1). rewrite E1. cbn [bind].
    destruct (IH (Datatypes.S k) s1) as (s2 & E2 & H2).
    + intros j t Hj. apply H. lia.
    + replace (Datatypes.S k) with (k + 1)%nat by lia. exact H1.
    + exists s2. split; [exact E2|]. replace (k + Datatypes.S n)%nat with (Datatypes.S k + n)%nat by lia. exact H2.
Qed.

Lemma scale_all_spec c nr names : NoDup names -> forall a m nm i,
  scale_all c nr names a m nm i =
  if Nat.eqb m nr && existsb (String.eqb nm) names then (RtoC c * a m nm i)%C else a m nm i.
Proof.
  intros ND. induction ND as [|x l Hx ND IH]; intros a m nm i.
  - cbn. rewrite andb_false_r. reflexivity.
  - unfold scale_all. cbn [fold_left]. fold (scale_all c nr l (scale_attr c nr x a)). rewrite IH.
    unfold scale_attr. cbn [existsb]. destruct (Nat.eqb m nr); [|reflexivity]. cbn [andb].
    destruct (String.eqb nm x) eqn:Ex; [|reflexivity]. apply String.eqb_eq in Ex. subst nm. cbn [orb].
    destruct (existsb (String.eqb x) l) eqn:El; [|reflexivity].
    exfalso. apply Hx. apply existsb_exists in El. destruct El as (y & Hy & Ey). apply String.eqb_eq in Ey. subst. exact Hy.
Qed.
Lemma existsb_In nm (l : list string) : existsb (String.eqb nm) l = true <-> In nm l.
Proof.
  rewrite existsb_exists. split.
  - intros (y & Hy & E). apply String.eqb_eq in E. subst. exact Hy.
  - intros H. exists nm. split; [exact H|apply String.eqb_refl].
Qed.
Lemma scale_all_same c nr names a : NoDup names -> scaled_by names c (scale_all c nr names a nr) (a nr).
Proof.
  intros ND. split; intros nm H i; rewrite scale_all_spec by exact ND; rewrite Nat.eqb_refl; cbn [andb].
  - apply existsb_In in H. rewrite H. reflexivity.
  - destruct (existsb (String.eqb nm) names) eqn:E; [apply existsb_In in E; contradiction|reflexivity].
Qed.
Lemma scale_all_other c nr names a m nm i : NoDup names -> m <> nr -> scale_all c nr names a m nm i = a m nm i.
Proof. intros ND H. rewrite scale_all_spec by exact ND. apply Nat.eqb_neq in H. rewrite H. reflexivity. Qed.
Lemma scaled_trans names f g x y z : scaled_by names g y x -> scaled_by names f z y -> scaled_by names (g * f) z x.
Proof.
  intros [A1 A2] [B1 B2]. split; intros nm H i.
  - rewrite B1, A1 by exact H. rewrite RtoC_mult. ring.
  - rewrite B2, A2 by exact H. reflexivity.
Qed.
Lemma scaled_ext names f x y y' : (forall nm i, y nm i = y' nm i) -> scaled_by names f y x -> scaled_by names f y' x.
Proof. intros H [A1 A2]. split; intros nm Hn i; rewrite <- H; [apply A1|apply A2]; exact Hn. Qed.
Lemma scaled_ext_r names f x x' y : (forall nm i, x nm i = x' nm i) -> scaled_by names f y x -> scaled_by names f y x'.
Proof. intros H [A1 A2]. split; intros nm Hn i; rewrite <- H; [apply A1|apply A2]; exact Hn. Qed.

Lemma flagged_range l nr : In nr (flagged l) <-> (1 <= nr <= List.length l)%nat /\ nth (nr - 1) l false = true.
Proof.
  unfold flagged. rewrite in_map_iff. split.
  - intros (i & <- & Hi). apply filter_In in Hi. destruct Hi as [Hi Hn]. apply in_seq in Hi. split; [lia|].
    replace (S i - 1)%nat with i by lia. exact Hn.
  - intros [H1 H2]. exists (nr - 1)%nat. split; [lia|]. apply filter_In. split; [apply in_seq; lia|exact H2].
Qed.
Lemma any_true l : any l = true <-> exists i, (i < List.length l)%nat /\ nth i l false = true.
Proof.
  unfold any. rewrite existsb_exists. split.
  - intros (b & Hb & ->). apply (In_nth _ _ false) in Hb. exact Hb.
  - intros (i & Hi & E). exists (nth i l false). split; [apply nth_In; exact Hi|exact E].
Qed.
Lemma any_false l : any l = false <-> forall i, nth i l false = false.
Proof.
  split.
  - intros H i. destruct (nth i l false) eqn:E; [|reflexivity]. exfalso.
    assert (any l = true); [|congruence]. apply any_true. exists i. split; [|exact E].
    destruct (Nat.lt_ge_cases i (List.length l)); [assumption|]. rewrite nth_overflow in E by assumption. discriminate.
  - intros H. destruct (any l) eqn:E; [|reflexivity]. apply any_true in E. destruct E as (i & _ & E). rewrite H in E. discriminate.
Qed.

Section Inv.
Variable d : setup.
Hypothesis ND : NoDup (d_names d).
Variable a0 : attributes.

(** modes 1..k have been normalised *)
Definition Inv (k : nat) (s : st) : Prop :=
  List.length (facs s) = d_modes d /\ List.length (checks s) = d_modes d /\
  forall m, ((1 <= m < k)%nat -> exists f, nth (m - 1) (facs s) None = Some f /\ scaled_by (d_names d) f (attrs s m) (a0 m)) /\
            (~ (1 <= m < k)%nat -> forall nm i, attrs s m nm i = a0 m nm i).

Lemma inv_initial j s s' : (1 <= j < 1 + d_modes d)%nat -> Inv j s -> initial_mode d j s = Ok s' -> Inv (j + 1) s'.
Proof.
  intros Hj (L1 & L2 & H) E. unfold initial_mode in E. destruct (factor_from_object d s j) as [c| |]; try discriminate.
  cbn [bind] in E. injection E as <-. unfold Inv. cbn [with_facs with_attrs facs checks attrs]. split; [rewrite upd_length; exact L1|]. split; [exact L2|]. intros m.
  destruct (Nat.eq_dec m j) as [->|Hm].
  - split; [|intros; lia]. intros _. exists c. split; [apply nth_upd_eq; lia|].
    destruct (H j) as [_ H2]. eapply scaled_ext_r; [apply H2; lia|]. apply scale_all_same. exact ND.
  - destruct (H m) as [H1 H2]. split.
    + intros Hr. destruct (H1 ltac:(lia)) as (f & Hf & Hs). exists f. split; [rewrite nth_upd_ne by lia; exact Hf|].
      eapply scaled_ext; [|exact Hs]. intros nm i. symmetry. apply scale_all_other; assumption.
    + intros Hr nm i. rewrite scale_all_other by assumption. apply H2. lia.
Qed.
Lemma inv_compute k m s s' : Inv k s -> compute_energy d m s = Ok s' -> Inv k s'.
Proof.
  intros H E. unfold compute_energy in E. destruct (d_comp d (attrs s) m) as [v| |]; try discriminate. cbn [bind] in E. injection E as <-. exact H.
Qed.
Lemma inv_check k m s s' : Inv k s -> check_normalization d m s = Ok s' -> Inv k s'.
Proof.
  intros (L1 & L2 & H) E. unfold check_normalization in E. destruct (target_value d s m) as [v| |]; try discriminate. cbn [bind] in E.
  injection E as <-. unfold Inv. cbn [with_checks facs checks attrs]. split; [exact L1|]. split; [rewrite upd_length; exact L2|exact H].
Qed.
Lemma inv_check_mode k m s s' : Inv k s -> check_mode d m s = Ok s' -> Inv k s'.
Proof.
  intros H E. unfold check_mode in E. destruct (nth (m - 1) (checks s) false); [eapply inv_check; eassumption|]. injection E as <-. exact H.
Qed.
Lemma inv_refine m s s' : (1 <= m <= d_modes d)%nat -> Inv (1 + d_modes d) s -> refine_mode d m s = Ok s' -> Inv (1 + d_modes d) s'.
Proof.
  intros Hm (L1 & L2 & H) E. unfold refine_mode in E. destruct (factor_from_object d s m) as [c| |]; try discriminate. cbn [bind] in E.
  destruct (nth (m - 1) (facs s) None) as [f|] eqn:Ef; [|discriminate]. cbn [bind] in E.
  match type of E with bind (compute_energy d m ?t) _ = _ => destruct (compute_energy d m t) as [s3| |] eqn:E3; try discriminate; cbn [bind] in E; assert (HI : Inv (1 + d_modes d) t) end.
  { unfold Inv. cbn [with_facs with_attrs facs checks attrs]. split; [rewrite upd_length; exact L1|]. split; [exact L2|]. intros m'. destruct (Nat.eq_dec m' m) as [->|Hne].
    - split; [|intros; lia]. intros _. exists (f * c). split; [apply nth_upd_eq; lia|].
      destruct (H m) as [H1 _]. destruct (H1 ltac:(lia)) as (f' & Hf & Hs). rewrite Ef in Hf. injection Hf as <-.
      eapply scaled_trans; [exact Hs|]. apply scale_all_same. exact ND.
    - destruct (H m') as [H1 H2]. split.
      + intros Hr. destruct (H1 Hr) as (f' & Hf & Hs). exists f'. split; [rewrite nth_upd_ne by lia; exact Hf|].
        eapply scaled_ext; [|exact Hs]. intros nm i. symmetry. apply scale_all_other; assumption.
      + intros Hr nm i. rewrite scale_all_other by assumption. apply H2. exact Hr. }
  eapply inv_check; [eapply inv_compute; eassumption|exact E].
Qed.
Lemma inv_log nrs s s' k : Inv k s -> log_devs d nrs s = Ok s' -> Inv k s'.
Proof.
  intros H E. unfold log_devs in E. match type of E with bind ?x _ = _ => destruct x; try discriminate end. cbn [bind] in E. injection E as <-. exact H.
Qed.
Lemma inv_looper k : forall last s s', Inv (1 + d_modes d) s -> looper d k last s = Ok s' -> Inv (1 + d_modes d) s'.
Proof.
  induction k as [|k IH]; intros last s s' H E; cbn [looper] in E.
  - destruct last; [|discriminate]. eapply inv_log; eassumption.
  - destruct (negb (any (checks s))); [injection E as <-; exact H|].
    match type of E with bind ?x _ = _ => destruct x as [s2| |] eqn:E2; try discriminate end. cbn [bind] in E.
    apply (IH _ _ _) in E; [exact E|]. refine (forM_inv (Inv (1 + d_modes d)) _ _ _ _ _ _ E2); [|exact H].
    intros x t t' Hx Ht Et. eapply inv_refine; [|exact Ht|exact Et]. apply flagged_range in Hx.
    destruct H as (_ & L & _). cbn [with_iters checks] in Hx. lia.
Qed.
Lemma inv_refinement s s' : Inv (1 + d_modes d) s -> iteratively_refine d s = Ok s' -> Inv (1 + d_modes d) s'.
Proof.
  intros H E. unfold iteratively_refine in E. destruct (d_iterate d && any (checks s)); [eapply inv_looper; eassumption|].
  destruct (any (checks s)); [eapply inv_log; eassumption|]. injection E as <-. exact H.
Qed.
Lemma normalise_inv e c s' : normalise d a0 e c = Ok s' -> Inv (1 + d_modes d) s'.
Proof.
  unfold normalise. intros E.
  match type of E with bind ?x _ = _ => destruct x as [s1| |] eqn:E1; try discriminate end. cbn [bind] in E.
  match type of E with bind ?x _ = _ => destruct x as [s2| |] eqn:E2; try discriminate end. cbn [bind] in E.
  match type of E with bind ?x _ = _ => destruct x as [s3| |] eqn:E3; try discriminate end. cbn [bind] in E.
  assert (H1 : Inv (1 + d_modes d) s1).
  { refine (forM_seq_inv Inv _ _ _ _ _ _ _ E1); [intros j t t' Hj Ht Et; eapply inv_initial; eassumption|].
    unfold Inv. cbn [facs checks attrs]. split; [apply repeat_length|]. split; [apply repeat_length|]. intros m. split; [lia|reflexivity]. }
  assert (H2 : Inv (1 + d_modes d) s2).
  { refine (forM_inv (Inv (1 + d_modes d)) _ _ _ _ _ H1 E2). intros x t t' _ Ht Et. eapply inv_compute; eassumption. }
  assert (H3 : Inv (1 + d_modes d) s3).
  { refine (forM_inv (Inv (1 + d_modes d)) _ _ _ _ _ H2 E3). intros x t t' _ Ht Et. eapply inv_check_mode; eassumption. }
  eapply inv_refinement; eassumption.
Qed.
End Inv.

(** ** Iteration counter *)
Lemma iters_initial d m s s' : initial_mode d m s = Ok s' -> iters s' = iters s.
Proof. unfold initial_mode. destruct (factor_from_object d s m); try discriminate. cbn [bind]. intros E. injection E as <-. reflexivity. Qed.
Lemma iters_compute d m s s' : compute_energy d m s = Ok s' -> iters s' = iters s.
Proof. unfold compute_energy. destruct (d_comp d (attrs s) m); try discriminate. cbn [bind]. intros E. injection E as <-. reflexivity. Qed.
Lemma iters_check d m s s' : check_normalization d m s = Ok s' -> iters s' = iters s.
Proof. unfold check_normalization. destruct (target_value d s m); try discriminate. cbn [bind]. intros E. injection E as <-. reflexivity. Qed.
Lemma iters_check_mode d m s s' : check_mode d m s = Ok s' -> iters s' = iters s.
Proof. unfold check_mode. destruct (nth (m - 1) (checks s) false); [apply iters_check|]. intros E. injection E as <-. reflexivity. Qed.
Lemma iters_refine d m s s' : refine_mode d m s = Ok s' -> iters s' = iters s.
Proof.
  unfold refine_mode. destruct (factor_from_object d s m); try discriminate. cbn [bind]. destruct (nth (m - 1) (facs s) None); try discriminate. cbn [bind].
  match goal with |- bind (compute_energy d m ?t) _ = _ -> _ => destruct (compute_energy d m t) as [s3| |] eqn:E3; try discriminate end. cbn [bind]. intros E.
  apply iters_check in E. apply iters_compute in E3. rewrite E, E3. reflexivity.
Qed.
Lemma iters_log d nrs s s' : log_devs d nrs s = Ok s' -> iters s' = iters s.
Proof. unfold log_devs. destruct (mapM _ nrs); try discriminate. cbn [bind]. intros E. injection E as <-. reflexivity. Qed.
Lemma forM_iters f l s s' : (forall x s s', f x s = Ok s' -> iters s' = iters s) -> forM l f s = Ok s' -> iters s' = iters s.
Proof.
  intros H. apply (forM_inv (fun t => iters t = iters s) f l s s'); [|reflexivity].
  intros x t t' _ Ht Et. rewrite (H _ _ _ Et). exact Ht.
Qed.
Lemma looper_iters d k : forall last s s', looper d k last s = Ok s' ->
  (iters s <= iters s' <= iters s + k)%nat.
Proof.
  induction k as [|k IH]; intros last s s' E; cbn [looper] in E.
  - destruct last; [|discriminate]. apply iters_log in E. lia.
  - destruct (negb (any (checks s))); [injection E as <-; lia|].
    match type of E with bind ?x _ = _ => destruct x as [s2| |] eqn:E2; try discriminate end. cbn [bind] in E.
    apply (forM_iters _ _ _ _ (iters_refine d)) in E2. cbn in E2. apply IH in E. lia.
Qed.
Lemma normalise_iters d a e c s' : normalise d a e c = Ok s' ->
  (iters s' <= d_max d)%nat /\ (d_iterate d = false -> iters s' = 0%nat).
Proof.
  unfold normalise. intros E.
  match type of E with bind ?x _ = _ => destruct x as [s1| |] eqn:E1; try discriminate end. cbn [bind] in E.
  match type of E with bind ?x _ = _ => destruct x as [s2| |] eqn:E2; try discriminate end. cbn [bind] in E.
  match type of E with bind ?x _ = _ => destruct x as [s3| |] eqn:E3; try discriminate end. cbn [bind] in E.
  apply (forM_iters _ _ _ _ (iters_initial d)) in E1. apply (forM_iters _ _ _ _ (iters_compute d)) in E2.
  apply (forM_iters _ _ _ _ (iters_check_mode d)) in E3. cbn in E1.
  unfold iteratively_refine in E. destruct (d_iterate d); cbn [andb] in E.
  - split; [|discriminate]. destruct (any (checks s3)); [apply looper_iters in E; lia|]. injection E as <-. lia.
  - assert (iters s' = 0%nat); [|split; [lia|auto]]. destruct (any (checks s3)); [apply iters_log in E; congruence|]. injection E as <-. congruence.
Qed.

(** ** Energies and checks are those of the final eigenfunctions *)
Section Cons.
Variable d : setup.
Variable cv : convention.
Hypothesis ND : NoDup (d_names d).
Hypothesis HC : get_convention (d_conv d) = Ok cv.
Hypothesis HL : local_energy (d_comp d).

Lemma target_ok s m : target_value d s m = Ok (goal d cv, quantity cv (en_ s m, cn_ s m)).
Proof. unfold target_value. rewrite HC. cbn [bind]. destruct cv; reflexivity. Qed.
Definition fresh (s : st) (m : nat) : Prop := d_comp d (attrs s) m = Ok (en_ s m, cn_ s m).
Definition right_check (s : st) (m : nat) : Prop :=
  if d_npbool d then nth (m - 1) (checks s) false = true <-> goal d cv <> quantity cv (en_ s m, cn_ s m)
  else nth (m - 1) (checks s) false = true.
Definition Cons (s : st) : Prop :=
  List.length (checks s) = d_modes d /\ forall m, (1 <= m <= d_modes d)%nat -> fresh s m /\ right_check s m.

Lemma check_ok s m : exists s', check_normalization d m s = Ok s' /\ attrs s' = attrs s /\ en_ s' = en_ s /\ cn_ s' = cn_ s /\ facs s' = facs s
  /\ iters s' = iters s /\ log s' = log s /\ checks s' = upd (checks s) (m - 1)
     (if d_npbool d then (if Req_EM_T (goal d cv) (quantity cv (en_ s m, cn_ s m)) then false else true) else true).
Proof.
  unfold check_normalization. rewrite target_ok. cbn [bind fst snd]. eexists. split; [reflexivity|]. cbn.
  repeat (split; [reflexivity|]). destruct (Req_EM_T _ _); reflexivity.
Qed.
Lemma check_right s m s' : (1 <= m <= List.length (checks s))%nat -> check_normalization d m s = Ok s' -> right_check s' m.
Proof.
  intros Hm E. destruct (check_ok s m) as (s1 & E1 & A & B & C & F & I & Lg & K). rewrite E in E1. injection E1 as <-.
  unfold right_check. rewrite K, B, C. rewrite nth_upd_eq by lia. destruct (d_npbool d); [|reflexivity].
  destruct (Req_EM_T _ _); split; congruence.
Qed.
Lemma check_other s m s' m' : m <> m' -> (1 <= m)%nat -> (1 <= m')%nat -> check_normalization d m s = Ok s' -> (right_check s' m' <-> right_check s m').
Proof.
  intros Hm H1 H2 E. destruct (check_ok s m) as (s1 & E1 & A & B & C & F & I & Lg & K). rewrite E in E1. injection E1 as <-.
  unfold right_check. rewrite K, B, C. rewrite nth_upd_ne by lia. reflexivity.
Qed.
Lemma check_len s m s' : check_normalization d m s = Ok s' -> List.length (checks s') = List.length (checks s).
Proof. intros E. destruct (check_ok s m) as (s1 & E1 & A & B & C & F & I & Lg & K). rewrite E in E1. injection E1 as <-. rewrite K. apply upd_length. Qed.
Lemma check_fresh s m s' m' : check_normalization d m s = Ok s' -> (fresh s' m' <-> fresh s m').
Proof. intros E. destruct (check_ok s m) as (s1 & E1 & A & B & C & F & I & Lg & K). rewrite E in E1. injection E1 as <-. unfold fresh. rewrite A, B, C. reflexivity. Qed.

Lemma compute_fresh s m s' : compute_energy d m s = Ok s' -> fresh s' m.
Proof.
  unfold compute_energy. destruct (d_comp d (attrs s) m) as [v| |] eqn:E; try discriminate. cbn [bind]. intros E1. injection E1 as <-.
  unfold fresh. cbn. rewrite Nat.eqb_refl, E. destruct v; reflexivity.
Qed.
Lemma compute_other s m s' m' : m <> m' -> compute_energy d m s = Ok s' ->
  attrs s' = attrs s /\ checks s' = checks s /\ en_ s' m' = en_ s m' /\ cn_ s' m' = cn_ s m'.
Proof.
  unfold compute_energy. intros H. destruct (d_comp d (attrs s) m) as [v| |] eqn:E; try discriminate. cbn [bind]. intros E1. injection E1 as <-.
  cbn. apply not_eq_sym, Nat.eqb_neq in H. rewrite H. auto.
Qed.
Lemma compute_checks s m s' : compute_energy d m s = Ok s' -> checks s' = checks s.
Proof. unfold compute_energy. destruct (d_comp d (attrs s) m) as [v| |] eqn:E; try discriminate. cbn [bind]. intros E1. injection E1 as <-. reflexivity. Qed.

Lemma cons_refine m s s' : (1 <= m <= d_modes d)%nat -> Cons s -> refine_mode d m s = Ok s' -> Cons s'.
Proof.
  intros Hm (L & H) E. unfold refine_mode in E. destruct (factor_from_object d s m) as [c| |]; try discriminate. cbn [bind] in E.
  destruct (nth (m - 1) (facs s) None) as [f|] eqn:Ef; [|discriminate]. cbn [bind] in E.
  match type of E with bind (compute_energy d m ?t) _ = _ => set (u := t) in *; destruct (compute_energy d m u) as [s3| |] eqn:E3; try discriminate; cbn [bind] in E end.
  assert (Lc : List.length (checks s3) = d_modes d) by (rewrite (compute_checks _ _ _ E3); exact L).
  split; [rewrite (check_len _ _ _ E); exact Lc|]. intros m' Hm'. destruct (Nat.eq_dec m m') as [<-|Hne].
  - split; [rewrite check_fresh by exact E; eapply compute_fresh; exact E3|]. eapply check_right; [|exact E]. lia.
  - destruct (H m' Hm') as [F R]. destruct (compute_other _ _ _ _ Hne E3) as (A1 & A2 & A3 & A4). split.
    + rewrite check_fresh by exact E. unfold fresh. rewrite A1, A3, A4. cbn [u with_attrs with_facs attrs en_ cn_].
      rewrite <- F. apply HL. intros nm i. apply scale_all_other; [exact ND|lia].
    + rewrite check_other; [|exact Hne|lia|lia|exact E]. unfold right_check. rewrite A2, A3, A4. exact R.
Qed.
Lemma cons_log nrs s s' : Cons s -> log_devs d nrs s = Ok s' -> Cons s'.
Proof.
  intros H E. unfold log_devs in E. match type of E with bind ?x _ = _ => destruct x; try discriminate end. cbn [bind] in E. injection E as <-. exact H.
Qed.
Lemma cons_looper k : forall last s s', Cons s -> looper d k last s = Ok s' -> Cons s'.
Proof.
  induction k as [|k IH]; intros last s s' H E; cbn [looper] in E.
  - destruct last; [|discriminate]. eapply cons_log; eassumption.
  - destruct (negb (any (checks s))); [injection E as <-; exact H|].
    match type of E with bind ?x _ = _ => destruct x as [s2| |] eqn:E2; try discriminate end. cbn [bind] in E.
    apply (IH _ _ _) in E; [exact E|]. refine (forM_inv Cons _ _ _ _ _ _ E2); [|exact H].
    intros x t t' Hx Ht Et. eapply cons_refine; [|exact Ht|exact Et]. apply flagged_range in Hx.
    destruct H as (L & _). cbn [with_iters checks] in Hx. lia.
Qed.
Lemma initial_checks m s s' : initial_mode d m s = Ok s' -> checks s' = checks s.
Proof. unfold initial_mode. destruct (factor_from_object d s m); try discriminate. cbn [bind]. intros E. injection E as <-. reflexivity. Qed.

Lemma normalise_cons a e c s' : normalise d a e c = Ok s' -> Cons s'.
Proof.
  unfold normalise. intros E.
  match type of E with bind ?x _ = _ => destruct x as [s1| |] eqn:E1; try discriminate end. cbn [bind] in E.
  match type of E with bind ?x _ = _ => destruct x as [s2| |] eqn:E2; try discriminate end. cbn [bind] in E.
  match type of E with bind ?x _ = _ => destruct x as [s3| |] eqn:E3; try discriminate end. cbn [bind] in E.
  assert (H1 : checks s1 = repeat true (d_modes d)).
  { refine (forM_inv (fun t => checks t = repeat true (d_modes d)) _ _ _ _ _ _ E1); [|reflexivity].
    intros x t t' _ Ht Et. rewrite (initial_checks _ _ _ Et). exact Ht. }
  assert (H2 : checks s2 = repeat true (d_modes d) /\ forall m, (1 <= m < 1 + d_modes d)%nat -> fresh s2 m).
  { refine (forM_seq_inv (fun k t => checks t = repeat true (d_modes d) /\ forall m, (1 <= m < k)%nat -> fresh t m) _ _ _ _ _ _ _ E2).
    - intros j t t' Hj [A B] Et. split; [rewrite (compute_checks _ _ _ Et); exact A|]. intros m Hm.
      destruct (Nat.eq_dec j m) as [<-|Hne]; [eapply compute_fresh; exact Et|].
      destruct (compute_other _ _ _ _ Hne Et) as (A1 & A2 & A3 & A4). unfold fresh. rewrite A1, A3, A4. apply B. lia.
    - split; [exact H1|]. intros; lia. }
  assert (H3 : List.length (checks s3) = d_modes d /\ (forall m, (1 <= m < 1 + d_modes d)%nat -> fresh s3 m) /\
     (forall m, (1 <= m < 1 + d_modes d)%nat -> right_check s3 m) /\ (forall m, (1 + d_modes d <= m <= d_modes d)%nat -> nth (m - 1) (checks s3) false = true)).
  { refine (forM_seq_inv (fun k t => List.length (checks t) = d_modes d /\ (forall m, (1 <= m < 1 + d_modes d)%nat -> fresh t m) /\
      (forall m, (1 <= m < k)%nat -> right_check t m) /\ (forall m, (k <= m <= d_modes d)%nat -> nth (m - 1) (checks t) false = true)) _ _ _ _ _ _ _ E3).
    - intros j t t' Hj (A & B & C & D) Et. unfold check_mode in Et. rewrite D in Et by lia.
      split; [rewrite (check_len _ _ _ Et); exact A|]. split; [|split].
      + intros m Hm. rewrite check_fresh by exact Et. apply B, Hm.
      + intros m Hm. destruct (Nat.eq_dec j m) as [<-|Hne]; [eapply check_right; [|exact Et]; lia|].
        rewrite check_other; [|exact Hne|lia|lia|exact Et]. apply C. lia.
      + intros m Hm. destruct (check_ok t j) as (u & Eu & _ & _ & _ & _ & _ & _ & K). rewrite Et in Eu. injection Eu as <-.
        rewrite K, nth_upd_ne by lia. apply D. lia.
    - destruct H2 as [A B]. rewrite A. split; [apply repeat_length|]. split; [exact B|]. split; [intros; lia|].
      intros m Hm. rewrite (nth_indep _ false true) by (rewrite repeat_length; lia). apply nth_repeat. }
  assert (HC3 : Cons s3).
  { destruct H3 as (A & B & C & _). split; [exact A|]. intros m Hm. split; [apply B; lia|apply C; lia]. }
  unfold iteratively_refine in E. destruct (d_iterate d && any (checks s3)); [eapply cons_looper; eassumption|].
  destruct (any (checks s3)); [eapply cons_log; eassumption|]. injection E as <-. exact HC3.
Qed.
End Cons.

(** ** Exact arithmetic: one step reaches the goal *)
Section Exact.
Variable d : setup.
Variable cv : convention.
Variable a : attributes.
Variables e c : nat -> R.
Hypothesis ND : NoDup (d_names d).
Hypothesis HC : get_convention (d_conv d) = Ok cv.
Hypothesis HQ : quadratic_energy (d_names d) (d_comp d).
Hypothesis HE : forall m, (1 <= m <= d_modes d)%nat -> d_comp d a m = Ok (e m, c m).
Hypothesis Hpos : forall m, (1 <= m <= d_modes d)%nat -> 0 < quantity cv (e m, c m).
Hypothesis HG : 0 < d_G d. Hypothesis HM : 0 < d_M d. Hypothesis HR : 0 < d_R d.
Hypothesis Hnp : d_npbool d = true.

Let fac (m : nat) : R := sqrt (goal d cv / quantity cv (e m, c m)).
Lemma goal_pos : 0 < goal d cv.
Proof.
  pose proof (pow_lt _ 2 HM). pose proof (pow_lt _ 2 HR). unfold goal. destruct cv; [|nra].
  apply Rdiv_lt_0_compat; [|exact HR]. nra.
Qed.
Lemma fac_pos m : (1 <= m <= d_modes d)%nat -> 0 < fac m.
Proof. intros H. apply sqrt_lt_R0. apply Rdiv_lt_0_compat; [apply goal_pos|apply Hpos, H]. Qed.
Lemma fac_sq m : (1 <= m <= d_modes d)%nat -> fac m ^ 2 * quantity cv (e m, c m) = goal d cv.
Proof.
  intros H. pose proof (Hpos m H). pose proof goal_pos. unfold fac. rewrite pow2_sqrt; [field; lra|].
  apply Rlt_le, Rdiv_lt_0_compat; assumption.
Qed.
Lemma factor_value s m : (1 <= m <= d_modes d)%nat -> en_ s m = e m -> cn_ s m = c m -> factor_from_object d s m = Ok (fac m).
Proof.
  intros H E1 E2. pose proof (Hpos m H) as Hp. pose proof goal_pos as Hg. unfold factor_from_object. rewrite HC. cbn [bind]. unfold fac.
  unfold quantity, goal in *. destruct cv; cbn [fst snd] in *; rewrite ?E1, ?E2; unfold sqrt_quot.
  - assert (0 < d_R d * e m) by nra. destruct (Req_EM_T _ _) as [X|X]; [exfalso; lra|].
    replace (d_G d * d_M d ^ 2 / (d_R d * e m)) with (d_G d * d_M d ^ 2 / d_R d / e m) by (field; lra).
    destruct (Rlt_dec _ _) as [Y|Y]; [|reflexivity]. exfalso.
    assert (0 < d_G d * d_M d ^ 2 / d_R d / e m) by (apply Rdiv_lt_0_compat; assumption). lra.
  - destruct (Req_EM_T _ _) as [X|X]; [exfalso; lra|]. destruct (Rlt_dec _ _) as [Y|Y]; [|reflexivity]. exfalso.
    assert (0 < d_M d * d_R d ^ 2 / c m) by (apply Rdiv_lt_0_compat; assumption). lra.
Qed.

Lemma normalise_exact : exists s', normalise d a e c = Ok s' /\ iters s' = 0%nat /\ log s' = [] /\
  (forall b, In b (checks s') -> b = false) /\
  forall m, (1 <= m <= d_modes d)%nat ->
    nth (m - 1) (facs s') None = Some (fac m) /\ scaled_by (d_names d) (fac m) (attrs s' m) (a m) /\
    en_ s' m = fac m ^ 2 * e m /\ cn_ s' m = fac m ^ 2 * c m.
Proof.
  unfold normalise.
  match goal with |- context [forM _ _ ?t] => set (s0 := t) end.
  destruct (forM_seq_ok (fun k t => (en_ t = e /\ cn_ t = c /\ iters t = 0%nat /\ log t = [] /\ checks t = repeat true (d_modes d) /\ List.length (facs t) = d_modes d) /\
     forall m, ((1 <= m < k)%nat -> nth (m - 1) (facs t) None = Some (fac m) /\ scaled_by (d_names d) (fac m) (attrs t m) (a m))
               /\ (~ (1 <= m < k)%nat -> attrs t m = a m)) (initial_mode d) (d_modes d) 1 s0) as (s1 & E1 & (P1 & P2 & P3 & P4 & P5 & P6) & P7).
  { intros j t Hj ((A1 & A2 & A3 & A4 & A5 & A6) & A7). unfold initial_mode. rewrite (factor_value t j) by (lia || (rewrite ?A1, ?A2; reflexivity)). cbn [bind].
    eexists. split; [reflexivity|]. cbn [with_facs with_attrs facs checks attrs en_ cn_ iters log]. rewrite upd_length. split; [auto 10|].
    intros m. destruct (Nat.eq_dec m j) as [->|Hne].
    - split; [|intros; lia]. intros _. split; [apply nth_upd_eq; lia|]. destruct (A7 j) as [_ B]. rewrite <- (B ltac:(lia)). apply scale_all_same, ND.
    - destruct (A7 m) as [B1 B2]. split.
      + intros Hm. destruct (B1 ltac:(lia)) as [C1 C2]. split; [rewrite nth_upd_ne by lia; exact C1|].
        eapply scaled_ext; [|exact C2]. intros nm i. symmetry. apply scale_all_other; assumption.
      + intros Hm. rewrite <- (B2 ltac:(lia)). clear - ND Hne. revert Hne. generalize (attrs t). generalize (fac j). intros f at0 Hne.
        unfold scale_all. clear ND. revert at0. induction (d_names d) as [|x l IH]; intros at0; [reflexivity|]. cbn [fold_left]. rewrite IH.
        unfold scale_attr. apply Nat.eqb_neq in Hne. rewrite Hne. reflexivity. }
  { unfold s0. cbn [en_ cn_ iters log checks facs attrs]. rewrite repeat_length. split; [auto 10|]. intros m. split; [lia|reflexivity]. }
  rewrite E1. cbn [bind].
  destruct (forM_seq_ok (fun k t => (attrs t = attrs s1 /\ facs t = facs s1 /\ iters t = 0%nat /\ log t = [] /\ checks t = repeat true (d_modes d)) /\
     forall m, (1 <= m < k)%nat -> en_ t m = fac m ^ 2 * e m /\ cn_ t m = fac m ^ 2 * c m) (compute_energy d) (d_modes d) 1 s1) as (s2 & E2 & (Q1 & Q2 & Q3 & Q4 & Q5) & Q6).
  { intros j t Hj ((A1 & A2 & A3 & A4 & A5) & A6). unfold compute_energy. destruct (P7 j) as [B _]. destruct (B ltac:(lia)) as [_ B2].
    rewrite A1. rewrite (HQ a (attrs s1) j (fac j) (e j) (c j) (fac_pos j ltac:(lia)) (HE j ltac:(lia)) B2). cbn [bind fst snd].
    eexists. split; [reflexivity|]. cbn [with_energy attrs facs iters log checks en_ cn_]. split; [auto 10|]. intros m Hm.
    destruct (Nat.eqb_spec m j) as [->|Hne]; [auto|]. apply A6. lia. }
  { split; [auto 10|]. intros; lia. }
  rewrite E2. cbn [bind].
  destruct (forM_seq_ok (fun k t => (attrs t = attrs s1 /\ facs t = facs s1 /\ iters t = 0%nat /\ log t = [] /\ en_ t = en_ s2 /\ cn_ t = cn_ s2 /\ List.length (checks t) = d_modes d) /\
     (forall m, (1 <= m < k)%nat -> nth (m - 1) (checks t) false = false) /\ (forall m, (k <= m <= d_modes d)%nat -> nth (m - 1) (checks t) false = true))
     (check_mode d) (d_modes d) 1 s2) as (s3 & E3 & (R1 & R2 & R3 & R4 & R5 & R6 & R7) & R8 & _).
  { intros j t Hj ((A1 & A2 & A3 & A4 & A5 & A6 & A7) & A8 & A9). unfold check_mode. rewrite A9 by lia.
    destruct (check_ok d cv HC t j) as (u & Eu & U1 & U2 & U3 & U4 & U5 & U6 & U7). exists u. split; [exact Eu|].
    assert (Hq : quantity cv (en_ t j, cn_ t j) = goal d cv).
    { rewrite A5, A6. destruct (Q6 j ltac:(lia)) as [X1 X2]. rewrite X1, X2. rewrite <- (fac_sq j) by lia. unfold quantity. destruct cv; reflexivity. }
    rewrite Hq, Hnp in U7. destruct (Req_EM_T (goal d cv) (goal d cv)) as [_|X]; [|congruence].
    rewrite U1, U2, U3, U4, U5, U6, U7, upd_length. split; [auto 10|]. split.
    - intros m Hm. destruct (Nat.eq_dec m j) as [->|Hne]; [apply nth_upd_eq; lia|]. rewrite nth_upd_ne by lia. apply A8. lia.
    - intros m Hm. rewrite nth_upd_ne by lia. apply A9. lia. }
  { rewrite Q5, repeat_length. split; [auto 10|]. split; [intros; lia|]. intros m Hm.
    rewrite (nth_indep _ false true) by (rewrite repeat_length; lia). apply nth_repeat. }
  rewrite E3. cbn [bind].
  assert (HA : any (checks s3) = false).
  { apply any_false. intros i. destruct (Nat.lt_ge_cases i (d_modes d)); [|apply nth_overflow; lia].
    replace i with (S i - 1)%nat by lia. apply R8. lia. }
  unfold iteratively_refine. rewrite HA, andb_false_r. exists s3. split; [reflexivity|]. split; [exact R3|]. split; [exact R4|]. split.
  - intros b Hb. apply (In_nth _ _ false) in Hb. destruct Hb as (i & _ & <-). apply any_false. exact HA.
  - intros m Hm. rewrite R1, R2, R5, R6. destruct (P7 m) as [B _]. destruct (B ltac:(lia)) as [B1 B2]. destruct (Q6 m ltac:(lia)) as [B3 B4]. auto.
Qed.
End Exact.

(** ** Log records and the iteration limit *)
Section Log.
Variable d : setup.
Lemma log_initial m s s' : initial_mode d m s = Ok s' -> log s' = log s.
Proof. unfold initial_mode. destruct (factor_from_object d s m); try discriminate. cbn [bind]. intros E. injection E as <-. reflexivity. Qed.
Lemma log_compute m s s' : compute_energy d m s = Ok s' -> log s' = log s.
Proof. unfold compute_energy. destruct (d_comp d (attrs s) m); try discriminate. cbn [bind]. intros E. injection E as <-. reflexivity. Qed.
Lemma log_check m s s' : check_normalization d m s = Ok s' -> log s' = log s.
Proof. unfold check_normalization. destruct (target_value d s m); try discriminate. cbn [bind]. intros E. injection E as <-. reflexivity. Qed.
Lemma log_check_mode m s s' : check_mode d m s = Ok s' -> log s' = log s.
Proof. unfold check_mode. destruct (nth (m - 1) (checks s) false); [apply log_check|]. intros E. injection E as <-. reflexivity. Qed.
Lemma log_refine m s s' : refine_mode d m s = Ok s' -> log s' = log s.
Proof.
  unfold refine_mode. destruct (factor_from_object d s m); try discriminate. cbn [bind]. destruct (nth (m - 1) (facs s) None); try discriminate. cbn [bind].
  match goal with |- bind (compute_energy d m ?t) _ = _ -> _ => destruct (compute_energy d m t) as [s3| |] eqn:E3; try discriminate end. cbn [bind]. intros E.
  apply log_check in E. apply log_compute in E3. rewrite E, E3. reflexivity.
Qed.
Lemma log_one nrs s s' : log_devs d nrs s = Ok s' -> exists devs, log s' = log s ++ [(nrs, devs)].
Proof. unfold log_devs. destruct (mapM _ nrs) as [l| |]; try discriminate. cbn [bind]. intros E. injection E as <-. exists l. reflexivity. Qed.
Lemma forM_log f l s s' : (forall x s s', f x s = Ok s' -> log s' = log s) -> forM l f s = Ok s' -> log s' = log s.
Proof.
  intros H. apply (forM_inv (fun t => log t = log s) f l s s'); [|reflexivity].
  intros x t t' _ Ht Et. rewrite (H _ _ _ Et). exact Ht.
Qed.
Lemma looper_log k : forall last s s', looper d k last s = Ok s' ->
  (iters s' < iters s + k)%nat /\ log s' = log s /\ any (checks s') = false \/
  iters s' = (iters s + k)%nat /\ exists nrs devs, log s' = log s ++ [(nrs, devs)].
Proof.
  induction k as [|k IH]; intros last s s' E; cbn [looper] in E.
  - destruct last as [nrs|]; [|discriminate]. right. split; [apply iters_log in E; lia|]. apply log_one in E. destruct E as [devs E]. eauto.
  - destruct (negb (any (checks s))) eqn:En.
    + injection E as <-. left. split; [lia|]. split; [reflexivity|]. destruct (any (checks s)); [discriminate|reflexivity].
    + match type of E with bind ?x _ = _ => destruct x as [s2| |] eqn:E2; try discriminate end. cbn [bind] in E.
      pose proof (forM_log _ _ _ _ log_refine E2) as HL. cbn [with_iters log] in HL.
      apply (forM_iters _ _ _ _ (iters_refine d)) in E2. cbn [with_iters iters] in E2. apply IH in E. rewrite HL, E2 in E.
      destruct E as [(A & B & C)|(A & B)]; [left|right]; (split; [lia|]); auto.
Qed.
(** the state in which the first check is finished *)
Definition first_pass (a : attributes) (e c : nat -> R) : res st :=
  let s0 := {| attrs := a; en_ := e; cn_ := c; facs := repeat None (d_modes d);
               checks := repeat true (d_modes d); iters := 0; log := [] |} in
  s1 <- forM (seq 1 (d_modes d)) (initial_mode d) s0 ;
  s2 <- forM (seq 1 (d_modes d)) (compute_energy d) s1 ;
  forM (seq 1 (d_modes d)) (check_mode d) s2.
Lemma normalise_first a e c : normalise d a e c = bind (first_pass a e c) (iteratively_refine d).
Proof.
  unfold normalise, first_pass. destruct (forM _ (initial_mode d) _) as [s1| |]; cbn [bind]; try reflexivity.
  destruct (forM _ (compute_energy d) _) as [s2| |]; cbn [bind]; try reflexivity.
Qed.
Lemma first_log a e c s : first_pass a e c = Ok s -> log s = [] /\ iters s = 0%nat.
Proof.
  unfold first_pass. intros E.
  match type of E with bind ?x _ = _ => destruct x as [s1| |] eqn:E1; try discriminate end. cbn [bind] in E.
  match type of E with bind ?x _ = _ => destruct x as [s2| |] eqn:E2; try discriminate end. cbn [bind] in E.
  split.
  - rewrite (forM_log _ _ _ _ log_check_mode E), (forM_log _ _ _ _ log_compute E2), (forM_log _ _ _ _ log_initial E1). reflexivity.
  - rewrite (forM_iters _ _ _ _ (iters_check_mode d) E), (forM_iters _ _ _ _ (iters_compute d) E2), (forM_iters _ _ _ _ (iters_initial d) E1). reflexivity.
Qed.
Lemma normalise_log a e c s' : d_iterate d = true -> normalise d a e c = Ok s' ->
  (any (checks s') = false /\ log s' = [] /\ (d_max d = 0 \/ iters s' < d_max d)%nat) \/
  iters s' = d_max d /\ (1 <= d_max d)%nat /\ exists nrs devs, log s' = [(nrs, devs)].
Proof.
  intros Hi E. rewrite normalise_first in E. destruct (first_pass a e c) as [s| |] eqn:EF; try discriminate. cbn [bind] in E.
  apply first_log in EF. destruct EF as [L I]. unfold iteratively_refine in E. rewrite Hi in E. cbn [andb] in E.
  destruct (any (checks s)) eqn:EA.
  - destruct (d_max d) as [|k] eqn:Ek; [discriminate E|]. apply looper_log in E. rewrite L, I in E. cbn in E. destruct E as [(A & B & C)|(A & B)].
    + left. split; [exact C|]. split; [exact B|]. right. lia.
    + right. split; [exact A|]. split; [lia|]. exact B.
  - injection E as <-. left. split; [exact EA|]. split; [exact L|]. lia.
Qed.
End Log.

(** ** The coupler *)
From Coq Require Import FunctionalExtensionality.
From Verif Require Import Coupling_Model Coupling_Spec Coupling_Proofs.

Lemma enum_names_nodup : NoDup enum_radial /\ NoDup enum_radial_poly.
Proof.
  split; unfold enum_radial, enum_radial_poly;
    repeat (constructor; [cbn; intros H; repeat (destruct H as [H|H]; [discriminate|]); exact H|]); constructor.
Qed.
Lemma rname_in t : In (rname t) enum_radial /\ In (rname t) enum_radial_poly.
Proof. destruct t; cbn; tauto. Qed.
Lemma rname_in_if t (b : bool) : In (rname t) (if b then enum_radial_poly else enum_radial).
Proof. destruct (rname_in t), b; assumption. Qed.

Lemma standard_with E a : standard E -> standard (with_attributes E a).
Proof. intros H; exact H. Qed.
Lemma volume_quadratic E a b c m r h h' w : homogeneous (e_integ E) -> (2 <= e_n E)%nat ->
  (forall i, b m (rname r) i = (RtoC c * a m (rname r) i)%C) ->
  volume_value (with_attributes E b) m r h h' w = c ^ 2 * volume_value (with_attributes E a) m r h h' w.
Proof.
  intros Hh Hn Hs. unfold volume_value. cbn [with_attributes with_rad e_ang e_integ e_x e_rhon e_rad e_n].
  rewrite (map_ext _ (fun i => c ^ 2 * (e_x E i ^ 2 * e_rhon E i * Re (a m (rname r) i * a m (rname r) i)%C))).
  - rewrite <- (map_map (fun i => e_x E i ^ 2 * e_rhon E i * Re (a m (rname r) i * a m (rname r) i)%C) (Rmult (c ^ 2))).
    rewrite Hh by (rewrite ?map_length, ?seq_length; lia).
    change (regular_theta (with_attributes E b)) with (regular_theta (with_attributes E a)). change (e_mu (with_attributes E b)) with (e_mu (with_attributes E a)). ring.
  - intros i. rewrite Hs. unfold Re, Cmult, RtoC. cbn [fst snd]. ring.
Qed.
Lemma coupler_comp_value E a m : standard E ->
  let E' := with_attributes E a in
  let N := volume_value E' m RXZ1 Hr Hr false + volume_value E' m RXZ2c Ht Ht false + volume_value E' m RXZ2c Hp Hp false in
  let Cor := volume_value E' m RXZ2c Ht Hp true in
  let b := (2 * e_corot E m * N + 4 * e_surf E * Cor) * (e_normrho E * e_R E ^ 5) in
  coupler_comp E a m = Ok (2 * PI * (e_corot E m * b), 2 * PI * N).
Proof.
  intros Hs. cbv zeta. unfold coupler_comp. rewrite energy_ok by exact Hs. reflexivity.
Qed.
Lemma coupler_scale E a b m c e k : standard E -> homogeneous (e_integ E) -> (2 <= e_n E)%nat ->
  (forall t i, b m (rname t) i = (RtoC c * a m (rname t) i)%C) ->
  coupler_comp E a m = Ok (e, k) -> coupler_comp E b m = Ok (c ^ 2 * e, c ^ 2 * k).
Proof.
  intros Hs Hh Hn Hb Ha. rewrite coupler_comp_value in Ha by exact Hs. rewrite coupler_comp_value by exact Hs.
  assert (HI : forall x y : R * R, Ok x = Ok y -> x = y) by (intros x y H; injection H; auto). apply HI in Ha. clear HI.
  rewrite !(volume_quadratic E a b c) by (assumption || (intros i; apply Hb)).
  apply (f_equal (@Ok (R * R))). pose proof (f_equal fst Ha) as H1. pose proof (f_equal snd Ha) as H2. cbn [fst snd] in H1, H2. rewrite <- H1, <- H2. apply f_equal2; ring.
Qed.
Lemma coupler_quadratic E : standard E -> homogeneous (e_integ E) -> (2 <= e_n E)%nat ->
  quadratic_energy (if e_poly E then enum_radial_poly else enum_radial) (coupler_comp E).
Proof.
  intros Hs Hh Hn a b m c e k _ Ha [Hb _]. eapply coupler_scale; try eassumption.
  intros t i. apply Hb. apply rname_in_if.
Qed.

Definition tri (f : nat -> R) : R := f 1%nat * f 2%nat * f 3%nat.
Lemma coefficient_scale E a b t : standard E -> homogeneous (e_integ E) -> (2 <= e_n E)%nat ->
  (forall m r i, b m (rname r) i = (RtoC (t m) * a m (rname r) i)%C) ->
  exists k, coupling_coefficient (with_attributes E a) = Ok k /\ coupling_coefficient (with_attributes E b) = Ok (tri t * k).
Proof.
  intros Hs Hh Hn Hb.
  assert (HE : with_attributes E b = scale_modes t (with_attributes E a)).
  { unfold with_attributes, scale_modes, with_rad. cbn [e_rad e_n e_x e_nmu e_mu e_ang e_m e_conj e_self e_complex e_cheby e_cheby_mul e_blow e_blow_fac e_poly e_P e_G1 e_rhon e_rho e_adder e_g1 e_g2 e_g3 e_normP e_normrho e_R e_corot e_surf e_integ].
    f_equal. extensionality r. extensionality m. extensionality i. apply Hb. }
  destruct (coupling_scale t (with_attributes E a) (e_n E) Hs Hh Hn Hn) as (r & Er & r' & Er' & _ & _ & _ & _ & H).
  exists (cc_tot r). unfold coupling_coefficient. rewrite HE. change (e_n (scale_modes t (with_attributes E a))) with (e_n E). change (e_n (with_attributes E a)) with (e_n E).
  rewrite Er, Er'. cbn [bind]. split; [reflexivity|]. rewrite H. reflexivity.
Qed.

Section Coupler.
Variable E : cenv.
Variables G M : R.
Variable a : attributes.
Variable e k : nat -> R.
Hypothesis Hs : standard E. Hypothesis Hh : homogeneous (e_integ E). Hypothesis Hn : (2 <= e_n E)%nat.
Hypothesis HG : 0 < G. Hypothesis HM : 0 < M. Hypothesis HR : 0 < e_R E.
Hypothesis He : forall m, (1 <= m <= 3)%nat -> coupler_comp E a m = Ok (e m, k m) /\ 0 < e m.
Let gl := G * M ^ 2 / e_R E.
Let fac (m : nat) : R := sqrt (gl / e m).

Lemma coupler_exact : exists s, coupler_normalisation E G M a = Ok s /\
  (forall m, (1 <= m <= 3)%nat -> nth (m - 1) (facs s) None = Some (fac m) /\ en_ s m = gl /\
     scaled_by (if e_poly E then enum_radial_poly else enum_radial) (fac m) (attrs s m) (a m)) /\
  (forall m, ~ (1 <= m <= 3)%nat -> forall nm i, attrs s m nm i = a m nm i).
Proof.
  unfold coupler_normalisation. destruct (He 1 ltac:(lia)) as [E1 _]. destruct (He 2 ltac:(lia)) as [E2 _]. destruct (He 3 ltac:(lia)) as [E3 _].
  rewrite E1, E2, E3. cbn [bind].
  match goal with |- exists s, normalise ?d0 a ?e0 ?c0 = _ /\ _ => set (d := d0); set (e1 := e0); set (c1 := c0) end.
  assert (ND : NoDup (d_names d)) by (cbn; destruct enum_names_nodup, (e_poly E); assumption).
  assert (He1 : forall m, (1 <= m <= 3)%nat -> e1 m = e m /\ c1 m = k m).
  { intros m Hm. unfold e1, c1. destruct (Nat.eqb_spec m 1) as [->|]; [auto|]. destruct (Nat.eqb_spec m 2) as [->|]; [auto|]. assert (m = 3%nat) as -> by lia. auto. }
  destruct (normalise_exact d Lee2012 a e1 c1 ND eq_refl) as (s & Es & _ & _ & _ & H); try assumption; try reflexivity.
  - apply coupler_quadratic; assumption.
  - intros m Hm. destruct (He1 m Hm) as [-> ->]. apply He, Hm.
  - intros m Hm. cbn. destruct (He1 m Hm) as [-> _]. apply He, Hm.
  - exists s. split; [exact Es|]. split.
    + intros m Hm. destruct (H m Hm) as (A & B & C & _). destruct (He1 m Hm) as [X _]. cbn [quantity goal fst] in A, B, C. rewrite X in A, B, C.
      cbn [d d_G d_M d_R] in A, B, C. split; [exact A|]. split; [|exact B]. rewrite C. fold gl. destruct (He m Hm) as [_ Hp].
      assert (0 < gl) by (unfold gl; apply Rdiv_lt_0_compat; [pose proof (pow_lt _ 2 HM); nra|exact HR]).
      rewrite pow2_sqrt; [field; lra|]. apply Rlt_le, Rdiv_lt_0_compat; assumption.
    + intros m Hm nm i. destruct (normalise_inv d ND a e1 c1 s Es) as (_ & _ & HI). destruct (HI m) as [_ HI2]. apply HI2. cbn. lia.
Qed.
Lemma coupler_value : exists kappa, coupling_coefficient (with_attributes E a) = Ok kappa /\
  coupler_normed E G M a = Ok (fac 1%nat * fac 2%nat * fac 3%nat * kappa / gl).
Proof.
  destruct coupler_exact as (s & Es & H1 & H2).
  destruct (coefficient_scale E a (attrs s) (fun m => if (1 <=? m)%nat && (m <=? 3)%nat then fac m else 1) Hs Hh Hn) as (kappa & K1 & K2).
  - intros m r i. destruct ((1 <=? m)%nat && (m <=? 3)%nat) eqn:Em.
    + apply andb_prop in Em. destruct Em as [X Y]. apply Nat.leb_le in X, Y. destruct (H1 m ltac:(lia)) as (_ & _ & [B _]). apply B. apply rname_in_if.
    + rewrite H2; [ring|]. intros [X Y]. apply Nat.leb_le in X, Y. rewrite X, Y in Em. discriminate.
  - exists kappa. split; [exact K1|]. unfold coupler_normed. rewrite Es. cbn [bind]. rewrite K2. cbn [bind].
    destruct (H1 1%nat ltac:(lia)) as (_ & X & _). rewrite X. reflexivity.
Qed.
End Coupler.

Lemma coupler_amplitude_independent E G M a b (t e k : nat -> R) :
  standard E -> homogeneous (e_integ E) -> (2 <= e_n E)%nat -> 0 < G -> 0 < M -> 0 < e_R E ->
  (forall m, (1 <= m <= 3)%nat -> coupler_comp E a m = Ok (e m, k m) /\ 0 < e m) ->
  (forall m r i, b m (rname r) i = (RtoC (t m) * a m (rname r) i)%C) ->
  (forall m, (1 <= m <= 3)%nat -> t m <> 0) ->
  exists v, coupler_normed E G M a = Ok v /\
    coupler_normed E G M b = Ok (tri t / Rabs (tri t) * v).
Proof.
  intros Hs Hh Hn HG HM HR He Hb Ht.
  destruct (coupler_value E G M a e k Hs Hh Hn HG HM HR He) as (kap & K1 & K2).
  destruct (coupler_value E G M b (fun m => t m ^ 2 * e m) (fun m => t m ^ 2 * k m) Hs Hh Hn HG HM HR) as (kap' & K1' & K2').
  { intros m Hm. destruct (He m Hm) as [A B]. split; [eapply coupler_scale; eauto|].
    assert (0 < t m ^ 2) by (rewrite <- Rsqr_pow2; apply Rsqr_pos_lt; exact (Ht m Hm)). nra. }
  destruct (coefficient_scale E a b t Hs Hh Hn Hb) as (kk & C1 & C2). rewrite K1 in C1. rewrite K1' in C2.
  assert (HI : forall x y : R, Ok x = Ok y -> x = y) by (intros x y H; injection H; auto). apply HI in C1. apply HI in C2. subst kk kap'.
  eexists. split; [exact K2|]. rewrite K2'. apply (f_equal (@Ok R)).
  assert (Hgl : 0 < G * M ^ 2 / e_R E) by (apply Rdiv_lt_0_compat; [pose proof (pow_lt _ 2 HM); nra|exact HR]).
  set (gl := G * M ^ 2 / e_R E) in *.
  assert (HF : forall m, (1 <= m <= 3)%nat -> sqrt (gl / (t m ^ 2 * e m)) = sqrt (gl / e m) / Rabs (t m)).
  { intros m Hm. destruct (He m Hm) as [_ Hp]. pose proof (Ht m Hm) as Hm0. assert (0 < t m ^ 2) by (rewrite <- Rsqr_pow2; apply Rsqr_pos_lt; exact Hm0).
    replace (gl / (t m ^ 2 * e m)) with (gl / e m / t m ^ 2) by (field; split; [lra|exact Hm0]).
    assert (0 < gl / e m) by (apply Rdiv_lt_0_compat; assumption).
    rewrite sqrt_div_alt by assumption. f_equal. rewrite <- Rsqr_pow2. apply sqrt_Rsqr_abs. }
  rewrite (HF 1%nat), (HF 2%nat), (HF 3%nat) by lia. unfold tri. rewrite !Rabs_mult.
  pose proof (Rabs_no_R0 _ (Ht 1%nat ltac:(lia))). pose proof (Rabs_no_R0 _ (Ht 2%nat ltac:(lia))). pose proof (Rabs_no_R0 _ (Ht 3%nat ltac:(lia))).
  field. repeat split; try assumption; lra.
Qed.
