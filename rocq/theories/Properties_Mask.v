(** * Properties C57, C79, C80: isolation, threshold-luminosity and combined masks. *)
From Coq Require Import Reals List ZArith Bool Lia Lra Permutation.
From Verif Require Import Base Py Mask_Model Mask_Spec Mask_Proofs.
Import ListNotations.
Local Open Scope R_scope.

(** ** a valid argpartition exists (sorting all indices), so the hypothesis below is satisfiable *)
Fixpoint insk (key : nat -> R) (x : nat) (l : list nat) : list nat :=
  match l with [] => [x] | y :: t => if dleb (key x) (key y) then x :: l else y :: insk key x t end.
Definition argsort (l : list R) : list nat := fold_right (insk (fun i => nth i l 0)) [] (seq 0 (List.length l)).
Inductive ksorted (key : nat -> R) : list nat -> Prop :=
| ks_nil : ksorted key []
| ks_cons x l : (forall y, In y l -> key x <= key y) -> ksorted key l -> ksorted key (x :: l).
Lemma insk_perm key x l : Permutation (insk key x l) (x :: l).
Proof. induction l as [|y l IH]; [reflexivity|]. cbn. destruct (dleb _ _); [reflexivity|]. rewrite IH. apply perm_swap. Qed.
Lemma insk_sorted key x l : ksorted key l -> ksorted key (insk key x l).
Proof.
  induction 1 as [|y l H K IH]; cbn; [constructor; [contradiction|constructor]|]. destruct (dleb (key x) (key y)) eqn:E.
  - apply dleb_spec in E. constructor; [|constructor; assumption]. intros z [<-|Hz]; [exact E|]. eapply Rle_trans; [exact E|auto].
  - assert (key y <= key x). { destruct (Rle_lt_dec (key x) (key y)) as [L|L]; [apply dleb_spec in L; congruence|lra]. }
    constructor; [|exact IH]. intros z Hz. apply (Permutation_in _ (insk_perm key x l)) in Hz. destruct Hz as [<-|Hz]; auto.
Qed.
Lemma argsort_valid : valid_argpartition argsort.
Proof.
  intros l L. set (key := fun i => nth i l 0).
  assert (P : Permutation (argsort l) (seq 0 (List.length l))).
  { unfold argsort. fold key. generalize (seq 0 (List.length l)) as s. induction s as [|x s IH]; [reflexivity|]. cbn. rewrite insk_perm. constructor. exact IH. }
  assert (K : ksorted key (argsort l)).
  { unfold argsort. fold key. generalize (seq 0 (List.length l)) as s. induction s as [|x s IH]; [constructor|]. cbn. apply insk_sorted. exact IH. }
  pose proof (Permutation_length P) as PL. rewrite seq_length in PL.
  destruct (argsort l) as [|i [|j rest]] eqn:E; cbn in PL; try lia.
  inversion K as [|? ? A K' ]. subst. inversion K' as [|? ? B K'']. subst.
  exists i, j, rest. split; [reflexivity|]. split; [exact P|]. split; [apply A; left; reflexivity|].
  intros k Hk N. assert (Ik : In k (i :: j :: rest)) by (apply (Permutation_in _ (Permutation_sym P)), in_seq; lia).
  destruct Ik as [->|[->|Ik]]; [congruence|lra|apply B, Ik].
Qed.

(** concrete table used below: parent 5 takes part in two triads, parent 7 in two others *)
Definition demo (t1 t2 t3 t4 : R) : list row :=
  [ Row (5, 1, 2)%Z (Some t1) (Some (/ 10 ^ 6), None, None) (Some 0.01) [true; false; true; true; true; true];
    Row (5, 3, 4)%Z (Some t2) (Some (/ 10 ^ 6), None, None) (Some 0.5) [true; false; true; true; true; false];
    Row (7, 5, 6)%Z (Some t3) (Some (/ 10 ^ 6), None, None) None [true; false; true; false; true; true];
    Row (7, 8, 9)%Z (Some t4) (Some (/ 10 ^ 6), None, None) (Some 0) [true; false; true; true; true; true];
    Row (5, 1, 2)%Z None (None, None, None) (Some 0) [false; true; true; true; true; true] ].

(** ** C57: isolation mask *)
Lemma isolation_inv part d m : valid_argpartition part -> isolation_mask_lowest_thresh_amp part d = Ok m ->
  m = map (fun r => valuedb r && same_lowest (vrows d) r && verdict part (vrows d) (parent r)) d /\
  forall r t, In r d -> thresh r = Some t -> crowded (vrows d) (parent r) = true.
Proof.
  intros V H. rewrite isolation_ok in H by exact V. destruct (forallb _ _) eqn:F; [|discriminate]. injection H as <-. split; [reflexivity|].
  intros r t Hr Et. rewrite forallb_forall in F. apply F. apply uniq_in. exists r. split; [apply vrows_in; eauto|reflexivity].
Qed.
Lemma isolation_nth part d m i r : valid_argpartition part -> isolation_mask_lowest_thresh_amp part d = Ok m -> nth_error d i = Some r ->
  (holds m i <-> (exists t, thresh r = Some t) /\ modes_agree d r /\ verdict part (vrows d) (parent r) = true).
Proof.
  intros V H Hi. destruct (isolation_inv _ _ _ V H) as [-> _]. unfold holds. rewrite nth_error_map, Hi. cbn.
  assert (Hr : In r d) by (eapply nth_error_In; exact Hi).
  destruct (thresh r) as [t|] eqn:Et.
  - assert (In r (vrows d)) by (apply vrows_in; eauto). unfold valuedb. rewrite Et. cbn [isnan negb andb].
    rewrite <- same_lowest_spec by assumption. split.
    + intros E. injection E as E. apply andb_true_iff in E. destruct E. split; [eauto|auto].
    + intros (_ & -> & ->). reflexivity.
  - unfold valuedb. rewrite Et. split; [discriminate|]. intros ((t & C) & _). discriminate.
Qed.

(** whatever admissible index array numpy's argpartition returns: the mask has one entry per triad; a
    flagged triad has a threshold, the lowest thresholds of its three modes agree to 1e-14, and the
    parent's equilibrium fluctuation in its lowest-threshold triad is below its second-lowest
    threshold; conversely a triad for which this holds (for all admissible choices among ties) is flagged *)
Theorem C57_isolation_mask_meaning : forall part d m, valid_argpartition part ->
  isolation_mask_lowest_thresh_amp part d = Ok m ->
  List.length m = List.length d /\
  forall k r, nth_error d k = Some r ->
    (holds m k -> (exists t, thresh r = Some t) /\ modes_agree d r /\
                  exists i j, two_lowest d (parent r) i j /\ equilibrium_below d i j) /\
    ((exists t, thresh r = Some t) -> modes_agree d r ->
     (forall i j, two_lowest d (parent r) i j -> equilibrium_below d i j) -> holds m k).
Proof.
  intros part d m V H. split; [destruct (isolation_inv _ _ _ V H) as [-> _]; apply map_length|].
  intros k r Hk. rewrite (isolation_nth part d m k r V H Hk). destruct (isolation_inv _ _ _ V H) as [_ C]. split.
  - intros ((t & Et) & A & B). split; [eauto|]. split; [exact A|].
    destruct (verdict_spec part d (parent r) V (C r t (nth_error_In _ _ Hk) Et)) as (i & j & T & E). exists i, j. split; [exact T|apply E, B].
  - intros (t & Et) A B. split; [eauto|]. split; [exact A|].
    destruct (verdict_spec part d (parent r) V (C r t (nth_error_In _ _ Hk) Et)) as (i & j & T & E). apply E, B, T.
Qed.
(** with a unique lowest-threshold triad per parent the mask is completely determined *)
Theorem C57_isolation_mask_determined : forall part d m k r i j, valid_argpartition part ->
  isolation_mask_lowest_thresh_amp part d = Ok m -> nth_error d k = Some r ->
  two_lowest d (parent r) i j ->
  (forall c tc a ta, nth_error d i = Some a -> thresh a = Some ta -> forall l, l <> i -> nth_error d l = Some c -> parent c = parent r -> thresh c = Some tc -> ta < tc) ->
  (holds m k <-> (exists t, thresh r = Some t) /\ modes_agree d r /\ equilibrium_below d i j).
Proof.
  intros part d m k r i j V H Hk T U. rewrite (isolation_nth part d m k r V H Hk).
  assert (C : crowded (vrows d) (parent r) = true) by (eapply two_lowest_crowded; exact T).
  destruct (verdict_spec part d (parent r) V C) as (i' & j' & T' & E).
  assert (G : equilibrium_below d i' j' <-> equilibrium_below d i j).
  { destruct T as (N & a & b & ta & tb & Ha & Hb & Pa & Pb & Ta & Tb & L & M).
    destruct T' as (N' & a' & b' & ta' & tb' & Ha' & Hb' & Pa' & Pb' & Ta' & Tb' & L' & M').
    assert (i' = i).
    { destruct (Nat.eq_dec i' i) as [->|Ne]; [reflexivity|]. exfalso.
      pose proof (U a' ta' a ta Ha Ta i' Ne Ha' Pa' Ta') as X.
      destruct (Nat.eq_dec j' i) as [->|Nj].
      - rewrite Ha in Hb'. injection Hb' as <-. rewrite Ta in Tb'. injection Tb' as <-. lra.
      - pose proof (M' i a ta Ha (not_eq_sym Ne) Pa Ta). lra. }
    subst i'. rewrite Ha in Ha'. injection Ha' as <-.
    assert (tb = tb'). { pose proof (M j' b' tb' Hb' (not_eq_sym N') Pb' Tb'). pose proof (M' j b tb Hb (not_eq_sym N) Pb Tb). lra. }
    subst tb'. unfold equilibrium_below. split; intros (x & y & s & t & X1 & X2 & X3 & X4 & X5).
    - exists x, b, s, tb. rewrite Hb' in X2. injection X2 as <-. rewrite Tb' in X4. injection X4 as <-. auto.
    - exists x, b', s, tb. rewrite Hb in X2. injection X2 as <-. rewrite Tb in X4. injection X4 as <-. auto. }
  rewrite <- G, E. tauto.
Qed.
(** the mask is computed iff every triad with a threshold shares its parent with another such triad;
    otherwise ValueError *)
Theorem C57_succeeds_iff_no_parent_is_alone : forall part d, valid_argpartition part ->
  let crowd := forall k r t, nth_error d k = Some r -> thresh r = Some t ->
     exists l c tc, l <> k /\ nth_error d l = Some c /\ parent c = parent r /\ thresh c = Some tc in
  (crowd -> exists m, isolation_mask_lowest_thresh_amp part d = Ok m) /\
  (~ crowd -> isolation_mask_lowest_thresh_amp part d = Exc ValueError).
Proof.
  intros part d V crowd. rewrite isolation_ok by exact V.
  assert (G : forallb (crowded (vrows d)) (uniq (vrows d) 0) = true <-> crowd).
  { rewrite forallb_forall. split.
    - intros F k r t Hk Et. assert (U : In (parent r) (uniq (vrows d) 0)) by (apply uniq_in; exists r; split; [apply vrows_in; split; [eapply nth_error_In; exact Hk|eauto]|reflexivity]).
      specialize (F _ U). apply crowded_spec in F. destruct F as (i & j & a & b & N & Ha & Hb & Pa & Pb & (ta & Ta) & (tb & Tb)).
      destruct (Nat.eq_dec i k) as [->|Ne]; [exists j, b, tb|exists i, a, ta]; auto.
    - intros F n Hn. apply uniq_in in Hn. destruct Hn as (r & Hr & En). apply vrows_in in Hr. destruct Hr as (Hr & t & Et).
      apply In_nth_error in Hr. destruct Hr as (k & Hk). destruct (F k r t Hk Et) as (l & c & tc & N & Hl & Pc & Tc).
      apply crowded_spec. exists l, k, c, r. change (parent r = n) in En. rewrite Pc, En. eauto 10. }
  destruct (forallb _ _); split; intros H; try reflexivity; [eexists; reflexivity| |].
  - exfalso. apply H, G. reflexivity.
  - apply G in H. discriminate.
Qed.
(** finding: a table whose valued triads all have different parents, in particular any table with a
    single such triad, always raises ValueError, although each parent then has only one triad *)
Theorem C57_tables_of_lonely_parents_always_fail : forall part d k r t, valid_argpartition part ->
  nth_error d k = Some r -> thresh r = Some t ->
  (forall l c, l <> k -> nth_error d l = Some c -> parent c <> parent r) ->
  isolation_mask_lowest_thresh_amp part d = Exc ValueError.
Proof.
  intros part d k r t V Hk Et N. apply (proj2 (C57_succeeds_iff_no_parent_is_alone part d V)).
  intros C. destruct (C k r t Hk Et) as (l & c & tc & Nl & Hl & Pc & _). exact (N l c Nl Hl Pc).
Qed.
(** when the flagged triad itself attains its parent's lowest threshold (as the only triad of an isolated
    coupling does), no triad sharing its parent, or sharing a daughter as daughter, has a lower threshold *)
Theorem C57_flagged_minimal_triads_have_the_lowest_threshold : forall part d m k r t, valid_argpartition part ->
  isolation_mask_lowest_thresh_amp part d = Ok m -> nth_error d k = Some r -> holds m k ->
  thresh r = Some t -> lowest_threshold d (has_parent (parent r)) t ->
  forall c tc, In c d -> thresh c = Some tc ->
    parent c = parent r \/ has_daughter (daughter1 r) c \/ has_daughter (daughter2 r) c -> t - / 10 ^ 14 <= tc.
Proof.
  intros part d m k r t V H Hk F Et L c tc Hc Tc S. apply (isolation_nth part d m k r V H Hk) in F. destruct F as (_ & (p & d1 & d2 & P & D1 & D2 & A & B) & _).
  rewrite (lowest_unique _ _ _ _ P L) in A, B. assert (0 < / 10 ^ 14) by (apply Rinv_0_lt_compat; apply pow_lt; lra).
  destruct S as [S|[S|S]].
  - pose proof (proj2 L c tc Hc S Tc). lra.
  - pose proof (proj2 D1 c tc Hc S Tc). unfold Rabs in A; destruct (Rcase_abs _) in A; lra.
  - pose proof (proj2 D2 c tc Hc S Tc). unfold Rabs in B. destruct (Rcase_abs _) in B; lra.
Qed.
(** finding: the flag of a valued triad depends only on its radial orders, not on its own threshold: of
    two rows for the same modes with different thresholds both are flagged or none *)
Theorem C57_flag_ignores_the_triads_own_threshold : forall part d m k l r c t t', valid_argpartition part ->
  isolation_mask_lowest_thresh_amp part d = Ok m -> nth_error d k = Some r -> nth_error d l = Some c ->
  rad_ord r = rad_ord c -> thresh r = Some t -> thresh c = Some t' -> (holds m k <-> holds m l).
Proof.
  intros part d m k l r c t t' V H Hk Hl E T T'. rewrite (isolation_nth part d m k r V H Hk), (isolation_nth part d m l c V H Hl).
  unfold modes_agree, parent, daughter1, daughter2. rewrite E, T, T'. split; intros (_ & A & B); (split; [eauto|auto]).
Qed.
(** swapping the two daughters in any of the triads changes nothing *)
Definition swap_daughters (r : row) : row :=
  Row (parent r, daughter2 r, daughter1 r) (thresh r) (surf r) (detuning r) (checks r).
Lemma swap_maps part d f : valid_argpartition part -> (forall r, f r = r \/ f r = swap_daughters r) ->
  isolation_mask_lowest_thresh_amp part (map f d) = isolation_mask_lowest_thresh_amp part d.
Proof.
  intros V F. rewrite !isolation_ok by exact V.
  assert (Fp : forall r, parent (f r) = parent r) by (intros r; destruct (F r) as [-> | ->]; reflexivity).
  assert (Ft : forall r, thresh (f r) = thresh r) by (intros r; destruct (F r) as [-> | ->]; reflexivity).
  assert (Fs : forall r, surf (f r) = surf r) by (intros r; destruct (F r) as [-> | ->]; reflexivity).
  assert (Fd : forall n r, has_daughter n (f r) <-> has_daughter n r) by (intros n r; destruct (F r) as [-> | ->]; [tauto|]; unfold has_daughter, swap_daughters, daughter1, daughter2; cbn; tauto).
  assert (Fv : vrows (map f d) = map f (vrows d)).
  { unfold vrows. clear - Ft. induction d as [|r d IH]; [reflexivity|]. cbn. replace (valuedb (f r)) with (valuedb r) by (unfold valuedb; rewrite Ft; reflexivity). destruct (valuedb r); cbn; [f_equal|]; exact IH. }
  assert (Fg : forall n, group (vrows (map f d)) 0 n = map f (group (vrows d) 0 n)).
  { intros n. rewrite Fv. unfold group. generalize (vrows d) as g. induction g as [|r g IH]; [reflexivity|]. cbn [map filter].
    change (col 0 (rad_ord (f r))) with (parent (f r)). change (col 0 (rad_ord r)) with (parent r). rewrite Fp. destruct (_ =? _)%Z; cbn [map]; [f_equal|]; exact IH. }
  assert (Fu : uniq (vrows (map f d)) 0 = uniq (vrows d) 0).
  { unfold uniq. rewrite Fv, map_map. f_equal. apply map_ext. exact Fp. }
  rewrite Fu. assert (Fc : forall u, forallb (crowded (vrows (map f d))) u = forallb (crowded (vrows d)) u) by (intros u; induction u as [|n u IH]; [reflexivity|]; cbn [forallb]; rewrite IH; f_equal; unfold crowded; rewrite Fg, map_length; reflexivity).
  rewrite Fc.
  destruct (forallb _ _); [|reflexivity]. f_equal. rewrite map_map. apply map_ext_in. intros r Hr. unfold valuedb at 1 2. rewrite Ft.
  destruct (thresh r) as [t|] eqn:Et; [|reflexivity]. cbn [isnan negb andb].
  assert (Hv : In r (vrows d)) by (apply vrows_in; eauto). assert (Hv' : In (f r) (vrows (map f d))) by (rewrite Fv; apply in_map; exact Hv).
  f_equal.
  - assert (Lp : forall P m, (forall x, P (f x) <-> P x) -> (lowest_threshold (map f d) P m <-> lowest_threshold d P m)).
    { intros P m I. unfold lowest_threshold. split; intros [(x & A & B & C) D]; split.
      - apply in_map_iff in A. destruct A as (y & <- & Hy). exists y. rewrite Ft in C. apply (proj1 (I _)) in B. auto.
      - intros y ty Hy Py Ty. apply (D (f y)); [apply in_map; exact Hy|apply (proj2 (I _)); exact Py|rewrite Ft; exact Ty].
      - exists (f x). rewrite Ft. split; [apply in_map; exact A|]. split; [apply (proj2 (I _)); exact B|exact C].
      - intros y ty Hy Py Ty. apply in_map_iff in Hy. destruct Hy as (z & <- & Hz). rewrite Ft in Ty. apply (proj1 (I _)) in Py. eapply D; eassumption. }
    assert (M : modes_agree (map f d) (f r) <-> modes_agree d r).
    { unfold modes_agree. rewrite Fp. destruct (F r) as [-> | ->].
      - split; intros (p & d1 & d2 & A & B & C & X); exists p, d1, d2; (rewrite Lp in A || rewrite <- Lp in A); try (rewrite Lp in B || rewrite <- Lp in B); try (rewrite Lp in C || rewrite <- Lp in C); try (split; [exact A|split; [exact B|split; [exact C|exact X]]]); try (intros x; first [apply Fd|unfold has_parent; rewrite Fp; tauto]).
      - change (daughter1 (swap_daughters r)) with (daughter2 r). change (daughter2 (swap_daughters r)) with (daughter1 r).
        split; intros (p & d1 & d2 & A & B & C & X & Y); exists p, d2, d1; (rewrite Lp in A || rewrite <- Lp in A); try (rewrite Lp in B || rewrite <- Lp in B); try (rewrite Lp in C || rewrite <- Lp in C); try (split; [exact A|split; [exact C|split; [exact B|split; [exact Y|exact X]]]]); try (intros x; first [apply Fd|unfold has_parent; rewrite Fp; tauto]). }
    apply eq_true_iff_eq. rewrite !same_lowest_spec by assumption. exact M.
  - unfold verdict. rewrite Fp, Fg, !map_map.
    rewrite (map_ext (fun x => thrv (f x)) thrv) by (intros x; unfold thrv; rewrite Ft; reflexivity).
    rewrite (map_ext (fun x => eqv (f x)) eqv) by (intros x; unfold eqv; rewrite Fs; reflexivity). reflexivity.
Qed.
Theorem C57_daughter_order_is_irrelevant : forall part d f, valid_argpartition part ->
  (forall r, f r = r \/ f r = swap_daughters r) ->
  isolation_mask_lowest_thresh_amp part (map f d) = isolation_mask_lowest_thresh_amp part d.
Proof. exact swap_maps. Qed.
(** the hypotheses are met: on a table of four valued triads the mask is computed and flags the two
    lowest-threshold triads, even though mode 5, the parent of the first triad (threshold 10 ppm), is a
    daughter in the third one (threshold 2 ppm): sharing a mode as parent here and as daughter there is
    not looked at (finding) *)
Ltac rows := match goal with H : nth_error (demo _ _ _ _) ?i = Some _ |- _ =>
  destruct i as [|[|[|[|[|i]]]]]; cbn in H; try (injection H as <-); try (destruct i; discriminate) end.
Example C57_case : exists m, isolation_mask_lowest_thresh_amp argsort (demo 10 20 2 3) = Ok m /\
  holds m 0 /\ ~ holds m 1 /\ ~ holds m 4.
Proof.
  destruct (proj1 (C57_succeeds_iff_no_parent_is_alone argsort (demo 10 20 2 3) argsort_valid)) as (m & Hm).
  { intros k r t Hk Et. rows; cbn in Et; try discriminate;
    [exists 1%nat|exists 0%nat|exists 3%nat|exists 2%nat]; eexists; eexists; (split; [discriminate|]); cbn; repeat split. }
  exists m. split; [exact Hm|].
  assert (M : forall r, In r (demo 10 20 2 3) -> lowest_threshold (demo 10 20 2 3) (has_parent 5) 10).
  { intros _ _. split; [eexists; split; [left; reflexivity|]; split; reflexivity|].
    intros r t Hr P Et. cbn in Hr. repeat (destruct Hr as [<-|Hr]; [cbn in *; unfold has_parent, parent in P; cbn in P; try discriminate; injection Et as <-; lra|]). contradiction. }
  assert (D : forall n p, (n = 1 \/ n = 2)%Z /\ p = 10 \/ (n = 3 \/ n = 4)%Z /\ p = 20 -> lowest_threshold (demo 10 20 2 3) (has_daughter n) p).
  { intros n p Hn. split.
    - destruct Hn as [[[-> | ->] ->]|[[-> | ->] ->]]; eexists; [split; [left; reflexivity|]|split; [left; reflexivity|]|split; [right; left; reflexivity|]|split; [right; left; reflexivity|]]; (split; [|reflexivity]); first [left; reflexivity|right; reflexivity].
    - intros r t Hr P Et. cbn in Hr. repeat (destruct Hr as [<-|Hr]; [unfold has_daughter, daughter1, daughter2 in P; cbn in P, Et; try discriminate; injection Et as <-; destruct Hn as [[[-> | ->] ->]|[[-> | ->] ->]], P as [P|P]; try discriminate; lra|]). contradiction. }
  assert (Q : 0 < / 10 ^ 14) by (apply Rinv_0_lt_compat; apply pow_lt; lra).
  assert (Q1 : / 10 ^ 14 <= 1) by (rewrite <- Rinv_1; apply Rinv_le_contravar; [lra|]; apply pow_R1_Rle; lra).
  split; [|split].
  - destruct (proj2 (C57_isolation_mask_meaning argsort _ m argsort_valid Hm) 0%nat _ eq_refl) as [_ F]. apply F.
    + eexists. reflexivity.
    + exists 10, 10, 10. split; [apply (M (Row (5, 1, 2)%Z (Some 10) (Some (/ 10 ^ 6), None, None) (Some 0.01) [true; false; true; true; true; true])); left; reflexivity|].
      split; [apply D; left; split; [left|]; reflexivity|]. split; [apply D; left; split; [right|]; reflexivity|].
      rewrite Rminus_eq_0, Rabs_R0. lra.
    + intros i j (N & a & b & ta & tb & Ha & Hb & Pa & Pb & Ta & Tb & L & K).
      unfold equilibrium_below. rows; cbn in Pa, Ta; try discriminate; rows; cbn in Pb, Tb; try discriminate; try (exfalso; congruence);
      injection Ta as <-; injection Tb as <-; clear Hm;
      (eexists; eexists; eexists; eexists; repeat (split; [reflexivity|]); rewrite Rinv_l by (apply pow_nonzero; lra); lra).
  - intros F. destruct (proj2 (C57_isolation_mask_meaning argsort _ m argsort_valid Hm) 1%nat _ eq_refl) as [G _].
    destruct (G F) as (_ & (p & d1 & d2 & P & D1 & _ & A & _) & _).
    rewrite (lowest_unique _ _ _ _ P (M _ (or_introl eq_refl))) in A.
    rewrite (lowest_unique _ _ _ _ D1 (D 3%Z 20 ltac:(right; split; [left; reflexivity|reflexivity]))) in A.
    unfold Rabs in A. destruct (Rcase_abs _) in A; lra.
  - intros F. destruct (proj2 (C57_isolation_mask_meaning argsort _ m argsort_valid Hm) 4%nat _ eq_refl) as [G _].
    destruct (G F) as ((t & C) & _). discriminate.
Qed.

(** ** C79: threshold-luminosity mask *)
(** a triad is kept iff no triad with a NaN threshold or a threshold below the minimum has the same
    radial order as it in the same position *)
Theorem C79_threshold_luminosity_mask : forall d lo k r, nth_error d k = Some r ->
  List.length (threshold_lum_mask d lo) = List.length d /\
  (holds (threshold_lum_mask d lo) k <->
   forall c, In c d -> (forall t, thresh c = Some t -> t < lo) ->
     parent c <> parent r /\ daughter1 c <> daughter1 r /\ daughter2 c <> daughter2 r).
Proof.
  intros d lo k r Hk.
  set (lowb := fun c => oltb (thresh c) (Some lo) || isnan (thresh c)).
  assert (E : threshold_lum_mask d lo = map (fun r => negb (existsb (Z.eqb (parent r)) (np_unique (map parent (filter lowb d)))
     || existsb (Z.eqb (daughter1 r)) (np_unique (map daughter1 (filter lowb d))) || existsb (Z.eqb (daughter2 r)) (np_unique (map daughter2 (filter lowb d))))) d).
  { unfold threshold_lum_mask, unique_value_mask, np_isin, bnot. fold lowb. rewrite sel_map_id, !map_map, !bor_map, map_map. reflexivity. }
  rewrite E. split; [apply map_length|]. unfold holds. rewrite nth_error_map, Hk. cbn [option_map].
  assert (LB : forall c, lowb c = true <-> forall t, thresh c = Some t -> t < lo).
  { intros c. unfold lowb. destruct (thresh c) as [t|]; cbn; [|split; [discriminate|reflexivity]].
    rewrite orb_false_r, dltb_spec. split; [intros H t' X; injection X as <-; exact H|intros H; apply H; reflexivity]. }
  assert (U : forall f : row -> Z, existsb (Z.eqb (f r)) (np_unique (map f (filter lowb d))) = true <-> exists c, In c d /\ (forall t, thresh c = Some t -> t < lo) /\ f c = f r).
  { intros f. rewrite existsb_eqb_in, np_unique_in, in_map_iff. split.
    - intros (c & Ec & Hc). apply filter_In in Hc. destruct Hc as [Hc Lc]. exists c. rewrite <- LB. auto.
    - intros (c & Hc & Lc & Ec). exists c. split; [exact Ec|]. apply filter_In. rewrite LB. auto. }
  split.
  - intros H c Hc Lc. injection H as H. apply negb_true_iff in H. apply orb_false_iff in H. destruct H as [H H3]. apply orb_false_iff in H. destruct H as [H1 H2].
    repeat split; intros X.
    + assert (Y := proj2 (U parent) (ex_intro _ c (conj Hc (conj Lc X)))). congruence.
    + assert (Y := proj2 (U daughter1) (ex_intro _ c (conj Hc (conj Lc X)))). congruence.
    + assert (Y := proj2 (U daughter2) (ex_intro _ c (conj Hc (conj Lc X)))). congruence.
  - intros H. f_equal. apply negb_true_iff. rewrite !orb_false_iff. repeat split; apply not_true_iff_false; intros X; apply U in X; destruct X as (c & Hc & Lc & Ec); destruct (H c Hc Lc) as (Y1 & Y2 & Y3); contradiction.
Qed.
(** in particular kept triads reach the minimum themselves, and so does every triad sharing their parent *)
Theorem C79_kept_triads_reach_the_minimum : forall d lo k r c, nth_error d k = Some r ->
  holds (threshold_lum_mask d lo) k -> In c d -> parent c = parent r -> exists t, thresh c = Some t /\ lo <= t.
Proof.
  intros d lo k r c Hk H Hc P. destruct (proj2 (C79_threshold_luminosity_mask d lo k r Hk)) as [F _].
  destruct (thresh c) as [t|] eqn:Et.
  - exists t. split; [reflexivity|]. destruct (Rle_lt_dec lo t) as [L|L]; [exact L|]. exfalso.
    destruct (F H c Hc) as [N _]; [|contradiction]. intros t' X. rewrite Et in X. injection X as <-. exact L.
  - exfalso. destruct (F H c Hc) as [N _]; [|contradiction]. intros t' X. rewrite Et in X. discriminate.
Qed.
(** raising the minimum never keeps more triads *)
Theorem C79_monotone_in_the_minimum : forall d lo lo' k r, lo <= lo' -> nth_error d k = Some r ->
  holds (threshold_lum_mask d lo') k -> holds (threshold_lum_mask d lo) k.
Proof.
  intros d lo lo' k r L Hk H. apply (proj2 (C79_threshold_luminosity_mask d lo k r Hk)). intros c Hc Lc.
  apply (proj1 (proj2 (C79_threshold_luminosity_mask d lo' k r Hk)) H c Hc). intros t Et. specialize (Lc t Et). lra.
Qed.
(** finding: daughters are compared position by position, so storing the daughters of a discarded triad
    in the other order changes which triads are kept *)
Theorem C79_depends_on_daughter_order : exists d lo k,
  ~ holds (threshold_lum_mask d lo) k /\ holds (threshold_lum_mask (map (fun r => if dleb (thrv r) 1 then swap_daughters r else r) d) lo) k.
Proof.
  exists [Row (5, 1, 2)%Z (Some 1) (None, None, None) None []; Row (6, 1, 3)%Z (Some 10) (None, None, None) None []], 5, 1%nat. split.
  - set (d := [_; _]). intros H. destruct (C79_threshold_luminosity_mask d 5 1 _ eq_refl) as [_ [F _]]. destruct (F H _ (or_introl eq_refl)) as (_ & N & _); [|apply N; reflexivity].
    intros t Et. injection Et as <-. lra.
  - assert (E1 : dleb (thrv (Row (5, 1, 2)%Z (Some 1) (None, None, None) None [])) 1 = true) by (apply dleb_spec; cbn; lra).
    assert (E2 : dleb (thrv (Row (6, 1, 3)%Z (Some 10) (None, None, None) None [])) 1 = false) by (apply not_true_iff_false; rewrite dleb_spec; cbn; lra).
    cbn [map]. rewrite E1, E2. set (d := [_; _]). apply (proj2 (C79_threshold_luminosity_mask d 5 1 _ eq_refl)). intros c [<-|[<-|[]]] L; cbn in *.
    + repeat split; discriminate.
    + exfalso. specialize (L 10 eq_refl). lra.
Qed.

(** ** C80: combined masks *)
(** stability: the last three stored checks (sum of rates, linear stability, hyperbolicity) all hold; AE
    validity: the detuning is a number of modulus at most a tenth of the smallest frequency; the
    combinations are their conjunctions, entry by entry *)
Theorem C80_combined_masks : forall part d stab ae iso val stab_val, valid_argpartition part ->
  mask_information part d = Ok (stab, ae, iso, val, stab_val) ->
  isolation_mask_lowest_thresh_amp part d = Ok iso /\
  forall k r, nth_error d k = Some r ->
    (forall c0 c1 c2 c3 c4 c5, checks r = [c0; c1; c2; c3; c4; c5] -> (holds stab k <-> c3 = true /\ c4 = true /\ c5 = true)) /\
    (holds ae k <-> exists x, detuning r = Some x /\ - (1/10) <= x <= 1/10) /\
    (holds val k <-> holds ae k /\ holds iso k) /\
    (holds stab_val k <-> holds stab k /\ holds ae k /\ holds iso k).
Proof.
  intros part d stab ae iso val stab_val V H. unfold mask_information in H.
  destruct (isolation_mask_lowest_thresh_amp part d) as [i| |] eqn:I; try discriminate. cbn [bind] in H. injection H as <- <- <- <- <-.
  split; [reflexivity|]. intros k r Hk. destruct (isolation_inv _ _ _ V I) as [Ei _].
  set (fi := fun r => valuedb r && same_lowest (vrows d) r && verdict part (vrows d) (parent r)) in Ei.
  assert (Hb : forall f : row -> bool, holds (map f d) k <-> f r = true).
  { intros f. unfold holds. rewrite nth_error_map, Hk. cbn. split; [intros X; injection X; auto|intros ->; reflexivity]. }
  split; [|split; [|split]].
  - intros c0 c1 c2 c3 c4 c5 E. unfold stability_check_mask. rewrite Hb, E. cbn. rewrite !andb_true_iff. tauto.
  - unfold ae_validity_check_mask. rewrite Hb. destruct (detuning r) as [x|]; cbn; [|split; [discriminate|intros (x & X & _); discriminate]].
    rewrite dleb_spec. split.
    + intros X. exists x. split; [reflexivity|]. unfold Rabs in X. destruct (Rcase_abs x) in X; lra.
    + intros (y & E & X). injection E as <-. apply Rabs_le. lra.
  - subst i. unfold ae_validity_check_mask. rewrite band_map, !Hb, andb_true_iff. reflexivity.
  - subst i. unfold ae_validity_check_mask, stability_check_mask. rewrite !band_map, !Hb, !andb_true_iff. tauto.
Qed.
(** the masks are returned exactly when the isolation mask is *)
Theorem C80_fails_exactly_when_isolation_fails : forall part d e,
  mask_information part d = Exc e <-> isolation_mask_lowest_thresh_amp part d = Exc e.
Proof.
  intros part d e. unfold mask_information. destruct (isolation_mask_lowest_thresh_amp part d) as [i| |e']; cbn; split; intros H; try discriminate; congruence.
Qed.
(** the generic detuning mask, of which the AE mask is the instance 0.1 *)
Theorem C80_detuning_mask : forall d x k r, 0 <= x -> nth_error d k = Some r ->
  (holds (threshold_det_mask d x) k <-> exists y, detuning r = Some y /\ - x <= y <= x) /\
  ae_validity_check_mask d = threshold_det_mask d (1/10).
Proof.
  intros d x k r Hx Hk. split; [|reflexivity]. unfold holds, threshold_det_mask. rewrite nth_error_map, Hk. cbn.
  destruct (detuning r) as [y|]; cbn; [|split; [discriminate|intros (y & Y & _); discriminate]]. split.
  - intros X. injection X as X. apply dleb_spec in X. exists y. split; [reflexivity|]. unfold Rabs in X. destruct (Rcase_abs y) in X; lra.
  - intros (z & E & X). injection E as <-. f_equal. apply dleb_spec. apply Rabs_le. lra.
Qed.
Example C80_case : exists r, mask_information argsort (demo 10 20 2 3) = Ok r.
Proof. destruct C57_case as (m & Hm & _). unfold mask_information. rewrite Hm. eexists. reflexivity. Qed.
