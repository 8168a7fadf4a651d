From Coq Require Import List ZArith Lia Bool Permutation.
From Verif Require Import Base Combos_Model Combos_Spec.
Import ListNotations.
Local Open Scope Z_scope.

Lemma product_In A B a b : In (a, b) (product A B) <-> In a A /\ In b B.
Proof.
  unfold product. rewrite in_flat_map. split.
  - intros (x & Hx & H). apply in_map_iff in H. destruct H as (y & E & Hy). injection E as -> ->. auto.
  - intros [Ha Hb]. exists a. split; [exact Ha|]. apply in_map_iff. exists b. auto.
Qed.
Lemma product_length A B : length (product A B) = (length A * length B)%nat.
Proof. induction A as [|a A IH]; [reflexivity|]. cbn. rewrite app_length, map_length. unfold product in IH. rewrite IH. lia. Qed.
Lemma NoDup_app {T} (l k : list T) : NoDup l -> NoDup k -> (forall x, In x l -> ~ In x k) -> NoDup (l ++ k).
Proof.
  induction l as [|a l IH]; intros Hl Hk H; [exact Hk|]. inversion Hl; subst. cbn. constructor.
  - rewrite in_app_iff. intros [C|C]; [contradiction|]. exact (H a (or_introl eq_refl) C).
  - apply IH; try assumption. intros x Hx. apply H. right; exact Hx.
Qed.
Lemma NoDup_map_inj {S T} (f : S -> T) l : (forall x y, In x l -> In y l -> f x = f y -> x = y) -> NoDup l -> NoDup (map f l).
Proof.
  intros Hf. induction 1 as [|a l Ha Hl IH]; cbn; constructor.
  - intros C. apply in_map_iff in C. destruct C as (b & E & Hb). apply Ha.
    rewrite <- (Hf b a); [exact Hb|right; exact Hb|left; reflexivity|exact E].
  - apply IH. intros x y Hx Hy. apply Hf; right; assumption.
Qed.
Lemma product_NoDup A B : NoDup A -> NoDup B -> NoDup (product A B).
Proof.
  intros HA HB. induction HA as [|a A Ha HA IH]; [constructor|].
  change (product (a :: A) B) with (map (fun b => (a, b)) B ++ product A B). apply NoDup_app.
  - apply NoDup_map_inj; [intros ? ? _ _ E; congruence|exact HB].
  - exact IH.
  - intros [x y] H1 H2. apply in_map_iff in H1. destruct H1 as (b & E & _). injection E as <- _.
    apply product_In in H2. destruct H2. contradiction.
Qed.

Lemma comb2_In l x y : In (x, y) (combinations2 l) <-> precedes l x y.
Proof.
  induction l as [|a l IH]; cbn.
  - split; [contradiction|]. intros (l1 & l2 & l3 & E). destruct l1; discriminate.
  - rewrite in_app_iff, in_map_iff, IH. split.
    + intros [(b & E & Hb)|(l1 & l2 & l3 & ->)].
      * injection E as <- <-. apply in_split in Hb. destruct Hb as (l2 & l3 & ->). exists [], l2, l3. reflexivity.
      * exists (a :: l1), l2, l3. reflexivity.
    + intros (l1 & l2 & l3 & E). destruct l1 as [|c l1]; cbn in E; injection E as -> ->.
      * left. exists y. split; [reflexivity|]. apply in_app_iff. right. left. reflexivity.
      * right. exists l1, l2, l3. reflexivity.
Qed.
Lemma precedes_In l x y : precedes l x y -> In x l /\ In y l.
Proof. intros (l1 & l2 & l3 & ->). split; apply in_app_iff; right; [left; reflexivity|]. right. apply in_app_iff. right. left. reflexivity. Qed.
Lemma precedes_ne l x y : NoDup l -> precedes l x y -> x <> y.
Proof.
  intros Hn (l1 & l2 & l3 & ->) ->. apply NoDup_remove_2 in Hn. apply Hn. rewrite !in_app_iff. cbn. auto.
Qed.
Lemma precedes_total l x y : In x l -> In y l -> x <> y -> precedes l x y \/ precedes l y x.
Proof.
  induction l as [|a l IH]; intros Hx Hy Hne; [contradiction|].
  destruct Hx as [<-|Hx], Hy as [<-|Hy]; [congruence| | |].
  - left. apply in_split in Hy. destruct Hy as (l2 & l3 & ->). exists [], l2, l3. reflexivity.
  - right. apply in_split in Hx. destruct Hx as (l2 & l3 & ->). exists [], l2, l3. reflexivity.
  - destruct (IH Hx Hy Hne) as [(l1 & l2 & l3 & ->)|(l1 & l2 & l3 & ->)]; [left|right]; exists (a :: l1), l2, l3; reflexivity.
Qed.
Lemma precedes_cons a l x y : precedes (a :: l) x y <-> (x = a /\ In y l) \/ precedes l x y.
Proof.
  rewrite <- !comb2_In. cbn. rewrite in_app_iff, in_map_iff. split.
  - intros [(b & E & Hb)|H]; [injection E as <- <-; left; auto|right; exact H].
  - intros [[-> H]|H]; [left; exists y; auto|right; exact H].
Qed.
Lemma precedes_asym l x y : NoDup l -> precedes l x y -> ~ precedes l y x.
Proof.
  induction l as [|a l IH]; intros Hn H1 H2.
  - destruct H1 as (l1 & l2 & l3 & E). destruct l1; discriminate.
  - inversion Hn; subst. rewrite precedes_cons in H1, H2.
    destruct H1 as [[-> H1]|H1], H2 as [[E H2]|H2].
    + subst. contradiction.
    + apply precedes_In in H2. tauto.
    + subst. apply precedes_In in H1. tauto.
    + exact (IH H4 H1 H2).
Qed.
Lemma comb2_NoDup l : NoDup l -> NoDup (combinations2 l).
Proof.
  induction 1 as [|a l Ha Hl IH]; cbn; [constructor|]. apply NoDup_app.
  - apply NoDup_map_inj; [intros ? ? _ _ E; congruence|exact Hl].
  - exact IH.
  - intros [x y] H1 H2. apply in_map_iff in H1. destruct H1 as (b & E & _). injection E as <- _.
    apply comb2_In, precedes_In in H2. tauto.
Qed.
Lemma comb2_length l : Z.of_nat (length (combinations2 l)) = comb2 (Z.of_nat (length l)).
Proof.
  unfold comb2. assert (H : 2 * Z.of_nat (length (combinations2 l)) = Z.of_nat (length l) * (Z.of_nat (length l) - 1)).
  { induction l as [|a l IH]; [reflexivity|]. cbn [combinations2 length]. rewrite app_length, map_length. lia. }
  rewrite <- H, Z.mul_comm, Z.div_mul by lia. reflexivity.
Qed.

Lemma mem_In x l : mem x l = true <-> In x l.
Proof. unfold mem. rewrite existsb_exists. split; [intros (y & H & E); apply Z.eqb_eq in E; subst; exact H|intros H; exists x; rewrite Z.eqb_refl; auto]. Qed.
Lemma pmem_In p l : pmem p l = true <-> In p l.
Proof.
  unfold pmem. rewrite existsb_exists. split.
  - intros ([a b] & H & E). unfold pair_eqb in E. apply andb_true_iff in E. destruct E as [E1 E2].
    apply Z.eqb_eq in E1, E2. destruct p. cbn in *. subst. exact H.
  - intros H. exists p. split; [exact H|]. unfold pair_eqb. rewrite !Z.eqb_refl. reflexivity.
Qed.
Lemma pdiff_In p l k : In p (pdiff l k) <-> In p l /\ ~ In p k.
Proof.
  unfold pdiff. rewrite filter_In. rewrite negb_true_iff. rewrite <- (pmem_In p k).
  destruct (pmem p k); intuition congruence.
Qed.
Lemma punion_In p l k : In p (punion l k) <-> In p l \/ In p k.
Proof.
  unfold punion. rewrite in_app_iff, pdiff_In. destruct (pmem p l) eqn:E.
  - apply pmem_In in E. tauto.
  - assert (~ In p l) by (rewrite <- pmem_In; congruence). tauto.
Qed.
Lemma pdiff_NoDup l k : NoDup l -> NoDup (pdiff l k).
Proof. apply NoDup_filter. Qed.
Lemma punion_NoDup l k : NoDup l -> NoDup k -> NoDup (punion l k).
Proof.
  intros Hl Hk. unfold punion. apply NoDup_app; [exact Hl|apply pdiff_NoDup; exact Hk|].
  intros p H1 H2. apply pdiff_In in H2. tauto.
Qed.

Lemma sym_value_In A B U AmB BmA x y :
  In (x, y) (sym_value A B U AmB BmA) <->
  (precedes U x y /\ ~ precedes A x y /\ ~ precedes B x y) \/
  (precedes A x y /\ ~ precedes AmB x y) \/ (precedes B x y /\ ~ precedes BmA x y).
Proof.
  unfold sym_value. rewrite !punion_In, !pdiff_In, !punion_In, !comb2_In. tauto.
Qed.

Lemma sym_NoDup A B U AmB BmA : NoDup A -> NoDup B -> NoDup U -> NoDup (sym_value A B U AmB BmA).
Proof.
  intros. unfold sym_value. repeat apply punion_NoDup; apply pdiff_NoDup, comb2_NoDup; assumption.
Qed.

(** completeness holds whatever the iteration orders *)
Lemma sym_complete A B U AmB BmA x y :
  enumerates U (fun x => In x A \/ In x B) ->
  enumerates AmB (fun x => In x A /\ ~ In x B) ->
  enumerates BmA (fun x => In x B /\ ~ In x A) ->
  wanted A B x y -> In (x, y) (sym_value A B U AmB BmA) \/ In (y, x) (sym_value A B U AmB BmA).
Proof.
  intros [_ HU] [_ HAB] [_ HBA] [Hne Hw].
  assert (Key : forall x y, ((In x A /\ In y B) \/ (In y A /\ In x B)) -> precedes U x y -> In (x, y) (sym_value A B U AmB BmA)).
  { intros x' y' H1 H2. rewrite sym_value_In.
    assert (Dec : forall l, precedes l x' y' \/ ~ precedes l x' y').
    { intros l. rewrite <- comb2_In. destruct (pmem (x', y') (combinations2 l)) eqn:E.
      - left. apply pmem_In. exact E.
      - right. rewrite <- pmem_In. congruence. }
    destruct (Dec A) as [PA|PA].
    - right. left. split; [exact PA|]. intros C. apply precedes_In in C. rewrite !HAB in C. tauto.
    - destruct (Dec B) as [PB|PB].
      + right. right. split; [exact PB|]. intros C. apply precedes_In in C. rewrite !HBA in C. tauto.
      + left. auto. }
  assert (Hx : In x U) by (apply HU; tauto). assert (Hy : In y U) by (apply HU; tauto).
  destruct (precedes_total U x y Hx Hy Hne) as [P|P]; [left|right]; apply Key; tauto.
Qed.

(** with consistent orders the value is the pairs of U that are wanted *)
Lemma sym_sound A B U AmB BmA x y : NoDup A -> NoDup B ->
  enumerates U (fun x => In x A \/ In x B) ->
  enumerates AmB (fun x => In x A /\ ~ In x B) ->
  enumerates BmA (fun x => In x B /\ ~ In x A) ->
  same_order A U -> same_order B U -> same_order AmB U -> same_order BmA U ->
  (In (x, y) (sym_value A B U AmB BmA) <-> precedes U x y /\ wanted A B x y).
Proof.
  intros NA NB [NU HU] [NAB HAB] [NBA HBA] SA SB SAB SBA. rewrite sym_value_In. unfold wanted.
  assert (Sub : forall l k, NoDup k -> same_order l U -> same_order k U -> (forall z, In z k -> In z l) -> forall u v, In u k -> In v k -> precedes l u v -> precedes k u v).
  { intros l k Nk Sl Sk Hsub u v Hu Hv P.
    assert (PU := Sl _ _ P). assert (Hne : u <> v) by (apply (precedes_ne U); assumption).
    destruct (precedes_total k u v Hu Hv Hne) as [Q|Q]; [exact Q|]. exfalso. exact (precedes_asym U u v NU PU (Sk _ _ Q)). }
  split.
  - intros H. assert (PU : precedes U x y) by (destruct H as [[H _]|[[H _]|[H _]]]; auto).
    split; [exact PU|]. split; [exact (precedes_ne U x y NU PU)|].
    destruct (precedes_In _ _ _ PU) as [Ix Iy]. apply HU in Ix, Iy.
    assert (Hne := precedes_ne U x y NU PU).
    destruct (in_dec Z.eq_dec x A) as [xA|xA], (in_dec Z.eq_dec y A) as [yA|yA], (in_dec Z.eq_dec x B) as [xB|xB], (in_dec Z.eq_dec y B) as [yB|yB]; try tauto; exfalso.
    + (* both in A only *)
      assert (PA : precedes A x y).
      { destruct (precedes_total A x y xA yA Hne) as [Q|Q]; [exact Q|]. exfalso. exact (precedes_asym U x y NU PU (SA _ _ Q)). }
      assert (PAB : precedes AmB x y) by (apply (Sub A AmB); try assumption; try (apply HAB; tauto); intros z Hz; apply HAB in Hz; tauto).
      destruct H as [[_ [H _]]|[[_ H]|[H _]]]; [tauto|tauto|]. apply precedes_In in H. tauto.
    + assert (PB : precedes B x y).
      { destruct (precedes_total B x y xB yB Hne) as [Q|Q]; [exact Q|]. exfalso. exact (precedes_asym U x y NU PU (SB _ _ Q)). }
      assert (PBA : precedes BmA x y) by (apply (Sub B BmA); try assumption; try (apply HBA; tauto); intros z Hz; apply HBA in Hz; tauto).
      destruct H as [[_ [_ H]]|[[H _]|[_ H]]]; [tauto| |tauto]. apply precedes_In in H. tauto.
  - intros [PU [Hne Hw]].
    assert (Dec : forall l, precedes l x y \/ ~ precedes l x y).
    { intros l. rewrite <- comb2_In. destruct (pmem (x, y) (combinations2 l)) eqn:E.
      - left. apply pmem_In. exact E.
      - right. rewrite <- pmem_In. congruence. }
    destruct (Dec A) as [PA|PA].
    + right. left. split; [exact PA|]. intros C. apply precedes_In in C. rewrite !HAB in C. tauto.
    + destruct (Dec B) as [PB|PB].
      * right. right. split; [exact PB|]. intros C. apply precedes_In in C. rewrite !HBA in C. tauto.
      * left. auto.
Qed.

Lemma card_NoDup l : NoDup l -> card l = Z.of_nat (length l).
Proof. intros H. unfold card. rewrite nodup_fixed_point by exact H. reflexivity. Qed.

Lemma enum_length l k P : enumerates l P -> enumerates k P -> length l = length k.
Proof.
  intros [Nl Hl] [Nk Hk]. apply Permutation_length. apply NoDup_Permutation; try assumption.
  intros x. rewrite Hl, Hk. reflexivity.
Qed.
Lemma filter_split {T} (f : T -> bool) l : length l = (length (filter f l) + length (filter (fun x => negb (f x)) l))%nat.
Proof. induction l as [|a l IH]; [reflexivity|]. cbn. destruct (f a); cbn; rewrite IH; lia. Qed.

Lemma sym_length A B U AmB BmA : NoDup A -> NoDup B ->
  enumerates U (fun x => In x A \/ In x B) ->
  enumerates AmB (fun x => In x A /\ ~ In x B) ->
  enumerates BmA (fun x => In x B /\ ~ In x A) ->
  same_order A U -> same_order B U -> same_order AmB U -> same_order BmA U ->
  Z.of_nat (length (sym_value A B U AmB BmA)) = sym_cardinality A B.
Proof.
  intros NA NB EU EAB EBA SA SB SAB SBA.
  assert (P : Permutation (combinations2 U) (sym_value A B U AmB BmA ++ combinations2 AmB ++ combinations2 BmA)).
  { apply NoDup_Permutation.
    - apply comb2_NoDup, EU.
    - apply NoDup_app; [apply sym_NoDup; [assumption|assumption|apply EU]| |].
      + apply NoDup_app; [apply comb2_NoDup, EAB|apply comb2_NoDup, EBA|].
        intros [x y] H1 H2. apply comb2_In, precedes_In in H1, H2. destruct EAB as [_ H3], EBA as [_ H4].
        rewrite !H3 in H1. rewrite !H4 in H2. tauto.
      + intros [x y] H1 H2. apply sym_sound in H1; try assumption. destruct H1 as [_ [_ Hw]].
        apply in_app_iff in H2. destruct EAB as [_ H3], EBA as [_ H4].
        destruct H2 as [H2|H2]; apply comb2_In, precedes_In in H2; [rewrite !H3 in H2|rewrite !H4 in H2]; tauto.
    - intros [x y]. rewrite !in_app_iff, sym_sound by assumption. rewrite !comb2_In. unfold wanted.
      split.
      + intros PU. assert (Hne := precedes_ne U x y (proj1 EU) PU).
        destruct (precedes_In _ _ _ PU) as [Ix Iy]. apply EU in Ix, Iy.
        assert (NU := proj1 EU).
        assert (Loc : forall k, same_order k U -> In x k -> In y k -> precedes k x y).
        { intros k Sk Hx Hy. destruct (precedes_total k x y Hx Hy Hne) as [Q|Q]; [exact Q|].
          exfalso. exact (precedes_asym U x y NU PU (Sk _ _ Q)). }
        destruct (in_dec Z.eq_dec x A) as [xA|xA], (in_dec Z.eq_dec y A) as [yA|yA], (in_dec Z.eq_dec x B) as [xB|xB], (in_dec Z.eq_dec y B) as [yB|yB]; try tauto.
        * right. left. apply Loc; [assumption|apply EAB; tauto|apply EAB; tauto].
        * right. right. apply Loc; [assumption|apply EBA; tauto|apply EBA; tauto].
      + intros [H|[H|H]]; [tauto|apply SAB, H|apply SBA, H]. }
  apply Permutation_length in P. rewrite !app_length in P.
  unfold sym_cardinality, diag_cardinality. rewrite (card_NoDup A), (card_NoDup B) by assumption.
  rewrite card_NoDup by (apply NoDup_filter; assumption).
  set (d := length (filter (fun x => mem x B) A)).
  assert (LA : length A = (d + length AmB)%nat).
  { rewrite (filter_split (fun x => mem x B) A). fold d. f_equal.
    apply (enum_length _ _ (fun x => In x A /\ ~ In x B)); [|exact EAB]. split; [apply NoDup_filter; exact NA|].
    intros x. rewrite filter_In, negb_true_iff, <- (mem_In x B). destruct (mem x B); intuition congruence. }
  assert (LB : length B = (d + length BmA)%nat).
  { rewrite (filter_split (fun x => mem x A) B). f_equal.
    - apply (enum_length _ _ (fun x => In x A /\ In x B)).
      + split; [apply NoDup_filter; exact NB|]. intros x. rewrite filter_In, mem_In. tauto.
      + split; [apply NoDup_filter; exact NA|]. intros x. rewrite filter_In, mem_In. tauto.
    - apply (enum_length _ _ (fun x => In x B /\ ~ In x A)); [|exact EBA]. split; [apply NoDup_filter; exact NB|].
      intros x. rewrite filter_In, negb_true_iff, <- (mem_In x A). destruct (mem x A); intuition congruence. }
  assert (LU : length U = (d + length AmB + length BmA)%nat).
  { rewrite <- LA. replace (length A + length BmA)%nat with (length (A ++ BmA)) by apply app_length.
    apply (enum_length _ _ (fun x => In x A \/ In x B)); [exact EU|]. split.
    - apply NoDup_app; [exact NA|apply EBA|]. intros x H1 H2. apply EBA in H2. tauto.
    - intros x. rewrite in_app_iff. destruct EBA as [_ H]. rewrite H. destruct (in_dec Z.eq_dec x A); tauto. }
  assert (C1 := comb2_length U). assert (C2 := comb2_length AmB). assert (C3 := comb2_length BmA).
  replace (Z.of_nat (length A) + Z.of_nat (length B) - Z.of_nat d) with (Z.of_nat (length U)) by lia.
  replace (Z.of_nat (length A) - Z.of_nat d) with (Z.of_nat (length AmB)) by lia.
  replace (Z.of_nat (length B) - Z.of_nat d) with (Z.of_nat (length BmA)) by lia. lia.
Qed.

Lemma range_In lo hi x : In x (range lo hi) <-> lo <= x <= hi.
Proof.
  unfold range. rewrite in_map_iff. split.
  - intros (k & <- & H). apply in_seq in H. lia.
  - intros H. exists (Z.to_nat (x - lo)). split; [lia|]. apply in_seq. lia.
Qed.
Lemma range_NoDup lo hi : NoDup (range lo hi).
Proof. apply NoDup_map_inj; [intros; lia|apply seq_NoDup]. Qed.
Lemma range_precedes lo hi x y : precedes (range lo hi) x y <-> lo <= x < y /\ y <= hi.
Proof.
  assert (K : forall n s x y, precedes (map (fun k => lo + Z.of_nat k) (seq s n)) x y -> x < y).
  { induction n as [|n IH]; intros s x' y' H; [destruct H as (l1 & l2 & l3 & E); destruct l1; discriminate|].
    cbn in H. apply precedes_cons in H. destruct H as [[-> H]|H]; [|exact (IH _ _ _ H)].
    apply in_map_iff in H. destruct H as (k & <- & Hk). apply in_seq in Hk. lia. }
  split.
  - intros H. assert (I := precedes_In _ _ _ H). rewrite !range_In in I. assert (x < y) by (eapply K; exact H). lia.
  - intros H. destruct (precedes_total (range lo hi) x y) as [P|P]; [apply range_In; lia|apply range_In; lia|lia|exact P|].
    exfalso. assert (y < x) by (eapply K; exact P). lia.
Qed.
