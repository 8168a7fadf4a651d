(** * Combinations and the mode-input generator (C26-C29). *)
From Coq Require Import List ZArith Lia Bool QArith.
From Verif Require Import Base Combos_Model Combos_Spec Combos_Proofs.
Import ListNotations.
Local Open Scope Z_scope.

(** C26 *)
Theorem C26_cartesian_combinations :
  forall A B,
  (forall a b, In (a, b) (cartesian_value A B) <-> In a A /\ In b B) /\
  Z.of_nat (List.length (cartesian_value A B)) = cartesian_cardinality A B /\
  cartesian_cardinality A B = Z.of_nat (List.length A) * Z.of_nat (List.length B) /\
  (NoDup A -> NoDup B -> NoDup (cartesian_value A B)).
Proof.
  intros A B. split; [intros; apply product_In|]. split; [|split; [reflexivity|apply product_NoDup]].
  unfold cartesian_value, cartesian_cardinality. rewrite product_length. lia.
Qed.
Print Assumptions C26_cartesian_combinations.
Example C26_case : cartesian_value [1; 2] [5; 5; 7] = [(1, 5); (1, 5); (1, 7); (2, 5); (2, 5); (2, 7)].
Proof. reflexivity. Qed.

(** C27: a pair is listed iff its components occur in that order in the input,
    each selection of two positions once. *)
Theorem C27_single_set_combinations :
  forall l,
  (forall x y, In (x, y) (single_value l) <-> precedes l x y) /\
  Z.of_nat (List.length (single_value l)) = single_cardinality l /\
  2 * single_cardinality l = Z.of_nat (List.length l) * (Z.of_nat (List.length l) - 1) /\
  (NoDup l -> NoDup (single_value l) /\
     (forall x y, In x l -> In y l -> x <> y ->
        (In (x, y) (single_value l) <-> ~ In (y, x) (single_value l))) /\
     (forall x, ~ In (x, x) (single_value l))).
Proof.
  intros l. split; [intros; apply comb2_In|]. split; [apply comb2_length|]. split.
  - unfold single_cardinality. rewrite <- comb2_length. clear.
    induction l as [|a l IH]; [reflexivity|]. cbn [combinations2 List.length]. rewrite app_length, map_length. lia.
  - intros Hn. split; [apply comb2_NoDup, Hn|]. unfold single_value. split.
    + intros x y Hx Hy Hne. rewrite !comb2_In. split.
      * intros H. apply precedes_asym; assumption.
      * intros H. destruct (precedes_total l x y Hx Hy Hne); tauto.
    + intros x. rewrite comb2_In. intros H. exact (precedes_ne l x x Hn H eq_refl).
Qed.
Print Assumptions C27_single_set_combinations.
Example C27_case : single_value [4; 2; 9] = [(4, 2); (4, 9); (2, 9)] /\ NoDup [4; 2; 9].
Proof. split; [reflexivity|]. repeat constructor; simpl; intuition discriminate. Qed.

(** C28. [U], [AmB], [BmA], [I] are the orders in which Python happens to iterate
    over the sets A|B, A-B, B-A, A&B. *)
Definition set_orders (A B U AmB BmA I : list Z) : Prop :=
  enumerates U (fun x => In x A \/ In x B) /\
  enumerates AmB (fun x => In x A /\ ~ In x B) /\
  enumerates BmA (fun x => In x B /\ ~ In x A) /\
  enumerates I (fun x => In x A /\ In x B).

(** Whatever the orders, no wanted pair is missing. *)
Theorem C28_symmetric_product_complete :
  forall A B U AmB BmA I incl, set_orders A B U AmB BmA I ->
  (forall x y, wanted A B x y ->
    In (x, y) (sym_value_diag incl A B U AmB BmA I) \/ In (y, x) (sym_value_diag incl A B U AmB BmA I)) /\
  (incl = true -> forall z, In z A -> In z B -> In (z, z) (sym_value_diag incl A B U AmB BmA I)).
Proof.
  intros A B U AmB BmA I incl (HU & HAB & HBA & HI). unfold sym_value_diag. split.
  - intros x y Hw. rewrite !in_app_iff. destruct (sym_complete A B U AmB BmA x y HU HAB HBA Hw); tauto.
  - intros -> z Hz1 Hz2. apply in_app_iff. right. apply in_map_iff. exists z. split; [reflexivity|]. apply HI. tauto.
Qed.
Print Assumptions C28_symmetric_product_complete.

(** If the sets are iterated consistently with the inputs, the list holds exactly
    the wanted pairs, each in one orientation, once, plus the diagonal if asked,
    and its length is the advertised cardinality. *)
Theorem C28_symmetric_product_exact_when_orders_agree :
  forall A B U AmB BmA I incl, NoDup A -> NoDup B -> set_orders A B U AmB BmA I ->
  same_order A U -> same_order B U -> same_order AmB U -> same_order BmA U ->
  let v := sym_value_diag incl A B U AmB BmA I in
  NoDup v /\
  (forall x y, In (x, y) v -> wanted A B x y \/ (incl = true /\ x = y /\ In x A /\ In x B)) /\
  (forall x y, wanted A B x y -> (In (x, y) v <-> ~ In (y, x) v)) /\
  Z.of_nat (List.length v) = sym_cardinality_diag incl A B.
Proof.
  intros A B U AmB BmA I incl NA NB (HU & HAB & HBA & HI) S1 S2 S3 S4 v.
  assert (Snd : forall x y, In (x, y) (sym_value A B U AmB BmA) <-> precedes U x y /\ wanted A B x y)
    by (intros; apply sym_sound; assumption).
  assert (InD : forall x y, In (x, y) (if incl then map (fun d => (d, d)) I else []) <-> incl = true /\ x = y /\ In x A /\ In x B).
  { intros x y. destruct incl.
    - rewrite in_map_iff. split.
      + intros (d & E & Hd). injection E as <- <-. apply HI in Hd. tauto.
      + intros (_ & <- & H). exists x. split; [reflexivity|]. apply HI. exact H.
    - split; [contradiction|intros [H _]; discriminate]. }
  unfold v, sym_value_diag. split; [|split; [|split]].
  - apply NoDup_app; [apply sym_NoDup; [assumption|assumption|apply HU]| |].
    + destruct incl; [|constructor]. apply NoDup_map_inj; [intros ? ? _ _ E; congruence|apply HI].
    + intros [x y] H1 H2. apply Snd in H1. apply InD in H2. unfold wanted in H1. tauto.
  - intros x y H. apply in_app_iff in H. destruct H as [H|H]; [left; apply Snd in H; tauto|right; apply InD, H].
  - intros x y Hw. rewrite !in_app_iff, !Snd, !InD.
    assert (Hw' : wanted A B y x) by (unfold wanted in *; intuition congruence).
    assert (Hx : In x U) by (apply HU; unfold wanted in Hw; tauto).
    assert (Hy : In y U) by (apply HU; unfold wanted in Hw; tauto).
    assert (Hne : x <> y) by (unfold wanted in Hw; tauto).
    destruct (precedes_total U x y Hx Hy Hne) as [P|P]; assert (Q := precedes_asym _ _ _ (proj1 HU) P);
      unfold wanted in *; split; intros H; try tauto; intuition congruence.
  - rewrite app_length, Nat2Z.inj_add. unfold sym_cardinality_diag. f_equal; [apply sym_length; assumption|].
    destruct incl; [|reflexivity]. rewrite map_length. unfold diag_cardinality. rewrite card_NoDup by (apply NoDup_filter; exact NA).
    f_equal. apply (enum_length _ _ (fun x => In x A /\ In x B)); [exact HI|]. split; [apply NoDup_filter; exact NA|].
    intros x. rewrite filter_In, mem_In. tauto.
Qed.
Print Assumptions C28_symmetric_product_exact_when_orders_agree.

Example C28_case_consistent : set_orders [1; 2; 3] [3; 4] [1; 2; 3; 4] [1; 2] [4] [3] /\ same_order [1; 2; 3] [1; 2; 3; 4] /\ same_order [3; 4] [1; 2; 3; 4].
Proof.
  split; [|split].
  - unfold set_orders, enumerates. repeat split; intros; try (repeat constructor; simpl; intuition discriminate);
      simpl in *; lia.
  - intros x y H. apply comb2_In in H. apply comb2_In. simpl in *. intuition congruence.
  - intros x y H. apply comb2_In in H. apply comb2_In. simpl in *. intuition congruence.
Qed.

(** The orders need not agree: A = range(-5,0), B = range(-3,2) (radial orders of
    g modes are negative) with the set order CPython 3 uses, [0,1,-1,-5,-4,-3,-2]. *)
Theorem C28_symmetric_product_wrong_for_other_orders :
  exists A B U AmB BmA I, NoDup A /\ NoDup B /\ set_orders A B U AmB BmA I /\
    (exists x y, In (x, y) (sym_value A B U AmB BmA) /\ In (y, x) (sym_value A B U AmB BmA)) /\
    Z.of_nat (List.length (sym_value A B U AmB BmA)) = 29 /\ sym_cardinality A B = 19.
Proof.
  exists (range (-5) (-1)), (range (-3) 1), [0; 1; -1; -5; -4; -3; -2], [-5; -4], [0; 1], [-3; -2; -1].
  split; [apply range_NoDup|]. split; [apply range_NoDup|]. split.
  - unfold set_orders, enumerates. repeat split; intros; try (repeat constructor; simpl; intuition discriminate);
      rewrite ?range_In in *; simpl in *; lia.
  - split; [|split; reflexivity]. exists (-5), (-1). split; rewrite <- pmem_In; reflexivity.
Qed.
Print Assumptions C28_symmetric_product_wrong_for_other_orders.

(** C29, one range for both daughters: exactly the triples with ascending,
    distinct daughters, each once; the statistics are aligned with the triples. *)
Theorem C29_generator_single_range :
  forall dl dh lo hi U AmB BmA I,
  let g := generate (range dl dh) (range lo hi) None U AmB BmA I in
  (forall d x y, In (d, x, y) g <-> dl <= d <= dh /\ lo <= x < y /\ y <= hi) /\ NoDup g /\
  2 * Z.of_nat (List.length g) = Z.max 0 (dh - dl + 1) * (Z.max 0 (hi - lo + 1) * (Z.max 0 (hi - lo + 1) - 1)) /\
  forall k t, nth_error g k = Some t ->
    nth_error (wu_differences g) k = Some (fst (fst t) - Z.abs (snd (fst t) - snd t)) /\
    exists q, nth_error (averages g) k = Some q /\ (3 * q == inject_Z (fst (fst t) + snd (fst t) + snd t))%Q.
Proof.
  intros dl dh lo hi U AmB BmA I g. split; [|split; [|split]].
  - intros d x y. unfold g, generate. rewrite in_flat_map. split.
    + intros (d' & Hd & H). apply in_map_iff in H. destruct H as ([u v] & E & H). cbn in E. injection E as -> -> ->.
      apply range_In in Hd. apply comb2_In, range_precedes in H. tauto.
    + intros [H1 H2]. exists d. split; [apply range_In, H1|]. apply in_map_iff. exists (x, y). split; [reflexivity|].
      apply comb2_In, range_precedes. exact H2.
  - unfold g, generate. assert (Hn := range_NoDup dl dh). induction Hn as [|d l Hd Hl IH]; [constructor|].
    cbn [flat_map]. apply NoDup_app; [|exact IH|].
    + apply NoDup_map_inj; [intros [? ?] [? ?] _ _ E; cbn in E; congruence|]. apply comb2_NoDup, range_NoDup.
    + intros [[a b] c] H1 H2. apply in_map_iff in H1. destruct H1 as (p & E & _). injection E as <- _ _.
      apply in_flat_map in H2. destruct H2 as (d' & Hd' & H2). apply in_map_iff in H2. destruct H2 as (p' & E & _).
      injection E as -> _ _. contradiction.
  - assert (Lr : forall a b, Z.of_nat (List.length (range a b)) = Z.max 0 (b - a + 1)).
    { intros a b. unfold range. rewrite map_length, seq_length. lia. }
    assert (Lg : Z.of_nat (List.length g) = Z.of_nat (List.length (range dl dh)) * Z.of_nat (List.length (single_value (range lo hi)))).
    { unfold g, generate. clear g. induction (range dl dh) as [|d l IH]; [reflexivity|]. cbn [flat_map List.length].
      rewrite app_length, map_length, Nat2Z.inj_add, IH, Nat2Z.inj_succ. ring. }
    rewrite Lg. destruct (C27_single_set_combinations (range lo hi)) as (_ & H1 & H2 & _).
    rewrite <- H1, Lr in H2. rewrite !Lr. rewrite <- H2. ring.
  - intros k t H. unfold wu_differences, averages. rewrite !nth_error_map, H. destruct t as [[a b] c]. cbn [option_map].
    split; [reflexivity|]. eexists. split; [reflexivity|]. unfold average, Qeq, Qmult, inject_Z. cbn [Qnum Qden fst snd]. rewrite Pos2Z.inj_mul. lia.
Qed.
Print Assumptions C29_generator_single_range.
Example C29_case : generate (range 2 3) (range (-2) 0) None [] [] [] [] =
  [(2, -2, -1); (2, -2, 0); (2, -1, 0); (3, -2, -1); (3, -2, 0); (3, -1, 0)].
Proof. reflexivity. Qed.

(** C29, two ranges: every requested combination (n2 from the first, n3 from the
    second range) is present up to exchanging the two daughters, whatever the set
    orders ... *)
Theorem C29_generator_two_ranges_complete :
  forall dl dh l1 h1 l2 h2 U AmB BmA I,
  set_orders (range l1 h1) (range l2 h2) U AmB BmA I ->
  let g := generate (range dl dh) (range l1 h1) (Some (range l2 h2)) U AmB BmA I in
  forall d x y, dl <= d <= dh -> l1 <= x <= h1 -> l2 <= y <= h2 -> In (d, x, y) g \/ In (d, y, x) g.
Proof.
  intros dl dh l1 h1 l2 h2 U AmB BmA I Ho g d x y Hd Hx Hy.
  destruct (C28_symmetric_product_complete _ _ _ _ _ _ true Ho) as [C1 C2].
  assert (K : forall u v, In (u, v) (sym_value_diag true (range l1 h1) (range l2 h2) U AmB BmA I) -> In (d, u, v) g).
  { intros u v H. unfold g, generate. apply in_flat_map. exists d. split; [apply range_In, Hd|].
    apply in_map_iff. exists (u, v). split; [reflexivity|exact H]. }
  destruct (Z.eq_dec x y) as [->|Hne].
  - left. apply K, C2; [reflexivity|apply range_In; lia|apply range_In; lia].
  - destruct (C1 x y) as [H|H]; [|left; apply K, H|right; apply K, H].
    split; [exact Hne|]. left. split; apply range_In; assumption.
Qed.
Print Assumptions C29_generator_two_ranges_complete.

(** ... but the daughters can be exchanged: when the sets are iterated in
    ascending order and the second range lies below the first, every generated
    triple gives the second mode a radial order outside its requested range. *)
Theorem C29_generator_two_ranges_swaps_daughters :
  forall dl dh l1 h1 l2 h2 U AmB BmA I,
  set_orders (range l1 h1) (range l2 h2) U AmB BmA I -> h2 < l1 ->
  (forall x y, precedes U x y -> x < y) -> (forall x y, precedes AmB x y -> x < y) -> (forall x y, precedes BmA x y -> x < y) ->
  forall d x y, In (d, x, y) (generate (range dl dh) (range l1 h1) (Some (range l2 h2)) U AmB BmA I) ->
    l2 <= x <= h2 /\ l1 <= y <= h1.
Proof.
  intros dl dh l1 h1 l2 h2 U AmB BmA I Ho Hlt SU SAB SBA d x y H.
  unfold generate in H. apply in_flat_map in H. destruct H as (d' & _ & H). apply in_map_iff in H.
  destruct H as ([u v] & E & H). cbn in E. injection E as -> -> ->.
  destruct Ho as (HU & HAB & HBA & HI). unfold sym_value_diag in H. apply in_app_iff in H. destruct H as [H|H].
  - assert (Asc : forall k, (forall a b, precedes k a b -> a < b) -> (forall z, In z k -> In z U) -> same_order k U).
    { intros k Sk Hk a b P. assert (Q := Sk _ _ P). destruct (precedes_In _ _ _ P) as [Ia Ib].
      destruct (precedes_total U a b) as [R|R]; [apply Hk; assumption|apply Hk; assumption|lia|exact R|].
      exfalso. apply SU in R. lia. }
    apply sym_sound in H; try assumption; try apply range_NoDup.
    + destruct H as [P [Hne W]]. apply SU in P. rewrite !range_In in W. lia.
    + apply Asc; [intros a b P; apply range_precedes in P; lia|intros z Hz; apply HU; tauto].
    + apply Asc; [intros a b P; apply range_precedes in P; lia|intros z Hz; apply HU; tauto].
    + apply Asc; [exact SAB|intros z Hz; apply HAB in Hz; apply HU; tauto].
    + apply Asc; [exact SBA|intros z Hz; apply HBA in Hz; apply HU; tauto].
  - apply in_map_iff in H. destruct H as (z & E & Hz). apply HI in Hz. rewrite !range_In in Hz. lia.
Qed.
Print Assumptions C29_generator_two_ranges_swaps_daughters.
Example C29_case_swap : set_orders (range 5 6) (range 1 2) [1; 2; 5; 6] [5; 6] [1; 2] [] /\
  In (9, 1, 5) (generate [9] (range 5 6) (Some (range 1 2)) [1; 2; 5; 6] [5; 6] [1; 2] []).
Proof.
  split; [|simpl; tauto].
  unfold set_orders, enumerates. repeat split; intros; try (repeat constructor; simpl; intuition discriminate);
      rewrite ?range_In in *; simpl in *; lia.
Qed.
