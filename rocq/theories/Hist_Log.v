(** * Proofs about histograms with logarithmic bins or given edges. *)
From Coq Require Import Reals List ZArith Bool Lia Lra.
From Verif Require Import Base Py Hist_Model Hist_Spec Hist_Proofs Hist_Search Hist_API Hist_Phase.
Import ListNotations.
Local Open Scope R_scope.
Local Open Scope res_scope.

Definition increasing (e : list R) : Prop := forall i j, (i < j)%nat -> (j < List.length e)%nat -> nth i e 0 < nth j e 0.

Lemma increasing_tail a e : increasing (a :: e) -> increasing e.
Proof. intros H i j L1 L2. apply (H (S i) (S j)); cbn; lia. Qed.
Lemma increasing_head a e x : increasing (a :: e) -> In x e -> a < x.
Proof. intros H Hx. apply (In_nth _ _ 0) in Hx. destruct Hx as (i & Hi & <-). apply (H 0%nat (S i)); cbn; lia. Qed.
Lemma search_spec : forall e x, increasing e -> let k := searchsorted_left e x in (k <= List.length e)%nat /\
  (forall i, (i < k)%nat -> nth i e 0 < x) /\ (forall i, (k <= i < List.length e)%nat -> x <= nth i e 0).
Proof.
  unfold searchsorted_left. induction e as [|a e IH]; intros x H; cbn [filter]; [cbn; split; [lia|split; intros; lia]|].
  assert (G : (rlt a x = true /\ a < x) \/ (rlt a x = false /\ ~ a < x)) by (unfold rlt; destruct (Rlt_dec a x); [left|right]; split; auto).
  destruct G as [[-> L]|[-> L]].
  - destruct (IH x (increasing_tail _ _ H)) as (A & B & C). cbn [List.length]. split; [cbn; lia|]. split.
    + intros [|i] Hi; [exact L|]. apply B. lia.
    + intros [|i] Hi; [lia|]. apply C. cbn in Hi. lia.
  - assert (E : filter (fun e => rlt e x) e = []).
    { assert (G : forall l, (forall y, In y l -> a < y) -> filter (fun e => rlt e x) l = []).
      { induction l as [|y l IHl]; intros Hy; cbn; [reflexivity|]. unfold rlt at 1. destruct (Rlt_dec y x); [specialize (Hy y (or_introl eq_refl)); lra|]. apply IHl. intros; apply Hy; right; assumption. }
      apply G. intros y Hy. apply (increasing_head _ _ _ H Hy). }
    rewrite E. cbn [List.length]. split; [lia|]. split; [intros; lia|]. intros [|i] Hi; [cbn; lra|]. cbn in Hi. assert (nth i e 0 > a) by (apply (H 0%nat (S i)); cbn; lia). cbn. lra.
Qed.
(** the clamped bin number *)
Definition edge_cell (e : list R) (x : R) : Z :=
  let nb := (Z.of_nat (List.length e) - 1)%Z in
  let b := (Z.of_nat (searchsorted_left e x) - 1)%Z in
  let b := if Z.eqb b (-1) then 0%Z else b in if Z.eqb b nb then (nb - 1)%Z else b.
Lemma edge_cell_range e x : increasing e -> (2 <= List.length e)%nat -> (0 <= edge_cell e x < Z.of_nat (List.length e) - 1)%Z.
Proof.
  intros H L. destruct (search_spec e x H) as (A & _). unfold edge_cell. destruct (Z.eqb_spec (Z.of_nat (searchsorted_left e x) - 1) (-1)).
  - destruct (Z.eqb_spec 0 (Z.of_nat (List.length e) - 1)); lia.
  - destruct (Z.eqb_spec (Z.of_nat (searchsorted_left e x) - 1) (Z.of_nat (List.length e) - 1)); lia.
Qed.
Lemma edge_cell_bin e x i : increasing e -> (S (S i) <= List.length e)%nat -> (edge_cell e x = Z.of_nat i <-> edge_bin e i x).
Proof.
  intros H L. destruct (search_spec e x H) as (A & B & C). set (k := searchsorted_left e x) in *. unfold edge_cell, edge_bin. fold k.
  assert (B' : forall j, (j < List.length e)%nat -> (nth j e 0 < x <-> (j < k)%nat)).
  { intros j Hj. split; [intros G; destruct (Nat.lt_ge_cases j k) as [|F]; [assumption|]; specialize (C j (conj F Hj)); lra|apply B]. }
  assert (C' : forall j, (j < List.length e)%nat -> (x <= nth j e 0 <-> (k <= j)%nat)).
  { intros j Hj. split; [intros G; destruct (Nat.lt_ge_cases j k) as [F|]; [specialize (B j F); lra|assumption]|intros G; apply C; lia]. }
  rewrite (B' i) by lia. assert (X : (S (S i) = List.length e \/ x <= nth (S i) e 0) <-> (S (S i) = List.length e \/ (k <= S i)%nat)) by (rewrite (C' (S i)) by lia; tauto).
  rewrite X. destruct (Z.eqb_spec (Z.of_nat k - 1) (-1)); match goal with |- context [Z.eqb ?a ?b] => destruct (Z.eqb_spec a b) end; lia.
Qed.
Lemma hlc_form data e minb : histogram_log_counts data e minb = (c <- bincount (map (edge_cell e) data) minb ; Ok (map INR c)).
Proof. unfold histogram_log_counts. rewrite !map_map. reflexivity. Qed.
Lemma hlc_sum data e minb c : histogram_log_counts data e minb = Ok c -> sumR c = INR (List.length data).
Proof.
  rewrite hlc_form. destruct (bincount _ _) as [k| |] eqn:B; cbn [bind]; try discriminate. intros E. injection E as <-.
  rewrite (bincount_sum _ _ _ B), map_length. reflexivity.
Qed.
Lemma hlc_counts data e minb : increasing e -> (2 <= List.length e)%nat -> exists c, histogram_log_counts data e minb = Ok c /\
  (List.length c <= Nat.max minb (List.length e - 1))%nat /\
  (forall i, (S (S i) <= List.length e)%nat -> exists k, counted (edge_bin e i) data k /\ nth i c 0 = INR k) /\
  ((minb <= List.length e - 1)%nat -> (minb = List.length e - 1)%nat \/ (exists x, In x data /\ nth (List.length e - 2) e 0 < x \/ List.length e = 2%nat /\ data <> []) -> S (List.length c) = List.length e).
Proof.
  intros H L. rewrite hlc_form. unfold bincount.
  assert (R1 : forall b, In b (map (edge_cell e) data) -> (0 <= b < Z.of_nat (List.length e) - 1)%Z).
  { intros b Hb. apply in_map_iff in Hb. destruct Hb as (x & <- & _). apply edge_cell_range; assumption. }
  replace (existsb _ _) with false by (symmetry; apply existsb_neg; intros b Hb; apply R1, Hb). cbn [bind].
  set (mx := fold_left Nat.max (map (fun b => S (Z.to_nat b)) (map (edge_cell e) data)) 0%nat).
  assert (Mx : (mx <= List.length e - 1)%nat).
  { apply fold_max_le; [lia|]. intros y Hy. apply in_map_iff in Hy. destruct Hy as (b & <- & Hb). specialize (R1 b Hb). lia. }
  assert (Mg : forall x, In x data -> (S (Z.to_nat (edge_cell e x)) <= mx)%nat).
  { intros x Hx. destruct (fold_max_ge (map (fun b => S (Z.to_nat b)) (map (edge_cell e) data)) 0%nat) as [_ G]. apply G. apply (in_map (fun b => S (Z.to_nat b))), in_map, Hx. }
  eexists. split; [reflexivity|]. rewrite !map_length, seq_length. split; [lia|]. split.
  - intros i Hi. exists (List.length (filter (fun x => Z.eqb (edge_cell e x) (Z.of_nat i)) data)). split.
    + apply filter_counted. intros x Hx. rewrite Z.eqb_eq. apply edge_cell_bin; assumption.
    + rewrite map_map. set (g := fun i => INR (count_occ Z.eq_dec (map (edge_cell e) data) (Z.of_nat i))).
      destruct (Nat.lt_ge_cases i (Nat.max minb mx)) as [Li|Li].
      * rewrite (nth_indep _ 0 (g 0%nat)) by (rewrite map_length, seq_length; exact Li). rewrite (map_nth g), seq_nth by exact Li. unfold g. rewrite count_occ_filter. reflexivity.
      * rewrite nth_overflow by (rewrite map_length, seq_length; exact Li).
        assert (E : filter (fun x => Z.eqb (edge_cell e x) (Z.of_nat i)) data = []).
        { assert (G : forall l, (forall x, In x l -> In x data) -> filter (fun x => Z.eqb (edge_cell e x) (Z.of_nat i)) l = []).
          { induction l as [|x l IHl]; intros Hl; cbn; [reflexivity|]. specialize (Mg x (Hl x (or_introl eq_refl))). destruct (Z.eqb_spec (edge_cell e x) (Z.of_nat i)) as [E|_]; [lia|]. apply IHl. intros; apply Hl; right; assumption. }
          apply G. auto. }
        rewrite E. reflexivity.
  - intros Hm [->|(x & [(Hx & G)|(E & Hd)])].
    + lia.
    + specialize (Mg x Hx). pose proof (edge_cell_range e x H L) as Rg.
      assert (Hc : edge_cell e x = Z.of_nat (List.length e - 2)).
      { apply edge_cell_bin; [exact H|lia|]. split; [right; exact G|left; lia]. }
      rewrite Hc, Nat2Z.id in Mg. lia.
    + destruct data as [|y data]; [congruence|]. specialize (Mg y (or_introl eq_refl)). pose proof (edge_cell_range e y H L). lia.
Qed.

(** ** logarithmically spaced edges *)
Lemma Rpower10_log10 x : 0 < x -> Rpower 10 (log10 x) = x.
Proof.
  intros H. unfold log10, Rpower. replace (ln x / ln 10 * ln 10) with (ln x); [apply exp_ln, H|]. field.
  assert (0 < ln 10) by (rewrite <- ln_1; apply ln_increasing; lra). lra.
Qed.
Lemma ln10_pos : 0 < ln 10. Proof. rewrite <- ln_1. apply ln_increasing; lra. Qed.
Lemma log10_lt a b : 0 < a -> a < b -> log10 a < log10 b.
Proof. intros H1 H2. unfold log10. apply Rmult_lt_compat_r; [apply Rinv_0_lt_compat, ln10_pos|apply ln_increasing; lra]. Qed.
Lemma Rpower10_lt a b : a < b -> Rpower 10 a < Rpower 10 b.
Proof. intros H. unfold Rpower. apply exp_increasing, Rmult_lt_compat_r; [apply ln10_pos|exact H]. Qed.

Section LogEdges.
  Variables (lo hi : R) (data : list R) (nb : nat).
  Hypothesis S : spread lo hi data.
  Hypothesis Hlo : 0 < lo.
  Hypothesis Hnb : (1 <= nb)%nat.
  Lemma log_edges_nth i : (i <= nb)%nat -> nth i (log_edges data nb) 0 = lo * Rpower (hi / lo) (INR i / INR nb).
  Proof.
    intros Hi. destruct (spread_eqs _ _ _ S) as (E1 & E2 & _). pose proof S as (_ & _ & Hlt). unfold log_edges. rewrite E1, E2.
    set (g := fun i => Rpower 10 (log10 lo + INR i * ((log10 hi - log10 lo) / INR nb))).
    rewrite (nth_indep _ 0 (g 0%nat)) by (rewrite map_length, seq_length; lia). rewrite (map_nth g), seq_nth by lia. unfold g. cbn [Nat.add].
    rewrite Rpower_plus, Rpower10_log10 by assumption. f_equal. unfold Rpower, log10. f_equal. replace (ln (hi / lo)) with (ln hi - ln lo) by (unfold Rdiv; rewrite ln_mult, ln_Rinv by (try apply Rinv_0_lt_compat; lra); ring). pose proof ln10_pos.
    assert (0 < INR nb) by (apply lt_0_INR; lia). field. lra.
  Qed.
  Lemma log_edges_length : List.length (log_edges data nb) = Datatypes.S nb.
  Proof. unfold log_edges. rewrite map_length, seq_length. reflexivity. Qed.
  Lemma log_edges_increasing : increasing (log_edges data nb).
  Proof.
    intros i j L1 L2. rewrite log_edges_length in L2. rewrite !log_edges_nth by lia. pose proof S as (_ & _ & Hlt).
    apply Rmult_lt_compat_l; [exact Hlo|]. unfold Rpower. apply exp_increasing. apply Rmult_lt_compat_r.
    - rewrite <- ln_1. apply ln_increasing; [lra|]. apply Rmult_lt_reg_r with lo; [exact Hlo|]. unfold Rdiv. rewrite Rmult_assoc, Rinv_l by lra. lra.
    - apply Rmult_lt_compat_r; [apply Rinv_0_lt_compat, lt_0_INR; lia|apply lt_INR, L1].
  Qed.
  Lemma log_edges_last : nth nb (log_edges data nb) 0 = hi.
  Proof.
    rewrite log_edges_nth by lia. pose proof S as (_ & _ & Hlt). assert (0 < INR nb) by (apply lt_0_INR; lia).
    replace (INR nb / INR nb) with 1 by (field; lra). rewrite Rpower_1; [field; lra|apply Rdiv_lt_0_compat; lra].
  Qed.
  Lemma all_positive : forallb (fun x => rlt 0 x) data = true.
  Proof. apply forallb_forall. intros x Hx. pose proof (spread_in _ _ _ _ S Hx). unfold rlt. destruct (Rlt_dec 0 x); [reflexivity|lra]. Qed.
  Lemma log_counts_spec : exists c e, log_counts_and_edges data nb 0 = Ok (c, e) /\ edge_histogram_of e data c /\ increasing e /\
    List.length e = Datatypes.S nb /\ (forall i, (i <= nb)%nat -> nth i e 0 = lo * Rpower (hi / lo) (INR i / INR nb)) /\ sumR c = INR (List.length data).
  Proof.
    unfold log_counts_and_edges. rewrite all_positive. pose proof S as (_ & Hmax & Hlt). destruct (Nat.eqb_spec nb 1) as [E|N1].
    - destruct (spread_eqs _ _ _ S) as (E1 & E2 & _). rewrite E1, E2. exists [INR (List.length data)], [lo; hi]. split; [reflexivity|]. split.
      + split; [reflexivity|]. cbn [List.length]. intros i Hi. assert (i = 0%nat) by lia. subst i. exists (List.length data). split; [|reflexivity].
        assert (G : forall l : list R, counted (edge_bin [lo; hi] 0) l (List.length l)).
        { induction l; cbn [List.length]; constructor; [split; left; reflexivity|assumption]. }
        apply G.
      + split; [intros i j L1 L2; cbn in L2; destruct i, j as [|[|j]]; cbn; try lia; exact Hlt|]. split; [rewrite E; reflexivity|]. split; [|cbn; lra].
        rewrite E. intros i Hi. cbn [INR]. destruct i as [|[|i]]; cbn [nth INR].
        * replace (0 / 1) with 0 by field. rewrite Rpower_O; [ring|apply Rdiv_lt_0_compat; lra].
        * replace (1 / 1) with 1 by field. rewrite Rpower_1; [field; lra|apply Rdiv_lt_0_compat; lra].
        * lia.
    - destruct (Nat.eqb_spec nb 0); [lia|]. destruct (hlc_counts data (log_edges data nb) 0 log_edges_increasing) as (c & E & _ & Hc & Hl); [rewrite log_edges_length; lia|].
      rewrite E. cbn [bind]. exists c, (log_edges data nb). split; [reflexivity|]. rewrite log_edges_length in *.
      assert (Lc : Datatypes.S (List.length c) = Datatypes.S nb).
      { apply Hl; [lia|]. right. exists hi. left. split; [apply Hmax|]. assert (Q : nth (Datatypes.S nb - 2) (log_edges data nb) 0 < nth nb (log_edges data nb) 0) by (apply log_edges_increasing; rewrite ?log_edges_length; lia). rewrite log_edges_last in Q. exact Q. }
      split; [split; [rewrite log_edges_length; exact Lc|intros i Hi; apply Hc; lia]|]. split; [apply log_edges_increasing|]. split; [reflexivity|].
      split; [apply log_edges_nth|apply (hlc_sum _ _ _ _ E)].
  Qed.
  Lemma log_counts_zero : log_counts_and_edges data 0 0 = Exc ValueError.
  Proof.
    unfold log_counts_and_edges. rewrite all_positive. cbn [Nat.eqb]. rewrite hlc_form. unfold bincount.
    replace (existsb _ _) with true; [reflexivity|]. symmetry. apply existsb_exists. pose proof S as ([Hin _] & _ & _).
    exists (edge_cell [dmin data] lo). split; [apply in_map, Hin|]. destruct (spread_eqs _ _ _ S) as (E1 & _ & _). rewrite E1. unfold edge_cell, searchsorted_left. cbn [filter]. unfold rlt.
    destruct (Rlt_dec lo lo); [lra|]. reflexivity.
  Qed.
End LogEdges.

Lemma widths_length : forall e, S (List.length (widths e)) = Nat.max 1 (List.length e).
Proof. induction e as [|a [|b e] IH]; [reflexivity|reflexivity|]. change (widths (a :: b :: e)) with ((b - a) :: widths (b :: e)). cbn [List.length] in *. lia. Qed.
Lemma widths_nth : forall e i, (S i < List.length e)%nat -> nth i (widths e) 0 = nth (S i) e 0 - nth i e 0.
Proof.
  induction e as [|a [|b e] IH]; intros i Hi; cbn in Hi; try lia. change (widths (a :: b :: e)) with ((b - a) :: widths (b :: e)).
  destruct i as [|i]; [reflexivity|]. change (nth i (widths (b :: e)) 0 = nth (S i) (b :: e) 0 - nth i (b :: e) 0). apply IH. cbn. lia.
Qed.
Lemma widths_pos e w : increasing e -> In w (widths e) -> 0 < w.
Proof.
  intros H Hw. apply (In_nth _ _ 0) in Hw. destruct Hw as (i & Hi & <-). pose proof (widths_length e) as L. assert (S i < List.length e)%nat by lia.
  rewrite widths_nth by assumption. specialize (H i (S i) ltac:(lia) H0). lra.
Qed.
(** densities integrate to one *)
Lemma dot_density : forall c ws s, List.length c = List.length ws -> (forall w, In w ws -> w <> 0) -> s <> 0 ->
  dot (map (fun p => fst p / (s * snd p)) (combine c ws)) ws = sumR c / s.
Proof.
  induction c as [|x c IH]; intros [|w ws] s L Hw Hs; cbn in *; try discriminate; [unfold Rdiv; ring|]. fold (sumR c).
  rewrite IH; [|lia|intros; apply Hw; right; assumption|exact Hs]. field. split; [exact Hs|apply Hw; left; reflexivity].
Qed.
Lemma xdiv_fin a b : b <> 0 -> xdiv a b = Fin (a / b).
Proof. intros H. unfold xdiv. destruct (Req_EM_T b 0); [contradiction|reflexivity]. Qed.
Lemma combine_xdiv c ws s : s <> 0 -> (forall w, In w ws -> w <> 0) ->
  map (fun p => xdiv (fst p) (s * snd p)) (combine c ws) = map Fin (map (fun p => fst p / (s * snd p)) (combine c ws)).
Proof.
  intros Hs Hw. rewrite map_map. apply map_ext_in. intros [x w] Hp. apply in_combine_r in Hp. cbn. apply xdiv_fin.
  intros E. apply Rmult_integral in E. destruct E as [E|E]; [contradiction|exact (Hw _ Hp E)].
Qed.
