(** * Further facts about the histogram searches: the cython search, whole-output normalisation,
    geometric widths. *)
From Coq Require Import Reals List ZArith Bool Lia Lra.
From Verif Require Import Base Py Hist_Model Hist_Spec Hist_Proofs Hist_Search Hist_API Hist_Phase Hist_Log Hist_LogSearch.
Import ListNotations.
Local Open Scope R_scope.
Local Open Scope res_scope.

(** ** cython *)
(** the likelihood with normalisation M instead of N + n alpha - 1 *)
Definition hogg_norm (c : list R) (M alpha w : R) : R := total (map (fun n => n * ln ((n + alpha - 1) / (M * w))) c).
Section Cy.
  Variables (d : list (option R)) (o : options) (al : list R) (nbs : list nat) (lo hi : R) (hist : nat -> list R).
  Hypothesis Ea : o_alphas o = Some al.
  Hypothesis En : o_bins o = Some nbs.
  Hypothesis Ep : o_phases o = [0].
  Hypothesis Ev : o_verbose o = false.
  Hypothesis S : spread lo hi (valued d).
  Let N := List.length (valued d).
  Hypothesis U : forall n a, In n nbs -> In a al -> (1 <= n)%nat /\ 0 < INR n * (1 + a) - 1.
  Hypothesis H : forall n, In n nbs -> histogram_of lo hi n (valued d) (hist n).
  Let combos := combinations2 al nbs.
  Definition cy_value (c : R * nat) : R := hogg_norm (hist (snd c)) (INR (snd c) * (1 + fst c) - 1) (fst c) ((hi - lo) / INR (snd c)).
  Definition cy_fval (c : R * nat) : xr := jacky (hist (snd c)) ((hi - lo) / INR (snd c)) (fst c) (INR (snd c) * (1 + fst c) - 1).
  Lemma cy_hist n ck : In n nbs -> (1 <= n)%nat -> histogram_counts Cython (valued d) ((hi - lo) / INR n) 0 n 0 ck None = Ok (hist n).
  Proof.
    intros Hn L. destruct (histogram_counts_agree Cython lo hi (valued d) n ck None S L (or_introl eq_refl)) as (k & E & Enp).
    rewrite (histogram_of_np lo hi _ _ _ S L (H n Hn)) in Enp. injection Enp as ->.
    destruct (spread_eqs _ _ _ S) as (_ & _ & E3). unfold compute_bin_width in E. rewrite E3 in E. exact E.
  Qed.
  Lemma cy_score c : In c combos -> score_impl Cython (valued d) (o_checks o) (c, 0) = Ok (cy_fval c, (hi - lo) / INR (snd c)).
  Proof.
    intros Hc. pose proof (list_prod_in _ _ _ Hc) as [Ha Hn]. destruct (U _ _ Hn Ha) as [L _]. destruct c as [a n]. cbn [fst snd] in *.
    unfold score_impl. destruct (spread_eqs _ _ _ S) as (_ & _ & E3). unfold compute_bin_width. rewrite E3. rewrite (cy_hist n _ Hn L). cbn [bind conversion].
    unfold conversion_no_loop. destruct (H n Hn) as [Hl _]. rewrite Hl. reflexivity.
  Qed.
  Lemma cy_cases c : In c combos -> (def hist c /\ cy_fval c = Fin (cy_value c)) \/ (~ def hist c /\ bad (cy_fval c)).
  Proof.
    intros Hc. pose proof (list_prod_in _ _ _ Hc) as [Ha Hn]. destruct (U _ _ Hn Ha) as [L P]. pose proof S as (_ & _ & Hlt).
    assert (D : 0 < (INR (snd c) * (1 + fst c) - 1) * ((hi - lo) / INR (snd c))) by (apply Rmult_lt_0_compat; [exact P|apply w_pos; assumption]).
    destruct (jacky_cases (hist (snd c)) ((hi - lo) / INR (snd c)) (fst c) _ D) as [G|B].
    - intros n Hx. apply (histogram_of_pos _ _ _ _ _ _ (H _ Hn) Hx).
    - left. split; [exact G|]. unfold cy_fval. rewrite jacky_good by assumption. reflexivity.
    - right. split; [|exact B]. intros G. unfold cy_fval in B. rewrite jacky_good in B by assumption. destruct B; discriminate.
  Qed.
  Lemma cython_best_l c w0 ws : o_custom o = w0 :: ws -> first_best (def hist) cy_value combos c ->
    likelihood_impl Cython (Some d) o =
      Ok (Some (Output (convert o (hist (snd c)) N ((hi - lo) / INR (snd c))) (linspace lo hi (snd c)) [(hi - lo) / INR (snd c)] (binning_parameters o c))).
  Proof.
    intros Ew B. unfold likelihood_impl. rewrite (prologue_main d o _ lo hi al nbs Ea En S). rewrite Ew, Ep. cbn [py_get Z.ltb Z.compare nth_error Z.to_nat bind].
    unfold combinations3. rewrite list_prod_one. fold (combinations2 al nbs). fold combos.
    cbn [default_bins]. change (1, 1%nat, 0) with ((fun c : R * nat => (c, 0)) (1, 1%nat)).
    rewrite (pick_map (fun c => score_impl Cython (valued d) (o_checks o) (c, 0))) by reflexivity.
    destruct (pick_spec (fun c => score_impl Cython (valued d) (o_checks o) (c, 0)) cy_fval (fun c => (hi - lo) / INR (snd c)) (def hist) cy_value combos cy_score cy_cases (Some ((1, 1%nat), w0))) as (r & E & P).
    rewrite E. cbn [bind]. rewrite (picked_best _ _ _ _ _ _ _ P B). cbn [snd fst option_map].
    assert (Hc : In c combos) by (destruct B as (k & Hk & _); apply nth_error_In in Hk; exact Hk).
    pose proof (list_prod_in _ _ _ Hc) as [Ha Hn]. destruct (U _ _ Hn Ha) as [L _]. destruct c as [a n]. cbn [fst snd] in *.
    unfold print_maximal. rewrite Ev. cbn [bind]. rewrite (cy_hist n _ Hn L). cbn [bind]. unfold bin_edges.
    destruct (spread_eqs _ _ _ S) as (E1 & E2 & _). rewrite E1, E2. reflexivity.
  Qed.
End Cy.

(** changing the normalisation adds N ln(M/M') *)
Lemma hogg_norm_shift c M M' alpha w : 0 < M -> 0 < M' -> 0 < w -> (forall n, In n c -> 0 < n + alpha - 1) ->
  hogg_norm c M' alpha w = hogg_norm c M alpha w + total c * ln (M / M').
Proof.
  intros HM HM' Hw H. unfold hogg_norm. induction c as [|n c IH]; cbn [map total]; [lra|].
  rewrite IH by (intros; apply H; right; assumption). assert (P : 0 < n + alpha - 1) by (apply H; left; reflexivity).
  replace ((n + alpha - 1) / (M' * w)) with ((n + alpha - 1) / (M * w) * (M / M')) by (field; lra).
  rewrite ln_mult; [lra| |]; apply Rdiv_lt_0_compat; try assumption. apply Rmult_lt_0_compat; assumption.
Qed.
Lemma first_best_singleton {C} (ok : C -> Prop) (val : C -> R) c : ok c -> first_best ok val [c] c.
Proof. intros H. exists 0%nat. split; [reflexivity|]. split; [exact H|]. split; [|intros; lia]. intros [|j] e E _; cbn in E; [injection E as <-; lra|destruct j; discriminate]. Qed.

(** ** whole outputs *)
Definition finite_sum (h : list xr) (s : R) : Prop := exists p, h = map Fin p /\ total p = s.
Lemma total_scale l k : total (map (fun x => x / k) l) = total l / k.
Proof. induction l as [|x l IH]; cbn; [unfold Rdiv; ring|]. rewrite IH. unfold Rdiv. ring. Qed.
Lemma probability_sum c N : (0 < N)%nat -> sumR c = INR N -> finite_sum (to_probability c N) 1.
Proof.
  intros HN Hs. assert (0 < INR N) by (apply lt_0_INR, HN). exists (map (fun x => x / INR N) c). split.
  - unfold to_probability. rewrite map_map. apply map_ext. intros x. apply xdiv_fin. lra.
  - rewrite total_scale, total_sumR, Hs. field. lra.
Qed.
Lemma density_sum c N w : (0 < N)%nat -> w <> 0 -> sumR c = INR N -> finite_sum (to_density c N w) (1 / w).
Proof.
  intros HN Hw Hs. assert (0 < INR N) by (apply lt_0_INR, HN). exists (map (fun x => x / (INR N * w)) c). split.
  - unfold to_density. rewrite map_map. apply map_ext. intros x. apply xdiv_fin. intros E. apply Rmult_integral in E. destruct E; [lra|contradiction].
  - rewrite total_scale, total_sumR, Hs. field. split; [exact Hw|lra].
Qed.
Lemma count_sum c N : sumR c = INR N -> finite_sum (map Fin c) (INR N).
Proof. intros Hs. exists c. split; [reflexivity|rewrite total_sumR; exact Hs]. Qed.
Lemma convert_sum o c N w : (0 < N)%nat -> w <> 0 -> sumR c = INR N ->
  finite_sum (convert o c N w) (if o_prob o then 1 else if o_dens o then 1 / w else INR N).
Proof. intros. unfold convert. destruct (o_prob o); [apply probability_sum; assumption|]. destruct (o_dens o); [apply density_sum; assumption|apply count_sum; assumption]. Qed.
Lemma np_histogram_sum lo hi data n h : spread lo hi data -> np_histogram data n = Ok h -> sumR (fst h) = INR (List.length data).
Proof.
  intros S E. assert (Hn : (1 <= n)%nat) by (unfold np_histogram in E; destruct (Nat.eqb_spec n 0); [discriminate|lia]).
  destruct (np_histogram_spread lo hi data n S Hn) as (c & E' & Hc). rewrite E in E'. injection E' as ->. apply (histogram_of_sum lo hi data n c S Hn Hc).
Qed.

Lemma output_prologue d o k lo hi out : spread lo hi (valued d) -> prologue (Some d) o k = Ok (Some out) ->
  exists al nbs, o_alphas o = Some al /\ o_bins o = Some nbs /\ k (valued d) al nbs = Ok (Some out).
Proof.
  intros S E. destruct (o_alphas o) as [al|] eqn:Ea; [|unfold prologue in E; rewrite Ea in E; discriminate].
  destruct (o_bins o) as [nbs|] eqn:En; [|unfold prologue in E; rewrite Ea, En in E; discriminate].
  rewrite (prologue_main d o k lo hi al nbs Ea En S) in E. eauto.
Qed.
(** which search *)
Inductive search := Table | Iterated | With (v : impl).
Definition run_search (s : search) : option (list (option R)) -> options -> res (option output) :=
  match s with Table => likelihood_numpy | Iterated => likelihood_iterator | With v => likelihood_impl v end.
Lemma output_sum s d o lo hi out : spread lo hi (valued d) -> run_search s (Some d) o = Ok (Some out) ->
  exists w, out_width out = [w] /\ (w <> 0 -> finite_sum (out_hist out) (if o_prob o then 1 else if o_dens o then 1 / w else INR (List.length (valued d)))).
Proof.
  intros S E. assert (HN : (0 < List.length (valued d))%nat) by (pose proof (spread_two _ _ _ S); lia).
  destruct s as [| |v]; cbn [run_search] in E; apply (output_prologue _ _ _ lo hi _ S) in E; destruct E as (al & nbs & _ & _ & E).
  - cbv zeta in E; destruct (mapM (score_numpy (valued d)) _) as [sc| |]; cbn [bind] in E; try discriminate. destruct (nanargmax _) as [i| |]; cbn [bind] in E; try discriminate.
    destruct (py_get (combinations2 al nbs) _) as [c| |]; cbn [bind] in E; try discriminate. destruct (py_get sc _) as [[x w]| |]; cbn [bind] in E; try discriminate.
    destruct (print_maximal o); cbn [bind] in E; try discriminate. destruct (np_histogram _ _) as [h| |] eqn:Eh; cbn [bind] in E; try discriminate.
    injection E as <-. exists w. split; [reflexivity|]. intros Hw. cbn [out_hist snd]. apply convert_sum; [exact HN|exact Hw|]. apply (np_histogram_sum lo hi _ _ _ S Eh).
  - destruct (py_get (o_custom o) 0) as [w0| |]; cbn [bind] in E; try discriminate. destruct (pick _ _ _) as [[x [[c w]|]]| |]; cbn [bind snd] in E; try discriminate.
    destruct (print_maximal o); cbn [bind] in E; try discriminate. destruct (np_histogram _ _) as [h| |] eqn:Eh; cbn [bind] in E; try discriminate.
    injection E as <-. exists w. split; [reflexivity|]. intros Hw. cbn [out_hist snd]. apply convert_sum; [exact HN|exact Hw|]. apply (np_histogram_sum lo hi _ _ _ S Eh).
  - destruct (py_get (o_custom o) 0) as [w0| |]; cbn [bind] in E; try discriminate. destruct (pick _ _ _) as [[x [[[[a n] p] w]|]]| |]; cbn [bind snd] in E; try discriminate.
    destruct (print_maximal o); cbn [bind] in E; try discriminate. destruct (histogram_counts _ _ _ _ _ _ _ _) as [h| |] eqn:Eh; cbn [bind] in E; try discriminate.
    injection E as <-. exists w. split; [reflexivity|]. intros Hw. cbn [out_hist]. apply convert_sum; [exact HN|exact Hw|]. apply (histogram_counts_sum _ _ _ _ _ _ _ _ _ Eh).
Qed.
Lemma verbose_fails s d o lo hi : spread lo hi (valued d) -> o_verbose o = true -> forall out, run_search s (Some d) o <> Ok out.
Proof.
  intros S Hv out E. destruct s as [| |v]; cbn [run_search] in E; unfold likelihood_numpy, likelihood_iterator, likelihood_impl in E.
  - destruct (o_alphas o) as [al|] eqn:Ea; [|unfold prologue in E; rewrite Ea in E; discriminate].
    destruct (o_bins o) as [nbs|] eqn:En; [|unfold prologue in E; rewrite Ea, En in E; discriminate].
    rewrite (prologue_main d o _ lo hi al nbs Ea En S) in E. unfold print_maximal in E. rewrite Hv in E.
    cbv zeta in E; destruct (mapM (score_numpy (valued d)) _) as [sc| |]; cbn [bind] in E; try discriminate. destruct (nanargmax _) as [i| |]; cbn [bind] in E; try discriminate.
    destruct (py_get (combinations2 al nbs) _) as [c| |]; cbn [bind] in E; try discriminate. destruct (py_get sc _) as [[x w]| |]; cbn [bind] in E; discriminate.
  - destruct (o_alphas o) as [al|] eqn:Ea; [|unfold prologue in E; rewrite Ea in E; discriminate].
    destruct (o_bins o) as [nbs|] eqn:En; [|unfold prologue in E; rewrite Ea, En in E; discriminate].
    rewrite (prologue_main d o _ lo hi al nbs Ea En S) in E. unfold print_maximal in E. rewrite Hv in E.
    destruct (py_get (o_custom o) 0) as [w0| |]; cbn [bind] in E; try discriminate. destruct (pick _ _ _) as [[x [[c w]|]]| |]; cbn [bind snd] in E; discriminate.
  - destruct (o_alphas o) as [al|] eqn:Ea; [|unfold prologue in E; rewrite Ea in E; discriminate].
    destruct (o_bins o) as [nbs|] eqn:En; [|unfold prologue in E; rewrite Ea, En in E; discriminate].
    rewrite (prologue_main d o _ lo hi al nbs Ea En S) in E. unfold print_maximal in E. rewrite Hv in E.
    destruct (py_get (o_custom o) 0) as [w0| |]; cbn [bind] in E; try discriminate. destruct (pick _ _ _) as [[x [[[[a n] p] w]|]]| |]; cbn [bind snd] in E; discriminate.
Qed.

(** ** partition of the range *)
Lemma linear_bin_exists lo hi n x : lo < hi -> (1 <= n)%nat -> lo <= x <= hi -> exists i, (i < n)%nat /\ linear_bin lo ((hi - lo) / INR n) n i x /\
  forall j, (j < n)%nat -> linear_bin lo ((hi - lo) / INR n) n j x -> j = i.
Proof.
  intros Hlt Hn Hx. assert (Pn : 0 < INR n) by (apply lt_0_INR; lia). set (w := (hi - lo) / INR n). assert (Pw : 0 < w) by (apply Rdiv_lt_0_compat; lra).
  assert (Eh : lo + INR n * w = hi) by (unfold w; field; lra).
  assert (U : forall i j, (i < n)%nat -> (j < n)%nat -> linear_bin lo w n i x -> linear_bin lo w n j x -> j = i).
  { intros i j Hi Hj A B. destruct (Nat.lt_trichotomy i j) as [L|[E|L]]; [|lia|].
    - exfalso. assert (INR (S i) * w <= INR j * w) by (apply Rmult_le_compat_r; [lra|apply le_INR; lia]).
      assert (INR j * w < INR n * w) by (apply Rmult_lt_compat_r; [lra|apply lt_INR; lia]). destruct A as [A|[A A']], B as [B|[B B']]; try lia; lra.
    - exfalso. assert (INR (S j) * w <= INR i * w) by (apply Rmult_le_compat_r; [lra|apply le_INR; lia]).
      assert (INR i * w < INR n * w) by (apply Rmult_lt_compat_r; [lra|apply lt_INR; lia]). destruct A as [A|[A A']], B as [B|[B B']]; try lia; lra. }
  assert (Ex : exists i, (i < n)%nat /\ linear_bin lo w n i x).
  { assert (G : forall m, (m <= n)%nat -> x < lo + INR m * w -> exists i, (i < m)%nat /\ linear_bin lo w n i x).
    { induction m as [|m IH]; intros Hm Hl; [cbn in Hl; lra|]. destruct (Rlt_le_dec x (lo + INR m * w)) as [A|A].
      - destruct (IH ltac:(lia) A) as (i & Hi & B). exists i. split; [lia|exact B].
      - exists m. split; [lia|]. left. split; [exact A|exact Hl]. }
    destruct (Rlt_le_dec x hi) as [A|A]; [apply (G n); [lia|rewrite Eh; exact A]|]. exists (n - 1)%nat. split; [lia|]. right. split; [lia|]. rewrite Eh. lra. }
  destruct Ex as (i & Hi & A). exists i. split; [exact Hi|]. split; [exact A|]. intros j Hj B. apply (U i j Hi Hj A B).
Qed.
Lemma edge_bin_exists e x : increasing e -> (2 <= List.length e)%nat -> exists i, (S (S i) <= List.length e)%nat /\ edge_bin e i x /\
  forall j, (S (S j) <= List.length e)%nat -> edge_bin e j x -> j = i.
Proof.
  intros He L. pose proof (edge_cell_range e x He L) as Rg. set (i := Z.to_nat (edge_cell e x)).
  assert (Ei : edge_cell e x = Z.of_nat i) by (unfold i; lia). exists i. split; [lia|]. split; [apply edge_cell_bin; [exact He|lia|exact Ei]|].
  intros j Hj B. apply edge_cell_bin in B; [|exact He|exact Hj]. lia.
Qed.

(** ** geometric widths grow *)
Lemma geometric_gap lo hi n i : 0 < lo -> lo < hi -> (1 <= n)%nat -> (i < n)%nat ->
  nth i (gaps (geometric_edges lo hi n)) 0 = Rpower (hi / lo) (INR i / INR n) * nth 0 (gaps (geometric_edges lo hi n)) 0.
Proof.
  intros Hlo Hlt Hn Hi. assert (Pn : 0 < INR n) by (apply lt_0_INR; lia). rewrite <- gaps_widths.
  rewrite !widths_nth by (rewrite geometric_length; lia). rewrite (geometric_nth lo hi n (S i)), (geometric_nth lo hi n i), (geometric_nth lo hi n 1), (geometric_nth lo hi n 0) by lia.
  replace (INR (S i) / INR n) with (INR i / INR n + INR 1 / INR n) by (rewrite (S_INR i); change (INR 1) with 1; field; lra). rewrite Rpower_plus.
  replace (INR 0 / INR n) with 0 by (change (INR 0) with 0; field; lra). rewrite Rpower_O by (apply Rdiv_lt_0_compat; lra). ring.
Qed.
Lemma power_gt_one q t : 1 < q -> 0 < t -> 1 < Rpower q t.
Proof. intros Hq Ht. unfold Rpower. rewrite <- exp_0. apply exp_increasing. apply Rmult_lt_0_compat; [exact Ht|]. rewrite <- ln_1. apply ln_increasing; lra. Qed.
Lemma dot_ge : forall c ws w0, List.length c = List.length ws -> (forall x, In x c -> 0 <= x) -> (forall w, In w ws -> w0 <= w) -> total c * w0 <= dot c ws.
Proof.
  induction c as [|x c IH]; intros [|w ws] w0 L Hx Hw; cbn in *; try discriminate; [lra|].
  specialize (IH ws w0 ltac:(lia) (fun y Hy => Hx y (or_intror Hy)) (fun y Hy => Hw y (or_intror Hy))).
  assert (0 <= x) by (apply Hx; left; reflexivity). assert (w0 <= w) by (apply Hw; left; reflexivity). assert (x * w0 <= x * w) by (apply Rmult_le_compat_l; assumption). lra.
Qed.
Lemma dot_scale_l : forall c ws k, dot (map (fun x => x / k) c) ws = dot c ws / k.
Proof. induction c as [|x c IH]; intros [|w ws] k; cbn; try (unfold Rdiv; ring). rewrite IH. unfold Rdiv. ring. Qed.
Lemma blas_density_integral lo hi n c N : 0 < lo -> lo < hi -> (1 <= n)%nat -> List.length c = n -> (forall x, In x c -> 0 <= x) -> total c = INR N -> (0 < N)%nat ->
  hd 0 c < INR N -> exists p, to_density c N (hd 0 (gaps (geometric_edges lo hi n))) = map Fin p /\ 1 < dot p (gaps (geometric_edges lo hi n)).
Proof.
  intros Hlo Hlt Hn Lc Hx Ht HN Hh. assert (PN : 0 < INR N) by (apply lt_0_INR, HN). set (g := gaps (geometric_edges lo hi n)).
  assert (Lg : List.length g = n) by apply gaps_length. assert (E0 : hd 0 g = nth 0 g 0) by (destruct g; reflexivity).
  assert (P0 : 0 < hd 0 g).
  { rewrite E0. unfold g. rewrite <- gaps_widths, widths_nth by (rewrite geometric_length; lia). rewrite (geometric_nth lo hi n 1), (geometric_nth lo hi n 0) by lia.
    assert (0 < INR n) by (apply lt_0_INR; lia). replace (INR 0 / INR n) with 0 by (change (INR 0) with 0; field; lra). rewrite Rpower_O by (apply Rdiv_lt_0_compat; lra).
    assert (1 < Rpower (hi / lo) (INR 1 / INR n)).
    { apply power_gt_one; [|apply Rdiv_lt_0_compat; [cbn; lra|assumption]]. apply Rmult_lt_reg_r with lo; [exact Hlo|]. unfold Rdiv. rewrite Rmult_assoc, Rinv_l by lra. lra. }
    assert (lo * 1 < lo * Rpower (hi / lo) (INR 1 / INR n)) by (apply Rmult_lt_compat_l; assumption). lra. }
  exists (map (fun x => x / (INR N * hd 0 g)) c). split.
  - unfold to_density. rewrite map_map. apply map_ext. intros x. apply xdiv_fin. apply Rgt_not_eq, Rmult_lt_0_compat; assumption.
  - rewrite dot_scale_l. apply Rmult_lt_reg_r with (INR N * hd 0 g); [apply Rmult_lt_0_compat; assumption|]. unfold Rdiv. rewrite Rmult_assoc, Rinv_l, Rmult_1_r by (apply Rgt_not_eq, Rmult_lt_0_compat; assumption).
    rewrite Rmult_1_l, <- Ht. destruct c as [|c0 c]; [cbn in Lc; lia|]. destruct g as [|g0 g'] eqn:Eg; [cbn in Lg; lia|]. cbn [hd] in *. cbn [dot total].
    cbn in Ht, Lc, Lg.
    assert (Gr : forall w, In w g' -> g0 < w).
    { intros w Hw. apply (In_nth _ _ 0) in Hw. destruct Hw as (i & Hi & <-). change (nth i g' 0) with (nth (S i) (g0 :: g') 0). change g0 with (nth 0 (g0 :: g') 0) at 1. rewrite <- Eg. unfold g.
      rewrite (geometric_gap lo hi n (S i)) by (try assumption; lia). fold g. rewrite Eg. cbn [nth].
      assert (1 < Rpower (hi / lo) (INR (S i) / INR n)).
      { apply power_gt_one; [|apply Rdiv_lt_0_compat; apply lt_0_INR; lia]. apply Rmult_lt_reg_r with lo; [exact Hlo|]. unfold Rdiv. rewrite Rmult_assoc, Rinv_l by lra. lra. }
      assert (1 * g0 < Rpower (hi / lo) (INR (S i) / INR n) * g0) by (apply Rmult_lt_compat_r; assumption). lra. }
    assert (St : forall c ws, List.length c = List.length ws -> (forall x, In x c -> 0 <= x) -> (forall w, In w ws -> g0 < w) -> 0 < total c -> total c * g0 < dot c ws).
    { clear - P0. induction c as [|x c IH]; intros [|w ws] L Hx Hw Ht; cbn in *; try discriminate; [lra|].
      assert (A0 : 0 <= x) by (apply Hx; left; reflexivity). assert (A1 : g0 < w) by (apply Hw; left; reflexivity).
      destruct (Rle_lt_or_eq_dec _ _ A0) as [A2|A2].
      - assert (x * g0 < x * w) by (apply Rmult_lt_compat_l; assumption).
        pose proof (dot_ge c ws g0 ltac:(lia) (fun y Hy => Hx y (or_intror Hy)) (fun y Hy => Rlt_le _ _ (Hw y (or_intror Hy)))). lra.
      - subst x. specialize (IH ws ltac:(lia) (fun y Hy => Hx y (or_intror Hy)) (fun y Hy => Hw y (or_intror Hy)) ltac:(lra)). lra. }
    specialize (St c g' ltac:(lia) (fun y Hy => Hx y (or_intror Hy)) Gr ltac:(lra)). lra.
Qed.
