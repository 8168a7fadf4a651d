(** * Properties C52-C56, C76-C78: histograms and jackknife bin selection. *)
From Coq Require Import Reals List ZArith Bool Lia Lra.
From Verif Require Import Base Py Hist_Model Hist_Spec Hist_Proofs Hist_Search Hist_API Hist_Phase Hist_Log Hist_LogSearch Hist_More.
Import ListNotations.
Local Open Scope R_scope.

(** concrete data used below: 0 once and 1 eight times *)
Definition demo_data : list R := [0; 1; 1; 1; 1; 1; 1; 1; 1].
Definition demo_opts (al : list R) (nbs : list nat) : options :=
  Options (Some al) (Some nbs) [0] [0.5] false false false false false true.
Lemma demo_spread : spread 0 1 demo_data.
Proof. unfold demo_data. repeat split; cbn; try lra; try tauto; intros x Hx; repeat (destruct Hx as [<-|Hx]; [lra|]); contradiction. Qed.
Lemma demo_valued : valued (map Some demo_data) = demo_data.
Proof. reflexivity. Qed.
Ltac count_tac := repeat (first [apply counted_nil | apply counted_yes; [unfold linear_bin; cbn; first [left; lra | right; split; [reflexivity|lra]]|] | apply counted_no; [unfold linear_bin; cbn; intros [?|[? ?]]; first [lra|lia]|]]).
Definition demo_hist (n : nat) : list R := match n with 1%nat => [9] | _ => [1; 8] end.
Lemma demo_hist_ok n : n = 1%nat \/ n = 2%nat -> histogram_of 0 1 n demo_data (demo_hist n).
Proof.
  intros [->| ->]; split; try reflexivity; intros i Hi.
  - assert (i = 0%nat) by lia. subst i. exists 9%nat. split; [unfold demo_data; count_tac|cbn; lra].
  - destruct i as [|[|i]]; [exists 1%nat|exists 8%nat|lia]; (split; [unfold demo_data; count_tac|cbn; lra]).
Qed.

(** ** C52: counts *)
(** every data set with at least two different values, every number of bins, every implementation,
    phase 0, with or without the additional checks: the counts are the numbers of data per bin, the
    same for numpy, and sum to the number of data *)
Theorem C52_counts_are_bin_populations : forall v data lo hi nb checks,
  is_min lo data -> is_max hi data -> lo < hi -> (1 <= nb)%nat ->
  exists c, histogram_counts v data ((hi - lo) / INR nb) 0 nb 0 checks None = Ok c /\
    np_histogram data nb = Ok (c, equal_edges lo hi nb) /\
    histogram_of lo hi nb data c /\ total c = INR (List.length data).
Proof.
  intros v data lo hi nb checks A B L Hn. assert (S : spread lo hi data) by (split; [exact A|split; assumption]).
  destruct (histogram_counts_agree v lo hi data nb checks None S Hn (or_introl eq_refl)) as (c & E & Enp).
  destruct (spread_eqs _ _ _ S) as (_ & _ & E3). unfold compute_bin_width in E. rewrite E3 in E.
  exists c. split; [exact E|]. split; [exact Enp|]. destruct (np_histogram_spread lo hi data nb S Hn) as (c' & E' & Hc). rewrite Enp in E'. injection E' as <-.
  split; [exact Hc|]. rewrite total_sumR. apply (histogram_of_sum lo hi data nb c S Hn Hc).
Qed.
(** the bins are a partition of the data range ... *)
Theorem C52_each_datum_in_exactly_one_bin : forall lo hi n x, lo < hi -> (1 <= n)%nat -> lo <= x <= hi ->
  exists i, (i < n)%nat /\ linear_bin lo ((hi - lo) / INR n) n i x /\
    forall j, (j < n)%nat -> linear_bin lo ((hi - lo) / INR n) n j x -> j = i.
Proof. exact linear_bin_exists. Qed.
(** ... and the maximum lies in the last one *)
Theorem C52_maximum_in_last_bin : forall lo hi n, lo < hi -> (1 <= n)%nat -> linear_bin lo ((hi - lo) / INR n) n (n - 1) hi.
Proof. intros lo hi n L Hn. right. split; [lia|]. assert (0 < INR n) by (apply lt_0_INR; lia). field. lra. Qed.
(** whatever width, phase, number of bins, minimum length, given lower edge and checks: if counts are
    returned, no datum is lost or counted twice *)
Theorem C52_mass_conserved_whenever_counts_are_returned : forall v data bw phase nb minb checks dm c,
  histogram_counts v data bw phase nb minb checks dm = Ok c -> total c = INR (List.length data).
Proof. intros. rewrite total_sumR. eapply histogram_counts_sum; eassumption. Qed.
(** finding: data that are all equal give a zero width; with two or more bins the hand-written
    implementations convert the non-finite quotient to an integer, whereas one bin is fine *)
Theorem C52_constant_data_undefined_for_two_bins : forall v x k phase nb checks, (2 <= nb)%nat ->
  histogram_counts v (repeat x (S k)) (compute_bin_width (ptp (repeat x (S k))) nb) phase nb 0 checks None = UB.
Proof.
  intros v x k phase nb checks Hn.
  assert (E : ptp (repeat x (S k)) = 0).
  { unfold ptp. rewrite (dmin_eq _ x), (dmax_eq _ x); [ring| |].
    - split; [left; reflexivity|]. intros y Hy. apply repeat_spec in Hy. lra.
    - split; [left; reflexivity|]. intros y Hy. apply repeat_spec in Hy. lra. }
  rewrite E. unfold compute_bin_width, histogram_counts. destruct (Nat.eqb_spec nb 1); [lia|]. destruct (Nat.eqb_spec nb 0); [lia|].
  cbn [repeat mapM]. unfold bin_index at 1. destruct (Req_EM_T (0 / INR nb) 0) as [_|F]; [reflexivity|]. exfalso. apply F. unfold Rdiv. ring.
Qed.
Example C52_demo : exists c, histogram_counts Cython demo_data ((1 - 0) / INR 2) 0 2 0 true None = Ok c /\ c = [1; 8].
Proof.
  destruct demo_spread as (A & B & L). destruct (C52_counts_are_bin_populations Cython demo_data 0 1 2 true A B L ltac:(lia)) as (c & E & _ & H & _).
  exists c. split; [exact E|]. apply (histogram_of_unique 0 1 2 demo_data); [exact H|]. apply (demo_hist_ok 2). right; reflexivity.
Qed.

(** ** C53: normalisation of the returned histograms *)
(** every constant-width search, every option set and phase: whenever a histogram is returned it sums
    to one (probability), to one over the returned width (density), or to the number of data *)
Theorem C53_returned_histogram_is_normalised : forall s d o lo hi out,
  is_min lo (valued d) -> is_max hi (valued d) -> lo < hi -> run_search s (Some d) o = Ok (Some out) ->
  exists w, out_width out = [w] /\ (w <> 0 -> exists p, out_hist out = map Fin p /\
    total p = if o_prob o then 1 else if o_dens o then 1 / w else INR (List.length (valued d))).
Proof. intros s d o lo hi out A B L E. exact (output_sum s d o lo hi out (conj A (conj B L)) E). Qed.
(** logarithmic bins, numpy and cython, and numexpr without NaN data: density times width sums to one *)
Theorem C53_log_density_integrates_to_one : forall v o c e N Nall,
  (0 < N)%nat -> (forall i j, (i < j)%nat -> (j < List.length e)%nat -> nth i e 0 < nth j e 0) ->
  S (List.length c) = List.length e -> total c = INR N -> o_prob o = false -> o_dens o = true ->
  v <> LBlas -> (v = LNumexpr -> Nall = N) ->
  exists p, convert_log v o c e N Nall = Ok (map Fin p) /\ List.length p = List.length c /\ dot p (gaps e) = 1.
Proof.
  intros v o c e N Nall HN He HL Ht Hp Hd Hv Hne.
  assert (WL : List.length (gaps e) = List.length c) by (unfold gaps; rewrite map_length, seq_length; lia).
  exists (represented_edges false true c N (gaps e)). split; [|split].
  - rewrite <- Hp, <- Hd. apply convert_log_value; auto. destruct v; auto; left; discriminate.
  - cbn [represented_edges]. rewrite map_length, combine_length. lia.
  - apply dot_represented; [exact HN|lia| |rewrite <- total_sumR; exact Ht]. intros w Hw. rewrite <- gaps_widths in Hw. apply (widths_pos _ _ He Hw).
Qed.
Theorem C53_log_probability_sums : forall v o c e N Nall, (0 < N)%nat -> (N <= Nall)%nat -> total c = INR N -> o_prob o = true ->
  exists p, convert_log v o c e N Nall = Ok (map Fin p) /\
    total p = (match v with LNumexpr => INR N / INR Nall | _ => 1 end).
Proof.
  intros v o c e N Nall HN HA Ht Hp. assert (0 < INR N) by (apply lt_0_INR, HN). assert (INR N <= INR Nall) by (apply le_INR, HA).
  set (M := match v with LNumexpr => Nall | _ => N end). assert (0 < INR M) by (unfold M; destruct v; lra).
  exists (map (fun x => x / INR M) c). split.
  - unfold convert_log. rewrite Hp. fold M. unfold to_probability. rewrite map_map. f_equal. apply map_ext. intros x. apply xdiv_fin. lra.
  - rewrite total_scale, Ht. unfold M. destruct v; try (field; lra); reflexivity.
Qed.
(** finding: with NaN data the numexpr probabilities therefore sum to less than one *)
Theorem C53_numexpr_log_probability_too_small_with_nans : forall o c e N Nall, (0 < N)%nat -> (N < Nall)%nat -> total c = INR N -> o_prob o = true ->
  exists p, convert_log LNumexpr o c e N Nall = Ok (map Fin p) /\ total p < 1.
Proof.
  intros o c e N Nall HN HA Ht Hp. destruct (C53_log_probability_sums LNumexpr o c e N Nall HN ltac:(lia) Ht Hp) as (p & E & T). exists p. split; [exact E|]. rewrite T.
  assert (0 < INR N) by (apply lt_0_INR, HN). assert (INR N < INR Nall) by (apply lt_INR, HA). apply Rmult_lt_reg_r with (INR Nall); [lra|]. unfold Rdiv. rewrite Rmult_assoc, Rinv_l by lra. lra.
Qed.
(** finding: the BLAS density over logarithmic bins is divided by the first width only; it integrates
    to more than one as soon as some datum lies outside the first bin *)
Theorem C53_blas_log_density_integrates_to_more_than_one : forall o lo hi n c N Nall,
  0 < lo -> lo < hi -> (1 <= n)%nat -> List.length c = n -> (forall x, In x c -> 0 <= x) -> total c = INR N -> (0 < N)%nat ->
  hd 0 c < INR N -> o_prob o = false -> o_dens o = true ->
  exists p, convert_log LBlas o c (geometric_edges lo hi n) N Nall = Ok (map Fin p) /\ 1 < dot p (gaps (geometric_edges lo hi n)).
Proof.
  intros o lo hi n c N Nall Hlo Hlt Hn Lc Hx Ht HN Hh Hp Hd. destruct (blas_density_integral lo hi n c N Hlo Hlt Hn Lc Hx Ht HN Hh) as (p & E & G).
  exists p. split; [|exact G]. unfold convert_log. rewrite Hp, Hd, gaps_widths, E. reflexivity.
Qed.
(** finding: a single datum always yields the count histogram [1] over [x - 1/2, x + 1/2], whatever
    representation was requested, and the unrelated custom width *)
Theorem C53_single_datum_ignores_representation : forall s x o al nbs w0 ws,
  o_alphas o = Some al -> o_bins o = Some nbs -> o_custom o = w0 :: ws ->
  run_search s (Some [Some x]) o = Ok (Some (Output [Fin 1] [x - 1/2; x + 1/2] [w0] None)).
Proof.
  intros s x o al nbs w0 ws Ea En Ew.
  assert (G : single_datum (Some x) o = Ok (Some (Output [Fin 1] [x - 1/2; x + 1/2] [w0] None))).
  { unfold single_datum. rewrite Ew. cbn [py_get Z.ltb Z.compare nth_error Z.to_nat bind]. unfold np_histogram, np_edges. cbn [Nat.eqb bind fst snd].
    assert (E1 : dmin [x] = x) by (apply dmin_eq; split; [left; reflexivity|intros y [<-|[]]; lra]).
    assert (E2 : dmax [x] = x) by (apply dmax_eq; split; [left; reflexivity|intros y [<-|[]]; lra]).
    rewrite E1, E2. destruct (Req_EM_T x x); [|congruence]. cbn [seq map fst snd].
    assert (Ed : linspace (x - 1 / 2) (x + 1 / 2) 1 = [x - 1/2; x + 1/2]).
    { unfold linspace. cbn [seq map INR]. f_equal; [field|]. f_equal. field. }
    rewrite Ed. assert (F : filter (in_bin [x - 1/2; x + 1/2] 1 0) [x] = [x]).
    { cbn [filter]. unfold in_bin. cbn [nth]. destruct (Rle_dec (x - 1/2) x); [|lra]. destruct (Rlt_dec x (x + 1/2)); [reflexivity|lra]. }
    rewrite F. cbn [List.length INR]. reflexivity. }
  destruct s as [| |v]; cbn [run_search]; unfold likelihood_numpy, likelihood_iterator, likelihood_impl, prologue; rewrite Ea, En; exact G.
Qed.
Example C53_demo : exists p, convert_log LBlas (Options None None [] [] false false true false false false) [1; 8] (geometric_edges 1 4 2) 9 9 = Ok (map Fin p)
   /\ 1 < dot p (gaps (geometric_edges 1 4 2)).
Proof. apply C53_blas_log_density_integrates_to_more_than_one; try lra; try lia; try reflexivity; cbn; try lra. intros x [<-|[<-|[]]]; lra. Qed.
Example C53_demo_returned : exists w, out_width (Output (map Fin [1/9; 8/9]) (equal_edges 0 1 2) [1/2] None) = [w] /\ w <> 0.
Proof. exists (1/2). split; [reflexivity|lra]. Qed.

(** ** C54: the searches *)
(** Combinations are tried alpha by alpha, for each alpha bin number by bin number.  A combination is
    admissible when every logarithm of Hogg's likelihood is defined.  [hist n] is the histogram with n
    bins. *)
Section Search.
  Variables (d : list (option R)) (o : options) (al : list R) (nbs : list nat) (lo hi : R) (hist : nat -> list R).
  Let N := List.length (valued d).
  Definition admissible (c : R * nat) : Prop := hogg_defined (hist (snd c)) (fst c).
  Definition likelihood (c : R * nat) : R := hogg (hist (snd c)) N (fst c) ((hi - lo) / INR (snd c)).
  (** the request: two or more different values, positive numbers of bins, positive normalisations *)
  Definition request : Prop :=
    o_alphas o = Some al /\ o_bins o = Some nbs /\ o_verbose o = false /\
    is_min lo (valued d) /\ is_max hi (valued d) /\ lo < hi /\
    (forall n a, In n nbs -> In a al -> (1 <= n)%nat /\ 0 < INR N + INR n * a - 1) /\
    (forall n, In n nbs -> histogram_of lo hi n (valued d) (hist n)).
  Definition result_for (c : R * nat) : output :=
    Output (map Fin (represented (o_prob o) (o_dens o) (hist (snd c)) N ((hi - lo) / INR (snd c))))
           (equal_edges lo hi (snd c)) [(hi - lo) / INR (snd c)]
           (if o_params o then Some (fst c, snd c, 0) else None).
  Lemma request_width c : request -> In c (list_prod al nbs) -> (1 <= snd c)%nat /\ (hi - lo) / INR (snd c) <> 0.
  Proof.
    intros (_ & _ & _ & _ & _ & L & U & _) Hc. apply list_prod_in in Hc. destruct Hc as [A B]. destruct (U _ _ B A) as [Hn _]. split; [exact Hn|].
    apply Rgt_not_eq, w_pos; assumption.
  Qed.
  Lemma final_result c : request -> In c (list_prod al nbs) -> final d o lo hi hist c ((hi - lo) / INR (snd c)) = result_for c.
  Proof.
    intros Q Hc. destruct (request_width c Q Hc) as [Hn Hw]. unfold final, result_for. f_equal.
    destruct Q as (Ea & En & Ev & A & B & L & U & H). apply (convert_represented d o lo hi (conj A (conj B L)) _ (snd c)); assumption.
  Qed.
  (** both numpy searches return exactly the first combination with maximal likelihood *)
  Theorem C54_iterator_returns_first_maximum : forall c w0 ws, request -> o_custom o = w0 :: ws ->
    first_best admissible likelihood (list_prod al nbs) c -> likelihood_iterator (Some d) o = Ok (Some (result_for c)).
  Proof.
    intros c w0 ws Q Ew B. assert (Hc : In c (list_prod al nbs)) by (destruct B as (k & Hk & _); apply nth_error_In in Hk; exact Hk).
    rewrite <- (final_result c Q Hc). destruct Q as (Ea & En & Ev & A & A' & L & U & H).
    exact (iterator_best_l d o al nbs lo hi hist Ea En Ev (conj A (conj A' L)) U H c w0 ws Ew B).
  Qed.
  Theorem C54_table_returns_first_maximum : forall c, request ->
    first_best admissible likelihood (list_prod al nbs) c -> likelihood_numpy (Some d) o = Ok (Some (result_for c)).
  Proof.
    intros c Q B. assert (Hc : In c (list_prod al nbs)) by (destruct B as (k & Hk & _); apply nth_error_In in Hk; exact Hk).
    rewrite <- (final_result c Q Hc). destruct Q as (Ea & En & Ev & A & A' & L & U & H).
    exact (table_best_l d o al nbs lo hi hist Ea En Ev (conj A (conj A' L)) U H c B).
  Qed.
  (** without admissible combination: the iterated search falls back on one bin over the whole range but
      reports (and, for densities, divides by) the first custom width; the table search raises *)
  Theorem C54_iterator_default : forall w0 ws, request -> o_custom o = w0 :: ws -> w0 <> 0 ->
    (forall c, In c (list_prod al nbs) -> ~ admissible c) ->
    likelihood_iterator (Some d) o =
      Ok (Some (Output (map Fin (represented (o_prob o) (o_dens o) [INR N] N w0)) (equal_edges lo hi 1) [w0]
                       (if o_params o then Some (1, 1%nat, 0) else None))).
  Proof.
    intros w0 ws (Ea & En & Ev & A & A' & L & U & H) Ew Hw G.
    rewrite (iterator_none_l d o al nbs lo hi hist Ea En Ev (conj A (conj A' L)) U H w0 ws Ew G). do 3 f_equal.
    apply (convert_represented d o lo hi (conj A (conj A' L)) _ 1); [lia|exact Hw].
  Qed.
  Theorem C54_table_raises_without_admissible : request -> (forall a, In a al -> 0 < a) ->
    (forall c, In c (list_prod al nbs) -> ~ admissible c) -> likelihood_numpy (Some d) o = Exc ValueError.
  Proof. intros (Ea & En & Ev & A & A' & L & U & H) P G. exact (table_none_l d o al nbs lo hi hist Ea En (conj A (conj A' L)) U H P G). Qed.
End Search.
(** admissibility: always for alpha > 1; for 0 < alpha <= 1 exactly when no bin is empty *)
Theorem C54_admissible_iff : forall lo hi n data c alpha, histogram_of lo hi n data c -> 0 < alpha ->
  (hogg_defined c alpha <-> (1 < alpha \/ forall x, In x c -> x <> 0)).
Proof.
  intros lo hi n data c alpha H Ha. split.
  - intros D. destruct (Rlt_le_dec 1 alpha) as [L|L]; [left; exact L|right]. intros x Hx E. specialize (D x Hx). lra.
  - intros [L|G] x Hx; destruct (histogram_of_nat _ _ _ _ _ _ H Hx) as [E|E]; try lra. exfalso. exact (G x Hx E).
Qed.
(** the logarithmic searches *)
Section LogSearch.
  Variables (v : limpl) (d : list (option R)) (o : options) (al : list R) (nbs : list nat) (lo hi : R) (hist : nat -> list R).
  Let N := List.length (valued d).
  (** normalisation: Hogg's, but n (1 + alpha) - 1 in cython *)
  Definition norm_of (n : nat) (a : R) : R := match v with LCython => INR n * (1 + a) - 1 | _ => INR N + INR n * a - 1 end.
  Definition log_likelihood (c : R * nat) : R :=
    hogg_widths (hist (snd c)) (gaps (geometric_edges lo hi (snd c))) (norm_of (snd c) (fst c)) (fst c).
  Definition log_request : Prop :=
    o_alphas o = Some al /\ o_bins o = Some nbs /\ o_negative o = false /\
    is_min lo (valued d) /\ is_max hi (valued d) /\ lo < hi /\ 0 < lo /\
    (forall n a, In n nbs -> In a al -> (1 <= n)%nat /\ 0 < norm_of n a /\ (v = LBlas -> 0 <= a)) /\
    (forall n, In n nbs -> edge_histogram_of (geometric_edges lo hi n) (valued d) (hist n)).
  Theorem C54_log_search_returns_first_maximum : forall c, log_request ->
    first_best (admissible hist) log_likelihood (list_prod al nbs) c ->
    (v = LBlas -> o_prob o = true \/ o_dens o = false) -> (v = LNumexpr -> List.length d = N) ->
    likelihood_log v (Some d) o = Ok (Some (Output
      (map Fin (represented_edges (o_prob o) (o_dens o) (hist (snd c)) N (gaps (geometric_edges lo hi (snd c)))))
      (geometric_edges lo hi (snd c)) (gaps (geometric_edges lo hi (snd c)))
      (if o_params o then Some (fst c, snd c, 0) else None))).
  Proof.
    intros c (Ea & En & Eg & A & A' & L & Hlo & U & H) B Hb Hne. pose proof (conj A (conj A' L)) as S.
    rewrite (log_best_l v d o al nbs lo hi hist Ea En Eg S Hlo U H c B).
    assert (Hc : In c (list_prod al nbs)) by (destruct B as (k & Hk & _); apply nth_error_In in Hk; exact Hk).
    apply list_prod_in in Hc. destruct Hc as [Ha Hn]. destruct (U _ _ Hn Ha) as (L1 & _).
    destruct (counts_edges_geometric d lo hi S Hlo (snd c) L1) as (k & _ & _ & Inc & _).
    rewrite convert_log_value; [reflexivity| |exact Inc|apply (H _ Hn)| |].
    - pose proof (spread_two _ _ _ S). fold N in H0. lia.
    - destruct v; try (left; discriminate). destruct (Hb eq_refl); auto.
    - destruct v; try (left; discriminate). right. exact (Hne eq_refl).
  Qed.
  Theorem C54_log_search_raises_without_admissible : log_request ->
    (forall c, In c (list_prod al nbs) -> ~ admissible hist c) -> likelihood_log v (Some d) o = Exc ValueError.
  Proof. intros (Ea & En & Eg & A & A' & L & Hlo & U & H) G. exact (log_none_l v d o al nbs lo hi hist Ea En Eg (conj A (conj A' L)) Hlo U H G). Qed.
End LogSearch.

Lemma ln_pow x n : 0 < x -> INR n * ln x = ln (x ^ n).
Proof. intros H. induction n as [|n IH]; [cbn; rewrite ln_1; ring|]. rewrite S_INR. cbn [pow]. rewrite ln_mult by (try assumption; apply pow_lt, H). rewrite <- IH. ring. Qed.
Lemma demo_defined c : In c [(2, 1%nat); (2, 2%nat)] -> admissible demo_hist c.
Proof. intros [<-|[<-|[]]] x Hx; cbn in Hx; cbn [fst]; destruct Hx as [<-|Hx]; try lra; try contradiction; destruct Hx as [<-|[]]; lra. Qed.
Lemma demo_likelihood_1 : likelihood (map Some demo_data) 0 1 demo_hist (2, 1%nat) = 0.
Proof.
  unfold likelihood, hogg. rewrite demo_valued. cbn [demo_hist snd fst map total List.length demo_data INR].
  replace ((9 + 2 - 1) / _) with 1 by field. rewrite ln_1. ring.
Qed.
Lemma demo_likelihood_2 : 0 < likelihood (map Some demo_data) 0 1 demo_hist (2, 2%nat).
Proof.
  unfold likelihood, hogg. rewrite demo_valued. cbn [demo_hist snd fst map total List.length demo_data INR].
  replace ((1 + 2 - 1) / _) with (1/3) by field. replace ((8 + 2 - 1) / _) with (3/2) by field.
  replace 8 with (INR 8) by (cbn; lra). rewrite ln_pow by lra. rewrite Rmult_1_l, Rplus_0_r, <- ln_mult by (try apply pow_lt; lra).
  rewrite <- ln_1. apply ln_increasing; cbn; lra.
Qed.
Lemma demo_request : request (map Some demo_data) (demo_opts [2] [1%nat; 2%nat]) [2] [1%nat; 2%nat] 0 1 demo_hist.
Proof.
  destruct demo_spread as (A & B & L). unfold request. rewrite demo_valued.
  refine (conj eq_refl (conj eq_refl (conj eq_refl (conj A (conj B (conj L (conj _ _))))))).
  - intros n a Hn Ha. destruct Ha as [<-|[]]. destruct Hn as [<-|[<-|[]]]; (split; [lia|cbn; lra]).
  - intros n Hn. apply demo_hist_ok. destruct Hn as [<-|[<-|[]]]; auto.
Qed.
(** concrete search: two bins win *)
Example C54_demo : likelihood_iterator (Some (map Some demo_data)) (demo_opts [2] [1%nat; 2%nat]) =
  Ok (Some (result_for (map Some demo_data) (demo_opts [2] [1%nat; 2%nat]) 0 1 demo_hist (2, 2%nat))).
Proof.
  apply (C54_iterator_returns_first_maximum _ _ [2] [1%nat; 2%nat] 0 1 demo_hist (2, 2%nat) 0.5 [] demo_request eq_refl).
  exists 1%nat. split; [reflexivity|]. split; [apply demo_defined; cbn; auto|]. pose proof demo_likelihood_1. pose proof demo_likelihood_2.
  split; [intros [|[|j]] e E _|intros [|j] e Hj E _; [|lia]]; cbn in E; try (injection E as <-); try lra. destruct j; discriminate.
Qed.

(** ** C55: bins given by edges *)
(** strictly increasing edges (two or more): every datum is counted in exactly one bin; bins are open on
    the left and closed on the right, data beyond the first or last edge go to the first or last bin; the
    list returned may lack trailing empty bins but has no other omissions *)
Theorem C55_edge_counts : forall data e minb,
  (forall i j, (i < j)%nat -> (j < List.length e)%nat -> nth i e 0 < nth j e 0) -> (2 <= List.length e)%nat ->
  exists c, histogram_log_counts data e minb = Ok c /\ total c = INR (List.length data) /\
    (List.length c <= Nat.max minb (List.length e - 1))%nat /\
    (forall i, (S (S i) <= List.length e)%nat -> exists k, counted (edge_bin e i) data k /\ nth i c 0 = INR k).
Proof.
  intros data e minb He L. destruct (hlc_counts data e minb He L) as (c & E & A & B & _). exists c. split; [exact E|]. split; [|split; [exact A|exact B]].
  rewrite total_sumR. apply (hlc_sum _ _ _ _ E).
Qed.
Theorem C55_each_datum_in_exactly_one_bin : forall e x,
  (forall i j, (i < j)%nat -> (j < List.length e)%nat -> nth i e 0 < nth j e 0) -> (2 <= List.length e)%nat ->
  exists i, (S (S i) <= List.length e)%nat /\ edge_bin e i x /\ forall j, (S (S j) <= List.length e)%nat -> edge_bin e j x -> j = i.
Proof. exact edge_bin_exists. Qed.
(** asking for as many bins as there are gaps always gives the complete histogram *)
Theorem C55_complete_with_minimum_length : forall data e,
  (forall i j, (i < j)%nat -> (j < List.length e)%nat -> nth i e 0 < nth j e 0) -> (2 <= List.length e)%nat ->
  exists c, histogram_log_counts data e (List.length e - 1) = Ok c /\ edge_histogram_of e data c.
Proof.
  intros data e He L. destruct (hlc_counts data e (List.length e - 1) He L) as (c & E & A & B & C). exists c. split; [exact E|].
  assert (Lc : S (List.length c) = List.length e) by (apply C; [lia|left; lia]). split; [exact Lc|]. intros i Hi. apply B. lia.
Qed.
(** the automatically chosen logarithmic bins: complete histogram over the geometric edges *)
Theorem C55_logarithmic_bins : forall data lo hi nb, is_min lo data -> is_max hi data -> lo < hi -> 0 < lo -> (1 <= nb)%nat ->
  exists c, log_counts_and_edges data nb 0 = Ok (c, geometric_edges lo hi nb) /\
    edge_histogram_of (geometric_edges lo hi nb) data c /\ total c = INR (List.length data).
Proof.
  intros data lo hi nb A B L Hlo Hn.
  assert (E : valued (map Some data) = data) by (unfold valued; clear; induction data as [|x l IH]; cbn; [reflexivity|rewrite IH; reflexivity]).
  destruct (counts_edges_geometric (map Some data) lo hi) with (n := nb) as (c & E1 & E2 & _ & E3); rewrite ?E in *; try assumption; [split; [exact A|split; assumption]|].
  exists c. split; [exact E1|]. split; [exact E2|]. rewrite total_sumR. exact E3.
Qed.
(** finding: when the last bins are empty and no minimum length is given, the numpy density over given
    edges raises (array shapes differ), unless a single bin is left *)
Theorem C55_numpy_density_raises_on_trailing_empty_bins : forall data e v, v = LNumpy \/ v = LBlas ->
  (forall i j, (i < j)%nat -> (j < List.length e)%nat -> nth i e 0 < nth j e 0) -> (4 <= List.length e)%nat ->
  (exists x, In x data /\ nth 1 e 0 < x) -> (forall x, In x data -> x <= nth (List.length e - 2) e 0) ->
  log_spec_edges v (Some data) (Some e) false true 0 false = Exc ValueError.
Proof.
  intros data e v Hv He L (x0 & Hx0 & Gx) Hx. destruct (hlc_counts data e 0 He ltac:(lia)) as (c & E & A & B & _).
  assert (Ld : data <> []) by (destruct data; [contradiction|discriminate]).
  assert (G : log_density data e 0 = Exc ValueError).
  { unfold log_density. rewrite E. cbn [bind]. unfold np_div. rewrite map_length. pose proof (widths_length e) as W.
    assert (L1 : (List.length c < List.length e - 1)%nat /\ (2 <= List.length c)%nat).
    { rewrite hlc_form in E. unfold bincount in E.
      assert (Rg : forall b, In b (map (edge_cell e) data) -> (0 <= b < Z.of_nat (List.length e) - 2)%Z).
      { intros b Hb. apply in_map_iff in Hb. destruct Hb as (x & <- & Hin). pose proof (edge_cell_range e x He ltac:(lia)) as Q.
        destruct (Z.eq_dec (edge_cell e x) (Z.of_nat (List.length e - 2))) as [F|F]; [|lia]. apply edge_cell_bin in F; [|exact He|lia].
        destruct F as [[F|F] _]; [lia|]. specialize (Hx x Hin). lra. }
      replace (existsb _ _) with false in E by (symmetry; apply existsb_neg; intros b Hb; apply Rg, Hb). cbn [bind] in E. injection E as <-.
      rewrite !map_length, seq_length. cbn [Nat.max].
      set (l := map (fun b => S (Z.to_nat b)) (map (edge_cell e) data)).
      assert (M1 : (fold_left Nat.max l 0 <= List.length e - 2)%nat).
      { apply fold_max_le; [lia|]. intros y Hy. apply in_map_iff in Hy. destruct Hy as (b & <- & Hb). specialize (Rg b Hb). lia. }
      destruct (fold_max_ge l 0%nat) as [_ M2].
      assert (M3 : (S (Z.to_nat (edge_cell e x0)) <= fold_left Nat.max l 0)%nat).
      { apply M2. apply (in_map (fun b => S (Z.to_nat b))), in_map, Hx0. }
      pose proof (edge_cell_range e x0 He ltac:(lia)) as Q0.
      assert (edge_cell e x0 <> 0)%Z.
      { intros F. change 0%Z with (Z.of_nat 0) in F. apply edge_cell_bin in F; [|exact He|lia]. destruct F as [_ [F|F]]; [lia|lra]. }
      lia. }
    destruct (Nat.eqb_spec (List.length c) (List.length (widths e))); [lia|]. destruct (Nat.eqb_spec (List.length c) 1); [lia|].
    destruct (Nat.eqb_spec (List.length (widths e)) 1); [lia|]. reflexivity. }
  unfold log_spec_edges. destruct data as [|y data]; [congruence|]. cbn [List.length Nat.eqb]. destruct Hv as [->| ->]; rewrite G; reflexivity.
Qed.
(** finding: a minimum length larger than the number of bins makes the cython density read beyond the
    edges *)
Theorem C55_cython_density_reads_out_of_bounds : forall data e minb, data <> [] ->
  (forall i j, (i < j)%nat -> (j < List.length e)%nat -> nth i e 0 < nth j e 0) -> (2 <= List.length e)%nat -> (List.length e <= minb)%nat ->
  log_spec_edges LCython (Some data) (Some e) false true minb false = UB.
Proof.
  intros data e minb Hd He L Hm. destruct (hlc_counts data e minb He L) as (c & E & _ & _ & _).
  unfold log_spec_edges. destruct data as [|y data]; [congruence|]. cbn [List.length Nat.eqb]. rewrite E. cbn [bind]. unfold cython_log_density.
  assert (Lc : (minb <= List.length c)%nat).
  { rewrite hlc_form in E. unfold bincount in E. destruct (existsb _ _); [discriminate|]. cbn [bind] in E. injection E as <-. rewrite !map_length, seq_length. lia. }
  pose proof (widths_length e). destruct (Nat.ltb_spec (List.length (widths e)) (List.length c)); [reflexivity|lia].
Qed.
Example C55_demo_increasing : forall i j, (i < j)%nat -> (j < List.length [1; 2; 4; 8])%nat -> nth i [1; 2; 4; 8] 0 < nth j [1; 2; 4; 8] 0.
Proof. intros i j H1 H2. cbn in H2. destruct i as [|[|[|i]]], j as [|[|[|[|j]]]]; try lia; cbn; lra. Qed.
Example C55_demo : log_spec_edges LNumpy (Some [1; 3]) (Some [1; 2; 4; 8]) false true 0 false = Exc ValueError.
Proof.
  apply C55_numpy_density_raises_on_trailing_empty_bins; [left; reflexivity|exact C55_demo_increasing|cbn; lia|exists 3; cbn; split; [auto|lra]|].
  intros x [<-|[<-|[]]]; cbn; lra.
Qed.

(** ** C56: the cython normalisation *)
(** the factor equals Hogg's exactly when there are as many data as bins *)
Theorem C56_factor_matches_iff : forall c N alpha, total c = INR N ->
  (conversion Cython c alpha = INR N + INR (List.length c) * alpha - 1 <-> N = List.length c).
Proof.
  intros c N alpha _. cbn [conversion]. unfold conversion_no_loop. split; [intros E; apply INR_eq; lra|intros ->; lra].
Qed.
(** for a given histogram the likelihood differs by a term that does not depend on the data's
    arrangement but does depend on the combination: N ln((N + n alpha - 1) / (n (1 + alpha) - 1)) *)
Theorem C56_likelihood_offset : forall c N alpha w, total c = INR N -> hogg_defined c alpha -> 0 < w ->
  0 < INR N + INR (List.length c) * alpha - 1 -> 0 < INR (List.length c) * (1 + alpha) - 1 ->
  jacky c w alpha (conversion Cython c alpha) =
  Fin (hogg c N alpha w + INR N * ln ((INR N + INR (List.length c) * alpha - 1) / (INR (List.length c) * (1 + alpha) - 1))).
Proof.
  intros c N alpha w Ht D Hw H1 H2. cbn [conversion]. unfold conversion_no_loop. rewrite jacky_good; [|apply Rmult_lt_0_compat; assumption|exact D].
  apply (f_equal Fin). pose proof (hogg_norm_shift c _ _ alpha w H1 H2 Hw D) as E. unfold hogg_norm in E. rewrite E, Ht. reflexivity.
Qed.
(** and the selected histogram may differ: on the data above numpy, numexpr and BLAS choose two bins
    (C54_demo), cython one *)
Theorem C56_cython_selects_another_histogram :
  likelihood_impl Cython (Some (map Some demo_data)) (demo_opts [2] [1%nat; 2%nat]) =
    Ok (Some (result_for (map Some demo_data) (demo_opts [2] [1%nat; 2%nat]) 0 1 demo_hist (2, 1%nat))) /\
  likelihood_iterator (Some (map Some demo_data)) (demo_opts [2] [1%nat; 2%nat]) =
    Ok (Some (result_for (map Some demo_data) (demo_opts [2] [1%nat; 2%nat]) 0 1 demo_hist (2, 2%nat))).
Proof.
  split; [|exact C54_demo]. pose proof demo_request as (Ea & En & Ev & A & A' & L & U & H).
  rewrite (cython_best_l (map Some demo_data) (demo_opts [2] [1%nat; 2%nat]) [2] [1%nat; 2%nat] 0 1 demo_hist Ea En eq_refl Ev (conj A (conj A' L))) with (c := (2, 1%nat)) (w0 := 0.5) (ws := []).
  - unfold result_for. rewrite demo_valued. cbn [fst snd demo_opts o_prob o_dens o_params]. reflexivity.
  - intros n a Hn Ha. destruct Ha as [<-|[]]. destruct Hn as [<-|[<-|[]]]; (split; [lia|cbn; lra]).
  - exact H.
  - reflexivity.
  - assert (G : cy_value 0 1 demo_hist (2, 2%nat) < cy_value 0 1 demo_hist (2, 1%nat)).
    { unfold cy_value, hogg_norm. cbn [fst snd demo_hist map total INR].
      replace ((9 + 2 - 1) / _) with 5 by field. replace ((1 + 2 - 1) / _) with (4/5) by field. replace ((8 + 2 - 1) / _) with (18/5) by field.
      replace 9 with (INR 9) by (cbn; lra). replace 8 with (INR 8) by (cbn; lra). rewrite !ln_pow by lra.
      rewrite Rmult_1_l, !Rplus_0_r, <- ln_mult by (try apply pow_lt; lra). apply ln_increasing; [apply Rmult_lt_0_compat; [lra|apply pow_lt; lra]|cbn; lra]. }
    exists 0%nat. split; [reflexivity|]. split; [apply demo_defined; cbn; auto|].
    split; [intros [|[|j]] e E _|intros; lia]; cbn in E; try (injection E as <-); try lra. destruct j; discriminate.
Qed.

(** ** C76: phases *)
(** bins shifted by the fraction s of a width, end bins absorbing what sticks out *)
Definition shifted_bin (lo w s : R) (n i : nat) (x : R) : Prop :=
  (i = 0%nat \/ lo + (INR i + s) * w <= x) /\ (S i = n \/ x < lo + (INR (S i) + s) * w).
Theorem C76_cython_phase_always_fails : forall data lo hi nb p checks,
  is_min lo data -> is_max hi data -> lo < hi -> (2 <= nb)%nat -> 0 < p <= 1 ->
  histogram_counts Cython data (compute_bin_width (ptp data) nb) p nb 0 checks None = Exc (if checks then SystemExit else ValueError).
Proof. intros. apply (cython_phase_fails lo hi nb data p (conj H (conj H0 H1)) H2 checks H3). Qed.
Theorem C76_numexpr_phase_shifts_up : forall data lo hi nb p checks,
  is_min lo data -> is_max hi data -> lo < hi -> (2 <= nb)%nat -> 0 < p < 1 ->
  exists c, histogram_counts Numexpr data (compute_bin_width (ptp data) nb) p nb 0 checks None = Ok c /\ List.length c = nb /\
    forall i, (i < nb)%nat -> exists k, counted (shifted_bin lo ((hi - lo) / INR nb) p nb i) data k /\ nth i c 0 = INR k.
Proof. intros. apply (numexpr_phase_counts lo hi nb data p (conj H (conj H0 H1)) H2 checks H3). Qed.
Theorem C76_blas_phase_shifts_down : forall data lo hi nb p checks,
  is_min lo data -> is_max hi data -> lo < hi -> (2 <= nb)%nat -> 0 < p < 1 ->
  exists c, histogram_counts Blas data (compute_bin_width (ptp data) nb) p nb 0 checks None = Ok c /\ List.length c = nb /\
    forall i, (i < nb)%nat -> exists k, counted (shifted_bin lo ((hi - lo) / INR nb) (- p) nb i) data k /\ nth i c 0 = INR k.
Proof. intros. apply (blas_phase_counts lo hi nb data p (conj H (conj H0 H1)) H2 checks H3). Qed.
Theorem C76_blas_phase_one_has_two_extra_bins : forall data lo hi nb checks c,
  is_min lo data -> is_max hi data -> lo < hi -> (2 <= nb)%nat ->
  histogram_counts Blas data (compute_bin_width (ptp data) nb) 1 nb 0 checks None = Ok c -> List.length c = (nb + 2)%nat.
Proof. intros. apply (blas_phase_one lo hi data nb checks c (conj H (conj H0 H1)) H2 H3). Qed.
(** the returned edges are never shifted and the phase reported is zero, whatever phases were searched *)
Theorem C76_reported_edges_and_phase_ignore_the_phase : forall v d o lo hi out,
  is_min lo (valued d) -> is_max hi (valued d) -> lo < hi -> likelihood_impl v (Some d) o = Ok (Some out) ->
  (exists n, out_edges out = equal_edges lo hi n) /\ (out_params out = None \/ exists a n, out_params out = Some (a, n, 0)).
Proof.
  intros v d o lo hi out A B L E. pose proof (conj A (conj B L) : spread lo hi (valued d)) as S. destruct (spread_eqs _ _ _ S) as (E1 & E2 & _).
  unfold likelihood_impl in E. apply (output_prologue _ _ _ lo hi _ S) in E. destruct E as (al & nbs & _ & _ & E).
  destruct (py_get (o_custom o) 0) as [w0| |]; cbn [bind] in E; try discriminate. destruct (pick _ _ _) as [[x [[[[a n] p] w]|]]| |]; cbn [bind snd] in E; try discriminate.
  destruct (print_maximal o); cbn [bind] in E; try discriminate. destruct (histogram_counts _ _ _ _ _ _ _ _) as [h| |] eqn:Eh; cbn [bind] in E; try discriminate.
  injection E as <-. cbn [out_edges out_params]. split.
  - exists n. unfold bin_edges. rewrite E1, E2. reflexivity.
  - unfold binning_parameters. destruct (o_params o); [right; cbn; eauto|left; reflexivity].
Qed.
Example C76_demo : histogram_counts Cython demo_data (compute_bin_width (ptp demo_data) 2) (1/2) 2 0 true None = Exc SystemExit.
Proof. destruct demo_spread as (A & B & L). apply (C76_cython_phase_always_fails demo_data 0 1 2 (1/2) true A B L); [lia|lra]. Qed.

(** ** C77: the implementations agree *)
(** phase 0: the numexpr search returns what the numpy iterator returns -- value, exception and all *)
Theorem C77_numexpr_equals_iterator : forall d o al nbs lo hi w0 ws,
  o_alphas o = Some al -> o_bins o = Some nbs -> o_phases o = [0] -> o_custom o = w0 :: ws ->
  is_min lo (valued d) -> is_max hi (valued d) -> lo < hi -> (forall n, In n nbs -> (1 <= n)%nat) ->
  likelihood_impl Numexpr (Some d) o = likelihood_iterator (Some d) o.
Proof.
  intros d o al nbs lo hi w0 ws Ea En Ep Ew A B L Hn. apply (impl_agree Numexpr d o al nbs lo hi w0 ws); auto; [discriminate|split; [exact A|split; assumption]|discriminate].
Qed.
(** BLAS too, for non-negative alphas, as soon as one combination is admissible *)
Theorem C77_blas_equals_iterator : forall d o al nbs lo hi hist w0 ws c,
  request d o al nbs lo hi hist -> o_phases o = [0] -> o_custom o = w0 :: ws -> (forall a, In a al -> 0 <= a) ->
  first_best (admissible hist) (likelihood d lo hi hist) (list_prod al nbs) c ->
  likelihood_impl Blas (Some d) o = Ok (Some (result_for d o lo hi hist c)) /\ likelihood_iterator (Some d) o = Ok (Some (result_for d o lo hi hist c)).
Proof.
  intros d o al nbs lo hi hist w0 ws c Q Ep Ew Ha Bst. pose proof (C54_iterator_returns_first_maximum d o al nbs lo hi hist c w0 ws Q Ew Bst) as It.
  split; [|exact It]. rewrite <- It. destruct Q as (Ea & En & Ev & A & A' & L & U & H). pose proof (conj A (conj A' L) : spread lo hi (valued d)) as S.
  assert (Ha' : exists a, In a al).
  { destruct Bst as (k & Hk & _). apply nth_error_In in Hk. apply list_prod_in in Hk. destruct Hk. eauto. }
  destruct Ha' as [a0 Ha0].
  apply (impl_agree Blas d o al nbs lo hi w0 ws); auto; [discriminate|intros n Hn; apply (U n a0 Hn Ha0)|].
  right. destruct (pick_spec (score_numpy (valued d)) (fval d lo hi hist) (fun c => (hi - lo) / INR (snd c)) (def hist) (value hist lo hi (List.length (valued d))) (combinations2 al nbs)
     (score_numpy_value d al nbs lo hi hist S U H) (fval_cases d al nbs lo hi hist S U H) (Some ((1, 1%nat), w0))) as (r & E & P).
  rewrite E, (picked_best _ _ _ _ _ _ _ P Bst). do 2 eexists. reflexivity.
Qed.
Example C77_demo : likelihood_impl Blas (Some (map Some demo_data)) (demo_opts [2] [1%nat; 2%nat]) =
    Ok (Some (result_for (map Some demo_data) (demo_opts [2] [1%nat; 2%nat]) 0 1 demo_hist (2, 2%nat))).
Proof.
  apply (C77_blas_equals_iterator (map Some demo_data) (demo_opts [2] [1%nat; 2%nat]) [2] [1%nat; 2%nat] 0 1 demo_hist 0.5 [] (2, 2%nat) demo_request eq_refl eq_refl).
  - intros a [<-|[]]; lra.
  - exists 1%nat. split; [reflexivity|]. split; [apply demo_defined; cbn; auto|]. pose proof demo_likelihood_1. pose proof demo_likelihood_2.
    split; [intros [|[|j]] e E _|intros [|j] e Hj E _; [|lia]]; cbn in E; try (injection E as <-); try lra. destruct j; discriminate.
Qed.

(** ** C78: verbosity and given widths *)
(** finding: asking for verbose output makes every constant-width search fail *)
Theorem C78_verbose_search_never_returns : forall s d o lo hi, is_min lo (valued d) -> is_max hi (valued d) -> lo < hi ->
  o_verbose o = true -> forall out, run_search s (Some d) o <> Ok out.
Proof. intros s d o lo hi A B L Hv. exact (verbose_fails s d o lo hi (conj A (conj B L)) Hv). Qed.
(** finding: histograms with a given width only work with BLAS *)
Theorem C78_given_width_only_works_with_blas : forall v data bw phase prob dens nb minb checks dm, v <> Blas -> data <> [] ->
  spec_width v (Some data) (Some bw) phase prob dens nb minb checks dm = Exc TypeError.
Proof. intros v data bw phase prob dens nb minb checks dm Hv Hd. destruct data; [congruence|]. destruct v; [congruence|reflexivity|reflexivity]. Qed.
Theorem C78_blas_given_width_normalised : forall data bw phase prob dens nb minb checks dm r, data <> [] -> bw <> 0 ->
  spec_width Blas (Some data) (Some bw) phase prob dens nb minb checks dm = Ok r ->
  exists p, r = Some (map Fin p) /\ total p = if prob then 1 else if dens then 1 / bw else INR (List.length data).
Proof.
  intros data bw phase prob dens nb minb checks dm r Hd Hw E. unfold spec_width in E. assert (HN : (0 < List.length data)%nat) by (destruct data; [congruence|cbn; lia]).
  destruct (Nat.eqb_spec (List.length data) 0); [lia|]. destruct (histogram_counts Blas data bw phase nb minb checks dm) as [h| |] eqn:Eh; cbn [bind] in E; try discriminate.
  injection E as <-. apply histogram_counts_sum in Eh. destruct prob; [|destruct dens].
  - destruct (probability_sum h _ HN Eh) as (p & -> & T). eauto.
  - destruct (density_sum h _ bw HN Hw Eh) as (p & -> & T). eauto.
  - destruct (count_sum h _ Eh) as (p & -> & T). eauto.
Qed.

(** With numpy, a given number of bins gives that many equal bins from the smallest to the largest datum, the same counts as the
    other implementations make of that many bins, and values that add up to one, to the inverse bin width or to the number of data. *)
Theorem C78_numpy_given_bins : forall data n prob dens lo hi, is_min lo data -> is_max hi data -> lo < hi -> (1 <= n)%nat ->
  exists p, spec_width_numpy (Some data) (Some n) prob dens = Ok (Some (map Fin p)) /\ List.length p = n /\
    total p = (if prob then 1 else if dens then INR n / (hi - lo) else INR (List.length data)) /\
    forall v checks, exists c, histogram_counts v data (compute_bin_width (ptp data) n) 0 n 0 checks None = Ok c /\
      p = map (fun x => if prob then x / INR (List.length data) else if dens then x * (INR n / (hi - lo)) / INR (List.length data) else x) c.
Proof.
  intros data n prob dens lo hi A B L Hn. assert (S0 : spread lo hi data) by (split; [exact A|split; [exact B|exact L]]).
  assert (HN : (0 < List.length data)%nat) by (destruct data; [destruct A as [[] _]|cbn; lia]). pose proof (lt_0_INR _ HN) as HN'.
  assert (Hn' : 0 < INR n) by (apply lt_0_INR; lia).
  destruct (np_histogram_spread lo hi data n S0 Hn) as (c & E & Hc).
  pose proof (np_histogram_sum lo hi data n _ S0 E) as Sm. cbn [fst] in Sm.
  set (g := fun x => if prob then x / INR (List.length data) else if dens then x * (INR n / (hi - lo)) / INR (List.length data) else x).
  assert (W : nth 1 (linspace lo hi n) 0 - nth 0 (linspace lo hi n) 0 = (hi - lo) / INR n).
  { unfold linspace. destruct n as [|n]; [lia|]. cbn [seq map nth]. change (INR 0) with 0. change (INR 1) with 1. ring. }
  exists (map g c). split; [|split; [|split]].
  - unfold spec_width_numpy. destruct (Nat.eqb_spec (List.length data) 0); [lia|]. rewrite E. cbn [bind fst snd]. unfold g.
    destruct prob; [|destruct dens].
    + apply (f_equal Ok), (f_equal Some). rewrite map_map. unfold to_probability. apply map_ext. intros x. unfold xdiv. destruct (Req_EM_T (INR (List.length data)) 0); [lra|reflexivity].
    + rewrite W. apply (f_equal Ok), (f_equal Some). rewrite map_map. unfold to_density. apply map_ext. intros x. unfold xdiv.
      assert (P : INR (List.length data) * ((hi - lo) / INR n) <> 0) by (apply Rmult_integral_contrapositive_currified; [lra|]; apply Rmult_integral_contrapositive_currified; [lra|apply Rinv_neq_0_compat; lra]).
      destruct (Req_EM_T _ 0) as [Q|_]; [exfalso; first [exact (P Q)|lra]|]. apply (f_equal Fin). field. repeat split; lra.
    + rewrite map_map. reflexivity.
  - rewrite map_length. destruct Hc as [Lc _]. exact Lc.
  - rewrite total_sumR. assert (LinS : forall (a : R) l, sumR (map (fun x => a * x) l) = a * sumR l) by (intros a l; induction l as [|x l IH]; cbn; [ring|unfold sumR in IH |- *; cbn; rewrite IH; ring]).
    unfold g. destruct prob; [|destruct dens].
    + rewrite (map_ext _ (fun x => / INR (List.length data) * x)) by (intros x; unfold Rdiv; ring). rewrite LinS, Sm. field. lra.
    + rewrite (map_ext _ (fun x => INR n / (hi - lo) / INR (List.length data) * x)) by (intros x; unfold Rdiv; ring). rewrite LinS, Sm. field. lra.
    + rewrite map_id. exact Sm.
  - intros v checks. destruct (histogram_counts_agree v lo hi data n checks None S0 Hn (or_introl eq_refl)) as (c' & E1 & E2).
    exists c'. split; [exact E1|]. rewrite E in E2. injection E2 as <-. reflexivity.
Qed.
Theorem C78_numpy_no_bins : forall data n prob dens, data <> [] ->
  spec_width_numpy (Some data) (Some 0%nat) prob dens = Exc ValueError /\ spec_width_numpy (Some data) None prob dens = Ok None /\
  spec_width_numpy None n prob dens = Ok None /\ spec_width_numpy (Some []) n prob dens = Ok None.
Proof. intros data n prob dens Hd. destruct data; [congruence|]. destruct n; repeat split. Qed.
Example C78_numpy_hypotheses_met : is_min 1 [2; 1; 4] /\ is_max 4 [2; 1; 4] /\ 1 < 4.
Proof. repeat split; try (cbn; tauto); try lra; intros y [<-|[<-|[<-|[]]]]; lra. Qed.

Print Assumptions C52_counts_are_bin_populations.
Print Assumptions C53_returned_histogram_is_normalised.
Print Assumptions C53_blas_log_density_integrates_to_more_than_one.
Print Assumptions C54_log_search_returns_first_maximum.
Print Assumptions C55_edge_counts.
Print Assumptions C56_cython_selects_another_histogram.
Print Assumptions C76_blas_phase_shifts_down.
Print Assumptions C77_blas_equals_iterator.
Print Assumptions C78_verbose_search_never_returns.
