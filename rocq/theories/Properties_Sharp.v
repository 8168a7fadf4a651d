(** * Properties C150-C151: the resonance-sharpness figure and the files it is saved to. *)
From Coq Require Import Reals List ZArith Bool String Ascii Lia Lra.
From Verif Require Import Base Py Hist_Model Hist_Spec Hist_Proofs Hist_Search Hist_API Hist_Log Hist_LogSearch Properties_Hist Sharp_Model Sharp_Spec.
From Verif Require Import Mask_Model Mask_Spec Mask_Proofs.
From Verif Require Plot_Model Plot_Spec Properties_Plot.
Import ListNotations.
Local Open Scope R_scope.

(** ** choosing the best of a list *)
Lemma first_best_exists {C} (ok : C -> Prop) (val : C -> R) (dec : forall c, {ok c} + {~ ok c}) : forall l, (exists c, In c l /\ ok c) -> exists c, first_best ok val l c.
Proof.
  intros l. induction l as [|x l IH] using rev_ind; intros (c & Hc & Oc); [destruct Hc|].
  assert (Last : forall j d, nth_error (l ++ [x]) j = Some d -> (j < List.length l)%nat /\ nth_error l j = Some d \/ j = List.length l /\ d = x).
  { intros j d H. destruct (Nat.lt_ge_cases j (List.length l)) as [L|L]; [left; rewrite nth_error_app1 in H by lia; auto|].
    right. rewrite nth_error_app2 in H by lia. destruct (j - List.length l)%nat as [|q] eqn:E; [injection H as <-; split; [lia|reflexivity]|destruct q; discriminate]. }
  destruct (Exists_dec ok l dec) as [E|E].
  - apply Exists_exists in E. destruct (IH E) as (b & k & Hk & Ob & Mx & Fs).
    assert (Lk : (k < List.length l)%nat) by (apply nth_error_Some; congruence).
    destruct (dec x) as [Ox|Ox]; [destruct (Rlt_dec (val b) (val x)) as [G|G]|].
    + exists x, (List.length l). split; [rewrite nth_error_app2, Nat.sub_diag by lia; reflexivity|]. split; [exact Ox|]. split.
      * intros j d H Od. destruct (Last j d H) as [(Lj & H')|(-> & ->)]; [|lra]. pose proof (Mx j d H' Od). lra.
      * intros j d Lj H Od. destruct (Last j d H) as [(_ & H')|(-> & _)]; [|lia]. pose proof (Mx j d H' Od). lra.
    + exists b, k. split; [rewrite nth_error_app1 by lia; exact Hk|]. split; [exact Ob|]. split.
      * intros j d H Od. destruct (Last j d H) as [(_ & H')|(_ & ->)]; [exact (Mx j d H' Od)|lra].
      * intros j d Lj H Od. destruct (Last j d H) as [(_ & H')|(-> & _)]; [exact (Fs j d Lj H' Od)|lia].
    + exists b, k. split; [rewrite nth_error_app1 by lia; exact Hk|]. split; [exact Ob|]. split.
      * intros j d H Od. destruct (Last j d H) as [(_ & H')|(_ & ->)]; [exact (Mx j d H' Od)|contradiction].
      * intros j d Lj H Od. destruct (Last j d H) as [(_ & H')|(-> & _)]; [exact (Fs j d Lj H' Od)|lia].
  - assert (No : forall d, In d l -> ~ ok d) by (intros d Hd Od; apply E, Exists_exists; exists d; auto).
    apply in_app_iff in Hc. destruct Hc as [Hc|[<-|[]]]; [destruct (No _ Hc Oc)|].
    exists x, (List.length l). split; [rewrite nth_error_app2, Nat.sub_diag by lia; reflexivity|]. split; [exact Oc|]. split.
    + intros j d H Od. destruct (Last j d H) as [(_ & H')|(_ & ->)]; [destruct (No d (nth_error_In _ _ H') Od)|lra].
    + intros j d Lj H Od. destruct (Last j d H) as [(_ & H')|(-> & _)]; [destruct (No d (nth_error_In _ _ H') Od)|lia].
Qed.

(** ** the histogram of all triads *)
Lemma setup_bins_in N n : In n (setup_bins 100 N) <-> bins_tried N n.
Proof. unfold setup_bins, bins_tried. rewrite in_seq. lia. Qed.
Lemma setup_alphas_eq : setup_alphas = smoothing_tried.
Proof. unfold setup_alphas, smoothing_tried. repeat (f_equal; try lra). Qed.
Lemma alpha_pos a : In a smoothing_tried -> 0 < a.
Proof. unfold smoothing_tried. cbn [In]. intuition lra. Qed.
Lemma valued_some (l : list R) : valued (map Some l) = l.
Proof. unfold valued. induction l as [|x l IH]; [reflexivity|]. cbn. rewrite IH. reflexivity. Qed.
Lemma distinct_two lo hi (l : list R) : is_min lo l -> is_max hi l -> lo < hi -> (2 <= List.length l)%nat.
Proof.
  intros (A & _) (B & _) L. destruct l as [|x [|y l]]; [destruct A| |cbn; lia]. cbn in A, B. destruct A as [<-|[]], B as [<-|[]]. lra.
Qed.
Definition hist_of (a : list R) (n : nat) : list R := match log_counts_and_edges a n 0 with Ok (c, _) => c | _ => [] end.
Lemma hist_of_ok a lo hi n : is_min lo a -> is_max hi a -> lo < hi -> 0 < lo -> (1 <= n)%nat -> edge_histogram_of (geometric_edges lo hi n) a (hist_of a n).
Proof. intros A B L P N. destruct (C55_logarithmic_bins a lo hi n A B L P N) as (c & E & H & _). unfold hist_of. rewrite E. exact H. Qed.
Lemma search_result a lo hi : is_min lo a -> is_max hi a -> lo < hi -> 0 < lo ->
  exists al n p, best_binning (hist_of a) lo hi (List.length a) al n /\
    sharpness_histogram a 100 = Ok (Some (Output p (geometric_edges lo hi n) (gaps (geometric_edges lo hi n)) (Some (al, n, 0)))).
Proof.
  intros A B L P. pose proof (distinct_two lo hi a A B L) as Two. set (N := List.length a) in *.
  assert (Dec : forall c, {admissible (hist_of a) c} + {~ admissible (hist_of a) c}).
  { intros c. unfold admissible, hogg_defined. destruct (Forall_dec (fun n => 0 < n + fst c - 1) (fun n => Rlt_dec _ _) (hist_of a (snd c))) as [F|F]; [left|right]; [intros n Hn; rewrite Forall_forall in F; apply F, Hn|].
    intros H. apply F, Forall_forall. intros n Hn. apply H, Hn. }
  assert (Ex : exists c, In c (list_prod setup_alphas (setup_bins 100 N)) /\ admissible (hist_of a) c).
  { exists (10, 2%nat). split; [apply in_prod; [unfold setup_alphas; cbn; auto|apply setup_bins_in; unfold bins_tried; lia]|].
    intros x Hx. cbn [snd] in Hx. destruct (edge_histogram_nat _ _ _ _ (hist_of_ok a lo hi 2 A B L P ltac:(lia)) Hx) as (k & ->). cbn [fst]. pose proof (pos_INR k). lra. }
  set (val := log_likelihood LBlas (map Some a) lo hi (hist_of a)).
  destruct (first_best_exists (admissible (hist_of a)) val Dec _ Ex) as ([al n] & FB).
  assert (Req : log_request LBlas (map Some a) (sharpness_options 100 N) setup_alphas (setup_bins 100 N) lo hi (hist_of a)).
  { unfold log_request. rewrite valued_some. refine (conj eq_refl (conj eq_refl (conj eq_refl (conj A (conj B (conj L (conj P (conj _ _)))))))).
    - intros m x Hm Hx. apply setup_bins_in in Hm. unfold bins_tried in Hm. split; [lia|]. rewrite setup_alphas_eq in Hx. pose proof (alpha_pos x Hx). split; [|intros _; lra].
      unfold norm_of. rewrite valued_some. fold N. assert (2 <= INR N) by (apply (le_INR 2); lia). pose proof (pos_INR m).
      assert (0 <= INR m * x) by (apply Rmult_le_pos; lra). lra.
    - intros m Hm. apply setup_bins_in in Hm. unfold bins_tried in Hm. apply (hist_of_ok a lo hi m A B L P). lia. }
  pose proof (C54_log_search_returns_first_maximum LBlas (map Some a) (sharpness_options 100 N) setup_alphas (setup_bins 100 N) lo hi (hist_of a) (al, n) Req FB (fun _ => or_introl eq_refl) ltac:(discriminate)) as E.
  cbn [fst snd sharpness_options o_params] in E. eexists al, n, _. split; [|exact E].
  destruct FB as (k & Hk & Ok & Mx & _). pose proof (nth_error_In _ _ Hk) as I. apply in_prod_iff in I. destruct I as (Ia & In).
  rewrite setup_alphas_eq in Ia. split; [exact Ia|]. split; [apply setup_bins_in; exact In|]. split; [exact Ok|].
  intros a' n' Ha Hn D. rewrite <- setup_alphas_eq in Ha. apply setup_bins_in in Hn.
  destruct (In_nth_error _ _ (in_prod _ _ a' n' Ha Hn)) as (j & Hj). pose proof (Mx j _ Hj D) as V. unfold val, log_likelihood, norm_of in V. rewrite valued_some in V. exact V.
Qed.

(** ** one class *)
Lemma finite_abs_some l : finite_abs (map Some l) = Ok (map Rabs l).
Proof. unfold finite_abs. induction l as [|x l IH]; [reflexivity|]. cbn [map mapM]. cbn [bind]. rewrite IH. reflexivity. Qed.
Lemma geometric_increasing lo hi n : 0 < lo -> lo < hi -> (1 <= n)%nat -> increasing (geometric_edges lo hi n).
Proof.
  intros P L N i j Hij Hj. rewrite geometric_length in Hj. rewrite !geometric_nth by lia. apply Rmult_lt_compat_l; [exact P|]. unfold Rpower. apply exp_increasing.
  assert (0 < ln (hi / lo)). { rewrite <- ln_1. apply ln_increasing; [lra|]. apply (Rmult_lt_reg_r lo); [exact P|]. unfold Rdiv. rewrite Rmult_assoc, Rinv_l by lra. lra. }
  apply Rmult_lt_compat_r; [assumption|]. unfold Rdiv. apply Rmult_lt_compat_r; [apply Rinv_0_lt_compat, (lt_INR 0); lia|apply lt_INR, Hij].
Qed.
Lemma x_coordinates_spec : forall e, S (List.length (x_coordinates e)) = Nat.max 1 (List.length e) /\
  forall i, (S i < List.length e)%nat -> nth i (x_coordinates e) 0 = (nth (S i) e 0 + nth i e 0) / 2.
Proof.
  induction e as [|a e (IL & IH)]; [split; [reflexivity|cbn; lia]|]. destruct e as [|b e]; [split; [reflexivity|cbn; lia]|].
  assert (E : x_coordinates (a :: b :: e) = (b + a) / 2 :: x_coordinates (b :: e)) by (unfold x_coordinates; cbn [tl removelast combine map fst snd]; destruct e; reflexivity).
  rewrite E. split; [cbn [List.length] in *; rewrite IL; reflexivity|]. intros [|i] Hi; [reflexivity|]. cbn [nth]. rewrite IH by (cbn [List.length] in *; lia). reflexivity.
Qed.
Lemma class_drawn e values : increasing e -> (2 <= List.length e)%nat ->
  exists p, log_spec_edges LBlas (Some values) (Some e) true false (List.length (gaps e)) false = Ok p /\
  exists b, match p with None => Ok None | Some p => (b <- bar (x_coordinates e) (percent p) (gaps e) (List.length values) ; Ok (Some b))%res end = Ok b /\ drawn_over e values b.
Proof.
  intros Inc Le. unfold log_spec_edges. destruct (Nat.eqb_spec (List.length values) 0) as [Z|Z].
  - exists None. split; [reflexivity|]. exists None. split; [reflexivity|]. destruct values; [reflexivity|discriminate].
  - assert (Lg : List.length (gaps e) = (List.length e - 1)%nat) by (unfold gaps; rewrite map_length, seq_length; reflexivity).
    destruct (C55_complete_with_minimum_length values e Inc Le) as (c & E & (Lc & Hc)).
    unfold log_probability. rewrite Lg, E. cbn [bind]. eexists. split; [reflexivity|].
    destruct (x_coordinates_spec e) as (Lx & Nx). assert (Lx' : List.length (x_coordinates e) = List.length c) by lia.
    assert (Lh : List.length (percent (to_probability c (List.length values))) = List.length c) by (unfold percent, to_probability; rewrite !map_length; reflexivity).
    unfold bar. rewrite Lx', Lh, Lg, Nat.eqb_refl. replace (Nat.eqb (List.length c) (List.length e - 1)) with true by (symmetry; apply Nat.eqb_eq; lia). cbn [andb bind].
    eexists. split; [reflexivity|]. unfold drawn_over. cbn [label centres heights bar_widths]. split; [intros ->; cbn in Z; lia|]. split; [reflexivity|]. split; [lia|].
    split; [rewrite Lh; lia|]. split; [rewrite Lg; lia|]. intros i Hi. destruct (Hc i ltac:(lia)) as (k & Ck & Ek). exists k. split; [exact Ck|].
    rewrite Nx by lia. rewrite <- gaps_widths, widths_nth by lia. split; [lra|]. split; [lra|].
    unfold percent, to_probability. rewrite map_map. set (g := fun x => xmul 100 (xdiv x (INR (List.length values)))).
    rewrite (nth_indep _ NaN (g 0)) by (rewrite map_length; lia). rewrite (map_nth g), Ek. unfold g.
    rewrite xdiv_fin by (apply not_0_INR; exact Z). cbn [xmul]. f_equal. field. apply not_0_INR. exact Z.
Qed.

(** ** C150 *)
Lemma figure_of_data si sn ci cn lo hi :
  is_min lo (map Rabs (si ++ sn)) -> is_max hi (map Rabs (si ++ sn)) -> 0 < lo -> lo < hi -> list_sum ci = List.length si -> list_sum cn = List.length sn ->
  exists a n bi bn, (s <- plot_data (map Some (si ++ sn)) (map Some si) (map Some sn) ; draw s ci cn)%res = Ok (bi, bn) /\
    best_binning (hist_of (map Rabs (si ++ sn))) lo hi (List.length (si ++ sn)) a n /\
    drawn_over (geometric_edges lo hi n) (map Rabs si) bi /\ drawn_over (geometric_edges lo hi n) (map Rabs sn) bn.
Proof.
  intros A B P L Ci Cn. destruct (search_result _ lo hi A B L P) as (al & n & p & BB & E). rewrite map_length in BB.
  exists al, n. unfold plot_data. rewrite !finite_abs_some. cbn [bind]. rewrite E. cbn [bind].
  assert (Two := distinct_two lo hi _ A B L). destruct (Nat.eqb_spec (List.length (map Rabs (si ++ sn))) 1) as [Q|_]; [lia|].
  cbn [bind out_width out_edges option_map].
  set (e := geometric_edges lo hi n). assert (Hn : (2 <= n)%nat) by (destruct BB as (_ & (H & _) & _); lia).
  assert (Inc : increasing e) by (apply geometric_increasing; [exact P|exact L|lia]).
  assert (Le : (2 <= List.length e)%nat) by (unfold e; rewrite geometric_length; lia).
  destruct (class_drawn e (map Rabs si) Inc Le) as (pi & Ei & bi & Di & Si). destruct (class_drawn e (map Rabs sn) Inc Le) as (pn & En & bn & Dn & Sn).
  exists bi, bn. rewrite Ei. cbn [bind]. rewrite En. cbn [bind].
  unfold draw. cbn [edges bin_width prob_isolated prob_not_isolated option_map]. rewrite Ci, Cn. rewrite map_length in Di, Dn.
  destruct pi as [pi|], pn as [pn|]; cbn [bind] in Di, Dn |- *; rewrite ?Di, ?Dn; cbn [bind]; try (injection Di as <-); try (injection Dn as <-); (split; [reflexivity|]); (split; [exact BB|]); (split; [exact Si|exact Sn]).
Qed.
Lemma masks_exist part ts D : Plot_Model.sharpness_data part ts = Ok D -> exists ms, Forall2 (fun t m => Plot_Model.isolated_non_isolated part t None None = Ok m) ts ms.
Proof.
  unfold Plot_Model.sharpness_data. destruct (mapM _ ts) as [ms| |] eqn:E; try discriminate. intros _. exists ms. revert ms E. induction ts as [|t ts IH]; intros ms E; [injection E as <-; constructor|].
  cbn [mapM] in E. destruct (Plot_Model.isolated_non_isolated part t None None) as [m| |] eqn:M; try discriminate. cbn [bind] in E. destruct (mapM _ ts) as [ms'| |] eqn:E'; try discriminate. cbn [bind] in E. injection E as <-.
  constructor; [exact M|apply IH; reflexivity].
Qed.
(** The figure made from the tables: if every shown triad has a finite non-zero sharpness and these are not all equal, the bins are
    logarithmic between the smallest and the largest absolute sharpness of all shown triads, their number maximises Hogg's jackknife
    likelihood of the histogram of all shown triads over 2 .. min(100, N) bins and five smoothing parameters; the isolated and the other
    triads are drawn over these same bins, each as percentages of its own class *)
Theorem C150_bars_of_the_figure : forall part ts D si sn lo hi, valid_argpartition part -> Plot_Model.sharpness_data part ts = Ok D ->
  Plot_Model.isolated_sharpness D = map Some si -> Plot_Model.not_isolated_sharpness D = map Some sn ->
  is_min lo (map Rabs (si ++ sn)) -> is_max hi (map Rabs (si ++ sn)) -> 0 < lo -> lo < hi ->
  exists a n bi bn hist, sharpness_figure part ts = Ok (bi, bn) /\
    (forall m, (1 <= m)%nat -> edge_histogram_of (geometric_edges lo hi m) (map Rabs (si ++ sn)) (hist m)) /\
    best_binning hist lo hi (List.length (si ++ sn)) a n /\
    drawn_over (geometric_edges lo hi n) (map Rabs si) bi /\ drawn_over (geometric_edges lo hi n) (map Rabs sn) bn.
Proof.
  intros part ts D si sn lo hi V HD Ei En A B P L. destruct (masks_exist part ts D HD) as (ms & F).
  destruct (Properties_Plot.C129_sharpness_data part ts D ms V HD F) as (_ & _ & Ea & _ & _ & Ci & Cn).
  rewrite Ei in Ci. rewrite En in Cn. rewrite map_length in Ci, Cn.
  destruct (figure_of_data si sn (Plot_Model.isolated_counts D) (Plot_Model.not_isolated_counts D) lo hi A B P L (eq_sym Ci) (eq_sym Cn)) as (a & n & bi & bn & E & BB & Di & Dn).
  exists a, n, bi, bn, (hist_of (map Rabs (si ++ sn))). split; [|split; [|split; [exact BB|split; assumption]]].
  - unfold sharpness_figure. rewrite HD. cbn [bind]. rewrite Ea, Ei, En, <- map_app. exact E.
  - intros m Hm. exact (hist_of_ok _ lo hi m A B L P Hm).
Qed.
(** the bars of a class tile the interval between the first and the last edge, and their heights add up to 100 per cent *)
Theorem C150_heights_add_up : forall e values b, increasing e -> (2 <= List.length e)%nat -> drawn_over e values (Some b) ->
  exists hs, heights b = map Fin hs /\ total hs = 100 /\ (forall h, In h hs -> 0 <= h <= 100) /\
  forall i, (S (S i) < List.length e)%nat -> nth i (centres b) 0 + nth i (bar_widths b) 0 / 2 = nth (S i) (centres b) 0 - nth (S i) (bar_widths b) 0 / 2.
Proof.
  intros e values b Inc Le (NE & _ & Lc & Lh & Lw & H). destruct (C55_complete_with_minimum_length values e Inc Le) as (c & E & (Lk & Hc)).
  assert (NZ : INR (List.length values) <> 0) by (apply not_0_INR; destruct values; [congruence|discriminate]).
  assert (Tot : total c = INR (List.length values)) by (rewrite total_sumR; apply (hlc_sum _ _ _ _ E)).
  exists (map (fun x => 100 * x / INR (List.length values)) c).
  assert (EH : heights b = map Fin (map (fun x => 100 * x / INR (List.length values)) c)).
  { apply (nth_ext _ _ NaN (Fin (100 * 0 / INR (List.length values)))); [rewrite !map_length; lia|]. intros i Hi. destruct (H i ltac:(lia)) as (k & Ck & _ & _ & ->). destruct (Hc i ltac:(lia)) as (k' & Ck' & Ek).
    rewrite map_map. set (g := fun x => Fin (100 * x / INR (List.length values))). change (Fin (100 * 0 / INR (List.length values))) with (g 0). rewrite (map_nth g), Ek. unfold g. rewrite (counted_fun _ _ _ _ Ck Ck'). reflexivity. }
  assert (Pos : forall x, In x c -> 0 <= x <= INR (List.length values)).
  { intros x Hx. apply (In_nth _ _ 0) in Hx. destruct Hx as (i & Hi & <-). destruct (Hc i Hi) as (k & Ck & ->). split; [apply pos_INR|]. apply le_INR. clear - Ck. induction Ck; cbn; lia. }
  assert (PN : 0 < INR (List.length values)) by (pose proof (pos_INR (List.length values)); lra).
  split; [exact EH|]. split; [|split].
  - assert (G : forall l, total (map (fun x => 100 * x / INR (List.length values)) l) = 100 * total l / INR (List.length values)) by (induction l as [|x l IH]; cbn [map total]; [unfold Rdiv; ring|rewrite IH; field; exact NZ]).
    rewrite G, Tot. field. exact NZ.
  - intros h Hh. apply in_map_iff in Hh. destruct Hh as (x & <- & Hx). destruct (Pos x Hx) as (P1 & P2). split.
    + unfold Rdiv. apply Rmult_le_pos; [lra|]. left. apply Rinv_0_lt_compat, PN.
    + apply (Rmult_le_reg_r (INR (List.length values))); [exact PN|]. unfold Rdiv. rewrite Rmult_assoc, Rinv_l, Rmult_1_r by exact NZ. lra.
  - intros i Hi. destruct (H i ltac:(lia)) as (_ & _ & _ & -> & _). destruct (H (S i) Hi) as (_ & _ & -> & _ & _). reflexivity.
Qed.
(** no triad to show: an empty figure; exactly one: TypeError (finding: len() of the scalar width) *)
Theorem C150_no_triads : forall part ts D, Plot_Model.sharpness_data part ts = Ok D -> Plot_Model.isolated_sharpness D = [] -> Plot_Model.not_isolated_sharpness D = [] ->
  Plot_Model.all_sharpness D = [] -> sharpness_figure part ts = Ok (None, None).
Proof. intros part ts D HD Ei En Ea. unfold sharpness_figure. rewrite HD. cbn [bind]. rewrite Ea, Ei, En. reflexivity. Qed.
Theorem C150_one_triad_raises : forall x (isolated : bool), 
  plot_data [Some x] (if isolated then [Some x] else []) (if isolated then [] else [Some x]) = Exc TypeError.
Proof.
  intros x b. unfold plot_data. change [Some x] with (map Some [x]). destruct b; rewrite ?finite_abs_some; cbn [map finite_abs mapM bind];
  (destruct (sharpness_histogram [Rabs x] 100) as [[o|]| |] eqn:E; [reflexivity|unfold sharpness_histogram, likelihood_log, prologue in E; cbn [map sharpness_options o_alphas o_bins single_datum o_custom] in E; unfold single_datum in E; cbn in E; discriminate E..]).
Qed.
Theorem C150_single_triad_figure_raises : forall part ts D x, Plot_Model.sharpness_data part ts = Ok D -> Plot_Model.all_sharpness D = [Some x] ->
  (Plot_Model.isolated_sharpness D = [Some x] /\ Plot_Model.not_isolated_sharpness D = [] \/ Plot_Model.isolated_sharpness D = [] /\ Plot_Model.not_isolated_sharpness D = [Some x]) ->
  sharpness_figure part ts = Exc TypeError.
Proof.
  intros part ts D x HD Ea C. unfold sharpness_figure. rewrite HD. cbn [bind]. rewrite Ea.
  destruct C as [(-> & ->)|(-> & ->)]; [rewrite (C150_one_triad_raises x true)|rewrite (C150_one_triad_raises x false)]; reflexivity.
Qed.

(** *** all sharpnesses equal *)
Lemma pick_inf {C I} (score : C -> res (xr * I)) (g : C -> I) c0 rest init : (forall c, In c (c0 :: rest) -> score c = Ok (PInf, g c)) ->
  pick score (c0 :: rest) init = Ok (PInf, Some (c0, g c0)).
Proof.
  intros H. unfold pick. cbn [fold_left bind]. rewrite (H c0 (or_introl eq_refl)). cbn [bind fst snd xgt].
  assert (H' : forall c, In c rest -> score c = Ok (PInf, g c)) by (intros c Hc; apply H; right; exact Hc). clear H. generalize (Some (c0, g c0)) as s.
  induction rest as [|c l IH]; intros s; [reflexivity|]. cbn [fold_left bind]. rewrite (H' c (or_introl eq_refl)). cbn [bind fst snd xgt]. apply IH. intros d Hd. apply H'. right. exact Hd.
Qed.
Lemma constant_repeat (a : list R) v : (forall x, In x a -> x = v) -> a = repeat v (List.length a).
Proof. induction a as [|x a IH]; intros H; [reflexivity|]. cbn [List.length repeat]. rewrite (H x (or_introl eq_refl)), <- IH; [reflexivity|intros y Hy; apply H; right; exact Hy]. Qed.
Lemma fold_const (f : R -> R -> R) v : f v v = v -> forall n, fold_left f (repeat v n) v = v.
Proof. intros E n. induction n as [|n IH]; [reflexivity|]. cbn [repeat fold_left]. rewrite E. exact IH. Qed.
Lemma dmin_repeat v n : dmin (repeat v (S n)) = v.
Proof. unfold dmin. cbn [repeat hd]. change (v :: repeat v n) with (repeat v (S n)). apply fold_const. unfold Rmin. destruct (Rle_dec v v); reflexivity. Qed.
Lemma dmax_repeat v n : dmax (repeat v (S n)) = v.
Proof. unfold dmax. cbn [repeat hd]. change (v :: repeat v n) with (repeat v (S n)). apply fold_const. unfold Rmax. destruct (Rle_dec v v); reflexivity. Qed.
Lemma log_edges_repeat v k n : 0 < v -> log_edges (repeat v (S k)) n = repeat v (S n).
Proof.
  intros P. unfold log_edges. rewrite dmin_repeat, dmax_repeat. generalize 0%nat as s. generalize (S n) as m.
  induction m as [|m IH]; intros s; [reflexivity|]. cbn [seq map repeat]. rewrite IH. f_equal.
  replace (log10 v + INR s * ((log10 v - log10 v) / INR n)) with (log10 v) by (unfold Rdiv; ring). apply Rpower10_log10, P.
Qed.
Lemma search_repeat v n : searchsorted_left (repeat v n) v = 0%nat.
Proof. unfold searchsorted_left. induction n as [|n IH]; [reflexivity|]. cbn [repeat filter]. unfold rlt at 1. destruct (Rlt_dec v v) as [Q|_]; [lra|exact IH]. Qed.
Lemma max_repeat k : fold_left Nat.max (map (fun b => S (Z.to_nat b)) (repeat 0%Z (S k))) 0%nat = 1%nat.
Proof. cbn [repeat map fold_left]. change (Nat.max 0 (S (Z.to_nat 0))) with 1%nat. induction k as [|k IH]; [reflexivity|]. cbn [repeat map fold_left]. exact IH. Qed.
Lemma occ_repeat k : count_occ Z.eq_dec (repeat 0%Z k) 0%Z = k.
Proof. induction k as [|k IH]; [reflexivity|]. cbn [repeat count_occ]. destruct (Z.eq_dec 0 0); [rewrite IH; reflexivity|contradiction]. Qed.
Lemma occ_repeat' k z : z <> 0%Z -> count_occ Z.eq_dec (repeat 0%Z k) z = 0%nat.
Proof. intros N. induction k as [|k IH]; [reflexivity|]. cbn [repeat count_occ]. destruct (Z.eq_dec 0 z); [congruence|exact IH]. Qed.
Lemma map_repeat' {A B} (f : A -> B) a n : map f (repeat a n) = repeat (f a) n.
Proof. induction n as [|n IH]; [reflexivity|]. cbn. rewrite IH. reflexivity. Qed.
Lemma hlc_repeat v k n minb : (2 <= n)%nat -> histogram_log_counts (repeat v (S k)) (repeat v (S n)) minb =
  Ok (map INR (map (fun i => count_occ Z.eq_dec (repeat 0%Z (S k)) (Z.of_nat i)) (seq 0 (Nat.max minb 1)))).
Proof.
  intros Hn. unfold histogram_log_counts. rewrite !map_repeat', search_repeat, repeat_length.
  change (Z.of_nat 0 - 1)%Z with (-1)%Z. change ((-1 =? -1)%Z) with true. cbv iota zeta.
  replace (Z.eqb 0 (Z.of_nat (S n) - 1)) with false by (symmetry; apply Z.eqb_neq; lia).
  unfold bincount. assert (F : existsb (fun b => (b <? 0)%Z) (repeat 0%Z (S k)) = false) by (generalize (S k) as m; induction m; [reflexivity|assumption]). rewrite F, max_repeat. reflexivity.
Qed.
Lemma prologue_two d x y t o f al nbs : d = Some x :: Some y :: t -> o_alphas o = Some al -> o_bins o = Some nbs -> prologue (Some d) o f = f (valued d) al nbs.
Proof. intros -> Ea En. unfold prologue. rewrite Ea, En. reflexivity. Qed.
Lemma equal_search v k : 0 < v -> exists p, sharpness_histogram (repeat v (S (S k))) 100 = Ok (Some (Output p [v; v; v] [v - v; v - v] (Some (/ 100, 2%nat, 0)))).
Proof.
  intros P. set (a := repeat v (S (S k))). set (N := List.length a).
  assert (Pos : forallb (fun x => rlt 0 x) a = true) by (unfold a; generalize (S (S k)) as m; induction m as [|m IH]; [reflexivity|]; cbn [repeat forallb]; rewrite IH; unfold rlt; destruct (Rlt_dec 0 v); [reflexivity|lra]).
  assert (LC : forall n, (2 <= n)%nat -> log_counts_and_edges a n 0 = Ok ([INR (S (S k))], repeat v (S n))).
  { intros n Hn. unfold log_counts_and_edges. rewrite Pos. destruct (Nat.eqb_spec n 1); [lia|]. destruct (Nat.eqb_spec n 0); [lia|].
    unfold a. rewrite log_edges_repeat by exact P. rewrite hlc_repeat by exact Hn. cbn [bind]. f_equal. f_equal. cbn [Nat.max seq map]. change (Z.of_nat 0) with 0%Z. rewrite occ_repeat. reflexivity. }
  unfold sharpness_histogram, likelihood_log.
  rewrite (prologue_two (map Some a) v v (map Some (repeat v k)) (sharpness_options 100 (List.length a)) _ setup_alphas (setup_bins 100 (List.length a)) eq_refl eq_refl eq_refl), valued_some.
  cbn [o_negative sharpness_options].
  set (combos := combinations2 setup_alphas (setup_bins 100 (List.length a))).
  assert (EC : exists rest, combos = (/ 100, 2%nat) :: rest).
  { unfold combos, combinations2, setup_bins, setup_alphas, a. rewrite repeat_length. destruct (Nat.min 100 (S (S k)) + 1 - 2)%nat as [|q] eqn:Q; [lia|]. cbn [seq list_prod map List.app]. eexists. reflexivity. }
  destruct EC as (rest & EC).
  assert (Sc : forall c, In c combos -> score_log LBlas a c = Ok (PInf, repeat v (S (snd c)))).
  { intros [al n] Hc. apply in_prod_iff in Hc. destruct Hc as (Ha & Hn). apply setup_bins_in in Hn. unfold bins_tried in Hn. unfold score_log. cbn [fst snd]. rewrite LC by lia. cbn [bind fst snd].
    f_equal. f_equal. destruct n as [|n]; [lia|]. cbn [repeat widths]. unfold jacky_var. cbn [combine map fst snd xsum fold_right].
    replace ((v - v) * _) with 0 by ring. rewrite setup_alphas_eq in Ha. pose proof (alpha_pos al Ha) as Pa. assert (2 <= INR (S (S k))) by (apply (le_INR 2); lia).
    unfold xdiv. destruct (Req_EM_T 0 0) as [_|Q]; [|congruence]. destruct (Rlt_dec 0 (INR (S (S k)) + al - 1)) as [_|Q]; [|lra]. cbn [xlog xmul]. destruct (Rlt_dec 0 (INR (S (S k)))) as [_|Q]; [reflexivity|lra]. }
  rewrite EC in Sc |- *. rewrite (pick_inf _ (fun c => repeat v (S (snd c))) _ _ None Sc). cbn [bind snd]. rewrite LC by lia. cbn [bind fst snd convert_log o_prob sharpness_options].
  eexists. reflexivity.
Qed.
Lemma equal_class v values minb : (forall x, In x values -> x = v) -> minb = 2%nat ->
  exists p, log_spec_edges LBlas (Some values) (Some [v; v; v]) true false minb false = Ok p /\ match p with None => values = [] | Some q => values <> [] /\ List.length q = 2%nat end.
Proof.
  intros H ->. rewrite (constant_repeat values v H). unfold log_spec_edges. destruct (List.length values) as [|k]; [exists None; split; reflexivity|].
  rewrite repeat_length. cbn [Nat.eqb]. unfold log_probability. change [v; v; v] with (repeat v 3). rewrite (hlc_repeat v k 2 2) by lia. cbn [bind]. eexists. split; [reflexivity|]. split; [discriminate|]. reflexivity.
Qed.
(** finding: when several triads are shown but all sharpnesses are equal in size, every bar has zero width *)
Theorem C150_equal_sharpness : forall part ts D si sn v, valid_argpartition part -> Plot_Model.sharpness_data part ts = Ok D ->
  Plot_Model.isolated_sharpness D = map Some si -> Plot_Model.not_isolated_sharpness D = map Some sn ->
  (2 <= List.length (si ++ sn))%nat -> 0 < v -> (forall x, In x (si ++ sn) -> Rabs x = v) ->
  exists bi bn, sharpness_figure part ts = Ok (bi, bn) /\ (bi = None <-> si = []) /\ (bn = None <-> sn = []) /\
    forall b, (bi = Some b \/ bn = Some b) -> centres b = [v; v] /\ bar_widths b = [0; 0].
Proof.
  intros part ts D si sn v V HD Ei En L2 P Eq. destruct (masks_exist part ts D HD) as (ms & F).
  destruct (Properties_Plot.C129_sharpness_data part ts D ms V HD F) as (_ & _ & Ea & _ & _ & _ & _).
  unfold sharpness_figure. rewrite HD. cbn [bind]. rewrite Ea, Ei, En, <- map_app.
  assert (EA : map Rabs (si ++ sn) = repeat v (List.length (si ++ sn))).
  { rewrite <- (map_length Rabs). apply constant_repeat. intros x Hx. apply in_map_iff in Hx. destruct Hx as (y & <- & Hy). apply Eq, Hy. }
  unfold plot_data. rewrite !finite_abs_some. cbn [bind]. rewrite EA. destruct (List.length (si ++ sn)) as [|[|k]]; [lia|lia|].
  destruct (equal_search v k P) as (p & ->). cbn [bind]. rewrite repeat_length. cbn [Nat.eqb bind out_width out_edges option_map List.length].
  destruct (equal_class v (map Rabs si) 2) as (pi & -> & Hi); [intros x Hx; apply in_map_iff in Hx; destruct Hx as (y & <- & Hy); apply Eq, in_or_app; left; exact Hy|reflexivity|].
  destruct (equal_class v (map Rabs sn) 2) as (pn & -> & Hn); [intros x Hx; apply in_map_iff in Hx; destruct Hx as (y & <- & Hy); apply Eq, in_or_app; right; exact Hy|reflexivity|].
  cbn [bind]. unfold draw. cbn [edges bin_width option_map prob_isolated prob_not_isolated x_coordinates tl removelast combine map fst snd].
  assert (Mid : (v + v) / 2 = v) by lra. assert (Zero : v - v = 0) by lra. rewrite Mid, Zero.
  assert (MI : forall l : list R, map Rabs l = [] <-> l = []) by (intros l; split; [apply map_eq_nil|intros ->; reflexivity]).
  destruct pi as [pi|], pn as [pn|]; unfold bar; cbn [List.length percent]; unfold percent; rewrite ?map_length; try (destruct Hi as (Hi & ->)); try (destruct Hn as (Hn & ->)); cbn [Nat.eqb andb bind];
  (eexists _, _; split; [reflexivity|]); rewrite <- (MI si), <- (MI sn); (split; [split; [discriminate || (intros _; assumption)|intros Q; congruence]|]); (split; [split; [discriminate || (intros _; assumption)|intros Q; congruence]|]);
  intros b [Q|Q]; try discriminate; injection Q as <-; split; reflexivity.
Qed.

(** ** a concrete figure *)
(** two triads with sharpness -0.04 (isolated) and -0.08 *)
Definition sharp_pair : list Plot_Model.raw := [Properties_Plot.case (5, 1, 2)%Z 10 4.8; Properties_Plot.case (5, 3, 4)%Z 20 4.6].
Import Plot_Model Plot_Spec Properties_Plot Properties_Mask.
Lemma pair_data part : valid_argpartition part -> exists D, sharpness_data part [sharp_pair] = Ok D /\
  isolated_sharpness D = map Some [-0.04] /\ not_isolated_sharpness D = map Some [-0.08].
Proof.
  intros V. set (t := sharp_pair).
  assert (Cr : forall k r c, nth_error (map derive t) k = Some r -> thresh r = Some c -> exists l r' c', l <> k /\ nth_error (map derive t) l = Some r' /\ parent r' = parent r /\ thresh r' = Some c').
  { intros k r c H _. destruct k as [|[|k]]; [| |destruct k; discriminate]; injection H as <-.
    - exists 1%nat. eexists _, 20. split; [lia|]. split; [reflexivity|]. split; [reflexivity|apply case_thresh].
    - exists 0%nat. eexists _, 10. split; [lia|]. split; [reflexivity|]. split; [reflexivity|apply case_thresh]. }
  destruct (proj1 (C57_succeeds_iff_no_parent_is_alone part (map derive t) V) Cr) as (iso & I).
  assert (Sm : simple t) by (intros x H; cbn [In t sharp_pair] in H; repeat (destruct H as [<-|H]; [eexists _, _, _; split; [reflexivity|lra]|]); contradiction).
  assert (I0 : holds iso 0).
  { apply (iso_yes part t iso 0 (case (5, 1, 2)%Z 10 4.8) V Sm I eq_refl). exists 10, 10, 10. unfold t, sharp_pair.
    split; [|split; [|split]]; [low (case (5, 1, 2)%Z 10 4.8)..|split; apply agree0]. }
  assert (I1 : ~ holds iso 1).
  { apply (iso_no part t iso 1 (case (5, 3, 4)%Z 20 4.6) V I eq_refl). unfold t, sharp_pair. apply (disagree _ _ 10 20); [low (case (5, 1, 2)%Z 10 4.8)|low (case (5, 3, 4)%Z 20 4.6)|lra]. }
  destruct (isolated_non_isolated part t None None) as [[i n]| |] eqn:M; [|unfold isolated_non_isolated, hyper_ae_isolation_masks in M; rewrite I in M; discriminate M..].
  assert (F : Forall2 (fun t m => isolated_non_isolated part t None None = Ok m) [t] [(i, n)]) by (constructor; [exact M|constructor]).
  destruct (C129_succeeds part [t] _ ltac:(discriminate) F) as (D & HD). exists D. split; [exact HD|].
  destruct (C129_sharpness_data part [t] D _ V HD F) as (Ei & En & _).
  destruct (C129_sharpness_masks part t None None i n V M) as (iso' & I' & K). rewrite I in I'. injection I' as <-.
  pose proof (K 0%nat _ eq_refl (case_checked _ _ _)) as (A0 & B0). pose proof (K 1%nat _ eq_refl (case_checked _ _ _)) as (A1 & B1). cbn [lum_ok det_ok] in *.
  pose proof (case_stable (5, 1, 2)%Z 10 4.8) as T0. pose proof (case_stable (5, 3, 4)%Z 20 4.6) as T1.
  pose proof (case_valid (5, 1, 2)%Z 10) as E0.
  assert (E1 : ae_valid (case (5, 3, 4)%Z 20 4.6)) by (apply case_ae; [lra|]; rewrite Rabs_right by lra; lra).
  destruct (sharp_inv part t i n V M) as (Mi & Mn).
  assert (Li : i = [true; false]).
  { assert (L : List.length i = 2%nat) by (rewrite Mi, map_length; reflexivity). destruct i as [|x [|y [|? ?]]]; try discriminate L.
    assert (holds [x; y] 0) as X by tauto. assert (~ holds [x; y] 1) as Y by tauto. unfold holds in X, Y. cbn in X, Y. injection X as ->. destruct y; [congruence|reflexivity]. }
  assert (Ln : n = [false; true]).
  { assert (L : List.length n = 2%nat) by (rewrite Mn, map_length; reflexivity). destruct n as [|x [|y [|? ?]]]; try discriminate L.
    assert (~ holds [x; y] 0) as X by tauto. assert (holds [x; y] 1) as Y by tauto. unfold holds in X, Y. cbn in X, Y. injection Y as ->. destruct x; [congruence|reflexivity]. }
  rewrite Ei, En, Li, Ln. unfold t, sharp_pair. cbn [combine flat_map fst snd map sel filter List.app].
  rewrite (C129_sharpness_value (case (5, 1, 2)%Z 10 4.8) 10 5 4.8 1 (-2) (-3)) by (reflexivity || lra).
  rewrite (C129_sharpness_value (case (5, 3, 4)%Z 20 4.6) 10 5 4.6 1 (-2) (-3)) by (reflexivity || lra).
  split; f_equal; f_equal; lra.
Qed.
(** one isolated triad in the first of two bins, one other triad in the second *)
Theorem C150_case : forall part, valid_argpartition part -> exists bi bn, sharpness_figure part [sharp_pair] = Ok (Some bi, Some bn) /\
  heights bi = [Fin 100; Fin 0] /\ heights bn = [Fin 0; Fin 100] /\ label bi = 1%nat /\ label bn = 1%nat /\
  nth 0 (centres bi) 0 - nth 0 (bar_widths bi) 0 / 2 = 0.04 /\ nth 1 (centres bi) 0 + nth 1 (bar_widths bi) 0 / 2 = 0.08.
Proof.
  intros part V. destruct (pair_data part V) as (D & HD & Ei & En).
  assert (EA : map Rabs ([-0.04] ++ [-0.08])%list = [0.04; 0.08]) by (cbn [List.app map]; rewrite !Rabs_left by lra; f_equal; [lra|]; f_equal; lra).
  assert (A : is_min 0.04 (map Rabs ([-0.04] ++ [-0.08])%list)) by (rewrite EA; split; [left; reflexivity|intros x [<-|[<-|[]]]; lra]).
  assert (B : is_max 0.08 (map Rabs ([-0.04] ++ [-0.08])%list)) by (rewrite EA; split; [right; left; reflexivity|intros x [<-|[<-|[]]]; lra]).
  destruct (C150_bars_of_the_figure part [sharp_pair] D [-0.04] [-0.08] 0.04 0.08 V HD Ei En A B ltac:(lra) ltac:(lra)) as (a & n & bi & bn & hist & E & _ & (_ & (N1 & N2) & _) & Di & Dn).
  cbn [List.length List.app] in N2. assert (n = 2%nat) by lia. subst n.
  assert (Ra : Rabs (-0.04) = 0.04) by (rewrite Rabs_left by lra; lra). assert (Rb : Rabs (-0.08) = 0.08) by (rewrite Rabs_left by lra; lra).
  cbn [map] in Di, Dn. rewrite Ra in Di. rewrite Rb in Dn.
  assert (G0 : nth 0 (geometric_edges 0.04 0.08 2) 0 = 0.04) by (rewrite geometric_nth by lia; unfold Rpower; replace (INR 0 / INR 2) with 0 by (cbn; lra); rewrite Rmult_0_l, exp_0; lra).
  assert (G2 : nth 2 (geometric_edges 0.04 0.08 2) 0 = 0.08) by (rewrite geometric_nth by lia; replace (INR 2 / INR 2) with 1 by (cbn; lra); rewrite Rpower_1 by lra; lra).
  assert (LG : List.length (geometric_edges 0.04 0.08 2) = 3%nat) by apply geometric_length.
  assert (Inc : increasing (geometric_edges 0.04 0.08 2)) by (apply geometric_increasing; lra || lia).
  assert (G01 := Inc 0%nat 1%nat ltac:(lia) ltac:(lia)). assert (G12 := Inc 1%nat 2%nat ltac:(lia) ltac:(lia)). rewrite G0 in G01. rewrite G2 in G12.
  set (e := geometric_edges 0.04 0.08 2) in *. clearbody e.
  destruct bi as [bi|]; [|discriminate Di]. destruct bn as [bn|]; [|discriminate Dn]. exists bi, bn. split; [exact E|].
  destruct Di as (_ & Lbi & Lci & Lhi & Lwi & Hi). destruct Dn as (_ & Lbn & Lcn & Lhn & Lwn & Hn). rewrite LG in *.
  destruct (Hi 0%nat ltac:(lia)) as (k0 & C0 & X0 & Y0 & Z0). destruct (Hi 1%nat ltac:(lia)) as (k1 & C1 & X1 & Y1 & Z1).
  destruct (Hn 0%nat ltac:(lia)) as (m0 & D0 & _ & _ & W0). destruct (Hn 1%nat ltac:(lia)) as (m1 & D1 & _ & _ & W1).
  assert (One : forall P (x : R) k, counted P [x] k -> P x -> k = 1%nat) by (intros P x k C H; inversion C; subst; [match goal with H : counted _ [] _ |- _ => inversion H end; reflexivity|contradiction]).
  assert (Non : forall P (x : R) k, counted P [x] k -> ~ P x -> k = 0%nat) by (intros P x k C H; inversion C; subst; [contradiction|match goal with H : counted _ [] _ |- _ => inversion H end; reflexivity]).
  apply (One (edge_bin e 0) 0.04) in C0; [|unfold edge_bin; rewrite LG; split; [left; reflexivity|right; lra]].
  apply (Non (edge_bin e 1) 0.04) in C1; [|unfold edge_bin; rewrite LG; intros ([Q|Q] & _); [discriminate|lra]].
  apply (Non (edge_bin e 0) 0.08) in D0; [|unfold edge_bin; rewrite LG; intros (_ & [Q|Q]); [discriminate|lra]].
  apply (One (edge_bin e 1) 0.08) in D1; [|unfold edge_bin; rewrite LG; split; [right; lra|left; reflexivity]]. subst k0 k1 m0 m1.
  cbn [List.length INR] in *. replace (100 * 1 / 1) with 100 in * by lra. replace (100 * 0 / 1) with 0 in * by lra.
  split; [|split; [|split; [exact Lbi|split; [exact Lbn|split; [lra|lra]]]]].
  - destruct (heights bi) as [|h0 [|h1 [|? ?]]]; cbn [List.length] in Lhi; try lia. cbn [nth] in Z0, Z1. subst. reflexivity.
  - destruct (heights bn) as [|h0 [|h1 [|? ?]]]; cbn [List.length] in Lhn; try lia. cbn [nth] in W0, W1. subst. reflexivity.
Qed.

(** ** C151: files *)
Local Open Scope string_scope.
Lemma str_app_cons a s t : String a s ++ t = String a (s ++ t). Proof. reflexivity. Qed.
Lemma s_app_assoc a b c : (a ++ b) ++ c = a ++ b ++ c.
Proof. induction a as [|x a IH]; [reflexivity|]. cbn [append]. rewrite IH. reflexivity. Qed.
Lemma after_none c : forall s acc, has_char c s = false -> after_last c s acc = acc.
Proof. induction s as [|a s IH]; intros acc H; [reflexivity|]. cbn in *. apply orb_false_iff in H. destruct H as (-> & H). apply IH, H. Qed.
Lemma after_last_app c s : forall t acc, after_last c (s ++ String c t) acc = after_last c t t.
Proof. induction s as [|a s IH]; intros t acc; cbn [append after_last]; [rewrite Ascii.eqb_refl; reflexivity|]. destruct (Ascii.eqb a c); apply IH. Qed.
Lemma has_app c s t : has_char c (s ++ t) = has_char c s || has_char c t.
Proof. induction s as [|a s IH]; [reflexivity|]. cbn [append has_char]. rewrite IH, orb_assoc. reflexivity. Qed.
(** the written files are directory/[sub-directory/]name[_extra].format, one per requested format, and each is written in that format;
    the name and the extra specifier have no slash and are not both empty, the format has neither dots nor slashes *)
Theorem C151_files : forall dir subdir name extra formats, name <> "" -> has_char "/" name = false -> has_char "/" extra = false ->
  (forall f, In f formats -> has_char "." f = false /\ has_char "/" f = false) ->
  let folder := if String.eqb subdir "" then dir else dir ++ "/" ++ subdir in
  let file := if String.eqb extra "" then name else name ++ "_" ++ extra in
  saved (save_paths dir subdir name extra formats) = map (fun f => (folder ++ "/" ++ file ++ "." ++ f, f)) formats.
Proof.
  intros dir subdir name extra formats NN N1 N2 Hf folder file. unfold saved, save_paths. rewrite map_map.
  assert (EF : (if Nat.ltb 0 (String.length subdir) then slash dir subdir else dir) = folder) by (unfold folder; destruct subdir; reflexivity).
  assert (ET : name ++ (if Nat.ltb 0 (String.length extra) then "_" ++ extra else "") = file) by (unfold file; destruct extra; [cbn; clear; induction name as [|a s IH]; [reflexivity|cbn; rewrite IH; reflexivity]|reflexivity]).
  rewrite EF, ET. apply map_ext_in. intros f Hin. destruct (Hf f Hin) as (Fd & Fs). f_equal.
  assert (SF : has_char "/" file = false) by (unfold file; destruct (String.eqb extra ""); [exact N1|]; rewrite !has_app, N1, N2; reflexivity).
  assert (PN : path_name (folder ++ "/" ++ file ++ "." ++ f) = file ++ "." ++ f).
  { unfold path_name. cbn [append]. rewrite after_last_app. apply after_none. rewrite has_app, SF. cbn. exact Fs. }
  unfold suffix1. rewrite PN. assert (NE : file <> "") by (unfold file; destruct (String.eqb extra ""); [exact NN|destruct name; [congruence|discriminate]]).
  destruct file as [|a s]; [congruence|]. cbn [append]. rewrite has_app. cbn [has_char]. rewrite Ascii.eqb_refl. cbn [orb]. rewrite orb_true_r, after_last_app. apply after_none, Fd.
Qed.
(** different formats are different files *)
Theorem C151_distinct_files : forall dir subdir name extra formats, NoDup formats -> NoDup (save_paths dir subdir name extra formats).
Proof.
  intros dir subdir name extra formats H. unfold save_paths. apply FinFun.Injective_map_NoDup; [|exact H]. intros f g E.
  assert (Inj : forall p q r, p ++ q = p ++ r -> q = r) by (induction p as [|a p IH]; intros q r Q; [exact Q|injection Q as Q; apply IH, Q]).
  apply Inj, Inj, Inj, Inj in E. exact E.
Qed.
(** finding: a compound format such as "svg.gz" is written in the format after its last dot *)
Theorem C151_compound_format : saved (save_paths "out" "" "sharp" "" ["svg.gz"]) = [("out/sharp.svg.gz", "gz")].
Proof. reflexivity. Qed.
Example C151_case : saved (save_paths "plots/model_1" "sharpness" "hist" "v2" ["pdf"; "png"]) =
  [("plots/model_1/sharpness/hist_v2.pdf", "pdf"); ("plots/model_1/sharpness/hist_v2.png", "png")].
Proof. reflexivity. Qed.
