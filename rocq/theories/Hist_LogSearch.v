(** * The search over logarithmic bins. *)
From Coq Require Import Reals List ZArith Bool Lia Lra.
From Verif Require Import Base Py Hist_Model Hist_Spec Hist_Proofs Hist_Search Hist_API Hist_Phase Hist_Log.
Import ListNotations.
Local Open Scope R_scope.
Local Open Scope res_scope.

Lemma gaps_widths e : widths e = gaps e.
Proof.
  apply (nth_ext _ _ 0 0); unfold gaps.
  - rewrite map_length, seq_length. pose proof (widths_length e). lia.
  - intros i Hi. pose proof (widths_length e) as L. rewrite widths_nth by lia.
    set (g := fun i => nth (S i) e 0 - nth i e 0). rewrite (nth_indep (map g _) 0 (g 0%nat)) by (rewrite map_length, seq_length; lia).
    rewrite (map_nth g), seq_nth by lia. reflexivity.
Qed.
Lemma edge_histogram_of_unique e data c c' : edge_histogram_of e data c -> edge_histogram_of e data c' -> c = c'.
Proof.
  intros [L H] [L' H']. apply (nth_ext _ _ 0 0); [lia|]. intros i Hi. destruct (H i Hi) as (k & A & ->). destruct (H' i ltac:(lia)) as (k' & A' & ->).
  f_equal. eapply counted_fun; eassumption.
Qed.
Lemma edge_histogram_nat e data c x : edge_histogram_of e data c -> In x c -> exists k : nat, x = INR k.
Proof. intros [L H] Hx. apply (In_nth _ _ 0) in Hx. destruct Hx as (i & Hi & <-). destruct (H i Hi) as (k & _ & E). exists k. exact E. Qed.
Lemma jacky_var_terms counts ws alpha cf : jacky_var counts ws alpha cf = xsum (map (fun p => term alpha (snd p * cf) (fst p)) (combine counts ws)).
Proof. reflexivity. Qed.
Lemma jacky_var_good counts ws alpha cf : 0 < cf -> (forall w, In w ws -> 0 < w) -> (forall n, In n counts -> 0 < n + alpha - 1) ->
  jacky_var counts ws alpha cf = Fin (hogg_widths counts ws cf alpha).
Proof.
  intros Hc Hw H. rewrite jacky_var_terms. unfold hogg_widths. revert ws Hw. induction counts as [|n l IH]; intros [|w ws] Hw; [reflexivity..|].
  cbn [combine map xsum fold_right total fst snd]. change (fold_right xadd (Fin 0)) with xsum. rewrite IH; [|intros; apply H; right; assumption|intros; apply Hw; right; assumption].
  rewrite term_good; [reflexivity|apply Rmult_lt_0_compat; [apply Hw; left; reflexivity|exact Hc]|apply H; left; reflexivity].
Qed.
Lemma jacky_var_cases counts ws alpha cf : 0 < cf -> (forall w, In w ws -> 0 < w) -> (forall n, In n counts -> 0 <= n) -> List.length counts = List.length ws ->
  (forall n, In n counts -> 0 < n + alpha - 1) \/ bad (jacky_var counts ws alpha cf).
Proof.
  intros Hc Hw H HL. rewrite jacky_var_terms.
  assert (G : (bad (xsum (map (fun p => term alpha (snd p * cf) (fst p)) (combine counts ws))) \/ exists r, xsum (map (fun p => term alpha (snd p * cf) (fst p)) (combine counts ws)) = Fin r) /\
    ((forall n, In n counts -> 0 < n + alpha - 1) \/ bad (xsum (map (fun p => term alpha (snd p * cf) (fst p)) (combine counts ws))))).
  { revert ws Hw HL. induction counts as [|n l IH]; intros [|w ws] Hw HL; cbn in HL; try discriminate.
    - cbn. split; [right; eexists; reflexivity|left; intros ? []].
    - cbn [combine map xsum fold_right fst snd]. change (fold_right xadd (Fin 0)) with xsum.
      assert (HD : 0 < w * cf) by (apply Rmult_lt_0_compat; [apply Hw; left; reflexivity|exact Hc]).
      assert (Hn : 0 <= n) by (apply H; left; reflexivity).
      destruct (IH (fun n Hn => H n (or_intror Hn)) ws (fun w Hw' => Hw w (or_intror Hw')) ltac:(lia)) as [A B].
      pose proof (term_cases alpha (w * cf) n HD Hn) as T. split.
      + destruct T as [T|[r T]], A as [A|[r' A]].
        * left. apply xadd_bad_l; auto.
        * left. apply xadd_bad_l; [exact T|right; eexists; exact A].
        * left. apply xadd_bad_r; [exact A|right; eexists; exact T].
        * right. rewrite T, A. eexists. reflexivity.
      + destruct (Rle_lt_dec (n + alpha - 1) 0) as [L|L].
        * right. apply xadd_bad_l; [apply term_bad; assumption|destruct A as [A|[r A]]; [left; exact A|right; eexists; exact A]].
        * destruct B as [B|B]; [left; intros m [<-|Hm]; [exact L|apply B, Hm]|right].
          apply xadd_bad_r; [exact B|]. destruct T as [T|[r T]]; [left; exact T|right; eexists; exact T]. }
  destruct G as [_ G]. exact G.
Qed.

(** normalisation used by each implementation *)
Definition log_norm (v : limpl) (N n : nat) (alpha : R) : R :=
  match v with LCython => INR n * (1 + alpha) - 1 | _ => INR N + INR n * alpha - 1 end.
Lemma conversion_log_norm v c N n alpha : sumR c = INR N -> List.length c = n -> (forall x, In x c -> 0 <= x) -> (v = LBlas -> 0 <= alpha) ->
  conversion_log v c N n alpha = log_norm v N n alpha.
Proof.
  intros Hs Hl Hx Ha. destruct v; cbn [conversion_log log_norm].
  - unfold conversion_numpy. ring.
  - change (conversion_blas c alpha) with (conversion Blas c alpha). rewrite (conversion_agree Blas c N n alpha); [unfold conversion_numpy; ring|discriminate|exact Hs|exact Hl|intros _; apply Ha; reflexivity|exact Hx].
  - unfold conversion_numexpr. rewrite sum_plus_alpha, Hs, Hl. ring.
  - unfold conversion_no_loop. rewrite Hl. ring.
Qed.

Section Geo.
  Variables lo hi : R.
  Lemma geometric_nth n i : (i <= n)%nat -> nth i (geometric_edges lo hi n) 0 = lo * Rpower (hi / lo) (INR i / INR n).
  Proof.
    intros Hi. unfold geometric_edges. set (g := fun i => lo * Rpower (hi / lo) (INR i / INR n)).
    rewrite (nth_indep _ 0 (g 0%nat)) by (rewrite map_length, seq_length; lia). rewrite (map_nth g), seq_nth by lia. reflexivity.
  Qed.
  Lemma geometric_length n : List.length (geometric_edges lo hi n) = Datatypes.S n.
  Proof. unfold geometric_edges. rewrite map_length, seq_length. reflexivity. Qed.
  Lemma gaps_length n : List.length (gaps (geometric_edges lo hi n)) = n.
  Proof. unfold gaps. rewrite map_length, seq_length, geometric_length. lia. Qed.
End Geo.
Section LogMain.
  Variables (v : limpl) (d : list (option R)) (o : options) (al : list R) (nbs : list nat) (lo hi : R) (hist : nat -> list R).
  Hypothesis Ea : o_alphas o = Some al.
  Hypothesis En : o_bins o = Some nbs.
  Hypothesis Eneg : o_negative o = false.
  Hypothesis S : spread lo hi (valued d).
  Hypothesis Hlo : 0 < lo.
  Let N := List.length (valued d).
  Hypothesis U : forall n a, In n nbs -> In a al -> (1 <= n)%nat /\ 0 < log_norm v N n a /\ (v = LBlas -> 0 <= a).
  Hypothesis H : forall n, In n nbs -> edge_histogram_of (geometric_edges lo hi n) (valued d) (hist n).
  Let combos := combinations2 al nbs.
  Definition log_value (c : R * nat) : R := hogg_widths (hist (snd c)) (gaps (geometric_edges lo hi (snd c))) (log_norm v N (snd c) (fst c)) (fst c).
  Definition log_fval (c : R * nat) : xr :=
    jacky_var (hist (snd c)) (gaps (geometric_edges lo hi (snd c))) (fst c) (log_norm v N (snd c) (fst c)).

  Lemma counts_edges_geometric n : (1 <= n)%nat -> exists c, log_counts_and_edges (valued d) n 0 = Ok (c, geometric_edges lo hi n) /\
    edge_histogram_of (geometric_edges lo hi n) (valued d) c /\ increasing (geometric_edges lo hi n) /\ sumR c = INR N.
  Proof.
    intros Hn. destruct (log_counts_spec lo hi (valued d) n S Hlo Hn) as (c & e & E & A & B & L & C & D).
    assert (Ee : e = geometric_edges lo hi n).
    { apply (nth_ext _ _ 0 0); [rewrite L, geometric_length; reflexivity|]. intros i Hi. rewrite C, geometric_nth by lia. reflexivity. }
    subst e. exists c. auto.
  Qed.
  Lemma log_counts_hist n : In n nbs -> (1 <= n)%nat -> log_counts_and_edges (valued d) n 0 = Ok (hist n, geometric_edges lo hi n) /\
    increasing (geometric_edges lo hi n) /\ sumR (hist n) = INR N /\ List.length (hist n) = n.
  Proof.
    intros Hn L. destruct (counts_edges_geometric n L) as (c & E & A & B & C).
    rewrite (edge_histogram_of_unique _ _ _ _ (H n Hn) A). split; [exact E|]. split; [exact B|]. split; [exact C|].
    destruct A as [A _]. rewrite geometric_length in A. lia.
  Qed.
  Lemma gaps_pos n w : (1 <= n)%nat -> In w (gaps (geometric_edges lo hi n)) -> 0 < w.
  Proof. intros Hn Hw. rewrite <- gaps_widths in Hw. destruct (counts_edges_geometric n Hn) as (c & _ & _ & B & _). apply (widths_pos _ _ B Hw). Qed.
  Lemma hist_pos n x : In n nbs -> In x (hist n) -> 0 <= x.
  Proof. intros Hn Hx. destruct (edge_histogram_nat _ _ _ _ (H n Hn) Hx) as [k ->]. apply pos_INR. Qed.
  Lemma score_log_value c : In c combos -> score_log v (valued d) c = Ok (log_fval c, geometric_edges lo hi (snd c)).
  Proof.
    intros Hc. apply list_prod_in in Hc. destruct Hc as [Ha Hn]. destruct (U _ _ Hn Ha) as (L & P & B). unfold score_log.
    destruct (log_counts_hist _ Hn L) as (E & _ & Hs & Hl). rewrite E. cbn [bind fst snd]. fold N.
    rewrite (conversion_log_norm v _ N (snd c) (fst c) Hs Hl (fun x => hist_pos _ x Hn) B).
    rewrite gaps_widths. reflexivity.
  Qed.
  Lemma log_fval_cases c : In c combos -> (def hist c /\ log_fval c = Fin (log_value c)) \/ (~ def hist c /\ bad (log_fval c)).
  Proof.
    intros Hc. pose proof (list_prod_in _ _ _ Hc) as [Ha Hn]. destruct (U _ _ Hn Ha) as (L & P & B).
    destruct (log_counts_hist _ Hn L) as (_ & _ & _ & Hl).
    destruct (jacky_var_cases (hist (snd c)) (gaps (geometric_edges lo hi (snd c))) (fst c) (log_norm v N (snd c) (fst c)) P (fun w => gaps_pos _ w L) (fun x => hist_pos _ x Hn)) as [G|Bd].
    - rewrite gaps_length. exact Hl.
    - left. split; [exact G|]. unfold log_fval. rewrite jacky_var_good; [reflexivity|exact P|intros w; apply gaps_pos, L|exact G].
    - right. split; [|exact Bd]. intros G. unfold log_fval in Bd. rewrite jacky_var_good in Bd; [destruct Bd; discriminate|exact P|intros w; apply gaps_pos, L|exact G].
  Qed.
  Lemma log_best_l c : first_best (def hist) log_value combos c ->
    likelihood_log v (Some d) o =
      (r <- convert_log v o (hist (snd c)) (geometric_edges lo hi (snd c)) N (List.length d) ;
       Ok (Some (Output r (geometric_edges lo hi (snd c)) (gaps (geometric_edges lo hi (snd c))) (binning_parameters o c)))).
  Proof.
    intros B. unfold likelihood_log. rewrite (prologue_main d o _ lo hi al nbs Ea En S). rewrite Eneg.
    destruct (pick_spec (score_log v (valued d)) log_fval (fun c => geometric_edges lo hi (snd c)) (def hist) log_value combos score_log_value log_fval_cases None) as (r & E & P).
    fold combos. rewrite E. cbn [bind]. rewrite (picked_best _ _ _ _ _ _ _ P B). cbn [snd].
    assert (Hc : In c combos) by (destruct B as (k & Hk & _); apply nth_error_In in Hk; exact Hk).
    pose proof (list_prod_in _ _ _ Hc) as [Ha Hn]. destruct (U _ _ Hn Ha) as (L & _). destruct (log_counts_hist _ Hn L) as (E' & _). rewrite E'. cbn [bind fst snd].
    rewrite <- gaps_widths. reflexivity.
  Qed.
  Lemma log_none_l : (forall c, In c combos -> ~ def hist c) -> likelihood_log v (Some d) o = Exc ValueError.
  Proof.
    intros G. unfold likelihood_log. rewrite (prologue_main d o _ lo hi al nbs Ea En S). rewrite Eneg.
    destruct (pick_spec (score_log v (valued d)) log_fval (fun c => geometric_edges lo hi (snd c)) (def hist) log_value combos score_log_value log_fval_cases None) as (r & E & P).
    fold combos. rewrite E. cbn [bind]. destruct P as [[_ ->]|(c & B & _)]; [|exfalso; destruct B as (k & Hk & Oc & _); apply nth_error_In in Hk; exact (G c Hk Oc)].
    cbn [snd]. rewrite (log_counts_zero lo hi _ S Hlo). reflexivity.
  Qed.
End LogMain.

(** what the conversions return for a histogram over n >= 1 increasing edges *)
Lemma convert_log_value v o c e N Nall : (0 < N)%nat -> increasing e -> S (List.length c) = List.length e ->
  v <> LBlas \/ o_dens o = false \/ o_prob o = true -> v <> LNumexpr \/ Nall = N ->
  convert_log v o c e N Nall = Ok (map Fin (represented_edges (o_prob o) (o_dens o) c N (gaps e))).
Proof.
  intros HN He HL Hb Hne. assert (0 < INR N) by (apply lt_0_INR, HN). unfold convert_log, represented_edges. rewrite <- gaps_widths.
  assert (Hw : forall w, In w (widths e) -> w <> 0) by (intros w Hw; pose proof (widths_pos _ _ He Hw); lra).
  pose proof (widths_length e) as WL.
  assert (EN : match v with LNumexpr => Nall | _ => N end = N) by (destruct v; auto; destruct Hne; congruence).
  destruct (o_prob o).
  - rewrite EN. unfold to_probability. rewrite map_map. f_equal. apply map_ext. intros x. apply xdiv_fin. lra.
  - destruct (o_dens o); [|reflexivity].
    assert (D : np_div c (map (fun w => INR N * w) (widths e)) = Ok (map Fin (map (fun p => fst p / (INR N * snd p)) (combine c (widths e))))).
    { unfold np_div. rewrite map_length. replace (Nat.eqb _ _) with true by (symmetry; apply Nat.eqb_eq; lia). f_equal.
      rewrite <- (combine_xdiv c (widths e) (INR N)) by (try lra; assumption).
      clear. revert c. induction (widths e) as [|w ws IH]; intros [|x c]; cbn; try reflexivity. f_equal. apply IH. }
    destruct v; [exact D| |cbn in EN; rewrite EN; exact D|].
    + destruct Hb as [Hb|[Hb|Hb]]; [congruence|discriminate|discriminate].
    + unfold cython_log_density. destruct (Nat.ltb_spec (List.length (widths e)) (List.length c)); [lia|]. f_equal. apply combine_xdiv; [lra|exact Hw].
Qed.
Lemma dot_represented c N ws : (0 < N)%nat -> List.length c = List.length ws -> (forall w, In w ws -> 0 < w) -> sumR c = INR N ->
  dot (represented_edges false true c N ws) ws = 1.
Proof.
  intros HN L Hw Hs. assert (0 < INR N) by (apply lt_0_INR, HN). cbn [represented_edges]. rewrite dot_density; [rewrite Hs; field; lra|exact L|intros w Hw'; specialize (Hw w Hw'); lra|lra].
Qed.
