(** * Proofs about the public jackknife functions with bins of equal width. *)
From Coq Require Import Reals List ZArith Bool Lia Lra.
From Verif Require Import Base Py Hist_Model Hist_Spec Hist_Proofs Hist_Search.
Import ListNotations.
Local Open Scope R_scope.
Local Open Scope res_scope.

Lemma counted_fun {A} (P : A -> Prop) l n m : counted P l n -> counted P l m -> n = m.
Proof.
  intros H. revert m. induction H; intros m G; inversion G; subst; try contradiction; try reflexivity; [f_equal|]; apply IHcounted; assumption.
Qed.
Lemma histogram_of_unique lo hi n data c c' : histogram_of lo hi n data c -> histogram_of lo hi n data c' -> c = c'.
Proof.
  intros [L1 H1] [L2 H2]. apply nth_ext with 0 0; [congruence|]. intros i Hi. rewrite L1 in Hi.
  destruct (H1 i Hi) as (k & K & ->). destruct (H2 i Hi) as (k' & K' & ->). f_equal. apply (counted_fun _ _ _ _ K K').
Qed.
Lemma histogram_of_np lo hi data n c : spread lo hi data -> (1 <= n)%nat -> histogram_of lo hi n data c ->
  np_histogram data n = Ok (c, linspace lo hi n).
Proof.
  intros S Hn H. destruct (np_histogram_spread lo hi data n S Hn) as (c' & E & H'). rewrite E.
  rewrite (histogram_of_unique _ _ _ _ _ _ H H'). reflexivity.
Qed.
Lemma histogram_of_nat lo hi n data c x : histogram_of lo hi n data c -> In x c -> x = 0 \/ 1 <= x.
Proof.
  intros [L H] Hx. apply (In_nth _ _ 0) in Hx. destruct Hx as (i & Hi & <-). rewrite L in Hi. destruct (H i Hi) as (k & _ & ->).
  destruct k; [left; reflexivity|right]. rewrite S_INR. pose proof (pos_INR k). lra.
Qed.
Lemma histogram_of_pos lo hi n data c x : histogram_of lo hi n data c -> In x c -> 0 <= x.
Proof. intros H Hx. destruct (histogram_of_nat _ _ _ _ _ _ H Hx); lra. Qed.
Lemma histogram_of_sum lo hi data n c : spread lo hi data -> (1 <= n)%nat -> histogram_of lo hi n data c -> sumR c = INR (List.length data).
Proof.
  intros S Hn H. destruct (histogram_counts_agree Cython lo hi data n false None S Hn (or_introl eq_refl)) as (c' & E & E').
  rewrite (histogram_of_np lo hi data n c S Hn H) in E'. injection E' as ->. apply (histogram_counts_sum _ _ _ _ _ _ _ _ _ E).
Qed.
Lemma spread_two lo hi data : spread lo hi data -> (2 <= List.length data)%nat.
Proof.
  intros ([A _] & [B _] & L). destruct data as [|x [|y t]]; [contradiction| |cbn; lia]. destruct A as [->|[]]. destruct B as [->|[]]. lra.
Qed.
Lemma valued_nil : forall d, forallb (fun x : option R => match x with None => true | _ => false end) d = true -> valued d = [].
Proof. induction d as [|[x|] d IH]; cbn; intros H; [reflexivity|discriminate|apply IH, H]. Qed.
Lemma valued_length : forall d, (List.length (valued d) <= List.length d)%nat.
Proof. induction d as [|[x|] d IH]; [cbn; lia| |]; change (valued (_ :: d)) with (valued d) || change (valued (Some x :: d)) with (x :: valued d); cbn [List.length]; lia. Qed.
Lemma prologue_main d o k lo hi al nbs : o_alphas o = Some al -> o_bins o = Some nbs -> spread lo hi (valued d) ->
  prologue (Some d) o k = k (valued d) al nbs.
Proof.
  intros Ea En S. unfold prologue. rewrite Ea, En. pose proof (spread_two _ _ _ S) as L. pose proof (valued_length d) as L2.
  destruct d as [|x [|y t]]; cbn [List.length] in L2; [lia|lia|]. destruct (forallb _ (x :: y :: t)) eqn:E; [|reflexivity].
  rewrite (valued_nil _ E) in L. cbn in L. lia.
Qed.
Lemma list_prod_in {A B} (l : list A) (l' : list B) c : In c (list_prod l l') -> In (fst c) l /\ In (snd c) l'.
Proof. destruct c. intros H. apply in_prod_iff in H. exact H. Qed.

Definition usable (N : nat) (al : list R) (nbs : list nat) : Prop :=
  forall n a, In n nbs -> In a al -> (1 <= n)%nat /\ 0 < INR N + INR n * a - 1.
Definition def (hist : nat -> list R) (c : R * nat) : Prop := hogg_defined (hist (snd c)) (fst c).
Definition value (hist : nat -> list R) (lo hi : R) (N : nat) (c : R * nat) : R :=
  hogg (hist (snd c)) N (fst c) ((hi - lo) / INR (snd c)).

Section Main.
  Variables (d : list (option R)) (o : options) (al : list R) (nbs : list nat) (lo hi : R) (hist : nat -> list R).
  Hypothesis Ea : o_alphas o = Some al.
  Hypothesis En : o_bins o = Some nbs.
  Hypothesis Ev : o_verbose o = false.
  Hypothesis S : spread lo hi (valued d).
  Let N := List.length (valued d).
  Hypothesis U : usable N al nbs.
  Hypothesis H : forall n, In n nbs -> histogram_of lo hi n (valued d) (hist n).
  Let width (n : nat) := (hi - lo) / INR n.
  Let combos := combinations2 al nbs.
  Definition fval (c : R * nat) : xr := jacky (hist (snd c)) (width (snd c)) (fst c) (conversion_numpy N (snd c) (fst c)).
  Lemma width_pos n : (1 <= n)%nat -> 0 < width n.
  Proof. intros Hn. unfold width. pose proof S as (_ & _ & L). apply w_pos; assumption. Qed.
  Lemma score_numpy_value c : In c combos -> score_numpy (valued d) c = Ok (fval c, width (snd c)).
  Proof.
    intros Hc. apply list_prod_in in Hc. destruct Hc as [Ha Hn]. destruct (U _ _ Hn Ha) as [L _]. unfold score_numpy.
    rewrite (histogram_of_np lo hi _ _ _ S L (H _ Hn)). cbn [bind fst].
    destruct (spread_eqs _ _ _ S) as (_ & _ & E). unfold compute_bin_width. rewrite E. reflexivity.
  Qed.
  Lemma den_pos c : In c combos -> 0 < conversion_numpy N (snd c) (fst c) * width (snd c).
  Proof.
    intros Hc. apply list_prod_in in Hc. destruct Hc as [Ha Hn]. destruct (U _ _ Hn Ha) as [L P]. apply Rmult_lt_0_compat; [unfold conversion_numpy; lra|apply width_pos, L].
  Qed.
  Lemma fval_cases c : In c combos -> (def hist c /\ fval c = Fin (value hist lo hi N c)) \/ (~ def hist c /\ bad (fval c)).
  Proof.
    intros Hc. pose proof (den_pos c Hc) as D. pose proof (list_prod_in _ _ _ Hc) as [Ha Hn].
    destruct (jacky_cases (hist (snd c)) (width (snd c)) (fst c) (conversion_numpy N (snd c) (fst c)) D) as [G|B].
    - intros n Hx. apply (histogram_of_pos _ _ _ _ _ _ (H _ Hn) Hx).
    - left. split; [exact G|]. unfold fval. rewrite jacky_good by assumption. apply (f_equal Fin). unfold value, hogg. f_equal. apply map_ext.
      intros n. destruct (H _ Hn) as [L _]. rewrite L. unfold conversion_numpy. fold N. do 4 f_equal. lra.
    - right. split; [|exact B]. intros G. unfold fval in B. rewrite jacky_good in B by assumption. destruct B; discriminate.
  Qed.
  Lemma fval_nan c : In c combos -> 0 < fst c -> ~ def hist c -> fval c = NaN.
  Proof.
    intros Hc P G. pose proof (den_pos c Hc) as D. pose proof (list_prod_in _ _ _ Hc) as [Ha Hn]. apply jacky_nan; try assumption.
    intros n Hx. apply (histogram_of_nat _ _ _ _ _ _ (H _ Hn) Hx).
  Qed.
  Definition final (c : R * nat) (w : R) : output :=
    Output (convert o (hist (snd c)) N w) (linspace lo hi (snd c)) [w] (binning_parameters o c).
  Lemma convert_represented c n w : (1 <= n)%nat -> w <> 0 -> convert o c N w = map Fin (represented (o_prob o) (o_dens o) c N w).
  Proof.
    intros Hn Hw. unfold convert, represented. assert (0 < INR N) by (apply lt_0_INR; pose proof (spread_two _ _ _ S); unfold N; lia).
    destruct (o_prob o); [|destruct (o_dens o); [|reflexivity]].
    - unfold to_probability. rewrite map_map. apply map_ext. intros x. unfold xdiv. destruct (Req_EM_T (INR N) 0); [lra|reflexivity].
    - unfold to_density. rewrite map_map. apply map_ext. intros x. unfold xdiv. destruct (Req_EM_T (INR N * w) 0) as [E|E]; [|reflexivity].
      apply Rmult_integral in E. destruct E; [lra|contradiction].
  Qed.

  Lemma iterator_best_l c w0 ws : o_custom o = w0 :: ws -> first_best (def hist) (value hist lo hi N) combos c ->
    likelihood_iterator (Some d) o = Ok (Some (final c (width (snd c)))).
  Proof.
    intros Ew B. unfold likelihood_iterator. rewrite (prologue_main d o _ lo hi al nbs Ea En S). rewrite Ew. cbn [py_get Z.ltb Z.compare nth_error Z.to_nat bind].
    destruct (pick_spec (score_numpy (valued d)) fval (fun c => width (snd c)) (def hist) (value hist lo hi N) combos score_numpy_value fval_cases (Some ((1, 1%nat), w0))) as (r & E & P).
    fold combos. rewrite E. cbn [bind]. rewrite (picked_best _ _ _ _ _ _ _ P B). cbn [snd]. unfold print_maximal. rewrite Ev. cbn [bind].
    assert (Hc : In c combos) by (destruct B as (k & Hk & _); apply nth_error_In in Hk; exact Hk).
    pose proof (list_prod_in _ _ _ Hc) as [Ha Hn]. destruct (U _ _ Hn Ha) as [L _].
    rewrite (histogram_of_np lo hi _ _ _ S L (H _ Hn)). reflexivity.
  Qed.
  Lemma iterator_none_l w0 ws : o_custom o = w0 :: ws -> (forall c, In c combos -> ~ def hist c) ->
    likelihood_iterator (Some d) o = Ok (Some (Output (convert o [INR N] N w0) (linspace lo hi 1) [w0] (binning_parameters o (1, 1%nat)))).
  Proof.
    intros Ew G. unfold likelihood_iterator. rewrite (prologue_main d o _ lo hi al nbs Ea En S). rewrite Ew. cbn [py_get Z.ltb Z.compare nth_error Z.to_nat bind].
    destruct (pick_spec (score_numpy (valued d)) fval (fun c => width (snd c)) (def hist) (value hist lo hi N) combos score_numpy_value fval_cases (Some ((1, 1%nat), w0))) as (r & E & P).
    fold combos. rewrite E. cbn [bind]. destruct P as [[_ ->]|(c & B & _)]; [|exfalso; destruct B as (k & Hk & Oc & _); apply nth_error_In in Hk; exact (G c Hk Oc)].
    cbn [snd]. unfold print_maximal. rewrite Ev. cbn [bind].
    destruct (histogram_counts_agree Cython lo hi (valued d) 1 false None S (le_n 1) (or_introl eq_refl)) as (c & Ec & Enp).
    rewrite Enp. unfold histogram_counts in Ec. cbn in Ec. injection Ec as <-. reflexivity.
  Qed.
  Lemma mapM_scores : mapM (score_numpy (valued d)) combos = Ok (map (fun c => (fval c, width (snd c))) combos).
  Proof. rewrite (mapM_ext _ (fun c => Ok (fval c, width (snd c)))) by (intros c Hc; apply score_numpy_value, Hc). apply mapM_map. Qed.
  Lemma table_best_l c : first_best (def hist) (value hist lo hi N) combos c ->
    likelihood_numpy (Some d) o = Ok (Some (final c (width (snd c)))).
  Proof.
    intros B. unfold likelihood_numpy. rewrite (prologue_main d o _ lo hi al nbs Ea En S). fold combos. rewrite mapM_scores. cbn [bind]. rewrite map_map. cbn [fst]. change (map (fun x => fval x) combos) with (map fval combos).
    destruct (nanargmax_best fval (def hist) (value hist lo hi N) combos c fval_cases B) as (k & E & Hk). rewrite E. cbn [bind].
    assert (Hc : In c combos) by (apply nth_error_In in Hk; exact Hk).
    pose proof (list_prod_in _ _ _ Hc) as [Ha Hn]. destruct (U _ _ Hn Ha) as [L _].
    unfold py_get. destruct (Z.ltb_spec (Z.of_nat k) 0); [lia|]. destruct (Z.ltb_spec (Z.of_nat k) 0); [lia|]. rewrite Nat2Z.id, Hk, nth_error_map, Hk. cbn [option_map bind snd].
    unfold print_maximal. rewrite Ev. cbn [bind]. rewrite (histogram_of_np lo hi _ _ _ S L (H _ Hn)). reflexivity.
  Qed.
  Lemma table_none_l : (forall a, In a al -> 0 < a) -> (forall c, In c combos -> ~ def hist c) -> likelihood_numpy (Some d) o = Exc ValueError.
  Proof.
    intros P G. unfold likelihood_numpy. rewrite (prologue_main d o _ lo hi al nbs Ea En S). fold combos. rewrite mapM_scores. cbn [bind]. rewrite map_map. cbn [fst]. change (map (fun x => fval x) combos) with (map fval combos).
    unfold nanargmax. replace (forallb is_nan (map fval combos)) with true; [reflexivity|]. symmetry. apply forallb_forall. intros x Hx.
    apply in_map_iff in Hx. destruct Hx as (c & <- & Hc). rewrite fval_nan; [reflexivity|exact Hc| |apply G, Hc]. apply P, (list_prod_in _ _ _ Hc).
  Qed.
End Main.

(** ** the other implementations, phase zero *)
Lemma list_prod_one {A B} (l : list A) (b : B) : list_prod l [b] = map (fun c => (c, b)) l.
Proof. induction l as [|a l IH]; cbn; [reflexivity|]. rewrite IH. reflexivity. Qed.
Lemma pick_map {C C' I} (score : C -> res (xr * I)) (score' : C' -> res (xr * I)) (h : C -> C') l c0 w0 :
  (forall c, In c l -> score' (h c) = score c) ->
  pick score' (map h l) (Some (h c0, w0)) =
    (r <- pick score l (Some (c0, w0)) ; Ok (fst r, option_map (fun ci => (h (fst ci), snd ci)) (snd r))).
Proof.
  intros Hs. unfold pick.
  set (F := fun r : xr * option (C * I) => (fst r, option_map (fun ci => (h (fst ci), snd ci)) (snd r))).
  assert (G : forall l (acc : res (xr * option (C * I))), (forall c, In c l -> score' (h c) = score c) ->
    fold_left (fun acc c => st <- acc ; s <- score' c ; Ok (if xgt (fst s) (fst st) then (fst s, Some (c, snd s)) else st)) (map h l) (r <- acc ; Ok (F r))
    = (r <- fold_left (fun acc c => st <- acc ; s <- score c ; Ok (if xgt (fst s) (fst st) then (fst s, Some (c, snd s)) else st)) l acc ; Ok (F r))).
  { clear. induction l as [|c l IH]; intros acc Hs; cbn [map fold_left]; [reflexivity|].
    rewrite <- IH by (intros; apply Hs; right; assumption). f_equal. rewrite (Hs c (or_introl eq_refl)).
    destruct acc as [st| |]; cbn [bind]; try reflexivity. destruct (score c) as [[x i]| |]; cbn [bind fst snd]; try reflexivity.
    unfold F. cbn [fst snd]. destruct (xgt x (fst st)); reflexivity. }
  apply (G l (Ok (NInf, Some (c0, w0))) Hs).
Qed.
Lemma sum_plus_alpha : forall c a, sumR (map (fun x => x + a) c) = sumR c + INR (List.length c) * a.
Proof. induction c as [|x c IH]; intros a; cbn [map sumR fold_right List.length]; [cbn; lra|]. fold (sumR c). fold (sumR (map (fun x => x + a) c)). rewrite IH, S_INR. lra. Qed.
Lemma conversion_agree v c N n a : v <> Cython -> sumR c = INR N -> List.length c = n -> (v = Blas -> 0 <= a) -> (forall x, In x c -> 0 <= x) ->
  conversion v c a = conversion_numpy N n a.
Proof.
  intros Hv Hs Hl Ha Hx. unfold conversion_numpy. destruct v; cbn [conversion]; [|unfold conversion_numexpr; rewrite sum_plus_alpha, Hs, Hl; lra|congruence].
  unfold conversion_blas. rewrite (map_ext_in _ (fun x => x + a)). { rewrite sum_plus_alpha, Hs, Hl. lra. }
  intros x Hin. specialize (Hx x Hin). specialize (Ha eq_refl). apply Rabs_right. lra.
Qed.
Lemma score_impl_agree v d lo hi ck c : v <> Cython -> spread lo hi d -> (1 <= snd c)%nat -> (v = Blas -> 0 <= fst c) ->
  score_impl v d ck (c, 0) = score_numpy d c.
Proof.
  intros Hv S Hn Ha. destruct c as [a n]. cbn [fst snd] in *. unfold score_impl, score_numpy. cbn [fst snd].
  destruct (histogram_counts_agree v lo hi d n ck None S Hn (or_introl eq_refl)) as (c & E & Enp). rewrite E, Enp. cbn [bind fst].
  destruct (np_histogram_spread lo hi d n S Hn) as (c' & E' & Hc). rewrite Enp in E'. injection E' as <-.
  rewrite (conversion_agree v c (List.length d) n a); [reflexivity|exact Hv|apply (histogram_of_sum lo hi d n c S Hn Hc)|apply Hc|exact Ha|].
  intros x Hx. apply (histogram_of_pos _ _ _ _ _ _ Hc Hx).
Qed.
Lemma impl_agree v d o al nbs lo hi w0 ws : v <> Cython -> o_alphas o = Some al -> o_bins o = Some nbs -> o_phases o = [0] -> o_custom o = w0 :: ws ->
  spread lo hi (valued d) -> (forall n, In n nbs -> (1 <= n)%nat) -> (v = Blas -> forall a, In a al -> 0 <= a) ->
  v = Numexpr \/ (exists c x, pick (score_numpy (valued d)) (combinations2 al nbs) (Some ((1, 1%nat), w0)) = Ok (Fin x, Some c)) ->
  likelihood_impl v (Some d) o = likelihood_iterator (Some d) o.
Proof.
  intros Hv Ea En Ep Ew S Hn Ha HB. unfold likelihood_impl, likelihood_iterator. rewrite !(prologue_main d o _ lo hi al nbs Ea En S). rewrite Ep, Ew.
  cbn [py_get Z.ltb Z.compare nth_error Z.to_nat bind]. unfold combinations3. rewrite list_prod_one.
  fold (combinations2 al nbs). set (combos := combinations2 al nbs) in *.
  assert (Hs : forall c, In c combos -> score_impl v (valued d) (o_checks o) (c, 0) = score_numpy (valued d) c).
  { intros c Hc. apply list_prod_in in Hc. destruct Hc as [A B]. apply (score_impl_agree v _ lo hi); [exact Hv|exact S|apply Hn, B|intros E; apply (Ha E), A]. }
  assert (Efin : forall c w, (1 <= snd c)%nat -> In c combos \/ (c, w) = ((1, 1%nat), w0) -> w = compute_bin_width (ptp (valued d)) (snd c) \/ snd c = 1%nat ->
     (h <- histogram_counts v (valued d) w 0 (snd c) 0 (o_checks o) None ;
        Ok (Some (Output (convert o h (List.length (valued d)) w) (bin_edges (valued d) (snd c)) [w] (binning_parameters o (fst c, snd c)))))
     = (h <- np_histogram (valued d) (snd c) ; Ok (Some (Output (convert o (fst h) (List.length (valued d)) w) (snd h) [w] (binning_parameters o c))))).
  { intros c w Hc _ Hw. destruct (histogram_counts_agree v lo hi (valued d) (snd c) (o_checks o) None S Hc (or_introl eq_refl)) as (k & E & Enp).
    rewrite Enp. destruct (spread_eqs _ _ _ S) as (E1 & E2 & _).
    assert (E' : histogram_counts v (valued d) w 0 (snd c) 0 (o_checks o) None = Ok k).
    { destruct Hw as [->|Hw]; [exact E|]. unfold histogram_counts in *. rewrite Hw in *. exact E. }
    rewrite E'. cbn [bind fst snd]. unfold bin_edges. rewrite E1, E2. destruct c; reflexivity. }
  (* shape of the pick *)
  assert (P : forall r, pick (score_numpy (valued d)) combos (Some ((1, 1%nat), w0)) = Ok r ->
     (snd r = Some ((1, 1%nat), w0) \/ exists c, In c combos /\ snd r = Some (c, compute_bin_width (ptp (valued d)) (snd c)))).
  { unfold pick. clear HB Hs. assert (G : forall l (acc : res (xr * option (R * nat * R))), (forall c, In c l -> In c combos) ->
       (forall r, acc = Ok r -> (snd r = Some ((1, 1%nat), w0) \/ exists c, In c combos /\ snd r = Some (c, compute_bin_width (ptp (valued d)) (snd c)))) ->
       forall r, fold_left (fun acc c => st <- acc ; s <- score_numpy (valued d) c ; Ok (if xgt (fst s) (fst st) then (fst s, Some (c, snd s)) else st)) l acc = Ok r ->
       (snd r = Some ((1, 1%nat), w0) \/ exists c, In c combos /\ snd r = Some (c, compute_bin_width (ptp (valued d)) (snd c)))).
    { induction l as [|c l IH]; intros acc Hl Hacc r E; cbn [fold_left] in E; [apply Hacc, E|].
      refine (IH _ _ _ r E); [intros; apply Hl; right; assumption|]. intros r' E'. destruct acc as [st| |]; cbn [bind] in E'; try discriminate.
      destruct (score_numpy (valued d) c) as [[x i]| |] eqn:Es; cbn [bind fst snd] in E'; try discriminate.
      destruct (xgt x (fst st)); injection E' as <-; [|apply Hacc; reflexivity]. right. exists c. split; [apply Hl; left; reflexivity|].
      cbn [snd]. unfold score_numpy in Es. destruct (np_histogram (valued d) (snd c)); cbn [bind] in Es; try discriminate. injection Es as _ <-. reflexivity. }
    apply G; [auto|]. intros r E. injection E as <-. left. reflexivity. }
  assert (Hin1 : forall c, In c combos -> (1 <= snd c)%nat) by (intros c Hc; apply Hn, (list_prod_in _ _ _ Hc)).
  destruct HB as [->|(c & x & E)].
  - cbn [default_bins]. change (1, 1%nat, 0) with ((fun c : R * nat => (c, 0)) (1, 1%nat)). rewrite (pick_map (score_numpy (valued d))) by exact Hs.
    destruct (pick (score_numpy (valued d)) combos (Some ((1, 1%nat), w0))) as [[x ci]| |] eqn:E; cbn [bind fst snd]; try reflexivity.
    destruct (P _ eq_refl) as [Q|(c & Hc & Q)]; cbn [snd] in Q; rewrite Q; cbn [option_map fst snd].
    + destruct (print_maximal o); cbn [bind]; try reflexivity. apply (Efin (1, 1%nat) w0); [cbn; lia|right; reflexivity|right; reflexivity].
    + destruct c as [a n]. cbn [fst snd] in *. destruct (print_maximal o); cbn [bind]; try reflexivity. apply (Efin (a, n)); [apply (Hin1 _ Hc)|left; exact Hc|left; reflexivity].
  - assert (E2 : exists ci, pick (score_impl v (valued d) (o_checks o)) (map (fun c => (c, 0)) combos) (Some (1, default_bins v, 0, w0)) = Ok (Fin x, ci) /\ ci = Some ((fst c, 0), snd c)).
    { assert (G : forall i0 j0 l r, (forall c, In c l -> In c combos) ->
        fold_left (fun acc c => st <- acc ; s <- score_numpy (valued d) c ; Ok (if xgt (fst s) (fst st) then (fst s, Some (c, snd s)) else st)) l (Ok (NInf, i0)) = Ok r ->
        exists r', fold_left (fun acc c => st <- acc ; s <- score_impl v (valued d) (o_checks o) c ; Ok (if xgt (fst s) (fst st) then (fst s, Some (c, snd s)) else st)) (map (fun c => (c, 0)) l) (Ok (NInf, j0)) = Ok r'
          /\ fst r' = fst r /\ (fst r = NInf \/ (exists ci, snd r = Some ci /\ snd r' = Some ((fst ci, 0), snd ci)))).
      { clear - Hs. intros i0 j0. induction l as [|c l IH] using rev_ind; intros r Hl E.
        - cbn in *. injection E as <-. exists (NInf, j0). cbn. auto.
        - rewrite map_app, fold_left_app in *. cbn [fold_left map] in *.
          destruct (fold_left _ l (Ok (NInf, i0))) as [r0| |] eqn:E0; cbn [bind] in E; try discriminate.
          destruct (IH r0) as (r' & E' & A & B); [intros; apply Hl, in_or_app; left; assumption|reflexivity|].
          rewrite E'. cbn [bind]. rewrite Hs by (apply Hl, in_or_app; right; left; reflexivity).
          destruct (score_numpy (valued d) c) as [[y i]| |]; cbn [bind fst snd] in *; try discriminate. rewrite A.
          destruct (xgt y (fst r0)); injection E as <-.
          + eexists. split; [reflexivity|]. cbn. split; [reflexivity|]. right. exists (c, i). auto.
          + eexists. split; [reflexivity|]. split; [exact A|exact B]. }
      destruct (G _ (Some (1, default_bins v, 0, w0)) combos _ (fun c H => H) E) as ([x' ci] & E' & A & B). cbn [fst snd] in *.
      exists ci. subst x'. split; [exact E'|]. destruct B as [B|(ci' & B1 & B2)]; [discriminate|]. injection B1 as <-. exact B2. }
    destruct E2 as (ci & E2 & ->). rewrite E2, E. cbn [bind snd].
    destruct (P _ E) as [Q|(c' & Hc & Q)]; cbn [snd] in Q; injection Q as ->; cbn [fst snd].
    + destruct (print_maximal o); cbn [bind]; try reflexivity. apply (Efin (1, 1%nat) w0); [cbn; lia|right; reflexivity|right; reflexivity].
    + destruct c' as [a n]. cbn [fst snd] in *. destruct (print_maximal o); cbn [bind]; try reflexivity. apply (Efin (a, n)); [apply (Hin1 _ Hc)|left; exact Hc|left; reflexivity].
Qed.
