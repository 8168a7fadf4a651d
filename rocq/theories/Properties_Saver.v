(** * Theorems on stored results: C60 (history of a results file), C61 (what a results file holds),
    C98 (where it is put), C99 (quantum numbers in its name). *)
From Coq Require Import Reals List String Ascii ZArith Bool Lia Lra.
From Verif Require Import Base Py Stab_Model PreCheck_Model Saver_Model Saver_Spec Saver_Proofs Saver_Unpack Saver_Again Saver_Names.
Import ListNotations.
Local Open Scope string_scope.

(** ** C60: the file under write, append and read-write mode *)

(** In write mode nothing of an earlier file survives: the outcome is that of saving to a new file. *)
Theorem C60_write_mode_starts_afresh disk acts last : save Write disk acts last = save Write None acts last.
Proof. reflexivity. Qed.
(** The default mode is write mode. *)
Theorem C60_default_mode : select_file_open_mode false false = Write /\ (forall a, select_file_open_mode true a = RPlus) /\ select_file_open_mode false true = Append.
Proof. repeat split. Qed.

(** In append mode no existing dataset ever changes, whether the save succeeds or fails midway. *)
Theorem C60_append_keeps_old_values f acts last p old f' r :
  obj f p = Some (Dset old) -> save Append (Some f) acts last = (f', r) -> exists g, f' = Some g /\ obj g p = Some (Dset old).
Proof.
  intros B H. unfold save in H. cbn in H. destruct (run_ops Append f acts) as [g r'] eqn:E. inversion H; subst. exists g. split; [reflexivity|].
  clear H. revert f B r' E. induction acts as [|o acts IH]; intros f B r' E; [inversion E; subst; exact B|]. cbn [run_ops] in E.
  assert (K : obj (fst (run_op Append f o)) p = Some (Dset old)).
  { destruct o as [g0 n v|g0 n v]; cbn [run_op].
    - destruct (g0 =? ""); [exact B|]. unfold require_group. destruct (is_dset f _); [exact B|]. destruct (existsb _ _); [exact B|]. apply with_groups_keep, B.
    - cbv zeta. destruct (exists_ f _); [exact B|]. apply create_some', B. }
  destruct (run_op Append f o) as [f1 [u| |e]]; try (inversion E; subst; exact K). apply (IH f1 K r' E).
Qed.
(** In append and read-write mode the datasets that the save does not name stay as they are, and no dataset appears
    anywhere else, whether the save succeeds or fails midway. *)
Theorem C60_other_datasets_untouched m f acts last p f' r :
  m <> Write -> ~ writes acts p -> save m (Some f) acts last = (f', r) ->
  exists g, f' = Some g /\ (forall a, obj f p = Some (Dset a) <-> obj g p = Some (Dset a)).
Proof.
  intros M N H. unfold save in H. assert (O : open_file m (Some f) = Ok f) by (destruct m; [contradiction|reflexivity|reflexivity]). rewrite O in H.
  destruct (run_ops m f acts) as [g r'] eqn:E. inversion H; subst. exists g. split; [reflexivity|].
  pose proof (run_ops_kept m acts f p N) as K. rewrite E in K. cbn [fst] in K. intros a. destruct K as [K|[K K']]; [rewrite K; tauto|]. split; congruence.
Qed.

Section OneDataset.
(** a save that names the dataset [g/n] once, and succeeds *)
Variables (m : mode) (f f' : file) (pre post : list op) (g n : string) (v : arr) (last r : res unit).
Let p := split_path (g ++ "/" ++ n).
Let acts := (pre ++ SetData g n v :: post)%list.
Hypothesis once_pre : ~ writes pre p.
Hypothesis once_post : ~ writes post p.
Hypothesis saved : save m (Some f) acts last = (Some f', Ok tt).

Lemma saved_run : m <> Write -> run_ops m f acts = (f', Ok tt).
Proof.
  intros M. unfold save in saved. assert (O : open_file m (Some f) = Ok f) by (destruct m; [contradiction|reflexivity|reflexivity]). rewrite O in saved.
  destruct (run_ops m f acts) as [g' [u| |e]] eqn:E; inversion saved; subst; destruct u; reflexivity.
Qed.
Lemma saved_at : m <> Write -> (obj f p = None -> ~ makes_group pre p) -> obj f' p = after_op m (obj f p) v.
Proof.
  intros M G. pose proof (saved_run M) as E. pose proof (run_ops_once m f pre g n v post p eq_refl once_pre once_post G) as K.
  fold acts in K. rewrite E in K. apply K. reflexivity.
Qed.
(** A dataset that was absent holds the new value afterwards. *)
Theorem C60_new_dataset_is_stored : m <> Write -> obj f p = None -> ~ makes_group pre p -> reads f' p v.
Proof.
  intros M B G. pose proof (saved_at M (fun _ => G)) as K. rewrite B in K. exists v. split; [exact K|]. split; [|split]; auto.
Qed.
(** Read-write mode replaces an existing dataset if the number type differs, or the shapes agree, or the new array cannot
    be broadcast into the old non-empty one. *)
Theorem C60_readwrite_replaces old : m = RPlus -> obj f p = Some (Dset old) ->
  adt old <> adt v \/ shape old = shape v \/ (size old <> 0%nat /\ ~ broadcasts (shape v) (shape old)) -> reads f' p v.
Proof.
  intros M B H. assert (N : m <> Write) by congruence. pose proof (saved_at N) as K. rewrite B, M in K. cbn in K. specialize (K ltac:(discriminate)).
  exists (merged old v). split; [exact K|]. destruct H as [H|[H|H]].
  - rewrite merged_new by (left; exact H). split; [|split]; auto.
  - destruct (dtype_eqb (adt old) (adt v)) eqn:D.
    + apply merged_same_shape; [exact H|apply dtype_eqb_spec, D].
    + rewrite merged_new by (left; intros X; apply dtype_eqb_spec in X; congruence). split; [|split]; auto.
  - rewrite merged_new by (right; destruct H as [H1 H2]; split; [exact H1|]; destruct (fits _ _) eqn:F; [exfalso; apply H2, fits_broadcasts, F|reflexivity]). split; [|split]; auto.
Qed.
(** Finding: a new array with a single row is silently repeated over all rows of the old dataset. *)
Theorem C60_readwrite_repeats_single_row old k s : m = RPlus -> obj f p = Some (Dset old) -> adt old = adt v ->
  shape old = k :: s -> shape v = 1%nat :: s -> size old <> 0%nat ->
  exists b, obj f' p = Some (Dset b) /\ shape b = k :: s /\ forall i idx, valid (k :: s) (i :: idx) -> at_ b (i :: idx) = at_ v (0%nat :: idx).
Proof.
  intros M B D S1 S2 Z. assert (N : m <> Write) by congruence. pose proof (saved_at N) as K. rewrite B, M in K. cbn in K. specialize (K ltac:(discriminate)).
  exists (merged old v). split; [exact K|]. destruct (merged_repeats old v k s S1 S2 D Z) as (_ & Sh & V). auto.
Qed.
(** Finding: an old dataset without elements stays empty whatever is stored (same number type). *)
Theorem C60_readwrite_keeps_empty_dataset old : m = RPlus -> obj f p = Some (Dset old) -> adt old = adt v -> size old = 0%nat -> obj f' p = Some (Dset old).
Proof.
  intros M B D Z. assert (N : m <> Write) by congruence. pose proof (saved_at N) as K. rewrite B, M in K. cbn in K. specialize (K ltac:(discriminate)).
  rewrite merged_empty in K by assumption. exact K.
Qed.
(** Finding: a group of that name makes the value disappear silently. *)
Theorem C60_group_in_the_way : m <> Write -> obj f p = Some Grp -> obj f' p = Some Grp.
Proof. intros M B. pose proof (saved_at M) as K. rewrite B in K. apply K. discriminate. Qed.
End OneDataset.
(** the save itself then succeeds, and changes nothing *)
Theorem C60_group_swallows_the_value m f g n v : m <> Write -> obj f (split_path (g ++ "/" ++ n)) = Some Grp ->
  save m (Some f) [SetData g n v] (Ok tt) = (Some f, Ok tt).
Proof.
  intros M B. unfold save. assert (O : open_file m (Some f) = Ok f) by (destruct m; [contradiction|reflexivity|reflexivity]). rewrite O.
  assert (R : run_ops m f [SetData g n v] = (f, Ok tt)).
  { cbn [run_ops run_op]. assert (X : exists_ f (split_path (g ++ "/" ++ n)) = true) by (unfold exists_; rewrite B; reflexivity). rewrite X.
    destruct m; [contradiction|reflexivity|]. unfold overwrite_dataset. rewrite B. reflexivity. }
  rewrite R. reflexivity.
Qed.

(** Read-write mode needs an existing file. *)
Theorem C60_readwrite_needs_a_file acts last : save RPlus None acts last = (None, Exc FileNotFoundError).
Proof. reflexivity. Qed.

(** ** whole runs *)
Lemma new_run c t ts m disk : Forall well_shaped (t :: ts) -> open_file m disk = Ok empty_file ->
  exists f, store_results 3 m disk (results_of c (t :: ts)) = (Some f, Ok tt) /\
    run_ops m empty_file (ops_of c (t :: ts) (units (t_freqs t))) = (f, Ok tt).
Proof.
  intros W O. rewrite (store_ok c t ts m disk W). unfold save. rewrite O.
  destruct (run_ops_clear m (ops_of c (t :: ts) (units (t_freqs t))) empty_file [] [[]] only_empty (ops_clear c _ _)) as (f & R & _).
  rewrite R. exists f. auto.
Qed.
Lemma table_op c ts u name x : In (name, x) (("mode_statistics/wu", Scalars I64 (fun t => Num (trunc (mean3 (t_orders t))))) :: results_table c) ->
  exists g n, In (SetData g n (col x ts)) (ops_of c ts u) /\ g ++ "/" ++ n = name.
Proof.
  intros I. pose proof (table_listed c ts) as T. rewrite Forall_forall in T. destruct (T _ I) as (g & n & k & J & E & C). cbn [fst snd] in *.
  exists g, n. split; [|exact E]. unfold ops_of. apply in_map_iff. exists (AData g n k). split; [|exact J]. cbn. unfold array_of. rewrite C. reflexivity.
Qed.
Lemma new_run_reads c ts u m f name x : run_ops m empty_file (ops_of c ts u) = (f, Ok tt) ->
  In (name, x) (("mode_statistics/wu", Scalars I64 (fun t => Num (trunc (mean3 (t_orders t))))) :: results_table c) ->
  obj f (split_path name) = Some (Dset (col x ts)).
Proof.
  intros R I. destruct (run_ops_clear m (ops_of c ts u) empty_file [] [[]] only_empty (ops_clear c _ _)) as (f1 & R1 & D & _).
  rewrite R in R1. inversion R1; subst f1. destruct (table_op c ts u name x I) as (g & n & J & E). rewrite <- E. apply D, J.
Qed.
Lemma same_refl a : same_array a a.
Proof. split; [|split]; auto. Qed.
Lemma new_run_attr c ts u m f q k v : run_ops m empty_file (ops_of c ts u) = (f, Ok tt) -> last_attr (ops_of c ts u) q k = Some v -> attr f q k = Some v.
Proof.
  intros R L. destruct (run_ops_clear m (ops_of c ts u) empty_file [] [[]] only_empty (ops_clear c _ _)) as (f1 & R1 & _ & T & _).
  rewrite R in R1. inversion R1; subst f1. apply T, last_attr_split, L.
Qed.
Lemma units_attr c ts u : last_attr (ops_of c ts u) ["mode_frequency_info"] "frequency_units" = Some (AStr u).
Proof. unfold ops_of, save_acts. generalize (array_of c ts). intros A. cbn [r_poly results_of]. destruct (c_poly c); reflexivity. Qed.
Lemma ready_again c ts u m1 f1 ts2 u2 : run_ops m1 empty_file (ops_of c ts u) = (f1, Ok tt) -> ready f1 (ops_of c ts2 u2).
Proof.
  intros R. pose proof (ready_after_new m1 _ empty_file [] [[]] only_empty (ops_clear c ts u)) as H. rewrite R in H. cbn [fst] in H.
  intros o I. unfold ops_of in I. apply in_map_iff in I. destruct I as (a & E & I).
  assert (J : exists o', In o' (ops_of c ts u) /\ dpath o' = dpath o /\ groups o' = groups o).
  { exists (op_of (array_of c ts) u a). split.
    - unfold ops_of. apply in_map. unfold save_acts in *. cbn [r_poly r_method r_use_cheby r_order_mul r_blow_up r_blow_fac r_l r_m results_of mode_k] in *. exact I.
    - subst o. destruct a; split; reflexivity. }
  destruct J as (o' & I' & D & G). destruct (H o' I') as [HD HG]. rewrite D in HD. rewrite G in HG. auto.
Qed.
Lemma units_group c ts u m f : run_ops m empty_file (ops_of c ts u) = (f, Ok tt) -> obj f ["mode_frequency_info"] = Some Grp.
Proof.
  intros R. pose proof (run_ops_groups m _ empty_file [] [[]] only_empty (ops_clear c ts u) (SetAttr "mode_frequency_info" "frequency_units" (AStr u)) ["mode_frequency_info"]) as H.
  rewrite R in H. apply H; [|left; reflexivity]. unfold ops_of. apply in_map_iff. exists (AUnits "mode_frequency_info"). split; [reflexivity|].
  unfold save_acts. apply in_or_app. right. apply in_or_app. right. apply in_or_app. right. apply in_or_app. left. left. reflexivity.
Qed.

(** Two runs with the same kind of model into one file, the second in append mode: every dataset keeps the first run's
    values. Finding: the unit label is the second run's. *)
Theorem C60_second_run_append c t1 ts1 t2 ts2 disk :
  Forall well_shaped (t1 :: ts1) -> Forall well_shaped (t2 :: ts2) ->
  exists f1 f2, store_results 3 Write disk (results_of c (t1 :: ts1)) = (Some f1, Ok tt) /\
    store_results 3 Append (Some f1) (results_of c (t2 :: ts2)) = (Some f2, Ok tt) /\
    (forall name x, In (name, x) (results_table c) -> reads f2 (split_path name) (col x (t1 :: ts1))) /\
    attr f2 ["mode_frequency_info"] "frequency_units" = Some (AStr (units (t_freqs t2))).
Proof.
  intros W1 W2. destruct (new_run c t1 ts1 Write disk W1 eq_refl) as (f1 & S1 & R1).
  pose proof (ready_again c _ _ Write f1 (t2 :: ts2) (units (t_freqs t2)) R1) as Rd.
  destruct (run_ops_ready Append _ f1 Rd) as (f2 & R2). exists f1, f2. split; [exact S1|]. split; [|split].
  - rewrite (store_ok c t2 ts2 _ _ W2). unfold save. cbn [open_file]. rewrite R2. reflexivity.
  - intros name x I. pose proof (new_run_reads c _ _ Write f1 name x R1 (or_intror I)) as B.
    destruct (table_op c (t2 :: ts2) (units (t_freqs t2)) name x (or_intror I)) as (g & n & J & E).
    destruct (run_again Append f1 _ g n _ (split_path name) _ Rd (ops_clear c _ _) J ltac:(rewrite E; reflexivity) B) as (f3 & R3 & B3).
    rewrite R2 in R3. inversion R3; subst f3. exists (col x (t1 :: ts1)). split; [exact B3|apply same_refl].
  - rewrite (run_ops_attr Append _ f1 f2 _ _ R2 (units_group c _ _ _ _ R1)), units_attr. reflexivity.
Qed.
(** The second run in read-write mode: every dataset holds the second run's values, unless the second run has a single
    triad and the first one another number of triads. *)
Theorem C60_second_run_readwrite c t1 ts1 t2 ts2 disk :
  Forall well_shaped (t1 :: ts1) -> Forall well_shaped (t2 :: ts2) ->
  List.length ts1 = List.length ts2 \/ ts2 <> [] ->
  exists f1 f2, store_results 3 Write disk (results_of c (t1 :: ts1)) = (Some f1, Ok tt) /\
    store_results 3 RPlus (Some f1) (results_of c (t2 :: ts2)) = (Some f2, Ok tt) /\
    (forall name x, In (name, x) (results_table c) -> reads f2 (split_path name) (col x (t2 :: ts2))) /\
    attr f2 ["mode_frequency_info"] "frequency_units" = Some (AStr (units (t_freqs t2))).
Proof.
  intros W1 W2 L. destruct (new_run c t1 ts1 Write disk W1 eq_refl) as (f1 & S1 & R1).
  pose proof (ready_again c _ _ Write f1 (t2 :: ts2) (units (t_freqs t2)) R1) as Rd.
  destruct (run_ops_ready RPlus _ f1 Rd) as (f2 & R2). exists f1, f2. split; [exact S1|]. split; [|split].
  - rewrite (store_ok c t2 ts2 _ _ W2). unfold save. cbn [open_file]. rewrite R2. reflexivity.
  - intros name x I. pose proof (new_run_reads c _ _ Write f1 name x R1 (or_intror I)) as B.
    destruct (table_op c (t2 :: ts2) (units (t_freqs t2)) name x (or_intror I)) as (g & n & J & E).
    destruct (run_again RPlus f1 _ g n _ (split_path name) _ Rd (ops_clear c _ _) J ltac:(rewrite E; reflexivity) B) as (f3 & R3 & B3).
    rewrite R2 in R3. inversion R3; subst f3. eexists. split; [exact B3|].
    assert (W : width x <> 0%nat).
    { assert (T : Forall (fun e => width (snd e) <> 0%nat) (results_table c)) by (unfold results_table; destruct (c_poly c); repeat constructor; discriminate).
      rewrite Forall_forall in T. apply (T _ I). }
    destruct (Nat.eq_dec (List.length ts1) (List.length ts2)) as [Q|Q]; [apply col_merged; cbn; congruence|].
    rewrite col_merged_other; [apply same_refl|discriminate|exact W|cbn; congruence|]. destruct L as [L|L]; [contradiction|]. destruct ts2; [contradiction|discriminate].
  - rewrite (run_ops_attr RPlus _ f1 f2 _ _ R2 (units_group c _ _ _ _ R1)), units_attr. reflexivity.
Qed.
(** Finding: with a single new triad, each dataset claims the first run's number of triads, all equal to the new one. *)
Theorem C60_second_run_single_triad c t1 ts1 t2 disk :
  Forall well_shaped (t1 :: ts1) -> well_shaped t2 ->
  exists f1 f2, store_results 3 Write disk (results_of c (t1 :: ts1)) = (Some f1, Ok tt) /\
    store_results 3 RPlus (Some f1) (results_of c [t2]) = (Some f2, Ok tt) /\
    (forall name x, In (name, x) (results_table c) -> reads f2 (split_path name) (col x (repeat t2 (S (List.length ts1))))).
Proof.
  intros W1 W2. destruct (new_run c t1 ts1 Write disk W1 eq_refl) as (f1 & S1 & R1).
  assert (W2' : Forall well_shaped [t2]) by (constructor; [exact W2|constructor]).
  pose proof (ready_again c _ _ Write f1 [t2] (units (t_freqs t2)) R1) as Rd.
  destruct (run_ops_ready RPlus _ f1 Rd) as (f2 & R2). exists f1, f2. split; [exact S1|]. split.
  - rewrite (store_ok c t2 [] _ _ W2'). unfold save. cbn [open_file]. rewrite R2. reflexivity.
  - intros name x I. pose proof (new_run_reads c _ _ Write f1 name x R1 (or_intror I)) as B.
    destruct (table_op c [t2] (units (t_freqs t2)) name x (or_intror I)) as (g & n & J & E).
    destruct (run_again RPlus f1 _ g n _ (split_path name) _ Rd (ops_clear c _ _) J ltac:(rewrite E; reflexivity) B) as (f3 & R3 & B3).
    rewrite R2 in R3. inversion R3; subst f3. eexists. split; [exact B3|].
    assert (W : width x <> 0%nat).
    { assert (T : Forall (fun e => width (snd e) <> 0%nat) (results_table c)) by (unfold results_table; destruct (c_poly c); repeat constructor; discriminate).
      rewrite Forall_forall in T. apply (T _ I). }
    apply (col_merged_one x (t1 :: ts1) t2); [discriminate|exact W].
Qed.
(** Finding: a run without triads destroys an earlier results file before it fails. *)
Theorem C60_empty_run_destroys_file c f : exists f',
  store_results 3 Write (Some f) (results_of c []) = (Some f', Exc IndexError) /\
  forall p a, obj f' p = Some (Dset a) -> size a = 0%nat.
Proof.
  assert (U : exists os, store_results 3 Write (Some f) (results_of c []) = save Write (Some f) os (Exc IndexError) /\ clear_way [] [[]] os = true /\
     Forall (fun o => match o with SetData _ _ a => size a = 0%nat | _ => True end) os).
  { unfold store_results, unpack, unpack_checks, unpack_stationary, unpack_freqs, unpack_units, n_combos, save_acts. cbn [r_poly r_stat results_of].
    destruct (c_poly c); cbn [negb]; (eexists; split; [reflexivity|split; [reflexivity|repeat constructor]]). }
  destruct U as (os & S & C & Z). destruct (run_ops_clear Write os empty_file [] [[]] only_empty C) as (f' & R & _). exists f'.
  rewrite S. unfold save. cbn [open_file]. rewrite R. split; [reflexivity|]. intros p a B.
  destruct (run_ops_source Write os ltac:(discriminate) empty_file p a) as [D|(g & n & I & _)]; [rewrite R; exact B|cbn in D; destruct p; discriminate|].
  rewrite Forall_forall in Z. apply (Z _ I).
Qed.

(** ** C61: what a results file holds *)
(** Every dataset of the table reads back, triad by triad, as what was computed (polytropes and MESA+GYRE models);
    quantum numbers, integration settings and the first triad's units are stored as attributes. *)
Theorem C61_results_read_back c t ts disk : Forall well_shaped (t :: ts) ->
  exists f, store_results 3 Write disk (results_of c (t :: ts)) = (Some f, Ok tt) /\
    (forall name x, In (name, x) (results_table c) -> reads f (split_path name) (col x (t :: ts))) /\
    attr f ["quantum_numbers"] "l" = Some (AInts (c_l c)) /\ attr f ["quantum_numbers"] "m" = Some (AInts (c_m c)) /\
    attr f ["quantum_numbers"] "k" = Some (AInts (map (fun lm => (fst lm - Z.abs (snd lm))%Z) (combine (c_l c) (c_m c)))) /\
    attr f [] "num_int_method" = Some (AStr (c_method c)) /\ attr f [] "use_cheby" = Some (ABool (c_use_cheby c)) /\
    attr f [] "cheby_order_mul" = Some (AInts [c_order_mul c]) /\ attr f [] "cheby_blow_up" = Some (ABool (c_blow_up c)) /\
    attr f [] "cheby_blow_up_fac" = Some (ANum (c_blow_fac c)) /\
    attr f ["mode_frequency_info"] "frequency_units" = Some (AStr (units (t_freqs t))).
Proof.
  intros W. destruct (new_run c t ts Write disk W eq_refl) as (f & S & R). exists f. split; [exact S|]. split.
  - intros name x I. exists (col x (t :: ts)). split; [apply (new_run_reads c _ _ Write f name x R (or_intror I))|apply same_refl].
  - assert (L : forall q k v, last_attr (ops_of c (t :: ts) (units (t_freqs t))) q k = Some v -> attr f q k = Some v) by (intros; eapply new_run_attr; eauto).
    repeat split; apply L; unfold ops_of, save_acts; generalize (array_of c (t :: ts)); intros A; cbn [r_poly results_of]; destruct (c_poly c); reflexivity.
Qed.
(** the i-th slot belongs to the i-th triad alone *)
Theorem C61_slot_of_triad x ts i t : nth_error ts i = Some t ->
  match x with
  | Scalars _ g => at_ (col x ts) [i] = g t
  | Rows _ w g => List.length (g t) = w -> forall j, (j < w)%nat -> at_ (col x ts) [i; j] = nth j (g t) Undef
  end.
Proof.
  intros N. destruct x as [dt g|dt w g]; cbn.
  - apply (map_nth_error g) in N. apply (nth_error_nth _ _ Undef) in N. exact N.
  - intros _ j _. apply (map_nth_error g) in N. apply (nth_error_nth _ _ []) in N. rewrite N. reflexivity.
Qed.
Lemma trunc_mean s : trunc (IZR s / 3) = IZR (Z.quot s 3).
Proof.
  assert (P : forall z, (0 <= z)%Z -> Int_part (IZR z / 3) = (z / 3)%Z).
  { intros z H. unfold Int_part. assert (U : up (IZR z / 3) = (z / 3 + 1)%Z); [|rewrite U; lia]. symmetry. apply tech_up.
    - pose proof (Z.mod_pos_bound z 3 ltac:(lia)) as B. pose proof (Z.div_mod z 3 ltac:(lia)) as E.
      apply Rmult_lt_reg_r with 3%R; [lra|]. unfold Rdiv. rewrite Rmult_assoc, Rinv_l, Rmult_1_r by lra. rewrite <- mult_IZR. apply IZR_lt. lia.
    - pose proof (Z.mod_pos_bound z 3 ltac:(lia)) as B. pose proof (Z.div_mod z 3 ltac:(lia)) as E.
      apply Rmult_le_reg_r with 3%R; [lra|]. rewrite Rmult_plus_distr_r. unfold Rdiv. rewrite Rmult_assoc, Rinv_l, Rmult_1_r by lra. rewrite <- (mult_IZR 1 3), <- plus_IZR, <- mult_IZR. apply IZR_le. lia. }
  unfold trunc. destruct (Rle_dec 0 (IZR s / 3)) as [H|H].
  - assert (S : (0 <= s)%Z) by (apply le_IZR; lra). rewrite P by exact S. rewrite Z.quot_div_nonneg by lia. reflexivity.
  - assert (S : (s < 0)%Z) by (apply lt_IZR; lra). replace (- (IZR s / 3))%R with (IZR (- s) / 3)%R by (rewrite opp_IZR; lra).
    rewrite P by lia. rewrite <- opp_IZR. f_equal. replace s with (- - s)%Z at 2 by lia. rewrite Z.quot_opp_l by lia. rewrite Z.quot_div_nonneg by lia. reflexivity.
Qed.
(** Finding: the dataset named after Wu's rule holds the mean radial order, truncated toward zero, of each triad. *)
Theorem C61_wu_dataset_holds_mean_order c t ts disk : Forall well_shaped (t :: ts) ->
  exists f, store_results 3 Write disk (results_of c (t :: ts)) = (Some f, Ok tt) /\
    reads f ["mode_statistics"; "wu"] (col (Scalars I64 (fun t => Num (IZR (Z.quot (sum_orders t) 3)))) (t :: ts)).
Proof.
  intros W. destruct (new_run c t ts Write disk W eq_refl) as (f & S & R). exists f. split; [exact S|].
  eexists. split; [apply (new_run_reads c _ _ Write f "mode_statistics/wu" _ R (or_introl eq_refl))|].
  split; [reflexivity|]. split; [reflexivity|]. intros idx _. cbn [at_ col]. destruct idx as [|i [|]]; try reflexivity. f_equal. apply map_ext. intros u.
  unfold mean3, sum_orders. destruct (t_orders u) as [[a b] d]. rewrite trunc_mean. reflexivity.
Qed.
(** it is Wu's difference only by coincidence *)
Theorem C61_wu_dataset_wrong c t ts disk i u : Forall well_shaped (t :: ts) -> nth_error (t :: ts) i = Some u ->
  Z.quot (sum_orders u) 3 <> wu_difference u ->
  exists f b, store_results 3 Write disk (results_of c (t :: ts)) = (Some f, Ok tt) /\
    obj f ["mode_statistics"; "wu"] = Some (Dset b) /\ at_ b [i] <> Num (IZR (wu_difference u)).
Proof.
  intros W N D. destruct (C61_wu_dataset_holds_mean_order c t ts disk W) as (f & S & b & B & (_ & Sh & V)). exists f, b. split; [exact S|]. split; [exact B|].
  rewrite V.
  - pose proof (C61_slot_of_triad (Scalars I64 (fun t => Num (IZR (Z.quot (sum_orders t) 3)))) (t :: ts) i u N) as K. cbn beta iota in K. rewrite K.
    intros E. inversion E as [E']. apply eq_IZR in E'. contradiction.
  - rewrite Sh. constructor; [|constructor]. cbn [col shape]. apply nth_error_Some. congruence.
Qed.
(** Finding: the datasets labelled with magnitude bars hold signed values. *)
Theorem C61_magnitudes_are_signed c t ts disk i u k : Forall well_shaped (t :: ts) -> nth_error (t :: ts) i = Some u -> t_coupled u = Some k ->
  exists f b, store_results 3 Write disk (results_of c (t :: ts)) = (Some f, Ok tt) /\
    obj f ["coupling"; "generic"; "|kappa|"] = Some (Dset b) /\ at_ b [i] = Num (cc k) /\
    (at_ b [i] = Num (Rabs (cc k)) <-> (0 <= cc k)%R).
Proof.
  intros W N D. destruct (new_run c t ts Write disk W eq_refl) as (f & S & R).
  assert (I : In ("coupling/generic/|kappa|", Scalars F64 (couple_or_zero cc)) (results_table c)) by (unfold results_table; do 11 right; left; reflexivity).
  pose proof (new_run_reads c _ _ Write f _ _ R (or_intror I)) as B. exists f, (col (Scalars F64 (couple_or_zero cc)) (t :: ts)). split; [exact S|]. split; [exact B|].
  pose proof (C61_slot_of_triad (Scalars F64 (couple_or_zero cc)) (t :: ts) i u N) as K. cbn beta iota in K. rewrite K. unfold couple_or_zero. rewrite D.
  split; [reflexivity|]. split.
  - intros E. inversion E as [E']. pose proof (Rabs_pos (cc k)). lra.
  - intros E. rewrite Rabs_right by lra. reflexivity.
Qed.
(** the example run meets the hypotheses *)
Theorem C61_hypotheses_met : Forall well_shaped [ex_triad1; ex_triad2] /\ Z.quot (sum_orders ex_triad1) 3 <> wu_difference ex_triad1.
Proof. split; [|vm_compute; discriminate]. repeat constructor. Qed.

(** ** C98: where the file is put *)
Lemma last_slash_hdf5 : last_is_slash "my_hdf5" = false. Proof. reflexivity. Qed.
(** The accepted formats are exactly three, in any letter case; others end the program. *)
Theorem C98_formats base fmt :
  (lower fmt = "hdf5" -> obtain_save_directory fmt base = Ok (base ++ "/hdf5_output/", "h5")) /\
  (lower fmt = "csv" -> obtain_save_directory fmt base = Ok (base ++ "/csv_output/", "csv")) /\
  (lower fmt = "ascii" -> obtain_save_directory fmt base = Ok (base ++ "/ascii_output/", "asc")) /\
  (~ In (lower fmt) ["hdf5"; "csv"; "ascii"] -> obtain_save_directory fmt base = Exc SystemExit).
Proof.
  unfold obtain_save_directory. cbv zeta. repeat split; try (intros ->; reflexivity).
  intros N. assert (K : forall x, In x ["hdf5"; "csv"; "ascii"] -> ("my_" ++ lower fmt =? "my_" ++ x) = false).
  { intros x I. destruct (String.eqb_spec ("my_" ++ lower fmt) ("my_" ++ x)) as [E|E]; [|reflexivity]. exfalso. apply N. apply append_inj_l in E. rewrite E. exact I. }
  pose proof (K "ascii" ltac:(right; right; left; reflexivity)) as K1. pose proof (K "hdf5" ltac:(left; reflexivity)) as K2. pose proof (K "csv" ltac:(right; left; reflexivity)) as K3.
  change ("my_" ++ "ascii") with "my_ascii" in K1. change ("my_" ++ "hdf5") with "my_hdf5" in K2. change ("my_" ++ "csv") with "my_csv" in K3. rewrite K1, K2, K3. reflexivity.
Qed.
(** Finding: the sub-directory, the extra specifier and the name are joined without separators, so the file is not inside
    the requested sub-directory: its own name starts with the name of the sub-directory. *)
Theorem C98_not_in_subdirectory base sub extra name fmt : lower fmt = "hdf5" -> no_slash sub -> no_slash extra -> no_slash name ->
  exists s, save_name base sub extra name fmt = Ok s /\ basename s = sub ++ extra ++ name ++ ".h5".
Proof.
  intros F A B C. unfold save_name. rewrite (proj1 (C98_formats base fmt) F). cbn [bind fst snd]. eexists. split; [reflexivity|].
  assert (E : slash_subdir sub = (if sub =? "" then "" else "/" ++ sub)).
  { destruct sub as [|c s]; [reflexivity|]. cbn [slash_subdir String.eqb]. destruct (no_slash_cons _ _ A) as [Ac _].
    assert (L : last_is_slash (String c s) = false).
    { unfold last_is_slash. destruct (String.get _ _) as [d|] eqn:G; [|reflexivity]. destruct (Ascii.eqb_spec d "/") as [->|]; [|reflexivity]. exfalso.
      revert G. generalize (String.length (String c s) - 1)%nat. generalize (String c s) A. clear. intros s A n. revert n. induction s as [|c s IH]; intros n G; [destruct n; discriminate|].
      destruct (no_slash_cons _ _ A) as [Ac As]. destruct n as [|n]; cbn in G; [inversion G; subst; discriminate|apply (IH As n G)]. }
    rewrite L, Ac. reflexivity. }
  rewrite E. clear E. assert (N : no_slash (sub ++ extra ++ name ++ ".h5")) by (repeat apply no_slash_app; try assumption; reflexivity).
  destruct (String.eqb_spec sub "") as [->|_].
  - assert (Q : (base ++ "/hdf5_output/") ++ "" ++ extra ++ name ++ "." ++ "h5" = (base ++ "/hdf5_output") ++ "/" ++ ("" ++ extra ++ name ++ ".h5")) by (rewrite !sapp_assoc; reflexivity).
    rewrite Q. apply basename_app, N.
  - assert (Q : (base ++ "/hdf5_output/") ++ ("/" ++ sub) ++ extra ++ name ++ "." ++ "h5" = (base ++ "/hdf5_output/") ++ "/" ++ (sub ++ extra ++ name ++ ".h5")) by (rewrite !sapp_assoc; reflexivity).
    rewrite Q. apply basename_app, N.
Qed.
(** Hence different requests address the same file. *)
Theorem C98_requests_collide base sub a b c fmt k m : save_file base sub (a ++ b) c fmt k m = save_file base sub a (b ++ c) fmt k m.
Proof. unfold save_file, save_name. destruct (obtain_save_directory fmt base) as [d| |]; cbn [bind]; [|reflexivity|reflexivity]. rewrite !sapp_assoc. reflexivity. Qed.
(** Finding: a trailing slash in the base directory is not recognised (the format name is tested instead). *)
Theorem C98_trailing_slash_doubled base fmt : lower fmt = "hdf5" -> obtain_save_directory fmt (base ++ "/") = Ok (base ++ "//hdf5_output/", "h5").
Proof. intros F. rewrite (proj1 (C98_formats (base ++ "/") fmt) F). rewrite sapp_assoc. reflexivity. Qed.
(** examples: the sub-directory "runs" is not a directory of the path *)
Theorem C98_example : save_name "/out" "runs" "" "star" "HDF5" = Ok "/out/hdf5_output//runsstar.h5" /\ save_name "/out" "runs/" "" "star" "csv" = Ok "/out/csv_output/runsstar.csv".
Proof. split; reflexivity. Qed.

(** ** C99: quantum numbers in the file name *)
(** For names made of letters, digits and underscores the text "_k_.._m_.." is put before the suffix. *)
Theorem C99_suffix_inserted base sub extra name fmt k m : lower fmt = "hdf5" -> word name ->
  forallb is_word (list_ascii_of_string sub) = true -> forallb is_word (list_ascii_of_string extra) = true ->
  save_file base sub extra name fmt k m =
    Ok (base ++ "/hdf5_output/" ++ (if sub =? "" then "" else "/" ++ sub) ++ extra ++ name ++ qnr_string k m ++ ".h5").
Proof.
  intros F [Nn Wn] Ws We. unfold save_file, save_name. rewrite (proj1 (C98_formats base fmt) F). cbn [bind fst snd]. f_equal. unfold adjust_file_path.
  assert (E : slash_subdir sub = (if sub =? "" then "" else "/" ++ sub)).
  { destruct sub as [|c s]; [reflexivity|]. cbn [slash_subdir String.eqb]. assert (A := wordy_no_slash (String c s) Ws). destruct (no_slash_cons _ _ A) as [Ac _].
    assert (L : last_is_slash (String c s) = false).
    { unfold last_is_slash. destruct (String.get _ _) as [d|] eqn:G; [|reflexivity]. destruct (Ascii.eqb_spec d "/") as [->|]; [|reflexivity]. exfalso.
      revert G. generalize (String.length (String c s) - 1)%nat. generalize (String c s) A. clear. intros s A n. revert n. induction s as [|c s IH]; intros n G; [destruct n; discriminate|].
      destruct (no_slash_cons _ _ A) as [Ac As]. destruct n as [|n]; cbn in G; [inversion G; subst; discriminate|apply (IH As n G)]. }
    rewrite L, Ac. reflexivity. }
  rewrite E. clear E.
  assert (Wd : forall s, wordy s -> word (s ++ extra ++ name)).
  { intros s H. split; [|apply wordy_app; [exact H|apply wordy_app; assumption]]. destruct s; [|discriminate]. destruct extra; [exact Nn|discriminate]. }
  destruct (String.eqb_spec sub "") as [->|_].
  - pose proof (insert_last_word (qnr_string k m) (base ++ "/hdf5_output") (extra ++ name) "h5" (Wd "" eq_refl) eq_refl ltac:(discriminate)) as H.
    assert (Q : (base ++ "/hdf5_output/") ++ "" ++ extra ++ name ++ "." ++ "h5" = (base ++ "/hdf5_output") ++ "/" ++ (extra ++ name) ++ "." ++ "h5") by (rewrite !sapp_assoc; reflexivity).
    rewrite Q, H. rewrite !sapp_assoc. reflexivity.
  - pose proof (insert_last_word (qnr_string k m) (base ++ "/hdf5_output/") (sub ++ extra ++ name) "h5" (Wd sub Ws) eq_refl ltac:(discriminate)) as H.
    assert (Q : (base ++ "/hdf5_output/") ++ ("/" ++ sub) ++ extra ++ name ++ "." ++ "h5" = (base ++ "/hdf5_output/") ++ "/" ++ (sub ++ extra ++ name) ++ "." ++ "h5") by (rewrite !sapp_assoc; reflexivity).
    rewrite Q, H. rewrite !sapp_assoc. reflexivity.
Qed.
(** The text determines the quantum numbers, so runs with other quantum numbers never share a file of such a name. *)
Theorem C99_quantum_numbers_distinguish base sub extra name fmt k m k' m' : lower fmt = "hdf5" -> word name ->
  forallb is_word (list_ascii_of_string sub) = true -> forallb is_word (list_ascii_of_string extra) = true ->
  k <> [] -> m <> [] -> k' <> [] -> m' <> [] ->
  save_file base sub extra name fmt k m = save_file base sub extra name fmt k' m' -> k = k' /\ m = m'.
Proof.
  intros F Wn Ws We K M K' M' E. rewrite !C99_suffix_inserted in E by assumption. assert (H := f_equal (fun r => match r with Ok s => s | _ => "" end) E). cbv beta iota in H. clear E.
  apply (append_inj_l base) in H. apply (append_inj_l "/hdf5_output/") in H. apply append_inj_l in H. apply (append_inj_l extra) in H. apply (append_inj_l name) in H.
  apply append_inj_r in H. apply qnr_inj; assumption.
Qed.
(** Finding: a name whose first other character is not a dot (for example a hyphen) is left alone when no directory has a
    dot in it, so runs with different quantum numbers overwrite one another. *)
Theorem C99_hyphenated_names_collide d w c t q : no_dot d -> forallb is_word (list_ascii_of_string w) = true -> is_word c = false -> c <> "."%char ->
  no_slash (w ++ String c t) -> adjust_file_path q (d ++ "/" ++ w ++ String c t) = d ++ "/" ++ w ++ String c t.
Proof. intros D W C N S. unfold adjust_file_path. rewrite insert_last_odd by assumption. reflexivity. Qed.
(** Finding: with a dot in a directory the directory is renamed instead. *)
Theorem C99_directory_renamed : save_file "/data.v1" "" "" "star-1" "hdf5" [0; 0; 0]%Z [2; 1; 1]%Z = Ok "/data_k_0_0_0_m_2_1_1.v1/hdf5_output/star-1.h5".
Proof. reflexivity. Qed.
Theorem C99_example : save_file "/data" "" "" "star_1" "hdf5" [0; 0; 0]%Z [-2; 1; 1]%Z = Ok "/data/hdf5_output/star_1_k_0_0_0_m_-2_1_1.h5" /\
  save_file "/data" "" "" "star-1" "hdf5" [0; 0; 0]%Z [2; 1; 1]%Z = save_file "/data" "" "" "star-1" "hdf5" [1; 0; 1]%Z [2; 2; 2]%Z.
Proof. split; reflexivity. Qed.
