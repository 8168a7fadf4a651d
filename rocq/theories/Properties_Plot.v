(** * Properties C124-C130: data of the overview and resonance-sharpness figures. *)
From Coq Require Import Reals List ZArith Bool Lia Lra Permutation String.
From Verif Require Import Base Py Mask_Model Mask_Spec Mask_Proofs Properties_Mask Ana_Model Ana_Spec Properties_Ana Plot_Model Plot_Spec.
From Verif Require Saver_Model Saver_Spec Saver_Proofs Saver_Unpack Properties_Saver PreCheck_Model Stab_Model.
Import ListNotations.
Local Open Scope R_scope.

(** ** C124: which numbers are plotted *)
Lemma num_inj e (r : R) : e = Saver_Model.Num r -> num_of e = Some r. Proof. intros ->. reflexivity. Qed.
Lemma bool_yes b : bool_of (Saver_Spec.yes b) = b.
Proof. unfold bool_of, Saver_Spec.yes. destruct b; destruct (Req_EM_T _ 0); try reflexivity; lra. Qed.
Lemma int_num z : int_of (Saver_Model.Num (IZR z)) = z.
Proof. cbn. symmetry. unfold Int_part. assert (U : up (IZR z) = (z + 1)%Z); [|rewrite U; lia]. symmetry. apply tech_up; rewrite plus_IZR; lra. Qed.
Lemma h5_read_ok f p a : Saver_Model.obj f (Saver_Model.split_path p) = Some (Saver_Model.Dset a) -> h5_read f p = Ok a.
Proof. unfold h5_read. intros ->. reflexivity. Qed.
(** what a file holds at the plotter's places *)
Definition content_of (k : string) (c : Saver_Model.config) : option Saver_Spec.content :=
  match find (fun kp => (fst kp =? k)%string) array_paths with
  | Some (_, p) => option_map snd (find (fun nx => (fst nx =? p)%string) (Saver_Spec.results_table c))
  | None => None
  end.
Lemma find_in (p : string) (T : list (string * Saver_Spec.content)) x : option_map snd (find (fun nx => (fst nx =? p)%string) T) = Some x -> In (p, x) T.
Proof.
  intros H. destruct (find _ T) as [[n y]|] eqn:F; [|discriminate]. apply find_some in F. destruct F as [I E]. cbn in *. apply String.eqb_eq in E.
  injection H as ->. rewrite <- E. exact I.
Qed.
Lemma nth_three {A} (l : list A) d : List.length l = 3%nat -> [nth 0 l d; nth 1 l d; nth 2 l d] = l.
Proof. destruct l as [|a [|b [|c [|? ?]]]]; try discriminate. reflexivity. Qed.
Lemma trip_nth (l : list R) : List.length l = 3%nat ->
  (num_of (nth 0 (map Saver_Model.Num l) Saver_Model.Undef), num_of (nth 1 (map Saver_Model.Num l) Saver_Model.Undef), num_of (nth 2 (map Saver_Model.Num l) Saver_Model.Undef)) = trip_of l.
Proof. destruct l as [|a [|b [|c [|? ?]]]]; try discriminate. reflexivity. Qed.
(** the arrays read from a fresh results file of a MESA+GYRE run *)
Definition seen_arrays (c : Saver_Model.config) (ts : list Saver_Model.triad) : arrays :=
  flat_map (fun kp => match option_map snd (find (fun nx => (fst nx =? snd kp)%string) (Saver_Spec.results_table c)) with
    Some x => [(fst kp, Saver_Spec.col x ts)] | None => [] end) array_paths.
Lemma load_seen c ts f : Saver_Model.c_poly c = false ->
  (forall name x, In (name, x) (Saver_Spec.results_table c) -> Saver_Model.obj f (Saver_Model.split_path name) = Some (Saver_Model.Dset (Saver_Spec.col x ts))) ->
  load_specific_file_data f = Ok (seen_arrays c ts).
Proof.
  intros P H. unfold load_specific_file_data, seen_arrays.
  assert (G : Forall (fun kp => exists x, option_map snd (find (fun nx => (fst nx =? snd kp)%string) (Saver_Spec.results_table c)) = Some x) array_paths).
  { unfold Saver_Spec.results_table. rewrite P. repeat constructor; eexists; reflexivity. }
  induction array_paths as [|[k p] l IH]; [reflexivity|]. inversion G as [|? ? [x E] G']; subst. cbn [mapM flat_map]. cbn [fst snd] in *. rewrite E.
  rewrite (h5_read_ok f p _ (H p x (find_in p _ x E))). cbn [bind]. rewrite IH by exact G'. reflexivity.
Qed.
Lemma aget_seen c ts k x : content_of k c = Some x -> aget (seen_arrays c ts) k = Saver_Spec.col x ts.
Proof.
  unfold content_of, seen_arrays. induction array_paths as [|[k' p] l IH]; [discriminate|]. cbn [find flat_map fst snd].
  rewrite (String.eqb_sym k' k). destruct (String.eqb_spec k k') as [->|N].
  - intros E. rewrite E. cbn [List.app aget]. rewrite String.eqb_refl. reflexivity.
  - intros E. destruct (option_map snd (find _ (Saver_Spec.results_table c))); cbn [List.app aget]; [|exact (IH E)].
    destruct (String.eqb_spec k k'); [congruence|exact (IH E)].
Qed.
Lemma row_at dt w g ts i t j : nth_error ts i = Some t -> Saver_Model.at_ (Saver_Spec.col (Saver_Spec.Rows dt w g) ts) [i; j] = nth j (g t) Saver_Model.Undef.
Proof. intros N. cbn. apply (map_nth_error g) in N. apply (nth_error_nth _ _ []) in N. rewrite N. reflexivity. Qed.
Lemma scalar_at dt g ts i t : nth_error ts i = Some t -> Saver_Model.at_ (Saver_Spec.col (Saver_Spec.Scalars dt g) ts) [i] = g t.
Proof. intros N. cbn. apply (map_nth_error g) in N. apply (nth_error_nth _ _ Saver_Model.Undef) in N. exact N. Qed.
Lemma table_seen c ts : Saver_Model.c_poly c = false -> Forall Saver_Spec.well_shaped ts -> table_of (seen_arrays c ts) = map computed ts.
Proof.
  intros P W. unfold table_of.
  assert (A : forall k x, content_of k c = Some x -> aget (seen_arrays c ts) k = Saver_Spec.col x ts) by (intros; apply aget_seen; assumption).
  assert (Pc : forall k, content_of k c = content_of k (Saver_Model.mkConfig false (Saver_Model.c_adiabatic c) (Saver_Model.c_l c) (Saver_Model.c_m c) (Saver_Model.c_method c) (Saver_Model.c_use_cheby c) (Saver_Model.c_order_mul c) (Saver_Model.c_blow_up c) (Saver_Model.c_blow_fac c))).
  { intros k. unfold content_of, Saver_Spec.results_table. rewrite P. reflexivity. }
  assert (L : Saver_Model.shape (aget (seen_arrays c ts) "checks") = [List.length ts; 6%nat]).
  { erewrite A by (rewrite Pc; reflexivity). reflexivity. }
  rewrite L. cbn [hd].
  assert (E : forall i t, nth_error ts i = Some t -> entry (seen_arrays c ts) i = computed t).
  { intros i t N. assert (Wt : Saver_Spec.well_shaped t) by (rewrite Forall_forall in W; apply W; eapply nth_error_In; exact N).
    destruct Wt as (F & Fc & Fs). unfold entry. rewrite L. cbn [nth].
    assert (T3 : forall k (g : Saver_Model.triad -> list R), content_of k c = Some (Saver_Spec.Rows Saver_Model.F64 3 (fun t => map Saver_Model.Num (g t))) ->
       List.length (g t) = 3%nat ->
       (num_of (Saver_Model.at_ (aget (seen_arrays c ts) k) [i; 0%nat]), num_of (Saver_Model.at_ (aget (seen_arrays c ts) k) [i; 1%nat]), num_of (Saver_Model.at_ (aget (seen_arrays c ts) k) [i; 2%nat])) = trip_of (g t)).
    { intros k g Hk Hl. rewrite (A k _ Hk), !(row_at _ _ _ ts i t _ N). apply trip_nth. exact Hl. }
    assert (T1 : forall k g, content_of k c = Some (Saver_Spec.Scalars Saver_Model.F64 g) -> num_of (Saver_Model.at_ (aget (seen_arrays c ts) k) [i]) = num_of (g t)).
    { intros k g Hk. rewrite (A k _ Hk), (scalar_at _ _ ts i t N). reflexivity. }
    assert (Th : forall l, In l [Saver_Model.inert_f (Saver_Model.t_freqs t); Saver_Model.corot_w (Saver_Model.t_freqs t); Saver_Model.inert_w (Saver_Model.t_freqs t); Saver_Model.rates (Saver_Model.t_stat t)] -> List.length l = 3%nat).
    { intros l Hl. rewrite Forall_forall in F. apply F. cbn in Hl |- *. intuition. }
    assert (RA : forall k e, (exists dt w g, content_of k c = Some (Saver_Spec.Rows dt w g) /\ g t = e) -> forall j, Saver_Model.at_ (aget (seen_arrays c ts) k) [i; j] = nth j e Saver_Model.Undef).
    { intros k e (dt & w & g & Hk & <-) j. rewrite (A k _ Hk). apply (row_at _ _ _ ts i t _ N). }
    unfold computed. f_equal.
    - refine (T3 "surfs"%string (fun t => match Saver_Model.s_solved (Saver_Model.t_stat t) with Some v => Saver_Model.flucs v | None => [0;0;0] end) _ _); [rewrite Pc; reflexivity|]. destruct (Saver_Model.s_solved (Saver_Model.t_stat t)); [apply Fs|reflexivity].
    - pose proof (RA "checks"%string _ (ex_intro _ _ (ex_intro _ _ (ex_intro _ _ (conj (eq_trans (Pc _) eq_refl) eq_refl))))) as K.
      cbn [seq map]. rewrite !K. cbn [nth]. rewrite !bool_yes. reflexivity.
    - refine (T3 "driv_damp_rates"%string (fun t => Saver_Model.rates (Saver_Model.t_stat t)) _ _); [rewrite Pc; reflexivity|apply Th; cbn; tauto].
    - refine (T3 "theoretical_amps"%string (fun t => match Saver_Model.s_solved (Saver_Model.t_stat t) with Some v => Saver_Model.amps v | None => [0;0;0] end) _ _); [rewrite Pc; reflexivity|]. destruct (Saver_Model.s_solved (Saver_Model.t_stat t)); [apply Fs|reflexivity].
    - erewrite (T1 "thresh_amp"%string) by (rewrite Pc; reflexivity). unfold Saver_Spec.solved_field. destruct (Saver_Model.s_solved (Saver_Model.t_stat t)); reflexivity.
    - pose proof (RA "rad_ord"%string _ (ex_intro _ _ (ex_intro _ _ (ex_intro _ _ (conj (eq_trans (Pc _) eq_refl) eq_refl))))) as K.
      rewrite !K. destruct (Saver_Model.t_orders t) as [[a b] d]. cbn [nth]. rewrite !int_num. reflexivity.
    - refine (T3 "corot_mode_omegas"%string (fun t => Saver_Model.corot_w (Saver_Model.t_freqs t)) _ _); [rewrite Pc; reflexivity|apply Th; cbn; tauto].
    - refine (T3 "inert_mode_omegas"%string (fun t => Saver_Model.inert_w (Saver_Model.t_freqs t)) _ _); [rewrite Pc; reflexivity|apply Th; cbn; tauto].
    - refine (T3 "inert_mode_freqs"%string (fun t => Saver_Model.inert_f (Saver_Model.t_freqs t)) _ _); [rewrite Pc; reflexivity|apply Th; cbn; tauto].
    - erewrite (T1 "kappa"%string) by (rewrite Pc; reflexivity). reflexivity.
    - erewrite (T1 "kappa_norm"%string) by (rewrite Pc; reflexivity). reflexivity. }
  clear A Pc L W. assert (G : forall n, map (entry (seen_arrays c ts)) (seq n (List.length ts - n)) = map computed (skipn n ts)).
  { intros n. remember (List.length ts - n)%nat as m eqn:Em. revert n Em. induction m as [|m IH]; intros n Em.
    - rewrite skipn_all2 by lia. reflexivity.
    - destruct (nth_error ts n) as [t|] eqn:N; [|apply nth_error_None in N; lia]. cbn [seq map]. rewrite (E n t N), IH by lia.
      assert (Sk : skipn n ts = t :: skipn (S n) ts).
      { clear -N. revert ts N. induction n as [|n IH]; intros [|y ts] N; try discriminate; [injection N as ->; reflexivity|]. cbn [skipn]. rewrite (IH ts N). reflexivity. }
      rewrite Sk. reflexivity. }
  specialize (G 0%nat). rewrite Nat.sub_0_r in G. exact G.
Qed.
(** from the results file of a MESA+GYRE run in write mode the plotter (and the analyzer) read, triad by triad, what was
    computed *)
Theorem C124_plotter_reads_what_was_computed : forall c t ts disk, Saver_Model.c_poly c = false ->
  Forall Saver_Spec.well_shaped (t :: ts) ->
  exists f, Saver_Model.store_results 3 Saver_Model.Write disk (Saver_Model.results_of c (t :: ts)) = (Some f, Ok tt) /\
    read_table f = Ok (map computed (t :: ts)).
Proof.
  intros c t ts disk P W. destruct (Properties_Saver.new_run c t ts Saver_Model.Write disk W eq_refl) as (f & Sv & R). exists f. split; [exact Sv|].
  unfold read_table. rewrite (load_seen c (t :: ts) f P); [cbn [bind]; rewrite table_seen by assumption; reflexivity|].
  intros name x I. apply (Properties_Saver.new_run_reads c _ _ Saver_Model.Write f name x R). right. exact I.
Qed.
(** finding: a polytrope run stores no stationary solutions, so its results file cannot be plotted or analysed *)
Theorem C124_polytropes_cannot_be_plotted : forall c t ts disk, Saver_Model.c_poly c = true ->
  Forall Saver_Spec.well_shaped (t :: ts) ->
  exists f, Saver_Model.store_results 3 Saver_Model.Write disk (Saver_Model.results_of c (t :: ts)) = (Some f, Ok tt) /\
    read_table f = Exc KeyError.
Proof.
  intros c t ts disk P W. destruct (Properties_Saver.new_run c t ts Saver_Model.Write disk W eq_refl) as (f & Sv & R). exists f. split; [exact Sv|].
  set (q := ["coupling"; "stationary_three_mode"; "surface_flux_variations"]%string).
  assert (N : Saver_Model.obj f q = None).
  { pose proof (Saver_Proofs.run_ops_same Saver_Model.Write (Saver_Unpack.ops_of c (t :: ts) (Saver_Model.units (Saver_Model.t_freqs t))) Saver_Model.empty_file q) as K.
    rewrite R in K. cbn [fst] in K. rewrite K; [reflexivity| |].
    - intros (o & I & D). revert I D. unfold Saver_Unpack.ops_of, Saver_Model.save_acts. generalize (Saver_Unpack.array_of c (t :: ts)). intros A.
      cbn [Saver_Model.r_poly Saver_Model.results_of]. rewrite P. intros I D. 
      repeat (destruct I as [<-|I]; [try discriminate D|]); try contradiction.
    - intros (o & I & D). revert I D. unfold Saver_Unpack.ops_of, Saver_Model.save_acts. generalize (Saver_Unpack.array_of c (t :: ts)). intros A.
      cbn [Saver_Model.r_poly Saver_Model.results_of]. rewrite P. intros I D.
      repeat (destruct I as [<-|I]; [exfalso; revert D; cbn; intuition discriminate|]); try contradiction. }
  unfold read_table, load_specific_file_data, array_paths. cbn [mapM]. unfold h5_read at 1. cbn [snd].
  change (Saver_Model.split_path "coupling/stationary_three_mode/surface_flux_variations") with q. rewrite N. reflexivity.
Qed.
Theorem C124_hypotheses_met : Forall Saver_Spec.well_shaped [Saver_Spec.ex_triad1; Saver_Spec.ex_triad2] /\ Saver_Model.c_poly Saver_Spec.ex_config = false.
Proof. split; [apply Properties_Saver.C61_hypotheses_met|reflexivity]. Qed.

(** ** C125: which files are pooled *)
(** paths given one by one: all files together form a single model; lists of paths: one model per list *)
Lemma flat_one {P} (l : list P) : flat_map (fun it => match it with OneFile p => [p] | ManyFiles _ => [] end) (map OneFile l) = l.
Proof. induction l as [|p l IH]; [reflexivity|]. cbn. rewrite IH. reflexivity. Qed.
Theorem C125_single_paths_are_one_model : forall (P A : Type) (read : P -> res (list A)) p l (tab : P -> list A),
  (forall q, In q (p :: l) -> read q = Ok (tab q)) ->
  load_tables read (map OneFile (p :: l)) = Ok [flat_map tab (p :: l)].
Proof.
  intros P A read p l tab H. unfold load_tables. set (k := p :: l) in *. assert (E : k <> []) by (subst k; discriminate).
  destruct (map OneFile k) eqn:M; [destruct k; [congruence|discriminate]|]. rewrite <- M. clear M.
  assert (F : forallb is_one (map OneFile k) = true) by (apply forallb_forall; intros x Hx; apply in_map_iff in Hx; destruct Hx as (q & <- & _); reflexivity).
  rewrite F, flat_one. unfold load_flat. rewrite (mapM_ok read tab k H). cbn [bind]. unfold np_concatenate.
  destruct (map tab k) as [|a m] eqn:Mt; [apply map_eq_nil in Mt; congruence|]. rewrite <- Mt. cbn [bind]. rewrite flat_map_concat_map. reflexivity.
Qed.
Theorem C125_lists_of_paths_are_models : forall (P A : Type) (read : P -> res (list A)) l (tab : P -> list A),
  l <> [] -> (forall ps, In ps l -> ps <> []) -> (forall ps q, In ps l -> In q ps -> read q = Ok (tab q)) ->
  load_tables read (map ManyFiles l) = Ok (map (flat_map tab) l).
Proof.
  intros P A read l tab E NE H. unfold load_tables. destruct (map ManyFiles l) eqn:M; [destruct l; [congruence|discriminate]|]. rewrite <- M.
  assert (F : forallb is_one (map ManyFiles l) = false) by (rewrite M; destruct l; [discriminate|]; injection M as <- _; reflexivity).
  assert (F2 : forallb (fun it => negb (is_one it)) (map ManyFiles l) = true) by (apply forallb_forall; intros x Hx; apply in_map_iff in Hx; destruct Hx as (q & <- & _); reflexivity).
  rewrite F, F2. unfold load_nested. clear M F F2 E. induction l as [|ps l IH]; [reflexivity|].
  assert (IH' := IH (fun qs Hq => NE qs (or_intror Hq)) (fun qs q Hq => H qs q (or_intror Hq))). clear IH.
  cbn [map mapM]. rewrite IH'.
  rewrite (mapM_ok read tab ps) by (intros q Hq; apply (H ps); [left; reflexivity|exact Hq]). cbn [bind]. unfold np_concatenate.
  destruct (map tab ps) as [|a m] eqn:Mt; [apply map_eq_nil in Mt; exfalso; apply (NE ps); [left; reflexivity|exact Mt]|].
  rewrite <- Mt, <- flat_map_concat_map. reflexivity.
Qed.
(** the first unreadable file ends the run *)
Theorem C125_missing_file : forall (P A : Type) (read : P -> res (list A)) l1 p l2 (tab : P -> list A) e,
  (forall q, In q l1 -> read q = Ok (tab q)) -> read p = Exc e ->
  load_tables read (map OneFile (l1 ++ p :: l2)) = Exc e.
Proof.
  intros P A read l1 p l2 tab e H Hp. unfold load_tables. destruct (map OneFile (l1 ++ p :: l2)) eqn:M; [destruct l1; discriminate|]. rewrite <- M.
  assert (F : forallb is_one (map OneFile (l1 ++ p :: l2)) = true) by (apply forallb_forall; intros x Hx; apply in_map_iff in Hx; destruct Hx as (q & <- & _); reflexivity).
  rewrite F, flat_one. unfold load_flat. clear M F.
  assert (K : mapM read (l1 ++ p :: l2) = Exc e).
  { induction l1 as [|q l1 IH]; cbn [mapM List.app]; [rewrite Hp; reflexivity|]. rewrite (H q (or_introl eq_refl)). cbn [bind]. rewrite IH; [reflexivity|]. intros; apply H; right; assumption. }
  rewrite K. reflexivity.
Qed.

(** ** C126: categories of the overview figure *)
Lemma nth_holds {A} (f : A -> bool) (l : list A) k x : nth_error l k = Some x -> (holds (map f l) k <-> f x = true).
Proof. intros H. unfold holds. rewrite nth_error_map, H. cbn. split; [intros X; injection X; auto|intros ->; reflexivity]. Qed.
Definition stableb (x : raw) : bool := forallb (fun b => b) (skipn (List.length (r_checks x) - 3) (r_checks x)).
Definition aeb (x : raw) : bool := oleb (oabs (linear_omega_diff_to_min_omega (r_corot x))) (Some (1/10)).
Lemma stableb_spec x : checked x -> (stableb x = true <-> stable x).
Proof.
  unfold checked, stableb, stable. set (l := r_checks x). intros L. split.
  - intros F. exists (firstn (List.length l - 3) l). rewrite <- (firstn_skipn (List.length l - 3) l) at 1. f_equal.
    assert (K : List.length (skipn (List.length l - 3) l) = 3%nat) by (rewrite skipn_length; lia).
    destruct (skipn (List.length l - 3) l) as [|a [|b [|c [|? ?]]]]; try discriminate K. cbn in F. destruct a, b, c; try discriminate. reflexivity.
  - intros (m & ->). rewrite app_length. cbn [List.length]. replace (List.length m + 3 - 3)%nat with (List.length m) by lia.
    rewrite skipn_app, skipn_all, Nat.sub_diag. reflexivity.
Qed.
Lemma smallest_min a b c : smallest (Rmin (Rmin a b) c) a b c.
Proof. unfold smallest, Rmin. repeat destruct (Rle_dec _ _); repeat split; try lra; tauto. Qed.
Lemma smallest_unique m m' a b c : smallest m a b c -> smallest m' a b c -> m = m'.
Proof. intros (E & L0 & L1 & L2) (E' & L0' & L1' & L2'). destruct E as [-> | [-> | ->]], E' as [-> | [-> | ->]]; lra. Qed.
Lemma aeb_spec x : aeb x = true <-> ae_valid x.
Proof.
  unfold aeb, ae_valid. split.
  - intros H. destruct (r_corot x) as [[o0 o1] o2]. destruct o0 as [w0|]; [|cbn in H; discriminate].
    destruct o1 as [w1|]; [|cbn in H; discriminate]. destruct o2 as [w2|]; [|cbn in H; discriminate].
    exists w0, w1, w2, (Rmin (Rmin (Rabs w0) (Rabs w1)) (Rabs w2)). split; [reflexivity|]. split; [apply smallest_min|].
    destruct (Req_EM_T (Rmin (Rmin (Rabs w0) (Rabs w1)) (Rabs w2)) 0) as [Z|NZ].
    + exfalso. cbn in H. destruct (Req_EM_T _ 0); [discriminate|contradiction].
    + assert (P : 0 < Rmin (Rmin (Rabs w0) (Rabs w1)) (Rabs w2)).
      { pose proof (Rabs_pos w0). pose proof (Rabs_pos w1). pose proof (Rabs_pos w2). unfold Rmin in *. repeat destruct (Rle_dec _ _); lra. }
      split; [exact P|]. apply (proj1 (C85_validity_test w0 w1 w2 _ (smallest_min _ _ _) NZ)). exact H.
  - intros (w0 & w1 & w2 & m & -> & Sm & P & L). apply (proj2 (C85_validity_test w0 w1 w2 m Sm ltac:(lra))). exact L.
Qed.
Lemma harmonic_spec x : harmonic x = true <-> is_harmonic x.
Proof. unfold harmonic, is_harmonic. apply Z.eqb_eq. Qed.
Lemma stab_map t : stability_check_mask (map derive t) = map stableb t.
Proof. unfold stability_check_mask. rewrite map_map. reflexivity. Qed.
Lemma ae_map t : ae_validity_check_mask (map derive t) = map aeb t.
Proof. unfold ae_validity_check_mask. rewrite map_map. reflexivity. Qed.
(** the isolation mask as a map over the table *)
Definition isob part (t : list raw) (x : raw) : bool :=
  let d := map derive t in valuedb (derive x) && same_lowest (vrows d) (derive x) && verdict part (vrows d) (parent (derive x)).
Lemma iso_map part t iso : valid_argpartition part -> isolation_mask_lowest_thresh_amp part (map derive t) = Ok iso -> iso = map (isob part t) t.
Proof. intros V H. destruct (isolation_inv _ _ _ V H) as [-> _]. rewrite map_map. reflexivity. Qed.
Definition cat_valid part t x := stableb x && aeb x && isob part t x && negb (harmonic x).
Definition cat_ae part t x := stableb x && aeb x && negb (isob part t x) && negb (harmonic x).
Definition cat_stable (x : raw) := stableb x && negb (aeb x) && negb (harmonic x).
Lemma overview_inv part t s a v : valid_argpartition part -> masks_overview part t = Ok (s, a, v) ->
  isolation_mask_lowest_thresh_amp part (map derive t) = Ok (map (isob part t) t) /\
  s = map cat_stable t /\ a = map (cat_ae part t) t /\ v = map (cat_valid part t) t.
Proof.
  intros V H. unfold masks_overview, hyper_ae_isolation_masks in H.
  destruct (isolation_mask_lowest_thresh_amp part (map derive t)) as [iso| |] eqn:I; try discriminate. pose proof (iso_map part t iso V I) as ->.
  cbn [bind] in H. rewrite stab_map, ae_map in H. unfold bnot in H. repeat (rewrite !map_map in H || rewrite !band_map in H). injection H as <- <- <-.
  split; [reflexivity|]. repeat split; apply map_ext; intros x; unfold cat_stable, cat_ae, cat_valid;
  destruct (stableb x), (aeb x), (isob part t x), (harmonic x); reflexivity.
Qed.
(** three categories: isolated = stable, AE-valid and isolated; AE-valid = stable, AE-valid, not isolated; stable = stable and
    not AE-valid; triads whose daughters coincide are in none *)
Theorem C126_overview_categories : forall part t s a v, valid_argpartition part -> masks_overview part t = Ok (s, a, v) ->
  exists iso, isolation_mask_lowest_thresh_amp part (map derive t) = Ok iso /\
  List.length s = List.length t /\ List.length a = List.length t /\ List.length v = List.length t /\
  forall k x, nth_error t k = Some x -> checked x ->
    (holds v k <-> stable x /\ ae_valid x /\ holds iso k /\ ~ is_harmonic x) /\
    (holds a k <-> stable x /\ ae_valid x /\ ~ holds iso k /\ ~ is_harmonic x) /\
    (holds s k <-> stable x /\ ~ ae_valid x /\ ~ is_harmonic x).
Proof.
  intros part t s a v V H. destruct (overview_inv part t s a v V H) as (I & -> & -> & ->). eexists. split; [exact I|].
  rewrite !map_length. repeat (split; [reflexivity|]). intros k x Hk C. rewrite !(nth_holds _ t k x Hk).
  unfold cat_valid, cat_ae, cat_stable. rewrite !andb_true_iff, !negb_true_iff, <- !not_true_iff_false, (stableb_spec x C), aeb_spec, harmonic_spec. tauto.
Qed.
(** hence every stable triad with distinct daughters is in exactly one category, and no other triad is in any *)
Theorem C126_exactly_one_category : forall part t s a v k x, valid_argpartition part -> masks_overview part t = Ok (s, a, v) ->
  nth_error t k = Some x -> checked x ->
  ~ (holds s k /\ holds a k) /\ ~ (holds s k /\ holds v k) /\ ~ (holds a k /\ holds v k) /\
  (holds s k \/ holds a k \/ holds v k <-> stable x /\ ~ is_harmonic x).
Proof.
  intros part t s a v k x V H Hk C. destruct (overview_inv part t s a v V H) as (I & -> & -> & ->). rewrite !(nth_holds _ t k x Hk), <- (stableb_spec x C), <- harmonic_spec.
  unfold cat_valid, cat_ae, cat_stable. destruct (stableb x), (aeb x), (isob part t x), (harmonic x); cbn; intuition discriminate.
Qed.
(** the masks exist iff no parent with a threshold is alone; otherwise the figure fails with ValueError (finding) *)
Theorem C126_fails_if_a_parent_is_alone : forall part t, valid_argpartition part ->
  let crowd := forall k r c, nth_error (map derive t) k = Some r -> thresh r = Some c ->
     exists l r' c', l <> k /\ nth_error (map derive t) l = Some r' /\ parent r' = parent r /\ thresh r' = Some c' in
  (crowd -> exists m, masks_overview part t = Ok m) /\ (~ crowd -> masks_overview part t = Exc ValueError).
Proof.
  intros part t V crowd. destruct (C57_succeeds_iff_no_parent_is_alone part (map derive t) V) as [A B]. unfold masks_overview, hyper_ae_isolation_masks. split.
  - intros Cr. destruct (A Cr) as (m & ->). cbn [bind]. eexists. reflexivity.
  - intros Cr. rewrite (B Cr). reflexivity.
Qed.

(** ** C127: plotted frequency *)
(** finite data with a non-zero sum of rates: before mirroring, the smallest of the three inertial frequencies (cycles per day)
    after the nonlinear shift *)
Theorem C127_smallest_nonlinear_frequency : forall x w0 w1 w2 f0 f1 f2 g0 g1 g2, g0 + g1 + g2 <> 0 ->
  r_corot x = fin w0 w1 w2 -> r_inert_freq x = fin f0 f1 f2 -> r_rates x = fin g0 g1 g2 ->
  let d := w0 - w1 - w2 in let G := g0 + g1 + g2 in
  exists m, min_inertial_freq x = Some m /\
    smallest m ((f0 - d * (g0 / G) / (2 * PI)) * seconds_per_day) ((f1 + d * (g1 / G) / (2 * PI)) * seconds_per_day) ((f2 + d * (g2 / G) / (2 * PI)) * seconds_per_day).
Proof.
  intros x w0 w1 w2 f0 f1 f2 g0 g1 g2 HG Ec Ef Eg d G. unfold min_inertial_freq. rewrite Ec, Ef, Eg.
  assert (P : 2 * PI <> 0) by (pose proof PI_RGT_0; lra).
  unfold freq_shift_p, freq_shift_d, gamma_boxplus, linear_omega_diff, hz_to_cpd, fin, cst, seconds_per_day. cbn [col fst snd osub oadd oopp option_map].
  rewrite !odiv_fin by exact HG. cbn [omul]. rewrite !odiv_fin by exact P. cbn [oadd omin]. eexists. split; [reflexivity|].
  match goal with |- smallest (Rmin (Rmin ?a ?b) ?c) ?a' ?b' ?c' => replace a' with a by (unfold d, G; field; split; solve [exact HG | pose proof PI_RGT_0; lra]); replace b' with b by (unfold d, G; field; split; solve [exact HG | pose proof PI_RGT_0; lra]); replace c' with c by (unfold d, G; field; split; solve [exact HG | pose proof PI_RGT_0; lra]) end.
  apply smallest_min.
Qed.
(** for inertial frequencies given consistently as f = omega / 2 pi this is the smallest of the nonlinear frequencies reported by the
    analyzer, over 2 pi *)
Theorem C127_agrees_with_the_analyzer : forall x w0 w1 w2 i0 i1 i2 g0 g1 g2 n0 n1 n2, g0 + g1 + g2 <> 0 ->
  r_corot x = fin w0 w1 w2 -> r_inert x = fin i0 i1 i2 -> r_rates x = fin g0 g1 g2 ->
  r_inert_freq x = fin (i0 / (2 * PI)) (i1 / (2 * PI)) (i2 / (2 * PI)) ->
  nonlinear_omegas_cpd (r_corot x) (r_inert x) (r_rates x) = fin n0 n1 n2 ->
  exists m, min_inertial_freq x = Some m /\ smallest m (n0 / (2 * PI)) (n1 / (2 * PI)) (n2 / (2 * PI)).
Proof.
  intros x w0 w1 w2 i0 i1 i2 g0 g1 g2 n0 n1 n2 HG Ec Ei Eg Ef H. rewrite Ec, Ei, Eg, C82_nonlinear_frequencies in H by exact HG.
  unfold fin in H. injection H as H0 H1 H2. destruct (C127_smallest_nonlinear_frequency x _ _ _ _ _ _ _ _ _ HG Ec Ef Eg) as (m & E & Sm). exists m. split; [exact E|].
  assert (P : 2 * PI <> 0) by (pose proof PI_RGT_0; lra).
  rewrite <- H0, <- H1, <- H2. cbv zeta in Sm.
  match type of Sm with smallest _ ?a' ?b' ?c' => match goal with |- smallest _ ?a ?b ?c => replace a with a' by (field; lra); replace b with b' by (field; lra); replace c with c' by (field; lra) end end. exact Sm.
Qed.
(** mirroring, with N the Kepler Nyquist frequency of 283 micro-Hz in cycles per day *)
Lemma nyq_pos : 0 < kepler_notional_nyquist. Proof. unfold kepler_notional_nyquist. apply Rmult_lt_0_compat; [apply Rdiv_lt_0_compat; [lra|apply pow_lt; lra]|lra]. Qed.
Lemma dltb_t a b : a < b -> dltb a b = true. Proof. intros; apply dltb_spec; assumption. Qed.
Lemma dltb_f a b : b <= a -> dltb a b = false. Proof. intros; apply not_true_iff_false; rewrite dltb_spec; lra. Qed.
Lemma dleb_t a b : a <= b -> dleb a b = true. Proof. intros; apply dleb_spec; assumption. Qed.
Lemma dleb_f a b : b < a -> dleb a b = false. Proof. intros; apply not_true_iff_false; rewrite dleb_spec; lra. Qed.
Ltac bands := repeat first [rewrite dltb_t by lra | rewrite dltb_f by lra | rewrite dleb_t by lra | rewrite dleb_f by lra]; cbn [andb].
Theorem C127_mirroring : forall x, let N := kepler_notional_nyquist in
  (0 <= x -> mirror x = x) /\
  (- N < x < 0 -> mirror x = - x) /\
  (- 2 * N < x <= - N -> mirror x = 2 * N + x) /\
  (- 3 * N < x <= - 2 * N -> mirror x = - x - 3 * N) /\
  (- 4 * N < x <= - 3 * N -> mirror x = 4 * N + x) /\
  (x <= - 4 * N -> mirror x = x).
Proof.
  intros x N. pose proof nyq_pos as P. fold N in P. unfold mirror. fold N. cbv zeta.
  repeat split; intros H; [rewrite (Rabs_right x) by lra|rewrite (Rabs_left x) by lra..]; try rewrite (dltb_f x 0) by lra; bands; rewrite ?andb_false_r; lra.
Qed.
(** with one, two and four mirror operations the plotted value is the alias between zero and the Nyquist frequency *)
Theorem C127_mirrored_values_are_aliases : forall x, let N := kepler_notional_nyquist in
  (- 2 * N < x < 0 \/ - 4 * N < x <= - 3 * N) -> alias N x (mirror x) /\ 0 < mirror x <= N.
Proof.
  intros x N H. pose proof nyq_pos as P. fold N in P. destruct (C127_mirroring x) as (_ & A & B & _ & D & _). fold N in A, B, D.
  destruct H as [H|H]; [destruct (Rlt_le_dec (- N) x) as [L|L]|].
  - rewrite A by lra. split; [exists 0%Z; right; lra|lra].
  - rewrite B by lra. split; [exists 1%Z; left; lra|lra].
  - rewrite D by lra. split; [exists 2%Z; left; lra|lra].
Qed.
(** finding: the third mirror operation has the wrong offset: the plotted value is negative, and not an alias except at one point *)
Theorem C127_third_mirror_operation_is_wrong : forall x, let N := kepler_notional_nyquist in
  - 3 * N < x <= - 2 * N -> mirror x < 0 /\ (alias N x (mirror x) <-> x = - (5 / 2) * N) /\ alias N x (- x - 2 * N) /\ 0 <= - x - 2 * N < N.
Proof.
  intros x N H. pose proof nyq_pos as P. fold N in P. destruct (C127_mirroring x) as (_ & _ & _ & Cc & _). fold N in Cc. rewrite Cc by exact H.
  split; [lra|]. split; [|split; [exists (-1)%Z; right; lra|lra]]. split.
  - intros (k & [E|E]).
    + assert (E2 : 2 * x = - (3 + 2 * IZR k) * N) by lra.
      assert (K : IZR k < 2 /\ 0 < IZR k).
      { split; apply Rnot_le_lt; intros Q.
        - assert (X : 7 * N <= (3 + 2 * IZR k) * N) by (apply Rmult_le_compat_r; lra). lra.
        - assert (X : (3 + 2 * IZR k) * N <= 3 * N) by (apply Rmult_le_compat_r; lra). lra. }
      destruct K as [K1 K2]. apply lt_IZR in K1, K2. assert (k = 1)%Z by lia. subst k. lra.
    + exfalso. assert (X : (2 * IZR k + 3) * N = 0) by lra. apply Rmult_integral in X. destruct X as [X|X]; [|lra].
      rewrite <- mult_IZR, <- plus_IZR in X. apply eq_IZR in X. lia.
  - intros ->. exists 1%Z. left. lra.
Qed.
(** frequencies of more than four times the Nyquist frequency below zero stay negative; positive ones are never mirrored *)
Theorem C127_not_mirrored : forall x, (0 <= x \/ x <= - 4 * kepler_notional_nyquist) -> mirror x = x.
Proof. intros x [H|H]; destruct (C127_mirroring x) as (A & _ & _ & _ & _ & B); auto. Qed.
Example C127_case : let N := kepler_notional_nyquist in mirror (- (1/2) * N) = 1/2 * N /\ mirror (- (5/2) * N + 1) = - N / 2 - 1.
Proof.
  intros N. pose proof nyq_pos as P. fold N in P. assert (Q : 4 < N) by (unfold N, kepler_notional_nyquist; lra).
  destruct (C127_mirroring (- (1/2) * N)) as (_ & A & _). destruct (C127_mirroring (- (5/2) * N + 1)) as (_ & _ & _ & B & _). fold N in A, B. rewrite A, B by lra. split; lra.
Qed.

(** ** C128: points of the overview figure *)
Lemma sel_app {A} m1 m2 (l1 l2 : list A) : List.length m1 = List.length l1 -> sel (m1 ++ m2) (l1 ++ l2) = (sel m1 l1 ++ sel m2 l2)%list.
Proof.
  revert l1. induction m1 as [|b m1 IH]; intros [|x l1] L; try discriminate L; [reflexivity|]. injection L as L. specialize (IH l1 L).
  unfold sel in *. cbn. destruct b; cbn; rewrite IH; reflexivity.
Qed.
Lemma sel_concat {A} (f : list A -> A -> bool) (ts : list (list A)) :
  sel (List.concat (map (fun t => map (f t) t) ts)) (List.concat ts) = flat_map (fun t => filter (f t) t) ts.
Proof. induction ts as [|t ts IH]; [reflexivity|]. cbn [map List.concat flat_map]. rewrite sel_app by apply map_length. rewrite IH, sel_map_id. reflexivity. Qed.
Lemma sel_bnot {A} (p : A -> bool) l : sel (bnot (map p l)) l = filter (fun x => negb (p x)) l.
Proof. unfold bnot. rewrite map_map. apply sel_map_id. Qed.
Lemma mapM_exists {A B} (f : A -> res B) l r : mapM f l = Ok r -> Forall2 (fun x y => f x = Ok y) l r.
Proof.
  revert r. induction l as [|a l IH]; cbn [mapM]; intros r H; [injection H as <-; constructor|].
  destruct (f a) as [b| |] eqn:E; try discriminate H. cbn [bind] in H. destruct (mapM f l) as [r'| |]; try discriminate H. injection H as <-. constructor; auto.
Qed.
Definition pts (l : list raw) : list point * list point := (flat_map two_points (filter (fun x => negb (neg_mask x)) l), flat_map two_points (filter neg_mask l)).
Lemma scatter_pts f ts : scatter (List.concat (map (fun t => map (f t) t) ts)) (List.concat ts) = pts (flat_map (fun t => filter (f t) t) ts).
Proof. unfold scatter, pts. rewrite sel_concat. rewrite sel_bnot, sel_map_id, !flat_map_concat_map. reflexivity. Qed.
Lemma overview_points_inv part ts P : valid_argpartition part -> overview_points part ts = Ok P ->
  ts <> [] /\ P = [pts (flat_map (filter cat_stable) ts); pts (flat_map (fun t => filter (cat_ae part t) t) ts); pts (flat_map (fun t => filter (cat_valid part t) t) ts)].
Proof.
  intros V H. unfold overview_points in H. destruct (mapM (masks_overview part) ts) as [ms| |] eqn:M; try discriminate H. cbn [bind] in H.
  assert (NE : ts <> []) by (intros ->; injection M as <-; discriminate H). split; [exact NE|].
  apply mapM_exists in M.
  assert (E : map (fun m => fst (fst m)) ms = map (fun t => map cat_stable t) ts /\ map (fun m => snd (fst m)) ms = map (fun t => map (cat_ae part t) t) ts /\ map snd ms = map (fun t => map (cat_valid part t) t) ts).
  { clear H NE. induction M as [|t [[s a] v] ts ms Hm _ (I1 & I2 & I3)]; [auto|]. destruct (overview_inv part t s a v V Hm) as (_ & -> & -> & ->). cbn [map fst snd]. rewrite I1, I2, I3. auto. }
  destruct E as (E1 & E2 & E3). rewrite E1, E2, E3 in H. unfold np_concatenate in H.
  destruct ts as [|t0 ts0]; [congruence|]. cbn [map bind] in H. injection H as <-.
  set (T := t0 :: ts0). exact (f_equal3 (fun a b c => [a; b; c]) (scatter_pts (fun _ => cat_stable) T) (scatter_pts (cat_ae part) T) (scatter_pts (cat_valid part) T)).
Qed.
(** three groups of points, each split in unmirrored and mirrored; the rows of a group are those of its category in the tables, in order;
    each row gives the points of its two daughter-parent ratios *)
Theorem C128_points_of_the_categories : forall part ts ms, valid_argpartition part -> ts <> [] ->
  Forall2 (fun t m => masks_overview part t = Ok m) ts ms ->
  let group (g : list bool * list bool * list bool -> list bool) := flat_map (fun mt => sel (g (fst mt)) (snd mt)) (combine ms ts) in
  let drawn l := (flat_map two_points (filter (fun x => negb (neg_mask x)) l), flat_map two_points (filter neg_mask l)) in
  overview_points part ts = Ok [drawn (group (fun m => fst (fst m))); drawn (group (fun m => snd (fst m))); drawn (group snd)].
Proof.
  intros part ts ms V NE F group drawn.
  assert (E : exists P, overview_points part ts = Ok P).
  { unfold overview_points. assert (M : mapM (masks_overview part) ts = Ok ms) by (clear -F; induction F as [|t m ts ms H F IH]; [reflexivity|]; cbn [mapM]; rewrite H; cbn [bind]; rewrite IH; reflexivity).
    rewrite M. cbn [bind]. unfold np_concatenate. destruct F; [congruence|]. cbn [map bind]. eexists. reflexivity. }
  destruct E as (P & E). rewrite E. destruct (overview_points_inv part ts P V E) as (_ & ->). unfold drawn, group.
  assert (K : flat_map (fun mt => sel (fst (fst (fst mt))) (snd mt)) (combine ms ts) = flat_map (filter cat_stable) ts /\
    flat_map (fun mt => sel (snd (fst (fst mt))) (snd mt)) (combine ms ts) = flat_map (fun t => filter (cat_ae part t) t) ts /\
    flat_map (fun mt => sel (snd (fst mt)) (snd mt)) (combine ms ts) = flat_map (fun t => filter (cat_valid part t) t) ts).
  { clear E NE. induction F as [|t [[s a] v] ts ms Hm _ (I1 & I2 & I3)]; [auto|]. destruct (overview_inv part t s a v V Hm) as (_ & -> & -> & ->).
    cbn [combine flat_map fst snd]. rewrite I1, I2, I3, !sel_map_id. auto. }
  destruct K as (-> & -> & ->). reflexivity.
Qed.
Lemma perm_filter {A} (p : A -> bool) l : Permutation (filter (fun x => negb (p x)) l ++ filter p l) l.
Proof.
  induction l as [|x l IH]; [constructor|]. cbn. destruct (p x); cbn.
  - apply Permutation_sym, Permutation_cons_app, Permutation_sym, IH.
  - constructor. exact IH.
Qed.
Lemma perm_flat {A B} (f : A -> list B) l l' : Permutation l l' -> Permutation (flat_map f l) (flat_map f l').
Proof. apply Permutation_flat_map. Qed.
Lemma perm_cats part t : Permutation (filter cat_stable t ++ filter (cat_ae part t) t ++ filter (cat_valid part t) t) (filter (fun x => stableb x && negb (harmonic x)) t).
Proof.
  generalize t at 2 4. intros T. induction t as [|x l IH]; [constructor|]. cbn [filter]. unfold cat_stable at 1, cat_ae at 1, cat_valid at 1.
  destruct (stableb x), (aeb x), (isob part T x), (harmonic x); cbn [andb negb]; try exact IH; try (cbn; constructor; exact IH).
  - rewrite app_assoc. apply Permutation_sym, Permutation_cons_app, Permutation_sym. rewrite <- app_assoc. exact IH.
  - apply Permutation_sym, Permutation_cons_app, Permutation_sym. exact IH.
Qed.
(** altogether every stable triad with distinct daughters is drawn exactly once, by its two points, and nothing else is drawn *)
Theorem C128_every_triad_drawn_once : forall part ts P (shown : raw -> bool), valid_argpartition part -> overview_points part ts = Ok P ->
  (forall x, In x (List.concat ts) -> checked x /\ (shown x = true <-> stable x /\ ~ is_harmonic x)) ->
  List.length P = 3%nat /\
  Permutation (flat_map (fun p => fst p ++ snd p)%list P) (flat_map two_points (filter shown (List.concat ts))).
Proof.
  intros part ts P shown V H Sh. destruct (overview_points_inv part ts P V H) as (_ & ->). split; [reflexivity|].
  assert (Q : forall l, Permutation (fst (pts l) ++ snd (pts l)) (flat_map two_points l)).
  { intros l. unfold pts. cbn [fst snd]. rewrite <- flat_map_app. apply perm_flat, perm_filter. }
  cbn [flat_map]. rewrite app_nil_r. rewrite (Q (flat_map (filter cat_stable) ts)), (Q (flat_map (fun t => filter (cat_ae part t) t) ts)), (Q (flat_map (fun t => filter (cat_valid part t) t) ts)).
  rewrite <- !flat_map_app. apply perm_flat.
  assert (E : filter shown (List.concat ts) = flat_map (filter (fun x => stableb x && negb (harmonic x))) ts).
  { clear H. induction ts as [|t ts IH]; [reflexivity|]. cbn. rewrite filter_app. f_equal.
    - apply filter_ext_in. intros x I. destruct (Sh x) as (C & X); [apply in_or_app; left; exact I|].
      rewrite <- (stableb_spec x C), <- harmonic_spec in X. apply eq_true_iff_eq. rewrite X, andb_true_iff, negb_true_iff, not_true_iff_false. reflexivity.
    - apply IH. intros x I. apply Sh. apply in_or_app. right. exact I. }
  rewrite E. clear. induction ts as [|t ts IH]; [constructor|]. cbn [flat_map].
  rewrite <- (perm_cats part t), <- IH.
  set (a := filter cat_stable t). set (b := filter (cat_ae part t) t). set (c := filter (cat_valid part t) t).
  set (A := flat_map (filter cat_stable) ts). set (B := flat_map (fun t => filter (cat_ae part t) t) ts). set (Cc := flat_map (fun t => filter (cat_valid part t) t) ts).
  rewrite <- !app_assoc. apply Permutation_app_head.
  rewrite (app_assoc A b (B ++ c ++ Cc)), (Permutation_app_comm A b), <- app_assoc. apply Permutation_app_head.
  rewrite (app_assoc A B (c ++ Cc)), (Permutation_app_comm (A ++ B) (c ++ Cc)), <- app_assoc. apply Permutation_app_head.
  rewrite (Permutation_app_comm Cc (A ++ B)), <- app_assoc. reflexivity.
Qed.
(** nothing is drawn without tables *)
Theorem C128_no_tables : forall part, overview_points part [] = Exc ValueError.
Proof. reflexivity. Qed.
(** a row's points: its plotted frequency against the two daughter-parent luminosity ratios (the inverse ratios for direct resonances) *)
Theorem C128_two_points : forall x s0 s1 s2 f, r_surfs x = fin s0 s1 s2 -> s0 <> 0 -> s1 <> 0 -> s2 <> 0 -> min_inertial_freq x = Some f ->
  (nth 0 (r_checks x) false = true -> nth 1 (r_checks x) false = false -> two_points x = [(Some (mirror f), Some (s1 / s0)); (Some (mirror f), Some (s2 / s0))]) /\
  (nth 1 (r_checks x) false = true -> two_points x = [(Some (mirror f), Some (s0 / s1)); (Some (mirror f), Some (s0 / s2))]) /\
  (nth 0 (r_checks x) false = false -> nth 1 (r_checks x) false = false -> two_points x = [(Some (mirror f), None); (Some (mirror f), None)]).
Proof.
  intros x s0 s1 s2 f E N0 N1 N2 F. unfold two_points, plotted_freq, plotted_ratios, amp_ratios. rewrite E, F. unfold fin. cbn [col option_map].
  unfold compute_single_amplitude_ratio, oiszero, odiv. cbn [isnan omul fst snd].
  destruct (Req_EM_T s0 0); [contradiction|]. destruct (Req_EM_T s1 0); [contradiction|]. destruct (Req_EM_T s2 0); [contradiction|]. cbn [orb negb andb].
  destruct (nth 0 (r_checks x) false), (nth 1 (r_checks x) false); repeat split; intros; try discriminate; reflexivity.
Qed.

(** ** C129: resonance sharpness figure *)
Definition lum_ok (d : list row) (lo : option R) (k : nat) : Prop := match lo with Some a => holds (threshold_lum_mask d a) k | None => True end.
Definition det_ok (d : list row) (hi : option R) (k : nat) : Prop := match hi with Some a => holds (threshold_det_mask d a) k | None => True end.
Lemma holds_band a b k : holds (band a b) k <-> holds a k /\ holds b k.
Proof.
  unfold holds, band. revert b k. induction a as [|x a IH]; intros b k; [destruct k; cbn; intuition discriminate|].
  destruct b as [|y b]; [destruct k; cbn; intuition discriminate|]. destruct k; cbn.
  - destruct x, y; cbn; intuition discriminate.
  - apply IH.
Qed.
(** the two masks: stable, AE-valid and (not) isolated, and passing the optional luminosity and detuning limits; harmonics are not removed (finding) *)
Theorem C129_sharpness_masks : forall part t lo hi i n, valid_argpartition part -> isolated_non_isolated part t lo hi = Ok (i, n) ->
  exists iso, isolation_mask_lowest_thresh_amp part (map derive t) = Ok iso /\
  forall k x, nth_error t k = Some x -> checked x ->
    let limits := lum_ok (map derive t) lo k /\ det_ok (map derive t) hi k in
    (holds i k <-> stable x /\ ae_valid x /\ holds iso k /\ limits) /\
    (holds n k <-> stable x /\ ae_valid x /\ ~ holds iso k /\ limits).
Proof.
  intros part t lo hi i n V H. unfold isolated_non_isolated, hyper_ae_isolation_masks in H.
  destruct (isolation_mask_lowest_thresh_amp part (map derive t)) as [iso| |] eqn:I; try discriminate. cbn [bind] in H.
  exists iso. split; [reflexivity|]. pose proof (iso_map part t iso V I) as E. rewrite stab_map, ae_map in H. intros k x Hk C. cbv zeta.
  assert (B : holds (bnot iso) k <-> ~ holds iso k).
  { rewrite E. unfold bnot. rewrite map_map. rewrite !(nth_holds _ t k x Hk), negb_true_iff, not_true_iff_false. reflexivity. }
  assert (St : holds (map stableb t) k <-> stable x) by (rewrite (nth_holds _ t k x Hk); apply stableb_spec, C).
  assert (Ae : holds (map aeb t) k <-> ae_valid x) by (rewrite (nth_holds _ t k x Hk); apply aeb_spec).
  destruct lo as [lo|], hi as [hi|]; injection H as <- <-; cbn [lum_ok det_ok]; rewrite !holds_band, ?B, St, Ae; tauto.
Qed.
Lemma np_sum_map {A} (f : A -> bool) l : np_sum (map f l) = List.length (filter f l).
Proof. unfold np_sum. induction l as [|x l IH]; [reflexivity|]. cbn. destruct (f x); cbn; rewrite IH; reflexivity. Qed.
Definition sh_iso part t x := stableb x && aeb x && isob part t x.
Definition sh_non part t x := stableb x && aeb x && negb (isob part t x).
Lemma sharp_inv part t i n : valid_argpartition part -> isolated_non_isolated part t None None = Ok (i, n) -> i = map (sh_iso part t) t /\ n = map (sh_non part t) t.
Proof.
  intros V H. unfold isolated_non_isolated, hyper_ae_isolation_masks in H.
  destruct (isolation_mask_lowest_thresh_amp part (map derive t)) as [iso| |] eqn:I; try discriminate. pose proof (iso_map part t iso V I) as ->. cbn [bind] in H.
  rewrite stab_map, ae_map in H. unfold bnot in H. rewrite !map_map, !band_map in H. injection H as <- <-. split; reflexivity.
Qed.
(** the figure's data: the sharpness |..| of the isolated and of the other stable, AE-valid triads, table by table; all = both; the counts per
    table are the numbers of values *)
Theorem C129_sharpness_data : forall part ts D ms, valid_argpartition part -> sharpness_data part ts = Ok D ->
  Forall2 (fun t m => isolated_non_isolated part t None None = Ok m) ts ms ->
  isolated_sharpness D = flat_map (fun mt => sel (fst (fst mt)) (map resonance_sharpness_factor (snd mt))) (combine ms ts) /\
  not_isolated_sharpness D = flat_map (fun mt => sel (snd (fst mt)) (map resonance_sharpness_factor (snd mt))) (combine ms ts) /\
  all_sharpness D = (isolated_sharpness D ++ not_isolated_sharpness D)%list /\
  isolated_counts D = map (fun mt => List.length (sel (fst (fst mt)) (snd mt))) (combine ms ts) /\
  not_isolated_counts D = map (fun mt => List.length (sel (snd (fst mt)) (snd mt))) (combine ms ts) /\
  List.length (isolated_sharpness D) = list_sum (isolated_counts D) /\
  List.length (not_isolated_sharpness D) = list_sum (not_isolated_counts D).
Proof.
  intros part ts D ms V H F. unfold sharpness_data in H.
  assert (M : mapM (fun t => isolated_non_isolated part t None None) ts = Ok ms) by (clear -F; induction F as [|t m ts ms H F IH]; [reflexivity|]; cbn [mapM]; rewrite H; cbn [bind]; rewrite IH; reflexivity).
  rewrite M in H. cbn [bind] in H. unfold np_concatenate in H.
  assert (CE : combine ms ts <> []) by (inversion F; subst; [discriminate H|discriminate]).
  match type of H with (bind (match ?X with _ => _ end) _ = _) => assert (N1 : X <> []) by (intros Z; apply map_eq_nil in Z; auto); destruct X eqn:EX; [congruence|]; rewrite <- EX in H; clear EX N1 end.
  cbn [bind] in H.
  match type of H with (bind (match ?X with _ => _ end) _ = _) => assert (N1 : X <> []) by (intros Z; apply map_eq_nil in Z; auto); destruct X eqn:EX; [congruence|]; rewrite <- EX in H; clear EX N1 end.
  cbn [bind] in H. injection H as <-. cbn [isolated_sharpness not_isolated_sharpness all_sharpness isolated_counts not_isolated_counts].
  rewrite <- !flat_map_concat_map. split; [reflexivity|]. split; [reflexivity|]. split; [reflexivity|].
  clear M CE.
  assert (LL : forall {X Y} (g : X -> list Y) l, List.length (flat_map g l) = list_sum (map (fun x => List.length (g x)) l)) by (clear; intros X Y g l; induction l as [|x l IH]; [reflexivity|]; cbn; rewrite app_length, IH; reflexivity).
  rewrite !LL.
  induction F as [|t [i n] ts ms Hm _ (I1 & I2 & I3 & I4)]; [repeat split; reflexivity|]. destruct (sharp_inv part t i n V Hm) as (-> & ->).
  cbn [combine map fst snd list_sum fold_right] in *. unfold list_sum in *. cbn [fold_right] in *.
  rewrite !np_sum_map, !sel_map_id, !sel_map, !map_length. rewrite I3, I4, I1, I2. repeat split; reflexivity.
Qed.
(** a sharpness is the detuning over the sum of the daughters' linear rates *)
Theorem C129_sharpness_value : forall x w0 w1 w2 g0 g1 g2, r_corot x = fin w0 w1 w2 -> r_rates x = fin g0 g1 g2 -> g1 + g2 <> 0 ->
  resonance_sharpness_factor x = Some ((w0 - w1 - w2) / (g1 + g2)).
Proof. intros x w0 w1 w2 g0 g1 g2 Ec Eg N. unfold resonance_sharpness_factor. rewrite Ec, Eg. unfold fin, linear_omega_diff. cbn [col osub oadd]. apply odiv_fin, N. Qed.
Theorem C129_succeeds : forall part ts ms, ts <> [] -> Forall2 (fun t m => isolated_non_isolated part t None None = Ok m) ts ms ->
  exists D, sharpness_data part ts = Ok D.
Proof.
  intros part ts ms NE F. unfold sharpness_data.
  assert (M : mapM (fun t => isolated_non_isolated part t None None) ts = Ok ms) by (clear -F; induction F as [|t m ts ms H F IH]; [reflexivity|]; cbn [mapM]; rewrite H; cbn [bind]; rewrite IH; reflexivity).
  rewrite M. cbn [bind]. destruct F; [congruence|]. cbn [combine map np_concatenate bind]. eexists. reflexivity.
Qed.
Theorem C129_no_tables : forall part, sharpness_data part [] = Exc ValueError.
Proof. reflexivity. Qed.

(** ** concrete tables *)
(** a triad with threshold c ppm, a parent equilibrium fluctuation of 1 ppm and co-rotating frequencies 10, 5, w *)
Definition case (n : Z * Z * Z) (c w : R) : raw :=
  Raw (fin (/ 10 ^ 6) (/ 10 ^ 6) (/ 10 ^ 6)) [true; false; true; true; true; true] (fin 1 (-2) (-3)) (fin 1 1 1) (Some c) n
    (fin 10 5 w) (fin 10 5 w) (fin 3 2 1) (Some 1) (Some 1).
Lemma case_thresh n c w : thresh (derive (case n c w)) = Some c.
Proof.
  unfold derive, case, thresh_surf_ppm, fin, oiszero, odiv, cst. cbn [thresh r_checks r_surfs r_amps r_thresh_amp nth col fst snd isnan].
  destruct (Req_EM_T 1 0) as [Z|Z]; [lra|]. cbn [orb andb negb omul]. f_equal. field.
Qed.
Lemma case_stable n c w : stable (case n c w). Proof. exists [true; false; true]. reflexivity. Qed.
Lemma case_checked n c w : checked (case n c w). Proof. unfold checked. cbn. lia. Qed.
Lemma case_ae n c w : 0 < w < 5 -> (ae_valid (case n c w) <-> Rabs (5 - w) <= w / 10).
Proof.
  intros Hw. assert (Sw : smallest w (Rabs 10) (Rabs 5) (Rabs w)) by (rewrite !Rabs_right by lra; unfold smallest; repeat split; try lra; tauto). split.
  - intros (w0 & w1 & w2 & m & E & Sm & P & L). injection E as <- <- <-. rewrite (smallest_unique m w _ _ _ Sm Sw) in L. replace (5 - w) with (10 - 5 - w) by lra. exact L.
  - intros L. exists 10, 5, w, w. split; [reflexivity|]. split; [exact Sw|]. split; [lra|]. replace (10 - 5 - w) with (5 - w) by lra. exact L.
Qed.
Lemma low1 d (P : row -> Prop) r m : In r d -> P r -> thresh r = Some m -> (forall r' t, In r' d -> P r' -> thresh r' = Some t -> m <= t) -> lowest_threshold d P m.
Proof. intros H1 H2 H3 H4. split; [exists r; auto|exact H4]. Qed.
Lemma agree0 m : Rabs (m - m) <= / 10 ^ 14.
Proof. replace (m - m) with 0 by lra; rewrite Rabs_R0. apply Rlt_le, Rinv_0_lt_compat, pow_lt; lra. Qed.
(** parent 5 in four triads: isolated; AE-valid; stable only; harmonic *)
Definition four : list raw := [case (5, 1, 2)%Z 10 4.8; case (5, 3, 4)%Z 20 4.8; case (5, 8, 9)%Z 30 4; case (5, 7, 7)%Z 40 4.8].
Ltac rows H := cbn [map In] in H; repeat (destruct H as [<-|H]; [|]); try contradiction H.
Ltac nths k := repeat (destruct k as [|k]; cbn [nth_error map] in *; try discriminate).
Lemma crowd4 : forall k r c, nth_error (map derive four) k = Some r -> thresh r = Some c ->
  exists l r' c', l <> k /\ nth_error (map derive four) l = Some r' /\ parent r' = parent r /\ thresh r' = Some c'.
Proof.
  intros k r c H _. unfold four in *. destruct k as [|k].
  - exists 1%nat, (derive (case (5, 3, 4)%Z 20 4.8)), 20. injection H as <-. split; [lia|]. split; [reflexivity|]. split; [reflexivity|apply case_thresh].
  - exists 0%nat, (derive (case (5, 1, 2)%Z 10 4.8)), 10. split; [lia|]. split; [reflexivity|]. split; [|apply case_thresh].
    apply nth_error_In in H. rows H; reflexivity.
Qed.
Definition simple (t : list raw) : Prop := forall x, In x t -> exists n c w, x = case n c w /\ 1 < c.
Lemma simple_below t n i j : simple t -> two_lowest (map derive t) n i j -> equilibrium_below (map derive t) i j.
Proof.
  intros Sm (_ & a & b & ta & tb & Ha & Hb & _ & _ & Ta & Tb & _). exists a, b, (/ 10 ^ 6), tb. split; [exact Ha|]. split; [exact Hb|].
  rewrite nth_error_map in Ha, Hb. destruct (nth_error t i) as [x|] eqn:Ei; [|discriminate]. destruct (nth_error t j) as [y|] eqn:Ej; [|discriminate].
  injection Ha as <-. injection Hb as <-. destruct (Sm x (nth_error_In _ _ Ei)) as (n1 & c1 & w1 & -> & _). destruct (Sm y (nth_error_In _ _ Ej)) as (n2 & c2 & w2 & -> & L).
  rewrite case_thresh in Tb. injection Tb as <-. split; [reflexivity|]. split; [apply case_thresh|]. rewrite Rinv_l by (apply pow_nonzero; lra). exact L.
Qed.
Lemma iso_yes part t iso k x : valid_argpartition part -> simple t -> isolation_mask_lowest_thresh_amp part (map derive t) = Ok iso ->
  nth_error t k = Some x -> modes_agree (map derive t) (derive x) -> holds iso k.
Proof.
  intros V Sm I Hk A. destruct (C57_isolation_mask_meaning part _ iso V I) as (_ & M). destruct (M k (derive x)) as (_ & X); [rewrite nth_error_map, Hk; reflexivity|].
  destruct (Sm x (nth_error_In _ _ Hk)) as (n1 & c1 & w1 & -> & _). apply X; [exists c1; apply case_thresh|exact A|]. intros i j. apply simple_below. exact Sm.
Qed.
Lemma iso_no part t iso k x : valid_argpartition part -> isolation_mask_lowest_thresh_amp part (map derive t) = Ok iso ->
  nth_error t k = Some x -> ~ modes_agree (map derive t) (derive x) -> ~ holds iso k.
Proof.
  intros V I Hk A Q. destruct (C57_isolation_mask_meaning part _ iso V I) as (_ & M). destruct (M k (derive x)) as (X & _); [rewrite nth_error_map, Hk; reflexivity|].
  destruct (X Q) as (_ & Y & _). contradiction.
Qed.
Lemma disagree d r p q : lowest_threshold d (has_parent (parent r)) p -> lowest_threshold d (has_daughter (daughter1 r)) q -> p + 1 <= q -> ~ modes_agree d r.
Proof.
  intros P Q L (p' & d1 & d2 & P' & D1 & _ & A & _). rewrite (lowest_unique _ _ _ _ P' P), (lowest_unique _ _ _ _ D1 Q) in A.
  assert (/ 10 ^ 14 < 1) by (rewrite <- Rinv_1; apply Rinv_lt_contravar; lra). unfold Rabs in A. destruct (Rcase_abs _) in A; lra.
Qed.
Ltac low v := apply (low1 _ _ (derive v)); [unfold four; cbn [map In]; repeat (first [left; reflexivity | right])|unfold has_parent, has_daughter; cbn; tauto|apply case_thresh|
  let r := fresh in let t := fresh in let H := fresh in let P := fresh in let T := fresh in intros r t H P T;
  unfold four in H; cbn [map In] in H; repeat (destruct H as [<-|H]; [try (exfalso; revert P; unfold has_parent, has_daughter; cbn; intuition discriminate); rewrite case_thresh in T; injection T as <-; lra|]); contradiction].
Lemma four_simple : simple four.
Proof. intros x H. unfold four in H. cbn [In] in H. repeat (destruct H as [<-|H]; [eexists _, _, _; split; [reflexivity|lra]|]). contradiction. Qed.
Lemma four_iso part iso : valid_argpartition part -> isolation_mask_lowest_thresh_amp part (map derive four) = Ok iso ->
  holds iso 0 /\ ~ holds iso 1 /\ ~ holds iso 2 /\ ~ holds iso 3.
Proof.
  intros V I. unfold four in *. split; [|split; [|split]].
  - apply (iso_yes part four iso 0 (case (5, 1, 2)%Z 10 4.8) V four_simple I eq_refl). exists 10, 10, 10. split; [|split; [|split]]; [low (case (5, 1, 2)%Z 10 4.8)..|split; apply agree0].
  - apply (iso_no part four iso 1 (case (5, 3, 4)%Z 20 4.8) V I eq_refl). apply (disagree _ _ 10 20); [low (case (5, 1, 2)%Z 10 4.8)|low (case (5, 3, 4)%Z 20 4.8)|lra].
  - apply (iso_no part four iso 2 (case (5, 8, 9)%Z 30 4) V I eq_refl). apply (disagree _ _ 10 30); [low (case (5, 1, 2)%Z 10 4.8)|low (case (5, 8, 9)%Z 30 4)|lra].
  - apply (iso_no part four iso 3 (case (5, 7, 7)%Z 40 4.8) V I eq_refl). apply (disagree _ _ 10 40); [low (case (5, 1, 2)%Z 10 4.8)|low (case (5, 7, 7)%Z 40 4.8)|lra].
Qed.
Lemma holds_false m k : (k < List.length m)%nat -> ~ holds m k -> nth_error m k = Some false.
Proof. unfold holds. intros L H. destruct (nth_error m k) as [[]|] eqn:E; [congruence|reflexivity|]. apply nth_error_None in E. lia. Qed.
Lemma case_valid n c : ae_valid (case n c 4.8).
Proof. apply case_ae; [lra|]. rewrite Rabs_right by lra. lra. Qed.
Lemma case_invalid n c : ~ ae_valid (case n c 4).
Proof. rewrite case_ae by lra. rewrite Rabs_right by lra. lra. Qed.
Lemma list4 {A} (l : list A) a b c d : List.length l = 4%nat -> nth_error l 0 = Some a -> nth_error l 1 = Some b -> nth_error l 2 = Some c -> nth_error l 3 = Some d -> l = [a; b; c; d].
Proof. destruct l as [|x [|y [|z [|w [|? ?]]]]]; intros L A0 A1 A2 A3; try discriminate L. cbn in *. congruence. Qed.
Theorem C126_case : forall part, valid_argpartition part ->
  masks_overview part four = Ok ([false; false; true; false], [false; true; false; false], [true; false; false; false]).
Proof.
  intros part V. destruct (proj1 (C126_fails_if_a_parent_is_alone part four V) crowd4) as ([[s a] v] & M). rewrite M. f_equal.
  destruct (C126_overview_categories part four s a v V M) as (iso & I & Ls & La & Lv & K). destruct (four_iso part iso V I) as (I0 & I1 & I2 & I3).
  pose proof (K 0%nat _ eq_refl (case_checked _ _ _)) as (V0 & A0 & S0). pose proof (K 1%nat _ eq_refl (case_checked _ _ _)) as (V1 & A1 & S1).
  pose proof (K 2%nat _ eq_refl (case_checked _ _ _)) as (V2 & A2 & S2). pose proof (K 3%nat _ eq_refl (case_checked _ _ _)) as (V3 & A3 & S3).
  pose proof (case_stable (5, 1, 2)%Z 10 4.8) as T0. pose proof (case_stable (5, 3, 4)%Z 20 4.8) as T1. pose proof (case_stable (5, 8, 9)%Z 30 4) as T2.
  pose proof (case_valid (5, 1, 2)%Z 10) as E0. pose proof (case_valid (5, 3, 4)%Z 20) as E1. pose proof (case_invalid (5, 8, 9)%Z 30) as E2.
  assert (H0 : ~ is_harmonic (case (5, 1, 2)%Z 10 4.8)) by (unfold is_harmonic; cbn; discriminate).
  assert (H1 : ~ is_harmonic (case (5, 3, 4)%Z 20 4.8)) by (unfold is_harmonic; cbn; discriminate).
  assert (H2 : ~ is_harmonic (case (5, 8, 9)%Z 30 4)) by (unfold is_harmonic; cbn; discriminate).
  assert (H3 : is_harmonic (case (5, 7, 7)%Z 40 4.8)) by reflexivity.
  cbn [four List.length] in Ls, La, Lv.
  rewrite (list4 s false false true false), (list4 a false true false false), (list4 v true false false false); try assumption; try reflexivity;
  solve [apply holds_false; [lia|tauto] | change (holds s 2); tauto | change (holds a 1); tauto | change (holds v 0); tauto].
Qed.
(** the points of that table: two per shown triad *)
Lemma case_freq n c w : 0 < w <= 5 -> exists f, 0 < f /\ min_inertial_freq (case n c w) = Some f.
Proof.
  intros Hw. destruct (C127_smallest_nonlinear_frequency (case n c w) 10 5 w 3 2 1 1 (-2) (-3)) as (m & E & Sm); try reflexivity; [lra|]. exists m. split; [|exact E].
  cbv zeta in Sm. unfold seconds_per_day in Sm. pose proof PI_RGT_0 as P. assert (Q : 0 < / (2 * PI)) by (apply Rinv_0_lt_compat; lra). unfold Rdiv in Sm.
  assert (X : 0 <= (5 - w) * / (2 * PI)) by (apply Rmult_le_pos; lra).
  destruct Sm as ([-> | [-> | ->]] & _); apply Rmult_lt_0_compat; lra.
Qed.
Theorem C128_case : forall part, valid_argpartition part -> exists f g, 0 < f /\ 0 < g /\
  overview_points part [four] = Ok [([(Some g, Some 1); (Some g, Some 1)], []); ([(Some f, Some 1); (Some f, Some 1)], []); ([(Some f, Some 1); (Some f, Some 1)], [])].
Proof.
  intros part V. destruct (case_freq (5, 1, 2)%Z 10 4.8 ltac:(lra)) as (f & Pf & Ef). destruct (case_freq (5, 8, 9)%Z 30 4 ltac:(lra)) as (g & Pg & Eg).
  exists f, g. split; [exact Pf|]. split; [exact Pg|].
  rewrite (C128_points_of_the_categories part [four] _ V ltac:(discriminate) (Forall2_cons _ _ (C126_case part V) (Forall2_nil _))).
  unfold four. cbn [combine flat_map fst snd sel filter map List.app].
  assert (Nz : / 10 ^ 6 <> 0) by (apply Rinv_neq_0_compat, pow_nonzero; lra).
  assert (D : forall n c w h, 0 < h -> min_inertial_freq (case n c w) = Some h -> neg_mask (case n c w) = false /\ two_points (case n c w) = [(Some h, Some 1); (Some h, Some 1)]).
  { intros n c w h Ph Eh. split; [unfold neg_mask; rewrite Eh; apply dltb_f; lra|].
    destruct (C128_two_points (case n c w) _ _ _ h eq_refl Nz Nz Nz Eh) as (X & _ & _). rewrite X by reflexivity.
    rewrite (C127_not_mirrored h) by (left; lra). replace (/ 10 ^ 6 / / 10 ^ 6) with 1 by (field; apply pow_nonzero; lra). reflexivity. }
  destruct (D (5, 8, 9)%Z 30 4 g Pg Eg) as (N3 & T3). destruct (D (5, 1, 2)%Z 10 4.8 f Pf Ef) as (N1 & T1). destruct (D (5, 3, 4)%Z 20 4.8 f Pf Ef) as (N2 & T2).
  rewrite N1, N2, N3. cbn [negb flat_map List.app]. rewrite T1, T2, T3. reflexivity.
Qed.
(** finding: the harmonic triad left out of the overview is counted in the sharpness figure *)
Lemma two_simple a b : simple [case a 10 4.8; case b 20 4.8].
Proof. intros x H. cbn [In] in H. repeat (destruct H as [<-|H]; [eexists _, _, _; split; [reflexivity|lra]|]). contradiction. Qed.
Definition harmonic_pair : list raw := [case (5, 1, 1)%Z 10 4.8; case (5, 3, 4)%Z 20 4.8].
Theorem C129_harmonics_are_counted : forall part, valid_argpartition part ->
  exists D, sharpness_data part [harmonic_pair] = Ok D /\ isolated_counts D = [1%nat] /\ not_isolated_counts D = [1%nat] /\
    all_sharpness D = [Some ((10 - 5 - 4.8) / (-2 + -3)); Some ((10 - 5 - 4.8) / (-2 + -3))] /\
  exists s a v, masks_overview part harmonic_pair = Ok (s, a, v) /\ ~ holds s 0 /\ ~ holds a 0 /\ ~ holds v 0.
Proof.
  intros part V. set (t := harmonic_pair).
  assert (Cr : forall k r c, nth_error (map derive t) k = Some r -> thresh r = Some c -> exists l r' c', l <> k /\ nth_error (map derive t) l = Some r' /\ parent r' = parent r /\ thresh r' = Some c').
  { intros k r c H _. destruct k as [|[|k]]; [| |destruct k; discriminate]; injection H as <-.
    - exists 1%nat. eexists _, 20. split; [lia|]. split; [reflexivity|]. split; [reflexivity|apply case_thresh].
    - exists 0%nat. eexists _, 10. split; [lia|]. split; [reflexivity|]. split; [reflexivity|apply case_thresh]. }
  destruct (proj1 (C57_succeeds_iff_no_parent_is_alone part (map derive t) V) Cr) as (iso & I).
  assert (I0 : holds iso 0).
  { apply (iso_yes part t iso 0 (case (5, 1, 1)%Z 10 4.8) V (two_simple _ _) I eq_refl). exists 10, 10, 10. unfold t, harmonic_pair.
    split; [|split; [|split]]; [low (case (5, 1, 1)%Z 10 4.8)..|split; apply agree0]. }
  assert (I1 : ~ holds iso 1).
  { apply (iso_no part t iso 1 (case (5, 3, 4)%Z 20 4.8) V I eq_refl). unfold t, harmonic_pair. apply (disagree _ _ 10 20); [low (case (5, 1, 1)%Z 10 4.8)|low (case (5, 3, 4)%Z 20 4.8)|lra]. }
  destruct (isolated_non_isolated part t None None) as [[i n]| |] eqn:M; [|unfold isolated_non_isolated, hyper_ae_isolation_masks in M; rewrite I in M; discriminate M..].
  assert (F : Forall2 (fun t m => isolated_non_isolated part t None None = Ok m) [t] [(i, n)]) by (constructor; [exact M|constructor]).
  destruct (C129_succeeds part [t] _ ltac:(discriminate) F) as (D & HD). exists D. split; [exact HD|].
  destruct (C129_sharpness_data part [t] D _ V HD F) as (Ei & En & Ea & Ci & Cn & _).
  destruct (C129_sharpness_masks part t None None i n V M) as (iso' & I' & K). rewrite I in I'. injection I' as <-.
  pose proof (K 0%nat _ eq_refl (case_checked _ _ _)) as (A0 & B0). pose proof (K 1%nat _ eq_refl (case_checked _ _ _)) as (A1 & B1). cbn [lum_ok det_ok] in *.
  pose proof (case_stable (5, 1, 1)%Z 10 4.8) as T0. pose proof (case_stable (5, 3, 4)%Z 20 4.8) as T1.
  pose proof (case_valid (5, 1, 1)%Z 10) as E0. pose proof (case_valid (5, 3, 4)%Z 20) as E1.
  destruct (sharp_inv part t i n V M) as (Mi & Mn).
  assert (Li : i = [true; false]).
  { assert (L : List.length i = 2%nat) by (rewrite Mi, map_length; reflexivity). destruct i as [|x [|y [|? ?]]]; try discriminate L.
    assert (holds [x; y] 0) as X by tauto. assert (~ holds [x; y] 1) as Y by tauto. unfold holds in X, Y. cbn in X, Y. injection X as ->. destruct y; [congruence|reflexivity]. }
  assert (Ln : n = [false; true]).
  { assert (L : List.length n = 2%nat) by (rewrite Mn, map_length; reflexivity). destruct n as [|x [|y [|? ?]]]; try discriminate L.
    assert (~ holds [x; y] 0) as X by tauto. assert (holds [x; y] 1) as Y by tauto. unfold holds in X, Y. cbn in X, Y. injection Y as ->. destruct x; [congruence|reflexivity]. }
  rewrite Ea, Ei, En, Ci, Cn, Li, Ln. split; [reflexivity|]. split; [reflexivity|]. split.
  - assert (Sv : forall m c, resonance_sharpness_factor (case m c 4.8) = Some ((10 - 5 - 4.8) / (-2 + -3))) by (intros m c; apply (C129_sharpness_value (case m c 4.8) 10 5 4.8 1 (-2) (-3)); [reflexivity..|lra]).
    unfold t, harmonic_pair. cbn [combine flat_map fst snd map sel filter List.app]. rewrite !Sv. reflexivity.
  - destruct (proj1 (C126_fails_if_a_parent_is_alone part t V) Cr) as ([[s a] v] & MO). exists s, a, v. split; [exact MO|].
    destruct (C126_overview_categories part t s a v V MO) as (iso'' & _ & _ & _ & _ & Q). destruct (Q 0%nat _ eq_refl (case_checked _ _ _)) as (Q1 & Q2 & Q3).
    assert (H3 : is_harmonic (case (5, 1, 1)%Z 10 4.8)) by reflexivity. tauto.
Qed.

(** ** C130: pooling files *)
(** finding: two models read as separate models keep their isolated triads; given as two single paths they are one table, and the triads of
    the second model (which has the same radial orders) decide about those of the first *)
Definition modelA : list raw := [case (5, 1, 2)%Z 10 4.8; case (5, 3, 4)%Z 20 4.8].
Definition modelB : list raw := [case (5, 6, 7)%Z 3 4.8; case (5, 8, 9)%Z 4 4.8].
Lemma crowd_app (a : list raw) : forall t x y cx cy, t = (x :: y :: a)%list -> thresh (derive x) = Some cx -> thresh (derive y) = Some cy ->
  (forall z, In z t -> parent (derive z) = parent (derive x)) ->
  forall k r c, nth_error (map derive t) k = Some r -> thresh r = Some c -> exists l r' c', l <> k /\ nth_error (map derive t) l = Some r' /\ parent r' = parent r /\ thresh r' = Some c'.
Proof.
  intros t x y cx cy -> Tx Ty P k r c H _. destruct k as [|k].
  - exists 1%nat, (derive y), cy. injection H as <-. split; [lia|]. split; [reflexivity|]. split; [apply P; right; left; reflexivity|exact Ty].
  - exists 0%nat, (derive x), cx. split; [lia|]. split; [reflexivity|]. split; [|exact Tx]. rewrite nth_error_map in H. destruct (nth_error _ _) eqn:E in H; [|discriminate].
    injection H as <-. symmetry. apply P. apply nth_error_In in E. exact E.
Qed.
Theorem C130_pooling_changes_the_categories : forall part, valid_argpartition part ->
  exists sA aA vA sB aB vB sP aP vP, masks_overview part modelA = Ok (sA, aA, vA) /\ masks_overview part modelB = Ok (sB, aB, vB) /\
    masks_overview part (modelA ++ modelB)%list = Ok (sP, aP, vP) /\
    holds vA 0 /\ holds vB 0 /\ ~ holds vP 0 /\ holds aP 0 /\ holds vP 2.
Proof.
  intros part V.
  assert (SA : simple modelA) by (intros x H; unfold modelA in H; cbn [In] in H; repeat (destruct H as [<-|H]; [eexists _, _, _; split; [reflexivity|lra]|]); contradiction).
  assert (SB : simple modelB) by (intros x H; unfold modelB in H; cbn [In] in H; repeat (destruct H as [<-|H]; [eexists _, _, _; split; [reflexivity|lra]|]); contradiction).
  assert (SP : simple (modelA ++ modelB)) by (intros x H; apply in_app_or in H; destruct H; auto).
  assert (PA : forall z, In z modelA -> parent (derive z) = 5%Z) by (intros z H; unfold modelA in H; cbn [In] in H; repeat (destruct H as [<-|H]; [reflexivity|]); contradiction).
  assert (PB : forall z, In z modelB -> parent (derive z) = 5%Z) by (intros z H; unfold modelB in H; cbn [In] in H; repeat (destruct H as [<-|H]; [reflexivity|]); contradiction).
  assert (PP : forall z, In z (modelA ++ modelB) -> parent (derive z) = 5%Z) by (intros z H; apply in_app_or in H; destruct H; auto).
  destruct (proj1 (C126_fails_if_a_parent_is_alone part modelA V) (crowd_app _ _ _ _ _ _ eq_refl (case_thresh _ _ _) (case_thresh _ _ _) PA)) as ([[sA aA] vA] & MA).
  destruct (proj1 (C126_fails_if_a_parent_is_alone part modelB V) (crowd_app _ _ _ _ _ _ eq_refl (case_thresh _ _ _) (case_thresh _ _ _) PB)) as ([[sB aB] vB] & MB).
  destruct (proj1 (C126_fails_if_a_parent_is_alone part (modelA ++ modelB)%list V) (crowd_app modelB _ _ _ _ _ eq_refl (case_thresh _ _ _) (case_thresh _ _ _) PP)) as ([[sP aP] vP] & MP).
  exists sA, aA, vA, sB, aB, vB, sP, aP, vP. split; [exact MA|]. split; [exact MB|]. split; [exact MP|].
  destruct (C126_overview_categories part _ _ _ _ V MA) as (iA & IA & _ & _ & _ & KA).
  destruct (C126_overview_categories part _ _ _ _ V MB) as (iB & IB & _ & _ & _ & KB).
  destruct (C126_overview_categories part _ _ _ _ V MP) as (iP & IP & _ & _ & _ & KP).
  destruct (KA 0%nat _ eq_refl (case_checked _ _ _)) as (A0 & _). destruct (KB 0%nat _ eq_refl (case_checked _ _ _)) as (B0 & _).
  destruct (KP 0%nat _ eq_refl (case_checked _ _ _)) as (P0 & P0' & _). destruct (KP 2%nat _ eq_refl (case_checked _ _ _)) as (P2 & _).
  assert (JA : holds iA 0). { apply (iso_yes part modelA iA 0 (case (5, 1, 2)%Z 10 4.8) V SA IA eq_refl). exists 10, 10, 10. unfold modelA. split; [|split; [|split]]; [low (case (5, 1, 2)%Z 10 4.8)..|split; apply agree0]. }
  assert (JB : holds iB 0). { apply (iso_yes part modelB iB 0 (case (5, 6, 7)%Z 3 4.8) V SB IB eq_refl). exists 3, 3, 3. unfold modelB. split; [|split; [|split]]; [low (case (5, 6, 7)%Z 3 4.8)..|split; apply agree0]. }
  assert (J2 : holds iP 2). { apply (iso_yes part (modelA ++ modelB) iP 2 (case (5, 6, 7)%Z 3 4.8) V SP IP eq_refl). exists 3, 3, 3. unfold modelA, modelB. cbn [List.app]. split; [|split; [|split]]; [low (case (5, 6, 7)%Z 3 4.8)..|split; apply agree0]. }
  assert (J0 : ~ holds iP 0). { apply (iso_no part (modelA ++ modelB) iP 0 (case (5, 1, 2)%Z 10 4.8) V IP eq_refl). unfold modelA, modelB. cbn [List.app]. apply (disagree _ _ 3 10); [low (case (5, 6, 7)%Z 3 4.8)|low (case (5, 1, 2)%Z 10 4.8)|lra]. }
  assert (HH : forall a c, snd (fst a) <> snd a -> ~ is_harmonic (case a c 4.8)) by (intros a c Ne; exact Ne).
  pose proof (case_stable (5, 1, 2)%Z 10 4.8). pose proof (case_valid (5, 1, 2)%Z 10). pose proof (HH (5, 1, 2)%Z 10 ltac:(discriminate)).
  pose proof (case_stable (5, 6, 7)%Z 3 4.8). pose proof (case_valid (5, 6, 7)%Z 3). pose proof (HH (5, 6, 7)%Z 3 ltac:(discriminate)). tauto.
Qed.
(** the tables that are formed *)
Theorem C130_tables_formed : forall (P : Type) (read : P -> res (list raw)) p q, read p = Ok modelA -> read q = Ok modelB ->
  load_tables read [OneFile p; OneFile q] = Ok [(modelA ++ modelB)%list] /\ load_tables read [ManyFiles [p]; ManyFiles [q]] = Ok [modelA; modelB].
Proof.
  intros P read p q Hp Hq. unfold load_tables, load_flat, load_nested. cbn [forallb is_one andb negb flat_map List.app mapM]. rewrite Hp, Hq. cbn [bind np_concatenate List.concat]. rewrite !app_nil_r. split; reflexivity.
Qed.
