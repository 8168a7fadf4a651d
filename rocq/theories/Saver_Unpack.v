(** * Unpacking of the results of a run into the arrays that are stored. *)
From Coq Require Import Reals List String Ascii ZArith Bool Lia Lra.
From Verif Require Import Base Py Stab_Model PreCheck_Model Saver_Model Saver_Spec Saver_Proofs.
Import ListNotations.
Local Open Scope string_scope.

Lemma mapM_map_ok {A B C} (f : B -> res C) (F : A -> B) (g : A -> C) ts :
  (forall t, In t ts -> f (F t) = Ok (g t)) -> mapM f (map F ts) = Ok (map g ts).
Proof.
  induction ts as [|t ts IH]; intros H; [reflexivity|]. cbn. rewrite (H t) by (left; reflexivity). cbn.
  cbn in IH. rewrite IH by (intros; apply H; right; assumption). reflexivity.
Qed.
Lemma fill1_cells dt (cellf : triad -> cell) g ts : (forall t, In t ts -> slot dt (cellf t) = Ok (g t)) ->
  fill1 dt (List.length ts) (Ok (map cellf ts)) = Ok (col (Scalars dt g) ts).
Proof.
  intros H. unfold fill1. cbn [bind]. rewrite (mapM_map_ok _ _ g) by exact H. cbn [bind]. rewrite map_length, Nat.leb_refl. reflexivity.
Qed.
Lemma fill2_cells dt w (cellf : triad -> cell) g ts : (forall t, In t ts -> row dt w (cellf t) = Ok (g t)) ->
  fill2 dt (List.length ts) w (Ok (map cellf ts)) = Ok (col (Rows dt w g) ts).
Proof.
  intros H. unfold fill2. cbn [bind]. rewrite (mapM_map_ok _ _ g) by exact H. cbn [bind]. rewrite map_length, Nat.leb_refl. reflexivity.
Qed.
Lemma column_ok (F : triad -> list cell) k cellf ts : (forall t, py_get (F t) k = Ok (cellf t)) -> column (map F ts) k = Ok (map cellf ts).
Proof. intros H. unfold column. apply mapM_map_ok. intros t _. apply H. Qed.
Lemma keyed_ok k cellf ts : (forall t : triad, dget (stat_dict (t_stat t)) k = Ok (cellf t)) ->
  keyed (map (fun t => Some (stat_dict (t_stat t))) ts) k = Ok (map cellf ts).
Proof. intros H. unfold keyed. apply mapM_map_ok. intros t _. apply H. Qed.
Lemma row_vec (l : list R) w : List.length l = w -> row F64 w (CVec l) = Ok (map Num l).
Proof. intros H. cbn. rewrite H, Nat.eqb_refl. reflexivity. Qed.

(** ** the stored arrays, per attribute of the unpacked-data object *)
Definition freq_contents : list (string * content) := [
  ("_inert_mode_freqs", vec3 (fun t => inert_f (t_freqs t))); ("_corot_mode_freqs", vec3 (fun t => corot_f (t_freqs t)));
  ("_inert_mode_omegas", vec3 (fun t => inert_w (t_freqs t))); ("_corot_mode_omegas", vec3 (fun t => corot_w (t_freqs t)));
  ("_inert_dimless_mode_freqs", vec3 (fun t => dless_inert_f (t_freqs t))); ("_corot_dimless_mode_freqs", vec3 (fun t => dless_corot_f (t_freqs t)));
  ("_inert_dimless_mode_omegas", vec3 (fun t => dless_inert_w (t_freqs t))); ("_corot_dimless_mode_omegas", vec3 (fun t => dless_corot_w (t_freqs t)));
  ("_spin_factors", vec3 (fun t => spin (t_freqs t)))].
Definition nad_contents : list (string * content) := [
  ("_quality_factors", vec3 (fun t => quality_f (t_freqs t))); ("_surf_rot_f", Scalars F64 (fun t => Num (surf_rot (t_freqs t))));
  ("_inert_mode_freqs_nad", vec3 (fun t => inert_f_nad (t_freqs t))); ("_corot_mode_freqs_nad", vec3 (fun t => corot_f_nad (t_freqs t)));
  ("_inert_mode_omegas_nad", vec3 (fun t => inert_w_nad (t_freqs t))); ("_corot_mode_omegas_nad", vec3 (fun t => corot_w_nad (t_freqs t)));
  ("_inert_dimless_mode_freqs_nad", vec3 (fun t => dless_inert_f_nad (t_freqs t))); ("_corot_dimless_mode_freqs_nad", vec3 (fun t => dless_corot_f_nad (t_freqs t)));
  ("_inert_dimless_mode_omegas_nad", vec3 (fun t => dless_inert_w_nad (t_freqs t))); ("_corot_dimless_mode_omegas_nad", vec3 (fun t => dless_corot_w_nad (t_freqs t)))].
Definition check_contents : list (string * content) := [
  ("_pre_checks", Rows B8 6 (fun t =>
     [yes (check_parametric (rate t)); yes (check_direct (rate t)); yes (check_driven (rate t)); yes (gamma_sum_stability_float (gamma (t_stat t)));
      yes (match s_solved (t_stat t) with Some _ => true | None => false end); yes (hyperbolic (t_stat t))]))].
Definition stationary_contents : list (string * content) := [
  ("_detunings", Scalars F64 (fun t => Num (detuning (t_stat t)))); ("_gammas", Scalars F64 (fun t => Num (gamma (t_stat t))));
  ("_crit_parent_amp", Scalars F64 (solved_field acrit)); ("_stat_sols_rel_phase", Scalars F64 (solved_field rel_phase));
  ("_stat_sols_rel_lum_phase", Scalars F64 (solved_field lum_phase));
  ("_q_factors", Scalars F64 (fun t => Num (q_fac (t_stat t)))); ("_critical_q_factors", Scalars F64 (fun t => Num (q_crit (t_stat t))));
  ("_driving_rates", vec3 (fun t => rates (t_stat t))); ("_eq_amps", Rows F64 3 (solved_row amps)); ("_surf_flux_vars", Rows F64 3 (solved_row flucs))].
Definition coupling_contents (adiabatic : bool) : list (string * content) := [
  ("_abs_ccs", Scalars F64 (couple_or_zero cc)); ("_abs_nccs", Scalars F64 (couple_or_zero ncc)); ("_abs_etas", Scalars F64 (couple_or_zero elcc));
  ("_cc_terms", Rows F64 4 (fun t => map Num (match t_coupled t with Some c => terms c | None => [0; 0; 0; 0]%R end)));
  ("_norm_factors", vec3 (fun t => match t_coupled t with Some c => norms c | None => [0; 0; 0]%R end));
  ("_adiabatic", Scalars B8 (fun _ => yes adiabatic))].
Definition stats_contents : list (string * content) := [("_wu_rule", Scalars I64 (fun t => Num (trunc (mean3 (t_orders t)))))].
Definition orders_contents : list (string * content) :=
  [("_mode_rad_orders", Rows I32 3 (fun t => let '(a, b, c) := t_orders t in [Num (IZR a); Num (IZR b); Num (IZR c)]))].
Definition contents (c : config) : list (string * content) :=
  ((if c_poly c then [] else check_contents) ++ (if c_poly c then [] else stationary_contents) ++ coupling_contents (c_adiabatic c)
   ++ stats_contents ++ (freq_contents ++ if c_poly c then [("_surf_rot_f", Scalars F64 (fun t => Num (surf_rot (t_freqs t))))] else nad_contents)
   ++ orders_contents)%list.

Section Entries.
Variable c : config.
Variable ts : list triad.
Hypothesis W : Forall well_shaped ts.
Definition entry (kr : string * res arr) (kx : string * content) : Prop := fst kr = fst kx /\ snd kr = Ok (col (snd kx) ts).

Lemma three_in (l : list R) ls : Forall three ls -> In l ls -> List.length l = 3%nat.
Proof. intros H I. rewrite Forall_forall in H. apply H, I. Qed.
Lemma shaped t : In t ts -> well_shaped t.
Proof. intros I. rewrite Forall_forall in W. apply W, I. Qed.

Ltac in_list := first [left; reflexivity | right; in_list].
Ltac vec_entry := split; [reflexivity|]; cbn [snd]; unfold vec3; erewrite column_ok by (intros; reflexivity);
  apply fill2_cells; intros t I; apply row_vec; destruct (shaped t I) as (S & _); apply (three_in _ _ S); in_list.
Ltac num_entry := split; [reflexivity|]; cbn [snd]; erewrite column_ok by (intros; reflexivity);
  apply fill1_cells; intros t I; reflexivity.

Lemma freqs_entries : Forall2 entry (unpack_freqs 3 (results_of c ts))
  (freq_contents ++ if c_poly c then [("_surf_rot_f", Scalars F64 (fun t => Num (surf_rot (t_freqs t))))] else nad_contents)%list.
Proof.
  unfold unpack_freqs, n_combos, results_of. cbn [r_poly r_freq r_stat]. rewrite map_length.
  destruct (c_poly c); apply Forall2_app; repeat (apply Forall2_cons; [first [vec_entry|num_entry]|]); apply Forall2_nil.
Qed.
Lemma coupling_entries : Forall2 entry (unpack_coupling 3 (results_of c ts)) (coupling_contents (c_adiabatic c)).
Proof.
  unfold unpack_coupling, n_combos, results_of. cbn [r_couple r_stat]. rewrite map_length.
  assert (N : forall k (g : coupled -> R), (forall t, py_get (coupling_info (c_adiabatic c) (t_coupled t)) k = Ok (CNum (match t_coupled t with Some v => g v | None => 0%R end))) ->
    fill1 F64 (List.length ts) (column (map (fun t => coupling_info (c_adiabatic c) (t_coupled t)) ts) k) = Ok (col (Scalars F64 (couple_or_zero g)) ts)).
  { intros k g H. rewrite (column_ok _ _ _ ts H). apply fill1_cells. intros t I. reflexivity. }
  unfold coupling_contents. repeat apply Forall2_cons; try apply Forall2_nil; (split; [reflexivity|]); cbn [snd].
  - apply N. intros t. destruct (t_coupled t); reflexivity.
  - apply N. intros t. destruct (t_coupled t); reflexivity.
  - apply N. intros t. destruct (t_coupled t); reflexivity.
  - rewrite (column_ok _ _ (fun t => CVec (match t_coupled t with Some v => terms v | None => [0; 0; 0; 0]%R end)) ts) by (intros t; destruct (t_coupled t); reflexivity).
    apply fill2_cells. intros t I. apply row_vec. destruct (shaped t I) as (_ & S & _). destruct (t_coupled t); [apply S|reflexivity].
  - rewrite (column_ok _ _ (fun t => CVec (match t_coupled t with Some v => norms v | None => [0; 0; 0]%R end)) ts) by (intros t; destruct (t_coupled t); reflexivity).
    apply fill2_cells. intros t I. apply row_vec. destruct (shaped t I) as (_ & S & _). destruct (t_coupled t); [apply S|reflexivity].
  - rewrite (column_ok _ _ (fun t => CBool (c_adiabatic c)) ts) by (intros t; destruct (t_coupled t); reflexivity).
    apply fill1_cells. intros t I. cbn [slot]. unfold conv, conv_bool, yes. destruct (c_adiabatic c); destruct (Req_EM_T _ _) as [X|X]; try reflexivity; lra.
Qed.
Lemma stats_entries : Forall2 entry (unpack_stats (results_of c ts)) stats_contents.
Proof.
  unfold unpack_stats, n_combos, results_of. cbn [r_stats r_stat]. rewrite map_length. repeat (apply Forall2_cons; [num_entry|]). apply Forall2_nil.
Qed.
Lemma orders_entries : ts <> [] -> Forall2 entry (unpack_orders (results_of c ts)) orders_contents.
Proof.
  intros N. unfold unpack_orders, results_of. cbn [r_orders]. repeat apply Forall2_cons; try apply Forall2_nil. split; [reflexivity|]. cbn [snd].
  destruct ts as [|t ts']; [contradiction|]. cbn [map]. f_equal. unfold arr2. cbn [List.length]. rewrite map_length.
  unfold col. cbn [map List.length]. do 2 f_equal. rewrite map_map. reflexivity.
Qed.
Lemma conv_yes b : conv B8 (conv_bool b) = yes b.
Proof. unfold conv, conv_bool, yes. destruct b, (Req_EM_T _ _) as [X|X]; try reflexivity; lra. Qed.
Lemma checks_entries : c_poly c = false -> Forall2 entry (unpack_checks (results_of c ts)) check_contents.
Proof.
  intros P. unfold unpack_checks, n_combos, results_of. cbn [r_poly r_stat]. rewrite P, map_length.
  repeat apply Forall2_cons; try apply Forall2_nil. split; [reflexivity|]. cbn [snd].
  rewrite (mapM_map_ok _ _ (fun t =>
     [yes (check_parametric (rate t)); yes (check_direct (rate t)); yes (check_driven (rate t)); yes (gamma_sum_stability_float (gamma (t_stat t)));
      yes (match s_solved (t_stat t) with Some _ => true | None => false end); yes (hyperbolic (t_stat t))])); [reflexivity|].
  intros t I. destruct (shaped t I) as (S & _).
  assert (L : List.length (rates (t_stat t)) = 3%nat) by (apply (three_in _ _ S); in_list).
  unfold check_row, rates_of.
  assert (D1 : dget (stat_dict (t_stat t)) "linear driving rates" = Ok (CVec (rates (t_stat t)))) by (unfold stat_dict; destruct (s_solved _); reflexivity).
  assert (D2 : dget (stat_dict (t_stat t)) "gamma" = Ok (CNum (gamma (t_stat t)))) by (unfold stat_dict; destruct (s_solved _); reflexivity).
  assert (D3 : dget (stat_dict (t_stat t)) "hyperbolic" = Ok (CBool (hyperbolic (t_stat t)))) by (unfold stat_dict; destruct (s_solved _); reflexivity).
  assert (D4 : dget (stat_dict (t_stat t)) "linearly stable" = Ok (CBool (match s_solved (t_stat t) with Some _ => true | None => false end))) by (unfold stat_dict; destruct (s_solved _); reflexivity).
  rewrite D1, D2, D3, D4. cbn [bind]. rewrite L. change (3 <=? 3)%nat with true. cbn [bind gss slot]. rewrite !conv_yes. reflexivity.
Qed.
Lemma stationary_entries : c_poly c = false -> Forall2 entry (unpack_stationary 3 (results_of c ts)) stationary_contents.
Proof.
  intros P. unfold unpack_stationary, n_combos, results_of. cbn [r_poly r_stat]. rewrite P, map_length. cbv zeta.
  assert (N : forall k (g : triad -> R), (forall t, dget (stat_dict (t_stat t)) k = Ok (CNum (g t))) ->
    fill1 F64 (List.length ts) (keyed (map (fun t => Some (stat_dict (t_stat t))) ts) k) = Ok (col (Scalars F64 (fun t => Num (g t))) ts)).
  { intros k g H. rewrite (keyed_ok _ _ ts H). apply fill1_cells. intros t I. reflexivity. }
  assert (O : forall k (g : solved -> R), (forall t, dget (stat_dict (t_stat t)) k = Ok (match s_solved (t_stat t) with Some v => CNum (g v) | None => CNone end)) ->
    fill1 F64 (List.length ts) (keyed (map (fun t => Some (stat_dict (t_stat t))) ts) k) = Ok (col (Scalars F64 (solved_field g)) ts)).
  { intros k g H. rewrite (keyed_ok _ _ ts H). apply fill1_cells. intros t I. unfold solved_field. destruct (s_solved (t_stat t)); reflexivity. }
  assert (V : forall k (g : solved -> list R), (forall t, dget (stat_dict (t_stat t)) k = Ok (CVec (match s_solved (t_stat t) with Some v => g v | None => [0; 0; 0]%R end))) ->
    (forall t v, In t ts -> s_solved (t_stat t) = Some v -> three (g v)) ->
    fill2 F64 (List.length ts) 3 (keyed (map (fun t => Some (stat_dict (t_stat t))) ts) k) = Ok (col (Rows F64 3 (solved_row g)) ts)).
  { intros k g H T. rewrite (keyed_ok _ _ ts H). apply fill2_cells. intros t I. apply row_vec. specialize (T t). destruct (s_solved (t_stat t)); [apply T; auto|reflexivity]. }
  assert (Q : forall t v, In t ts -> s_solved (t_stat t) = Some v -> three (amps v) /\ three (flucs v)).
  { intros t v I E. destruct (shaped t I) as (_ & _ & S). rewrite E in S. exact S. }
  unfold stationary_contents. repeat apply Forall2_cons; try apply Forall2_nil; (split; [reflexivity|]); cbn [snd];
    try (apply N; intros t; unfold stat_dict; destruct (s_solved _); reflexivity);
    try (apply O; intros t; unfold stat_dict; destruct (s_solved _); reflexivity);
    try (apply V; [intros t; unfold stat_dict; destruct (s_solved _); reflexivity|intros t v I E; apply (Q t v I E)]).
  unfold vec3. rewrite (keyed_ok _ (fun t => CVec (rates (t_stat t))) ts) by (intros t; unfold stat_dict; destruct (s_solved _); reflexivity).
  apply fill2_cells. intros t I. apply row_vec. destruct (shaped t I) as (S & _). apply (three_in _ _ S). in_list.
Qed.
Lemma assigns_ok l xs : Forall2 entry l xs -> assigns l = Ok (map (fun kx => (fst kx, col (snd kx) ts)) xs).
Proof.
  induction 1 as [|[k r] [k' x] l xs [E1 E2] H IH]; [reflexivity|]. cbn in *. subst. cbn. rewrite IH. reflexivity.
Qed.
Definition unit_of (us : list triad) : list cell := map (fun t => CStr (units (t_freqs t))) us.
Lemma units_ok : unpack_units (results_of c ts) = Ok (unit_of ts).
Proof. unfold unpack_units, results_of. cbn [r_poly r_freq]. destruct (c_poly c); apply column_ok; reflexivity. Qed.
Lemma unpack_ok : ts <> [] -> unpack 3 (results_of c ts) = Ok (map (fun kx => (fst kx, col (snd kx) ts)) (contents c)).
Proof.
  intros N. unfold unpack. rewrite (assigns_ok _ (contents c)).
  - cbn [bind]. rewrite units_ok. reflexivity.
  - unfold contents. repeat apply Forall2_app.
    + destruct (c_poly c) eqn:P; [unfold unpack_checks; cbn; rewrite P; constructor|apply checks_entries, P].
    + destruct (c_poly c) eqn:P; [unfold unpack_stationary; cbn; rewrite P; constructor|apply stationary_entries, P].
    + apply coupling_entries.
    + apply stats_entries.
    + apply freqs_entries.
    + apply orders_entries, N.
Qed.
End Entries.

(** ** the storage actions of a run *)
Fixpoint cget (xs : list (string * content)) (k : string) : option content :=
  match xs with [] => None | (k', x) :: xs' => if k =? k' then Some x else cget xs' k end.
Lemma sget_contents ts xs k : sget (map (fun kx => (fst kx, col (snd kx) ts)) xs) k =
  match cget xs k with Some x => Ok (col x ts) | None => Exc AttributeError end.
Proof. induction xs as [|[k' x] xs IH]; [reflexivity|]. cbn. destruct (k =? k'); [reflexivity|exact IH]. Qed.
Definition op_of (A : string -> arr) (u : string) (a : act) : op :=
  match a with
  | AAttr g n v => SetAttr g n v
  | AUnits g => SetAttr g "frequency_units" (AStr u)
  | AData g n k => SetData g n (A k)
  end.
Lemma eval_acts_ok s u us A acts : (forall g n k, In (AData g n k) acts -> sget s k = Ok (A k)) ->
  eval_acts s (CStr u :: us) acts = (map (op_of A u) acts, Ok tt).
Proof.
  induction acts as [|a acts IH]; intros H; [reflexivity|]. cbn [eval_acts map].
  assert (E : eval_act s (CStr u :: us) a = Ok (op_of A u a)).
  { destruct a; try reflexivity. cbn. rewrite (H group name attribute) by (left; reflexivity). reflexivity. }
  rewrite E, IH by (intros; eapply H; right; eassumption). reflexivity.
Qed.
Definition dummy : arr := mkArr F64 [] (fun _ => Undef).
Definition array_of (c : config) (ts : list triad) (k : string) : arr := match cget (contents c) k with Some x => col x ts | None => dummy end.
Definition known (c : config) (a : act) : bool := match a with AData _ _ k => match cget (contents c) k with Some _ => true | None => false end | _ => true end.
Lemma acts_known c ts : forallb (known c) (save_acts (results_of c ts)) = true.
Proof. unfold save_acts, known, contents. cbn [r_poly results_of]. destruct (c_poly c); reflexivity. Qed.
Definition ops_of (c : config) (ts : list triad) (u : string) : list op := map (op_of (array_of c ts) u) (save_acts (results_of c ts)).
Lemma store_ok c t ts m disk : Forall well_shaped (t :: ts) ->
  store_results 3 m disk (results_of c (t :: ts)) = save m disk (ops_of c (t :: ts) (units (t_freqs t))) (Ok tt).
Proof.
  intros W. unfold store_results. rewrite (unpack_ok c (t :: ts) W) by discriminate. rewrite (units_ok c). cbn [unit_of map].
  rewrite (eval_acts_ok _ _ _ (array_of c (t :: ts))); [reflexivity|].
  intros g n k I.
  pose proof (acts_known c (t :: ts)) as K. rewrite forallb_forall in K. specialize (K _ I). cbn in K.
  rewrite sget_contents. unfold array_of. destruct (cget (contents c) k); [reflexivity|discriminate].
Qed.
(** the way is clear in a new file *)
Lemma ops_clear c ts u : clear_way [] [[]] (ops_of c ts u) = true.
Proof.
  unfold ops_of, save_acts. generalize (array_of c ts). intros A. cbn [r_poly results_of]. destruct (c_poly c); reflexivity.
Qed.
(** ** every entry of the table is the content of some action *)
Definition listed (c : config) (acts : list act) (e : string * content) : Prop :=
  exists g n k, In (AData g n k) acts /\ g ++ "/" ++ n = fst e /\ cget (contents c) k = Some (snd e).
Fixpoint find_key (acts : list act) (name : string) : option (string * string * string) :=
  match acts with
  | [] => None
  | AData g n k :: acts' => if g ++ "/" ++ n =? name then Some (g, n, k) else find_key acts' name
  | _ :: acts' => find_key acts' name
  end.
Lemma find_key_in acts name g n k : find_key acts name = Some (g, n, k) -> In (AData g n k) acts /\ g ++ "/" ++ n = name.
Proof.
  induction acts as [|a acts IH]; [discriminate|]. cbn [find_key]. destruct a as [g' n' v'|g'|g' n' k']; try (intros H; destruct (IH H); split; [right|]; assumption).
  destruct (String.eqb_spec (g' ++ "/" ++ n') name) as [E|E].
  - intros H. inversion H; subst. split; [left|]; reflexivity.
  - intros H; destruct (IH H); split; [right|]; assumption.
Qed.
Lemma table_listed c ts : Forall (listed c (save_acts (results_of c ts))) (("mode_statistics/wu", Scalars I64 (fun t => Num (trunc (mean3 (t_orders t))))) :: results_table c).
Proof.
  assert (K : forall e g n k, find_key (save_acts (results_of c ts)) (fst e) = Some (g, n, k) -> cget (contents c) k = Some (snd e) -> listed c (save_acts (results_of c ts)) e).
  { intros e g n k H J. destruct (find_key_in _ _ _ _ _ H). exists g, n, k. auto. }
  revert K. unfold results_table. generalize (listed c (save_acts (results_of c ts))). intros Q K. unfold save_acts in K. cbn [r_poly results_of] in K.
  unfold contents in K. destruct (c_poly c) eqn:P; cbn [negb] in K; (apply Forall_cons; [|apply Forall_app; split; [unfold common_table|try unfold mesa_table]]);
    repeat (apply Forall_cons; [|]); try apply Forall_nil; (eapply K; [lazy; reflexivity|reflexivity]).
Qed.
