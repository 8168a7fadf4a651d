(** * Theorems about the older solver class: C167 (what it is made for and what it is asked), C168 (agreement with the classes used by
    the scripts, whatever was done before) and C169 (properties that can never be read). *)
From Coq Require Import Reals QArith List ZArith String Bool Lia.
From Coquelicot Require Import Coquelicot.
From Verif Require Import Base Py Inlist_Model Parser_Model Parser_Proofs Setup_Model Run_Model Legacy_Model Legacy_Spec.
From Verif Require Run_Proofs Saver_Model Solver_Model Solver_Spec Solver_Proofs Properties_Solver Tar_Model Properties_Setup Properties_RunFiles.
Import ListNotations.
Local Open Scope string_scope.

(** ** Binding of arguments *)
Lemma fill_get : forall sg pos kw a n d, fill sg pos kw = Ok a -> NoDup (map fst sg) -> pos = [] -> In (n, d) sg ->
  tget a n = match tget kw n with Some v => Some v | None => d end.
Proof.
  induction sg as [|[n0 d0] sg IH]; intros pos kw a n d E N -> I; [destruct I|]. cbn [fill] in E. cbn [map fst] in N. inversion N as [|? ? N1 N2]; subst.
  destruct (match tget kw n0 with Some v => Some v | None => d0 end) as [v|] eqn:V; [|discriminate].
  destruct (fill sg [] kw) as [r| |] eqn:R; cbn [bind] in E; try discriminate. injection E as <-. destruct I as [I|I].
  - injection I as -> ->. cbn [tget]. rewrite String.eqb_refl. symmetry. exact V.
  - cbn [tget]. destruct (String.eqb_spec n n0) as [->|D]; [exfalso; apply N1; apply (in_map fst) in I; exact I|]. exact (IH [] kw r n d R N2 eq_refl I).
Qed.
Lemma fill_one n0 d0 sg v kw a n d : fill ((n0, d0) :: sg) [v] kw = Ok a -> NoDup (n0 :: map fst sg) -> In (n, d) sg ->
  tget a n = match tget kw n with Some v => Some v | None => d end.
Proof.
  cbn [fill]. destruct (tget kw n0); [discriminate|]. destruct (fill sg [] kw) as [r| |] eqn:R; cbn [bind]; try discriminate. intros E N I. injection E as <-.
  inversion N as [|? ? N1 N2]; subst. cbn [tget]. destruct (String.eqb_spec n n0) as [->|D]; [exfalso; apply N1; apply (in_map fst) in I; exact I|].
  exact (fill_get sg [] kw r n d R N2 eq_refl I).
Qed.
Lemma legacy_names : NoDup (map fst legacy_sig).
Proof. apply Run_Proofs.nodupb_spec. vm_compute. reflexivity. Qed.
Lemma legacy_get argv kw a n d : call legacy_sig [argv] kw = Ok a -> In (n, d) (tl legacy_sig) -> tget a n = match tget kw n with Some v => Some v | None => d end.
Proof.
  unfold call. destruct (distinct (map fst kw) && forallb (known (map fst legacy_sig)) (map fst kw)); [|discriminate]. intros E I.
  exact (fill_one "sys_args" None (tl legacy_sig) argv kw a n d E legacy_names I).
Qed.
Ltac member := solve [repeat first [left; reflexivity | right]].

(** *** Tables *)
Lemma renamed_ext t t' : forall l, (forall p, In p l -> tget t (snd p) = tget t' (snd p)) -> renamed t l = renamed t' l.
Proof.
  induction l as [|p l IH]; intros H; [reflexivity|]. unfold renamed in *. cbn [mapM]. assert (X : item (snd p) (VTab t) = item (snd p) (VTab t')) by (cbn [item]; rewrite (H p (or_introl eq_refl)); reflexivity). rewrite X. destruct (item (snd p) (VTab t')); [|reflexivity..]. cbn [bind].
  rewrite IH; [reflexivity|]. intros q Q. apply H. right. exact Q.
Qed.
Lemma values_ext t t' : forall l, (forall n, In n l -> tget t n = tget t' n) -> values t l = values t' l.
Proof.
  induction l as [|p l IH]; intros H; [reflexivity|]. unfold values in *. cbn [mapM]. assert (X : item p (VTab t) = item p (VTab t')) by (cbn [item]; rewrite (H p (or_introl eq_refl)); reflexivity). rewrite X. destruct (item p (VTab t')); [|reflexivity..]. cbn [bind].
  rewrite IH; [reflexivity|]. intros q Q. apply H. right. exact Q.
Qed.
Lemma fill_all : forall sg vs b, List.length vs = List.length sg -> fill sg vs [] = Ok b -> b = combine (map fst sg) vs.
Proof.
  induction sg as [|[n d] sg IH]; intros [|v vs] b E H; try discriminate; [injection H as <-; reflexivity|]. cbn [fill tget] in H. destruct (fill sg vs []) as [r| |] eqn:R; cbn [bind] in H; try discriminate.
  injection H as <-. cbn [map combine fst]. f_equal. apply IH; [|exact R]. cbn in E. lia.
Qed.
Lemma values_get a : forall ks vs n, values a ks = Ok vs -> In n ks -> tget (combine ks vs) n = tget a n.
Proof.
  induction ks as [|k ks IH]; intros vs n H I; [destruct I|]. unfold values in H. cbn [mapM] in H. destruct (item k (VTab a)) as [v| |] eqn:K'; cbn [bind] in H; try discriminate. assert (K : tget a k = Some v) by (cbn [item] in K'; destruct (tget a k); congruence).
  fold (values a ks) in H. destruct (values a ks) as [vs'| |] eqn:V; cbn [bind] in H; try discriminate. injection H as <-. cbn [combine tget]. destruct (String.eqb_spec n k) as [->|D]; [symmetry; exact K|].
  destruct I as [I|I]; [congruence|]. exact (IH vs' n eq_refl I).
Qed.
Lemma values_length a : forall ks vs, values a ks = Ok vs -> List.length vs = List.length ks.
Proof.
  induction ks as [|k ks IH]; intros vs H; [injection H as <-; reflexivity|]. unfold values in H. cbn [mapM] in H. destruct (item k (VTab a)) as [v| |]; cbn [bind] in H; try discriminate.
  fold (values a ks) in H. destruct (values a ks) as [vs'| |] eqn:V; cbn [bind] in H; try discriminate. injection H as <-. cbn. rewrite (IH vs' eq_refl). reflexivity.
Qed.
Lemma renamed_app t : forall l1 l2, renamed t (l1 ++ l2)%list = (x <- renamed t l1 ; y <- renamed t l2 ; Ok (x ++ y)%list)%res.
Proof.
  induction l1 as [|p l1 IH]; intros l2; [cbn [app]; unfold renamed at 2; cbn [mapM bind]; destruct (renamed t l2); reflexivity|]. unfold renamed in *. cbn [app mapM]. destruct (bind (item (snd p) (VTab t)) _) as [v| |]; cbn [bind]; [|reflexivity|reflexivity].
  rewrite IH. destruct (mapM _ l1) as [x| |]; cbn [bind]; [|reflexivity|reflexivity]. destruct (mapM _ l2) as [y| |]; reflexivity.
Qed.
Lemma tget_app (t1 t2 : table) n : tget (t1 ++ t2)%list n = match tget t1 n with Some v => Some v | None => tget t2 n end.
Proof. induction t1 as [|[k v] t1 IH]; [reflexivity|]. cbn [app tget]. destruct (String.eqb n k); [reflexivity|exact IH]. Qed.
Lemma coupler_call_ext t t' : (forall n, n <> "_display_progress_bars" -> n <> "_recompute_for_profile" -> tget t n = tget t' n) -> coupler_call t = coupler_call t'.
Proof.
  intros H. unfold coupler_call. cbn [item]. rewrite (H "_polytrope_comp") by discriminate. destruct (tget t' "_polytrope_comp") as [p|]; [|reflexivity]. cbn [bind].
  rewrite (H "_adiabatic") by discriminate. destruct (tget t' "_adiabatic") as [ad|]; [|reflexivity]. cbn [bind].
  rewrite !(renamed_ext t t'); [reflexivity|..]; intros q Q; cbn [In] in Q; repeat (destruct Q as [<-|Q]; [apply H; discriminate|]); destruct Q.
Qed.
(** *** What reaches the components *)
Definition common : list (string * string) :=
  [("_nr_omp_threads", "nr_omp_threads"); ("_use_parallel", "use_parallel"); ("_numerical_integration_method", "numerical_integration_method");
   ("_use_cheby", "use_cheby_integration"); ("_cheby_order_mul", "cheby_order_multiplier"); ("_cheby_blow_up", "cheby_blow_up_protection");
   ("_cheby_blow_up_fac", "cheby_blow_up_factor"); ("_get_debug_info", "get_debug_info"); ("_polytrope_comp", "polytrope_comp");
   ("_analytic_polytrope", "analytic_polytrope"); ("_polytrope_mass", "polytrope_mass"); ("_polytrope_radius", "polytrope_radius");
   ("_ld_function", "ld_function"); ("_stat_solv", "stationary_solving"); ("_rot_pct", "rot_pct"); ("_use_rot_formalism", "use_rotating_formalism");
   ("_use_symbolic_profiles", "use_symbolic_profiles"); ("_use_brunt_def", "use_brunt_def"); ("_use_complex", "use_complex"); ("_adiabatic", "adiabatic");
   ("_terms_cc_conj", "terms_cc_conj")].
Definition folder_args := [("sys_arguments", "sys_args"); ("alternative_directory_path", "alternative_directory_path"); ("alternative_file_name", "alternative_file_name");
     ("toml_use", "toml_use"); ("inlist_path", "inlist_path"); ("called_from_pytest", "called_from_pytest"); ("pytest_file_path", "pytest_path")].
Definition disc_args := ["_ld_function"; "_numerical_integration_method"; "_nr_omp_threads"; "_use_parallel"].
Lemma stored_split : stored = (common ++ [("_inlist_path", "inlist_path"); ("_display_progress_bars", "progress_bars")])%list.
Proof. reflexivity. Qed.
Lemma legacy_split : legacy_stored = (common ++ [("_recompute_for_profile", "recompute_for_profile"); ("_inlist_path", "inlist_path")])%list.
Proof. reflexivity. Qed.
Lemma mem_in n l : existsb (String.eqb n) l = true -> In n l.
Proof. intros H. apply existsb_exists in H. destruct H as (x & I & E). apply String.eqb_eq in E. subst x. exact I. Qed.
Lemma all_in (l : list (string * string)) ks : forallb (fun q => existsb (String.eqb (snd q)) ks) l = true -> forall q, In q l -> In (snd q) ks.
Proof. intros H q Q. rewrite forallb_forall in H. apply mem_in, (H q Q). Qed.
Lemma common_shared q : In q common -> In (snd q) shared.
Proof. apply all_in. vm_compute. reflexivity. Qed.
Lemma folder_shared q : In q folder_args -> In (snd q) shared.
Proof. apply all_in. vm_compute. reflexivity. Qed.
Lemma item_ext n t t' : tget t n = tget t' n -> item n (VTab t) = item n (VTab t').
Proof. cbn [item]. intros ->. reflexivity. Qed.
Lemma base_bound a vs b : values a passed_on = Ok vs -> call base_sig vs [] = Ok b -> forall n, In n passed_on -> tget b n = tget a n.
Proof.
  intros V B n N. unfold call in B. cbn [map distinct forallb andb] in B. rewrite (fill_all base_sig vs b); [|rewrite (values_length _ _ _ V); reflexivity|exact B].
  change (map fst base_sig) with passed_on. exact (values_get a passed_on vs n V N).
Qed.
(** the attributes of both classes *)
Lemma attributes_agree a b rv : (forall n, In n shared -> tget a n = tget b n) -> tget a "recompute_for_profile" = Some rv -> forall t', renamed b stored = Ok t' ->
  exists t, renamed a legacy_stored = Ok t /\ forall n, n <> "_display_progress_bars" -> n <> "_recompute_for_profile" -> tget t n = tget t' n.
Proof.
  intros A Rc t'. rewrite stored_split, legacy_split, !renamed_app. rewrite (renamed_ext a b common) by (intros q Q; apply A, common_shared, Q).
  destruct (renamed b common) as [tc| |]; cbn [bind]; try discriminate. unfold renamed. cbn [mapM fst snd].
  rewrite (item_ext "inlist_path" a b) by (apply A, mem_in; vm_compute; reflexivity).
  assert (X : item "recompute_for_profile" (VTab a) = Ok rv) by (cbn [item]; rewrite Rc; reflexivity). rewrite X.
  destruct (item "inlist_path" (VTab b)) as [iv| |]; cbn [bind]; try discriminate. destruct (item "progress_bars" (VTab b)) as [pv| |]; cbn [bind]; try discriminate.
  intros E. injection E as <-. eexists. split; [reflexivity|]. intros n N1 N2. rewrite !tget_app. destruct (tget tc n); [reflexivity|]. cbn [tget].
  destruct (String.eqb_spec n "_recompute_for_profile"); [contradiction|]. destruct (String.eqb_spec n "_inlist_path"); [reflexivity|]. destruct (String.eqb_spec n "_display_progress_bars"); [contradiction|reflexivity].
Qed.
Lemma shared_passed n : In n shared -> In n passed_on.
Proof. unfold shared. intros N. apply filter_In in N. exact (proj1 N). Qed.
Lemma recompute_bound argv kw a : call legacy_sig [argv] kw = Ok a -> exists v, tget a "recompute_for_profile" = Some v.
Proof.
  intros C. pose proof (legacy_get argv kw a "recompute_for_profile" F C) as X. destruct (tget kw "recompute_for_profile"); eexists; (apply X; member).
Qed.
(** The older class and the base class of the classes used by the scripts hand the same values to every component. *)
Theorem C168_same_components : forall repr folders sg argv kw kw' a a' k', call legacy_sig [argv] kw = Ok a -> solver_init repr folders sg argv kw' = Ok (a', k') ->
  same_arguments a a' -> exists k, legacy_wiring repr folders a = Ok k /\ same_components k k'.
Proof.
  intros repr folders sg argv kw kw' a a' k' C I Sm. unfold solver_init in I. destruct (call sg [argv] kw') as [a0| |]; cbn [bind] in I; try discriminate.
  destruct (values a0 passed_on) as [vs| |] eqn:V; cbn [bind] in I; try discriminate. destruct (call base_sig vs []) as [b| |] eqn:B; cbn [bind] in I; try discriminate.
  pose proof (base_bound a0 vs b V B) as G. clear V B.
  unfold base_init in I. fold folder_args in I. fold disc_args in I. unfold legacy_wiring. fold folder_args. fold disc_args.
  destruct (renamed b stored) as [t'| |] eqn:Rb; cbn [bind] in I; try discriminate.
  destruct (item "polytrope_comp" (VTab b)) as [v1| |] eqn:E1; cbn [bind] in I; try discriminate. destruct (item "rot_pct" (VTab b)) as [v2| |] eqn:E2; cbn [bind] in I; try discriminate.
  destruct (item "base_dir" (VTab b)) as [v3| |] eqn:E3; cbn [bind] in I; try discriminate. destruct (item "ad_path" (VTab b)) as [v4| |] eqn:E4; cbn [bind] in I; try discriminate.
  destruct (item "nad_path" (VTab b)) as [v5| |] eqn:E5; cbn [bind] in I; try discriminate. destruct (renamed b folder_args) as [fa| |] eqn:E6; cbn [bind] in I; try discriminate.
  destruct (folders fa) as [f| |] eqn:E7; cbn [bind] in I; try discriminate. destruct (solver_setup repr (truthy v1) v2 v3 v4 v5 f) as [st| |] eqn:E8; cbn [bind] in I; try discriminate.
  destruct (coupler_call t') as [c| |] eqn:E9; cbn [bind] in I; try discriminate.
  destruct (item "_polytrope_comp" (VTab t')) as [u1| |] eqn:F1; cbn [bind] in I; try discriminate. destruct (item "_adiabatic" (VTab t')) as [u2| |] eqn:F2; cbn [bind] in I; try discriminate.
  destruct (item "_terms_cc_conj" (VTab t')) as [u3| |] eqn:F3; cbn [bind] in I; try discriminate. destruct (values t' disc_args) as [ds| |] eqn:F4; cbn [bind] in I; try discriminate.
  assert (a0 = a') as -> by congruence.
  assert (A : forall n, In n shared -> tget a n = tget b n).
  { intros n N. rewrite (Sm n N). symmetry. apply G, shared_passed, N. }
  destruct (recompute_bound argv kw a C) as [rv Rc]. destruct (attributes_agree a b rv A Rc t' Rb) as (t & Ra & X). rewrite Ra. cbn [bind].
  assert (J : forall n, existsb (String.eqb n) shared = true -> item n (VTab a) = item n (VTab b)) by (intros n N; apply item_ext, A, mem_in, N).
  rewrite (J "polytrope_comp"), (J "rot_pct"), (J "base_dir"), (J "ad_path"), (J "nad_path") by (vm_compute; reflexivity). rewrite E1, E2, E3, E4, E5. cbn [bind].
  rewrite (renamed_ext a b folder_args) by (intros q Q; apply A, folder_shared, Q). rewrite E6. cbn [bind]. rewrite E7. cbn [bind]. rewrite E8. cbn [bind].
  rewrite (coupler_call_ext t t' X), E9. cbn [bind].
  assert (Y : forall n, n <> "_display_progress_bars" -> n <> "_recompute_for_profile" -> item n (VTab t) = item n (VTab t')) by (intros n N1 N2; apply item_ext, X; assumption).
  rewrite (Y "_polytrope_comp"), (Y "_adiabatic"), (Y "_terms_cc_conj") by discriminate. rewrite F1, F2, F3. cbn [bind].
  rewrite (values_ext t t' disc_args). 2: { intros q Q. cbn [In disc_args] in Q. repeat (destruct Q as [<-|Q]; [apply X; discriminate|]). destruct Q. }
  rewrite F4. cbn [bind]. eexists. split; [reflexivity|]. injection I as <-.
  unfold same_components. cbn [k_setup k_source k_coupler k_handler k_conj k_disc k_folders k_attributes]. repeat (split; [reflexivity|]). exact X.
Qed.

Section Theorems.
Variable repr : val -> string.
Variables data coupler : Type.
Variable w : world data coupler.
Variable argv : val.
Notation object := (object data coupler).
Notation construct := (construct repr data coupler w).
Notation call_object := (call_object repr data coupler w).
Notation run_method := (run_method repr data coupler w).
Notation history := (history repr data coupler w).

(** ** C167 *)
(** The flags compute_grid and compute_profile default to False, and exactly one of them must be true; otherwise the constructor raises
    whatever the other arguments are, before any file is read. *)
Theorem C167_one_purpose : forall kw a cg cp, call legacy_sig [argv] kw = Ok a ->
  (tget kw "compute_grid" = Some (VBool cg) \/ (tget kw "compute_grid" = None /\ cg = false)) ->
  (tget kw "compute_profile" = Some (VBool cp) \/ (tget kw "compute_profile" = None /\ cp = false)) ->
  (cg = cp -> construct argv kw = Exc RuntimeError) /\
  (forall b, construct argv kw = Ok b -> cg = negb cp /\
     match b_purpose _ _ b with
     | ForGrid l m os => cg = true /\ List.length (Solver_Model.l_couple _ _ (b_state _ _ b)) = List.length os
     | ForProfile sel => cp = true /\ tget kw "cc_profile_selection_dict" = Some sel /\ List.length (Solver_Model.l_couple _ _ (b_state _ _ b)) = 1%nat
     end).
Proof.
  intros kw a cg cp C G P.
  assert (G' : item "compute_grid" (VTab a) = Ok (VBool cg)).
  { cbn [item]. rewrite (legacy_get argv kw a "compute_grid" F C ltac:(member)). destruct G as [->|[-> ->]]; reflexivity. }
  assert (P' : item "compute_profile" (VTab a) = Ok (VBool cp)).
  { cbn [item]. rewrite (legacy_get argv kw a "compute_profile" F C ltac:(member)). destruct P as [->|[-> ->]]; reflexivity. }
  unfold Legacy_Model.construct. rewrite C. cbn [bind]. rewrite G'. cbn [bind as_bool]. rewrite P'. cbn [bind as_bool]. split.
  - intros <-. destruct cg; reflexivity.
  - intros b E. destruct cg, cp; try discriminate; (split; [reflexivity|]); cbn [negb andb] in E.
    + destruct (grid_modes (w_orders data coupler w) a) as [g| |]; cbn [bind] in E; try discriminate.
      destruct (as_Zs (g_l g)) as [l| |]; cbn [bind] in E; try discriminate. destruct (as_Zs (g_m g)) as [m| |]; cbn [bind] in E; try discriminate.
      destruct (legacy_wiring repr _ a) as [k| |]; cbn [bind] in E; try discriminate. destruct (cfg_of k) as [cfg| |]; cbn [bind] in E; try discriminate.
      destruct (item "save_name" (VTab a)) as [nm| |]; cbn [bind] in E; try discriminate. injection E as <-.
      cbn [b_purpose b_state fst snd]. split; [reflexivity|]. unfold Solver_Model.fresh. cbn [Solver_Model.l_couple]. apply repeat_length.
    + destruct (item "cc_profile_selection_dict" (VTab a)) as [sel| |] eqn:Sl; cbn [bind] in E; try discriminate.
      destruct (legacy_wiring repr _ a) as [k| |]; cbn [bind] in E; try discriminate. destruct (cfg_of k) as [cfg| |]; cbn [bind] in E; try discriminate.
      destruct (item "save_name" (VTab a)) as [nm| |]; cbn [bind] in E; try discriminate. injection E as <-.
      cbn [b_purpose b_state fst snd]. split; [reflexivity|]. split; [|reflexivity]. cbn [item] in Sl.
      rewrite (legacy_get argv kw a "cc_profile_selection_dict" None C ltac:(member)) in Sl. destruct (tget kw "cc_profile_selection_dict") as [v|]; [|discriminate]. congruence.
Qed.
(** Even for a grid the dictionary describing the profile has to be given. *)
Theorem C167_profile_dictionary_required : forall kw, tget kw "cc_profile_selection_dict" = None -> construct argv kw = Exc TypeError.
Proof.
  intros kw N. unfold Legacy_Model.construct. enough (X : call legacy_sig [argv] kw = Exc TypeError) by (rewrite X; reflexivity).
  unfold call. destruct (distinct (map fst kw) && forallb (known (map fst legacy_sig)) (map fst kw)); [|reflexivity].
  unfold legacy_sig. cbn [fill]. destruct (tget kw "sys_args"); [reflexivity|]. rewrite N. reflexivity.
Qed.
(** Contradictory requests: nothing is computed and the object stays as it is. *)
Theorem C167_contradictory_request : forall g b, call_object g g b = (b, [], Exc InlistError).
Proof. intros [] b; reflexivity. Qed.

(** ** What a method leaves alone *)
Definition follows (b b' : object) : Prop :=
  b_purpose _ _ b' = b_purpose _ _ b /\ b_wiring _ _ b' = b_wiring _ _ b /\ b_cfg _ _ b' = b_cfg _ _ b /\ b_name _ _ b' = b_name _ _ b /\
  b_rates _ _ b' = b_rates _ _ b /\ b_products _ _ b' = b_products _ _ b /\
  (forall l m os, b_purpose _ _ b = ForGrid l m os -> b_orders _ _ b' = b_orders _ _ b) /\
  (forall n, Solver_Spec.sized data coupler n (b_state _ _ b) -> Solver_Spec.sized data coupler n (b_state _ _ b')).
Lemma follows_refl b : follows b b.
Proof. repeat split; try apply H. Qed.
Lemma follows_trans b1 b2 b3 : follows b1 b2 -> follows b2 b3 -> follows b1 b3.
Proof.
  intros (A1 & A2 & A3 & A4 & A5 & A6 & A7 & A8) (B1 & B2 & B3 & B4 & B5 & B6 & B7 & B8).
  do 6 (split; [congruence|]). split; [|intros n H; apply B8, A8, H]. intros l m os H. rewrite (B7 l m os); [exact (A7 l m os H)|congruence].
Qed.
Definition steps {A} (m : L data coupler A) : Prop := forall b, follows b (fst (fst (m b))).
Lemma steps_bind {A B} (m : L data coupler A) (k : A -> L data coupler B) : steps m -> (forall a, steps (k a)) -> steps (bindL _ _ m k).
Proof.
  intros H1 H2 b. unfold bindL. specialize (H1 b). destruct (m b) as [[b1 f1] r]. cbn [fst] in H1. destruct r as [a| |e]; [|exact H1|exact H1].
  specialize (H2 a b1). destruct (k a b1) as [[b2 f2] r2]. exact (follows_trans _ _ _ H1 H2).
Qed.
Lemma steps_pure {A} f (r : object -> res A) : steps (fun b => (b, f, r b)).
Proof. intros b. apply follows_refl. Qed.
Definition sound {A} (m : Solver_Model.M data coupler A) : Prop := forall n s, Solver_Spec.sized data coupler n s -> Solver_Spec.sized data coupler n (fst (m s)).
Lemma steps_inner {A} (m : Solver_Model.M data coupler A) : sound m -> steps (inner _ _ m).
Proof.
  intros H b. unfold inner. specialize (fun n => H n (b_state _ _ b)). destruct (m (b_state _ _ b)) as [s r]. cbn [fst] in *. destruct b; cbn in *.
  repeat (split; [reflexivity|]). exact H.
Qed.
Lemma sound_bind {A B} (m : Solver_Model.M data coupler A) (k : A -> Solver_Model.M data coupler B) : sound m -> (forall a, sound (k a)) -> sound (Solver_Model.bindM _ _ m k).
Proof.
  intros H1 H2 n s Z. unfold Solver_Model.bindM. specialize (H1 n s Z). destruct (m s) as [s1 r]. cbn [fst] in H1. destruct r as [a| |e]; [|exact H1|exact H1]. apply H2, H1.
Qed.
Lemma sound_pure {A} (f : Solver_Model.state data coupler -> res A) : sound (fun s => (s, f s)).
Proof. intros n s Z. exact Z. Qed.
Lemma sound_modify f : (forall n s, Solver_Spec.sized data coupler n s -> Solver_Spec.sized data coupler n (f s)) -> sound (Solver_Model.modify data coupler f).
Proof. intros H n s Z. apply H, Z. Qed.
Ltac slots := apply sound_modify; intros ? ? (? & ? & ? & ? & ?); unfold Solver_Spec.sized; cbn; rewrite ?Solver_Proofs.put_slot_length; repeat split; assumption.
Ltac snd_ := repeat first [apply sound_bind; [|intros ?] | apply sound_pure | progress slots
  | match goal with |- sound (match ?x with _ => _ end) => destruct x end | match goal with |- sound (let _ := _ in _) => cbv zeta end].
Lemma sound_one cfg ld mh sn tm sc sel mk co jc lg xr di i o : sound (Solver_Model.compute_coupling_one_triad cfg data coupler ld mh sn tm sc sel mk co jc lg xr di i o).
Proof. unfold Solver_Model.compute_coupling_one_triad, Solver_Model.additional_mode_info, Solver_Model.need. snd_. Qed.
Lemma sound_stationary co pre i : sound (Solver_Model.three_mode_stationary data coupler co pre i).
Proof. unfold Solver_Model.three_mode_stationary, Solver_Model.need. snd_. Qed.
Lemma sound_statistics : forall os i, sound (Solver_Model.store_statistics data coupler i os).
Proof. induction os as [|o os IH]; intros i; cbn [Solver_Model.store_statistics]; [apply sound_pure|]. apply sound_bind; [slots|]. intros _. apply IH. Qed.
Lemma sound_load d : sound (Solver_Model.modify data coupler (Solver_Model.set_data data coupler d)).
Proof. slots. Qed.
Lemma sound_stat i d : sound (Solver_Model.modify data coupler (Solver_Model.set_stat data coupler i d)).
Proof. slots. Qed.
Ltac st_ := repeat first [apply steps_bind; [|intros ?] | apply steps_pure | apply steps_inner; first [apply sound_one|apply sound_stationary|apply sound_statistics|apply sound_load|apply sound_stat]
  | match goal with |- steps (match ?x with _ => _ end) => destruct x end | match goal with |- steps (let _ := _ in _) => cbv zeta end].
Lemma steps_profile_orders n (b : object) : (forall l m os, b_purpose _ _ b <> ForGrid l m os) -> follows b (set_orders _ _ n b).
Proof. intros H. destruct b; cbn in *. repeat (split; [reflexivity|]). split; [|intros ? Z; exact Z]. intros l m os E. contradiction (H l m os E). Qed.
Lemma steps_target i : steps (target data coupler i).
Proof.
  intros b. unfold target, bindL at 1, getL. destruct (b_purpose _ _ b) as [l m os|sel] eqn:P.
  - destruct (nth_error os i); apply follows_refl.
  - destruct (i =? 0)%nat; [|apply follows_refl]. unfold liftL, put, bindL.
    destruct sel; try apply follows_refl. destruct (item "parent_n" _); try apply follows_refl. destruct (item "daughter_1_n" _); try apply follows_refl.
    destruct (item "daughter_2_n" _); try apply follows_refl. assert (Q : forall n, follows b (set_orders _ _ n b)) by (intros n; apply steps_profile_orders; congruence).
    repeat match goal with |- context [match ?x with _ => _ end] => lazymatch x with
      | as_Z _ => destruct x; try apply Q | bind _ _ => destruct x; try apply Q end end.
Qed.
Lemma steps_one i : steps (compute_coupling_one_triad data coupler w i).
Proof. unfold compute_coupling_one_triad. apply steps_bind; [apply steps_target|]. intros [[l m] o]. st_. Qed.
Lemma steps_coefficient : steps (compute_coupling_coefficient_profile data coupler w).
Proof.
  unfold compute_coupling_coefficient_profile. st_. intros b. destruct b; cbn. repeat (split; [reflexivity|]). intros ? Z; exact Z.
Qed.
Lemma steps_triad_profile t k : steps (compute_mode_triad_profile repr data coupler w t k).
Proof. unfold compute_mode_triad_profile, attr. apply steps_bind; [apply steps_one|]. intros _. apply steps_bind; [apply steps_coefficient|]. intros _. st_. Qed.
Lemma steps_grid_step i : steps (call_grid_computations data coupler w i).
Proof. unfold call_grid_computations. apply steps_bind; [apply steps_one|]. intros pre. st_. Qed.
Lemma steps_each : forall f is, (forall i, steps (f i)) -> steps (each data coupler f is).
Proof. intros f is H. induction is as [|i is IH]; cbn [each]; [apply steps_pure|]. apply steps_bind; [apply H|]. intros _. exact IH. Qed.
Lemma steps_method m : steps (run_method m).
Proof.
  destruct m as [g p|i|i| |t k| |i]; cbn [Legacy_Model.run_method].
  - unfold Legacy_Model.call_object. destruct (p && g); [apply steps_pure|]. destruct p; [apply steps_triad_profile|]. destruct g; [|apply steps_pure].
    apply steps_bind; [apply steps_pure|]. intros s. apply steps_bind; [apply steps_each, steps_grid_step|]. intros _. unfold store_relevant_statistics. st_.
  - unfold load_nonradial_mode_triad. apply steps_bind; [apply steps_target|]. intros [[l m] o]. st_.
  - apply steps_bind; [apply steps_one|]. intros _. apply steps_pure.
  - apply steps_coefficient.
  - apply steps_triad_profile.
  - unfold store_relevant_statistics. st_.
  - unfold print_mode_info, attr. st_.
Qed.
Lemma history_follows ms : forall b, follows b (history ms b).
Proof. induction ms as [|m ms IH]; intros b; [apply follows_refl|]. cbn [Legacy_Model.history]. exact (follows_trans _ _ _ (steps_method m b) (IH _)). Qed.
Lemma fresh_sized n : Solver_Spec.sized data coupler n (Solver_Model.fresh data coupler n).
Proof. unfold Solver_Spec.sized, Solver_Model.fresh. cbn. rewrite !repeat_length. repeat split. Qed.
Lemma constructed kw b : construct argv kw = Ok b -> b_rates _ _ b = None /\ b_products _ _ b = None /\ b_orders _ _ b = None /\ b_profile _ _ b = None /\
  exists n, b_state _ _ b = Solver_Model.fresh data coupler n /\ match b_purpose _ _ b with ForGrid _ _ os => n = List.length os | ForProfile _ => n = 1%nat end.
Proof.
  unfold Legacy_Model.construct. destruct (call legacy_sig [argv] kw) as [a| |]; cbn [bind]; try discriminate.
  destruct (bind (item "compute_grid" (VTab a)) as_bool) as [cg| |]; cbn [bind]; try discriminate. destruct (bind (item "compute_profile" (VTab a)) as_bool) as [cp| |]; cbn [bind]; try discriminate.
  destruct (negb cg && negb cp); [discriminate|]. destruct (cg && cp); [discriminate|]. intros E.
  match type of E with bind ?x _ = _ => destruct x as [[p n]| |] eqn:PN; cbn [bind] in E; try discriminate end.
  destruct (legacy_wiring repr _ a) as [k| |]; cbn [bind] in E; try discriminate. destruct (cfg_of k) as [cfg| |]; cbn [bind] in E; try discriminate.
  destruct (item "save_name" (VTab a)) as [nm| |]; cbn [bind] in E; try discriminate. injection E as <-. cbn [b_rates b_products b_orders b_profile b_state b_purpose fst snd].
  repeat (split; [reflexivity|]). exists n. split; [reflexivity|]. destruct cg.
  - destruct (grid_modes (w_orders data coupler w) a) as [g| |]; cbn [bind] in PN; try discriminate.
    destruct (as_Zs (g_l g)) as [l| |]; cbn [bind] in PN; try discriminate. destruct (as_Zs (g_m g)) as [m| |]; cbn [bind] in PN; try discriminate.
    injection PN as <- <-. reflexivity.
  - destruct (item "cc_profile_selection_dict" (VTab a)) as [sel| |]; cbn [bind] in PN; try discriminate. injection PN as <- <-. reflexivity.
Qed.

(** ** Agreement with the loop of the grid class *)
Section Grid.
Variables (l m : list Z) (os : list Solver_Model.orders) (k : wiring) (cfg : Solver_Model.settings).
Notation gstep := (Solver_Model.grid_step cfg data coupler (load_for data coupler w k l m cfg) (w_handler _ _ w (k_handler k)) (w_nonadiabatic _ _ w) (w_two_mode _ _ w)
    (w_stationary _ _ w (k_conj k)) (w_selection _ _ w (k_conj k)) (w_coupler _ _ w (k_source k) (k_coupler k)) (w_coupled _ _ w) (w_jacobian _ _ w)
    (w_lag _ _ w) (w_xir _ _ w) (w_disc _ _ w (k_disc k))).
Notation gloop := (Solver_Model.grid_loop cfg data coupler (load_for data coupler w k l m cfg) (w_handler _ _ w (k_handler k)) (w_nonadiabatic _ _ w) (w_two_mode _ _ w)
    (w_stationary _ _ w (k_conj k)) (w_selection _ _ w (k_conj k)) (w_coupler _ _ w (k_source k) (k_coupler k)) (w_coupled _ _ w) (w_jacobian _ _ w)
    (w_lag _ _ w) (w_xir _ _ w) (w_disc _ _ w (k_disc k))).
Definition made_for_grid (b : object) : Prop := b_purpose _ _ b = ForGrid l m os /\ b_wiring _ _ b = k /\ b_cfg _ _ b = cfg.
Lemma made_state b s : made_for_grid b -> made_for_grid (set_state _ _ s b).
Proof. intros (A & B & D). destruct b; cbn in *. repeat split; assumption. Qed.
Lemma one_eq b i o : made_for_grid b -> nth_error os i = Some o -> compute_coupling_one_triad data coupler w i b =
  let (s, r) := Solver_Model.compute_coupling_one_triad cfg data coupler (load_for data coupler w k l m cfg) (w_handler _ _ w (k_handler k)) (w_nonadiabatic _ _ w) (w_two_mode _ _ w)
    (w_stationary _ _ w (k_conj k)) (w_selection _ _ w (k_conj k)) (w_coupler _ _ w (k_source k) (k_coupler k)) (w_coupled _ _ w) (w_jacobian _ _ w)
    (w_lag _ _ w) (w_xir _ _ w) (w_disc _ _ w (k_disc k)) i o (b_state _ _ b) in (set_state _ _ s b, [], r).
Proof.
  intros (A & B & D) N. unfold compute_coupling_one_triad, target. unfold bindL, getL. rewrite A, N. unfold retL. rewrite B, D. unfold inner.
  destruct (Solver_Model.compute_coupling_one_triad _ _ _ _ _ _ _ _ _ _ _ _ _ _ _ i o (b_state _ _ b)) as [s [p| |e]]; reflexivity.
Qed.
Lemma step_eq b i o : made_for_grid b -> nth_error os i = Some o -> call_grid_computations data coupler w i b = let (s, r) := gstep i o (b_state _ _ b) in (set_state _ _ s b, [], r).
Proof.
  intros M N. unfold call_grid_computations. unfold bindL at 1. rewrite (one_eq b i o M N). unfold Solver_Model.grid_step. unfold Solver_Model.bindM at 1.
  destruct (Solver_Model.compute_coupling_one_triad _ _ _ _ _ _ _ _ _ _ _ _ _ _ _ i o (b_state _ _ b)) as [s [pre| |e]]; [|reflexivity|reflexivity].
  unfold bindL, getL. destruct M as (A & B & D). replace (b_cfg data coupler (set_state data coupler s b)) with cfg by (destruct b; cbn in *; congruence).
  destruct (Solver_Model.polytrope cfg); [destruct b; reflexivity|]. unfold inner, Solver_Model.bindM. replace (b_state data coupler (set_state data coupler s b)) with s by (destruct b; reflexivity).
  destruct (Solver_Model.three_mode_stationary data coupler _ pre i s) as [s' [d| |e]]; destruct b; reflexivity.
Qed.
Lemma set_state_same b : set_state data coupler (b_state _ _ b) b = b.
Proof. destruct b; reflexivity. Qed.
Lemma each_eq : forall post pre b, made_for_grid b -> os = (pre ++ post)%list ->
  each data coupler (call_grid_computations data coupler w) (seq (List.length pre) (List.length post)) b = let (s, r) := gloop (List.length pre) post (b_state _ _ b) in (set_state _ _ s b, [], r).
Proof.
  induction post as [|o post IH]; intros pre b M E.
  - cbn [List.length seq each Solver_Model.grid_loop]. unfold retL, Solver_Model.ret. rewrite set_state_same. reflexivity.
  - cbn [List.length seq each Solver_Model.grid_loop]. unfold bindL, Solver_Model.bindM. rewrite (step_eq b _ o M).
    2: { rewrite E, nth_error_app2, Nat.sub_diag by lia. reflexivity. }
    destruct (gstep (List.length pre) o (b_state data coupler b)) as [s [u| |e]]; [|reflexivity|reflexivity].
    specialize (IH (pre ++ [o])%list (set_state _ _ s b) (made_state _ _ M)). rewrite app_length in IH. cbn [List.length] in IH. rewrite Nat.add_1_r in IH.
    rewrite IH by (rewrite E, <- app_assoc; reflexivity). replace (b_state data coupler (set_state data coupler s b)) with s by (destruct b; reflexivity).
    destruct (gloop (S (List.length pre)) post s) as [s' r]. destruct b; reflexivity.
Qed.
(** Asked for the grid it was made for, the object does what the grid class does with the same settings, from the same state: same results,
    same exception, and nothing else changes. *)
Theorem C168_grid_call : forall b, made_for_grid b -> List.length (Solver_Model.l_couple _ _ (b_state _ _ b)) = List.length os ->
  call_object true false b = let (s, r) := run_triads data coupler w k l m cfg os (b_state _ _ b) in (set_state _ _ s b, [], r).
Proof.
  intros b M Z. unfold Legacy_Model.call_object. cbn [andb]. unfold bindL at 1. unfold getL at 1. cbv beta iota. unfold bindL at 1. rewrite Z.
  pose proof (each_eq os [] b M eq_refl) as X. cbn [List.length] in X. rewrite X. clear X. unfold run_triads, Solver_Model.grid_run, Solver_Model.bindM.
  destruct (gloop 0%nat os (b_state data coupler b)) as [s [u| |e]]; [|reflexivity|reflexivity].
  unfold store_relevant_statistics, bindL, getL. destruct (made_state b s M) as (A & _ & _). rewrite A. unfold inner.
  replace (b_state data coupler (set_state data coupler s b)) with s by (destruct b; reflexivity).
  destruct (Solver_Model.store_statistics data coupler 0 os s) as [s' r]. destruct b; reflexivity.
Qed.
End Grid.

(** Whatever was done with the object before -- single triads, profiles, failed calls -- a successful grid call leaves the results that the
    grid class leaves in a fresh object. *)
Theorem C168_history_does_not_matter : forall kw b ms l m os s', construct argv kw = Ok b -> b_purpose _ _ b = ForGrid l m os ->
  run_triads data coupler w (b_wiring _ _ b) l m (b_cfg _ _ b) os (Solver_Model.fresh data coupler (List.length os)) = (s', Ok tt) ->
  exists b', call_object true false (history ms b) = (b', [], Ok tt) /\
    Solver_Model.l_couple _ _ (b_state _ _ b') = Solver_Model.l_couple _ _ s' /\ Solver_Model.l_freq _ _ (b_state _ _ b') = Solver_Model.l_freq _ _ s' /\
    Solver_Model.l_hyper _ _ (b_state _ _ b') = Solver_Model.l_hyper _ _ s' /\ Solver_Model.l_stat _ _ (b_state _ _ b') = Solver_Model.l_stat _ _ s' /\
    Solver_Model.l_stats _ _ (b_state _ _ b') = Solver_Model.l_stats _ _ s'.
Proof.
  intros kw b ms l m os s' Cn P R. destruct (constructed kw b Cn) as (_ & _ & _ & _ & n & Fr & En). rewrite P in En. subst n.
  destruct (history_follows ms b) as (H1 & H2 & H3 & _ & _ & _ & _ & H8). specialize (H8 (List.length os)). rewrite Fr in H8. specialize (H8 (fresh_sized _)).
  rewrite (C168_grid_call l m os (b_wiring _ _ b) (b_cfg _ _ b) (history ms b)); [|repeat split; congruence|apply H8].
  unfold run_triads in *.
  destruct (Properties_Solver.C62_success_means_all_triads _ _ _ _ _ _ _ _ _ _ _ _ _ _ _ os _ s' (fresh_sized _) R) as [ts Ts].
  destruct (Properties_Solver.C62_each_triad_in_its_slot _ _ _ _ _ _ _ _ _ _ _ _ _ _ _ os ts _ Ts (fresh_sized _)) as (s1 & R1 & A1 & A2 & A3 & A4 & A5 & _).
  rewrite R in R1. assert (s1 = s') as -> by congruence. clear R1.
  destruct (Properties_Solver.C62_each_triad_in_its_slot _ _ _ _ _ _ _ _ _ _ _ _ _ _ _ os ts _ Ts H8) as (s2 & R2 & B1 & B2 & B3 & B4 & B5 & _).
  rewrite R2. eexists. split; [reflexivity|]. replace (b_state data coupler (set_state data coupler s2 (history ms b))) with s2 by (destruct (history ms b); reflexivity).
  repeat split; congruence.
Qed.

(** ** Agreement with the profile class *)
Notation "'lag_free' cfg s" := (Solver_Model.polytrope cfg = true -> Solver_Model.s_lag data coupler s = None) (at level 10, cfg at level 9, s at level 9).
Lemma one_from_any k l m cfg o s : Solver_Spec.sized data coupler 1 s -> lag_free cfg s ->
  exists s' s0 r, one_triad data coupler w k l m cfg o s = (s', r) /\ one_triad data coupler w k l m cfg o (Solver_Model.fresh data coupler 1) = (s0, r) /\
    (forall p, r = Ok p -> Solver_Model.s_coupler _ _ s' = Solver_Model.s_coupler _ _ s0 /\ (exists v, Solver_Model.l_couple _ _ s' = [Some v]) /\
       (Solver_Model.s_coupler _ _ s' <> None ->
        snd (Solver_Model.three_mode_stationary data coupler (w_coupled data coupler w) true 0 s') = snd (Solver_Model.three_mode_stationary data coupler (w_coupled data coupler w) true 0 s0))).
Proof.
  destruct s as [sc sh sd sl sx sdi lc lf lh lst lss]. intros (Z1 & Z2 & Z3 & Z4 & Z5) F. cbn [Solver_Model.l_couple Solver_Model.l_freq Solver_Model.l_hyper Solver_Model.l_stat Solver_Model.l_stats Solver_Model.s_lag] in *.
  destruct lc as [|c1 [|]]; try discriminate. destruct lf as [|f1 [|]]; try discriminate. destruct lh as [|h1 [|]]; try discriminate. clear Z1 Z2 Z3 Z4 Z5.
  unfold one_triad. set (ld := load_for data coupler w k l m cfg). clearbody ld.
  unfold Solver_Model.compute_coupling_one_triad, Solver_Model.choose_coupler, Solver_Model.hyperbolicity, Solver_Model.additional_mode_info, Solver_Model.three_mode_stationary, Solver_Model.need.
  unfold Solver_Model.bindM, Solver_Model.lift, Solver_Model.modify, Solver_Model.gets, Solver_Model.ret.
  Ltac bad := solve [do 3 eexists; split; [reflexivity|]; split; [reflexivity|]; intros ? XX; discriminate XX].
  destruct (ld o) as [d| |e]; [|bad|bad].
  destruct (Solver_Model.polytrope cfg) eqn:P.
  - specialize (F eq_refl). subst sl.
    destruct (w_handler data coupler w (k_handler k) d) as [h| |e] eqn:H; [|bad|bad].
    destruct (w_two_mode data coupler w d) as [two| |e] eqn:TM; [|bad|bad].
    destruct (Solver_Model.rot_formalism cfg); cbn [orb]; [|bad].
    destruct (w_coupler data coupler w (k_source k) (k_coupler k) d h) as [q| |e] eqn:CQ; cbn [bind]; [|bad|bad].
    do 3 eexists. split; [reflexivity|]. split; [reflexivity|]. intros pp _. split; [reflexivity|]. split; [eexists; reflexivity|]. intros _. reflexivity.
  - destruct (w_handler data coupler w (k_handler k) d) as [h0| |e] eqn:H0; [|bad|bad].
    destruct (w_nonadiabatic data coupler w h0 d) as [h| |e] eqn:H; [|bad|bad].
    destruct (w_two_mode data coupler w d) as [two| |e] eqn:TM; [|bad|bad].
    destruct (if Solver_Model.stat_solv cfg then w_stationary data coupler w (k_conj k) d h two else w_selection data coupler w (k_conj k) d) as [pre| |e] eqn:PC; [|bad|bad].
    destruct (Solver_Model.rot_formalism cfg); [|bad].
    destruct (false || pre && Solver_Model.stat_solv cfg || negb (Solver_Model.stat_solv cfg)) eqn:X.
    + destruct (w_coupler data coupler w (k_source k) (k_coupler k) d h) as [q| |e] eqn:CQ; cbn [bind]; [|bad|bad].
      destruct (w_jacobian data coupler w two h (Saver_Model.ncc (w_coupled data coupler w q))) as [hy| |e]; [|bad|bad].
      cbn [Solver_Model.l_couple Solver_Model.set_couple Solver_Model.set_hyper Solver_Model.set_freq Solver_Model.set_coupler Solver_Model.set_handler Solver_Model.set_data option_map Solver_Model.fresh repeat Solver_Model.put_slot nth].
      rewrite Solver_Proofs.coupling_entry. cbn [Solver_Model.times_cell Solver_Model.s_coupler Solver_Model.set_xir Solver_Model.set_lag Solver_Model.set_hyper Solver_Model.set_freq Solver_Model.set_couple Solver_Model.set_coupler].
      destruct (w_disc data coupler w (k_disc k) q) as [[tk ek]| |e]; [|bad|bad].
      do 3 eexists. split; [reflexivity|]. split; [reflexivity|]. intros pp _. split; [reflexivity|]. split; [eexists; reflexivity|]. intros _. reflexivity.
    + cbn [Solver_Model.l_couple Solver_Model.set_couple Solver_Model.set_hyper Solver_Model.set_freq Solver_Model.set_coupler Solver_Model.set_handler Solver_Model.set_data option_map Solver_Model.fresh repeat Solver_Model.put_slot nth].
      rewrite Solver_Proofs.coupling_entry. cbn [Solver_Model.times_cell Solver_Model.s_coupler Solver_Model.set_xir Solver_Model.set_lag Solver_Model.set_hyper Solver_Model.set_freq Solver_Model.set_couple Solver_Model.set_coupler].
      do 3 eexists. split; [reflexivity|]. split; [reflexivity|]. intros pp _. split; [reflexivity|]. split; [eexists; reflexivity|]. intros N. contradiction N; reflexivity.
Qed.
Lemma target_profile b t n1 n2 n3 l m : b_purpose _ _ b = ForProfile (VTab t) -> describes t n1 n2 n3 l m ->
  target data coupler 0 b = (set_orders data coupler [VInt n1; VInt n2; VInt n3] b, [], Ok (l, m, (n1, n2, n3))).
Proof.
  intros P (D1 & D2 & D3 & D4 & D5). unfold target, bindL, getL, liftL, put, retL. rewrite P. cbn [Nat.eqb item]. rewrite D1, D2, D3, D4, D5. cbn [as_Z bind].
  rewrite !Properties_RunFiles.as_Zs_ints. reflexivity.
Qed.
Lemma one_profile b t n1 n2 n3 l m : b_purpose _ _ b = ForProfile (VTab t) -> describes t n1 n2 n3 l m ->
  compute_coupling_one_triad data coupler w 0 b =
  (let (s, r) := one_triad data coupler w (b_wiring _ _ b) l m (b_cfg _ _ b) (n1, n2, n3) (b_state _ _ b) in
   (set_state data coupler s (set_orders data coupler [VInt n1; VInt n2; VInt n3] b), [], r)).
Proof.
  intros P D. unfold compute_coupling_one_triad. unfold bindL at 1. rewrite (target_profile b t n1 n2 n3 l m P D). unfold bindL, getL, inner.
  destruct b as [bp bw bc bn bs bo bpr br bq]. cbn [set_orders b_wiring b_cfg b_state] in *. unfold one_triad.
  destruct (Solver_Model.compute_coupling_one_triad _ _ _ _ _ _ _ _ _ _ _ _ _ _ _ _ _ bs) as [s' [x| |e]]; reflexivity.
Qed.
(** Asked for the profile it was made for, the object saves the figures that the profile class saves with the same settings and the
    viewing flags set, and ends as it does; whatever was done with it before. *)
Theorem C168_profile_call : forall b t n1 n2 n3 l m args terms kernels, b_purpose _ _ b = ForProfile (VTab t) -> describes t n1 n2 n3 l m ->
  Solver_Spec.sized data coupler 1 (b_state _ _ b) -> lag_free (b_cfg _ _ b) (b_state _ _ b) ->
  tget args "save_name" = Some (b_name _ _ b) -> tget args "view_term_by_term" = Some (VBool terms) -> tget args "view_kernels" = Some (VBool kernels) ->
  shown (run_method (TriadProfile terms kernels) b) =
  profile_results repr data coupler w (b_wiring _ _ b) args t l m (b_cfg _ _ b) (n1, n2, n3) [VInt n1; VInt n2; VInt n3].
Proof.
  intros b t n1 n2 n3 l m args terms kernels P D Z F A1 A2 A3.
  destruct (one_from_any (b_wiring _ _ b) l m (b_cfg _ _ b) (n1, n2, n3) (b_state _ _ b) Z F) as (s' & s0 & r & E & E0 & K).
  unfold profile_results. rewrite E0. cbn [Legacy_Model.run_method]. unfold compute_mode_triad_profile. unfold bindL at 1. rewrite (one_profile b t n1 n2 n3 l m P D). rewrite E.
  destruct r as [pre| |e]; [|reflexivity|reflexivity]. destruct (K pre eq_refl) as (K1 & (v & K2) & K3). clear K E E0. rewrite <- K1. cbn [bind]. clear Z F. 
  destruct b as [bp bw bc bn bs bo bpr br bq]. cbn [b_purpose b_wiring b_cfg b_name b_state] in *. subst bp.
  unfold set_state, set_orders. cbn [b_purpose b_wiring b_cfg b_name b_state b_orders b_profile b_rates b_products].
  assert (U : forall x, unassigned data coupler (mkObject data coupler (ForProfile (VTab t)) bw bc bn s' x bpr br bq) = false).
  { intros x. unfold unassigned. cbn [b_state]. rewrite K2. destruct (Solver_Model.s_coupler data coupler s'); reflexivity. }
  unfold compute_coupling_coefficient_profile, attr, bindL, getL, liftL, retL, put, save, save_all, raise, inner, set_profile, set_state. rewrite U. cbn [b_purpose b_wiring b_cfg b_name b_state b_orders b_profile b_rates b_products].
  destruct (Solver_Model.s_coupler data coupler s') as [c|] eqn:C; [|cbn [b_state]; rewrite C; reflexivity]. specialize (K3 ltac:(discriminate)). rewrite <- K3. clear K1 K3.
  destruct (w_profile data coupler w c) as [u| |e]; cbn [bind]; [|reflexivity|reflexivity].
  cbn [option_map b_purpose b_wiring b_cfg b_name b_state b_orders b_profile b_rates b_products]. rewrite C. cbn [option_map].
  destruct (Tar_Model.masking_info (Some (w_tar data coupler w c))) as [z| |e]; cbn [bind]; [|reflexivity|reflexivity].
  cbn [item]. rewrite A1, A2, A3. cbn [bind]. destruct (model_part repr bn t [VInt n1; VInt n2; VInt n3]) as [part| |e]; cbn [bind]; [|reflexivity|reflexivity].
  destruct (tget (info (k_setup bw)) "mesa_profile_substrings") as [sub|]; cbn [bind]; [|reflexivity]. destruct (mesa_part sub) as [mesa| |e]; cbn [bind]; [|reflexivity|reflexivity].
  destruct (tget (k_attributes bw) "_rot_pct") as [rot|]; cbn [bind]; [|reflexivity]. cbn [truthy].
  destruct (Solver_Model.three_mode_stationary data coupler (w_coupled data coupler w) true 0 s') as [s2 [x| |e]]; cbn [snd fst app]; [|reflexivity|reflexivity].
  destruct terms, kernels; try reflexivity; destruct (w_kernels data coupler w c) as [fs| |e]; cbn [snd fst app]; rewrite ?app_nil_r; reflexivity.
Qed.

(** *** Surface values are never assigned for a polytrope *)
Definition lagless (b : object) : Prop := lag_free (b_cfg _ _ b) (b_state _ _ b).
Definition keeps {A} (m : L data coupler A) : Prop := forall b, lagless b -> lagless (fst (fst (m b))).
Lemma keeps_bind {A B} (m : L data coupler A) (k : A -> L data coupler B) : keeps m -> (forall a, keeps (k a)) -> keeps (bindL _ _ m k).
Proof.
  intros H1 H2 b Hb. unfold bindL. specialize (H1 b Hb). destruct (m b) as [[b1 f1] r]. cbn [fst] in H1. destruct r as [a| |e]; [|exact H1|exact H1].
  specialize (H2 a b1 H1). destruct (k a b1) as [[b2 f2] r2]. exact H2.
Qed.
Lemma keeps_pure {A} f (r : object -> res A) : keeps (fun b => (b, f, r b)).
Proof. intros b H. exact H. Qed.
Lemma keeps_put f : (forall b, b_cfg _ _ (f b) = b_cfg _ _ b /\ b_state _ _ (f b) = b_state _ _ b) -> keeps (put data coupler f).
Proof. intros H b Hb. unfold put. cbn [fst]. unfold lagless. destruct (H b) as [-> ->]. exact Hb. Qed.
Lemma keeps_inner {A} (m : Solver_Model.M data coupler A) : (forall s, Solver_Model.s_lag _ _ (fst (m s)) = Solver_Model.s_lag _ _ s) -> keeps (inner _ _ m).
Proof.
  intros H b Hb. unfold inner. specialize (H (b_state _ _ b)). destruct (m (b_state _ _ b)) as [s r]. cbn [fst] in *. unfold lagless in *. destruct b; cbn in *. rewrite H. exact Hb.
Qed.
Lemma keeps_target i : keeps (target data coupler i).
Proof.
  unfold target. apply keeps_bind; [apply keeps_pure|]. intros [l m os|sel]; [destruct (nth_error os i); apply keeps_pure|]. destruct (i =? 0)%nat; [|apply keeps_pure].
  repeat first [apply keeps_bind; [|intros ?] | apply keeps_pure | apply keeps_put; intros []; split; reflexivity].
Qed.
Lemma one_lag k l m cfg o i s : Solver_Model.polytrope cfg = true ->
  Solver_Model.s_lag _ _ (fst (Solver_Model.compute_coupling_one_triad cfg data coupler (load_for data coupler w k l m cfg) (w_handler _ _ w (k_handler k)) (w_nonadiabatic _ _ w) (w_two_mode _ _ w)
    (w_stationary _ _ w (k_conj k)) (w_selection _ _ w (k_conj k)) (w_coupler _ _ w (k_source k) (k_coupler k)) (w_coupled _ _ w) (w_jacobian _ _ w)
    (w_lag _ _ w) (w_xir _ _ w) (w_disc _ _ w (k_disc k)) i o s)) = Solver_Model.s_lag _ _ s.
Proof.
  intros P. unfold Solver_Model.compute_coupling_one_triad, Solver_Model.choose_coupler, Solver_Model.hyperbolicity, Solver_Model.bindM, Solver_Model.lift, Solver_Model.modify, Solver_Model.gets, Solver_Model.ret. rewrite P.
  destruct (load_for data coupler w k l m cfg o) as [d| |e]; [|reflexivity|reflexivity].
  destruct (w_handler data coupler w (k_handler k) d) as [h| |e]; [|reflexivity|reflexivity].
  destruct (w_two_mode data coupler w d) as [two| |e]; [|reflexivity|reflexivity].
  destruct (Solver_Model.rot_formalism cfg); [|reflexivity]. cbn [orb].
  destruct (w_coupler data coupler w (k_source k) (k_coupler k) d h) as [q| |e]; reflexivity.
Qed.
Lemma keeps_one i : keeps (compute_coupling_one_triad data coupler w i).
Proof.
  intros b Hb. unfold compute_coupling_one_triad. unfold bindL at 1. pose proof (keeps_target i b Hb) as H1. destruct (target data coupler i b) as [[b1 f1] [[[l m] o]| |e]]; [|exact H1|exact H1].
  cbn [fst] in H1. unfold bindL, getL, inner. pose proof (one_lag (b_wiring _ _ b1) l m (b_cfg _ _ b1) o i (b_state _ _ b1)) as Q.
  destruct (Solver_Model.compute_coupling_one_triad _ _ _ _ _ _ _ _ _ _ _ _ _ _ _ i o (b_state _ _ b1)) as [s r]. cbn [fst] in *. unfold lagless in *. destruct b1; cbn in *.
  intros P. rewrite (Q P). exact (H1 P).
Qed.
Lemma stationary_lag pre i s : Solver_Model.s_lag _ _ (fst (Solver_Model.three_mode_stationary data coupler (w_coupled data coupler w) pre i s)) = Solver_Model.s_lag _ _ s.
Proof.
  unfold Solver_Model.three_mode_stationary, Solver_Model.need, Solver_Model.bindM, Solver_Model.gets, Solver_Model.lift, Solver_Model.ret.
  destruct (Solver_Model.s_handler _ _ s); [|reflexivity]. destruct (nth i (Solver_Model.l_hyper _ _ s) None); [|reflexivity]. destruct pre; [|reflexivity].
  destruct (Solver_Model.s_lag _ _ s) eqn:E; [|exact E]. destruct (Solver_Model.s_xir _ _ s); [|exact E]. destruct (Solver_Model.s_disc _ _ s); [|exact E]. destruct (Solver_Model.s_coupler _ _ s); exact E.
Qed.
Lemma statistics_lag : forall os i s, Solver_Model.s_lag _ _ (fst (Solver_Model.store_statistics data coupler i os s)) = Solver_Model.s_lag _ _ s.
Proof. induction os as [|o os IH]; intros i s; [reflexivity|]. cbn [Solver_Model.store_statistics]. unfold Solver_Model.bindM, Solver_Model.modify. rewrite IH. reflexivity. Qed.
Ltac kp_ := repeat first [match goal with |- keeps (compute_coupling_one_triad _ _ _ _) => apply keeps_one end | apply keeps_bind; [|intros ?] | apply keeps_pure | apply keeps_inner; first [apply stationary_lag|apply statistics_lag|reflexivity]
  | apply keeps_put; intros []; split; reflexivity
  | match goal with |- keeps (match ?x with _ => _ end) => destruct x end | match goal with |- keeps (let _ := _ in _) => cbv zeta end].
Lemma keeps_method m : keeps (run_method m).
Proof.
  destruct m as [g p|i|i| |t k| |i]; cbn [Legacy_Model.run_method].
  - unfold Legacy_Model.call_object. destruct (p && g); [apply keeps_pure|]. destruct p.
    + unfold compute_mode_triad_profile, compute_coupling_coefficient_profile, attr. kp_.
    + destruct g; [|apply keeps_pure]. apply keeps_bind; [apply keeps_pure|]. intros s. apply keeps_bind; [|intros _; unfold store_relevant_statistics; kp_].
      generalize (seq 0 (List.length (Solver_Model.l_couple data coupler s))). intros is. induction is as [|i is IH]; cbn [each]; [apply keeps_pure|]. apply keeps_bind; [unfold call_grid_computations; kp_|]. intros _. exact IH.
  - unfold load_nonradial_mode_triad. apply keeps_bind; [apply keeps_target|]. intros [[l m] o]. kp_.
  - kp_.
  - unfold compute_coupling_coefficient_profile. kp_.
  - unfold compute_mode_triad_profile, compute_coupling_coefficient_profile, attr. kp_.
  - unfold store_relevant_statistics. kp_.
  - unfold print_mode_info, attr. kp_.
Qed.
Lemma history_keeps ms : forall b, lagless b -> lagless (history ms b).
Proof. induction ms as [|m ms IH]; intros b H; [exact H|]. cbn [Legacy_Model.history]. apply IH, keeps_method, H. Qed.
Lemma constructed_lagless kw b : construct argv kw = Ok b -> lagless b.
Proof. intros H. destruct (constructed kw b H) as (_ & _ & _ & _ & n & E & _). unfold lagless. rewrite E. reflexivity. Qed.
(** So the figures of a profile object, and how the call ends, are the same whatever was done with it before. *)
Theorem C168_profile_history : forall kw b ms t n1 n2 n3 l m args, construct argv kw = Ok b -> b_purpose _ _ b = ForProfile (VTab t) -> describes t n1 n2 n3 l m ->
  tget args "save_name" = Some (b_name _ _ b) -> tget args "view_term_by_term" = Some (VBool true) -> tget args "view_kernels" = Some (VBool true) ->
  shown (call_object false true (history ms b)) = profile_results repr data coupler w (b_wiring _ _ b) args t l m (b_cfg _ _ b) (n1, n2, n3) [VInt n1; VInt n2; VInt n3].
Proof.
  intros kw b ms t n1 n2 n3 l m args Cn P D A1 A2 A3. pose proof (history_keeps ms b (constructed_lagless kw b Cn)) as Lg.
  destruct (constructed kw b Cn) as (_ & _ & _ & _ & n & Fr & En). rewrite P in En. subst n.
  destruct (history_follows ms b) as (H1 & H2 & H3 & H4 & _ & _ & _ & H8). specialize (H8 1%nat). rewrite Fr in H8. specialize (H8 (fresh_sized 1)).
  rewrite <- H2, <- H3. change (call_object false true) with (run_method (TriadProfile true true)).
  refine (C168_profile_call (history ms b) t n1 n2 n3 l m args true true _ D H8 Lg _ A2 A3); congruence.
Qed.

(** ** Requests that do not fit *)
(** An object made for a profile, called with the default flags: the triad is computed and its results are stored, then the call fails
    since there is no mode information to make statistics of; no figure is saved. If the triad fails, its exception is raised. *)
Theorem C167_profile_object_asked_for_grid : forall kw b ms t n1 n2 n3 l m, construct argv kw = Ok b -> b_purpose _ _ b = ForProfile (VTab t) -> describes t n1 n2 n3 l m ->
  exists b' r, call_object true false (history ms b) = (b', [], r) /\
    match Properties_RunFiles.alone data coupler w (b_wiring _ _ b) l m (b_cfg _ _ b) (n1, n2, n3) with
    | Ok tr => r = Exc AttributeError /\ Solver_Model.l_couple _ _ (b_state _ _ b') = [Solver_Spec.couple_slot (b_cfg _ _ b) tr] /\
        Solver_Model.l_freq _ _ (b_state _ _ b') = [Solver_Spec.freq_slot (b_cfg _ _ b) tr] /\ Solver_Model.l_stat _ _ (b_state _ _ b') = [Solver_Spec.stat_slot (b_cfg _ _ b) tr]
    | Exc e => r = Exc e
    | UB => r = UB
    end.
Proof.
  intros kw b ms t n1 n2 n3 l m Cn P D. destruct (constructed kw b Cn) as (_ & _ & _ & _ & n & Fr & En). rewrite P in En. subst n.
  destruct (history_follows ms b) as (H1 & H2 & H3 & _ & _ & _ & _ & H8). specialize (H8 1%nat). rewrite Fr in H8. specialize (H8 (fresh_sized 1)).
  assert (P' : b_purpose _ _ (history ms b) = ForProfile (VTab t)) by congruence. rewrite <- H2, <- H3. clear Cn Fr H1 H2 H3 P. set (c := history ms b) in *. clearbody c. clear b. rename c into b, P' into P, H8 into Z.
  unfold Properties_RunFiles.alone. pose proof (Solver_Proofs.grid_step_ok (b_cfg _ _ b) data coupler (load_for data coupler w (b_wiring _ _ b) l m (b_cfg _ _ b)) (w_handler _ _ w (k_handler (b_wiring _ _ b))) (w_nonadiabatic _ _ w) (w_two_mode _ _ w)
    (w_stationary _ _ w (k_conj (b_wiring _ _ b))) (w_selection _ _ w (k_conj (b_wiring _ _ b))) (w_coupler _ _ w (k_source (b_wiring _ _ b)) (k_coupler (b_wiring _ _ b))) (w_coupled _ _ w) (w_jacobian _ _ w)
    (w_lag _ _ w) (w_xir _ _ w) (w_disc _ _ w (k_disc (b_wiring _ _ b))) 0 (n1, n2, n3) (b_state _ _ b) 1 ltac:(lia) Z) as Q.
  unfold Solver_Proofs.step_ok in Q.
  assert (St : forall s r, Solver_Model.grid_step (b_cfg _ _ b) data coupler (load_for data coupler w (b_wiring _ _ b) l m (b_cfg _ _ b)) (w_handler _ _ w (k_handler (b_wiring _ _ b))) (w_nonadiabatic _ _ w) (w_two_mode _ _ w)
    (w_stationary _ _ w (k_conj (b_wiring _ _ b))) (w_selection _ _ w (k_conj (b_wiring _ _ b))) (w_coupler _ _ w (k_source (b_wiring _ _ b)) (k_coupler (b_wiring _ _ b))) (w_coupled _ _ w) (w_jacobian _ _ w)
    (w_lag _ _ w) (w_xir _ _ w) (w_disc _ _ w (k_disc (b_wiring _ _ b))) 0 (n1, n2, n3) (b_state _ _ b) = (s, r) ->
    call_grid_computations data coupler w 0 b = (set_state _ _ s (set_orders _ _ [VInt n1; VInt n2; VInt n3] b), [], r)).
  { intros s r. unfold call_grid_computations. unfold bindL at 1. rewrite (one_profile b t n1 n2 n3 l m P D). unfold one_triad, Solver_Model.grid_step. unfold Solver_Model.bindM at 1.
    destruct (Solver_Model.compute_coupling_one_triad _ _ _ _ _ _ _ _ _ _ _ _ _ _ _ _ _ (b_state _ _ b)) as [s1 [pre| |e]]; [|intros X; injection X as <- <-; reflexivity|intros X; injection X as <- <-; reflexivity].
    unfold bindL, getL. destruct b as [bp bw bc bn bs bo bpr br bq]. cbn [set_state set_orders b_cfg b_state]. destruct (Solver_Model.polytrope bc).
    - unfold inner, Solver_Model.modify. intros X. injection X as <- <-. reflexivity.
    - unfold inner, Solver_Model.bindM, Solver_Model.modify. unfold set_state, set_orders. cbn [b_purpose b_wiring b_cfg b_name b_state b_orders b_profile b_rates b_products]. destruct (Solver_Model.three_mode_stationary data coupler _ pre 0 s1) as [s2 [dd| |e]]; intros X; injection X as <- <-; reflexivity. }
  assert (One : List.length (Solver_Model.l_couple _ _ (b_state _ _ b)) = 1%nat) by apply Z.
  assert (Call : forall s r, call_grid_computations data coupler w 0 b = (set_state _ _ s (set_orders _ _ [VInt n1; VInt n2; VInt n3] b), [], r) ->
    call_object true false b = (set_state _ _ s (set_orders _ _ [VInt n1; VInt n2; VInt n3] b), [], match r with Ok _ => Exc AttributeError | x => x end)).
  { intros s r E. unfold Legacy_Model.call_object. cbn [andb]. unfold bindL at 1. unfold getL at 1. cbv beta iota. rewrite One. cbn [seq each]. unfold bindL at 1. unfold bindL at 1. rewrite E.
    destruct r as [u| |e]; [|reflexivity|reflexivity]. unfold retL, store_relevant_statistics, bindL, getL. replace (b_purpose _ _ (set_state _ _ s (set_orders _ _ [VInt n1; VInt n2; VInt n3] b))) with (ForProfile (VTab t)) by (destruct b; cbn in *; congruence). reflexivity. }
  destruct (Solver_Spec.triad_of _ _ _ _ _ _ _ _ _ _ _ _ _ _ _ (n1, n2, n3)) as [tr| |e]; destruct Q as (s' & E & W); specialize (St _ _ E); specialize (Call _ _ St); do 2 eexists; (split; [exact Call|]); try reflexivity.
  destruct W as (W1 & W2 & _ & W4 & _). split; [reflexivity|]. replace (b_state _ _ (set_state _ _ s' (set_orders _ _ [VInt n1; VInt n2; VInt n3] b))) with s' by (destruct b; reflexivity).
  destruct Z as (Z1 & Z2 & _ & Z4 & _). rewrite W1, W2, W4.
  destruct (Solver_Model.l_couple _ _ (b_state _ _ b)) as [|? [|]]; try discriminate. destruct (Solver_Model.l_freq _ _ (b_state _ _ b)) as [|? [|]]; try discriminate. destruct (Solver_Model.l_stat _ _ (b_state _ _ b)) as [|? [|]]; try discriminate.
  repeat split; reflexivity.
Qed.
(** An object made for a grid, asked for a profile: it never ends normally and saves no figure. *)
Lemma grid_profile_fails b l m os t k : b_purpose _ _ b = ForGrid l m os -> b_orders _ _ b = None -> exists b' r, run_method (TriadProfile t k) b = (b', [], r) /\ r <> Ok tt.
Proof.
  intros P O. cbn [Legacy_Model.run_method]. unfold compute_mode_triad_profile. unfold bindL at 1. pose proof (steps_one 0 b) as S1.
  assert (F1 : snd (fst (compute_coupling_one_triad data coupler w 0 b)) = []).
  { unfold compute_coupling_one_triad, target, bindL, getL, inner. rewrite P. destruct (nth_error os 0); [|reflexivity]. unfold retL.
    destruct (Solver_Model.compute_coupling_one_triad _ _ _ _ _ _ _ _ _ _ _ _ _ _ _ _ _ (b_state _ _ b)) as [s [p| |e]]; reflexivity. }
  destruct (compute_coupling_one_triad data coupler w 0 b) as [[b1 f1] r1]. cbn [fst snd] in S1, F1. subst f1.
  destruct r1 as [pre| |e]; [|do 2 eexists; split; [reflexivity|discriminate]..].
  unfold bindL at 1. pose proof (steps_coefficient b1) as S2.
  assert (F2 : snd (fst (compute_coupling_coefficient_profile data coupler w b1)) = []).
  { unfold compute_coupling_coefficient_profile, bindL, getL, liftL, put. destruct (unassigned data coupler b1); [reflexivity|]. destruct (Solver_Model.s_coupler _ _ (b_state _ _ b1)); [|reflexivity].
    destruct (w_profile data coupler w c); reflexivity. }
  destruct (compute_coupling_coefficient_profile data coupler w b1) as [[b2 f2] r2]. cbn [fst snd] in S2, F2. subst f2.
  pose proof (follows_trans _ _ _ S1 S2) as (_ & _ & _ & _ & _ & _ & S7 & _). specialize (S7 l m os P). rewrite O in S7.
  destruct r2 as [u| |e]; [|do 2 eexists; split; [reflexivity|discriminate]..].
  unfold bindL, getL, liftL, attr. cbv beta iota. destruct (Tar_Model.masking_info _) as [z| |e]; [|do 2 eexists; split; [reflexivity|discriminate]..].
  unfold bindL, getL. cbv beta iota. rewrite S7. unfold raise. do 2 eexists; split; [reflexivity|discriminate].
Qed.
Theorem C167_grid_object_asked_for_profile : forall kw b ms l m os, construct argv kw = Ok b -> b_purpose _ _ b = ForGrid l m os ->
  exists b' r, call_object false true (history ms b) = (b', [], r) /\ r <> Ok tt.
Proof.
  intros kw b ms l m os Cn P. destruct (constructed kw b Cn) as (_ & _ & O & _ & _). destruct (history_follows ms b) as (H1 & _ & _ & _ & _ & _ & H7 & _).
  apply (grid_profile_fails (history ms b) l m os true true); [congruence|]. rewrite (H7 l m os P). exact O.
Qed.
(** Only an object made for a grid, asked for a grid, can return normally. *)
Lemma raises_last {A} (x : L data coupler A) e b : snd (bindL _ _ x (fun _ => raise data coupler (A := unit) e) b) <> Ok tt.
Proof. unfold bindL, raise. destruct (x b) as [[b1 f1] [a| |e']]; cbn; discriminate. Qed.
Lemma never_last {A B} (x : L data coupler A) (k : A -> L data coupler B) : (forall a b y, snd (k a b) <> Ok y) -> forall b y, snd (bindL _ _ x k b) <> Ok y.
Proof. intros H b y. unfold bindL. destruct (x b) as [[b1 f1] [a| |e]]; cbn; try discriminate. specialize (H a b1 y). destruct (k a b1) as [[b2 f2] r2]. exact H. Qed.
Theorem C167_normal_return : forall kw b ms g p, construct argv kw = Ok b -> snd (call_object g p (history ms b)) = Ok tt ->
  g = true /\ p = false /\ exists l m os, b_purpose _ _ b = ForGrid l m os.
Proof.
  intros kw b ms g p Cn H. destruct g, p; try discriminate.
  - repeat split. destruct (b_purpose _ _ b) as [l m os|sel] eqn:P; [do 3 eexists; reflexivity|]. exfalso. destruct (history_follows ms b) as (H1 & _). rewrite P in H1. revert H.
    unfold Legacy_Model.call_object. cbn [andb]. unfold bindL at 1. unfold getL at 1. cbv beta iota.
    set (f := each data coupler (call_grid_computations data coupler w) _). unfold bindL at 1. assert (Sf : steps f) by (apply steps_each, steps_grid_step). specialize (Sf (history ms b)).
    destruct (f (history ms b)) as [[b1 f1] [u| |e]]; cbn [fst snd] in *; try discriminate. destruct Sf as (S1 & _). rewrite H1 in S1.
    unfold store_relevant_statistics, bindL, getL. rewrite S1. unfold raise. discriminate.
  - exfalso. revert H. unfold Legacy_Model.call_object. cbn [andb]. unfold compute_mode_triad_profile. do 10 (apply never_last; intros ? ? ?).
    intros; repeat (apply never_last; intros). all: discriminate.
Qed.

(** ** C169 *)
(** Linear driving rates are never available, whatever was computed. *)
Theorem C169_driving_rates : forall kw b ms, construct argv kw = Ok b -> linear_driving_rates data coupler (history ms b) = Exc AttributeError.
Proof.
  intros kw b ms Cn. destruct (constructed kw b Cn) as (R & _). destruct (history_follows ms b) as (_ & _ & _ & _ & H & _). unfold linear_driving_rates. rewrite H, R. reflexivity.
Qed.
(** Printing mode information always fails: no triad computed in that slot, or the products that are never assigned. *)
Theorem C169_print_mode_info : forall kw b ms i, construct argv kw = Ok b -> exists e, run_method (PrintInfo i) (history ms b) = (history ms b, [], Exc e) /\
  match nth_error (Solver_Model.l_couple _ _ (b_state _ _ (history ms b))) i with Some (Some _) => e = AttributeError | _ => e = IndexError end.
Proof.
  intros kw b ms i Cn. destruct (constructed kw b Cn) as (R & Q & _). destruct (history_follows ms b) as (_ & _ & _ & _ & HR & HQ & _). rewrite Q in HQ.
  cbn [Legacy_Model.run_method]. unfold print_mode_info, bindL, getL, attr, retL, raise. set (c := history ms b) in *.
  destruct (nth_error (Solver_Model.l_couple _ _ (b_state _ _ c)) i) as [[v|]|]; cbv beta iota; [|eexists; split; reflexivity..].
  unfold bindL, getL. cbv beta iota. destruct (Solver_Model.s_lag _ _ (b_state _ _ c)); [|eexists; split; reflexivity]. rewrite HQ. eexists. split; reflexivity.
Qed.
(** The coupling profile can be read after a method that computes one for an object with a coupling coefficient, and not before. *)
Definition same_profile {A} (m : L data coupler A) : Prop := forall b, b_profile _ _ (fst (fst (m b))) = b_profile _ _ b.
Lemma sp_bind {A B} (m : L data coupler A) (k : A -> L data coupler B) : same_profile m -> (forall a, same_profile (k a)) -> same_profile (bindL _ _ m k).
Proof.
  intros H1 H2 b. unfold bindL. specialize (H1 b). destruct (m b) as [[b1 f1] r]. cbn [fst] in H1. destruct r as [a| |e]; [|exact H1|exact H1].
  specialize (H2 a b1). destruct (k a b1) as [[b2 f2] r2]. cbn [fst] in *. congruence.
Qed.
Lemma sp_pure {A} f (r : object -> res A) : same_profile (fun b => (b, f, r b)).
Proof. intros b. reflexivity. Qed.
Lemma sp_inner {A} (m : Solver_Model.M data coupler A) : same_profile (inner _ _ m).
Proof. intros b. unfold inner. destruct (m (b_state _ _ b)) as [s r]. destruct b; reflexivity. Qed.
Lemma sp_target i : same_profile (target data coupler i).
Proof.
  unfold target. apply sp_bind; [apply sp_pure|]. intros [l m os|sel]; [destruct (nth_error os i); apply sp_pure|]. destruct (i =? 0)%nat; [|apply sp_pure].
  repeat first [apply sp_bind; [|intros ?] | apply sp_pure | intros []; reflexivity].
Qed.
Lemma sp_one i : same_profile (compute_coupling_one_triad data coupler w i).
Proof. unfold compute_coupling_one_triad. apply sp_bind; [apply sp_target|]. intros [[l m] o]. repeat (apply sp_bind; [apply sp_pure|intros ?]). apply sp_inner. Qed.
Lemma sp_step i : same_profile (call_grid_computations data coupler w i).
Proof.
  unfold call_grid_computations. apply sp_bind; [apply sp_one|]. intros pre. apply sp_bind; [apply sp_pure|]. intros cfg. destruct (Solver_Model.polytrope cfg); [apply sp_inner|].
  apply sp_bind; [apply sp_inner|]. intros d. apply sp_inner.
Qed.
Lemma sp_statistics : same_profile (store_relevant_statistics data coupler).
Proof. unfold store_relevant_statistics. apply sp_bind; [apply sp_pure|]. intros [l m os|sel]; [apply sp_inner|apply sp_pure]. Qed.
Lemma sp_method m : not_profile m -> same_profile (run_method m).
Proof.
  destruct m as [g p|i|i| |t k| |i]; cbn [not_profile Legacy_Model.run_method]; intros N; try contradiction.
  - subst p. unfold Legacy_Model.call_object. cbn [andb]. destruct g; [|apply sp_pure]. apply sp_bind; [apply sp_pure|]. intros s. apply sp_bind; [|intros _; apply sp_statistics].
    generalize (seq 0 (List.length (Solver_Model.l_couple data coupler s))). intros is. induction is as [|i is IH]; cbn [each]; [apply sp_pure|]. apply sp_bind; [apply sp_step|intros _; exact IH].
  - unfold load_nonradial_mode_triad. apply sp_bind; [apply sp_target|]. intros [[l m] o]. do 2 (apply sp_bind; [apply sp_pure|intros ?]). apply sp_bind; [apply sp_pure|intros d; apply sp_inner].
  - apply sp_bind; [apply sp_one|intros _; apply sp_pure].
  - apply sp_statistics.
  - unfold print_mode_info, attr. apply sp_bind; [apply sp_pure|]. intros slots. destruct (nth_error slots i) as [[v|]|]; [|apply sp_pure..].
    repeat first [apply sp_bind; [|intros ?] | apply sp_pure | match goal with |- same_profile (match ?x with _ => _ end) => destruct x end].
Qed.
Theorem C169_coupling_profile : forall kw b ms, construct argv kw = Ok b -> List.Forall not_profile ms -> coupling_profile data coupler (history ms b) = Exc AttributeError.
Proof.
  intros kw b ms Cn F. destruct (constructed kw b Cn) as (_ & _ & _ & P & _). clear Cn. unfold coupling_profile. enough (X : b_profile _ _ (history ms b) = None) by (rewrite X; reflexivity).
  revert b P. induction F as [|m ms N F IH]; intros b P; [exact P|]. cbn [Legacy_Model.history]. apply IH. rewrite (sp_method m N b). exact P.
Qed.
End Theorems.
