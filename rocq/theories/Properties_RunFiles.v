(** * Theorems about complete solve runs: files, failures, figures (C136-C140). *)
From Coq Require Import Reals QArith Qreals List ZArith Ascii String Bool Lia Lra.
From Coquelicot Require Import Coquelicot.
From Verif Require Import Base Py Inlist_Model Parser_Model Parser_Spec Parser_Proofs Setup_Model Run_Model Run_Spec Run_Proofs Properties_Run.
From Verif Require Combos_Model Saver_Model Saver_Spec Saver_Unpack Saver_Names Solver_Model Solver_Spec Solver_Proofs Tar_Model Stab_Model Stab_Spec Properties_Parser Properties_Setup Properties_Saver Properties_Solver.
Import ListNotations.
Local Open Scope string_scope.

Lemma told_item d t doc n pos v : told d t doc -> In (n, Inlist pos) doc -> setting d pos v -> item n (VTab t) = Ok v.
Proof. intros H I S. destruct (H n _ I) as (w & Hw & C). cbn in C. rewrite (setting_unique d pos _ _ S C). exact (Properties_Setup.item_has _ _ _ Hw). Qed.
Lemma told_const d t doc n v : told d t doc -> In (n, Constant v) doc -> item n (VTab t) = Ok v.
Proof. intros H I. destruct (H n _ I) as (w & Hw & C). cbn in C. subst w. exact (Properties_Setup.item_has _ _ _ Hw). Qed.
Lemma wired_cfg repr d l argv path toml sec f k p ad rf : wired repr d l argv path toml sec f k ->
  setting d "coupling_coefficient.compute_for_polytrope" p -> setting d "coupling_coefficient.adiabatic" (VBool ad) -> setting d "rotation.rotating_formalism" rf ->
  cfg_of k = Ok (Solver_Model.mkSettings (truthy p) ad true (truthy rf)).
Proof.
  intros W Sp Sa Sr. destruct W as [_ _ _ _ T _ _ _]. unfold cfg_of.
  rewrite (told_item d _ _ "_polytrope_comp" _ _ T ltac:(member) Sp). cbn [bind]. rewrite (told_item d _ _ "_adiabatic" _ _ T ltac:(member) Sa). cbn [bind as_bool].
  rewrite (told_const d _ _ "_stat_solv" _ T ltac:(member)). cbn [bind]. rewrite (told_item d _ _ "_use_rot_formalism" _ _ T ltac:(member) Sr). reflexivity.
Qed.
Lemma wired_saver_config repr d l argv path toml sec f k p ad me ch om bu bf x lz mz : wired repr d l argv path toml sec f k ->
  setting d "coupling_coefficient.compute_for_polytrope" p -> setting d "coupling_coefficient.adiabatic" (VBool ad) ->
  setting d "computation.integration_method" (VStr me) -> setting d "computation.angular.use_cheby" (VBool ch) -> setting d "computation.angular.cheby_mul" (VInt om) ->
  setting d "computation.angular.blow_up_protect" (VBool bu) -> setting d "computation.angular.blow_up_fac" bf -> as_num bf = Ok x ->
  saver_config k lz mz = Ok (Saver_Model.mkConfig (truthy p) ad lz mz me ch om bu x).
Proof.
  intros W Sp Sa S1 S2 S3 S4 S5 N. destruct W as [_ _ _ _ T _ _ _]. unfold saver_config.
  rewrite (told_item d _ _ "_polytrope_comp" _ _ T ltac:(member) Sp). cbn [bind]. rewrite (told_item d _ _ "_adiabatic" _ _ T ltac:(member) Sa). cbn [bind as_bool].
  rewrite (told_item d _ _ "_numerical_integration_method" _ _ T ltac:(member) S1). cbn [bind as_text]. rewrite (told_item d _ _ "_use_cheby" _ _ T ltac:(member) S2). cbn [bind as_bool].
  rewrite (told_item d _ _ "_cheby_order_mul" _ _ T ltac:(member) S3). cbn [bind as_Z]. rewrite (told_item d _ _ "_cheby_blow_up" _ _ T ltac:(member) S4). cbn [bind as_bool].
  rewrite (told_item d _ _ "_cheby_blow_up_fac" _ _ T ltac:(member) S5). cbn [bind]. rewrite N. reflexivity.
Qed.
(** the settings for the results file *)
Definition save_settings (d base sub extra fmt : val) : Prop :=
  setting d "saving.solve.base_dir" base /\ setting d "saving.solve.save_dir" sub /\ setting d "saving.solve.extra_specifier" extra /\ setting d "saving.solve.save_format" fmt.
Section SaveFile.
Variable repr : val -> string.
Lemma saver_file_eq d l s base sub extra fmt : readable d l -> read_toml_args d = Ok s -> save_settings d base sub extra fmt -> forall p name k m,
  saver_file repr (save_info s) p name k m =
    (f <- lower_of fmt ; dd <- Saver_Model.obtain_save_directory f (py_str repr base) ; ex <- extra_text repr extra ;
     Ok (Saver_Model.adjust_file_path (Saver_Model.qnr_string k m) (fst dd ++ subdir_text repr sub ++ ex ++ py_str repr name ++ "." ++ snd dd)))%res.
Proof.
  intros [A B] E (O1 & O2 & O3 & O4) p name k m. destruct (Properties_Parser.C94_solve_settings d l A B) as (s' & E' & S). assert (s' = s) by congruence. subst s'. clear E' A B.
  destruct S as (_ & _ & _ & _ & _ & S6 & _). pose proof (proj1 (read_toml_shaped d s E)) as Sh. destruct (save_info s) as [|[k1 v1] t1]; [discriminate|].
  do 3 (destruct t1 as [|[? ?] t1]; [discriminate|]). destruct t1; [|discriminate]. cbn [map fst doc_save] in Sh. injection Sh as -> -> -> ->.
  assert (Q : forall n pos x w, In (n, pos) doc_save -> setting d pos w -> tget [("base_dir", v1); ("save_dir", v); ("extra_specifier", v0); ("initial_save_format", v2)] n = Some x -> x = w).
  { intros n pos x w I Sw G. exact (setting_unique d pos _ _ (holds_get _ _ _ _ _ _ _ S6 I G) Sw). }
  assert (v1 = base) by (refine (Q "base_dir" _ _ _ _ O1 eq_refl); member). assert (v = sub) by (refine (Q "save_dir" _ _ _ _ O2 eq_refl); member).
  assert (v0 = extra) by (refine (Q "extra_specifier" _ _ _ _ O3 eq_refl); member). assert (v2 = fmt) by (refine (Q "initial_save_format" _ _ _ _ O4 eq_refl); member). subst v1 v v0 v2.
  unfold saver_file. match goal with |- bind (call saver_sig ?x ?y) _ = _ => let r := eval cbv in (call saver_sig x y) in change (call saver_sig x y) with r end.
  cbn [item tget String.eqb Ascii.eqb Bool.eqb bind]. destruct (lower_of fmt) as [f| |]; reflexivity.
Qed.
Lemma lower_lower s : Saver_Model.lower (Saver_Model.lower s) = Saver_Model.lower s.
Proof.
  induction s as [|c s IH]; [reflexivity|]. cbn [Saver_Model.lower]. rewrite IH. f_equal.
  destruct ((65 <=? nat_of_ascii c) && (nat_of_ascii c <=? 90))%nat eqn:E; [|rewrite E; reflexivity].
  apply andb_prop in E. destruct E as [E1 E2]. apply Nat.leb_le in E1, E2. rewrite nat_ascii_embedding by lia.
  destruct ((65 <=? nat_of_ascii c + 32) && (nat_of_ascii c + 32 <=? 90))%nat eqn:F; [|reflexivity]. apply andb_prop in F. destruct F as [_ F]. apply Nat.leb_le in F. lia.
Qed.
(** with texts the file is the one of C98 and C99 *)
Lemma saver_file_text d l s base sub extra fmt name : readable d l -> read_toml_args d = Ok s -> save_settings d (VStr base) (VStr sub) (VStr extra) (VStr fmt) -> forall p k m,
  saver_file repr (save_info s) p (VStr name) k m = Saver_Model.save_file base sub extra name fmt k m.
Proof.
  intros R E O p k m. rewrite (saver_file_eq d l s _ _ _ _ R E O). cbn [lower_of bind extra_text py_str subdir_text]. unfold Saver_Model.save_file, Saver_Model.save_name, Saver_Model.obtain_save_directory.
  rewrite lower_lower. destruct (_ =? _)%string; [reflexivity|]. destruct (_ =? _)%string; [reflexivity|]. destruct (_ =? _)%string; reflexivity.
Qed.
End SaveFile.

Section Runs.
Variable repr : val -> string.
Variables data coupler : Type.
Variable w : world data coupler.
Variables argv path : val.
Variable toml : bool.
Variable lv : level.
Notation solve := (solve repr data coupler w argv path toml lv).
Notation constructed s a k := (grid_solver repr (w_folders data coupler w) argv path toml lv s = Ok (a, k)).
(** the result of a triad on its own, with the components as the wiring says *)
Definition alone (k : wiring) (l m : list Z) (cfg : Solver_Model.settings) (o : Solver_Model.orders) : res Saver_Model.triad :=
  Solver_Spec.triad_of cfg data coupler (load_for data coupler w k l m cfg) (w_handler data coupler w (k_handler k)) (w_nonadiabatic data coupler w) (w_two_mode data coupler w)
    (w_stationary data coupler w (k_conj k)) (w_selection data coupler w (k_conj k)) (w_coupler data coupler w (k_source k) (k_coupler k)) (w_coupled data coupler w)
    (w_jacobian data coupler w) (w_lag data coupler w) (w_xir data coupler w) (w_disc data coupler w (k_disc k)) o.
Lemma fresh_sized n : Solver_Spec.sized data coupler n (Solver_Model.fresh data coupler n).
Proof. unfold Solver_Spec.sized, Solver_Model.fresh. cbn. rewrite !repeat_length. repeat split. Qed.
Lemma as_Zs_ints z : as_Zs (VArr (map VInt z)) = Ok z.
Proof. cbn [as_Zs]. induction z as [|a z IH]; [reflexivity|]. cbn [map mapM as_Z bind]. rewrite IH. reflexivity. Qed.
Lemma grid_action d l s cg cp : readable d l -> read_toml_args d = Ok s -> setting d "computation.compute_grid_models" cg -> setting d "computation.compute_coefficient_profile" cp ->
  has (comp s) "compute_grid" cg /\ has (comp s) "compute_profile" cp.
Proof.
  intros [A B] E G P. destruct (Properties_Parser.C94_solve_settings d l A B) as (s' & E' & S). assert (s' = s) by congruence. subst s'. clear E' A B.
  destruct S as (_ & _ & _ & _ & (S5 & _) & _).
  destruct (S5 "compute_grid" "computation.compute_grid_models") as (v & Hv & Sv); [member|]. destruct (S5 "compute_profile" "computation.compute_coefficient_profile") as (u & Hu & Su); [member|].
  rewrite (setting_unique d _ _ _ G Sv), (setting_unique d _ _ _ P Su). split; assumption.
Qed.
Lemma poly_item d l s p : readable d l -> read_toml_args d = Ok s -> setting d "coupling_coefficient.compute_for_polytrope" p -> item "polytrope_comp" (VTab (mode_computation s)) = Ok p.
Proof.
  intros [A B] E G. destruct (Properties_Parser.C94_solve_settings d l A B) as (s' & E' & S). assert (s' = s) by congruence. subst s'. clear E' A B.
  destruct S as (_ & _ & _ & (S4 & _) & _). destruct (S4 "polytrope_comp" "coupling_coefficient.compute_for_polytrope") as (v & Hv & Sv); [member|].
  rewrite (setting_unique d _ _ _ G Sv). apply Properties_Setup.item_has, Hv.
Qed.
(** the numbers of modes *)
Definition meridional (l m : list Z) : list Z := map (fun lm => (fst lm - Z.abs (snd lm))%Z) (combine l m).

(** ** C136: a successful grid run *)
Theorem C136_grid_run_saved : forall d sw s cg cp a k f g p ad rf lz mz me ch om bu bf x base sub extra fmt name file t ts disk,
  (* an inlist that asks for a grid, with settings of the expected types *)
  readable d sw -> read_toml_args d = Ok s ->
  setting d "computation.compute_grid_models" cg -> truthy cg = true -> setting d "computation.compute_coefficient_profile" cp -> truthy cp = false ->
  setting d "coupling_coefficient.compute_for_polytrope" p -> setting d "coupling_coefficient.adiabatic" (VBool ad) -> setting d "rotation.rotating_formalism" rf ->
  setting d "computation.integration_method" (VStr me) -> setting d "computation.angular.use_cheby" (VBool ch) -> setting d "computation.angular.cheby_mul" (VInt om) ->
  setting d "computation.angular.blow_up_protect" (VBool bu) -> setting d "computation.angular.blow_up_fac" bf -> as_num bf = Ok x ->
  save_settings d (VStr base) (VStr sub) (VStr extra) (VStr fmt) -> Saver_Model.save_file base sub extra name fmt (meridional lz mz) mz = Ok file ->
  (* a solver (C134) and its triads (C135) *)
  constructed s a k -> wired repr d sw argv path toml (truthy p) f k -> grid_modes (w_orders data coupler w) a = Ok g -> g_l g = VArr (map VInt lz) -> g_m g = VArr (map VInt mz) ->
  (* every triad can be computed on its own, and there is one *)
  mapM (alone k lz mz (Solver_Model.mkSettings (truthy p) ad true (truthy rf))) (g_orders g) = Ok (t :: ts) -> List.Forall Saver_Spec.well_shaped (t :: ts) ->
  exists disk' res, solve disk s (VStr name) = (disk', [], Ok tt) /\ disk' file = Some res /\ (forall q, q <> file -> disk' q = disk q) /\
    let c := Saver_Model.mkConfig (truthy p) ad lz mz me ch om bu x in
    (forall n y, In (n, y) (Saver_Spec.results_table c) -> Saver_Spec.reads res (Saver_Model.split_path n) (Saver_Spec.col y (t :: ts))) /\
    Saver_Model.attr res ["quantum_numbers"] "l" = Some (Saver_Model.AInts lz) /\ Saver_Model.attr res ["quantum_numbers"] "m" = Some (Saver_Model.AInts mz) /\
    Saver_Model.attr res ["quantum_numbers"] "k" = Some (Saver_Model.AInts (meridional lz mz)) /\
    Saver_Model.attr res [] "num_int_method" = Some (Saver_Model.AStr me) /\ Saver_Model.attr res [] "use_cheby" = Some (Saver_Model.ABool ch) /\
    Saver_Model.attr res [] "cheby_order_mul" = Some (Saver_Model.AInts [om]) /\ Saver_Model.attr res [] "cheby_blow_up" = Some (Saver_Model.ABool bu) /\
    Saver_Model.attr res [] "cheby_blow_up_fac" = Some (Saver_Model.ANum x).
Proof.
  intros d sw s cg cp a k f g p ad rf lz mz me ch om bu bf x base sub extra fmt name file t ts disk R E G1 G2 P1 P2 Sp Sa Sr S1 S2 S3 S4 S5 Nx SS SF CK W GM GL Gm M WS.
  unfold Run_Model.solve. destruct (grid_action d sw s cg cp R E G1 P1) as [A1 A2]. rewrite (proj1 (Properties_Parser.C96_one_action _ _ _ A1 A2) G2 P2).
  unfold grid_results. rewrite CK. cbn [bind]. rewrite GM. cbn [bind]. rewrite GL, Gm, !as_Zs_ints. cbn [bind]. rewrite (wired_cfg _ _ _ _ _ _ _ _ _ _ _ _ W Sp Sa Sr). cbn [bind].
  set (cfg := Solver_Model.mkSettings (truthy p) ad true (truthy rf)) in *. set (c := Saver_Model.mkConfig (truthy p) ad lz mz me ch om bu x).
  destruct (g_orders g) as [|o os] eqn:GO; [discriminate|].
  destruct (Properties_Solver.solver_results cfg data coupler (load_for data coupler w k lz mz cfg) (w_handler data coupler w (k_handler k)) (w_nonadiabatic data coupler w) (w_two_mode data coupler w)
    (w_stationary data coupler w (k_conj k)) (w_selection data coupler w (k_conj k)) (w_coupler data coupler w (k_source k) (k_coupler k)) (w_coupled data coupler w)
    (w_jacobian data coupler w) (w_lag data coupler w) (w_xir data coupler w) (w_disc data coupler w (k_disc k)) o os t ts c _ M (fresh_sized (List.length (o :: os))) eq_refl eq_refl) as (st & Rn & Rd).
  unfold run_triads.
  unfold Solver_Model.orders in *. rewrite Rn. cbn [bind]. unfold save_grid. rewrite (poly_item d sw s p R E Sp). cbn [bind].
  change (map (fun lm : Z * Z => (fst lm - Z.abs (snd lm))%Z) (combine lz mz)) with (meridional lz mz).
  rewrite (saver_file_text repr d sw s base sub extra fmt name R E SS), SF. cbn [bind].
  rewrite (wired_saver_config _ _ _ _ _ _ _ _ _ _ _ _ _ _ _ _ _ lz mz W Sp Sa S1 S2 S3 S4 S5 Nx). cbn [bind]. fold c. rewrite Rd. cbn [bind].
  destruct (Properties_Saver.C61_results_read_back c t ts (disk file) WS) as (res & St & Rb & At1 & At2 & At3 & At4 & At5 & At6 & At7 & At8 & _). rewrite St.
  exists (written disk file (Some res)), res. split; [reflexivity|]. split; [unfold written; rewrite String.eqb_refl; reflexivity|].
  split; [intros q N; unfold written; destruct (String.eqb_spec q file); [contradiction|reflexivity]|]. cbv zeta. repeat (split; [assumption|]). assumption.
Qed.

(** What is asked of the model loader for a triad: degrees and azimuthal orders of the run; mass and radius of a polytrope, in solar units in the inlist. *)
Theorem C136_models_loaded : forall d sw k f p ad st rf lz mz o ms rs, wired repr d sw argv path toml (truthy p) f k -> setting d "POLY_model.mass" ms -> setting d "POLY_model.radius" rs ->
  let cfg := Solver_Model.mkSettings (truthy p) ad st rf in
  let ask := fun s => w_load data coupler w {| q_wiring := k; q_l := lz; q_m := mz |} s o in
  (truthy p = false -> load_for data coupler w k lz mz cfg o = ask None) /\
  (truthy p = true -> forall x y, as_num ms = Ok x -> as_num rs = Ok y -> load_for data coupler w k lz mz cfg o = ask (Some (x * w_m_sun data coupler w, y * w_r_sun data coupler w)%R)) /\
  (truthy p = true -> as_num ms = UB -> load_for data coupler w k lz mz cfg o = Exc TypeError).
Proof.
  intros d sw k f p ad st rf lz mz o ms rs [_ _ _ _ T _ _ _] S1 S2 cfg ask. unfold load_for, cfg, polytrope_scale. cbn [Solver_Model.polytrope].
  split; [intros ->; reflexivity|]. split; intros ->; rewrite (told_item d _ _ "_polytrope_mass" _ _ T ltac:(member) S1); cbn [bind]; rewrite (told_item d _ _ "_polytrope_radius" _ _ T ltac:(member) S2); cbn [bind].
  - intros x y X Y. assert (Q : forall v z c, as_num v = Ok z -> scaled v c = Ok (z * c)%R).
    { intros v z c H. destruct v; try discriminate H; cbn [as_num scaled] in *; injection H as <-; try reflexivity. destruct b; f_equal; ring. }
    rewrite (Q _ _ _ X), (Q _ _ _ Y). reflexivity.
  - intros X. destruct ms; try discriminate X; reflexivity.
Qed.

(** ** C137: failures *)
(** Whatever happens, a run changes at most one file, and only a grid run changes one. *)
Theorem C137_one_file_at_most : forall disk s name disk' fs r, solve disk s name = (disk', fs, r) ->
  exists file, forall q, q <> file -> disk' q = disk q.
Proof.
  intros disk s name disk' fs r E. unfold Run_Model.solve in E.
  assert (Same : forall d' f' r', (disk, f', r') = (d', fs, r) -> exists file, forall q, q <> file -> d' q = disk q) by (intros d' f' r' X; injection X as <- _ _; exists ""; reflexivity).
  destruct (choose_action (comp s)) as [[]| |e]; [|destruct (profile_run _ _ _ _ _ _ _ _ _ _); apply Same in E; exact E|apply Same in E; exact E|apply Same in E; exact E].
  destruct (grid_results _ _ _ _ _ _ _ _ _) as [[[[[k l] m] os] st]| |e]; [|apply Same in E; exact E|apply Same in E; exact E].
  unfold save_grid in E. match type of E with (let (_, _) := match ?x with _ => _ end in _) = _ => destruct x as [[f rs]| |e] end; [|apply Same in E; exact E|apply Same in E; exact E].
  destruct (Saver_Model.store_results 3 Saver_Model.Write (disk f) rs) as [f' u]. injection E as <- _ _. exists f. intros q N. unfold written. destruct (String.eqb_spec q f); [contradiction|reflexivity].
Qed.
(** The first triad that raises ends the run with its exception: no file is changed, the results of the earlier triads are lost. *)
Theorem C137_failing_triad : forall d sw s cg cp a k f g p ad rf lz mz os o post ts e disk name,
  readable d sw -> read_toml_args d = Ok s ->
  setting d "computation.compute_grid_models" cg -> truthy cg = true -> setting d "computation.compute_coefficient_profile" cp -> truthy cp = false ->
  setting d "coupling_coefficient.compute_for_polytrope" p -> setting d "coupling_coefficient.adiabatic" (VBool ad) -> setting d "rotation.rotating_formalism" rf ->
  constructed s a k -> wired repr d sw argv path toml (truthy p) f k -> grid_modes (w_orders data coupler w) a = Ok g -> g_l g = VArr (map VInt lz) -> g_m g = VArr (map VInt mz) ->
  g_orders g = (os ++ o :: post)%list -> mapM (alone k lz mz (Solver_Model.mkSettings (truthy p) ad true (truthy rf))) os = Ok ts ->
  alone k lz mz (Solver_Model.mkSettings (truthy p) ad true (truthy rf)) o = Exc e ->
  solve disk s name = (disk, [], Exc e).
Proof.
  intros d sw s cg cp a k f g p ad rf lz mz os o post ts e disk name R E G1 G2 P1 P2 Sp Sa Sr CK W GM GL Gm GO M X.
  unfold Run_Model.solve. destruct (grid_action d sw s cg cp R E G1 P1) as [A1 A2]. rewrite (proj1 (Properties_Parser.C96_one_action _ _ _ A1 A2) G2 P2).
  unfold grid_results. rewrite CK. cbn [bind]. rewrite GM. cbn [bind]. rewrite GL, Gm, !as_Zs_ints. cbn [bind]. rewrite (wired_cfg _ _ _ _ _ _ _ _ _ _ _ _ W Sp Sa Sr). cbn [bind].
  rewrite GO. set (cfg := Solver_Model.mkSettings (truthy p) ad true (truthy rf)) in *.
  destruct (Properties_Solver.C62_first_failure cfg data coupler (load_for data coupler w k lz mz cfg) (w_handler data coupler w (k_handler k)) (w_nonadiabatic data coupler w) (w_two_mode data coupler w)
    (w_stationary data coupler w (k_conj k)) (w_selection data coupler w (k_conj k)) (w_coupler data coupler w (k_source k) (k_coupler k)) (w_coupled data coupler w)
    (w_jacobian data coupler w) (w_lag data coupler w) (w_xir data coupler w) (w_disc data coupler w (k_disc k)) os o post ts e _ M X (fresh_sized (List.length (os ++ o :: post)))) as (st & Rn & _).
  unfold run_triads. unfold Solver_Model.orders in *. rewrite Rn. reflexivity.
Qed.
(** A run that cannot be set up changes nothing. *)
Theorem C137_failing_setup : forall d sw s cg cp e disk name,
  readable d sw -> read_toml_args d = Ok s ->
  setting d "computation.compute_grid_models" cg -> setting d "computation.compute_coefficient_profile" cp ->
  (truthy cg = truthy cp -> solve disk s name = (disk, [], Exc RuntimeError)) /\
  (truthy cg = true -> truthy cp = false -> grid_solver repr (w_folders data coupler w) argv path toml lv s = Exc e -> solve disk s name = (disk, [], Exc e)) /\
  (truthy cg = true -> truthy cp = false -> forall a k, constructed s a k -> grid_modes (w_orders data coupler w) a = Exc e -> solve disk s name = (disk, [], Exc e)).
Proof.
  intros d sw s cg cp e disk name R E G1 P1. destruct (grid_action d sw s cg cp R E G1 P1) as [A1 A2]. destruct (Properties_Parser.C96_one_action _ _ _ A1 A2) as (C1 & _ & C3).
  unfold Run_Model.solve. split; [intros T; rewrite (C3 T); reflexivity|]. split; intros T1 T2.
  - intros X. rewrite (C1 T1 T2). unfold grid_results. rewrite X. reflexivity.
  - intros a k X Y. rewrite (C1 T1 T2). unfold grid_results. rewrite X. cbn [bind]. rewrite Y. reflexivity.
Qed.
(** Settings for the file that cannot be used are only noticed after every triad has been computed, and all results are lost: a missing format, a
    format that is not known, a missing extra specifier. *)
Theorem C137_unusable_save_settings : forall d sw s cg cp a k f g p ad rf lz mz ts base sub extra fmt disk name,
  readable d sw -> read_toml_args d = Ok s ->
  setting d "computation.compute_grid_models" cg -> truthy cg = true -> setting d "computation.compute_coefficient_profile" cp -> truthy cp = false ->
  setting d "coupling_coefficient.compute_for_polytrope" p -> setting d "coupling_coefficient.adiabatic" (VBool ad) -> setting d "rotation.rotating_formalism" rf ->
  constructed s a k -> wired repr d sw argv path toml (truthy p) f k -> grid_modes (w_orders data coupler w) a = Ok g -> g_l g = VArr (map VInt lz) -> g_m g = VArr (map VInt mz) ->
  mapM (alone k lz mz (Solver_Model.mkSettings (truthy p) ad true (truthy rf))) (g_orders g) = Ok ts ->
  save_settings d base sub extra fmt ->
  (fmt = VNone -> solve disk s name = (disk, [], Exc AttributeError)) /\
  (forall u, fmt = VStr u -> ~ In (Saver_Model.lower u) ["hdf5"; "csv"; "ascii"] -> solve disk s name = (disk, [], Exc SystemExit)) /\
  (forall u, fmt = VStr u -> In (Saver_Model.lower u) ["hdf5"; "csv"; "ascii"] -> extra = VNone -> solve disk s name = (disk, [], Exc TypeError)).
Proof.
  intros d sw s cg cp a k f g p ad rf lz mz ts base sub extra fmt disk name R E G1 G2 P1 P2 Sp Sa Sr CK W GM GL Gm M SS.
  unfold Run_Model.solve. destruct (grid_action d sw s cg cp R E G1 P1) as [A1 A2]. rewrite (proj1 (Properties_Parser.C96_one_action _ _ _ A1 A2) G2 P2).
  unfold grid_results. rewrite CK. cbn [bind]. rewrite GM. cbn [bind]. rewrite GL, Gm, !as_Zs_ints. cbn [bind]. rewrite (wired_cfg _ _ _ _ _ _ _ _ _ _ _ _ W Sp Sa Sr). cbn [bind].
  set (cfg := Solver_Model.mkSettings (truthy p) ad true (truthy rf)) in *.
  destruct (Properties_Solver.C62_each_triad_in_its_slot cfg data coupler (load_for data coupler w k lz mz cfg) (w_handler data coupler w (k_handler k)) (w_nonadiabatic data coupler w) (w_two_mode data coupler w)
    (w_stationary data coupler w (k_conj k)) (w_selection data coupler w (k_conj k)) (w_coupler data coupler w (k_source k) (k_coupler k)) (w_coupled data coupler w)
    (w_jacobian data coupler w) (w_lag data coupler w) (w_xir data coupler w) (w_disc data coupler w (k_disc k)) (g_orders g) ts _ M (fresh_sized (List.length (g_orders g)))) as (st & Rn & _).
  unfold run_triads. unfold Solver_Model.orders in *. rewrite Rn. cbn [bind]. unfold save_grid. rewrite (poly_item d sw s p R E Sp). cbn [bind].
  rewrite (saver_file_eq repr d sw s _ _ _ _ R E SS).
  assert (F : forall u, Saver_Model.lower (Saver_Model.lower u) = Saver_Model.lower u) by exact lower_lower.
  split; [intros ->; reflexivity|]. split; intros u -> N; cbn [lower_of bind].
  - destruct (Properties_Saver.C98_formats (py_str repr base) (Saver_Model.lower u)) as (_ & _ & _ & Hn). rewrite Hn; [reflexivity|]. rewrite F. exact N.
  - intros ->. destruct (Properties_Saver.C98_formats (py_str repr base) (Saver_Model.lower u)) as (H1 & H2 & H3 & _). rewrite F in H1, H2, H3.
    destruct N as [N|[N|[N|[]]]]; [rewrite (H1 (eq_sym N))|rewrite (H2 (eq_sym N))|rewrite (H3 (eq_sym N))]; reflexivity.
Qed.
(** A range without radial orders is a grid without triads: the file is opened, an existing one is emptied, and the run ends with IndexError. *)
Theorem C137_no_triads : forall d sw s cg cp a k f g p ad rf lz mz me ch om bu bf x base sub extra fmt name file disk old,
  readable d sw -> read_toml_args d = Ok s ->
  setting d "computation.compute_grid_models" cg -> truthy cg = true -> setting d "computation.compute_coefficient_profile" cp -> truthy cp = false ->
  setting d "coupling_coefficient.compute_for_polytrope" p -> setting d "coupling_coefficient.adiabatic" (VBool ad) -> setting d "rotation.rotating_formalism" rf ->
  setting d "computation.integration_method" (VStr me) -> setting d "computation.angular.use_cheby" (VBool ch) -> setting d "computation.angular.cheby_mul" (VInt om) ->
  setting d "computation.angular.blow_up_protect" (VBool bu) -> setting d "computation.angular.blow_up_fac" bf -> as_num bf = Ok x ->
  save_settings d (VStr base) (VStr sub) (VStr extra) (VStr fmt) -> Saver_Model.save_file base sub extra name fmt (meridional lz mz) mz = Ok file ->
  constructed s a k -> wired repr d sw argv path toml (truthy p) f k -> grid_modes (w_orders data coupler w) a = Ok g -> g_l g = VArr (map VInt lz) -> g_m g = VArr (map VInt mz) ->
  g_orders g = [] -> disk file = Some old ->
  exists disk' new, solve disk s (VStr name) = (disk', [], Exc IndexError) /\ disk' file = Some new /\
    (forall q v, Saver_Model.obj new q = Some (Saver_Model.Dset v) -> Saver_Spec.size v = 0%nat) /\ forall q, q <> file -> disk' q = disk q.
Proof.
  intros d sw s cg cp a k f g p ad rf lz mz me ch om bu bf x base sub extra fmt name file disk old R E G1 G2 P1 P2 Sp Sa Sr S1 S2 S3 S4 S5 Nx SS SF CK W GM GL Gm GO Old.
  unfold Run_Model.solve. destruct (grid_action d sw s cg cp R E G1 P1) as [A1 A2]. rewrite (proj1 (Properties_Parser.C96_one_action _ _ _ A1 A2) G2 P2).
  unfold grid_results. rewrite CK. cbn [bind]. rewrite GM. cbn [bind]. rewrite GL, Gm, !as_Zs_ints. cbn [bind]. rewrite (wired_cfg _ _ _ _ _ _ _ _ _ _ _ _ W Sp Sa Sr). cbn [bind].
  rewrite GO. cbn [List.length]. unfold run_triads, Solver_Model.grid_run, Solver_Model.bindM. cbn [Solver_Model.grid_loop Solver_Model.store_statistics Solver_Model.ret bind].
  set (c := Saver_Model.mkConfig (truthy p) ad lz mz me ch om bu x).
  unfold save_grid. rewrite (poly_item d sw s p R E Sp). cbn [bind].
  change (map (fun lm : Z * Z => (fst lm - Z.abs (snd lm))%Z) (combine lz mz)) with (meridional lz mz).
  rewrite (saver_file_text repr d sw s base sub extra fmt name R E SS), SF. cbn [bind].
  rewrite (wired_saver_config _ _ _ _ _ _ _ _ _ _ _ _ _ _ _ _ _ lz mz W Sp Sa S1 S2 S3 S4 S5 Nx). cbn [bind]. fold c.
  destruct (Properties_Saver.C60_empty_run_destroys_file c old) as (new & N1 & N2).
  assert (Q : Solver_Model.read_solver c [] (Solver_Model.fresh data coupler 0) = Ok (Saver_Model.results_of c [])) by reflexivity.
  unfold Solver_Model.orders in *. rewrite Q. cbn [bind]. rewrite Old, N1. exists (written disk file (Some new)), new. split; [reflexivity|]. split; [unfold written; rewrite String.eqb_refl; reflexivity|].
  split; [exact N2|]. intros q N. unfold written. destruct (String.eqb_spec q file); [contradiction|reflexivity].
Qed.
(** Missing directories are not noticed: their text None becomes part of the path. *)
Theorem C137_missing_directories : forall d sw s sub extra fmt p name k m,
  readable d sw -> read_toml_args d = Ok s -> save_settings d VNone sub (VStr extra) (VStr fmt) -> Saver_Model.lower fmt = "hdf5" ->
  saver_file repr (save_info s) p name k m =
    Ok (Saver_Model.adjust_file_path (Saver_Model.qnr_string k m) ("None/hdf5_output/" ++ match sub with VNone => "None" | VStr u => Saver_Model.slash_subdir u | _ => "/" ++ py_str repr sub end ++ extra ++ py_str repr name ++ ".h5")).
Proof.
  intros d sw s sub extra fmt p name k m R E SS F. rewrite (saver_file_eq repr d sw s _ _ _ _ R E SS). cbn [lower_of bind py_str].
  destruct (Properties_Saver.C98_formats "None" (Saver_Model.lower fmt)) as (H1 & _). rewrite lower_lower in H1. rewrite (H1 F). cbn [bind extra_text fst snd]. unfold subdir_text. destruct sub; reflexivity.
Qed.
(** ** C138: profile runs *)
Notation profile_constructed s name a k := (profile_solver repr (w_folders data coupler w) argv path toml lv s name = Ok (a, k)).
Lemma profile_chosen d l s n lz mz p ad rf rot tm vk : readable d l -> read_toml_args d = Ok s -> profile_inlist d n lz mz p ad rf rot tm vk -> choose_action (comp s) = Ok Profile.
Proof.
  intros R E [(cg & cp & G1 & G2 & P1 & P2) _ _ _ _ _ _ _ _ _]. destruct (grid_action d l s cg cp R E G1 P1) as [A1 A2]. exact (proj1 (proj2 (Properties_Parser.C96_one_action _ _ _ A1 A2)) G2 P2).
Qed.
Lemma profile_not_ok k args sel lz mz cfg o n : snd (profile_results repr data coupler w k args sel lz mz cfg o n) <> Ok tt.
Proof.
  unfold profile_results. destruct (one_triad _ _ _ _ _ _ _ _ _) as [st r].
  match goal with |- snd (match ?x with _ => _ end) <> _ => destruct x as [[[[[base part] c] terms] kernels]| |e] end; [|discriminate|discriminate].
  destruct (snd (Solver_Model.three_mode_stationary data coupler (w_coupled data coupler w) true 0 st)); [|discriminate|discriminate].
  destruct kernels; [destruct (w_kernels data coupler w c); discriminate|discriminate].
Qed.
(** A profile run writes no results file and never ends normally: at best with the exit at its end. *)
Theorem C138_never_succeeds : forall d sw s cg cp disk name disk' fs r,
  readable d sw -> read_toml_args d = Ok s ->
  setting d "computation.compute_grid_models" cg -> truthy cg = false -> setting d "computation.compute_coefficient_profile" cp -> truthy cp = true ->
  solve disk s name = (disk', fs, r) -> disk' = disk /\ r <> Ok tt.
Proof.
  intros d sw s cg cp disk name disk' fs r R E G1 G2 P1 P2. unfold Run_Model.solve. destruct (grid_action d sw s cg cp R E G1 P1) as [A1 A2].
  rewrite (proj1 (proj2 (Properties_Parser.C96_one_action _ _ _ A1 A2)) G2 P2).
  destruct (profile_run repr data coupler w argv path toml lv s name) as [f r'] eqn:PR. intros X. injection X as <- <- <-. split; [reflexivity|].
  intros N. assert (r' = Ok tt) by (destruct r' as [[]| |]; [reflexivity|discriminate|discriminate]). subst r'. clear N.
  unfold profile_run in PR. match type of PR with match ?x with _ => _ end = _ => destruct x as [[[[[[[[a k] sel] l] m] cfg] o] n]| |e] end; [|discriminate|discriminate].
  apply (profile_not_ok k a sel l m cfg o n). rewrite PR. reflexivity.
Qed.
Lemma selection_items d l s n lz mz p ad rf rot tm vk : readable d l -> read_toml_args d = Ok s -> profile_inlist d n lz mz p ad rf rot tm vk ->
  exists n1 n2 n3, n = [n1; n2; n3] /\ let sel := VTab (cc_profile_selection s) in
    item "parent_n" sel = Ok (VInt n1) /\ item "daughter_1_n" sel = Ok (VInt n2) /\ item "daughter_2_n" sel = Ok (VInt n3) /\
    item "mode_l" sel = Ok (VArr (map VInt lz)) /\ item "mode_m" sel = Ok (VArr (map VInt mz)).
Proof.
  intros [A B] E [_ N L M _ _ _ _ _ _]. destruct (Properties_Parser.C94_solve_settings d l A B) as (s' & E' & S). assert (s' = s) by congruence. subst s'. clear E' A B.
  destruct S as (_ & _ & _ & _ & _ & _ & _ & _ & (S9 & _) & _ & _ & (ls & ms & F1 & F2 & _ & _ & H1 & H2) & _).
  inversion N as [|? v1 ? r1 N1 N2 EN E1]; subst. inversion N2 as [|? v2 ? r2 N3 N4 EN' E2]; subst. inversion N4 as [|? v3 ? r3 N5 N6 EN'' E3]; subst. inversion N6; subst. clear N N2 N4 N6.
  destruct n as [|n1 [|n2 [|n3 [|]]]]; try discriminate. injection E1 as -> -> ->. exists n1, n2, n3. split; [reflexivity|]. cbv zeta.
  assert (Q : forall nm pos v, In (nm, pos) doc_selection -> setting d pos v -> item nm (VTab (cc_profile_selection s)) = Ok v).
  { intros nm pos v I Sv. destruct (S9 nm pos I) as (u & Hu & Su). rewrite (setting_unique d pos _ _ Sv Su). apply Properties_Setup.item_has, Hu. }
  split; [refine (Q _ "mode_info.coupling.parent.n" _ _ N1); member|]. split; [refine (Q _ "mode_info.coupling.daughter_1.n" _ _ N3); member|]. split; [refine (Q _ "mode_info.coupling.daughter_2.n" _ _ N5); member|].
  rewrite <- (settings_unique2 d _ _ _ L F1) in H1. rewrite <- (settings_unique2 d _ _ _ M F2) in H2. split; apply Properties_Setup.item_has; assumption.
Qed.
(** the coupling object made for a triad *)
Definition prepared (k : wiring) (lz mz : list Z) (cfg : Solver_Model.settings) (x : data) :=
  Solver_Spec.prepared cfg data (w_handler data coupler w (k_handler k)) (w_nonadiabatic data coupler w) (w_two_mode data coupler w) (w_stationary data coupler w (k_conj k)) (w_selection data coupler w (k_conj k)) x.
Definition makes (k : wiring) (lz mz : list Z) (cfg : Solver_Model.settings) (o : Solver_Model.orders) (q : option coupler) : Prop :=
  exists x h pre two, load_for data coupler w k lz mz cfg o = Ok x /\ prepared k lz mz cfg x = Ok (h, pre, two) /\
    Solver_Spec.coupling_of cfg data coupler (w_coupler data coupler w (k_source k) (k_coupler k)) x h pre = Ok q.
Ltac failed := solve [split; [let XX := fresh in intros ? XX; first [discriminate|injection XX as <-; eexists; reflexivity]|discriminate]].
Lemma one_triad_cases k lz mz cfg o :
  (forall e, alone k lz mz cfg o = Exc e -> exists st, one_triad data coupler w k lz mz cfg o (Solver_Model.fresh data coupler 1) = (st, Exc e)) /\
  (forall t q, alone k lz mz cfg o = Ok t -> makes k lz mz cfg o q -> exists st pre, one_triad data coupler w k lz mz cfg o (Solver_Model.fresh data coupler 1) = (st, Ok pre) /\
    Solver_Model.s_coupler _ _ st = q /\
    (Solver_Model.polytrope cfg = true -> snd (Solver_Model.three_mode_stationary data coupler (w_coupled data coupler w) true 0 st) = Exc AttributeError) /\
    (Solver_Model.polytrope cfg = false -> q <> None -> exists x, snd (Solver_Model.three_mode_stationary data coupler (w_coupled data coupler w) true 0 st) = Ok x)).
Proof.
  unfold alone, makes, prepared, one_triad. set (ld := load_for data coupler w k lz mz cfg). clearbody ld.
  unfold Solver_Spec.triad_of, Solver_Spec.prepared, Solver_Spec.coupling_of, Solver_Spec.hyper_of, Solver_Model.compute_coupling_one_triad, Solver_Model.choose_coupler, Solver_Model.hyperbolicity, Solver_Spec.stat_of.
  unfold Solver_Model.bindM, Solver_Model.lift, Solver_Model.modify, Solver_Model.gets, Solver_Model.ret.
  destruct (ld o) as [d| |e]; cbn [bind]; [|failed|failed].
  destruct (Solver_Model.polytrope cfg) eqn:P.
  - destruct (w_handler data coupler w (k_handler k) d) as [h| |e] eqn:H; cbn [bind]; [|failed|failed].
    destruct (w_two_mode data coupler w d) as [two| |e] eqn:TM; cbn [bind]; [|failed|failed].
    destruct (Solver_Model.rot_formalism cfg); cbn [negb orb]; [|failed].
    destruct (w_coupler data coupler w (k_source k) (k_coupler k) d h) as [q| |e] eqn:CQ; cbn [bind]; [|failed|failed].
    split; [discriminate|]. intros t q' _ (x & h' & pre' & two' & L & Pr & Cq). injection L as <-. rewrite H, TM in Pr. cbn [bind] in Pr. injection Pr as <- <- <-.
    rewrite CQ in Cq. cbn [bind] in Cq. injection Cq as <-. eexists. eexists. split; [reflexivity|]. split; [reflexivity|]. split; [reflexivity|discriminate].
  - destruct (w_handler data coupler w (k_handler k) d) as [h0| |e] eqn:H0; cbn [bind]; [|failed|failed].
    destruct (w_nonadiabatic data coupler w h0 d) as [h| |e] eqn:H; cbn [bind]; [|failed|failed].
    destruct (w_two_mode data coupler w d) as [two| |e] eqn:TM; cbn [bind]; [|failed|failed].
    destruct (if Solver_Model.stat_solv cfg then w_stationary data coupler w (k_conj k) d h two else w_selection data coupler w (k_conj k) d) as [pre| |e] eqn:PC; cbn [bind]; [|failed|failed].
    destruct (Solver_Model.rot_formalism cfg); cbn [negb orb]; [|failed].
    unfold Solver_Model.additional_mode_info, Solver_Model.three_mode_stationary, Solver_Model.need, Solver_Model.bindM, Solver_Model.lift, Solver_Model.modify, Solver_Model.gets, Solver_Model.ret.
    assert (E : pre && Solver_Model.stat_solv cfg || negb (Solver_Model.stat_solv cfg) = pre || negb (Solver_Model.stat_solv cfg)) by (destruct pre, (Solver_Model.stat_solv cfg); reflexivity).
    rewrite E. destruct (pre || negb (Solver_Model.stat_solv cfg)) eqn:X.
    + destruct (w_coupler data coupler w (k_source k) (k_coupler k) d h) as [q| |e] eqn:CQ; cbn [bind]; [|failed|failed].
      destruct (w_jacobian data coupler w two h (Saver_Model.ncc (w_coupled data coupler w q))) as [hy| |e]; cbn [bind]; [|failed|failed].
      cbn [Solver_Model.l_couple Solver_Model.set_couple Solver_Model.set_hyper Solver_Model.set_freq Solver_Model.set_coupler Solver_Model.set_handler Solver_Model.set_data option_map Solver_Model.fresh repeat Solver_Model.put_slot nth].
      rewrite Solver_Proofs.coupling_entry. cbn [Solver_Model.times_cell Solver_Model.s_coupler Solver_Model.set_xir Solver_Model.set_lag Solver_Model.set_hyper Solver_Model.set_freq Solver_Model.set_couple Solver_Model.set_coupler].
      destruct (w_disc data coupler w (k_disc k) q) as [[tk ek]| |e]; cbn [bind]; [|failed|failed].
      split; [discriminate|]. intros t q' _ (x & h' & pre' & two' & L & Pr & Cq). injection L as <-. rewrite H0 in Pr. cbn [bind] in Pr. rewrite H, TM in Pr. cbn [bind] in Pr. rewrite PC in Pr. cbn [bind] in Pr. injection Pr as <- <- <-.
      rewrite X, CQ in Cq. cbn [bind] in Cq. injection Cq as <-. eexists. eexists. split; [reflexivity|]. split; [reflexivity|]. split; [discriminate|]. intros _ _. eexists. reflexivity.
    + cbn [bind].
      cbn [Solver_Model.l_couple Solver_Model.set_couple Solver_Model.set_hyper Solver_Model.set_freq Solver_Model.set_coupler Solver_Model.set_handler Solver_Model.set_data option_map Solver_Model.fresh repeat Solver_Model.put_slot nth].
      rewrite Solver_Proofs.coupling_entry. cbn [Solver_Model.times_cell Solver_Model.s_coupler Solver_Model.set_xir Solver_Model.set_lag Solver_Model.set_hyper Solver_Model.set_freq Solver_Model.set_couple Solver_Model.set_coupler].
      split; [discriminate|]. intros t q' _ (x & h' & pre' & two' & L & Pr & Cq). injection L as <-. rewrite H0 in Pr. cbn [bind] in Pr. rewrite H, TM in Pr. cbn [bind] in Pr. rewrite PC in Pr. cbn [bind] in Pr. injection Pr as <- <- <-.
      rewrite X in Cq. injection Cq as <-. eexists. eexists. split; [reflexivity|]. split; [reflexivity|]. split; [discriminate|]. intros _ N. contradiction.
Qed.
(** what C134 says of a profile solver *)
Definition told_profile (d : val) (s : settings) (name : string) (a : table) : Prop :=
  has a "cc_profile_selection_dict" (VTab (cc_profile_selection s)) /\ has a "save_name" (VStr name) /\
  told d a [("view_kernels", Inlist "plotting.profile.show_kernels"); ("view_term_by_term", Inlist "plotting.profile.show_term_by_term")].
Lemma profile_starts d l s n lz mz p ad rf rot tm vk name a k f disk : readable d l -> read_toml_args d = Ok s -> profile_inlist d n lz mz p ad rf rot tm vk ->
  profile_constructed s (VStr name) a k -> wired repr d l argv path toml false f k -> told_profile d s name a ->
  exists n1 n2 n3, n = [n1; n2; n3] /\ solve disk s (VStr name) =
    (let (fs, r) := profile_results repr data coupler w k a (cc_profile_selection s) lz mz (Solver_Model.mkSettings (truthy p) ad true (truthy rf)) (n1, n2, n3) (map VInt n) in
     (disk, fs, match r with Ok _ => Ok tt | x => x end)).
Proof.
  intros R E I CK W (T1 & _ & _). unfold Run_Model.solve. rewrite (profile_chosen _ _ _ _ _ _ _ _ _ _ _ _ R E I).
  destruct (selection_items _ _ _ _ _ _ _ _ _ _ _ _ R E I) as (n1 & n2 & n3 & -> & I1 & I2 & I3 & I4 & I5). exists n1, n2, n3. split; [reflexivity|].
  unfold profile_run. rewrite CK. cbn [bind]. rewrite (Properties_Setup.item_has _ _ _ T1). cbn [bind]. rewrite I1. cbn [bind]. rewrite I2. cbn [bind]. rewrite I3. cbn [bind as_Z].
  rewrite I4. cbn [bind]. rewrite as_Zs_ints. cbn [bind]. rewrite I5. cbn [bind]. rewrite as_Zs_ints. cbn [bind].
  destruct I as [_ _ _ _ Sp Sa Sr _ _ _]. rewrite (wired_cfg _ _ _ _ _ _ _ _ _ _ _ _ W Sp Sa Sr). cbn [bind map]. reflexivity.
Qed.
(** An exception of the triad ends the run; so does a triad without coupling object (a failed pre-check): no figure is saved. *)
Theorem C138_no_figures : forall d sw s n lz mz p ad rf rot tm vk name a k f disk n1 n2 n3,
  readable d sw -> read_toml_args d = Ok s -> profile_inlist d n lz mz p ad rf rot tm vk ->
  profile_constructed s (VStr name) a k -> wired repr d sw argv path toml false f k -> told_profile d s name a -> n = [n1; n2; n3] ->
  let cfg := Solver_Model.mkSettings (truthy p) ad true (truthy rf) in
  (forall e, alone k lz mz cfg (n1, n2, n3) = Exc e -> solve disk s (VStr name) = (disk, [], Exc e)) /\
  (forall t, alone k lz mz cfg (n1, n2, n3) = Ok t -> makes k lz mz cfg (n1, n2, n3) None -> solve disk s (VStr name) = (disk, [], Exc AttributeError)).
Proof.
  intros d sw s n lz mz p ad rf rot tm vk name a k f disk n1 n2 n3 R E I CK W T N cfg.
  destruct (profile_starts _ _ _ _ _ _ _ _ _ _ _ _ _ _ _ _ disk R E I CK W T) as (m1 & m2 & m3 & N' & Sv). rewrite N' in N. injection N as -> -> ->. rewrite Sv. clear Sv. fold cfg.
  destruct (one_triad_cases k lz mz cfg (n1, n2, n3)) as [C1 C2]. unfold profile_results. split.
  - intros e X. destruct (C1 e X) as (st & Q). rewrite Q. reflexivity.
  - intros t X M. destruct (C2 t None X M) as (st & pre & Q & Sc & _). rewrite Q. cbn [bind]. rewrite Sc. reflexivity.
Qed.
(** When everything can be computed the figures are saved and the script exits.  For a polytrope the stationary solution fails after the first two. *)
Theorem C138_figures : forall d sw s n lz mz p ad rf rot tm vk name a k f disk n1 n2 n3 mesa last t q z ks,
  readable d sw -> read_toml_args d = Ok s -> profile_inlist d n lz mz p ad rf rot tm vk ->
  profile_constructed s (VStr name) a k -> wired repr d sw argv path toml false f k -> told_profile d s name a -> n = [n1; n2; n3] ->
  has f "mesa_profile_substrings" (VArr (map VStr (mesa ++ [last]))) ->
  let cfg := Solver_Model.mkSettings (truthy p) ad true (truthy rf) in
  alone k lz mz cfg (n1, n2, n3) = Ok t -> makes k lz mz cfg (n1, n2, n3) (Some q) ->
  w_profile data coupler w q = Ok tt -> Tar_Model.masking_info (Some (w_tar data coupler w q)) = Ok z -> (truthy vk = true -> w_kernels data coupler w q = Ok ks) ->
  let fig directory kind ending := figure mesa (py_str repr rot) directory kind name n lz mz ending in
  let two := [fig "coupling_coefficient" "cc_profile_single" "pdf"; fig "coupling_coefficient" "cc_profile" "png"] in
  (truthy p = true -> solve disk s (VStr name) = (disk, two, Exc AttributeError)) /\
  (truthy p = false -> solve disk s (VStr name) =
     (disk, (two ++ (if truthy tm then [fig "coupling_coefficient_contributions" "cc_contributions_profile" "png"] else []) ++ (if truthy vk then ks else []))%list, Exc SystemExit)).
Proof.
  intros d sw s n lz mz p ad rf rot tm vk name a k f disk n1 n2 n3 mesa lst t q z ks R E I CK W T N Me cfg X M Pf Tz Ks fig two.
  destruct (profile_starts _ _ _ _ _ _ _ _ _ _ _ _ _ _ _ _ disk R E I CK W T) as (m1 & m2 & m3 & N' & Sv). rewrite N' in N. injection N as -> -> ->. rewrite Sv. clear Sv. fold cfg.
  destruct (selection_items _ _ _ _ _ _ _ _ _ _ _ _ R E I) as (_ & _ & _ & _ & _ & _ & _ & I4 & I5).
  destruct (one_triad_cases k lz mz cfg (n1, n2, n3)) as [_ C2]. destruct (C2 t (Some q) X M) as (st & pre & Q & Sc & St1 & St2). clear C2. unfold profile_results. rewrite Q. cbn [bind]. rewrite Sc, Pf. cbn [bind option_map].
  rewrite Tz. cbn [bind]. destruct T as (_ & T2 & T3). rewrite (Properties_Setup.item_has _ _ _ T2). cbn [bind]. unfold model_part. rewrite I4. cbn [bind elements]. rewrite I5. cbn [bind elements].
  destruct W as [_ _ _ _ W5 _ W7 _]. rewrite (Properties_Setup.item_has _ _ _ (W7 "mesa_profile_substrings" _ ltac:(discriminate) ltac:(discriminate) Me)). cbn [bind].
  assert (MP : mesa_part (VArr (map VStr (mesa ++ [lst]))) = Ok (Saver_Model.join "/" mesa)).
  { unfold mesa_part. rewrite map_app. cbn [map bind]. rewrite removelast_last. unfold strings_of. clear. assert (Q : mapM (fun v => match v with VStr s => Ok s | _ => Exc TypeError end) (map VStr mesa) = Ok mesa).
    { induction mesa as [|x l IH]; [reflexivity|]. cbn [map mapM bind]. rewrite IH. reflexivity. } rewrite Q. reflexivity. }
  rewrite MP. cbn [bind]. destruct I as [_ _ _ _ Sp Sa Sr So Sm Sk]. rewrite (told_item d _ _ "_rot_pct" _ _ W5 ltac:(member) So). cbn [bind].
  rewrite (told_item d _ _ "view_term_by_term" _ _ T3 ltac:(member) Sm). cbn [bind]. rewrite (told_item d _ _ "view_kernels" _ _ T3 ltac:(member) Sk). cbn [bind].
  assert (J : forall l, joined repr "_" (map VInt l) = numbers l) by (intros l; unfold joined, numbers; rewrite map_map; reflexivity).
  rewrite !J.
  assert (FF : forall directory kind ending, figure_file (figure_base (Saver_Model.join "/" mesa) ("rot_" ++ py_str repr rot)) kind directory
     ("_" ++ py_str repr (VStr name) ++ "_n" ++ numbers n ++ "_l" ++ numbers lz ++ "_m" ++ numbers mz) ending = fig directory kind ending).
  { intros directory kind ending. unfold fig, figure, figure_file, figure_base. cbn [py_str]. repeat (progress (cbn [append]; rewrite ?Saver_Names.sapp_assoc)). reflexivity. }
  rewrite !FF. cbn [map]. split; intros P.
  - rewrite (St1 P). reflexivity.
  - destruct (St2 P ltac:(discriminate)) as (x & ->). fold two. destruct (truthy vk); [rewrite (Ks eq_refl)|]; destruct (truthy tm); cbn [app]; rewrite ?app_nil_r; reflexivity.
Qed.
End Runs.

(** ** C139: names of the figures *)
Fixpoint no_us (s : string) : bool := match s with EmptyString => true | String c s' => negb (Ascii.eqb c "_") && no_us s' end.
Lemma split_plain : forall s cur, no_us s = true -> Saver_Names.split_us s cur = [cur ++ s].
Proof.
  induction s as [|c s IH]; intros cur H; cbn [Saver_Names.split_us]; [rewrite Saver_Names.sapp_nil_r; reflexivity|]. cbn [no_us] in H. apply andb_prop in H. destruct H as [H1 H2].
  destruct (Ascii.eqb c "_"); [discriminate|]. rewrite IH by exact H2. rewrite Saver_Names.sapp_assoc. reflexivity.
Qed.
Lemma split_app : forall a b cur, Saver_Names.split_us (a ++ String "_" b) cur = (Saver_Names.split_us a cur ++ Saver_Names.split_us b "")%list.
Proof. induction a as [|c a IH]; intros b cur; [reflexivity|]. cbn [append Saver_Names.split_us]. destruct (Ascii.eqb c "_"); rewrite IH; reflexivity. Qed.
Lemma num_no_us z : no_us (Saver_Model.str_of_Z z) = true.
Proof.
  pose proof (Saver_Names.str_of_Z_num z) as H. induction (Saver_Model.str_of_Z z) as [|c s IH]; [reflexivity|]. cbn [no_us]. cbn [list_ascii_of_string forallb] in H. apply andb_prop in H. destruct H as [H1 H2].
  rewrite (IH H2), andb_true_r. destruct (Ascii.eqb_spec c "_") as [->|]; [discriminate H1|reflexivity].
Qed.
Lemma split_three p x y z t : no_us p = true -> Saver_Names.split_us (p ++ numbers [x; y; z] ++ String "_" t) "" =
  (p ++ Saver_Model.str_of_Z x) :: Saver_Model.str_of_Z y :: Saver_Model.str_of_Z z :: Saver_Names.split_us t "".
Proof.
  intros P. unfold numbers. cbn [map Saver_Model.join]. repeat (progress (cbn [append]; rewrite ?Saver_Names.sapp_assoc)). rewrite <- (Saver_Names.sapp_assoc p). rewrite split_app, split_plain; [|].
  - rewrite split_app, split_plain by apply num_no_us. rewrite split_app, split_plain by apply num_no_us. reflexivity.
  - assert (A : forall u v, no_us u = true -> no_us v = true -> no_us (u ++ v) = true).
    { induction u as [|c u IH]; intros v U V; [exact V|]. cbn [append no_us] in *. apply andb_prop in U. destruct U as [U1 U2]. rewrite U1. exact (IH v U2 V). }
    apply A; [exact P|apply num_no_us].
Qed.

Lemma split_last p x y z : no_us p = true -> Saver_Names.split_us (p ++ numbers [x; y; z]) "" = [p ++ Saver_Model.str_of_Z x; Saver_Model.str_of_Z y; Saver_Model.str_of_Z z].
Proof.
  intros P. pose proof (split_three p x y z "" P) as H. rewrite <- Saver_Names.sapp_assoc, split_app in H. cbn [Saver_Names.split_us] in H.
  apply (app_inv_tail [""]). rewrite H. reflexivity.
Qed.
Lemma split_inj : forall a b cur cur', Saver_Names.split_us a cur = Saver_Names.split_us b cur' -> cur ++ a = cur' ++ b.
Proof.
  assert (J : forall a cur, Saver_Model.join "_" (Saver_Names.split_us a cur) = cur ++ a).
  { induction a as [|c a IH]; intros cur; cbn [Saver_Names.split_us]; [cbn [Saver_Model.join]; rewrite Saver_Names.sapp_nil_r; reflexivity|].
    destruct (Ascii.eqb_spec c "_") as [->|N].
    - pose proof (IH "") as H. cbn [append] in H. destruct (Saver_Names.split_us a "") as [|x l] eqn:S; [|cbn [Saver_Model.join] in *; rewrite H; reflexivity].
      exfalso. clear -S. revert S. generalize "" at 1 as u. induction a as [|c a IH]; intros u S; cbn [Saver_Names.split_us] in S; [discriminate|]. destruct (Ascii.eqb c "_"); [discriminate|]. exact (IH _ S).
    - rewrite IH, Saver_Names.sapp_assoc. reflexivity. }
  intros a b cur cur' H. rewrite <- (J a cur), H. apply J.
Qed.
(** In one directory the figures of different triads, and of different save names, have different names. *)
Theorem C139_figure_names_distinct : forall mesa rot directory kind ending name n l m name' n' l' m',
  List.length n = 3%nat -> List.length l = 3%nat -> List.length m = 3%nat -> List.length n' = 3%nat -> List.length l' = 3%nat -> List.length m' = 3%nat ->
  figure mesa rot directory kind name n l m ending = figure mesa rot directory kind name' n' l' m' ending ->
  name = name' /\ n = n' /\ l = l' /\ m = m'.
Proof.
  intros mesa rot directory kind ending name n l m name' n' l' m' L1 L2 L3 L4 L5 L6 H. unfold figure in H.
  destruct n as [|n1 [|n2 [|n3 [|]]]]; try discriminate L1. destruct l as [|l1 [|l2 [|l3 [|]]]]; try discriminate L2. destruct m as [|m1 [|m2 [|m3 [|]]]]; try discriminate L3.
  destruct n' as [|n1' [|n2' [|n3' [|]]]]; try discriminate L4. destruct l' as [|l1' [|l2' [|l3' [|]]]]; try discriminate L5. destruct m' as [|m1' [|m2' [|m3' [|]]]]; try discriminate L6. clear L1 L2 L3 L4 L5 L6.
  do 9 (apply Saver_Names.append_inj_l in H).
  assert (A : forall u N L M, u ++ "_n" ++ N ++ "_l" ++ L ++ "_m" ++ M ++ "." ++ ending = (u ++ String "_" ("n" ++ N ++ String "_" ("l" ++ L ++ String "_" ("m" ++ M)))) ++ "." ++ ending).
  { intros u N L M. repeat (progress (cbn [append]; rewrite ?Saver_Names.sapp_assoc)). reflexivity. }
  rewrite !A in H. apply Saver_Names.append_inj_r in H. apply (f_equal (fun x => Saver_Names.split_us x "")) in H.
  rewrite !split_app, !split_three, !split_last in H by reflexivity.
  assert (B : forall {T} (a b c d : list T), List.length c = List.length d -> (a ++ c)%list = (b ++ d)%list -> a = b /\ c = d).
  { intros T a b c d E X. assert (List.length a = List.length b) by (apply (f_equal (@List.length T)) in X; rewrite !app_length in X; lia).
    revert b H0 X. induction a as [|x a IH]; intros [|y b] H0 X; try discriminate; [split; [reflexivity|exact X]|]. cbn [app] in X. injection X as -> X. destruct (IH b (eq_add_S _ _ H0) X) as [-> ->]. split; reflexivity. }
  apply B in H; [|reflexivity]. destruct H as [H1 H2]. apply split_inj in H1. cbn [append] in H1. subst name'. cbn [append] in H2.
  injection H2 as E1 E2 E3 E4 E5 E6 E7 E8 E9. apply Saver_Names.str_of_Z_inj in E1, E2, E3, E4, E5, E6, E7, E8, E9. subst. repeat split.
Qed.

Section Overwritten.
Variable repr : val -> string.
Variables data coupler : Type.
Variables argv path : val.
Variable toml : bool.
Variable lv : level.
(** a profile run in which everything can be computed, without kernel figures *)
Definition completes (w : world data coupler) d sw s n lz mz (p : val) ad rf rot tm vk name a k f mesa last : Prop :=
  readable d sw /\ read_toml_args d = Ok s /\ profile_inlist d n lz mz p ad rf rot tm vk /\ truthy p = false /\ truthy vk = false /\
  profile_solver repr (w_folders data coupler w) argv path toml lv s (VStr name) = Ok (a, k) /\ wired repr d sw argv path toml false f k /\ told_profile d s name a /\
  has f "mesa_profile_substrings" (VArr (map VStr (mesa ++ [last]))) /\
  let cfg := Solver_Model.mkSettings (truthy p) ad true (truthy rf) in
  exists n1 n2 n3 t q z, n = [n1; n2; n3] /\ alone data coupler w k lz mz cfg (n1, n2, n3) = Ok t /\ makes data coupler w k lz mz cfg (n1, n2, n3) (Some q) /\
    w_profile data coupler w q = Ok tt /\ Tar_Model.masking_info (Some (w_tar data coupler w q)) = Ok z.
(** Runs with the same save name, quantum numbers, rotation and stellar model write the same figures, whatever their other settings (modes adiabatic or
    not, conjugation, integration, ...): the later run replaces those of the earlier one. *)
Theorem C139_later_run_overwrites : forall w1 w2 d1 d2 sw1 sw2 s1 s2 n lz mz p1 p2 ad1 ad2 rf1 rf2 rot tm vk1 vk2 name a1 a2 k1 k2 f1 f2 mesa last1 last2 disk1 disk2,
  completes w1 d1 sw1 s1 n lz mz p1 ad1 rf1 rot tm vk1 name a1 k1 f1 mesa last1 ->
  completes w2 d2 sw2 s2 n lz mz p2 ad2 rf2 rot tm vk2 name a2 k2 f2 mesa last2 ->
  exists figs, figs <> [] /\ solve repr data coupler w1 argv path toml lv disk1 s1 (VStr name) = (disk1, figs, Exc SystemExit) /\
    solve repr data coupler w2 argv path toml lv disk2 s2 (VStr name) = (disk2, figs, Exc SystemExit).
Proof.
  intros w1 w2 d1 d2 sw1 sw2 s1 s2 n lz mz p1 p2 ad1 ad2 rf1 rf2 rot tm vk1 vk2 name a1 a2 k1 k2 f1 f2 mesa last1 last2 disk1 disk2 H1 H2.
  assert (Q : forall w d sw s p ad rf vk a k f last disk, completes w d sw s n lz mz p ad rf rot tm vk name a k f mesa last ->
    let fig directory kind ending := figure mesa (py_str repr rot) directory kind name n lz mz ending in
    solve repr data coupler w argv path toml lv disk s (VStr name) = (disk, ([fig "coupling_coefficient" "cc_profile_single" "pdf"; fig "coupling_coefficient" "cc_profile" "png"] ++
      (if truthy tm then [fig "coupling_coefficient_contributions" "cc_contributions_profile" "png"] else []))%list, Exc SystemExit)).
  { clear. intros w d sw s p ad rf vk a k f last disk (R & E & I & P & V & CK & W & T & Me & n1 & n2 & n3 & t & q & z & N & X & M & Pf & Tz).
    destruct (C138_figures repr data coupler w argv path toml lv d sw s n lz mz p ad rf rot tm vk name a k f disk n1 n2 n3 mesa last t q z [] R E I CK W T N Me X M Pf Tz ltac:(intros Y; congruence)) as [_ H].
    rewrite (H P), V, app_nil_r. reflexivity. }
  eexists. split; [|split; [exact (Q _ _ _ _ _ _ _ _ _ _ _ _ disk1 H1)|exact (Q _ _ _ _ _ _ _ _ _ _ _ _ disk2 H2)]]. discriminate.
Qed.
End Overwritten.

(** ** C140: the hyperbolicity printed for the adjusted coupling coefficient *)
Local Open Scope R_scope.
Lemma det4_scaled (A B : nat -> nat -> C) (c : C) : c <> 0%C ->
  (forall i j, (i < 3)%nat -> (j < 3)%nat -> B i j = A i j) -> (forall i, (i < 3)%nat -> B i 3%nat = (c * A i 3%nat)%C) -> (forall j, (j < 3)%nat -> B 3%nat j = (A 3%nat j / c)%C) -> B 3%nat 3%nat = A 3%nat 3%nat ->
  Stab_Spec.det4 B = Stab_Spec.det4 A.
Proof.
  intros N H1 H2 H3 H4. unfold Stab_Spec.det4, Stab_Spec.det3, Stab_Spec.det2, Stab_Spec.minor0. cbn [Stab_Spec.skip Nat.ltb Nat.leb].
  repeat match goal with |- context [B ?i ?j] => first [rewrite (H1 i j) by lia | rewrite (H2 i) by lia | rewrite (H3 j) by lia | rewrite H4] end. field. exact N.
Qed.
Lemma det3_scaled (A B : nat -> nat -> C) (c : C) : c <> 0%C ->
  (forall i j, (i < 2)%nat -> (j < 2)%nat -> B i j = A i j) -> (forall i, (i < 2)%nat -> B i 2%nat = (c * A i 2%nat)%C) -> (forall j, (j < 2)%nat -> B 2%nat j = (A 2%nat j / c)%C) -> B 2%nat 2%nat = A 2%nat 2%nat ->
  Stab_Spec.det3 B = Stab_Spec.det3 A.
Proof. intros N H1 H2 H3 H4. unfold Stab_Spec.det3, Stab_Spec.det2. repeat match goal with |- context [B ?i ?j] => first [rewrite (H1 i j) by lia | rewrite (H2 i) by lia | rewrite (H3 j) by lia | rewrite H4] end. field. exact N. Qed.
Lemma qf_scaled q eta eta' : q <> 0 -> eta <> 0 -> eta' <> 0 ->
  q * sqrt (1 + q ^ 2) / (2 * eta') = (eta / eta') * (q * sqrt (1 + q ^ 2) / (2 * eta)) /\
  q ^ 2 / (q * sqrt (1 + q ^ 2) / (2 * eta')) = (q ^ 2 / (q * sqrt (1 + q ^ 2) / (2 * eta))) / (eta / eta').
Proof.
  intros Q E E'. assert (S : sqrt (1 + q ^ 2) <> 0) by (apply Rgt_not_eq, sqrt_lt_R0; nra). split; field; repeat split; assumption.
Qed.
Lemma RtoC_ratio a b x : a <> 0 -> b <> 0 -> RtoC (a / b * x) = (RtoC (a / b) * RtoC x)%C /\ RtoC (x / (a / b)) = (RtoC x / RtoC (a / b))%C /\ RtoC (a / b) <> 0%C.
Proof.
  intros A B. assert (N : a / b <> 0) by (unfold Rdiv; apply Rmult_integral_contrapositive_currified; [assumption|apply Rinv_neq_0_compat, B]).
  split; [apply RtoC_mult|]. split; [apply RtoC_div, N|]. intros X. apply N, RtoC_inj, X.
Qed.
Lemma scaled_up a b x y : a <> 0 -> b <> 0 -> x = a / b * y -> (RtoC x - 0 = RtoC (a / b) * (RtoC y - 0))%C.
Proof. intros A B ->. rewrite (proj1 (RtoC_ratio a b y A B)). ring. Qed.
Lemma scaled_down a b x y : a <> 0 -> b <> 0 -> x = y / (a / b) -> (RtoC x - 0 = (RtoC y - 0) / RtoC (a / b))%C.
Proof. intros A B ->. rewrite (proj1 (proj2 (RtoC_ratio a b y A B))). unfold Cdiv. ring. Qed.
Theorem C140_spectrum_unchanged : forall g o q eta eta', q <> 0 -> eta <> 0 -> eta' <> 0 ->
  (forall l, Stab_Spec.det4 (Stab_Spec.shifted (Stab_Model.jac4 g o q eta') l) = Stab_Spec.det4 (Stab_Spec.shifted (Stab_Model.jac4 g o q eta) l)) /\
  (forall l, Stab_Spec.det3 (Stab_Spec.shifted (Stab_Model.jac3 g o q eta') l) = Stab_Spec.det3 (Stab_Spec.shifted (Stab_Model.jac3 g o q eta) l)).
Proof.
  intros g o q eta eta' Q E E'. destruct (qf_scaled q eta eta' Q E E') as [F1 F2].
  split; intros l; [apply (det4_scaled _ _ (RtoC (eta / eta')))|apply (det3_scaled _ _ (RtoC (eta / eta')))]; try (apply (RtoC_ratio eta eta' 0 E E')).
  - intros [|[|[|i]]] [|[|[|j]]] I J; try lia; reflexivity.
  - intros [|[|[|i]]] I; try lia; unfold Stab_Spec.shifted, Stab_Model.jac4; cbn [Nat.eqb]; rewrite F1; apply (scaled_up eta eta' _ _ E E'); unfold Rdiv; ring.
  - intros [|[|[|i]]] I; try lia; unfold Stab_Spec.shifted, Stab_Model.jac4; cbn [Nat.eqb]; rewrite F2; apply (scaled_down eta eta' _ _ E E'); unfold Rdiv; ring.
  - reflexivity.
  - intros [|[|i]] [|[|j]] I J; try lia; reflexivity.
  - intros [|[|i]] I; try lia; unfold Stab_Spec.shifted, Stab_Model.jac3; cbn [Nat.eqb]; rewrite F1; apply (scaled_up eta eta' _ _ E E'); unfold Rdiv; ring.
  - intros [|[|i]] I; try lia; unfold Stab_Spec.shifted, Stab_Model.jac3; cbn [Nat.eqb]; rewrite F2; apply (scaled_down eta eta' _ _ E E'); unfold Rdiv; ring.
  - reflexivity.
Qed.
(** So the check printed "after adjustment for TAR validity" always agrees with the check of the unadjusted coefficient, for every exact check of the
    spectrum and determinant. *)
Theorem C140_adjusted_check_agrees : forall (check : Stab_Model.mat -> bool) (two : bool) g o q eta adjusted, q <> 0 -> eta <> 0 -> adjusted <> 0 ->
  (* on these two matrices the check is exact *)
  (forall x, x = eta \/ x = adjusted -> let M := if two then Stab_Model.jac3 g o q x else Stab_Model.jac4 g o q x in
    check M = true <-> if two then Stab_Model.check_hyperbolicity (Stab_Spec.eigenvalue3 M) (Stab_Spec.det3 (fun i j => RtoC (M i j)))
                       else Stab_Model.check_hyperbolicity (Stab_Spec.eigenvalue4 M) (Stab_Spec.det4 (fun i j => RtoC (M i j)))) ->
  printed_hyperbolicity check two g o q adjusted = check (if two then Stab_Model.jac3 g o q eta else Stab_Model.jac4 g o q eta).
Proof.
  intros check two g o q eta eta' Q E E' H. destruct (C140_spectrum_unchanged g o q eta eta' Q E E') as [D4 D3]. unfold printed_hyperbolicity.
  apply eq_true_iff_eq. pose proof (H eta' (or_intror eq_refl)) as H1. pose proof (H eta (or_introl eq_refl)) as H0. cbv zeta in H0, H1. rewrite H0, H1. clear H H0 H1.
  assert (Z4 : forall M : nat -> nat -> R, Stab_Spec.det4 (fun i j => RtoC (M i j)) = Stab_Spec.det4 (Stab_Spec.shifted M 0)).
  { intros M. unfold Stab_Spec.shifted, Stab_Spec.det4, Stab_Spec.det3, Stab_Spec.det2, Stab_Spec.minor0. cbn [Stab_Spec.skip Nat.ltb Nat.leb Nat.eqb]. ring. }
  assert (Z3 : forall M : nat -> nat -> R, Stab_Spec.det3 (fun i j => RtoC (M i j)) = Stab_Spec.det3 (Stab_Spec.shifted M 0)).
  { intros M. unfold Stab_Spec.shifted, Stab_Spec.det3, Stab_Spec.det2. cbn [Nat.eqb]. ring. }
  destruct two; unfold Stab_Model.check_hyperbolicity, Stab_Spec.eigenvalue3, Stab_Spec.eigenvalue4; rewrite ?Z3, ?Z4, ?D3, ?D4; split; intros [H1 H2]; split; try exact H2; intros l X; apply H1; first [rewrite D3 in X|rewrite D4 in X|rewrite D3|rewrite D4]; exact X.
Qed.
