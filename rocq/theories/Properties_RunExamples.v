(** * The hypotheses of C134-C140 are met: a complete inlist and a world in which everything can be computed, a failing triad, unusable settings. *)
From Coq Require Import Reals QArith Qreals List ZArith Ascii String Bool Lia Lra.
From Coquelicot Require Import Coquelicot.
From Verif Require Import Base Py Inlist_Model Parser_Model Parser_Spec Parser_Proofs Setup_Model Run_Model Run_Spec Run_Proofs Properties_Run Properties_RunFiles.
From Verif Require Combos_Model Saver_Model Saver_Spec Solver_Model Solver_Spec Tar_Model Stab_Model Stab_Spec Properties_Setup Properties_Solver Properties_Stab.
Import ListNotations.
Local Open Scope string_scope.

(** an inlist, for a grid or for a profile *)
Definition ex_d (grid : bool) (hi : Z) (fmt : val) : val :=
  VTab [("rotation", VTab [("rot_percent", VInt 20); ("rotating_formalism", VBool true)]); ("GYRE_selection", VTab [("gyre_dir_path", VStr "/gyre/")]); ("verbosity-debug",
  VTab [("verbose", VBool false); ("debug", VBool false); ("get_debug_info", VBool false)]); ("POLY_selection", VTab [("mode_path", VStr "/poly/")]); ("mode_info", VTab
  [("parent", VTab [("n", VTab [("low", VInt 1); ("high", VInt hi)]); ("l", VInt 2); ("m", VInt 2)]); ("daughter_1", VTab [("n", VTab [("low", VInt 5); ("high", VInt 6)]);
  ("l", VInt 1); ("m", VInt 1)]); ("coupling", VTab [("parent", VTab [("n", VInt 1)]); ("daughter_1", VTab [("n", VInt 5)]); ("daughter_2", VTab [("n", VInt 6)])]);
  ("daughter_2", VTab [("l", VInt 1); ("m", VInt 1)])]); ("coupling_coefficient", VTab [("adiabatic", VBool true); ("use_complex", VBool false); ("symbolic_profiles", VBool
  true); ("brunt_def_profiles", VBool true); ("compute_for_polytrope", VBool false); ("analytic_polytrope", VBool false); ("terms_cc_conj", VArr [VBool false; VBool true;
  VBool true])]); ("computation", VTab [("parallel_mode_coupling", VBool false); ("compute_grid_models", VBool grid); ("compute_coefficient_profile", VBool (negb grid));
  ("display_progress", VBool false); ("integration_method", VStr "trapz"); ("angular", VTab [("use_cheby", VBool false); ("cheby_mul", VInt 4); ("blow_up_protect", VBool
  false); ("blow_up_fac", VInt 1000)])]); ("saving", VTab [("solve", VTab [("base_dir", VStr "/out"); ("save_dir", VStr "runs"); ("extra_specifier", VStr "/");
  ("save_format", fmt)])]); ("POLY_model", VTab [("mass", VFloat 3); ("radius", VFloat 4)]); ("plotting", VTab [("profile", VTab [("show_kernels", VBool false);
  ("show_term_by_term", VBool true)])])].
(** what it says at a position, by computation *)
Fixpoint look (d : val) (ks : list string) : option val :=
  match ks with
  | [] => Some d
  | k :: ks' => match d with VTab t => match tget t k with Some v => look v ks' | None => Some VNone end | _ => None end
  end.
Lemma look_from : forall ks d v, look d ks = Some v -> at_path d ks v \/ v = VNone /\ exists pre k post t, ks = (pre ++ k :: post)%list /\ at_path d pre (VTab t) /\ lacks t k.
Proof.
  induction ks as [|k ks IH]; intros d v H; cbn [look] in H; [injection H as <-; left; constructor|]. destruct d as [| | | | | | |t]; try discriminate.
  destruct (tget t k) as [u|] eqn:T.
  - apply tget_has in T. destruct (IH u v H) as [A|(-> & pre & k' & post & t' & -> & A & L)]; [left; eapply below; eassumption|].
    right. split; [reflexivity|]. exists (k :: pre), k', post, t'. split; [reflexivity|]. split; [eapply below; eassumption|exact L].
  - injection H as <-. right. split; [reflexivity|]. exists [], k, ks, t. split; [reflexivity|]. split; [constructor|]. apply tget_lacks, T.
Qed.
Lemma look_setting d pos v : look d (undot pos) = Some v -> setting d pos v.
Proof. intros H. destruct (look_from _ _ _ H) as [A|(-> & pre & k & post & t & E & A & L)]; [constructor; exact A|exact (nothing_there d pos pre k post t E A L)]. Qed.
Definition ex_switches := [VBool false; VBool true; VBool true].
Lemma ex_readable grid hi fmt : readable (ex_d grid hi fmt) ex_switches.
Proof.
  split.
  - assert (L : look (ex_d grid hi fmt) ["coupling_coefficient"; "terms_cc_conj"] = Some (VArr ex_switches)) by reflexivity.
    destruct (look_from _ _ _ L) as [A|(X & _)]; [exact A|discriminate].
  - assert (F : forallb (fun p => match look (ex_d grid hi fmt) (undot p) with Some _ => true | None => false end) all_positions = true) by (destruct grid; vm_compute; reflexivity).
    intros pos I. rewrite forallb_forall in F. specialize (F pos I). destruct (look (ex_d grid hi fmt) (undot pos)) as [v|] eqn:L; [|discriminate]. exists v. apply look_setting, L.
Qed.
Definition ex_repr (v : val) : string := "".
Definition ex_folders : table := [("gyre_base_dir", VStr "/base/"); ("gyre_output_dir", VStr "out/"); ("mesa_profile_substrings", VArr [VStr "M3"; VStr "Xc05"; VStr "prof"])].
(** one triad with a coupling, one whose pre-check fails, no others: as in C62.  The brunt profile has an invalid and a valid zone. *)
Definition ex_world : world nat unit := {|
  w_folders := fun _ => Ok ex_folders; w_orders := fun _ _ => ([], [], [], []); w_load := fun _ _ o => Properties_Solver.ex_load o;
  w_handler := fun _ n => Ok (Properties_Solver.ex_handler n); w_nonadiabatic := fun h _ => Ok h; w_two_mode := fun _ => Ok false;
  w_stationary := fun _ n _ _ => Ok (n =? 1)%nat; w_selection := fun _ _ => Ok true; w_coupler := fun _ _ _ _ => Ok tt;
  w_coupled := fun _ => Saver_Model.mkCoupled 1 1 1 [2; 2; 2] [1; 0; 0; 0]; w_jacobian := fun _ _ _ => Ok true;
  w_lag := fun _ => map RtoC [1; 1; 1]%R; w_xir := fun _ => map RtoC [0; 0; 0]%R; w_disc := fun _ _ => Ok ([1; 1; 1], [1; 1; 1])%R;
  w_tar := fun _ => Tar_Model.mkTar [0; 10000]%R [20; 20; 20]%R 1 1 [1; 1; 1]%R; w_profile := fun _ => Ok tt; w_kernels := fun _ => Ok []; w_m_sun := 1; w_r_sun := 1 |}%R.
Definition ex_s (grid : bool) (hi : Z) (fmt : val) : settings := match read_toml_args (ex_d grid hi fmt) with Ok s => s | _ => Settings [] [] [] [] [] [] [] [] [] [] VNone VNone VNone VNone end.
Lemma ex_read grid hi fmt : read_toml_args (ex_d grid hi fmt) = Ok (ex_s grid hi fmt).
Proof. destruct grid; vm_compute; reflexivity. Qed.
Definition ex_argv := VArr [VStr "solve_quadratic.py"].
Definition ex_path := VStr "inlist.toml".
Lemma ex_grid hi fmt : exists a k, grid_solver ex_repr (w_folders _ _ ex_world) ex_argv ex_path true INFO (ex_s true hi fmt) = Ok (a, k) /\
    has a "mode_selection_dict" (VTab (mode_selection (ex_s true hi fmt))) /\ wired ex_repr (ex_d true hi fmt) ex_switches ex_argv ex_path true false ex_folders k.
Proof.
  destruct (C134_grid_settings ex_repr (w_folders _ _ ex_world) ex_argv ex_path true INFO (ex_d true hi fmt) ex_switches (ex_readable true hi fmt)) as (s & p & fa & E & Sp & _ & _ & _ & H).
  rewrite ex_read in E. injection E as <-. assert (p = VBool false) by (apply (setting_unique (ex_d true hi fmt) _ _ _ Sp), look_setting; reflexivity). subst p.
  destruct (H ex_folders eq_refl ltac:(eexists; apply tget_has; reflexivity) ltac:(eexists; apply tget_has; reflexivity)) as (a & k & G & M & W). exists a, k. split; [exact G|]. split; [exact M|exact W].
Qed.
Lemma ex_profile hi fmt : exists a k, profile_solver ex_repr (w_folders _ _ ex_world) ex_argv ex_path true INFO (ex_s false hi fmt) (VStr "out") = Ok (a, k) /\
    told_profile (ex_d false hi fmt) (ex_s false hi fmt) "out" a /\ wired ex_repr (ex_d false hi fmt) ex_switches ex_argv ex_path true false ex_folders k.
Proof.
  destruct (C134_profile_settings ex_repr (w_folders _ _ ex_world) ex_argv ex_path true INFO (ex_d false hi fmt) ex_switches (ex_readable false hi fmt)) as (s & fa & E & _ & _ & _ & H).
  rewrite ex_read in E. injection E as <-.
  destruct (H (VStr "out") ex_folders eq_refl ltac:(eexists; apply tget_has; reflexivity) ltac:(eexists; apply tget_has; reflexivity)) as (a & k & G & M1 & M2 & M3 & W). exists a, k. split; [exact G|].
  split; [split; [exact M1|split; [exact M2|exact M3]]|exact W].
Qed.
Theorem C134_hypotheses_met : readable (ex_d true 2 (VStr "hdf5")) ex_switches /\ readable (ex_d false 2 (VStr "hdf5")) ex_switches.
Proof. split; apply ex_readable. Qed.
(** radial orders *)
Ltac by_look := solve [apply look_setting; reflexivity].
Theorem C135_hypotheses_met : order_settings (ex_d true 2 (VStr "hdf5")) (VInt 1) (VInt 2) (VInt 5) (VInt 6) VNone VNone [VInt 2; VInt 1; VInt 1] [VInt 2; VInt 1; VInt 1] /\
  whole (VInt 5) 5 /\ not_whole VNone.
Proof.
  split; [|split; [left; reflexivity|intros z [H|(b & H & _)]; discriminate]].
  repeat split; try by_look; repeat (constructor; [by_look|]); constructor.
Qed.
Notation ex_solve := (solve ex_repr nat unit ex_world ex_argv ex_path true INFO).
Definition ex_cfg := Solver_Model.mkSettings false true true true.
Lemma ex_modes hi fmt a : has a "mode_selection_dict" (VTab (mode_selection (ex_s true hi fmt))) ->
  exists g, grid_modes (w_orders _ _ ex_world) a = Ok g /\ g_l g = VArr (map VInt [2; 1; 1]%Z) /\ g_m g = VArr (map VInt [2; 1; 1]%Z) /\ g_orders g = map (fun n => (n, 5, 6)%Z) (Combos_Model.range 1 hi).
Proof.
  intros H. unfold grid_modes. rewrite (Properties_Setup.item_has _ _ _ H). cbn [bind]. eexists. split; [reflexivity|]. split; [reflexivity|]. split; [reflexivity|].
  cbn [g_orders]. unfold Combos_Model.generate. induction (Combos_Model.range 1 hi) as [|n l IH]; [reflexivity|]. cbn [flat_map map]. rewrite IH. reflexivity.
Qed.
Definition ex_file := "/out/hdf5_output//runs/out_k_0_0_0_m_2_1_1.h5".
(** C136: the two triads are computed and saved *)
Example C136_example : forall disk, exists disk' res, ex_solve disk (ex_s true 2 (VStr "hdf5")) (VStr "out") = (disk', [], Ok tt) /\ disk' ex_file = Some res /\
  (forall q, q <> ex_file -> disk' q = disk q) /\ Saver_Model.attr res ["quantum_numbers"] "l" = Some (Saver_Model.AInts [2; 1; 1]%Z).
Proof.
  intros disk. destruct (ex_grid 2 (VStr "hdf5")) as (a & k & CK & M & W). destruct (ex_modes _ _ _ M) as (g & GM & GL & Gm & GO).
  destruct (proj1 (Properties_Solver.C62_hypotheses_met true)) as (t1 & t2 & MT & WS & _).
  assert (Q : mapM (alone nat unit ex_world k [2; 1; 1]%Z [2; 1; 1]%Z ex_cfg) (g_orders g) = Ok [t1; t2]) by (rewrite GO; exact MT).
  assert (SS : save_settings (ex_d true 2 (VStr "hdf5")) (VStr "/out") (VStr "runs") (VStr "/") (VStr "hdf5")) by (repeat split; by_look).
  edestruct (C136_grid_run_saved ex_repr nat unit ex_world ex_argv ex_path true INFO (ex_d true 2 (VStr "hdf5")) ex_switches (ex_s true 2 (VStr "hdf5")) (VBool true) (VBool false) a k ex_folders g (VBool false) true (VBool true)
    [2; 1; 1]%Z [2; 1; 1]%Z "trapz" false 4%Z false (VInt 1000) 1000%R "/out" "runs" "/" "hdf5" "out" ex_file t1 [t2] disk) as (disk' & res & S1 & S2 & S3 & _ & S5 & _);
    first [exact (ex_readable _ _ _)|exact SS|exact (ex_read _ _ _)|exact CK|exact W|exact GM|exact GL|exact Gm|exact Q|exact WS|by_look|reflexivity|idtac].
  exists disk', res. split; [exact S1|]. split; [exact S2|]. split; [exact S3|exact S5].
Qed.
(** C137: the modes of the third triad are missing; no orders; no format *)
Example C137_example_failing_triad : forall disk, ex_solve disk (ex_s true 4 (VStr "hdf5")) (VStr "out") = (disk, [], Exc FileNotFoundError).
Proof.
  intros disk. destruct (ex_grid 4 (VStr "hdf5")) as (a & k & CK & M & W). destruct (ex_modes _ _ _ M) as (g & GM & GL & Gm & GO).
  destruct (Properties_Solver.C62_hypotheses_met true) as ((t1 & t2 & MT & _) & FT & _).
  refine (C137_failing_triad ex_repr nat unit ex_world ex_argv ex_path true INFO (ex_d true 4 (VStr "hdf5")) ex_switches _ (VBool true) (VBool false) a k ex_folders g (VBool false) true (VBool true)
    [2; 1; 1]%Z [2; 1; 1]%Z [(1, 5, 6); (2, 5, 6)]%Z (3, 5, 6)%Z [(4, 5, 6)]%Z [t1; t2] _ disk _ (ex_readable _ _ _) (ex_read _ _ _) _ eq_refl _ eq_refl _ _ _ CK W GM GL Gm _ _ _);
    first [by_look|exact GO|exact MT|exact FT].
Qed.
Example C137_example_no_triads : forall disk old, disk ex_file = Some old -> exists disk', ex_solve disk (ex_s true 0 (VStr "hdf5")) (VStr "out") = (disk', [], Exc IndexError).
Proof.
  intros disk old D. destruct (ex_grid 0 (VStr "hdf5")) as (a & k & CK & M & W). destruct (ex_modes _ _ _ M) as (g & GM & GL & Gm & GO).
  assert (SS : save_settings (ex_d true 0 (VStr "hdf5")) (VStr "/out") (VStr "runs") (VStr "/") (VStr "hdf5")) by (repeat split; by_look).
  edestruct (C137_no_triads ex_repr nat unit ex_world ex_argv ex_path true INFO (ex_d true 0 (VStr "hdf5")) ex_switches (ex_s true 0 (VStr "hdf5")) (VBool true) (VBool false) a k ex_folders g (VBool false) true (VBool true)
    [2; 1; 1]%Z [2; 1; 1]%Z "trapz" false 4%Z false (VInt 1000) 1000%R "/out" "runs" "/" "hdf5" "out" ex_file disk old) as (disk' & new & S1 & _);
    first [exact (ex_readable _ _ _)|exact SS|exact (ex_read _ _ _)|exact CK|exact W|exact GM|exact GL|exact Gm|exact GO|exact D|by_look|reflexivity|idtac].
  exists disk'. exact S1.
Qed.
Example C137_example_no_format : forall disk, ex_solve disk (ex_s true 2 VNone) (VStr "out") = (disk, [], Exc AttributeError).
Proof.
  intros disk. destruct (ex_grid 2 VNone) as (a & k & CK & M & W). destruct (ex_modes _ _ _ M) as (g & GM & GL & Gm & GO).
  destruct (proj1 (Properties_Solver.C62_hypotheses_met true)) as (t1 & t2 & MT & _).
  assert (Q : mapM (alone nat unit ex_world k [2; 1; 1]%Z [2; 1; 1]%Z ex_cfg) (g_orders g) = Ok [t1; t2]) by (rewrite GO; exact MT).
  refine (proj1 (C137_unusable_save_settings ex_repr nat unit ex_world ex_argv ex_path true INFO (ex_d true 2 VNone) ex_switches _ (VBool true) (VBool false) a k ex_folders g (VBool false) true (VBool true)
    [2; 1; 1]%Z [2; 1; 1]%Z [t1; t2] (VStr "/out") (VStr "runs") (VStr "/") VNone disk _ (ex_readable _ _ _) (ex_read _ _ _) _ eq_refl _ eq_refl _ _ _ CK W GM GL Gm Q _) eq_refl);
    try by_look. repeat split; by_look.
Qed.
(** C138, C139: a profile run *)
Lemma ex_inlist_profile : profile_inlist (ex_d false 2 (VStr "hdf5")) [1; 5; 6]%Z [2; 1; 1]%Z [2; 1; 1]%Z (VBool false) true (VBool true) (VInt 20) (VBool true) (VBool false).
Proof.
  constructor; try by_look; try (repeat (constructor; [by_look|]); constructor). exists (VBool false), (VBool true). repeat split; by_look.
Qed.
Lemma ex_zones : exists z, Tar_Model.masking_info (Some (w_tar _ _ ex_world tt)) = Ok z.
Proof.
  assert (B : forall P : Prop, forall d : {P} + {~ P}, P -> (if d then true else false) = true) by (intros P [p|n] H; [reflexivity|contradiction]).
  assert (B' : forall P : Prop, forall d : {P} + {~ P}, ~ P -> (if d then true else false) = false) by (intros P [p|n] H; [contradiction|reflexivity]).
  assert (S1 : sqrt 10000 = 100%R) by (replace 10000%R with (100 * 100)%R by ring; apply sqrt_square; lra).
  cbn [ex_world w_tar Tar_Model.masking_info Tar_Model.i_n2 Tar_Model.i_quality Tar_Model.i_surf Tar_Model.i_conv Tar_Model.i_omegas].
  assert (SM : Tar_Model.slow_manifold [20; 20; 20]%R = true).
  { unfold Tar_Model.slow_manifold. cbn [forallb]. rewrite B; [reflexivity|]. rewrite Rabs_pos_eq; lra. }
  assert (B0 : Tar_Model.brunt 0 = Some 0%R) by (unfold Tar_Model.brunt; destruct (Rlt_dec 0 0); [lra|rewrite sqrt_0; reflexivity]).
  assert (B1 : Tar_Model.brunt 10000 = Some 100%R) by (unfold Tar_Model.brunt; destruct (Rlt_dec 10000 0); [lra|rewrite S1; reflexivity]).
  assert (RC : Tar_Model.rotation_check 1 [0; 10000]%R = [false; true]).
  { unfold Tar_Model.rotation_check. cbn [map]. rewrite B0, B1. cbn [Tar_Model.abs_gt]. rewrite B', B; [reflexivity| |]; rewrite !Rabs_pos_eq; lra. }
  assert (FC : Tar_Model.frequency_check 1 [1; 1; 1]%R [0; 10000]%R = [false; true]).
  { unfold Tar_Model.frequency_check. cbn [map]. rewrite B0, B1. cbn [Tar_Model.abs_gt forallb]. rewrite B', B; [reflexivity| |]; rewrite !Rabs_pos_eq; lra. }
  rewrite SM, RC, FC. eexists. reflexivity.
Qed.
Lemma ex_completes : exists a k, completes ex_repr nat unit ex_argv ex_path true INFO ex_world (ex_d false 2 (VStr "hdf5")) ex_switches (ex_s false 2 (VStr "hdf5")) [1; 5; 6]%Z [2; 1; 1]%Z [2; 1; 1]%Z
  (VBool false) true (VBool true) (VInt 20) (VBool true) (VBool false) "out" a k ex_folders ["M3"; "Xc05"] "prof".
Proof.
  destruct (ex_profile 2 (VStr "hdf5")) as (a & k & CK & T & W). exists a, k. split; [apply ex_readable|]. split; [apply ex_read|]. split; [exact ex_inlist_profile|]. split; [reflexivity|]. split; [reflexivity|].
  split; [exact CK|]. split; [exact W|]. split; [exact T|]. split; [apply tget_has; reflexivity|]. cbv zeta. exists 1%Z, 5%Z, 6%Z.
  destruct (Properties_Solver.C62_hypotheses_met true) as ((t1 & t2 & MT & _) & _). destruct ex_zones as (z & Z). exists t1, tt, z. split; [reflexivity|].
  split; [|split; [exists 1%nat, (Properties_Solver.ex_handler 1), true, false; repeat split|split; [reflexivity|exact Z]]].
  change (mapM (Properties_Solver.ex_of true) [(1, 5, 6); (2, 5, 6)]%Z = Ok [t1; t2]) in MT. cbn [mapM] in MT. destruct (Properties_Solver.ex_of true (1, 5, 6)%Z) as [t| |] eqn:X; [|discriminate|discriminate].
  cbn [bind] in MT. destruct (Properties_Solver.ex_of true (2, 5, 6)%Z) as [t'| |]; [|discriminate|discriminate]. cbn [bind] in MT. injection MT as <- _. exact X.
Qed.
Example C139_example : forall disk, ex_solve disk (ex_s false 2 (VStr "hdf5")) (VStr "out") =
  (disk, ["./figure_output/profiles_isolated_mode_triads/M3/Xc05/rot_20/coupling_coefficient/cc_profile_single_out_n1_5_6_l2_1_1_m2_1_1.pdf";
          "./figure_output/profiles_isolated_mode_triads/M3/Xc05/rot_20/coupling_coefficient/cc_profile_out_n1_5_6_l2_1_1_m2_1_1.png";
          "./figure_output/profiles_isolated_mode_triads/M3/Xc05/rot_20/coupling_coefficient_contributions/cc_contributions_profile_out_n1_5_6_l2_1_1_m2_1_1.png"], Exc SystemExit).
Proof.
  intros disk. destruct ex_completes as (a & k & R & E & I & P & V & CK & W & T & Me & n1 & n2 & n3 & t & q & z & N & X & M & Pf & Tz).
  destruct (C138_figures ex_repr nat unit ex_world ex_argv ex_path true INFO _ _ _ _ _ _ _ _ _ _ _ _ _ _ _ _ disk _ _ _ _ _ _ _ _ [] R E I CK W T N Me X M Pf Tz ltac:(discriminate)) as [_ H].
  rewrite (H eq_refl). reflexivity.
Qed.
(** C140: a triad with a coupling coefficient of one half after adjustment *)
Example C140_example : printed_hyperbolicity (fun _ => false) false (fun i => if (i =? 0)%nat then 1%R else (-4)%R) (fun _ => 1%R) 2 (1 / 2) = false /\
  (let J := Stab_Model.jac4 (fun i => if (i =? 0)%nat then 1%R else (-4)%R) (fun _ => 1%R) 2 (1 / 2) in
   ~ Stab_Model.check_hyperbolicity (Stab_Spec.eigenvalue4 J) (Stab_Spec.det4 (fun i j => RtoC (J i j)))).
Proof. split; [reflexivity|]. cbv zeta. apply Properties_Stab.C36_hyperbolicity_always_fails; try lra. repeat split; cbn; lra. Qed.
