(** * Theorems about complete solve runs (C134-C140). *)
From Coq Require Import Reals QArith Qreals List ZArith Ascii String Bool Lia.
From Coquelicot Require Import Coquelicot.
From Verif Require Import Base Py Inlist_Model Parser_Model Parser_Spec Parser_Proofs Setup_Model Run_Model Run_Spec Run_Proofs.
From Verif Require Combos_Model Combos_Proofs Saver_Model Solver_Model Tar_Model Stab_Model Properties_Parser Properties_Setup Properties_Combos.
Import ListNotations.
Local Open Scope string_scope.

Lemma holds_get d t doc ex n pos v : holds d t doc ex -> In (n, pos) doc -> tget t n = Some v -> setting d pos v.
Proof.
  intros [H _] I E. destruct (H n pos I) as (w & A & S). apply tget_has in A. congruence.
Qed.
Ltac member := solve [repeat first [left; reflexivity | right]].
Ltac from_inlist := match goal with |- comes_from ?d (Constant _) _ => reflexivity | |- comes_from ?d (Inlist _) _ => first [assumption | match goal with H : holds d _ _ _ |- _ => solve [eapply (holds_get _ _ _ _ _ _ _ H); [member|reflexivity]] end] end.

(** ** C134 *)
Section C134.
Variable repr : val -> string.
Variable read_folders : table -> res table.
Variable argv path : val.
Variable toml : bool.
Variable lv : level.
(** the values of an inlist, by name of the dictionaries they end in *)
Lemma settings_shape s : shaped s -> exists b1 b2 b3 b4 i1 i2 i3 i4 i5 i6 p1 p2 p3 p4 p5 p6 m1 m2 m3 m4 m5 m6 m7 m8 c1 c2 c3 c4 c5 c6 c7 c8 e1 e2 e3 e4 q1 q2 a1 a2 a3 a4 a5 r1 r2 r3 r4 r5 t1 t2,
  save_info s = [("base_dir", b1); ("save_dir", b2); ("extra_specifier", b3); ("initial_save_format", b4)] /\
  mode_info s = [("rot_pct", i1); ("base_dir", i2); ("alternative_directory_path", i3); ("alternative_file_name", i4); ("verbose", i5); ("debug", i6)] /\
  poly_select s = [("rot_pct", p1); ("base_dir", p2); ("alternative_directory_path", p3); ("alternative_file_name", p4); ("verbose", p5); ("debug", p6)] /\
  mode_selection s = [("driven_n_low", m1); ("driven_n_high", m2); ("damped_n_low1", m3); ("damped_n_high1", m4); ("damped_n_low2", m5); ("damped_n_high2", m6); ("mode_l", m7); ("mode_m", m8)] /\
  mode_computation s = [("adiabatic", c1); ("use_complex", c2); ("use_symbolic_profiles", c3); ("use_brunt_def", c4); ("use_rotating_formalism", c5); ("terms_cc_conj", c6); ("polytrope_comp", c7); ("analytic_polytrope", c8)] /\
  comp s = [("use_parallel", e1); ("compute_grid", e2); ("compute_profile", e3); ("progress_bars", e4)] /\
  poly_model s = [("polytrope_mass", q1); ("polytrope_radius", q2)] /\
  a_i s = [("numerical_integration_method", a1); ("use_cheby_integration", a2); ("cheby_order_multiplier", a3); ("cheby_blow_up_protection", a4); ("cheby_blow_up_factor", a5)] /\
  cc_profile_selection s = [("parent_n", r1); ("daughter_1_n", r2); ("daughter_2_n", r3); ("mode_l", r4); ("mode_m", r5)] /\
  cc_profile_plot s = [("view_kernels", t1); ("view_term_by_term", t2)].
Proof.
  unfold shaped. generalize (save_info s), (mode_info s), (poly_select s), (mode_selection s), (mode_computation s), (comp s), (poly_model s), (a_i s), (cc_profile_selection s), (cc_profile_plot s).
  intros x1 x2 x3 x4 x5 x6 x7 x8 x9 x10 (A & B & C & D & E & G & H & I & J & K).
  concrete x1 A. concrete x2 B. concrete x3 C. concrete x4 D. concrete x5 E. concrete x6 G. concrete x7 H. concrete x8 I. concrete x9 J. concrete x10 K.
  do 50 eexists. repeat split.
Qed.

Definition folder_args (section_dir section_name : val) : table :=
  [("sys_arguments", argv); ("alternative_directory_path", section_dir); ("alternative_file_name", section_name);
   ("toml_use", VBool toml); ("inlist_path", path); ("called_from_pytest", VBool false); ("pytest_file_path", VNone)].
Ltac read_at d := match goal with |- setting d ?p ?v => change (comes_from d (Inlist p) v); from_inlist end.
Lemma setup_cases poly rot base a n f :
  (lacks f "gyre_base_dir" \/ lacks f "gyre_output_dir" -> solver_setup repr poly rot base a n f = Exc KeyError) /\
  ((exists v, has f "gyre_base_dir" v) -> (exists v, has f "gyre_output_dir" v) -> exists st, solver_setup repr poly rot base a n f = Ok st /\
    (forall n v, n <> "gyre_base_dir" -> n <> "gyre_output_dir" -> has f n v -> has (info st) n v) /\
    ad_dir st = (py_str repr base ++ (match a with VNone => "output_rot_" ++ py_str repr rot | _ => py_str repr a end) ++ "/") /\
    nad_dir st = if poly then None else Some (py_str repr base ++ (match n with VNone => "output_nad_rot_" ++ py_str repr rot | _ => py_str repr n end) ++ "/")).
Proof.
  unfold solver_setup. split.
  - intros H. enough (X : pops ["gyre_base_dir"; "gyre_output_dir"] f = Exc KeyError) by (rewrite X; reflexivity). cbn [pops]. unfold pop at 1.
    destruct (tget f "gyre_base_dir") as [v|] eqn:E; [|reflexivity]. cbn [bind]. unfold pop. rewrite Properties_Setup.tget_filter by discriminate.
    destruct H as [H|H]; apply tget_lacks in H; [congruence|]. rewrite H. reflexivity.
  - intros (v & V) (v' & V'). apply tget_has in V. apply tget_has in V'. destruct (Properties_Setup.pops_ok ["gyre_base_dir"; "gyre_output_dir"] f) as (f' & P1 & P2).
    + repeat constructor; cbn; intuition discriminate.
    + intros k [<-|[<-|[]]]; congruence.
    + rewrite P1. cbn [bind]. eexists. split; [reflexivity|]. cbn [info ad_dir nad_dir]. split; [|split; [reflexivity|reflexivity]].
      intros k w N1 N2 H. apply tget_has. rewrite P2 by (intros [X|[X|[]]]; congruence). apply tget_has. exact H.
Qed.
Ltac told_by := let I := fresh in intros ? ? I; repeat (destruct I as [I|I]; [injection I as <- <-; eexists; split; [apply tget_has; reflexivity|from_inlist]|]); destruct I.
Ltac told_disc := repeat (constructor; [from_inlist|]); constructor.

(** the wiring of a solver whose parameters have these values *)
Definition the_attributes rot cplx adi rotform sym brunt par meth ch om bu bf dbg l pol ana mass rad bars : table :=
  [("_nr_omp_threads", VInt 4); ("_use_parallel", par); ("_numerical_integration_method", meth); ("_use_cheby", ch); ("_cheby_order_mul", om); ("_cheby_blow_up", bu);
   ("_cheby_blow_up_fac", bf); ("_get_debug_info", dbg); ("_polytrope_comp", pol); ("_analytic_polytrope", ana); ("_polytrope_mass", mass); ("_polytrope_radius", rad);
   ("_ld_function", VStr "eddington"); ("_stat_solv", VBool true); ("_rot_pct", rot); ("_use_rot_formalism", rotform); ("_use_symbolic_profiles", sym); ("_use_brunt_def", brunt);
   ("_use_complex", cplx); ("_adiabatic", adi); ("_terms_cc_conj", VTup l); ("_inlist_path", path); ("_display_progress_bars", bars)].
Definition the_coupler cplx adi sym brunt par meth ch om bu bf dbg l pol ana : table :=
  [("use_complex", if truthy pol then VBool false else if truthy adi then VBool false else cplx); ("polytropic", VBool (truthy pol)); ("analytic_polytrope", if truthy pol then ana else VBool false);
   ("use_brunt_def", brunt); ("nr_omp_threads", VInt 4); ("use_symbolic_derivatives", sym);
   ("use_parallel", par); ("numerical_integration_method", meth); ("conj_cc", if truthy (VTup l) then VTup l else default_conj); ("store_debug", dbg); ("use_cheby_integration", ch);
   ("cheby_order_multiplier", om); ("cheby_blow_up_protection", bu); ("cheby_blow_up_factor", bf)].
Definition the_wiring rot cplx adi rotform altd altf sym brunt par meth ch om bu bf dbg l pol ana mass rad bars st : wiring :=
  {| k_attributes := the_attributes rot cplx adi rotform sym brunt par meth ch om bu bf dbg l pol ana mass rad bars; k_setup := st; k_source := kind_of pol adi;
     k_coupler := the_coupler cplx adi sym brunt par meth ch om bu bf dbg l pol ana; k_handler := kind_of pol adi; k_conj := VArr [VTup l];
     k_disc := [VStr "eddington"; meth; VInt 4; par]; k_folders := folder_args altd altf |}.
Lemma init_from_args sg kw A rot cplx adi rotform base altd altf sym brunt par meth ch om bu bf adp nadp dbg l pol ana mass rad bars :
  call sg [argv] kw = Ok A ->
  values A passed_on = Ok [argv; VBool false; VNone; rot; cplx; adi; rotform; base; altd; altf; sym; brunt; VInt 4; par; VStr "eddington"; meth; ch; om; bu; bf;
     VBool true; adp; nadp; path; VBool toml; dbg; VTup l; pol; ana; mass; rad; bars] ->
  solver_init repr read_folders sg argv kw =
    (f <- read_folders (folder_args altd altf) ; st <- solver_setup repr (truthy pol) rot base adp nadp f ;
     Ok (A, the_wiring rot cplx adi rotform altd altf sym brunt par meth ch om bu bf dbg l pol ana mass rad bars st))%res.
Proof.
  intros HA HV. unfold solver_init. rewrite HA. cbn [bind]. rewrite HV. cbn [bind]. unfold base_init. 
  match goal with |- bind (call base_sig ?v []) _ = _ => let r := eval cbv in (call base_sig v []) in change (call base_sig v []) with r end. cbn [bind].
  match goal with |- context [renamed ?a stored] => let r := eval cbv in (renamed a stored) in change (renamed a stored) with r end. cbn [bind].
  cbn [item tget String.eqb Ascii.eqb Bool.eqb bind renamed mapM fst snd].
  unfold folder_args at 1. destruct (read_folders _) as [f| |e]; cbn [bind]; [|reflexivity|reflexivity].
  destruct (solver_setup repr (truthy pol) rot base adp nadp f) as [st| |e]; cbn [bind]; [|reflexivity|reflexivity].
  unfold the_wiring, the_attributes, the_coupler, kind_of, coupler_call.
  cbn [item tget String.eqb Ascii.eqb Bool.eqb bind renamed mapM fst snd].
  destruct (truthy pol); [|destruct (truthy adi)].
  all: match goal with |- context [call coupler_sig ?a ?b] => let r := eval cbv in (call coupler_sig a b) in change (call coupler_sig a b) with r end.
  all: reflexivity.
Qed.
Lemma the_wiring_wired d rot cplx adi rotform altd altf sym brunt par meth ch om bu bf dbg l pol ana mass rad bars st f base adp nadp (sec : bool) :
  (forall n v, n <> "gyre_base_dir" -> n <> "gyre_output_dir" -> has f n v -> has (info st) n v) ->
  ad_dir st = (py_str repr base ++ (match adp with VNone => "output_rot_" ++ py_str repr rot | _ => py_str repr adp end) ++ "/") ->
  nad_dir st = (if truthy pol then None else Some (py_str repr base ++ (match nadp with VNone => "output_nad_rot_" ++ py_str repr rot | _ => py_str repr nadp end) ++ "/")) ->
  setting d "rotation.rot_percent" rot -> setting d "coupling_coefficient.use_complex" cplx -> setting d "coupling_coefficient.adiabatic" adi ->
  setting d "rotation.rotating_formalism" rotform -> 
  setting d "coupling_coefficient.symbolic_profiles" sym -> setting d "coupling_coefficient.brunt_def_profiles" brunt -> setting d "computation.parallel_mode_coupling" par ->
  setting d "computation.integration_method" meth -> setting d "computation.angular.use_cheby" ch -> setting d "computation.angular.cheby_mul" om ->
  setting d "computation.angular.blow_up_protect" bu -> setting d "computation.angular.blow_up_fac" bf -> setting d "verbosity-debug.get_debug_info" dbg ->
  setting d "coupling_coefficient.compute_for_polytrope" pol -> setting d "coupling_coefficient.analytic_polytrope" ana -> setting d "POLY_model.mass" mass -> setting d "POLY_model.radius" rad ->
  setting d "computation.display_progress" bars ->
  setting d ((if sec then "POLY_selection" else "GYRE_selection") ++ ".alternative.directory_path") altd -> setting d ((if sec then "POLY_selection" else "GYRE_selection") ++ ".alternative.file_name") altf ->
  setting d (if sec then "POLY_selection.mode_path" else "GYRE_selection.gyre_dir_path") base ->
  setting d (if sec then "POLY_selection.specifier.modes" else "GYRE_selection.specifier.adiabatic") adp ->
  (if sec then nadp = VNone else setting d "GYRE_selection.specifier.nonadiabatic" nadp) ->
  wired repr d l argv path toml sec f (the_wiring rot cplx adi rotform altd altf sym brunt par meth ch om bu bf dbg l pol ana mass rad bars st).
Proof.
  intros HI HA HN; intros. constructor; unfold the_wiring; cbn [k_source k_handler k_setup k_coupler k_conj k_disc k_attributes k_folders].
  - exists pol, adi. repeat (split; [first [assumption|reflexivity]|]). rewrite HN. destruct (truthy pol); split; congruence.
  - unfold kind_of, the_coupler, doc_coupler, doc_coupler_common. destruct (truthy pol); [|destruct (truthy adi)]; told_by.
  - split; [|reflexivity]. apply tget_has. destruct l; reflexivity.
  - unfold doc_disc. told_disc.
  - unfold the_attributes, doc_solver. told_by.
  - unfold folder_args, doc_folders. told_by.
  - exact HI.
  - exists rot, base, adp, nadp. repeat (split; [assumption|]). intros x. rewrite HN. destruct (truthy pol); congruence.
Qed.
Lemma init_cases {B} (r : res table) poly rot base a n (K : setup -> B) (g : res B) :
  g = (f <- r ; st <- solver_setup repr poly rot base a n f ; Ok (K st))%res ->
  (forall e, r = Exc e -> g = Exc e) /\
  (forall f, r = Ok f -> lacks f "gyre_base_dir" \/ lacks f "gyre_output_dir" -> g = Exc KeyError) /\
  (forall f, r = Ok f -> (exists v, has f "gyre_base_dir" v) -> (exists v, has f "gyre_output_dir" v) ->
    exists st, g = Ok (K st) /\ (forall n v, n <> "gyre_base_dir" -> n <> "gyre_output_dir" -> has f n v -> has (info st) n v) /\
    ad_dir st = (py_str repr base ++ (match a with VNone => "output_rot_" ++ py_str repr rot | _ => py_str repr a end) ++ "/") /\
    nad_dir st = if poly then None else Some (py_str repr base ++ (match n with VNone => "output_nad_rot_" ++ py_str repr rot | _ => py_str repr n end) ++ "/")).
Proof.
  intros ->. split; [intros e ->; reflexivity|]. split; intros f ->; cbn [bind].
  - intros L. rewrite (proj1 (setup_cases poly rot base a n f) L). reflexivity.
  - intros H1 H2. destruct (proj2 (setup_cases poly rot base a n f) H1 H2) as (st & -> & R). exists st. split; [reflexivity|exact R].
Qed.
Lemma logger_out a b c e vb dbg : exists lv', adjust_root_logger_level lv [("rot_pct", a); ("base_dir", b); ("alternative_directory_path", c); ("alternative_file_name", e); ("verbose", vb); ("debug", dbg)] =
  Ok (lv', [("rot_pct", a); ("base_dir", b); ("alternative_directory_path", c); ("alternative_file_name", e)]).
Proof. unfold adjust_root_logger_level. cbn [item tget String.eqb Ascii.eqb Bool.eqb bind]. destruct (truthy dbg); [|destruct (truthy vb)]; eexists; reflexivity. Qed.
(** The grid run.  Every setting reaches the component it is documented for; the constructor fails only if the information folders cannot be read
    or do not name the two GYRE directories. *)
Theorem C134_grid_settings : forall d l, readable d l -> exists s p fa, read_toml_args d = Ok s /\
  setting d "coupling_coefficient.compute_for_polytrope" p /\
  told d fa (doc_folders (if truthy p then "POLY_selection" else "GYRE_selection") argv path toml) /\
  (forall e, read_folders fa = Exc e -> grid_solver repr read_folders argv path toml lv s = Exc e) /\
  (forall f, read_folders fa = Ok f -> lacks f "gyre_base_dir" \/ lacks f "gyre_output_dir" -> grid_solver repr read_folders argv path toml lv s = Exc KeyError) /\
  (forall f, read_folders fa = Ok f -> (exists v, has f "gyre_base_dir" v) -> (exists v, has f "gyre_output_dir" v) ->
    exists a k, grid_solver repr read_folders argv path toml lv s = Ok (a, k) /\
      has a "mode_selection_dict" (VTab (mode_selection s)) /\ wired repr d l argv path toml (truthy p) f k).
Proof.
  intros d l [A B]. destruct (Properties_Parser.C94_solve_settings d l A B) as (s & E & S). clear A B.
  destruct S as (S1 & S2 & S3 & S4 & S5 & S6 & S7 & S8 & S9 & S10 & S11 & _ & S13 & S14 & S15 & S16).
  destruct (settings_shape s (read_toml_shaped d s E)) as (b1 & b2 & b3 & b4 & i1 & i2 & i3 & i4 & i5 & i6 & p1 & p2 & p3 & p4 & p5 & p6 & m1 & m2 & m3 & m4 & m5 & m6 & m7 & m8 & c1 & c2 & c3 & c4 & c5 & c6 & c7 & c8 & e1 & e2 & e3 & e4 & q1 & q2 & a1 & a2 & a3 & a4 & a5 & r1 & r2 & r3 & r4 & r5 & t1 & t2 & T1 & T2 & T3 & T4 & T5 & T6 & T7 & T8 & T9 & T10).
  rewrite T1, T2, T3, T4, T5, T6, T7, T8, T9, T10 in *.
  apply tget_has in S11. cbv in S11. injection S11 as ->.
  destruct (logger_out i1 i2 i3 i4 i5 i6) as (lvi & Li). destruct (logger_out p1 p2 p3 p4 p5 p6) as (lvp & Lp).
  exists s, c7. destruct (truthy c7) eqn:P.
  - exists (folder_args p3 p4). split; [exact E|]. split; [read_at d|]. split; [unfold folder_args; told_by|].
    assert (C : exists A, has A "mode_selection_dict" (VTab (mode_selection s)) /\ grid_solver repr read_folders argv path toml lv s =
      (f <- read_folders (folder_args p3 p4) ; st <- solver_setup repr true p1 p2 (poly_modes s) VNone f ;
       Ok (A, the_wiring p1 c2 c1 c5 p3 p4 c3 c4 e1 a1 a2 a3 a4 a5 (get_debug_info s) l c7 c8 q1 q2 e4 st))%res).
    { unfold grid_solver. rewrite T5. cbn [item tget String.eqb Ascii.eqb Bool.eqb bind]. rewrite P, T3, Lp. cbn [bind snd]. unfold common_kw. rewrite T6, T7, T8. cbn [item tget String.eqb Ascii.eqb Bool.eqb bind app].
      eexists. split; [|erewrite init_from_args; [rewrite P; reflexivity|reflexivity|reflexivity]]. apply tget_has. reflexivity. }
    destruct C as (Ar & C1 & C2). destruct (init_cases _ _ _ _ _ _ (fun st => (Ar, the_wiring p1 c2 c1 c5 p3 p4 c3 c4 e1 a1 a2 a3 a4 a5 (get_debug_info s) l c7 c8 q1 q2 e4 st)) _ C2) as (D1 & D2 & D3).
    split; [exact D1|]. split; [exact D2|]. intros f R H1 H2. destruct (D3 f R H1 H2) as (st & G & I1 & I2 & I3). exists Ar. eexists. split; [exact G|]. split; [exact C1|].
    apply (the_wiring_wired d) with (base := p2) (adp := poly_modes s) (nadp := VNone); rewrite ?P; try assumption; first [reflexivity|read_at d].
  - exists (folder_args i3 i4). split; [exact E|]. split; [read_at d|]. split; [unfold folder_args; told_by|].
    assert (C : exists A, has A "mode_selection_dict" (VTab (mode_selection s)) /\ grid_solver repr read_folders argv path toml lv s =
      (f <- read_folders (folder_args i3 i4) ; st <- solver_setup repr false i1 i2 (ad s) (nad s) f ;
       Ok (A, the_wiring i1 c2 c1 c5 i3 i4 c3 c4 e1 a1 a2 a3 a4 a5 (get_debug_info s) l c7 c8 q1 q2 e4 st))%res).
    { unfold grid_solver. rewrite T5. cbn [item tget String.eqb Ascii.eqb Bool.eqb bind]. rewrite P, T2, Li. cbn [bind snd]. unfold common_kw. rewrite T6, T7, T8. cbn [item tget String.eqb Ascii.eqb Bool.eqb bind app].
      eexists. split; [|erewrite init_from_args; [rewrite P; reflexivity|reflexivity|reflexivity]]. apply tget_has. reflexivity. }
    destruct C as (Ar & C1 & C2). destruct (init_cases _ _ _ _ _ _ (fun st => (Ar, the_wiring i1 c2 c1 c5 i3 i4 c3 c4 e1 a1 a2 a3 a4 a5 (get_debug_info s) l c7 c8 q1 q2 e4 st)) _ C2) as (D1 & D2 & D3).
    split; [exact D1|]. split; [exact D2|]. intros f R H1 H2. destruct (D3 f R H1 H2) as (st & G & I1 & I2 & I3). exists Ar. eexists. split; [exact G|]. split; [exact C1|].
    apply (the_wiring_wired d) with (base := i2) (adp := ad s) (nadp := nad s); rewrite ?P; try assumption; first [reflexivity|read_at d].
Qed.
(** The profile run takes the directories and the folders of GYRE also for a polytrope. *)
Theorem C134_profile_settings : forall d l, readable d l -> exists s fa, read_toml_args d = Ok s /\
  told d fa (doc_folders "GYRE_selection" argv path toml) /\
  (forall name e, read_folders fa = Exc e -> profile_solver repr read_folders argv path toml lv s name = Exc e) /\
  (forall name f, read_folders fa = Ok f -> lacks f "gyre_base_dir" \/ lacks f "gyre_output_dir" -> profile_solver repr read_folders argv path toml lv s name = Exc KeyError) /\
  (forall name f, read_folders fa = Ok f -> (exists v, has f "gyre_base_dir" v) -> (exists v, has f "gyre_output_dir" v) ->
    exists a k, profile_solver repr read_folders argv path toml lv s name = Ok (a, k) /\
      has a "cc_profile_selection_dict" (VTab (cc_profile_selection s)) /\ has a "save_name" name /\
      told d a [("view_kernels", Inlist "plotting.profile.show_kernels"); ("view_term_by_term", Inlist "plotting.profile.show_term_by_term")] /\
      wired repr d l argv path toml false f k).
Proof.
  intros d l [A B]. destruct (Properties_Parser.C94_solve_settings d l A B) as (s & E & S). clear A B.
  destruct S as (S1 & S2 & S3 & S4 & S5 & S6 & S7 & S8 & S9 & S10 & S11 & _ & S13 & S14 & S15 & S16).
  destruct (settings_shape s (read_toml_shaped d s E)) as (b1 & b2 & b3 & b4 & i1 & i2 & i3 & i4 & i5 & i6 & p1 & p2 & p3 & p4 & p5 & p6 & m1 & m2 & m3 & m4 & m5 & m6 & m7 & m8 & c1 & c2 & c3 & c4 & c5 & c6 & c7 & c8 & e1 & e2 & e3 & e4 & q1 & q2 & a1 & a2 & a3 & a4 & a5 & r1 & r2 & r3 & r4 & r5 & t1 & t2 & T1 & T2 & T3 & T4 & T5 & T6 & T7 & T8 & T9 & T10).
  rewrite T1, T2, T3, T4, T5, T6, T7, T8, T10 in *.
  apply tget_has in S11. cbv in S11. injection S11 as ->.
  destruct (logger_out i1 i2 i3 i4 i5 i6) as (lvi & Li).
  exists s, (folder_args i3 i4). split; [exact E|]. split; [unfold folder_args; told_by|].
  assert (C : forall name, exists A, (has A "cc_profile_selection_dict" (VTab (cc_profile_selection s)) /\ has A "save_name" name /\
      told d A [("view_kernels", Inlist "plotting.profile.show_kernels"); ("view_term_by_term", Inlist "plotting.profile.show_term_by_term")]) /\
      profile_solver repr read_folders argv path toml lv s name =
      (f <- read_folders (folder_args i3 i4) ; st <- solver_setup repr (truthy c7) i1 i2 (ad s) (nad s) f ;
       Ok (A, the_wiring i1 c2 c1 c5 i3 i4 c3 c4 e1 a1 a2 a3 a4 a5 (get_debug_info s) l c7 c8 q1 q2 e4 st))%res).
  { intros name. unfold profile_solver. rewrite T5. rewrite T2, Li. cbn [bind snd]. unfold common_kw. rewrite T6, T7, T8, T10. cbn [item tget String.eqb Ascii.eqb Bool.eqb bind app].
      eexists. split; [|erewrite init_from_args; [reflexivity|reflexivity|reflexivity]]. split; [apply tget_has; reflexivity|]. split; [apply tget_has; reflexivity|]. told_by. }
  split; [|split].
  1-2: intros name; destruct (C name) as (Ar & C1 & C2); destruct (init_cases _ _ _ _ _ _ (fun st => (Ar, the_wiring i1 c2 c1 c5 i3 i4 c3 c4 e1 a1 a2 a3 a4 a5 (get_debug_info s) l c7 c8 q1 q2 e4 st)) _ C2) as (D1 & D2 & D3); first [exact D1|exact D2].
  intros name f R H1 H2. destruct (C name) as (Ar & C1 & C2). destruct (init_cases _ _ _ _ _ _ (fun st => (Ar, the_wiring i1 c2 c1 c5 i3 i4 c3 c4 e1 a1 a2 a3 a4 a5 (get_debug_info s) l c7 c8 q1 q2 e4 st)) _ C2) as (_ & _ & D3).
  destruct (D3 f R H1 H2) as (st & G & I1 & I2 & I3). exists Ar. eexists. split; [exact G|]. destruct C1 as (C1 & C3 & C4). split; [exact C1|]. split; [exact C3|]. split; [exact C4|].
  apply (the_wiring_wired d) with (base := i2) (adp := ad s) (nadp := nad s); try assumption; first [reflexivity|read_at d].
Qed.
End C134.

(** ** C135: the triads of a grid *)
Lemma as_int_whole v z : as_int v = Ok z <-> whole v z.
Proof.
  unfold whole. split.
  - destruct v; try discriminate; intros E; cbn in E; injection E as <-; [right; eexists; split; reflexivity|left; reflexivity].
  - intros [-> | (b & -> & ->)]; reflexivity.
Qed.
Lemma as_int_fails v : not_whole v -> as_int v = Exc TypeError.
Proof. intros N. destruct v; try reflexivity; exfalso; [eapply N; right; eexists; split; reflexivity|eapply N; left; reflexivity]. Qed.
Lemma as_int_cases v : (exists z, as_int v = Ok z) \/ as_int v = Exc TypeError.
Proof. destruct v; first [right; reflexivity|left; eexists; reflexivity]. Qed.
Lemma py_range2_ok lo hi a b : whole lo a -> whole hi b -> py_range2 lo hi = Ok (Combos_Model.range a b).
Proof. intros A B. apply as_int_whole in A. apply as_int_whole in B. unfold py_range2. rewrite A, B. reflexivity. Qed.
Lemma py_range2_fails lo hi : not_whole lo \/ not_whole hi -> py_range2 lo hi = Exc TypeError.
Proof.
  unfold py_range2. intros [N|N]; apply as_int_fails in N; rewrite N; [|reflexivity]. destruct (as_int_cases hi) as [(z & ->)| ->]; reflexivity.
Qed.
Lemma py_range2_cases lo hi : (exists l, py_range2 lo hi = Ok l) \/ py_range2 lo hi = Exc TypeError.
Proof. unfold py_range2. destruct (as_int_cases hi) as [(z & ->)| ->]; [|right; reflexivity]. cbn [bind]. destruct (as_int_cases lo) as [(y & ->)| ->]; [left; eexists; reflexivity|right; reflexivity]. Qed.
(** the radial orders and the degrees of the inlist *)
Definition order_settings (d : val) (dl dh l1 h1 l2 h2 : val) (ls ms : list val) : Prop :=
  setting d "mode_info.parent.n.low" dl /\ setting d "mode_info.parent.n.high" dh /\ setting d "mode_info.daughter_1.n.low" l1 /\ setting d "mode_info.daughter_1.n.high" h1 /\
  setting d "mode_info.daughter_2.n.low" l2 /\ setting d "mode_info.daughter_2.n.high" h2 /\
  Forall2 (setting d) ["mode_info.parent.l"; "mode_info.daughter_1.l"; "mode_info.daughter_2.l"] ls /\ Forall2 (setting d) ["mode_info.parent.m"; "mode_info.daughter_1.m"; "mode_info.daughter_2.m"] ms.
Lemma settings_unique2 d ps vs ws : Forall2 (setting d) ps vs -> Forall2 (setting d) ps ws -> vs = ws.
Proof.
  intros A. revert ws. induction A as [|p v ps vs H A IH]; intros ws B; inversion B; subst; [reflexivity|]. f_equal; [exact (setting_unique d p _ _ H H2)|apply IH; assumption].
Qed.
Lemma grid_modes_eq d l s a : readable d l -> read_toml_args d = Ok s -> has a "mode_selection_dict" (VTab (mode_selection s)) ->
  forall dl dh l1 h1 l2 h2 ls ms, order_settings d dl dh l1 h1 l2 h2 ls ms -> forall orders, grid_modes orders a =
    (driven <- py_range2 dl dh ; first <- py_range2 l1 h1 ;
     second <- (match l2, h2 with VNone, _ | _, VNone => Ok None | _, _ => r <- py_range2 l2 h2 ; Ok (Some r) end) ;
     let '(u, ab, ba, i) := match second with Some s => orders first s | None => ([], [], [], []) end in
     Ok {| g_l := VArr ls; g_m := VArr ms; g_orders := Combos_Model.generate driven first second u ab ba i |})%res.
Proof.
  intros [A B] E Ha dl dh l1 h1 l2 h2 ls ms O orders. destruct (Properties_Parser.C94_solve_settings d l A B) as (s' & E' & S). assert (s' = s) by congruence. subst s'. clear E' A B.
  destruct S as (_ & _ & S3 & _ & _ & _ & _ & _ & _ & _ & _ & S12 & _).
  destruct (settings_shape s (read_toml_shaped d s E)) as (b1 & b2 & b3 & b4 & i1 & i2 & i3 & i4 & i5 & i6 & p1 & p2 & p3 & p4 & p5 & p6 & m1 & m2 & m3 & m4 & m5 & m6 & m7 & m8 & c1 & c2 & c3 & c4 & c5 & c6 & c7 & c8 & e1 & e2 & e3 & e4 & q1 & q2 & a1 & a2 & a3 & a4 & a5 & r1 & r2 & r3 & r4 & r5 & t1 & t2 & T1 & T2 & T3 & T4 & T5 & T6 & T7 & T8 & T9 & T10).
  rewrite T4 in *. clear T1 T2 T3 T5 T6 T7 T8 T9 T10.
  destruct O as (O1 & O2 & O3 & O4 & O5 & O6 & O7 & O8). destruct S12 as (ls' & ms' & F1 & F2 & L1 & L2 & _).
  rewrite (settings_unique2 d _ _ _ F1 O7) in L1. rewrite (settings_unique2 d _ _ _ F2 O8) in L2. apply tget_has in L1. apply tget_has in L2. cbv in L1, L2. injection L1 as ->. injection L2 as ->.
  assert (Q : forall n pos v w, In (n, pos) doc_mode_selection -> setting d pos w -> tget [("driven_n_low", m1); ("driven_n_high", m2); ("damped_n_low1", m3); ("damped_n_high1", m4); ("damped_n_low2", m5); ("damped_n_high2", m6); ("mode_l", VArr ls); ("mode_m", VArr ms)] n = Some v -> v = w).
  { intros n pos v w I Sw G. exact (setting_unique d pos _ _ (holds_get _ _ _ _ _ _ _ S3 I G) Sw). }
  assert (m1 = dl) by (refine (Q "driven_n_low" _ _ _ _ O1 eq_refl); member). assert (m2 = dh) by (refine (Q "driven_n_high" _ _ _ _ O2 eq_refl); member).
  assert (m3 = l1) by (refine (Q "damped_n_low1" _ _ _ _ O3 eq_refl); member). assert (m4 = h1) by (refine (Q "damped_n_high1" _ _ _ _ O4 eq_refl); member).
  assert (m5 = l2) by (refine (Q "damped_n_low2" _ _ _ _ O5 eq_refl); member). assert (m6 = h2) by (refine (Q "damped_n_high2" _ _ _ _ O6 eq_refl); member). subst m1 m2 m3 m4 m5 m6.
  unfold grid_modes. rewrite (Properties_Setup.item_has _ _ _ Ha). cbn [bind].
  match goal with |- context [call inputgen_sig ?x ?y] => let r := eval cbv in (call inputgen_sig x y) in change (call inputgen_sig x y) with r end.
  cbn [bind]. unfold input_gen. cbn [item tget String.eqb Ascii.eqb Bool.eqb bind]. reflexivity.
Qed.
(** Without both bounds of the second daughter range, the triads are those with distinct ascending daughters of the first range. *)
Theorem C135_one_range : forall d l s a, readable d l -> read_toml_args d = Ok s -> has a "mode_selection_dict" (VTab (mode_selection s)) ->
  forall dl dh l1 h1 l2 h2 ls ms, order_settings d dl dh l1 h1 l2 h2 ls ms ->
  forall dl' dh' l1' h1', whole dl dl' -> whole dh dh' -> whole l1 l1' -> whole h1 h1' -> l2 = VNone \/ h2 = VNone ->
  forall orders, exists g, grid_modes orders a = Ok g /\ g_l g = VArr ls /\ g_m g = VArr ms /\ NoDup (g_orders g) /\
    forall n1 n2 n3, In (n1, n2, n3) (g_orders g) <-> (dl' <= n1 <= dh' /\ l1' <= n2 < n3 /\ n3 <= h1')%Z.
Proof.
  intros d l s a R E Ha dl dh l1 h1 l2 h2 ls ms O dl' dh' l1' h1' W1 W2 W3 W4 N orders. rewrite (grid_modes_eq d l s a R E Ha _ _ _ _ _ _ _ _ O).
  rewrite (py_range2_ok _ _ _ _ W1 W2), (py_range2_ok _ _ _ _ W3 W4). cbn [bind].
  assert (X : (match l2, h2 with VNone, _ | _, VNone => Ok None | _, _ => r <- py_range2 l2 h2 ; Ok (Some r) end)%res = Ok None) by (destruct N as [-> | ->]; [|destruct l2]; reflexivity).
  rewrite X. cbn [bind]. eexists. split; [reflexivity|]. cbn [g_l g_m g_orders]. split; [reflexivity|]. split; [reflexivity|].
  destruct (Properties_Combos.C29_generator_single_range dl' dh' l1' h1' [] [] [] []) as (G1 & G2 & _). split; [exact G2|]. exact G1.
Qed.
(** With two ranges every requested combination is there up to an exchange of the daughters. *)
Theorem C135_two_ranges : forall d l s a, readable d l -> read_toml_args d = Ok s -> has a "mode_selection_dict" (VTab (mode_selection s)) ->
  forall dl dh l1 h1 l2 h2 ls ms, order_settings d dl dh l1 h1 l2 h2 ls ms ->
  forall dl' dh' l1' h1' l2' h2', whole dl dl' -> whole dh dh' -> whole l1 l1' -> whole h1 h1' -> whole l2 l2' -> whole h2 h2' ->
  forall orders : list Z -> list Z -> list Z * list Z * list Z * list Z,
    (forall A B, let '(u, ab, ba, i) := orders A B in Properties_Combos.set_orders A B u ab ba i) ->
  exists g, grid_modes orders a = Ok g /\ g_l g = VArr ls /\ g_m g = VArr ms /\
    (forall n1 n2 n3, (dl' <= n1 <= dh')%Z -> (l1' <= n2 <= h1')%Z -> (l2' <= n3 <= h2')%Z -> In (n1, n2, n3) (g_orders g) \/ In (n1, n3, n2) (g_orders g)) /\
    (forall n1 n2 n3, In (n1, n2, n3) (g_orders g) -> (dl' <= n1 <= dh')%Z /\ (l1' <= n2 <= h1' \/ l2' <= n2 <= h2')%Z /\ (l1' <= n3 <= h1' \/ l2' <= n3 <= h2')%Z).
Proof.
  intros d l s a R E Ha dl dh l1 h1 l2 h2 ls ms O dl' dh' l1' h1' l2' h2' W1 W2 W3 W4 W5 W6 orders SO. rewrite (grid_modes_eq d l s a R E Ha _ _ _ _ _ _ _ _ O).
  rewrite (py_range2_ok _ _ _ _ W1 W2), (py_range2_ok _ _ _ _ W3 W4), (py_range2_ok _ _ _ _ W5 W6). cbn [bind].
  assert (X : (match l2, h2 with VNone, _ | _, VNone => Ok None | _, _ => Ok (Some (Combos_Model.range l2' h2')) end) = Ok (Some (Combos_Model.range l2' h2'))).
  { destruct W5 as [-> | (? & -> & _)], W6 as [-> | (? & -> & _)]; reflexivity. }
  rewrite X. cbn [bind]. specialize (SO (Combos_Model.range l1' h1') (Combos_Model.range l2' h2')). destruct (orders _ _) as [[[u ab] ba] i].
  eexists. split; [reflexivity|]. cbn [g_l g_m g_orders]. split; [reflexivity|]. split; [reflexivity|]. split.
  - intros n1 n2 n3. apply (Properties_Combos.C29_generator_two_ranges_complete dl' dh' l1' h1' l2' h2' u ab ba i SO).
  - intros n1 n2 n3 H. unfold Combos_Model.generate in H. apply in_flat_map in H. destruct H as (dn & Hd & H). apply in_map_iff in H. destruct H as ([x y] & Exy & H).
    cbn [fst snd] in Exy. injection Exy as -> -> ->. apply Combos_Proofs.range_In in Hd. split; [exact Hd|].
    destruct SO as (HU & _ & _ & HI). rewrite <- !Combos_Proofs.range_In.
    assert (PR : forall (P : Z -> Prop) k x y, In (x, y) (Combos_Model.combinations2 k) -> (forall z, In z k -> P z) -> (P x /\ P y)).
    { intros P k x' y' C Hk. apply Combos_Proofs.comb2_In in C. destruct (Combos_Proofs.precedes_In _ _ _ C). split; apply Hk; assumption. }
    unfold Combos_Model.sym_value_diag in H. apply in_app_iff in H. destruct H as [H|H].
    + assert (PD : forall p a b, In p (Combos_Model.pdiff a b) -> In p a) by (intros p a' b' Hp; apply filter_In in Hp; apply Hp).
      unfold Combos_Model.sym_value, Combos_Model.punion in H. rewrite !in_app_iff in H.
      destruct H as [[H|H]|H].
      * apply PD in H. refine (PR (fun z => In z _ \/ In z _) _ _ _ H _). intros z Hz. apply HU, Hz.
      * apply PD, PD in H. refine (PR (fun z => In z _ \/ In z _) _ _ _ H _). intros z Hz. left. exact Hz.
      * apply PD, PD in H. refine (PR (fun z => In z _ \/ In z _) _ _ _ H _). intros z Hz. right. exact Hz.
    + apply in_map_iff in H. destruct H as (z & Ez & Hz). injection Ez as <- <-. apply HI in Hz. tauto.
Qed.
(** A grid solver built without a mode selection: a quadrupole and two dipole modes, parent orders 15 to 25, ascending daughter orders 30 to 45. *)
Theorem C135_no_selection : forall a, has a "mode_selection_dict" VNone ->
  forall orders, exists g, grid_modes orders a = Ok g /\ g_l g = VArr [VInt 2; VInt 1; VInt 1] /\ g_m g = VArr [VInt 2; VInt 1; VInt 1] /\ NoDup (g_orders g) /\
    forall n1 n2 n3, In (n1, n2, n3) (g_orders g) <-> (15 <= n1 <= 25 /\ 30 <= n2 < n3 /\ n3 <= 45)%Z.
Proof.
  intros a H orders. unfold grid_modes. rewrite (Properties_Setup.item_has _ _ _ H). cbn [bind].
  destruct (Properties_Combos.C29_generator_single_range 15 25 30 45 [] [] [] []) as (G1 & G2 & _).
  exists {| g_l := VArr [VInt 2; VInt 1; VInt 1]; g_m := VArr [VInt 2; VInt 1; VInt 1]; g_orders := Combos_Model.generate (Combos_Model.range 15 25) (Combos_Model.range 30 45) None [] [] [] [] |}.
  split; [reflexivity|]. split; [reflexivity|]. split; [reflexivity|]. split; [exact G2|exact G1].
Qed.
(** A bound that is not a whole number (a missing one is None) ends the run with TypeError before anything is read or computed. *)
Theorem C135_bad_bounds : forall d l s a, readable d l -> read_toml_args d = Ok s -> has a "mode_selection_dict" (VTab (mode_selection s)) ->
  forall dl dh l1 h1 l2 h2 ls ms, order_settings d dl dh l1 h1 l2 h2 ls ms ->
  not_whole dl \/ not_whole dh \/ not_whole l1 \/ not_whole h1 \/ (l2 <> VNone /\ h2 <> VNone /\ (not_whole l2 \/ not_whole h2)) ->
  forall orders, grid_modes orders a = Exc TypeError.
Proof.
  intros d l s a R E Ha dl dh l1 h1 l2 h2 ls ms O N orders. rewrite (grid_modes_eq d l s a R E Ha _ _ _ _ _ _ _ _ O).
  destruct (py_range2_cases dl dh) as [(x & X)|X]; [|rewrite X; reflexivity].
  destruct (py_range2_cases l1 h1) as [(y & Y)|Y]; [|rewrite X, Y; reflexivity].
  destruct N as [N|[N|[N|[N|(N1 & N2 & N)]]]]; 
    [rewrite (py_range2_fails dl dh) by auto; reflexivity|rewrite (py_range2_fails dl dh) by auto; reflexivity|rewrite X, (py_range2_fails l1 h1) by auto; reflexivity|rewrite X, (py_range2_fails l1 h1) by auto; reflexivity|].
  rewrite X, Y. cbn [bind]. rewrite (py_range2_fails l2 h2) by auto. destruct l2; try congruence; destruct h2; try congruence; reflexivity.
Qed.
