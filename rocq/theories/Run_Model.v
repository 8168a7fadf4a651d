(** * Model of one complete solve run after the inlist has been read: which setting reaches which component, the triads of a grid,
    the results file, the profile run.
    Sources: aesolver/aerunners/solve_quadratic.py (sq), aesolver/aesolver/solver/quadratic_grid.py (qg), solver/quadratic_profile.py (qp),
    solver/solver_base_classes/quadratic_solver.py (qb), mode_input_generator/input_generator.py (ig), data_handling/storer.py (sr),
    coupling_coefficients/quadratic_coupling_coefficient_rotating.py (qc),
    solver/profile_plot_classes/setup_for_plotting.py (sp), solver/profile_print_functions/coupling_coefficient_print_functions.py (pp).
    Simplifications: mode data, structure profiles, frequency handler and the solver object itself, which are passed as arguments too, are left
    out of the modelled argument lists; creation of directories, progress bars and log messages are dropped; exact real arithmetic.
    Outside the model (UB): an [adiabatic] setting that is not a boolean, degrees, orders and integration settings of unexpected types. *)
From Coq Require Import Reals QArith Qreals List ZArith Ascii String Bool.
From Coquelicot Require Import Coquelicot.
From Verif Require Import Base Py Inlist_Model Parser_Model Setup_Model.
From Verif Require Combos_Model Saver_Model Solver_Model Tar_Model Stab_Model.
Import ListNotations.
Local Open Scope string_scope.

(** ** Python calls *)
(** parameters in order, with their default values (None: required) *)
Definition signature := list (string * option val).
Fixpoint fill (sg : signature) (pos : list val) (kw : table) : res table :=
  match sg with
  | [] => match pos with [] => Ok [] | _ => Exc TypeError end
  | (n, d) :: sg' =>
      match pos with
      | v :: pos' => match tget kw n with Some _ => Exc TypeError | None => r <- fill sg' pos' kw ; Ok ((n, v) :: r) end
      | [] => match (match tget kw n with Some v => Some v | None => d end) with
              | Some v => r <- fill sg' [] kw ; Ok ((n, v) :: r)
              | None => Exc TypeError
              end
      end
  end.
Definition known (ks : list string) (k : string) : bool := existsb (String.eqb k) ks.
Fixpoint distinct (ks : list string) : bool := match ks with [] => true | k :: ks' => negb (known ks' k) && distinct ks' end.
(** f( *pos, **kw): a keyword given twice, or unknown, or also given by position, and a missing argument are TypeErrors *)
Definition call (sg : signature) (pos : list val) (kw : table) : res table :=
  if distinct (map fst kw) && forallb (known (map fst sg)) (map fst kw) then fill sg pos kw else Exc TypeError.
(** the values of some keys, in order; a missing one raises *)
Definition values (t : table) (ks : list string) : res (list val) := mapM (fun k => item k (VTab t)) ks.
(** a dictionary built from other entries: new key, old key *)
Definition renamed (t : table) (l : list (string * string)) : res table := mapM (fun p => (v <- item (snd p) (VTab t) ; Ok (fst p, v))%res) l.

(** ** Signatures *)
Definition F := Some (VBool false).
Definition T := Some (VBool true).
Definition No := Some VNone.
(** qb:118-151 *)
Definition base_sig : signature :=
  [("sys_args", None); ("called_from_pytest", F); ("pytest_path", No); ("rot_pct", Some (VInt 20)); ("use_complex", F); ("adiabatic", T);
   ("use_rotating_formalism", T); ("base_dir", No); ("alternative_directory_path", No); ("alternative_file_name", No); ("use_symbolic_profiles", T);
   ("use_brunt_def", T); ("nr_omp_threads", Some (VInt 4)); ("use_parallel", F); ("ld_function", Some (VStr "eddington"));
   ("numerical_integration_method", Some (VStr "trapz")); ("use_cheby_integration", F); ("cheby_order_multiplier", Some (VInt 4));
   ("cheby_blow_up_protection", F); ("cheby_blow_up_factor", Some (VFloat 1000)); ("stationary_solving", T); ("ad_path", No); ("nad_path", No);
   ("inlist_path", No); ("toml_use", F); ("get_debug_info", F); ("terms_cc_conj", No); ("polytrope_comp", F); ("analytic_polytrope", F);
   ("polytrope_mass", Some (VFloat 3)); ("polytrope_radius", Some (VFloat (9 # 2))); ("progress_bars", F)].
(** qg:45 *)
Definition grid_sig : signature :=
  [("sys_args", None); ("called_from_pytest", F); ("pytest_path", No); ("rot_pct", Some (VInt 20)); ("use_complex", F); ("adiabatic", T);
   ("use_rotating_formalism", T); ("base_dir", No); ("alternative_directory_path", No); ("alternative_file_name", No); ("use_symbolic_profiles", T);
   ("use_brunt_def", T); ("mode_selection_dict", No); ("nr_omp_threads", Some (VInt 4)); ("use_parallel", F); ("ld_function", Some (VStr "eddington"));
   ("numerical_integration_method", Some (VStr "trapz")); ("use_cheby_integration", F); ("cheby_order_multiplier", Some (VInt 4));
   ("cheby_blow_up_protection", F); ("cheby_blow_up_factor", Some (VInt 1000)); ("stationary_solving", T); ("ad_path", No); ("nad_path", No);
   ("inlist_path", No); ("toml_use", F); ("get_debug_info", F); ("terms_cc_conj", No); ("polytrope_comp", F); ("analytic_polytrope", F);
   ("polytrope_mass", Some (VInt 3)); ("polytrope_radius", Some (VFloat (9 # 2))); ("progress_bars", F)].
(** qp:71 *)
Definition profile_sig : signature :=
  [("sys_args", None); ("cc_profile_selection_dict", None); ("called_from_pytest", F); ("pytest_path", No); ("rot_pct", Some (VInt 20)); ("use_complex", F); ("adiabatic", T);
   ("use_rotating_formalism", T); ("base_dir", No); ("alternative_directory_path", No); ("alternative_file_name", No); ("use_symbolic_profiles", T);
   ("use_brunt_def", T); ("nr_omp_threads", Some (VInt 4)); ("use_parallel", F); ("ld_function", Some (VStr "eddington"));
   ("numerical_integration_method", Some (VStr "trapz")); ("use_cheby_integration", F); ("cheby_order_multiplier", Some (VInt 4));
   ("cheby_blow_up_protection", F); ("cheby_blow_up_factor", Some (VInt 1000)); ("stationary_solving", T); ("ad_path", No); ("nad_path", No);
   ("inlist_path", No); ("toml_use", F); ("get_debug_info", F); ("terms_cc_conj", No); ("polytrope_comp", F); ("analytic_polytrope", F);
   ("polytrope_mass", Some (VInt 3)); ("polytrope_radius", Some (VFloat (9 # 2))); ("save_name", Some (VStr "")); ("view_term_by_term", T); ("view_kernels", T);
   ("progress_bars", F)].
(** qg:47, qp:73: the names passed on by position *)
Definition passed_on : list string :=
  ["sys_args"; "called_from_pytest"; "pytest_path"; "rot_pct"; "use_complex"; "adiabatic"; "use_rotating_formalism"; "base_dir"; "alternative_directory_path";
   "alternative_file_name"; "use_symbolic_profiles"; "use_brunt_def"; "nr_omp_threads"; "use_parallel"; "ld_function"; "numerical_integration_method";
   "use_cheby_integration"; "cheby_order_multiplier"; "cheby_blow_up_protection"; "cheby_blow_up_factor"; "stationary_solving"; "ad_path"; "nad_path";
   "inlist_path"; "toml_use"; "get_debug_info"; "terms_cc_conj"; "polytrope_comp"; "analytic_polytrope"; "polytrope_mass"; "polytrope_radius"; "progress_bars"].
(** qb:152-216, 247: attribute, parameter *)
Definition stored : list (string * string) :=
  [("_nr_omp_threads", "nr_omp_threads"); ("_use_parallel", "use_parallel"); ("_numerical_integration_method", "numerical_integration_method");
   ("_use_cheby", "use_cheby_integration"); ("_cheby_order_mul", "cheby_order_multiplier"); ("_cheby_blow_up", "cheby_blow_up_protection");
   ("_cheby_blow_up_fac", "cheby_blow_up_factor"); ("_get_debug_info", "get_debug_info"); ("_polytrope_comp", "polytrope_comp");
   ("_analytic_polytrope", "analytic_polytrope"); ("_polytrope_mass", "polytrope_mass"); ("_polytrope_radius", "polytrope_radius");
   ("_ld_function", "ld_function"); ("_stat_solv", "stationary_solving"); ("_rot_pct", "rot_pct"); ("_use_rot_formalism", "use_rotating_formalism");
   ("_use_symbolic_profiles", "use_symbolic_profiles"); ("_use_brunt_def", "use_brunt_def"); ("_use_complex", "use_complex"); ("_adiabatic", "adiabatic");
   ("_terms_cc_conj", "terms_cc_conj"); ("_inlist_path", "inlist_path"); ("_display_progress_bars", "progress_bars")].
(** qc:277-306, the parameters that are settings *)
Definition coupler_sig : signature :=
  [("use_complex", F); ("polytropic", F); ("analytic_polytrope", F); ("use_brunt_def", T); ("nr_omp_threads", Some (VInt 4)); ("use_symbolic_derivatives", T);
   ("use_parallel", F); ("numerical_integration_method", Some (VStr "trapz")); ("conj_cc", No); ("store_debug", F); ("use_cheby_integration", F);
   ("cheby_order_multiplier", Some (VInt 4)); ("cheby_blow_up_protection", F); ("cheby_blow_up_factor", Some (VFloat 1000))].
(** sr:69-79 without the solver object *)
Definition saver_sig : signature :=
  [("save_name", None); ("base_dir", Some (VStr ".")); ("save_dir", Some (VStr "")); ("extra_specifier", Some (VStr "")); ("polytropic", F);
   ("initial_save_format", Some (VStr "hdf5")); ("nr_modes", Some (VInt 3))].
(** ig:50-60 *)
Definition inputgen_sig : signature :=
  [("mode_l", None); ("mode_m", None); ("driven_n_low", None); ("driven_n_high", None); ("damped_n_low1", None); ("damped_n_high1", None);
   ("damped_n_low2", No); ("damped_n_high2", No)].

(** ** What a solver is told *)
(** the mode data: polytrope, adiabatic or non-adiabatic GYRE files *)
Inductive source := Polytropic | Adiabatic | NonAdiabatic.
Definition default_conj := VTup [VBool true; VBool false; VBool false].
(** qc:308-345: `conj_cc if conj_cc else (True, False, False)`, everything else is stored as given *)
Definition coupler_settings (a : table) : res table :=
  v <- item "conj_cc" (VTab a) ; Ok (tset a "conj_cc" (if truthy v then v else default_conj)).
(** qb:460-556, the three calls *)
Definition coupler_call (t : table) : res (source * table) :=
  p <- item "_polytrope_comp" (VTab t) ;
  ad <- item "_adiabatic" (VTab t) ;
  if truthy p then
    kw <- renamed t [("use_brunt_def", "_use_brunt_def"); ("use_symbolic_derivatives", "_use_symbolic_profiles"); ("nr_omp_threads", "_nr_omp_threads");
      ("use_parallel", "_use_parallel"); ("numerical_integration_method", "_numerical_integration_method"); ("store_debug", "_get_debug_info"); ("conj_cc", "_terms_cc_conj");
      ("analytic_polytrope", "_analytic_polytrope"); ("use_cheby_integration", "_use_cheby"); ("cheby_order_multiplier", "_cheby_order_mul");
      ("cheby_blow_up_protection", "_cheby_blow_up"); ("cheby_blow_up_factor", "_cheby_blow_up_fac")] ;
    a <- call coupler_sig [] (("polytropic", VBool true) :: ("use_complex", VBool false) :: kw) ; c <- coupler_settings a ; Ok (Polytropic, c)
  else if truthy ad then
    kw <- renamed t [("use_brunt_def", "_use_brunt_def"); ("use_symbolic_derivatives", "_use_symbolic_profiles"); ("nr_omp_threads", "_nr_omp_threads");
      ("use_parallel", "_use_parallel"); ("numerical_integration_method", "_numerical_integration_method"); ("store_debug", "_get_debug_info"); ("conj_cc", "_terms_cc_conj");
      ("use_cheby_integration", "_use_cheby"); ("cheby_order_multiplier", "_cheby_order_mul");
      ("cheby_blow_up_protection", "_cheby_blow_up"); ("cheby_blow_up_factor", "_cheby_blow_up_fac")] ;
    a <- call coupler_sig [] (("polytropic", VBool false) :: ("use_complex", VBool false) :: kw) ; c <- coupler_settings a ; Ok (Adiabatic, c)
  else
    kw <- renamed t [("use_complex", "_use_complex"); ("use_brunt_def", "_use_brunt_def"); ("use_symbolic_derivatives", "_use_symbolic_profiles");
      ("nr_omp_threads", "_nr_omp_threads"); ("use_parallel", "_use_parallel"); ("numerical_integration_method", "_numerical_integration_method");
      ("store_debug", "_get_debug_info"); ("conj_cc", "_terms_cc_conj"); ("use_cheby_integration", "_use_cheby"); ("cheby_order_multiplier", "_cheby_order_mul");
      ("cheby_blow_up_protection", "_cheby_blow_up"); ("cheby_blow_up_factor", "_cheby_blow_up_fac")] ;
    a <- call coupler_sig [] (("polytropic", VBool false) :: kw) ; c <- coupler_settings a ; Ok (NonAdiabatic, c).
(** everything the computation of one triad takes from the settings *)
Record wiring := {
  k_attributes : table;             (* of the solver *)
  k_setup : setup;                  (* mode directories and information folders *)
  k_source : source; k_coupler : table;
  k_handler : source;               (* qb:871-889: modes given to the frequency handler *)
  k_conj : val;                     (* qb:902-912, 919-927: conjugation given to the pre-check; None or a list *)
  k_disc : list val;                (* qb:687-696: limb darkening, integration method, threads, parallel *)
  k_folders : table }.              (* qb:232-240: arguments of the reader of the information folders *)
Section Wiring.
Variable repr : val -> string.
(** InfoDirHandler(...).full_info after parse_info_directories() *)
Variable read_folders : table -> res table.
(** qb:118-247 *)
Definition base_init (a : table) : res (table * setup * table) :=
  t <- renamed a stored ;
  p <- item "polytrope_comp" (VTab a) ; rot <- item "rot_pct" (VTab a) ; base <- item "base_dir" (VTab a) ; ad <- item "ad_path" (VTab a) ; nad <- item "nad_path" (VTab a) ;
  fa <- renamed a [("sys_arguments", "sys_args"); ("alternative_directory_path", "alternative_directory_path"); ("alternative_file_name", "alternative_file_name");
     ("toml_use", "toml_use"); ("inlist_path", "inlist_path"); ("called_from_pytest", "called_from_pytest"); ("pytest_file_path", "pytest_path")] ;
  f <- read_folders fa ;
  s <- solver_setup repr (truthy p) rot base ad nad f ;
  Ok (t, s, fa).
Definition solver_init (sg : signature) (argv : val) (kw : table) : res (table * wiring) :=
  a <- call sg [argv] kw ;
  vs <- values a passed_on ;
  b <- call base_sig vs [] ;
  tsf <- base_init b ; let '(t, s, fa) := tsf in
  c <- coupler_call t ;
  p <- item "_polytrope_comp" (VTab t) ; ad <- item "_adiabatic" (VTab t) ; conj <- item "_terms_cc_conj" (VTab t) ;
  disc <- values t ["_ld_function"; "_numerical_integration_method"; "_nr_omp_threads"; "_use_parallel"] ;
  Ok (a, {| k_attributes := t; k_setup := s; k_source := fst c; k_coupler := snd c;
            k_handler := if truthy p then Polytropic else if truthy ad then Adiabatic else NonAdiabatic;
            k_conj := match conj with VNone => VNone | _ => VArr [conj] end; k_disc := disc; k_folders := fa |}).

(** ** The solve script: sq:509-580 *)
Variable argv inlist_path : val.
Variable toml : bool.
Definition common_kw (s : settings) : res table :=
  par <- item "use_parallel" (VTab (comp s)) ; bars <- item "progress_bars" (VTab (comp s)) ;
  Ok [("inlist_path", inlist_path); ("toml_use", VBool toml); ("use_parallel", par); ("get_debug_info", get_debug_info s); ("progress_bars", bars)].
Definition grid_solver (lv : level) (s : settings) : res (table * wiring) :=
  p <- item "polytrope_comp" (VTab (mode_computation s)) ;
  if truthy p then
    li <- adjust_root_logger_level lv (poly_select s) ; c <- common_kw s ;
    solver_init grid_sig argv (snd li ++ mode_computation s ++ poly_model s ++ a_i s ++ [("mode_selection_dict", VTab (mode_selection s)); ("ad_path", poly_modes s); ("nad_path", VNone)] ++ c)%list
  else
    li <- adjust_root_logger_level lv (mode_info s) ; c <- common_kw s ;
    solver_init grid_sig argv (snd li ++ mode_computation s ++ poly_model s ++ a_i s ++ [("mode_selection_dict", VTab (mode_selection s)); ("ad_path", ad s); ("nad_path", nad s)] ++ c)%list.
Definition profile_solver (lv : level) (s : settings) (name : val) : res (table * wiring) :=
  li <- adjust_root_logger_level lv (mode_info s) ; c <- common_kw s ;
  solver_init profile_sig argv (snd li ++ mode_computation s ++ poly_model s ++ a_i s ++
    [("cc_profile_selection_dict", VTab (cc_profile_selection s)); ("ad_path", ad s); ("nad_path", nad s); ("save_name", name)] ++ cc_profile_plot s ++ c)%list.
End Wiring.

(** ** Triads of a grid: ig:61-133, qg:49-61 *)
(** Python integers: True and False are 1 and 0 *)
Definition as_int (v : val) : res Z := match v with VInt z => Ok z | VBool b => Ok (if b then 1%Z else 0%Z) | _ => Exc TypeError end.
(** range(low, high + 1) *)
Definition py_range2 (lo hi : val) : res (list Z) := h <- as_int hi ; l <- as_int lo ; Ok (Combos_Model.range l h).
Record mode_input := { g_l : val; g_m : val; g_orders : list (Z * Z * Z) }.
(** [orders]: the iteration orders of the set operations, see Combos_Model *)
Definition input_gen (orders : list Z -> list Z -> list Z * list Z * list Z * list Z) (a : table) : res mode_input :=
  l <- item "mode_l" (VTab a) ; m <- item "mode_m" (VTab a) ;
  dl <- item "driven_n_low" (VTab a) ; dh <- item "driven_n_high" (VTab a) ; driven <- py_range2 dl dh ;
  l1 <- item "damped_n_low1" (VTab a) ; h1 <- item "damped_n_high1" (VTab a) ; first <- py_range2 l1 h1 ;
  l2 <- item "damped_n_low2" (VTab a) ; h2 <- item "damped_n_high2" (VTab a) ;
  second <- (match l2, h2 with VNone, _ | _, VNone => Ok None | _, _ => r <- py_range2 l2 h2 ; Ok (Some r) end) ;
  let '(u, ab, ba, i) := match second with Some s => orders first s | None => ([], [], [], []) end in
  Ok {| g_l := l; g_m := m; g_orders := Combos_Model.generate driven first second u ab ba i |}.
(** qg:49-61 *)
Definition default_selection : table :=
  [("damped_n_low1", VInt 30); ("damped_n_high1", VInt 45); ("driven_n_low", VInt 15); ("driven_n_high", VInt 25);
   ("mode_l", VArr [VInt 2; VInt 1; VInt 1]); ("mode_m", VArr [VInt 2; VInt 1; VInt 1]); ("damped_n_low2", VNone); ("damped_n_high2", VNone)].
Definition grid_modes orders (args : table) : res mode_input :=
  v <- item "mode_selection_dict" (VTab args) ;
  kw <- (match v with VNone => Ok default_selection | VTab t => Ok t | _ => Exc TypeError end) ;
  a <- call inputgen_sig [] kw ; input_gen orders a.

(** ** Values the numerical components need *)
Definition as_bool (v : val) : res bool := match v with VBool b => Ok b | _ => UB end.
Definition as_Z (v : val) : res Z := match v with VInt z => Ok z | _ => UB end.
Definition as_Zs (v : val) : res (list Z) := match v with VArr l => mapM as_Z l | _ => UB end.
Definition as_num (v : val) : res R := match v with VInt z => Ok (IZR z) | VFloat q => Ok (Q2R q) | VBool b => Ok (if b then 1%R else 0%R) | _ => UB end.
(** x * constant: qb:374-375 *)
Definition scaled (v : val) (c : R) : res R :=
  match v with VInt z => Ok (IZR z * c)%R | VFloat q => Ok (Q2R q * c)%R | VBool b => Ok (if b then c else 0)%R | _ => Exc TypeError end.
(** mass and radius of the polytrope in cgs units *)
Definition polytrope_scale (m_sun r_sun : R) (w : wiring) : res (R * R) :=
  m <- item "_polytrope_mass" (VTab (k_attributes w)) ; r <- item "_polytrope_radius" (VTab (k_attributes w)) ;
  m' <- scaled m m_sun ; r' <- scaled r r_sun ; Ok (m', r').
Definition saver_config (w : wiring) (l m : list Z) : res Saver_Model.config :=
  let t := VTab (k_attributes w) in
  p <- item "_polytrope_comp" t ; ad <- (v <- item "_adiabatic" t ; as_bool v) ;
  me <- (v <- item "_numerical_integration_method" t ; as_text v) ; ch <- (v <- item "_use_cheby" t ; as_bool v) ; om <- (v <- item "_cheby_order_mul" t ; as_Z v) ;
  bu <- (v <- item "_cheby_blow_up" t ; as_bool v) ; bf <- (v <- item "_cheby_blow_up_fac" t ; as_num v) ;
  Ok (Saver_Model.mkConfig (truthy p) ad l m me ch om bu bf).

(** ** The file a run writes: sr:69-116, 163-235 and enum_generic.py 44-151, with values that need not be strings *)
Definition lower_of (v : val) : res string := match v with VStr s => Ok (Saver_Model.lower s) | _ => Exc AttributeError end.
(** the sub-directory (None is returned as it is and becomes the text 'None') *)
Definition subdir_text (repr : val -> string) (v : val) : string :=
  match v with VNone => "None" | VStr s => Saver_Model.slash_subdir s | _ => "/" ++ py_str repr v end.
(** len(extra) > 0 and its text *)
Definition extra_text (repr : val -> string) (v : val) : res string :=
  match v with
  | VStr s => Ok s
  | VArr l | VTup l => Ok (match l with [] => "" | _ => py_str repr v end)
  | VTab t => Ok (match t with [] => "" | _ => py_str repr v end)
  | _ => Exc TypeError
  end.
Definition saver_file (repr : val -> string) (save_info : table) (poly name : val) (k m : list Z) : res string :=
  a <- call saver_sig [] (("save_name", name) :: ("polytropic", poly) :: ("nr_modes", VInt 3) :: save_info) ;
  base <- item "base_dir" (VTab a) ; fmt <- (v <- item "initial_save_format" (VTab a) ; lower_of v) ;
  d <- Saver_Model.obtain_save_directory fmt (py_str repr base) ;
  sub <- item "save_dir" (VTab a) ; ex <- (v <- item "extra_specifier" (VTab a) ; extra_text repr v) ; nm <- item "save_name" (VTab a) ;
  Ok (Saver_Model.adjust_file_path (Saver_Model.qnr_string k m) (fst d ++ subdir_text repr sub ++ ex ++ py_str repr nm ++ "." ++ snd d)).

(** ** Figure names of a profile run (sp:20-120) *)
Definition joined (repr : val -> string) (sep : string) (l : list val) : string := Saver_Model.join sep (map (py_str repr) l).
(** iteration over a value *)
Definition elements (v : val) : res (list val) :=
  match v with VArr l | VTup l => Ok l | VStr s => Ok (chars s) | VTab t => Ok (map (fun kv => VStr (fst kv)) t) | _ => Exc TypeError end.
Definition model_part (repr : val -> string) (name : val) (sel : table) (n : list val) : res string :=
  l <- (v <- item "mode_l" (VTab sel) ; elements v) ; m <- (v <- item "mode_m" (VTab sel) ; elements v) ;
  Ok ("_" ++ py_str repr name ++ "_n" ++ joined repr "_" n ++ "_l" ++ joined repr "_" l ++ "_m" ++ joined repr "_" m).
(** v[:-1] and '/'.join: every element must be a string *)
Definition strings_of (l : list val) : res (list string) := mapM (fun v => match v with VStr s => Ok s | _ => Exc TypeError end) l.
Definition mesa_part (v : val) : res string :=
  l <- (match v with VArr l | VTup l => Ok (removelast l) | VStr s => Ok (removelast (chars s)) | _ => Exc TypeError end) ;
  t <- strings_of l ; Ok (Saver_Model.join "/" t).
(** the text of the path before pathlib normalises it *)
Definition figure_base (mesa rot : string) : string := "./figure_output/profiles_isolated_mode_triads" ++ "/" ++ mesa ++ "/" ++ rot.
Definition figure_file (base name sub part suffix : string) : string := base ++ "/" ++ sub ++ "/" ++ name ++ part ++ "." ++ suffix.

(** ** Runs *)
Definition disk := string -> option Saver_Model.file.
Definition written (d : disk) (p : string) (f : option Saver_Model.file) : disk := fun q => if String.eqb q p then f else d q.
(** what the solver asks the model loader for *)
Record request := { q_wiring : wiring; q_l : list Z; q_m : list Z }.
Section Runs.
Variable repr : val -> string.
Variables data coupler : Type.
(** the world outside: files and numerical components, told what the wiring says *)
Record world := {
  w_folders : table -> res table;
  w_orders : list Z -> list Z -> list Z * list Z * list Z * list Z;
  w_load : request -> option (R * R) -> Solver_Model.orders -> res data;
  w_handler : source -> data -> res Solver_Model.handler;
  w_nonadiabatic : Solver_Model.handler -> data -> res Solver_Model.handler;
  w_two_mode : data -> res bool;
  w_stationary : val -> data -> Solver_Model.handler -> bool -> res bool;
  w_selection : val -> data -> res bool;
  w_coupler : source -> table -> data -> Solver_Model.handler -> res coupler;
  w_coupled : coupler -> Saver_Model.coupled;
  w_jacobian : bool -> Solver_Model.handler -> R -> res bool;
  w_lag : data -> list C; w_xir : data -> list C;
  w_disc : list val -> coupler -> res (list R * list R);
  w_tar : coupler -> Tar_Model.tar_input;
  w_profile : coupler -> res unit;     (* adiabatic_coupling_rot_profile *)
  w_kernels : coupler -> res (list string);   (* kernel figures: their file names *)
  w_m_sun : R; w_r_sun : R }.
Variable w : world.
Section Computation.
Variables (k : wiring) (l m : list Z) (cfg : Solver_Model.settings).
(** qb:338-422; the polytrope's mass and radius are evaluated before its files are read *)
Definition load_for (o : Solver_Model.orders) : res data :=
  if Solver_Model.polytrope cfg then s <- polytrope_scale (w_m_sun w) (w_r_sun w) k ; w_load w {| q_wiring := k; q_l := l; q_m := m |} (Some s) o
  else w_load w {| q_wiring := k; q_l := l; q_m := m |} None o.
Definition run_triads (os : list Solver_Model.orders) :=
  Solver_Model.grid_run cfg data coupler load_for (w_handler w (k_handler k)) (w_nonadiabatic w) (w_two_mode w) (w_stationary w (k_conj k)) (w_selection w (k_conj k))
    (w_coupler w (k_source k) (k_coupler k)) (w_coupled w) (w_jacobian w) (w_lag w) (w_xir w) (w_disc w (k_disc k)) os.
Definition one_triad (o : Solver_Model.orders) :=
  Solver_Model.compute_coupling_one_triad cfg data coupler load_for (w_handler w (k_handler k)) (w_nonadiabatic w) (w_two_mode w) (w_stationary w (k_conj k)) (w_selection w (k_conj k))
    (w_coupler w (k_source k) (k_coupler k)) (w_coupled w) (w_jacobian w) (w_lag w) (w_xir w) (w_disc w (k_disc k)) 0 o.
End Computation.
Definition cfg_of (k : wiring) : res Solver_Model.settings :=
  p <- item "_polytrope_comp" (VTab (k_attributes k)) ; ad <- (v <- item "_adiabatic" (VTab (k_attributes k)) ; as_bool v) ;
  st <- item "_stat_solv" (VTab (k_attributes k)) ; rot <- item "_use_rot_formalism" (VTab (k_attributes k)) ;
  Ok (Solver_Model.mkSettings (truthy p) ad (truthy st) (truthy rot)).
Variables argv inlist_path : val.
Variable toml : bool.
(** sq:511-546, 577-580: constructor and call of the grid solver *)
Definition grid_results (lv : level) (s : settings) : res (wiring * list Z * list Z * list Solver_Model.orders * Solver_Model.state data coupler) :=
  ak <- grid_solver repr (w_folders w) argv inlist_path toml lv s ; let '(a, k) := ak in
  g <- grid_modes (w_orders w) a ;
  l <- as_Zs (g_l g) ; m <- as_Zs (g_m g) ; cfg <- cfg_of k ;
  let (st, r) := run_triads k l m cfg (g_orders g) (Solver_Model.fresh data coupler (List.length (g_orders g))) in
  _ <- r ; Ok (k, l, m, g_orders g, st).
(** sq:583-601 *)
Definition save_grid (d : disk) (s : settings) (name : val) (k : wiring) (l m : list Z) (os : list Solver_Model.orders) (st : Solver_Model.state data coupler) : disk * res unit :=
  match (p <- item "polytrope_comp" (VTab (mode_computation s)) ;
         f <- saver_file repr (save_info s) p name (map (fun lm => (fst lm - Z.abs (snd lm))%Z) (combine l m)) m ;
         c <- saver_config k l m ; r <- Solver_Model.read_solver c os st ; Ok (f, r)) with
  | Ok (f, r) => let (f', u) := Saver_Model.store_results 3 Saver_Model.Write (d f) r in (written d f f', u)
  | Exc e => (d, Exc e)
  | UB => (d, UB)
  end.
(** qp:322-693: figures saved before the run ends, and how it ends *)
Definition figures := list string.
Definition profile_results (k : wiring) (args sel : table) (l m : list Z) (cfg : Solver_Model.settings) (o : Solver_Model.orders) (n : list val) : figures * res unit :=
  let (st, r) := one_triad k l m cfg o (Solver_Model.fresh data coupler 1) in
  match (_ <- r ;
         _ <- (match Solver_Model.s_coupler _ _ st with Some c => w_profile w c | None => Ok tt end) ;
         z <- Tar_Model.masking_info (option_map (w_tar w) (Solver_Model.s_coupler _ _ st)) ;
         name <- item "save_name" (VTab args) ; part <- model_part repr name sel n ;
         sub <- item "mesa_profile_substrings" (VTab (info (k_setup k))) ; mesa <- mesa_part sub ;
         rot <- item "_rot_pct" (VTab (k_attributes k)) ;
         c <- (match Solver_Model.s_coupler _ _ st with Some c => Ok c | None => Exc AttributeError end) ;
         tt <- item "view_term_by_term" (VTab args) ; vk <- item "view_kernels" (VTab args) ;
         Ok (figure_base mesa ("rot_" ++ py_str repr rot), part, c, truthy tt, truthy vk)) with
  | Exc e => ([], Exc e)
  | UB => ([], UB)
  | Ok (base, part, c, terms, kernels) =>
      let two := [figure_file base "cc_profile_single" "coupling_coefficient" part "pdf"; figure_file base "cc_profile" "coupling_coefficient" part "png"] in
      match snd (Solver_Model.three_mode_stationary data coupler (w_coupled w) true 0 st) with
      | Exc e => (two, Exc e)
      | UB => (two, UB)
      | Ok _ =>
          let three := (two ++ (if terms : bool then [figure_file base "cc_contributions_profile" "coupling_coefficient_contributions" part "png"] else []))%list in
          if kernels : bool then
            match w_kernels w c with
            | Ok fs => ((three ++ fs)%list, Exc SystemExit)
            | Exc e => (three, Exc e)
            | UB => (three, UB)
            end
          else (three, Exc SystemExit)
      end
  end.
Definition profile_run (lv : level) (s : settings) (name : val) : figures * res unit :=
  match (ak <- profile_solver repr (w_folders w) argv inlist_path toml lv s name ; let '(a, k) := ak in
         sv <- item "cc_profile_selection_dict" (VTab a) ;
         sel <- (match sv with VTab t => Ok t | _ => Exc TypeError end) ;
         n1 <- item "parent_n" (VTab sel) ; n2 <- item "daughter_1_n" (VTab sel) ; n3 <- item "daughter_2_n" (VTab sel) ;
         o1 <- as_Z n1 ; o2 <- as_Z n2 ; o3 <- as_Z n3 ;
         l <- (v <- item "mode_l" (VTab sel) ; as_Zs v) ; m <- (v <- item "mode_m" (VTab sel) ; as_Zs v) ; cfg <- cfg_of k ;
         Ok (a, k, sel, l, m, cfg, (o1, o2, o3), [n1; n2; n3])) with
  | Ok (a, k, sel, l, m, cfg, o, n) => profile_results k a sel l m cfg o n
  | Exc e => ([], Exc e)
  | UB => ([], UB)
  end.
(** sq:604-613 after the inlist has been read: the disk, the figures and how the run ends *)
Definition solve (lv : level) (d : disk) (s : settings) (name : val) : disk * figures * res unit :=
  match choose_action (comp s) with
  | Exc e => (d, [], Exc e)
  | UB => (d, [], UB)
  | Ok Grid =>
      match grid_results lv s with
      | Exc e => (d, [], Exc e)
      | UB => (d, [], UB)
      | Ok (k, l, m, os, st) => let (d', r) := save_grid d s name k l m os st in (d', [], r)
      end
  | Ok Profile => let (f, r) := profile_run lv s name in (d, f, match r with Ok _ => Ok tt | x => x end)
  end.
End Runs.

(** ** pp:88-121: hyperbolicity with the adjusted coupling coefficient *)
Definition printed_hyperbolicity (check : Stab_Model.mat -> bool) (two : bool) (g o : Stab_Model.vec) (q adjusted : R) : bool :=
  check (if two then Stab_Model.jac3 g o q adjusted else Stab_Model.jac4 g o q adjusted).
