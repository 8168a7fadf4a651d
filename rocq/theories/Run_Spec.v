(** * What the settings of the inlist are for, independently of the code (documentation: inlists/inlist.toml, docstrings). *)
From Coq Require Import List ZArith String Bool.
From Verif Require Import Parser_Model Parser_Spec Setup_Model Run_Model.
From Verif Require Saver_Model.
Import ListNotations.
Local Open Scope string_scope.

(** the value of a parameter: what the inlist says at a position, or a constant *)
Inductive origin := Inlist (position : string) | Constant (v : val).
Definition comes_from (d : val) (o : origin) (v : val) : Prop := match o with Inlist pos => setting d pos v | Constant c => v = c end.
(** a component was told the documented values *)
Definition told (d : val) (t : table) (doc : list (string * origin)) : Prop := forall p o, In (p, o) doc -> exists v, has t p v /\ comes_from d o v.

(** parameters of the coupling-coefficient computation that do not depend on the kind of modes *)
Definition doc_coupler_common : list (string * origin) :=
  [("use_brunt_def", Inlist "coupling_coefficient.brunt_def_profiles"); ("use_symbolic_derivatives", Inlist "coupling_coefficient.symbolic_profiles");
   ("nr_omp_threads", Constant (VInt 4)); ("use_parallel", Inlist "computation.parallel_mode_coupling");
   ("numerical_integration_method", Inlist "computation.integration_method"); ("store_debug", Inlist "verbosity-debug.get_debug_info");
   ("use_cheby_integration", Inlist "computation.angular.use_cheby"); ("cheby_order_multiplier", Inlist "computation.angular.cheby_mul");
   ("cheby_blow_up_protection", Inlist "computation.angular.blow_up_protect"); ("cheby_blow_up_factor", Inlist "computation.angular.blow_up_fac")].
Definition doc_coupler (s : source) : list (string * origin) :=
  (doc_coupler_common ++
  match s with
  | Polytropic => [("polytropic", Constant (VBool true)); ("use_complex", Constant (VBool false)); ("analytic_polytrope", Inlist "coupling_coefficient.analytic_polytrope")]
  | Adiabatic => [("polytropic", Constant (VBool false)); ("use_complex", Constant (VBool false)); ("analytic_polytrope", Constant (VBool false))]
  | NonAdiabatic => [("polytropic", Constant (VBool false)); ("use_complex", Inlist "coupling_coefficient.use_complex"); ("analytic_polytrope", Constant (VBool false))]
  end)%list.
(** limb darkening, integration method, threads, parallel computation of the disc integrals *)
Definition doc_disc : list origin :=
  [Constant (VStr "eddington"); Inlist "computation.integration_method"; Constant (VInt 4); Inlist "computation.parallel_mode_coupling"].
(** the rest of what the solver keeps *)
Definition doc_solver : list (string * origin) :=
  [("_polytrope_comp", Inlist "coupling_coefficient.compute_for_polytrope"); ("_adiabatic", Inlist "coupling_coefficient.adiabatic");
   ("_polytrope_mass", Inlist "POLY_model.mass"); ("_polytrope_radius", Inlist "POLY_model.radius"); ("_rot_pct", Inlist "rotation.rot_percent");
   ("_use_rot_formalism", Inlist "rotation.rotating_formalism"); ("_stat_solv", Constant (VBool true)); ("_display_progress_bars", Inlist "computation.display_progress");
   ("_numerical_integration_method", Inlist "computation.integration_method"); ("_use_cheby", Inlist "computation.angular.use_cheby");
   ("_cheby_order_mul", Inlist "computation.angular.cheby_mul"); ("_cheby_blow_up", Inlist "computation.angular.blow_up_protect");
   ("_cheby_blow_up_fac", Inlist "computation.angular.blow_up_fac")].
(** where the information folders are looked up: section of the inlist that names the alternative *)
Definition doc_folders (section : string) (argv path : val) (toml : bool) : list (string * origin) :=
  [("alternative_directory_path", Inlist (section ++ ".alternative.directory_path")); ("alternative_file_name", Inlist (section ++ ".alternative.file_name"));
   ("sys_arguments", Constant argv); ("inlist_path", Constant path); ("toml_use", Constant (VBool toml)); ("called_from_pytest", Constant (VBool false)); ("pytest_file_path", Constant VNone)].
(** the kind of modes a run computes with *)
Definition kind_of (polytrope adiabatic : val) : source := if truthy polytrope then Polytropic else if truthy adiabatic then Adiabatic else NonAdiabatic.
(** an inlist that the solve script can read: the switches are an array, no table on the way to a setting is something else *)
Definition readable (d : val) (l : list val) : Prop :=
  at_path d ["coupling_coefficient"; "terms_cc_conj"] (VArr l) /\ forall pos, In pos all_positions -> exists v, setting d pos v.

(** The documented wiring of a run.  [section]: the part of the inlist that describes the modes, "GYRE_selection" or "POLY_selection". *)
Record wired (repr : val -> string) (d : val) (l : list val) (argv path : val) (toml : bool) (poly_section : bool) (folders : table) (k : wiring) : Prop := {
  wd_kind : exists p ad, setting d "coupling_coefficient.compute_for_polytrope" p /\ setting d "coupling_coefficient.adiabatic" ad /\
    k_source k = kind_of p ad /\ k_handler k = kind_of p ad /\
    (* the polytrope option also decides whether there is a directory of non-adiabatic modes *)
    (truthy p = true <-> nad_dir (k_setup k) = None);
  wd_coupler : told d (k_coupler k) (doc_coupler (k_source k));
  (* the conjugation switches: no switches are (True, False, False) in the coupling coefficient, but not in the selection rules *)
  wd_conj : has (k_coupler k) "conj_cc" (match l with [] => VTup [VBool true; VBool false; VBool false] | _ => VTup l end) /\ k_conj k = VArr [VTup l];
  wd_disc : Forall2 (comes_from d) doc_disc (k_disc k);
  wd_solver : told d (k_attributes k) doc_solver;
  wd_folders : told d (k_folders k) (doc_folders (if poly_section then "POLY_selection" else "GYRE_selection") argv path toml);
  wd_info : forall n v, n <> "gyre_base_dir" -> n <> "gyre_output_dir" -> has folders n v -> has (info (k_setup k)) n v;
  wd_modes : exists rot base a n, setting d "rotation.rot_percent" rot /\
    setting d (if poly_section then "POLY_selection.mode_path" else "GYRE_selection.gyre_dir_path") base /\
    setting d (if poly_section then "POLY_selection.specifier.modes" else "GYRE_selection.specifier.adiabatic") a /\
    (if poly_section then n = VNone else setting d "GYRE_selection.specifier.nonadiabatic" n) /\
    (* the directories, with the defaults of the documentation *)
    ad_dir (k_setup k) = (py_str repr base ++ (match a with VNone => "output_rot_" ++ py_str repr rot | _ => py_str repr a end) ++ "/") /\
    (forall x, nad_dir (k_setup k) = Some x -> x = (py_str repr base ++ (match n with VNone => "output_nad_rot_" ++ py_str repr rot | _ => py_str repr n end) ++ "/")) }.

(** a value Python accepts as a whole number *)
Definition whole (v : val) (z : Z) : Prop := v = VInt z \/ exists b, v = VBool b /\ z = (if b then 1 else 0)%Z.
Definition not_whole (v : val) : Prop := forall z, ~ whole v z.

(** An inlist for a profile: its action, triad, kind of modes, rotation and switches. *)
Record profile_inlist (d : val) (n l m : list Z) (p : val) (ad : bool) (rf rot terms kernels : val) : Prop := {
  pi_action : exists cg cp, setting d "computation.compute_grid_models" cg /\ truthy cg = false /\ setting d "computation.compute_coefficient_profile" cp /\ truthy cp = true;
  pi_n : Forall2 (setting d) ["mode_info.coupling.parent.n"; "mode_info.coupling.daughter_1.n"; "mode_info.coupling.daughter_2.n"] (map VInt n);
  pi_l : Forall2 (setting d) doc_l (map VInt l); pi_m : Forall2 (setting d) doc_m (map VInt m);
  pi_p : setting d "coupling_coefficient.compute_for_polytrope" p; pi_ad : setting d "coupling_coefficient.adiabatic" (VBool ad);
  pi_rf : setting d "rotation.rotating_formalism" rf; pi_rot : setting d "rotation.rot_percent" rot;
  pi_terms : setting d "plotting.profile.show_term_by_term" terms; pi_kernels : setting d "plotting.profile.show_kernels" kernels }.
(** a figure of a profile run: directory of the stellar model, rotation, kind of figure, save name, quantum numbers *)
Definition numbers (l : list Z) : string := Saver_Model.join "_" (map Saver_Model.str_of_Z l).
Definition figure (mesa : list string) (rot directory kind name : string) (n l m : list Z) (ending : string) : string :=
  "./figure_output/profiles_isolated_mode_triads/" ++ Saver_Model.join "/" mesa ++ "/rot_" ++ rot ++ "/" ++ directory ++ "/" ++
  kind ++ "_" ++ name ++ "_n" ++ numbers n ++ "_l" ++ numbers l ++ "_m" ++ numbers m ++ "." ++ ending.
