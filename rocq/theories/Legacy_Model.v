(** * Model of the older solver class, which serves both grids and profiles and is still exported (as QuadRotAESolver).
    Sources: aesolver/aesolver/solver/quadratic_solver.py (qs), aesolver/aesolver/solver/__init__.py 6.
    The methods for one triad (qs:567-900, 921-1096, 1154-1256) and for the zones of the traditional approximation (qs:1258-1451)
    are word for word those of solver_base_classes/quadratic_solver.py and quadratic_profile.py, modelled in Solver_Model,
    Run_Model and Tar_Model, and are taken from there.
    Simplifications: as in Run_Model; flags are booleans; indices given to methods are natural numbers; on an object made for a
    profile an index other than 0 raises before anything is loaded (the code loads and computes the triad first, and raises when it
    stores the result); figures are their file names. *)
From Coq Require Import Reals QArith List ZArith String Bool.
From Coquelicot Require Import Coquelicot.
From Verif Require Import Base Py Inlist_Model Parser_Model Setup_Model Run_Model.
From Verif Require Saver_Model Solver_Model Tar_Model.
Import ListNotations.
Local Open Scope string_scope.

(** ** Constructor *)
(** qs:182-221 *)
Definition legacy_sig : signature :=
  [("sys_args", None); ("cc_profile_selection_dict", None); ("called_from_pytest", F); ("pytest_path", No); ("rot_pct", Some (VInt 20)); ("use_complex", F); ("adiabatic", T);
   ("use_rotating_formalism", T); ("base_dir", No); ("alternative_directory_path", No); ("alternative_file_name", No); ("use_symbolic_profiles", T);
   ("use_brunt_def", T); ("mode_selection_dict", No); ("recompute_for_profile", F); ("nr_omp_threads", Some (VInt 4)); ("use_parallel", F); ("ld_function", Some (VStr "eddington"));
   ("numerical_integration_method", Some (VStr "trapz")); ("use_cheby_integration", F); ("cheby_order_multiplier", Some (VInt 4));
   ("cheby_blow_up_protection", F); ("cheby_blow_up_factor", Some (VFloat 1000)); ("stationary_solving", T); ("ad_path", No); ("nad_path", No);
   ("inlist_path", No); ("toml_use", F); ("get_debug_info", F); ("terms_cc_conj", No); ("polytrope_comp", F); ("analytic_polytrope", F);
   ("polytrope_mass", Some (VFloat 3)); ("polytrope_radius", Some (VFloat (9 # 2))); ("save_name", Some (VStr "")); ("compute_grid", F); ("compute_profile", F)].
(** qs:254-307: attribute, parameter *)
Definition legacy_stored : list (string * string) :=
  [("_nr_omp_threads", "nr_omp_threads"); ("_use_parallel", "use_parallel"); ("_numerical_integration_method", "numerical_integration_method");
   ("_use_cheby", "use_cheby_integration"); ("_cheby_order_mul", "cheby_order_multiplier"); ("_cheby_blow_up", "cheby_blow_up_protection");
   ("_cheby_blow_up_fac", "cheby_blow_up_factor"); ("_get_debug_info", "get_debug_info"); ("_polytrope_comp", "polytrope_comp");
   ("_analytic_polytrope", "analytic_polytrope"); ("_polytrope_mass", "polytrope_mass"); ("_polytrope_radius", "polytrope_radius");
   ("_ld_function", "ld_function"); ("_stat_solv", "stationary_solving"); ("_rot_pct", "rot_pct"); ("_use_rot_formalism", "use_rotating_formalism");
   ("_use_symbolic_profiles", "use_symbolic_profiles"); ("_use_brunt_def", "use_brunt_def"); ("_use_complex", "use_complex"); ("_adiabatic", "adiabatic");
   ("_terms_cc_conj", "terms_cc_conj"); ("_recompute_for_profile", "recompute_for_profile"); ("_inlist_path", "inlist_path")].
(** qs:254-326, and the values handed on by qs:594-676, 860-897, 1186-1228 *)
Definition legacy_wiring (repr : val -> string) (read_folders : table -> res table) (a : table) : res wiring :=
  t <- renamed a legacy_stored ;
  p <- item "polytrope_comp" (VTab a) ; rot <- item "rot_pct" (VTab a) ; base <- item "base_dir" (VTab a) ; ad <- item "ad_path" (VTab a) ; nad <- item "nad_path" (VTab a) ;
  fa <- renamed a [("sys_arguments", "sys_args"); ("alternative_directory_path", "alternative_directory_path"); ("alternative_file_name", "alternative_file_name");
     ("toml_use", "toml_use"); ("inlist_path", "inlist_path"); ("called_from_pytest", "called_from_pytest"); ("pytest_file_path", "pytest_path")] ;
  f <- read_folders fa ;
  s <- solver_setup repr (truthy p) rot base ad nad f ;
  c <- coupler_call t ;
  pc <- item "_polytrope_comp" (VTab t) ; ac <- item "_adiabatic" (VTab t) ; conj <- item "_terms_cc_conj" (VTab t) ;
  disc <- values t ["_ld_function"; "_numerical_integration_method"; "_nr_omp_threads"; "_use_parallel"] ;
  Ok {| k_attributes := t; k_setup := s; k_source := fst c; k_coupler := snd c;
        k_handler := if truthy pc then Polytropic else if truthy ac then Adiabatic else NonAdiabatic;
        k_conj := match conj with VNone => VNone | _ => VArr [conj] end; k_disc := disc; k_folders := fa |}.
(** what an object was made for: the triads of a grid (qs:229-248), or one triad named by a dictionary (qs:249-252) *)
Inductive purpose := ForGrid (l m : list Z) (os : list Solver_Model.orders) | ForProfile (sel : val).

Section Legacy.
Variable repr : val -> string.
Variables data coupler : Type.
Variable w : world data coupler.

(** attributes: fixed ones, those of one triad and the result lists, and those that are read by some method or property *)
Record object := mkObject {
  b_purpose : purpose; b_wiring : wiring; b_cfg : Solver_Model.settings; b_name : val;
  b_state : Solver_Model.state data coupler;
  b_orders : option (list val);          (* _rad_tup_profile *)
  b_profile : option coupler;            (* _coupling_profile: that of this coupling object *)
  b_rates : option (list R);             (* _driving_rates *)
  b_products : option (list R) }.        (* _quality_factor_products *)
(** qs:222-350; [flags] (compute_grid, compute_profile) are looked at first, the information folders are read last *)
Definition construct (argv : val) (kw : table) : res object :=
  a <- call legacy_sig [argv] kw ;
  cg <- (v <- item "compute_grid" (VTab a) ; as_bool v) ; cp <- (v <- item "compute_profile" (VTab a) ; as_bool v) ;
  if negb cg && negb cp then Exc RuntimeError
  else if cg && cp then Exc RuntimeError
  else
    pn <- (if cg : bool then g <- grid_modes (w_orders _ _ w) a ; l <- as_Zs (g_l g) ; m <- as_Zs (g_m g) ; Ok (ForGrid l m (g_orders g), List.length (g_orders g))
           else sel <- item "cc_profile_selection_dict" (VTab a) ; Ok (ForProfile sel, 1%nat)) ;
    k <- legacy_wiring repr (w_folders _ _ w) a ; cfg <- cfg_of k ; name <- item "save_name" (VTab a) ;
    Ok (mkObject (fst pn) k cfg name (Solver_Model.fresh data coupler (snd pn)) None None None None).

(** ** Methods: the object afterwards, the figures saved, and how the method ends *)
Definition figures := list string.
Definition L (A : Type) := object -> object * figures * res A.
Definition retL {A} (a : A) : L A := fun b => (b, [], Ok a).
Definition raise {A} (e : exn) : L A := fun b => (b, [], Exc e).
Definition liftL {A} (r : res A) : L A := fun b => (b, [], r).
Definition bindL {A B} (m : L A) (k : A -> L B) : L B :=
  fun b => let '(b1, f1, r) := m b in
    match r with Ok a => let '(b2, f2, r2) := k a b1 in (b2, (f1 ++ f2)%list, r2) | Exc e => (b1, f1, Exc e) | UB => (b1, f1, UB) end.
Notation "x <-- m ; k" := (bindL m (fun x => k)) (at level 60, m at next level, right associativity).
Definition getL {A} (f : object -> A) : L A := fun b => (b, [], Ok (f b)).
Definition attr {A} (f : object -> option A) : L A := o <-- getL f ; match o with Some a => retL a | None => raise AttributeError end.
Definition save (name : string) : L unit := fun b => (b, [name], Ok tt).
Definition save_all (names : list string) : L unit := fun b => (b, names, Ok tt).
Definition set_orders n b := mkObject (b_purpose b) (b_wiring b) (b_cfg b) (b_name b) (b_state b) (Some n) (b_profile b) (b_rates b) (b_products b).
Definition set_profile c b := mkObject (b_purpose b) (b_wiring b) (b_cfg b) (b_name b) (b_state b) (b_orders b) (Some c) (b_rates b) (b_products b).
Definition set_state s b := mkObject (b_purpose b) (b_wiring b) (b_cfg b) (b_name b) s (b_orders b) (b_profile b) (b_rates b) (b_products b).
Definition put (f : object -> object) : L unit := fun b => (f b, [], Ok tt).
(** a computation on the part of the object that Solver_Model describes *)
Definition inner {A} (m : Solver_Model.M data coupler A) : L A := fun b => let (s, r) := m (b_state b) in (set_state s b, [], r).

(** qs:498-518: the triad to load: degrees, orders and radial orders; the radial orders of a profile are kept *)
Definition target (i : nat) : L (list Z * list Z * Solver_Model.orders) :=
  p <-- getL b_purpose ;
  match p with
  | ForGrid l m os => match nth_error os i with Some o => retL (l, m, o) | None => raise IndexError end
  | ForProfile sel =>
      if (i =? 0)%nat then
        t <-- liftL (match sel with VTab t => Ok t | _ => Exc TypeError end) ;
        n1 <-- liftL (item "parent_n" (VTab t)) ; n2 <-- liftL (item "daughter_1_n" (VTab t)) ; n3 <-- liftL (item "daughter_2_n" (VTab t)) ;
        _ <-- put (set_orders [n1; n2; n3]) ;
        o1 <-- liftL (as_Z n1) ; o2 <-- liftL (as_Z n2) ; o3 <-- liftL (as_Z n3) ;
        l <-- liftL (v <- item "mode_l" (VTab t) ; as_Zs v) ; m <-- liftL (v <- item "mode_m" (VTab t) ; as_Zs v) ;
        retL (l, m, (o1, o2, o3))
      else raise IndexError
  end.
(** qs:487-565: only loading *)
Definition load_nonradial_mode_triad (i : nat) : L unit :=
  t <-- target i ; let '(l, m, o) := t in
  k <-- getL b_wiring ; cfg <-- getL b_cfg ;
  d <-- liftL (load_for data coupler w k l m cfg o) ; inner (Solver_Model.modify _ _ (Solver_Model.set_data _ _ d)).
(** qs:1132-1229 *)
Definition compute_coupling_one_triad (i : nat) : L bool :=
  t <-- target i ; let '(l, m, o) := t in
  k <-- getL b_wiring ; cfg <-- getL b_cfg ;
  inner (Solver_Model.compute_coupling_one_triad cfg data coupler (load_for data coupler w k l m cfg) (w_handler _ _ w (k_handler k)) (w_nonadiabatic _ _ w) (w_two_mode _ _ w)
    (w_stationary _ _ w (k_conj k)) (w_selection _ _ w (k_conj k)) (w_coupler _ _ w (k_source k) (k_coupler k)) (w_coupled _ _ w) (w_jacobian _ _ w)
    (w_lag _ _ w) (w_xir _ _ w) (w_disc _ _ w (k_disc k)) i o).
(** qs:399-423 *)
Definition call_grid_computations (i : nat) : L unit :=
  pre <-- compute_coupling_one_triad i ; cfg <-- getL b_cfg ;
  if Solver_Model.polytrope cfg then inner (Solver_Model.modify _ _ (Solver_Model.set_stat _ _ i None))
  else d <-- inner (Solver_Model.three_mode_stationary data coupler (w_coupled _ _ w) pre i) ; inner (Solver_Model.modify _ _ (Solver_Model.set_stat _ _ i (Some d))).
Fixpoint each (f : nat -> L unit) (is : list nat) : L unit := match is with [] => retL tt | i :: is' => _ <-- f i ; each f is' end.
(** qs:1853-1866; an object made for a profile has None in place of the mode information *)
Definition store_relevant_statistics : L unit :=
  p <-- getL b_purpose ;
  match p with ForGrid _ _ os => inner (Solver_Model.store_statistics data coupler 0 os) | ForProfile _ => raise AttributeError end.
(** qs:897-919; None in the state stands for an attribute that is None and for one that is unassigned; coupling information is stored
    just after the attribute is assigned, which tells them apart *)
Definition unassigned (b : object) : bool :=
  match Solver_Model.s_coupler _ _ (b_state b) with
  | Some _ => false
  | None => forallb (fun x : option (list Saver_Model.cell) => match x with None => true | Some _ => false end) (Solver_Model.l_couple _ _ (b_state b))
  end.
Definition compute_coupling_coefficient_profile : L unit :=
  u <-- getL unassigned ; c <-- getL (fun b => Solver_Model.s_coupler _ _ (b_state b)) ;
  if u : bool then raise AttributeError else
  match c with None => retL tt | Some c => _ <-- liftL (w_profile _ _ w c) ; put (set_profile c) end.
(** qs:1453-1851 *)
Definition compute_mode_triad_profile (terms kernels : bool) : L unit :=
  _ <-- compute_coupling_one_triad 0 ;
  _ <-- compute_coupling_coefficient_profile ;
  c' <-- getL (fun b => Solver_Model.s_coupler _ _ (b_state b)) ;
  _ <-- liftL (Tar_Model.masking_info (option_map (w_tar _ _ w) c')) ;
  name <-- getL b_name ; p <-- getL b_purpose ; n <-- attr b_orders ;
  part <-- liftL (match p with ForProfile (VTab sel) => model_part repr name sel n | _ => Exc TypeError end) ;
  k <-- getL b_wiring ;
  sub <-- liftL (item "mesa_profile_substrings" (VTab (info (k_setup k)))) ; mesa <-- liftL (mesa_part sub) ;
  rot <-- liftL (item "_rot_pct" (VTab (k_attributes k))) ;
  let base := figure_base mesa ("rot_" ++ py_str repr rot) in
  c <-- liftL (match c' with Some c => Ok c | None => Exc AttributeError end) ;
  _ <-- save (figure_file base "cc_profile_single" "coupling_coefficient" part "pdf") ;
  _ <-- save (figure_file base "cc_profile" "coupling_coefficient" part "png") ;
  _ <-- inner (Solver_Model.three_mode_stationary data coupler (w_coupled _ _ w) true 0) ;
  _ <-- (if terms then save (figure_file base "cc_contributions_profile" "coupling_coefficient_contributions" part "png") else retL tt) ;
  _ <-- (if kernels then fs <-- liftL (w_kernels _ _ w c) ; save_all fs else retL tt) ;
  raise SystemExit.
(** qs:352-397, with len(self._coupling_info) *)
Definition call_object (compute_grid compute_profile : bool) : L unit :=
  if compute_profile && compute_grid then raise InlistError
  else if compute_profile then compute_mode_triad_profile true true
  else if compute_grid then
    s <-- getL b_state ;
    _ <-- each call_grid_computations (seq 0 (List.length (Solver_Model.l_couple _ _ s))) ;
    store_relevant_statistics
  else raise InlistError.
(** qs:1068-1130: the coupling information of the triad, then the surface luminosity, then the products, which no method assigns *)
Definition print_mode_info (i : nat) : L unit :=
  slots <-- getL (fun b => Solver_Model.l_couple _ _ (b_state b)) ;
  match nth_error slots i with
  | Some (Some _) =>
      _ <-- attr (fun b => Solver_Model.s_lag _ _ (b_state b)) ; _ <-- attr b_products ; _ <-- attr b_rates ; retL tt
  | _ => raise IndexError
  end.

(** ** Public methods and properties *)
Inductive method := Call (compute_grid compute_profile : bool) | LoadTriad (i : nat) | OneTriad (i : nat) | CoefficientProfile
  | TriadProfile (terms kernels : bool) | Statistics | PrintInfo (i : nat).
Definition run_method (m : method) : L unit :=
  match m with
  | Call g p => call_object g p
  | LoadTriad i => load_nonradial_mode_triad i
  | OneTriad i => _ <-- compute_coupling_one_triad i ; retL tt
  | CoefficientProfile => compute_coupling_coefficient_profile
  | TriadProfile t k => compute_mode_triad_profile t k
  | Statistics => store_relevant_statistics
  | PrintInfo i => print_mode_info i
  end.
(** any sequence of method calls, exceptions being caught by the caller *)
Fixpoint history (ms : list method) (b : object) : object :=
  match ms with [] => b | m :: ms' => history ms' (fst (fst (run_method m b))) end.
(** qs:425-485 *)
Definition linear_driving_rates (b : object) : res (list R) := match b_rates b with Some r => Ok r | None => Exc AttributeError end.
Definition corot_mode_omegas (b : object) : res (list R) :=
  match Solver_Model.s_handler _ _ (b_state b) with Some h => Ok (Solver_Model.h_corot_w h) | None => Exc AttributeError end.
Definition coupling_profile (b : object) : res coupler := match b_profile b with Some c => Ok c | None => Exc AttributeError end.
End Legacy.
