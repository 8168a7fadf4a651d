(** * What the inlist lookups of the run scripts should mean, independently of the code. *)
From Coq Require Import List ZArith QArith Ascii String Bool.
From Verif Require Import Inlist_Model Parser_Model.
Import ListNotations.
Local Open Scope string_scope.

(** key k of a table has value v (a dictionary has one value per key: the first occurrence counts) *)
Definition has (t : table) (k : string) (v : val) : Prop := exists a b, t = (a ++ (k, v) :: b)%list /\ ~ In k (map fst a).
Definition lacks (t : table) (k : string) : Prop := ~ In k (map fst t).
(** following the keys from value d leads to value v *)
Inductive at_path : val -> list string -> val -> Prop :=
| here : forall v, at_path v [] v
| below : forall t k ks v w, has t k w -> at_path w ks v -> at_path (VTab t) (k :: ks) v.
(** values that cannot be searched: None and numbers *)
Definition unsearchable (v : val) : Prop :=
  v = VNone \/ (exists b, v = VBool b) \/ (exists z, v = VInt z) \/ (exists q, v = VFloat q).
Definition is_table (v : val) : Prop := exists t, v = VTab t.

(** "a.b.c" as a list of keys *)
Fixpoint undot (s : string) : list string :=
  match s with
  | EmptyString => [""]
  | String c s' => if Ascii.eqb c "." then "" :: undot s'
                   else match undot s' with [] => [String c ""] | w :: ws => String c w :: ws end
  end.
(** the value written in the inlist at the dotted position; nothing there is None.  The tables on the way must exist. *)
Inductive setting (d : val) (position : string) : val -> Prop :=
| written_there : forall v, at_path d (undot position) v -> setting d position v
| nothing_there : forall pre k post t, undot position = (pre ++ k :: post)%list -> at_path d pre (VTab t) -> lacks t k -> setting d position VNone.

(** where the documentation (inlists/inlist.toml) puts what the solve run uses: name passed on, position in the inlist *)
Definition doc_mode_info := [("rot_pct", "rotation.rot_percent"); ("base_dir", "GYRE_selection.gyre_dir_path");
  ("alternative_directory_path", "GYRE_selection.alternative.directory_path"); ("alternative_file_name", "GYRE_selection.alternative.file_name");
  ("verbose", "verbosity-debug.verbose"); ("debug", "verbosity-debug.debug")].
Definition doc_poly_select := [("rot_pct", "rotation.rot_percent"); ("base_dir", "POLY_selection.mode_path");
  ("alternative_directory_path", "POLY_selection.alternative.directory_path"); ("alternative_file_name", "POLY_selection.alternative.file_name");
  ("verbose", "verbosity-debug.verbose"); ("debug", "verbosity-debug.debug")].
Definition doc_mode_selection := [("driven_n_low", "mode_info.parent.n.low"); ("driven_n_high", "mode_info.parent.n.high");
  ("damped_n_low1", "mode_info.daughter_1.n.low"); ("damped_n_high1", "mode_info.daughter_1.n.high");
  ("damped_n_low2", "mode_info.daughter_2.n.low"); ("damped_n_high2", "mode_info.daughter_2.n.high")].
Definition doc_mode_computation := [("adiabatic", "coupling_coefficient.adiabatic"); ("use_complex", "coupling_coefficient.use_complex");
  ("use_symbolic_profiles", "coupling_coefficient.symbolic_profiles"); ("use_brunt_def", "coupling_coefficient.brunt_def_profiles");
  ("use_rotating_formalism", "rotation.rotating_formalism"); 
  ("polytrope_comp", "coupling_coefficient.compute_for_polytrope"); ("analytic_polytrope", "coupling_coefficient.analytic_polytrope")].
Definition doc_comp := [("use_parallel", "computation.parallel_mode_coupling"); ("compute_grid", "computation.compute_grid_models");
  ("compute_profile", "computation.compute_coefficient_profile"); ("progress_bars", "computation.display_progress")].
Definition doc_save := [("base_dir", "saving.solve.base_dir"); ("save_dir", "saving.solve.save_dir"); ("extra_specifier", "saving.solve.extra_specifier");
  ("initial_save_format", "saving.solve.save_format")].
Definition doc_poly_model := [("polytrope_mass", "POLY_model.mass"); ("polytrope_radius", "POLY_model.radius")].
Definition doc_angular := [("numerical_integration_method", "computation.integration_method"); ("use_cheby_integration", "computation.angular.use_cheby");
  ("cheby_order_multiplier", "computation.angular.cheby_mul"); ("cheby_blow_up_protection", "computation.angular.blow_up_protect");
  ("cheby_blow_up_factor", "computation.angular.blow_up_fac")].
Definition doc_selection := [("parent_n", "mode_info.coupling.parent.n"); ("daughter_1_n", "mode_info.coupling.daughter_1.n");
  ("daughter_2_n", "mode_info.coupling.daughter_2.n")].
Definition doc_plot := [("view_kernels", "plotting.profile.show_kernels"); ("view_term_by_term", "plotting.profile.show_term_by_term")].
(** a dictionary holds the documented settings, and nothing else but the extra names *)
Definition holds (d : val) (t : table) (doc : list (string * string)) (extra : list string) : Prop :=
  (forall n pos, In (n, pos) doc -> exists v, has t n v /\ setting d pos v) /\
  (forall n, In n (map fst t) -> In n (map fst doc) \/ In n extra).
Definition doc_l := ["mode_info.parent.l"; "mode_info.daughter_1.l"; "mode_info.daughter_2.l"].
Definition doc_m := ["mode_info.parent.m"; "mode_info.daughter_1.m"; "mode_info.daughter_2.m"].
(** all positions read *)
Definition all_positions := (map snd (doc_mode_info ++ doc_poly_select ++ doc_mode_selection ++ doc_mode_computation ++ doc_comp ++ doc_save ++ doc_poly_model
  ++ doc_angular ++ doc_selection ++ doc_plot) ++ doc_l ++ doc_m ++
  ["GYRE_selection.specifier.adiabatic"; "GYRE_selection.specifier.nonadiabatic"; "POLY_selection.specifier.modes"; "verbosity-debug.get_debug_info"])%list.

(** file names: the part before the first dot and the part after the last one *)
Definition dots (s : text) : nat := count_occ ascii_dec s "."%char.
Definition before_first_dot (s w : text) : Prop := (~ In "."%char s /\ w = s) \/ exists r, s = (w ++ "."%char :: r)%list /\ ~ In "."%char w.
Definition after_last_dot (s w : text) : Prop := (~ In "."%char s /\ w = s) \/ exists r, s = (r ++ "."%char :: w)%list /\ ~ In "."%char w.
(** the text p occurs in s *)
Definition within (p s : text) : Prop := exists a b, s = (a ++ p ++ b)%list.
(** the values that count as false in a condition *)
Definition falsy (v : val) : Prop :=
  v = VNone \/ v = VBool false \/ v = VInt 0 \/ (exists q, v = VFloat q /\ (q == 0)%Q) \/ v = VStr "" \/ v = VArr [] \/ v = VTup [] \/ v = VTab [].
(** looking for a file: relative to the working directory first, then relative to the directory of the script *)
Definition found (from_cwd from_script : string -> option path) (name : string) (p : path) : Prop :=
  from_cwd name = Some p \/ (from_cwd name = None /\ from_script name = Some p).
