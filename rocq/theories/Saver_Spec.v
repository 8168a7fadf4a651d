(** * Specification vocabulary for stored results. *)
From Coq Require Import Reals List String Ascii ZArith Bool.
From Verif Require Import Base Py Stab_Model PreCheck_Model Saver_Model.
Import ListNotations.
Local Open Scope string_scope.

(** an index within a shape; two arrays a reader cannot tell apart *)
Definition valid (sh idx : list nat) : Prop := Forall2 lt idx sh.
Definition same_array (a b : arr) : Prop :=
  adt a = adt b /\ shape a = shape b /\ forall idx, valid (shape a) idx -> at_ a idx = at_ b idx.
(** the dataset at an HDF5 path reads back as the array *)
Definition reads (f : file) (p : path) (a : arr) : Prop := exists b, obj f p = Some (Dset b) /\ same_array b a.
Definition no_dataset (f : file) (p : path) : Prop := forall a, obj f p <> Some (Dset a).

(** the dataset path a storage action writes to *)
Definition dpath (o : op) : option path :=
  match o with SetData g n _ => Some (split_path (g ++ "/" ++ n)) | SetAttr _ _ _ => None end.
Definition writes (l : list op) (p : path) : Prop := exists o, In o l /\ dpath o = Some p.

(** the groups an action makes on its way: the containers of its dataset, the group of its attribute *)
Definition groups (o : op) : list path :=
  match o with
  | SetData g n _ => proper_prefixes (split_path (g ++ "/" ++ n))
  | SetAttr g _ _ => if g =? "" then [] else split_path g :: proper_prefixes (split_path g)
  end.
Definition makes_group (l : list op) (p : path) : Prop := exists o, In o l /\ In p (groups o).

(** number of elements; "source fits into target" in the sense of array broadcasting: aligned at the last
    dimension, every source dimension is 1 or the target's *)
Definition size (a : arr) : nat := fold_right Nat.mul 1%nat (shape a).
Definition broadcasts (src dst : list nat) : Prop :=
  forall i, (i < List.length src)%nat -> nth i (rev src) 1%nat = 1%nat \/ ((i < List.length dst)%nat /\ nth i (rev src) 1%nat = nth i (rev dst) 1%nat).

(** ** What each dataset of a results file is meant to hold, per triad *)
Inductive content := Scalars (dt : dtype) (g : triad -> elt) | Rows (dt : dtype) (w : nat) (g : triad -> list elt).
Definition vec3 (g : triad -> list R) : content := Rows F64 3 (fun t => map Num (g t)).
Definition yes (b : bool) : elt := Num (if b then 1%R else 0%R).
Definition or_nan (o : option R) : elt := match o with Some r => Num r | None => NaN end.
Definition col (x : content) (ts : list triad) : arr :=
  match x with
  | Scalars dt g => mkArr dt [List.length ts] (fun idx => match idx with [i] => nth i (map g ts) Undef | _ => Undef end)
  | Rows dt w g => mkArr dt [List.length ts; w] (fun idx => match idx with [i; j] => nth j (nth i (map g ts) []) Undef | _ => Undef end)
  end.
Definition rate (t : triad) : vec := fun i => nth i (rates (t_stat t)) 0%R.
Definition couple_or_zero (g : coupled -> R) (t : triad) : elt := Num (match t_coupled t with Some c => g c | None => 0%R end).
Definition solved_field (g : solved -> R) (t : triad) : elt := or_nan (option_map g (s_solved (t_stat t))).
Definition solved_row (g : solved -> list R) (t : triad) : list elt :=
  map Num (match s_solved (t_stat t) with Some v => g v | None => [0; 0; 0]%R end).

(** adiabatic quantities, stored for every kind of model *)
Definition common_table (adiabatic : bool) : list (string * content) := [
  ("quantum_numbers/n", Rows I32 3 (fun t => let '(a, b, c) := t_orders t in [Num (IZR a); Num (IZR b); Num (IZR c)]));
  ("mode_frequency_info/inert_mode_freqs", vec3 (fun t => inert_f (t_freqs t)));
  ("mode_frequency_info/corot_mode_freqs", vec3 (fun t => corot_f (t_freqs t)));
  ("mode_frequency_info/inert_mode_omegas", vec3 (fun t => inert_w (t_freqs t)));
  ("mode_frequency_info/corot_mode_omegas", vec3 (fun t => corot_w (t_freqs t)));
  ("mode_frequency_info/inert_dimless_mode_freqs", vec3 (fun t => dless_inert_f (t_freqs t)));
  ("mode_frequency_info/corot_dimless_mode_freqs", vec3 (fun t => dless_corot_f (t_freqs t)));
  ("mode_frequency_info/inert_dimless_mode_omegas", vec3 (fun t => dless_inert_w (t_freqs t)));
  ("mode_frequency_info/corot_dimless_mode_omegas", vec3 (fun t => dless_corot_w (t_freqs t)));
  ("rotation/spin_factors", vec3 (fun t => spin (t_freqs t)));
  ("rotation/surface_rotation_frequency", Scalars F64 (fun t => Num (surf_rot (t_freqs t))));
  ("coupling/generic/|kappa|", Scalars F64 (couple_or_zero cc));
  ("coupling/generic/|kappa_norm|", Scalars F64 (couple_or_zero ncc));
  ("coupling/generic/|eta|", Scalars F64 (couple_or_zero elcc));
  ("coupling/generic/adiabatic", Scalars B8 (fun _ => yes adiabatic));
  ("coupling/generic/quadratic_terms", Rows F64 4 (fun t => map Num (match t_coupled t with Some c => terms c | None => [0; 0; 0; 0]%R end)));
  ("normalization/radial", vec3 (fun t => match t_coupled t with Some c => norms c | None => [0; 0; 0]%R end))].
(** non-adiabatic and stationary quantities, stored for MESA+GYRE models only *)
Definition mesa_table : list (string * content) := [
  ("checks/pre_checks", Rows B8 6 (fun t =>
     [yes (check_parametric (rate t)); yes (check_direct (rate t)); yes (check_driven (rate t)); yes (gamma_sum_stability_float (gamma (t_stat t)));
      yes (match s_solved (t_stat t) with Some _ => true | None => false end); yes (hyperbolic (t_stat t))]));
  ("nad_mode_frequency_info/inert_mode_freqs", vec3 (fun t => inert_f_nad (t_freqs t)));
  ("nad_mode_frequency_info/corot_mode_freqs", vec3 (fun t => corot_f_nad (t_freqs t)));
  ("nad_mode_frequency_info/inert_mode_omegas", vec3 (fun t => inert_w_nad (t_freqs t)));
  ("nad_mode_frequency_info/corot_mode_omegas", vec3 (fun t => corot_w_nad (t_freqs t)));
  ("nad_mode_frequency_info/inert_dimless_mode_freqs", vec3 (fun t => dless_inert_f_nad (t_freqs t)));
  ("nad_mode_frequency_info/corot_dimless_mode_freqs", vec3 (fun t => dless_corot_f_nad (t_freqs t)));
  ("nad_mode_frequency_info/inert_dimless_mode_omegas", vec3 (fun t => dless_inert_w_nad (t_freqs t)));
  ("nad_mode_frequency_info/corot_dimless_mode_omegas", vec3 (fun t => dless_corot_w_nad (t_freqs t)));
  ("linear_driving/driving_rates", vec3 (fun t => rates (t_stat t)));
  ("linear_driving/quality_factors", vec3 (fun t => quality_f (t_freqs t)));
  ("coupling/stationary_three_mode/detunings", Scalars F64 (fun t => Num (detuning (t_stat t))));
  ("coupling/stationary_three_mode/gammas", Scalars F64 (fun t => Num (gamma (t_stat t))));
  ("coupling/stationary_three_mode/critical_parent_amplitudes", Scalars F64 (solved_field acrit));
  ("coupling/stationary_three_mode/stationary_relative_phases", Scalars F64 (solved_field rel_phase));
  ("coupling/stationary_three_mode/stationary_relative_luminosity_phases", Scalars F64 (solved_field lum_phase));
  ("coupling/stationary_three_mode/q_factors", Scalars F64 (fun t => Num (q_fac (t_stat t))));
  ("coupling/stationary_three_mode/critical_q_factors", Scalars F64 (fun t => Num (q_crit (t_stat t))));
  ("coupling/stationary_three_mode/equilibrium_theoretical_amplitudes", Rows F64 3 (solved_row amps));
  ("coupling/stationary_three_mode/surface_flux_variations", Rows F64 3 (solved_row flucs))].
Definition results_table (c : config) : list (string * content) :=
  (common_table (c_adiabatic c) ++ if c_poly c then [] else mesa_table)%list.

(** results of a triad of three modes *)
Definition three (l : list R) : Prop := List.length l = 3%nat.
Definition well_shaped (t : triad) : Prop :=
  let h := t_freqs t in
  Forall three [inert_f h; corot_f h; inert_w h; corot_w h; dless_inert_f h; dless_corot_f h; dless_inert_w h; dless_corot_w h;
    inert_f_nad h; corot_f_nad h; inert_w_nad h; corot_w_nad h; dless_inert_f_nad h; dless_corot_f_nad h; dless_inert_w_nad h; dless_corot_w_nad h;
    spin h; quality_f h; rates (t_stat t)] /\
  match t_coupled t with Some c => three (norms c) /\ List.length (terms c) = 4%nat | None => True end /\
  match s_solved (t_stat t) with Some v => three (amps v) /\ three (flucs v) | None => True end.

(** ** Paths of the file system *)
(** text after the last slash *)
Fixpoint basename (s : string) : string :=
  match s with
  | EmptyString => ""
  | String c s' => if Ascii.eqb c "/" then basename s' else if existsb (Ascii.eqb "/") (list_ascii_of_string s') then basename s' else s
  end.
Definition word (s : string) : Prop := s <> "" /\ forallb is_word (list_ascii_of_string s) = true.
Definition no_slash (s : string) : Prop := existsb (Ascii.eqb "/") (list_ascii_of_string s) = false.
Definition no_dot (s : string) : Prop := existsb (Ascii.eqb ".") (list_ascii_of_string s) = false.
(** Wu's combination of radial orders: parent minus the distance of the daughters *)
Definition wu_difference (t : triad) : Z := let '(a, b, c) := t_orders t in (a - Z.abs (b - c))%Z.
Definition sum_orders (t : triad) : Z := let '(a, b, c) := t_orders t in (a + b + c)%Z.

(** an example run: two triads, the second one without a stationary solution *)
Definition ex_freqs (x : R) : freqs :=
  mkFreqs [x; x; x] [x; x; x] [x; x; x] [x; x; x] [x; x; x] [x; x; x] [x; x; x] [x; x; x]
          [x; x; x] [x; x; x] [x; x; x] [x; x; x] [x; x; x] [x; x; x] [x; x; x] [x; x; x] [x; x; x] [x; x; x] x "Hz".
Definition ex_triad1 : triad :=
  mkTriad (-10, -20, -21)%Z (ex_freqs 1) (Some (mkCoupled (-1) 2 3 [1; 1; 1] [1; 2; 3; 4]))%R
    (mkStat (Some (mkSolved [1; 2; 3] [4; 5; 6] 7 8 9)) [1; -2; -3] (-4) 5 6 7 true)%R.
Definition ex_triad2 : triad := mkTriad (-11, -20, -22)%Z (ex_freqs 2) None (mkStat None [1; 2; 3] 6 5 6 7 false)%R.
Definition ex_config : config := mkConfig false true [2; 2; 2]%Z [2; 1; 1]%Z "trapz" false 1 false 1%R.
