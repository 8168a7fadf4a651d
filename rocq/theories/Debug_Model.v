(** * Model of the debug information a coupling object keeps and prints (option get_debug_info).
    sc = aesolver/aesolver/coupling_coefficients/coefficient_support_classes/super_coupling_coefficients.py,
    cr = aesolver/aesolver/coupling_coefficients/coefficient_support_classes/coupling_coefficient_rotating.py,
    qc = aesolver/aesolver/coupling_coefficients/quadratic_coupling_coefficient_rotating.py,
    ed = aesolver/aesolver/coupling_coefficients/enumeration_files/enumerated_debug_properties.py,
    qs = aesolver/aesolver/solver/solver_base_classes/quadratic_solver.py.
    The object and the statements that are executed with and without debug information are those of Grid_Model; [dbg] is the flag
    self._store_debug. The entries for the stellar structure are written in one go after the statements of the method that
    computes it (none of these statements changes an array after its entry is written). Numbers are exact and there is no NaN.
    The text that pprint produces is not modelled, only which attributes it shows. *)
From Coq Require Import List ZArith Reals String Ascii Bool.
From Coquelicot Require Import Complex.
From Verif Require Import Base Py NumDeriv_Model Load_Model Grid_Model.
Import ListNotations.
Local Open Scope string_scope.

(** numpy's order of complex numbers: by real part, then by imaginary part *)
Definition clt (a b : C) : bool :=
  if Rlt_dec (fst a) (fst b) then true else if Rlt_dec (fst b) (fst a) then false else if Rlt_dec (snd a) (snd b) then true else false.
(** a.max(), a.min() of an array with first element [a] *)
Definition cmax (a : C) (l : list C) : C := fold_left (fun m b => if clt m b then b else m) l a.
Definition cmin (a : C) (l : list C) : C := fold_left (fun m b => if clt b m then b else m) l a.
(** sc:628-632: the dictionary {'max', 'min', 'surface', 'core'}; max of an empty array raises ValueError *)
Definition summary (l : list C) : res gval :=
  match l with [] => Exc ValueError | a :: l' => Ok (VSum (cmax a l') (cmin a l') (skipn (List.length l - 3) l) (firstn 3 l)) end.
(** sc:610-618 *)
Definition debug_name (a : string) (normed poly : bool) : string :=
  if poly && normed then a ++ "_max_min_normed_poly" else if normed then a ++ "_max_min_normed"
  else if poly then a ++ "_max_min_poly" else a ++ "_max_min".
(** sc:595-646: _add_debug_attribute. Compound arrays have no maximum (TypeError), scalars cannot be sliced (IndexError, or no
    attribute max), None, text and dictionaries have no maximum: nothing is stored *)
Definition add_debug (normed poly : bool) (a : string) (o : obj) : res obj :=
  match o a with
  | None => Ok (oset o (debug_name a normed poly) VNone)
  | Some (VArr l) => s <- summary (map RtoC l) ; Ok (oset o (debug_name a normed poly) s)
  | Some (VCpx l) => s <- summary l ; Ok (oset o (debug_name a normed poly) s)
  | Some _ => Ok o
  end.
(** the recurring "if self._store_debug: self._add_debug_attribute(..)" *)
Definition note (dbg normed poly : bool) (names : list string) (o : obj) : res obj :=
  if dbg then foldM (fun o a => add_debug normed poly a o) names o else Ok o.
(** sc:1478-1493 *)
Definition fill_debug (names : list string) (o : obj) : obj :=
  fold_left (fun o a => match o a with Some _ => o | None => oset o a VNone end) names o.

(** ** The lists of names: ed *)
(** iterating over an Enum class yields only the first of the members with equal values, the others are its aliases *)
Fixpoint members (seen : list string) (l : list (string * string)) : list string :=
  match l with
  | [] => []
  | (n, v) :: l' => if has v seen then members seen l' else n :: members (v :: seen) l'
  end.
Definition unit_members (names : list string) : list string := members [] (map (fun n => (n, "()")) names).
Definition digit (i : nat) : string := (match i with 1 => "1" | 2 => "2" | _ => "3" end)%nat.
(** ed:10-47 *)
Definition radial_debug (i : nat) : list string :=
  map (fun n => "_" ++ n ++ "_mode_" ++ digit i ++ "_max_min")
    (unit_members ["z_1"; "z_2"; "x_z_1"; "z_2_over_c_1_omega"; "x_z_2_over_c_1_omega"; "rad_der_x_z_1"; "rad_der_x_z_2_c_1_omega"; "rad_diverg"]).
(** ed:51-96, the names are those of the Hough functions *)
Definition hough_names : list string :=
  ["hr"; "ht"; "hp"; "theta_der_hr"; "theta_der_ht"; "theta_der_hp"; "theta_phi"; "phi_phi"; "mhr"; "theta_der2_hr";
   "theta_der_hr_theta"; "theta_der2_hr_theta"; "theta_der_ht_theta"; "theta_der_hp_theta"].
Definition hough_debug (i : nat) : list string :=
  flat_map (fun n => ["_" ++ n ++ "_mode_" ++ digit i ++ "_max_min"; "_" ++ n ++ "_mode_" ++ digit i ++ "_max_min_normed"]) (unit_members hough_names).
(** ed:100-139 *)
Definition structure_debug : list string :=
  flat_map (fun n => ["_" ++ n ++ "_max_min"; "_" ++ n ++ "_max_min_normed"; "_" ++ n ++ "_max_min_poly"; "_" ++ n ++ "_max_min_normed_poly"])
    (unit_members ["dgravpot"; "dgravpot2"; "dgravpot3"; "P"; "dP"; "dP2"; "dP3"; "rho"; "drho"; "drho2"; "drho3"]).

(** ** The constructor with debug information *)
Section Build.
Variable der : list R -> list R -> res (list (option (list R))).
Variable dbg : bool.
(** sc:490-513 *)
Definition dextract_common (common : list string) (d : gdict) (o : obj) : res obj :=
  foldM (fun o a => note (dbg && negb (has a ["Delta_p"; "Delta_g"])) false false ["_" ++ a]
                      (oset o ("_" ++ a) (match dget a d with Some v => v | None => VNone end))) common o.
(** sc:516-538 *)
Definition dextract_mode (common : list string) (i : nat) (d : gdict) (o : obj) : res obj :=
  foldM (fun o kv => if has (fst kv) common then Ok o
                     else note dbg false false [mode_attr (fst kv) i] (oset o (mode_attr (fst kv) i) (snd kv))) d o.
Definition dextracted (common : list string) (d1 d2 d3 : gdict) : res obj :=
  o <- dextract_common common d1 empty_obj ;
  o <- dextract_mode common 1 d1 o ;
  o <- dextract_mode common 2 d2 o ;
  dextract_mode common 3 d3 o.
(** sc:541-593, 648-669 *)
Definition dinterpolator (i : nat) (d : gdict) (x : gval) (o : obj) : res obj :=
  o <- interpolator i d x o ;
  note dbg false false (map (fun k => mode_attr k i) (filter (fun k => has k to_interpolate) (map fst d))) o.
Definition dinterpolation_modes (ds : list gdict) (o : obj) : res obj :=
  lens <- mapM (fun d => v <- dread d "n" ; as_int v) ds ;
  x <- (match nth_error ds (argmax lens) with Some d => dread d "x" | None => Exc IndexError end) ;
  foldM (fun o id => dinterpolator (fst id) (snd id) x o) (combine (seq 1 (List.length ds)) ds) o.
(** the statements sc:917-984 and 999-1011 *)
Definition dprofiles_mesa (center surface sym brunt : bool) (o : obj) : res obj :=
  o <- profiles_mesa der center surface sym brunt o ;
  o <- note dbg false false ["_rho"; "_drho"; "_drho2"; "_drho3"; "_dgravpot"; "_dgravpot2"; "_dgravpot3"; "_P"; "_dP"; "_dP2"; "_dP3"] o ;
  o <- note dbg true false ["_P"; "_rho"; "_drho"; "_drho2"; "_drho3"; "_dP"; "_dP2"; "_dP3"] o ;
  Ok (if dbg then fill_debug structure_debug o else o).
(** the statements sc:1075-1151 and 1166-1178 *)
Definition dprofiles_poly (center surface sym brunt : bool) (o : obj) : res obj :=
  o <- profiles_poly der center surface sym brunt o ;
  o <- note dbg false false ["_rho_profile"; "_drho"; "_drho2"; "_drho3"; "_dgravpot"; "_dgravpot2"; "_dgravpot3"; "_p_profile"; "_dP"; "_dP2"; "_dP3"] o ;
  o <- note dbg true false ["_p_profile"; "_rho_profile"; "_drho"; "_drho2"; "_drho3"; "_dP"; "_dP2"; "_dP3"] o ;
  Ok (if dbg then fill_debug structure_debug o else o).
(** the statements sc:1295-1313 and 1338-1350 *)
Definition dprofiles_analytic (center surface : bool) (prof : gdict) (o : obj) : res obj :=
  o <- profiles_analytic center surface prof o ;
  o <- note dbg false true ["_rho_profile"; "_drho"; "_drho2"; "_drho3"; "_dgravpot"; "_dgravpot2"; "_dgravpot3"; "_p_profile"; "_dP"; "_dP2"; "_dP3"] o ;
  o <- note dbg true true ["_p_profile"; "_rho_profile"; "_drho"; "_drho2"; "_drho3"; "_dP"; "_dP2"; "_dP3"] o ;
  Ok (if dbg then fill_debug structure_debug o else o).
(** sc:1436-1450 *)
Definition dstore_poly_coefficients (o : obj) : res obj :=
  o <- store_poly_coefficients o ; note dbg false true ["_c_1"; "_V_2"; "_As"; "_U"; "_mr_profile"] o.
(** qc:333-392 *)
Definition dbuild_mesa (sym brunt : bool) (d1 d2 d3 prof : gdict) : res obj :=
  o <- dextracted mesa_common d1 d2 d3 ;
  o <- dinterpolation_modes [d1; d2; d3] o ;
  o <- extract_profile false prof o ;
  P <- oget o "_P" ; rho <- oget o "_rho" ;
  o <- set_normalization true true P rho o ;
  G <- dread d1 "G" ;
  o <- dprofiles_mesa true true sym brunt (oset o "_G" G) ;
  mode_structure_cuts true true false o.
Definition dbuild_poly (analytic sym brunt : bool) (d1 d2 d3 prof : gdict) : res obj :=
  o <- dextracted poly_common d1 d2 d3 ;
  o <- dinterpolation_modes [d1; d2; d3] o ;
  o <- extract_profile true prof o ;
  P <- oget o "_p0_profile" ; rho <- oget o "_rho0_profile" ;
  o <- set_normalization true true P rho o ;
  o <- (if analytic then dprofiles_analytic true true prof o else dprofiles_poly true true sym brunt o) ;
  o <- dstore_poly_coefficients o ;
  mode_structure_cuts true true true o.
End Build.

(** ** The rest of the constructor: qc:393-445. What is computed is a parameter: [radial]: the radial vectors, gradients and
    divergences (cr:143-302), [hough]: the Hough functions (qc:590-618), [hfac]: their normalising factors (qc:645-651),
    [rfac]: the normalising factors of the radial functions (qc:417-436) *)
Section Late.
Variable radial : obj -> string -> nat -> res gval.
Variable hough : obj -> string -> nat -> res gval.
Variables mu theta : obj -> res gval.
Variables hfac rfac : obj -> nat -> res R.
Variable poly : bool.
(** the radial functions that are normalised: EnumRadialPoly or EnumRadial, enumerated_quadratic_coupling.py:16-32, 72-87 *)
Definition scaled : list string :=
  (["z_1"; "z_2"; "x_z_1"; "z_2_over_c_1_omega"; "x_z_2_over_c_1_omega"; "rad_der_x_z_1"; "rad_der_x_z_2_c_1_omega"; "rad_diverg"] ++
   (if poly then [] else ["lag_L_dim"]))%list.
Variable dbg : bool.
Definition vscale (c : R) (v : gval) : res gval :=
  match v with
  | VArr a => Ok (VArr (map (fun x => x * c)%R a))
  | VCpx a => Ok (VCpx (map (fun x => (fst x * c, snd x * c)%R) a))
  | VNum r => Ok (VNum (r * c)) | VInt z => Ok (VNum (IZR z * c))
  | _ => Exc TypeError
  end.
Definition set_all (f : obj -> string -> nat -> res gval) (names : list string) (i : nat) (o : obj) : res obj :=
  foldM (fun o n => v <- f o n i ; Ok (oset o (mode_attr n i) v)) names o.
(** cr:143-188 *)
Definition radial_vectors (i : nat) (o : obj) : res obj :=
  let names := ["z_1"; "z_2"; "x_z_1"; "z_2_over_c_1_omega"; "x_z_2_over_c_1_omega"] in
  o <- set_all radial names i o ; note dbg false false (map (fun n => mode_attr n i) names) o.
(** cr:191-285: all modes first, then the debug entries *)
Definition radial_gradients (o : obj) : res obj :=
  let names := ["rad_der_x_z_1"; "rad_der_x_z_2_c_1_omega"] in
  o <- foldM (fun o i => set_all radial names i o) [1; 2; 3]%nat o ;
  note dbg false false (flat_map (fun i => map (fun n => mode_attr n i) names) [1; 2; 3]%nat) o.
(** cr:288-302 *)
Definition divergence (i : nat) (o : obj) : res obj :=
  o <- set_all radial ["rad_diverg"] i o ; note dbg false false [mode_attr "rad_diverg" i] o.
(** qc:588-629 *)
Definition store_houghs (o : obj) : res obj :=
  o <- foldM (fun o i => foldM (fun o n => v <- hough o n i ; note dbg false false [mode_attr n i] (oset o (mode_attr n i) v)) hough_names o) [1; 2; 3]%nat o ;
  m <- mu o ; t <- theta o ;
  note dbg false false ["_mu_values"; "_theta_values"] (oset (oset o "_mu_values" m) "_theta_values" t).
(** qc:632-663 *)
Definition normalize_houghs (o : obj) : res obj :=
  foldM (fun o i => c <- hfac o i ;
    foldM (fun o n => v <- oget o (mode_attr n i) ; w <- vscale c v ; note dbg true false [mode_attr n i] (oset o (mode_attr n i) w)) hough_names o) [1; 2; 3]%nat o.
(** qc:417-436: the radial functions are multiplied by the normalising factor of their mode; no debug entry is written *)
Definition normalize_radial (o : obj) : res obj :=
  foldM (fun o i => c <- rfac o i ;
    foldM (fun o n => v <- oget o (mode_attr n i) ; w <- vscale c v ; Ok (oset o (mode_attr n i) w)) scaled o) [1; 2; 3]%nat o.
(** cr:305-311, qc:1948-1955 *)
Definition fill_modes (o : obj) : obj :=
  if dbg then fill_debug (flat_map hough_debug [1; 2; 3]%nat) (fill_debug (flat_map radial_debug [1; 2; 3]%nat) o) else o.
Definition late (o : obj) : res obj :=
  o <- foldM (fun o i => radial_vectors i o) [1; 2; 3]%nat o ;
  o <- radial_gradients o ;
  o <- foldM (fun o i => divergence i o) [1; 2; 3]%nat o ;
  o <- store_houghs o ;
  o <- normalize_houghs o ;
  o <- normalize_radial o ;
  Ok (fill_modes o).
End Late.

(** ** Printing: qc:1957-1977 *)
(** the attributes shown: those with max_min in their name, except the list _attr_list_max_min *)
Definition shown (k : string) : bool := is_in "max_min" k && negb (is_in "_attr_list" k).
(** qc:1850-1884, 1887-1946: how often the attributes are printed when the profile of a coupling coefficient is computed on a grid
    with n points: for every upper index from 2 to n, and at the end *)
Definition profile_prints (dbg : bool) (n : nat) : nat :=
  if dbg then List.length (seq 2 (n - 1)) + 1 else 0.
