(** * Model of the comparison of adiabatic and non-adiabatic oscillation computations.
    co = aesolver/aesolver/ad_nad_comparer/comparer.py, pl = aesolver/aesolver/ad_nad_comparer/plotting/plotter.py,
    gp = aesolver/aesolver/ad_nad_comparer/plotting/gyre_plotter.py, mp = aesolver/aesolver/ad_nad_comparer/plotting/mesa_plotter.py,
    uc = gyre-tools/gyre_unit_converter/gyre_unit_converter.py, ri = aesolver/aesolver/read_load_info/read_info_dirs.py,
    er = aesolver/aesolver/read_load_info/enumeration_files/enumeration_read.py,
    lm = aesolver/aesolver/model_handling/load_models.py, em = aesolver/aesolver/model_handling/enumeration_files/enumeration_models.py.
    A figure is the list of its panels from top to bottom; a panel holds the curves in drawing order, the labels, the title, the
    limits given and whether a legend is shown. Ticks, fonts, sizes and log messages are dropped. Numbers are exact reals and
    scalars are arrays with one element, as in the model of the loader; division by zero is Coq's total division. *)
From Coq Require Import List ZArith Lia Reals String Ascii Bool.
From Coquelicot Require Import Complex.
From Verif Require Import Base Py Saver_Model Load_Model.
Import ListNotations.
Local Open Scope string_scope.
Local Open Scope res_scope.

(** ** What is loaded *)
(** values of the information file: None, a text, a list or tuple of texts *)
Definition info := dict substr.
(** er:87-94: EnumerationLoadLists.GYRE_MODEL_COMPARISON_LIST *)
Definition comparison_list : list string :=
  ["base_dir"; "mesa_output_dir"; "mesa_profile_substrings"; "mesa_suffix"; "gyre_detail_substring"; "gyre_summary_substring"].
(** ri:170-199: gyre_comparison_info *)
Definition comparison_info (full : info) : info := filter (fun kv => existsb (String.eqb (fst kv)) comparison_list) full.
(** co:62-72: the two directories; an absent base directory is formatted as None *)
Definition shown (base : option string) : string := match base with Some b => b | None => "None" end.
Definition ad_dir (base : option string) (percent : Z) (ad_path : option string) : string :=
  shown base ++ (match ad_path with None => "output_rot_" ++ str_of_Z percent | Some p => p end) ++ "/".
Definition nad_dir (base : option string) (percent : Z) (nad_path : option string) : string :=
  shown base ++ (match nad_path with None => "output_nad_rot_" ++ str_of_Z percent | Some p => p end) ++ "/".
(** a keyword argument of ModelLoader that is a text or None; lm:130-136, 141 *)
Definition text_arg (k : string) (default : option string) (i : info) : res (option string) :=
  match dget k i with
  | None => Ok default
  | Some SNone => Ok None
  | Some (SStr s) => Ok (Some s)
  | Some (SList _) | Some (STuple _) => Exc TypeError
  end.
(** lm:138, 142-145: the selection substrings, with the defaults of ModelLoader *)
Definition sub_arg (k : string) (default : substr) (i : info) : substr := match dget k i with None => default | Some s => s end.
(** em:300-438: the names read from a MESA profile, in order *)
Definition mesa_attrs : list string :=
  ["gamma_1_adDer"; "h1"; "h2"; "he3"; "he4"; "c12"; "c13"; "n14"; "o16"; "o17"; "ne20"; "ne22"; "mg24"; "al27"; "si28"; "s32"; "ar36"; "brunt_N2";
   "brunt_N2_structure_term"; "brunt_N2_composition_term"; "lamb_S"; "lamb_S2"; "hyeq_lhs"; "hyeq_rhs"; "x"; "y"; "z"; "mlt_mixing_length"; "log_D_mix";
   "log_D_conv"; "log_D_ovr"; "log_D_minimum"; "conv_mixing_type"; "zone"; "logT"; "logRho"; "luminosity"; "velocity"; "entropy"; "csound"; "mu"; "q";
   "radius"; "tau"; "pressure"; "opacity"; "eps_nuc"; "non_nuc_neu"; "log_conv_vel"; "mass"; "mmid"; "grada"; "gradT"; "gradr"; "pressure_scale_height";
   "grav"; "center_h1"; "center_he3"; "center_he4"; "center_c12"; "center_n14"; "center_o16"; "center_ne20"; "center_eta"; "star_mass_h1";
   "star_mass_he3"; "star_mass_he4"; "star_mass_c12"; "star_mass_n14"; "star_mass_o16"; "star_mass_ne20"; "he_core_mass"; "c_core_mass"; "o_core_mass";
   "si_core_mass"; "fe_core_mass"; "neutron_rich_core_mass"; "tau10_mass"; "tau10_radius"; "tau100_mass"; "tau100_radius"; "initial_z"; "initial_mass";
   "photosphere_L"; "photosphere_r"; "Teff"; "dynamic_time"; "kh_timescale"; "nuc_timescale"; "power_nuc_burn"; "power_h_burn"; "power_he_burn";
   "power_neu"; "model_number"; "num_zones"; "star_age"; "time_step"; "burn_min1"; "burn_min2"; "time_seconds"; "version_number"; "compiler"; "build";
   "MESA_SDK_version"; "date"].
(** co:96-117 with lm:495-626: one ModelLoader, called with infer_dir=False and reading GYRE details and a MESA profile in CGS;
    in CGS the unit conversion of the profile leaves every value as it is *)
Definition load_one (fs : fsys val) (g_cgs g_si : R) (i : info) (gyre_dir : string) (q : search) : res (list (dict val) * list (dict val)) :=
  base <- text_arg "base_dir" None i ;
  mesa <- text_arg "mesa_output_dir" None i ;
  suffix <- text_arg "mesa_suffix" (Some "dat") i ;
  d <- loader_dirs base mesa (Some gyre_dir) None None (fun _ => None) false ;
  raw <- load_modes fs (d_gyre d) gyre_detail_attrs q (sub_arg "gyre_detail_substring" (SStr "detail") i) [true; true; true] ;
  details <- mapM (finish_detail g_cgs g_si "CGS") raw ;
  profile <- load_structure fs (d_mesa d) mesa_attrs (mesa_conds (shown suffix)) (sub_arg "mesa_profile_substrings" (STuple ["profile"; "KIC6352430"]) i) ;
  Ok (details, [profile]).

(** ** GYRE figures *)
(** gp:52-59: the mass coordinate, added to each dictionary that has a partner in the other list *)
Definition with_mass (d : dict val) : res (dict val) :=
  m <- real_entry d "M_r" ; s <- real_entry d "M_star" ; q <- bcast Rdiv m s ; Ok (dset d "mass" (VReal q)).
Fixpoint mass_profiles (ad nad : list (dict val)) : res (list (dict val) * list (dict val)) :=
  match ad, nad with
  | a :: ad', n :: nad' => a' <- with_mass a ; n' <- with_mass n ; r <- mass_profiles ad' nad' ; Ok (a' :: fst r, n' :: snd r)
  | _, _ => Ok (ad, nad)
  end.
Record comparer := { c_ad : list (dict val); c_nad : list (dict val); c_mesa : list (dict val) }.
(** co:85-125: AdNadComparer.load_modes of the radial orders [ns] (one entry of combinations_radial_orders) *)
Definition load_comparer (fs : fsys val) (g_cgs g_si : R) (full : info) (base : option string) (percent : Z) (ad_path nad_path : option string)
    (l m : list Z) (combos : list (list Z)) (nr : Z) : res comparer :=
  let i := comparison_info full in
  ns <- py_get combos nr ;
  let q := {| s_l := l; s_m := m; s_n := ns |} in
  ad <- load_one fs g_cgs g_si i (ad_dir base percent ad_path) q ;
  nad <- load_one fs g_cgs g_si i (nad_dir base percent nad_path) q ;
  g <- mass_profiles (fst ad) (fst nad) ;
  Ok {| c_ad := fst g; c_nad := snd g; c_mesa := snd ad |}.

(** gp:61-84: _quantity_getter. Only the (re, im) arrays of GYRE have fields; matplotlib draws the real part of complex values *)
Definition quantity (d : dict val) (k : string) (part : option bool) : res (list R) :=
  match dget k d with
  | None => Exc KeyError
  | Some v =>
      match part, v with
      | None, VReal l => Ok l
      | None, VCx l => Ok (map (fun z => fst z) l)
      | None, _ => Exc TypeError
      | Some true, VReIm l => Ok (map fst l)
      | Some false, VReIm l => Ok (map snd l)
      | Some _, VStr _ => Exc TypeError
      | Some _, _ => Exc IndexError
      end
  end.
Record curve := { cv_label : option string; cv_x : list R; cv_y : list R }.
(** Axes.plot *)
Definition draw (label : option string) (x y : list R) : res curve :=
  if (List.length x =? List.length y)%nat then Ok {| cv_label := label; cv_x := x; cv_y := y |} else Exc ValueError.
(** limits: none, a pair, or keyword arguments of set_xlim / set_ylim *)
Inductive bounds := BNone | BPair (lo hi : R) | BDict (d : list (string * R)).
(** pl:25-57: _bounds_setter; unknown keywords are refused by matplotlib (its keywords xmin, xmax, ymin, ymax, emit and auto, which nothing passes, are left out) *)
Definition limits (low high : string) (b : bounds) : res (option R * option R) :=
  match b with
  | BNone => Ok (None, None)
  | BPair lo hi => Ok (Some lo, Some hi)
  | BDict d => if forallb (fun kv => existsb (String.eqb (fst kv)) [low; high]) d then Ok (dget low d, dget high d) else Exc TypeError
  end.
(** the title of a comparison figure: mode numbers and the two frequencies with their unit and frame *)
Record title := { t_l : val; t_m : val; t_n : val; t_ad : val; t_nad : val; t_unit : string; t_frame : string }.
Record panel := { p_curves : list curve; p_xlabel : option string; p_ylabel : option string; p_title : option title; p_legend : bool;
                  p_xlim : option R * option R; p_ylim : option R * option R }.
(** uc:15-47: GYREFreqUnitConverter.convert; byte strings are decoded *)
Definition freq_unit (text : string) : string :=
  if string_dec text "CYC_PER_DAY" then "d$^{-1}$" else if string_dec text "HZ" then "Hz" else if string_dec text "UHZ" then "$\mu$Hz"
  else if string_dec text "RAD_PER_SEC" then "rad s$^{-1}$" else "".
Definition entry_of (d : dict val) (k : string) : res val := match dget k d with Some v => Ok v | None => Exc KeyError end.
(** gp:159-168, 270-294 *)
Definition make_title (ad nad : dict val) : res title :=
  l <- entry_of ad "l" ; m <- entry_of ad "m" ; n <- entry_of ad "n_g" ; f <- entry_of ad "freq" ; fn <- entry_of nad "freq" ;
  u <- entry_of ad "freq_units" ; u' <- (match u with VStr s => Ok (freq_unit s) | _ => Exc TypeError end) ;
  fr <- entry_of ad "freq_frame" ; fr' <- (match fr with VStr s => Ok (lower s) | _ => Exc NotImplementedError end) ;
  Ok {| t_l := l; t_m := m; t_n := n; t_ad := f; t_nad := fn; t_unit := u'; t_frame := fr' |}.
(** labels and parts of figure_comparison: one, or a list or tuple *)
Inductive ylabels := YOne (s : string) | YMany (l : list string).
Inductive yparts := POne (p : option bool) | PMany (l : list (option bool)).
(** gp:87-168: _single_plot_fig_comp with pl:97-144 *)
Definition single_plot (c : comparer) (xq yq : string) (xp yp : option bool) (x_label : string) (y_label : ylabels) (mode_nr : Z) (xb yb : bounds)
    (use_title use_x_label use_legend : bool) : res panel :=
  ad <- py_get (c_ad c) (mode_nr - 1) ;
  nad <- py_get (c_nad c) (mode_nr - 1) ;
  x <- quantity ad xq xp ; y <- quantity ad yq yp ; c1 <- draw (Some "adiabatic") x y ;
  x' <- quantity nad xq xp ; y' <- quantity nad yq yp ; c2 <- draw (Some "non-adiabatic") x' y' ;
  xl <- limits "left" "right" xb ;
  yl <- limits "bottom" "top" yb ;
  t <- (if use_title then t <- make_title ad nad ; Ok (Some t) else Ok None) ;
  Ok {| p_curves := [c1; c2]; p_xlabel := if use_x_label then Some x_label else None;
        p_ylabel := match y_label with YOne s => Some s | YMany _ => None end;
        p_title := t; p_legend := use_legend; p_xlim := xl; p_ylim := yl |}.
(** the truth value of a list of parts handed to a single plot *)
Definition part_of (p : yparts) : option bool := match p with POne b => b | PMany [] => Some false | PMany _ => Some true end.
(** gp:171-268: figure_comparison; length_reals is only bound when there are two labels *)
Definition figure_comparison (c : comparer) (xq yq : string) (xp : option bool) (yp : yparts) (x_label : string) (y_label : ylabels) (mode_nr : Z)
    (xb yb : bounds) : res (list panel) :=
  match y_label, yp with
  | YMany labels, PMany parts =>
      match labels with
      | [l0; l1] =>
          match parts with
          | [p0; p1] =>
              a <- single_plot c xq yq xp p0 x_label (YOne l0) mode_nr xb yb true false true ;
              b <- single_plot c xq yq xp p1 x_label (YOne l1) mode_nr xb yb false true false ;
              Ok [a; b]
          | _ => Exc SystemExit
          end
      | _ => Exc UnboundLocalError
      end
  | _, _ => a <- single_plot c xq yq xp (part_of yp) x_label y_label mode_nr xb yb true true true ; Ok [a]
  end.
(** co:127-167: generate_mode_eigenfunction_comparison_figures *)
Definition unit_bounds : bounds := BDict [("left", 0%R); ("right", 1%R)].
Definition eigenfunction_figures (c : comparer) (radius : bool) : res (list (list panel)) :=
  let xq := if radius then "x" else "mass" in
  let xl := if radius then "r / R$_*$" else "m / M$_*$" in
  figs <- mapM (fun nr =>
            a <- figure_comparison c xq "xi_r" None (PMany [Some true; Some false]) xl (YMany ["$Re[\xi_R]$"; "$Im[\xi_R]$"]) nr unit_bounds BNone ;
            b <- figure_comparison c xq "xi_h" None (PMany [Some true; Some false]) xl (YMany ["$Re[\xi_H]$"; "$Im[\xi_H]$"]) nr unit_bounds BNone ;
            Ok [a; b]) [1; 2; 3]%Z ;
  Ok (List.concat figs).

(** ** MESA figures *)
(** pl:59-94: _normalizer: none, another profile, or the maximum of a profile (the only function the package passes) *)
Inductive norm := NNone | NBy (k : string) | NMax (k : string).
Definition py_max (l : list R) : res R := match l with [] => Exc ValueError | a :: l' => Ok (fold_left Rmax l' a) end.
Definition normalised (n : norm) (k : string) (d : dict val) : res (list R) :=
  a <- real_entry d k ;
  match n with
  | NNone => Ok a
  | NBy k' => b <- real_entry d k' ; bcast Rdiv a b
  | NMax k' => b <- real_entry d k' ; m <- py_max b ; bcast Rdiv a [m]
  end.
Inductive yquant := QOne (s : string) | QMany (l : list string).
Inductive legend := LNone | LOne (s : string) | LMany (l : list string).
(** one profile with its label: mp:73-96 *)
Definition profile_curve (d : dict val) (xn yn : norm) (xq yq : string) (label : option string) : res curve :=
  x <- normalised xn xq d ; y <- normalised yn yq d ; draw label x y.
(** mp:41-183: _multi_profile_plot, chosen by the types of quantity and legend label *)
Definition profiles (d : dict val) (y : yquant) (lg : legend) (yn : norm) (xq : string) (xn : norm) (diff : bool) : res (list curve) :=
  match y, lg with
  | QOne s, LOne l => c <- profile_curve d xn yn xq s (Some l) ; Ok [c]
  | QOne s, LNone => c <- profile_curve d xn yn xq s None ; Ok [c]
  | QMany ss, LMany ls =>
      if (List.length ss =? List.length ls)%nat then mapM (fun sl => profile_curve d xn yn xq (fst sl) (Some (snd sl))) (combine ss ls) else Ok []
  | QOne _, LMany _ => Exc SystemExit
  | QMany _, LOne _ => Exc SystemExit
  | QMany ss, LNone =>
      if diff then
        x <- normalised xn xq d ;
        k0 <- py_get ss 0 ; a <- real_entry d k0 ; k1 <- py_get ss 1 ; b <- real_entry d k1 ; y <- bcast Rminus a b ;
        c <- draw None x y ; Ok [c]
      else Exc SystemExit
  end.
(** mp:186-255: figure_profile *)
Definition figure_profile (c : comparer) (xq : string) (y : yquant) (x_label y_label : string) (diff : bool) (xb yb : bounds) (mode_nr : Z) (lg : legend)
    (xn yn : norm) : res (list panel) :=
  d <- py_get (c_mesa c) mode_nr ;
  cs <- profiles d y lg yn xq xn diff ;
  xl <- limits "left" "right" xb ;
  yl <- limits "bottom" "top" yb ;
  Ok [{| p_curves := cs; p_xlabel := Some x_label; p_ylabel := Some y_label; p_title := None;
         p_legend := match lg with LNone => false | _ => true end; p_xlim := xl; p_ylim := yl |}].
(** co:169-313: generate_profile_figures; quantity, legend labels, label of the y-axis, difference figure *)
Definition profile_calls : list (yquant * legend * string * bool) :=
  [(QMany ["h1"; "h2"; "he3"; "he4"], LMany ["h1"; "h2"; "he3"; "he4"], "x", false);
   (QMany ["brunt_N2"; "brunt_N2_structure_term"; "brunt_N2_composition_term"], LMany ["N$^2$"; "N$^2_{structure}$"; "N$^2_{composition}$"], "N$^2$", false);
   (QOne "lamb_S2", LNone, "S$^2$", false);
   (QOne "csound", LNone, "c$_{s}$", false);
   (QMany ["hyeq_lhs"; "hyeq_rhs"], LNone, "lhs - rhs", true);
   (QOne "gamma_1_adDer", LNone, "(d$\Gamma_1$/dr)$_S$", false);
   (QMany ["log_D_mix"; "log_D_conv"; "log_D_ovr"; "log_D_minimum"], LMany ["log_D_mix"; "log_D_conv"; "log_D_ovr"; "log_D_min"], "log D", false);
   (QOne "pressure", LNone, "P", false);
   (QOne "logRho", LNone, "log $\rho$", false);
   (QOne "logT", LNone, "log T", false);
   (QMany ["grada"; "gradT"; "gradr"], LMany ["$\Delta_a$"; "$\Delta_T$"; "$\Delta_r$"], "$\Delta$", false)].
Definition profile_figures (c : comparer) (radius : bool) : res (list (list panel)) :=
  let xq := if radius then "radius" else "mass" in
  let xl := if radius then "r / R$_*$" else "m / M$_*$" in
  mapM (fun call => let '(y, lg, yl, diff) := call in figure_profile c xq y xl yl diff unit_bounds BNone 0 lg (NMax xq) NNone) profile_calls.
