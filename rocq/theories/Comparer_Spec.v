(** * What the comparison figures should show, in terms of the stored files. *)
From Coq Require Import List ZArith Reals String Ascii Bool.
From Coquelicot Require Import Complex.
From Verif Require Import Base Saver_Model Load_Model Load_Spec Comparer_Model.
Import ListNotations.
Local Open Scope string_scope.

(** the part of a GYRE detail file that is drawn: grid, enclosed mass, stellar mass, displacements, mode numbers, frequency *)
Record mode_file := { mf_x : list R; mf_Mr : list R; mf_M : R; mf_xr : list (R * R); mf_xh : list (R * R); mf_l : val; mf_m : val; mf_n : val;
                      mf_freq : list (R * R); mf_units : string; mf_frame : string }.
(** a detail file of a star with scales s that holds f: every stored value has its kind, all profiles live on one grid *)
Definition detail_file (s : scales) (c : content val) (f : mode_file) : Prop :=
  stored c "M_star" = Some (VReal [sc_M s]) /\ stored c "R_star" = Some (VReal [sc_R s]) /\ stored c "L_star" = Some (VReal [sc_L s]) /\
  stored c "P" = Some (VReal (sc_P s)) /\ stored c "rho" = Some (VReal (sc_rho s)) /\ stored c "T" = Some (VReal (sc_T s)) /\
  List.length (sc_rho s) = List.length (sc_P s) /\ List.length (sc_T s) = List.length (sc_P s) /\
  (forall k v, In k gyre_detail_attrs -> stored c k = Some v -> ~ In k labels ->
    if in_dec string_dec k pairs then exists l, v = VReIm l /\ (In k on_grid -> List.length l = List.length (sc_P s)) else exists l, v = VReal l) /\
  mf_M f = sc_M s /\ stored c "x" = Some (VReal (mf_x f)) /\ stored c "M_r" = Some (VReal (mf_Mr f)) /\
  stored c "xi_r" = Some (VReIm (mf_xr f)) /\ stored c "xi_h" = Some (VReIm (mf_xh f)) /\
  stored c "l" = Some (mf_l f) /\ stored c "m" = Some (mf_m f) /\ stored c "n_g" = Some (mf_n f) /\ stored c "freq" = Some (VReIm (mf_freq f)) /\
  stored c "freq_units" = Some (VStr (mf_units f)) /\ stored c "freq_frame" = Some (VStr (mf_frame f)) /\
  List.length (mf_Mr f) = List.length (mf_x f) /\ List.length (mf_xr f) = List.length (mf_x f) /\ List.length (mf_xh f) = List.length (mf_x f).

(** the horizontal coordinate: radius over stellar radius, or enclosed mass over stellar mass *)
Definition coordinate (radius : bool) (f : mode_file) : list R := if radius then mf_x f else map (fun m => m / mf_M f)%R (mf_Mr f).
(** real or imaginary part of the radial or horizontal displacement *)
Definition displacement (radial re : bool) (f : mode_file) : list R :=
  map (fun z => if re then fst z else snd z) (if radial then mf_xr f else mf_xh f).
(** unit labels of the frequency units GYRE writes *)
Definition units_table : list (string * string) := [("CYC_PER_DAY", "d$^{-1}$"); ("HZ", "Hz"); ("UHZ", "$\mu$Hz"); ("RAD_PER_SEC", "rad s$^{-1}$")].
Definition unit_label (u : string) (r : string) : Prop := In (u, r) units_table \/ (~ In u (map fst units_table) /\ r = "").
(** the figure of one mode: real part above, imaginary part below, in each the adiabatic and the non-adiabatic curve *)
Definition comparison_panel (radius radial re : bool) (a n : mode_file) (p : panel) : Prop :=
  p_curves p = [ {| cv_label := Some "adiabatic"; cv_x := coordinate radius a; cv_y := displacement radial re a |};
                 {| cv_label := Some "non-adiabatic"; cv_x := coordinate radius n; cv_y := displacement radial re n |} ] /\
  p_xlim p = (Some 0%R, Some 1%R) /\ p_ylim p = (None, None) /\
  p_ylabel p = Some ("$" ++ (if re then "Re" else "Im") ++ "[\xi_" ++ (if radial then "R" else "H") ++ "]$") /\
  (if re then p_xlabel p = None /\ p_legend p = true /\
        exists t, p_title p = Some t /\ t_l t = mf_l a /\ t_m t = mf_m a /\ t_n t = mf_n a /\ t_ad t = VCx (mf_freq a) /\ t_nad t = VCx (mf_freq n) /\
                  unit_label (mf_units a) (t_unit t) /\ t_frame t = lower (mf_frame a)
   else p_xlabel p = Some (if radius then "r / R$_*$" else "m / M$_*$") /\ p_legend p = false /\ p_title p = None).
Definition comparison_figure (radius radial : bool) (a n : mode_file) (fig : list panel) : Prop :=
  exists p q, fig = [p; q] /\ comparison_panel radius radial true a n p /\ comparison_panel radius radial false a n q.
(** six figures: for each mode the radial, then the horizontal displacement *)
Definition comparison_figures (radius : bool) (ad nad : nat -> mode_file) (figs : list (list panel)) : Prop :=
  List.length figs = 6%nat /\
  forall i, (i < 3)%nat -> exists r h, nth_error figs (2 * i) = Some r /\ nth_error figs (2 * i + 1) = Some h /\
    comparison_figure radius true (ad i) (nad i) r /\ comparison_figure radius false (ad i) (nad i) h.

(** the name of a subdirectory: as given, else the default *)
Definition name_of (given : option string) (default : string) : string := match given with Some p => p | None => default end.
(** settings of the information file: base directory, MESA directory and suffix, substrings of the profile and of the detail names *)
Record settings := { st_base : string; st_mesa : string; st_suffix : string; st_words : list string; st_detail : substr }.
Definition settings_of (full : info) (s : settings) : Prop :=
  dget "base_dir" full = Some (SStr (st_base s)) /\ dget "mesa_output_dir" full = Some (SStr (st_mesa s)) /\
  dget "mesa_suffix" full = Some (SStr (st_suffix s)) /\
  (dget "mesa_profile_substrings" full = Some (STuple (st_words s)) \/ dget "mesa_profile_substrings" full = Some (SList (st_words s))) /\
  dget "gyre_detail_substring" full = Some (st_detail s).
(** a directory in which mode i of the triplet has exactly one file, and that file holds f i; g: the constant of gravity *)
Definition triplet_in (es : list (entry val)) (q : search) (sub : substr) (g : R) (f : nat -> mode_file) : Prop :=
  (forall e, In e es -> e_file e = true -> no_newline (txt (e_name e)) /\ (forall i, (i < 3)%nat -> names_mode q sub true i (e_name e) -> readable (e_name e))) /\
  forall i, (i < 3)%nat -> exists e, the_only (fun e => e_file e = true /\ names_mode q sub true i (e_name e)) es e /\ ~ text_file (e_name e) /\
    exists s, sc_G s = g /\ detail_file s (e_content e) (f i).
(** a directory with exactly one profile: the file e, which holds some known column *)
Definition profile_in (es : list (entry val)) (s : settings) (e : entry val) : Prop :=
  let asked e := e_file e = true /\ mesa_conds (st_suffix s) (e_name e) = true /\ forall w, In w (st_words s) -> occurs (txt w) (txt (e_name e)) in
  (forall e, In e es -> asked e -> readable (e_name e)) /\ the_only asked es e /\ ~ text_file (e_name e) /\ exists k, In k mesa_attrs /\ stored (e_content e) k <> None.

(** ** Profiles of the stellar model *)
(** the maximum of a list *)
Definition maximum (l : list R) (m : R) : Prop := In m l /\ forall x, In x l -> (x <= m)%R.
(** the columns drawn, with their legend labels, figure by figure; None: the difference of two columns *)
Definition profile_table : list (string * list (string * option string)) :=
  [("x", [("h1", Some "h1"); ("h2", Some "h2"); ("he3", Some "he3"); ("he4", Some "he4")]);
   ("N$^2$", [("brunt_N2", Some "N$^2$"); ("brunt_N2_structure_term", Some "N$^2_{structure}$"); ("brunt_N2_composition_term", Some "N$^2_{composition}$")]);
   ("S$^2$", [("lamb_S2", None)]); ("c$_{s}$", [("csound", None)]); ("lhs - rhs", []);
   ("(d$\Gamma_1$/dr)$_S$", [("gamma_1_adDer", None)]);
   ("log D", [("log_D_mix", Some "log_D_mix"); ("log_D_conv", Some "log_D_conv"); ("log_D_ovr", Some "log_D_ovr"); ("log_D_minimum", Some "log_D_min")]);
   ("P", [("pressure", None)]); ("log $\rho$", [("logRho", None)]); ("log T", [("logT", None)]);
   ("$\Delta$", [("grada", Some "$\Delta_a$"); ("gradT", Some "$\Delta_T$"); ("gradr", Some "$\Delta_r$")])].
(** columns a profile must hold for the figures: the horizontal coordinate and everything drawn *)
Definition needed (radius : bool) : list string :=
  (if radius then "radius" else "mass") :: "hyeq_lhs" :: "hyeq_rhs" :: flat_map (fun f => map fst (snd f)) profile_table.
