(** * Model of the kernel figures of a profile run (view_kernels). Sources, all under
    aesolver/aesolver/solver, cited as
    kf = profile_plot_classes/kernel_plots/kernel_figure.py
    gf = profile_plot_classes/kernel_plots/generic_functions.py
    rp = profile_plot_classes/kernel_plots/radial_kernel_plots.py
    ap = profile_plot_classes/kernel_plots/angular_kernel_plots.py
    rl = profile_helper_classes/radial_kernels/radial_kernel_labeler.py
    re = profile_helper_classes/radial_kernels/radial_kernel_label_enumeration.py
    al = profile_helper_classes/angular_kernels/angular_kernel_labeler.py
    ae = profile_helper_classes/angular_kernels/angular_kernel_label_enumeration.py
    qs = quadratic_solver.py (the same code is in quadratic_profile.py:520-700).
    The kernels themselves are those of Kernel_Model. Simplifications: a figure is the list of its
    panels, a panel the lines drawn on it with the texts and limits set by the code; fonts, sizes,
    ticks, colours and layout are left out; matplotlib draws the real part of complex data; the
    text of a floating-point number is the parameter [ftext]; paths are texts. *)
From Coq Require Import Reals List ZArith Bool String Ascii.
From Coquelicot Require Import Complex.
From Verif Require Import Base Py Saver_Model Freq_Model Coupling_Model Kernel_Model.
Import ListNotations.
Local Open Scope string_scope.
Local Open Scope list_scope.
Local Open Scope res_scope.

Notation "a +++ b" := (String.append a b) (at level 60, right associativity).

(** ** What is on a figure *)
Record line := { l_label : string; l_n : nat; l_x : nat -> R; l_y : nat -> R }.
Record panel := {
  p_lines : list line;
  p_title : option string;
  p_xlim : R * R;
  p_xlabel : string;
  p_ylabel : option string;
  p_shade : option (list bool)      (* fill_between(..., where=...) over the radial grid *)
}.
Definition file := (string * list panel)%type.

(** ** Figure templates *)
(** kf:35-61 with kf:22-32: the axes made by add_gridspec(rows, cols).subplots(); matplotlib rejects
    sizes that are not positive *)
Definition grid_axes (cols rows : Z) : res nat :=
  if ((cols <? 1) || (rows <? 1))%Z then Exc ValueError
  else if ((cols =? 1) && (rows =? 1))%Z then Ok 1%nat
  else if (cols =? 1)%Z then Ok (Z.to_nat rows)
  else if (rows =? 1)%Z then Ok (Z.to_nat cols)
  else Exc SystemExit.
(** kf:87-103, _set_axis_labels() *)
Definition y_label (number : Z) (part : string) : string :=
  "$\left(\eta_1^{(" +++ str_of_Z number +++ ")}\right)_{" +++ part +++ "}$".
(** kf:106-121 (shading), 78-80 (limits), 87-103 (labels): one axis of kernel_fig() *)
Definition new_panel (number : Z) (xlim : R * R) (xlabel part : string) (data : bool) (tar : option (list bool)) (i : nat) : panel :=
  {| p_lines := []; p_title := None; p_xlim := xlim; p_xlabel := xlabel;
     p_ylabel := if (i =? 0)%nat then Some (y_label number part) else None;
     p_shade := if data then tar else None |}.
(** kf:124-169, kernel_fig(); [data]: is cc_contribution_data given? *)
Definition kernel_fig (number : Z) (xlim : R * R) (xlabel part : string) (cols rows : Z) (data : bool) (tar : option (list bool)) : res (list panel) :=
  n <- grid_axes cols rows ; Ok (map (new_panel number xlim xlabel part data tar) (seq 0 n)).
(** rp:27-49, _radial_kernel_fig() *)
Definition radial_kernel_fig (number : Z) (tar : option (list bool)) (cols : Z) : res (list panel) :=
  kernel_fig number (0%R, 1%R) "r / R" "k" cols 1 true tar.
(** ap:31-51, _angular_kernel_fig() *)
Definition angular_kernel_fig (number : Z) (cols : Z) : res (list panel) :=
  kernel_fig number ((-1)%R, 1%R) "$\mu$" "k\,\mu" cols 1 false None.

(** ** Labels *)
(** value of an enumeration member, by name *)
Fixpoint member {V} (l : list (string * V)) (name : string) : option V :=
  match l with [] => None | (k, v) :: t => if (k =? name)%string then Some v else member t name end.

(** re:11-34, LabelInfoPlot (radial) *)
Definition rad_members : list (string * string) :=
  [ ("_Z_1", "z_1"); ("_RAD_DIVERG", "H"); ("_RAD_DER_X_Z_1", "\dfrac{\partial(r\,z_1)}{\partial r}");
    ("_Z_2_OVER_C_1_OMEGA", "\dfrac{z_2}{c_1\,\bar{\omega}^2}");
    ("_RAD_DER_X_Z_2_C_1_OMEGA", "\dfrac{\partial}{\partial r}\,(r\,\dfrac{z_2}{c_1\,\bar{\omega}^2})");
    ("PRESSURE", "P"); ("_GAM_MIN", "(\Gamma_1 - 1)"); ("_GAM_MIN_SQ", "(\Gamma_1 - 1)^2");
    ("DER_GAMMA_1_AD", "\left(\dfrac{\partial \Gamma_1}{\partial \ln \rho}\right)_S");
    ("DENSITY", "\rho"); ("_R3", "r^3"); ("_R2", "r^2"); ("RADIAL_COORDINATE", "r");
    ("D3GRAVPOT", "\dfrac{\partial^3 \Phi}{\partial r^3}"); ("D2GRAVPOT", "\dfrac{\partial^2 \Phi}{\partial r^2}");
    ("DGRAVPOT", "\dfrac{\partial \Phi}{\partial r}") ].
(** re:60-73, SpecificLabelInfoPlot (radial): the texts around the specifier after format() *)
Definition rad_specific : list (string * (string * string)) :=
  [ ("_RAD_DIVERG", ("(H)_{", "}")); ("_Z_1", ("(z_{1})_{", "}"));
    ("_Z_2_OVER_C_1_OMEGA", ("\left(\dfrac{z_2}{c_1\,\bar{\omega}^2}\right)_{", "}"));
    ("_RAD_DER_X_Z_1", ("\left(\dfrac{\partial(r\,z_1)}{\partial r}\right)_{", "}")) ].
(** ae:12-24, LabelInfoPlot (angular) *)
Definition ang_members : list (string * string) :=
  [ ("HR", "H_r"); ("HT", "H_\theta"); ("HP", "H_\phi"); ("MHR", "m\,H_r");
    ("THETA_DER_HR_THETA", "\partial\,H_r"); ("THETA_DER_HT_THETA", "\partial\,H_\theta");
    ("THETA_DER_HP_THETA", "\partial\,H_\phi"); ("PHI_PHI", "H_\phi^\phi"); ("THETA_PHI", "H_\phi^\theta") ].
(** ae:51-63, SpecificLabelInfoPlot (angular) *)
Definition ang_specific : list (string * (string * string)) :=
  [ ("HR", ("\left(H_r\right)_{", "}")); ("HT", ("\left((H_\theta\right)_{", "}")); ("HP", ("\left(H_\phi\right)_{", "}"));
    ("MHR", ("\left(m\,H_r\right)_{", "}")); ("THETA_DER_HR_THETA", ("\left(\partial\,H_r\right)_{", "}"));
    ("THETA_DER_HT_THETA", ("\left(\partial\,H_\theta\right)_{", "}"));
    ("THETA_DER_HP_THETA", ("\left(\partial\,H_\phi\right)_{", "}"));
    ("PHI_PHI", ("\left(H_\phi^\phi\right)_{", "}")); ("THETA_PHI", ("\left(H_\phi^\theta\right)_{", "}")) ].
(** re:36-57, ae:26-47: get_plot_label(), an unknown name gives the empty text *)
Definition plot_label (t : list (string * string)) (name : string) : string :=
  match member t (upper name) with Some v => v | None => "" end.
(** re:75-102, ae:65-92 *)
Definition plot_label_specific (t : list (string * (string * string))) (name spec : string) : string :=
  match member t (upper name) with Some (a, b) => a +++ spec +++ b | None => "" end.

(** the names of the radial functions (Coupling_Model), of the angular functions and of the profiles *)
Definition rname (a : rterm) : string :=
  match a with
  | RDerXZ1 => "_rad_der_x_z_1" | RDerXZ2c => "_rad_der_x_z_2_c_1_omega" | RDiverg => "_rad_diverg" | RZ1 => "_z_1"
  | RZ2c => "_z_2_over_c_1_omega" | RXZ1 => "_x_z_1" | RXZ2c => "_x_z_2_over_c_1_omega"
  end.
Definition aname (a : aterm) : string :=
  match a with
  | Hr => "hr" | Ht => "ht" | Hp => "hp" | DHr => "theta_der_hr_theta" | DHt => "theta_der_ht_theta"
  | DHp => "theta_der_hp_theta" | ThPh => "theta_phi" | PhPh => "phi_phi" | MHr => "mhr"
  end.
Definition pname (p : profile) : string :=
  match p with
  | Pressure => "pressure" | GamMin => "_gam_min" | GamMinSq => "_gam_min_sq" | DerGam => "der_gamma_1_ad" | Density => "density"
  | PR3 => "_r3" | PR2 => "_r2" | PR1 => "radial_coordinate" | DPhi => "dgravpot" | D2Phi => "d2gravpot" | D3Phi => "d3gravpot"
  end.
Definition names3 {A} (f : A -> string) (t : A * A * A) : list string := let '(a, b, c) := t in [f a; f b; f c].
(** rl:37-63, al:40-66: the texts of the legend entries, one for each row of a symmetrised kernel,
    a single one with mode specifiers otherwise *)
Definition legend_strings {A} (f : A -> string) (members : list (string * string)) (specific : list (string * (string * string)))
    (t : kterm A) : list string :=
  if t_sym t then map (fun r => join ", " (map (plot_label members) (names3 f (fst r)))) (t_rows t)
  else match t_rows t with
       | [] => [""]
       | r :: _ => [ join ", " (map (fun p => plot_label_specific specific (fst p) (snd p)) (combine (names3 f (fst r)) ["A"; "B"; "C"])) ]
       end.

(** what the figures are made from: legend texts, title, rows, symmetric? *)
Record kdraw := { d_legend : list string; d_title : string; d_rows : list (nat -> R); d_sym : bool }.

(** rl:26-80, generate_plot_labels() *)
Definition radial_entry (t : kterm rterm) (ps : list profile) : kdraw :=
  {| d_legend := map (fun l => "$" +++ l +++ "$") (legend_strings rname rad_members rad_specific t);
     d_title := "$" +++ join "\," (map (fun p => plot_label rad_members (pname p)) ps) +++ "$";
     d_rows := map (fun r i => Re (snd r i)) (t_rows t);
     d_sym := t_sym t |}.

(** al:196-228, math.isclose(val, 1.0) and math.isclose(val, -1.0): relative tolerance 1e-09 *)
Definition is_close (a b : R) : bool :=
  if Rle_dec (Rabs (a - b)) (1 / 1000000000 * Rmax (Rabs a) (Rabs b)) then true else false.
(** al:119-193, _get_individual_label_string() *)
Definition individual_label (ftext : R -> string) (mu div : bool) (factor : R) (partial : string) (sym : bool) : string :=
  let mine := if sym then "[" +++ partial +++ "]" else partial in
  let frac := fun num => "$\dfrac{" +++ num +++ mine +++ "}{\sqrt{1 - \mu^2}}$" in
  match mu, div with
  | false, false =>
      if is_close factor 1 then "$" +++ mine +++ "$"
      else if is_close factor (-1) then "$-\," +++ mine +++ "$"
      else "$" +++ ftext factor +++ "\,[" +++ mine +++ "]$"
  | true, false =>
      if is_close factor 1 then "$\mu\," +++ mine +++ "$"
      else if is_close factor (-1) then "$-\,\mu\," +++ mine +++ "$"
      else "$" +++ ftext factor +++ "\,\mu" +++ "\," +++ mine +++ "$"
  | false, true =>
      if is_close factor 1 then frac ""
      else if is_close factor (-1) then frac "-\,"
      else frac (ftext factor +++ "\,")
  | true, true =>
      if is_close factor 1 then frac "\mu\,"
      else if is_close factor (-1) then frac "-\,\mu\,"
      else frac (ftext factor +++ "\,\mu\,")
  end.
(** al:28-116, generate_angular_plot_labels() and _get_total_label_string() *)
Definition angular_entry (ftext : R -> string) (e : aterm_entry) : kdraw :=
  {| d_legend := map (fun s => individual_label ftext (a_mu e) (a_div e) (a_factor e) s (t_sym (a_term e)))
                     (legend_strings aname ang_members ang_specific (a_term e));
     d_title := "";
     d_rows := map (fun r k => Re (snd r k)) (t_rows (a_term e));
     d_sym := t_sym (a_term e) |}.

(** ** Drawing *)
(** Axes.plot(x, y, label=...) with one column of y per row: one text for all the lines, or one
    text for each line (matplotlib raises ValueError when their numbers differ) *)
Inductive label_arg := LStr (s : string) | LList (l : list string).
Definition plot_lines (n : nat) (x : nat -> R) (rows : list (nat -> R)) (label : label_arg) : res (list line) :=
  match label with
  | LStr s => Ok (map (fun y => {| l_label := s; l_n := n; l_x := x; l_y := y |}) rows)
  | LList l => if (List.length l =? List.length rows)%nat
               then Ok (map (fun p => {| l_label := fst p; l_n := n; l_x := x; l_y := snd p |}) (combine l rows))
               else Exc ValueError
  end.
Definition draw (n : nat) (x : nat -> R) (rows : list (nat -> R)) (label : label_arg) (p : panel) : res panel :=
  ls <- plot_lines n x rows label ;
  Ok {| p_lines := p_lines p ++ ls; p_title := p_title p; p_xlim := p_xlim p; p_xlabel := p_xlabel p; p_ylabel := p_ylabel p; p_shade := p_shade p |}.
(** gf:73-90, set_title *)
Definition set_title (t : string) (p : panel) : panel :=
  {| p_lines := p_lines p; p_title := Some t; p_xlim := p_xlim p; p_xlabel := p_xlabel p; p_ylabel := p_ylabel p; p_shade := p_shade p |}.
(** axes_list[i].... *)
Definition on_axis (axes : list panel) (i : nat) (f : panel -> res panel) : res (list panel) :=
  match nth_error axes i with
  | None => Exc IndexError
  | Some p => q <- f p ; Ok (upd axes i q)
  end.
(** the panels of each figure, from the list of all axes *)
Fixpoint regroup (sizes : list nat) (axes : list panel) : list (list panel) :=
  match sizes with [] => [] | n :: t => firstn n axes :: regroup t (skipn n axes) end.

(** rp:137-152 and ap:159-171: the label argument of a contribution with several figures *)
Definition multiple_label (bracket : bool) (legend : list string) : res label_arg :=
  let b := fun l => if bracket then "[" +++ l +++ "]" else l in
  if (1 <? List.length legend)%nat then Ok (LList (map b legend))
  else match legend with [] => Exc IndexError | l :: _ => Ok (LStr (b l)) end.
(** the loops rp:134-165 and ap:157-180: term i is drawn on axis i; [bracket]: are brackets added
    to the legend of this term? [title]: the title of its panel, if any *)
Fixpoint draw_multiple (n : nat) (x : nat -> R) (bracket : kdraw -> bool) (title : kdraw -> option string)
    (i : nat) (terms : list kdraw) (axes : list panel) : res (list panel) :=
  match terms with
  | [] => Ok axes
  | d :: t =>
      label <- multiple_label (bracket d) (d_legend d) ;
      axes' <- on_axis axes i (fun p => q <- draw n x (d_rows d) label p ;
                                        Ok (match title d with Some s => set_title s q | None => q end)) ;
      draw_multiple n x bracket title (S i) t axes'
  end.
(** the loops rp:101-110 and ap:111-138: all the terms are drawn on the first axis *)
Fixpoint draw_single (n : nat) (x : nat -> R) (label : kdraw -> res string) (terms : list kdraw) (axes : list panel) : res (list panel) :=
  match terms with
  | [] => Ok axes
  | d :: t =>
      l <- label d ;
      axes' <- on_axis axes 0 (draw n x (d_rows d) (LStr l)) ;
      draw_single n x label t axes'
  end.

(** rp:91-125: legend_entry of the single figure *)
Definition radial_single_label (scale : string) (d : kdraw) : res string :=
  match d_legend d with
  | [] => Exc IndexError
  | l :: _ => Ok (d_title d +++ "$\,\,$[" +++ l +++ "]" +++ scale)
  end.

(** repr() of a text of printable characters: quotes and backslashes *)
Fixpoint has (c : ascii) (s : string) : bool :=
  match s with EmptyString => false | String d t => (d =? c)%char || has c t end.
Definition quote : ascii := "'".
Definition dquote : ascii := """".
Definition backslash : ascii := "\".
Fixpoint escape (q : ascii) (s : string) : string :=
  match s with
  | EmptyString => EmptyString
  | String c t => if ((c =? backslash) || (c =? q))%char then String backslash (String c (escape q t)) else String c (escape q t)
  end.
Definition py_repr (s : string) : string :=
  let q := if has quote s && negb (has dquote s) then dquote else quote in
  String q (escape q s +++ String q EmptyString).
(** str() of a list of texts *)
Definition str_of_list (l : list string) : string := "[" +++ join ", " (map py_repr l) +++ "]".
(** s.replace(ab, r) for a text ab of two characters *)
Fixpoint replace2 (a b r : ascii) (s : string) : string :=
  match s with
  | EmptyString => EmptyString
  | String c t =>
      match t with
      | EmptyString => s
      | String d u => if ((c =? a) && (d =? b))%char then String r (replace2 a b r u) else String c (replace2 a b r t)
      end
  end.
(** s.encode().decode('unicode_escape') for printable ASCII: backslash escapes of backslashes and quotes,
    the one-letter escapes; unknown escapes are kept; octal, hexadecimal and named escapes are not modelled
    (ValueError), nor is a final backslash, which raises UnicodeDecodeError, a ValueError *)
Fixpoint unescape (s : string) : res string :=
  match s with
  | EmptyString => Ok EmptyString
  | String c t =>
      if (c =? backslash)%char then
        match t with
        | EmptyString => Exc ValueError
        | String d u =>
            v <- unescape u ;
            if ((d =? backslash) || (d =? quote) || (d =? dquote))%char then Ok (String d v)
            else match d with
                 | "a" => Ok (String "007" v) | "b" => Ok (String "008" v) | "f" => Ok (String "012" v) | "n" => Ok (String "010" v)
                 | "r" => Ok (String "013" v) | "t" => Ok (String "009" v) | "v" => Ok (String "011" v)
                 | "x" | "u" | "U" | "N" | "0" | "1" | "2" | "3" | "4" | "5" | "6" | "7" => Exc ValueError
                 | _ => Ok (String c (String d v))
                 end%char
        end
      else v <- unescape t ; Ok (String c v)
  end.
(** ap:112-127: legend_entry of the single figure *)
Definition angular_single_label (d : kdraw) : res string :=
  let text := if d_sym d then "[" +++ str_of_list (d_legend d) +++ "]" else str_of_list (d_legend d) in
  unescape (replace2 "$" quote "$" (replace2 quote "$" "$" text)).

(** the figures, in the order of nr_plot_cols *)
Fixpoint all_figs (fig : Z -> res (list panel)) (cols : list Z) : res (list (list panel)) :=
  match cols with [] => Ok [] | c :: t => f <- fig c ; fs <- all_figs fig t ; Ok (f :: fs) end.
(** file names *)
Definition multiple_name (path : string) (number : Z) (kind : string) (part : string) (i : nat) : string :=
  path +++ "/cc_contribution_" +++ str_of_Z number +++ "_" +++ kind +++ "_kernels_nr_" +++ str_of_Z (Z.of_nat i + 1) +++ part +++ ".png".
Definition single_name (path : string) (number : Z) (part : string) : string :=
  path +++ "/cc_contribution_" +++ str_of_Z number +++ "_radial_kernels" +++ part +++ ".png".
(** the saving loops rp:167-180, ap:181-193; gf:16-70 *)
Definition save_multiple (path : string) (number : Z) (kind part : string) (figs : list (list panel)) : list file :=
  map (fun p => (multiple_name path number kind part (fst p), snd p)) (combine (seq 0 (List.length figs)) figs).

(** rp:52-180, create_radial_contribution_figures_for_specific_contribution(): the files saved *)
Definition radial_figures (n : nat) (x : nat -> R) (number : Z) (terms : list kdraw) (cols : list Z) (path part : string)
    (tar : option (list bool)) (scale : string) (single : bool) : res (list file) :=
  figs <- all_figs (radial_kernel_fig number tar) cols ;
  let axes := List.concat figs in
  if single then
    axes' <- draw_single n x (radial_single_label scale) terms axes ;
    match regroup (map (@List.length panel) figs) axes' with
    | [] => Exc IndexError
    | f :: _ => Ok [(single_name path number part, f)]
    end
  else
    axes' <- draw_multiple n x (fun _ => true) (fun d => Some (d_title d +++ scale)) 0 terms axes ;
    Ok (save_multiple path number "radial" part (regroup (map (@List.length panel) figs) axes')).
(** ap:54-193, create_angular_contribution_figures_for_specific_contribution() *)
Definition angular_figures (n : nat) (x : nat -> R) (number : Z) (terms : list kdraw) (cols : list Z) (path part : string)
    (single : bool) : res (list file) :=
  figs <- all_figs (angular_kernel_fig number) cols ;
  let axes := List.concat figs in
  if single then
    axes' <- draw_single n x angular_single_label terms axes ;
    match regroup (map (@List.length panel) figs) axes' with
    | [] => Exc IndexError
    | f :: _ => Ok [(single_name path number part, f)]
    end
  else
    axes' <- draw_multiple n x (fun d => negb (d_sym d)) (fun _ => None) 0 terms axes ;
    Ok (save_multiple path number "angular" part (regroup (map (@List.length panel) figs) axes')).

(** ** The kernel part of compute_mode_triad_profile(), qs:1669-1850 *)
(** the dictionaries of the kernels; a number outside 1..4 would give None *)
Definition radial_dict (K : kenv) (nr : Z) : res (list kdraw) :=
  match e_adder (k_E K) with
  | None => Exc AttributeError
  | Some ad =>
      match radial_table nr with
      | None => Exc AttributeError
      | Some l => Ok (map (fun '(sym, t, f, ps) => radial_entry (radial_kernel_term K ad sym t f ps) ps) l)
      end
  end.
Definition angular_dict (ftext : R -> string) (E : cenv) (nr : Z) : res (list kdraw) :=
  match angular_kernels E nr with None => Exc AttributeError | Some l => Ok (map (angular_entry ftext) l) end.
(** a program that saves files: those saved so far, and the way it ends *)
Definition saving (A : Type) := (list file * res A)%type.
Definition sbind {A B} (m : saving A) (k : A -> saving B) : saving B :=
  match snd m with
  | Ok a => (fst m ++ fst (k a), snd (k a))
  | UB => (fst m, UB)
  | Exc e => (fst m, Exc e)
  end.
Definition quiet {A} (r : res A) : saving A := ([], r).
Definition save (r : res (list file)) : saving unit :=
  match r with Ok fs => (fs, Ok tt) | UB => ([], UB) | Exc e => ([], Exc e) end.
Definition energy_scale : string := "$\,\left(\dfrac{{r^3}}{{\epsilon}}\right)$".
Definition view_kernels (ftext : R -> string) (K : kenv) (tar : list bool) (path part : string) : saving unit :=
  let E := k_E K in
  let ang := fun d nr cols single => save (angular_figures (e_nmu E) (e_mu E) nr d cols (path +++ "/angular_kernels") part single) in
  let rad := fun d nr cols single => save (radial_figures (e_n E) (e_x E) nr d cols (path +++ "/radial_kernels") part (Some tar) energy_scale single) in
  sbind (quiet (angular_dict ftext E 1)) (fun a1 =>
  sbind (quiet (angular_dict ftext E 2)) (fun a2 =>
  sbind (quiet (angular_dict ftext E 3)) (fun a3 =>
  sbind (quiet (angular_dict ftext E 4)) (fun a4 =>
  sbind (ang a1 1%Z [2; 2; 2; 2; 2]%Z false) (fun _ =>
  sbind (ang a2 2%Z [1]%Z true) (fun _ =>
  sbind (ang a3 3%Z [3; 3; 3; 3; 3; 3; 3; 3]%Z false) (fun _ =>
  sbind (ang a4 4%Z [3]%Z false) (fun _ =>
  sbind (quiet (radial_dict K 1)) (fun r1 =>
  sbind (quiet (radial_dict K 2)) (fun r2 =>
  sbind (quiet (radial_dict K 3)) (fun r3 =>
  sbind (quiet (radial_dict K 4)) (fun r4 =>
  sbind (rad r1 1%Z [3; 3]%Z false) (fun _ =>
  sbind (rad r2 2%Z [1]%Z true) (fun _ =>
  sbind (rad r3 3%Z [3; 3; 3; 3]%Z false) (fun _ =>
  rad r4 4%Z [3]%Z false))))))))))))))).
