(** * Model of the figures with coupling coefficient profiles.
    Sources: aesolver/aesolver/solver/profile_plot_classes/coupling_coefficient_plots/plot_template.py (pt), plot_styling.py (ps),
    solver/quadratic_profile.py 323-500 (qp; the same code in solver/quadratic_solver.py 1507-1606).
    A figure is what a reader of it sees: panels with curves over the fractional radius, shaded radii, axis labels and a twin
    axis with the profile of N^2; texts beside the panels; a legend.
    Simplifications: line widths, tick marks, scales, layouts and the line style are dropped; a colour None is the next one of
    matplotlib's own cycle; colours are strings; profiles are functions of the grid index as in Tar_Model; the labels given
    for the two panels are a pair instead of a list of length 2; the name part of the model and the profile are dropped from
    the file names. *)
From Coq Require Import Reals List Bool Arith String.
From Verif Require Import Base Tar_Model.
Import ListNotations.
Local Open Scope string_scope.
Local Open Scope nat_scope.

Definition profile := nat -> R.
(** the argument y_values: one profile or a list of them *)
Inductive ydata := One (y : profile) | Many (ys : list profile).
Record curve := mkCurve { c_y : profile; c_color : option string; c_label : option string }.
Record panel := mkPanel { p_curves : list curve; p_shade : option (list bool); p_xlabel : option string; p_ylabel : option string; p_twin : option profile }.
(** legend: the curves explained, and the given labels *)
Record figure := mkFigure { f_panels : list panel; f_texts : list string; f_legend : option (list curve * option (list string)) }.

(** ps:149-175; % with an empty list divides by zero *)
Definition custom_color_cycle (current_index : nat) (colors_list : list string) (skip_nr : nat) : res (string * nat) :=
  let mod_len := List.length colors_list in
  if mod_len =? 0 then Exc ZeroDivisionError
  else match nth_error colors_list ((current_index + skip_nr) mod mod_len) with
       | Some c => Ok (c, (current_index + skip_nr + 1) mod mod_len)
       | None => Exc IndexError
       end.
(** pt:90-94, 125-129: the numbers of colours skipped *)
Definition skipped (i : nat) : nat := if i =? 2 then 2 else if i =? 3 then 4 else 0.
(** pt:86-121 and 122-156: the loops over the curves; i counts them, index is color_index *)
Fixpoint cycle_curves (pal : list string) (i index : nat) (l : list (profile * option string)) : res (list curve) :=
  match l with
  | [] => Ok []
  | (y, lab) :: l' =>
      c <- custom_color_cycle index pal (skipped i) ;
      r <- cycle_curves pal (S i) (snd c) l' ;
      Ok (mkCurve y (Some (fst c)) lab :: r)
  end.
(** zip(y_values, legend_entries), or no labels *)
Definition labelled (ys : list profile) (entries : option (list string)) : list (profile * option string) :=
  match entries with
  | None => map (fun y => (y, None)) ys
  | Some es => map (fun p => (fst p, Some (snd p))) (combine ys es)
  end.
(** ps:82-98 *)
Definition x_label_of (show : bool) : option string := if show then Some "r / R" else None.
(** ps:100-116 *)
Definition legend_of (multiple plot : bool) (handles : list curve) (entries : option (list string)) : option (list curve * option (list string)) :=
  if multiple && plot then Some (handles, entries) else None.
(** ps:119-137 *)
Definition n2_text : string := "$N^2$ (Hz)".
Definition is_many (y : ydata) : bool := match y with Many _ => true | One _ => false end.
(** the twin axis and the text (pt:173-190, 489-506) *)
Definition twin_of (y : ydata) (brunt : option profile) : option profile := if is_many y then None else brunt.
Definition texts_of (y : ydata) (brunt : option profile) (brunt_label : bool) : list string :=
  match twin_of y brunt with Some _ => if brunt_label then [n2_text] else [] | None => [] end.

(** pt:59-202 single_integrated_radial_profile_figure_template_function; pal is the list of colours of the property cycle *)
Definition single_figure (pal : list string) (y : ydata) (ylabel : option string) (brunt : option profile) (brunt_label show_x plot_legend : bool)
    (entries : option (list string)) : res figure :=
  curves <- match y with
            | One p => Ok [mkCurve p (Some "xkcd:darkblue") None]
            | Many ys => cycle_curves pal 0 0 (labelled ys entries)
            end ;
  Ok (mkFigure [mkPanel curves None (x_label_of show_x) ylabel (twin_of y brunt)] (texts_of y brunt brunt_label)
        (legend_of (is_many y) plot_legend curves entries)).

(** pt:424-522 create_individual_figure_coupling_profile: adds to one panel, and texts and a legend to the figure *)
Definition individual (y : ydata) (ylabel : option string) (mask : list bool) (brunt : option profile) (brunt_label show_x plot_legend : bool)
    (entries : option (list string)) : panel * list string * option (list curve * option (list string)) :=
  let curves := match y with
                | One p => [mkCurve p (Some "xkcd:darkblue") None]
                | Many ys => map (fun p => mkCurve (fst p) None (snd p)) (labelled ys entries)
                end in
  (mkPanel curves (Some mask) (x_label_of show_x) ylabel (twin_of y brunt), texts_of y brunt brunt_label,
   legend_of (is_many y) plot_legend curves entries).
Definition second_legend {A} (a b : option A) : option A := match b with Some _ => b | None => a end.
(** two panels on one figure *)
Definition two_panels (a b : panel * list string * option (list curve * option (list string))) : figure :=
  let '(p, t, l) := a in let '(q, u, m) := b in mkFigure [p; q] (t ++ u)%list (second_legend l m).
(** pt:206-421 double_masking_integrated_radial_profile_figure_template_function: plain values, adjusted values, figure,
    contributions; n is the number of grid points *)
Definition double_one (n : nat) (y : profile) (labels : string * string) (z : zones) (brunt : option profile) : R * R * figure * list R :=
  let a := adjust n y z in
  (plain a, adj_value a,
   two_panels (individual (One y) (Some (fst labels)) (z_valid z) brunt false false false None)
              (individual (One (adj_profile a)) (Some (snd labels)) (z_valid z) brunt true true false None),
   contributions a).
Definition double_many (n : nat) (ys : list profile) (labels : string * string) (z : zones) (brunt : option profile) (use_legend : bool)
    (entries : option (list string)) : list R * list R * figure * list (list R) :=
  let l := map (fun y => adjust n y z) ys in
  (map plain l, map adj_value l,
   two_panels (individual (Many ys) (Some (fst labels)) (z_valid z) None false false false entries)
              (individual (Many (map adj_profile l)) (Some (snd labels)) (z_valid z) brunt true true use_legend entries),
   map contributions l).

(** qp:323-500: the figures that are saved for a mode triad, with subdirectory and base name, in order; view is
    self._view_term_by_term *)
Definition term_label (i : string) : string := "$\eta_{1(,\,{\rm adj})}^{(" ++ i ++ ")}$".
Definition triad_figures (pal : list string) (n : nat) (cc brunt : profile) (terms : profile * profile * profile * profile) (z : zones) (view : bool)
  : res (list (string * string * figure)) :=
  single <- single_figure pal (One cc) (Some "$\eta_1\,(r)$") (Some brunt) true true false None ;
  let '(_, _, masked, _) := double_one n cc ("$\eta_1\,(r)$", "$\eta_{1,\,{\rm adj}}\,(r)$") z (Some brunt) in
  let '(t1, t2, t3, t4) := terms in
  let '(_, _, by_term, _) := double_many n [t1; t2; t3; t4] ("$\eta_1^{(i)}(r)$", "$\eta_{1,\,{\rm adj}}^{(i)}(r)$") z None true
      (Some [term_label "1"; term_label "2"; term_label "3"; term_label "4"]) in
  Ok ([("coupling_coefficient", "cc_profile_single", single); ("coupling_coefficient", "cc_profile", masked)]
      ++ if view then [("coupling_coefficient_contributions", "cc_contributions_profile", by_term)] else [])%list.
