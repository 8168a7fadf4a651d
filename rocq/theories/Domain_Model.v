(** * Model of the figure of stability domains, in exact real arithmetic.
    Source: VB_et_al_2024_additional_plot_compute_scripts/dziembowski_subplot.py (ds).
    Simplifications: IEEE doubles are real numbers; a two-dimensional array is a list of rows; a numpy
    product of booleans is [&&]; where 1 - theta2 - theta3 = 0 the code divides by zero (inf or NaN) and
    the comparison yields some boolean, multiplied by [general] = False, so that the value is False
    whatever that boolean is: Coq's value of x / 0 is harmless. Drawing (matplotlib), colours, tick
    marks and metadata are left out. *)
From Coq Require Import Reals ZArith List Bool String.
From Verif Require Import Stab_Model.
Import ListNotations.
Local Open Scope R_scope.

(** math.ceil *)
Definition Rceil (x : R) : Z := (1 - up (- x))%Z.
(** numpy.arange(start, stop, step): ceil((stop - start) / step) values start + i * step *)
Definition arange (start stop step : R) : list R :=
  map (fun i => start + INR i * step) (seq 0 (Z.to_nat (Rceil ((stop - start) / step)))).

(** ds:72-100. numpy.meshgrid(t, t): X repeats t in every row, Y is constant along a row. *)
Definition comp_meshgrid (theta_min theta_max dtheta : R)
  : list (list R) * list (list R) * (R * R * R * R) :=
  let theta_range := arange theta_min theta_max dtheta in
  (map (fun _ => theta_range) theta_range,
   map (fun y => map (fun _ => y) theta_range) theta_range,
   (theta_min, theta_max, theta_min, theta_max)).

(** ds:103-151, one entry of the arrays *)
Definition original_domain (theta2 theta3 domega_gamma1 : R) : bool :=
  let theta23 := theta2 * theta3 in
  let thetas := theta2 + theta3 - 1 in
  let coeffq0 := - thetas ^ 3 - 2 * theta23 in
  let coeffq2 := -12 * theta23 + thetas * ((theta2 - theta3) ^ 2 + (theta2 + theta3) ^ 2 + 2) in
  let coeffq4 := 3 * (-6 * theta23 + thetas * ((theta2 - theta3) ^ 2 + 2 * (theta2 + theta3) ^ 2 + 1)) in
  let q := domega_gamma1 / (- thetas) in
  let quartic := Rltb 0 (coeffq0 + coeffq2 * q ^ 2 + coeffq4 * q ^ 4) in
  let general := Rltb 0 thetas in
  quartic && general.

(** ds:154-201, one entry of the arrays *)
Definition corrected_domain (theta2 theta3 domega_gamma1 : R) : bool :=
  let theta23 := theta2 * theta3 in
  let thetas := - theta2 - theta3 + 1 in
  let coeffq0 := thetas ^ 3 - 2 * theta23 in
  let coeffq2 := -12 * theta23 - thetas * ((theta2 - theta3) ^ 2 + (theta2 + theta3) ^ 2 + 2) in
  let coeffq4 := -18 * theta23 - 3 * thetas * (thetas ^ 2 + 4 * (theta2 + theta3 - theta23)) in
  let q := domega_gamma1 / thetas in
  let quartic := Rltb 0 (coeffq0 + coeffq2 * q ^ 2 + coeffq4 * q ^ 4) in
  let general := Rltb thetas 0 in
  quartic && general.

(** elementwise application of the two functions to the arrays X and Y (broadcasting) *)
Fixpoint map2 {A B C} (f : A -> B -> C) (l : list A) (k : list B) : list C :=
  match l, k with a :: l', b :: k' => f a b :: map2 f l' k' | _, _ => [] end.
Definition on_arrays (f : R -> R -> R -> bool) (X Y : list (list R)) (dg1 : R) : list (list bool) :=
  map2 (fun xs ys => map2 (fun x y => f x y dg1) xs ys) X Y.

(** ds:337-366 *)
Record grid_info := { domega_gamma1 : list R; theta_min : list R; theta_max : list R; dtheta : list R }.
Definition get_grid_information (first_row : bool) : grid_info :=
  if first_row then
    {| domega_gamma1 := [1/10; 1; 10]; theta_min := [1/100; 1/10; 1/10];
       theta_max := [3; 10; 40]; dtheta := [25/10000; 25/10000; 1/100] |}
  else
    {| domega_gamma1 := [100; 1000; 10000]; theta_min := [1/10; 1/10; 1/10];
       theta_max := [280; 750; 8000]; dtheta := [5/100; 5/10; 5] |}.

(** what a panel shows: the two boolean arrays (hatched, coloured) and the extent of the coloured one *)
Record panel := { p_dg1 : R; p_X : list (list R); p_Y : list (list R); p_original : list (list bool);
  p_corrected : list (list bool); p_extent : R * R * R * R }.
(** ds:518-539, one turn of the loop *)
Definition make_panel (dg1 tmi tma dth : R) : panel :=
  let '(X, Y, extent) := comp_meshgrid tmi tma dth in
  {| p_dg1 := dg1; p_X := X; p_Y := Y; p_original := on_arrays original_domain X Y dg1;
     p_corrected := on_arrays corrected_domain X Y dg1; p_extent := extent |}.
(** ds:512-516: the loop over zip of the lists (the lists of axes have three entries as well) *)
Definition make_panels (g : grid_info) : list panel :=
  map2 (fun '(a, b) '(c, d) => make_panel a b c d) (combine (domega_gamma1 g) (theta_min g))
    (combine (theta_max g) (dtheta g)).

(** matplotlib.axes.imshow(Z, origin='lower', extent=(l, r, b, t)): an array of n columns is drawn as n
    cells of equal width that fill [l, r]; the centre of column j (likewise for rows, from b upwards). *)
Definition cell_centre (l r : R) (n j : nat) : R := l + (INR j + 1 / 2) * ((r - l) / INR n).

Local Open Scope string_scope.
(** ds:419-443 *)
Definition generate_save_name (add_text first_row : bool) : string :=
  match add_text, first_row with
  | true, false => "Stability_domain_dg1_subplot_e2_e3_e4_VB_et_al_2024_annotated.png"
  | true, true => "Stability_domain_dg1_subplot_e-1_e0_e1_VB_et_al_2024_annotated.png"
  | false, false => "Stability_domain_dg1_subplot_e2_e3_e4_VB_et_al_2024.png"
  | _, _ => "Stability_domain_dg1_subplot_e-1_e0_e1_VB_et_al_2024.png"
  end.
