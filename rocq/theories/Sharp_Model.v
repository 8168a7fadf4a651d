(** * Model of the resonance-sharpness figure.
    Sources below aesolver/aeplotter/: sh = resonance_sharpness/histogram.py, sp = resonance_sharpness/plot.py,
    sf = resonance_sharpness/figure_class.py, of = overview_plot/figure_class.py, gh = library_functions/generic_histograms.py,
    qp = quadratic_plotter.py; the histogram maker is Hist_Model (bl = histogram_maker/hogg_jacky/blas_jacky.py).
    Simplifications: as in Hist_Model (exact real arithmetic); a triad whose sharpness is not a finite number (the daughters' rates add up
    to zero) makes the outcome UB (not modelled).  Colours, hatches, axis labels, ticks, the legend and the layout of the figure
    (sp:67-94, 124-130) are not modelled: a figure is the list of its bars. *)
From Coq Require Import Reals List ZArith Bool String Ascii Lia Lra.
From Verif Require Import Base Py Hist_Model.
From Verif Require Plot_Model.
Import ListNotations.
Local Open Scope R_scope.

(** gh:24-34: bin numbers 2 .. min(max, n), smoothing 10^-2 .. 10^2, phase 0 *)
Definition setup_bins (max_nr_bins n : nat) : list nat := seq 2 (Nat.min max_nr_bins n + 1 - 2).
Definition setup_alphas : list R := [/ 100; / 10; 1; 10; 100].
Definition setup_phases : list R := [0].

(** sh:30-79 with log_scale = True, empirical_probability = True, empirical_density = False; bl:633-644 defaults for the rest *)
Definition sharpness_options (max_nr_bins n : nat) : options :=
  Options (Some setup_alphas) (Some (setup_bins max_nr_bins n)) setup_phases [1] false true false false false true.
Definition sharpness_histogram (data : list R) (max_nr_bins : nat) : res (option output) :=
  likelihood_log LBlas (Some (map Some data)) (sharpness_options max_nr_bins (List.length data)).

(** np.abs of an array without NaN or infinity *)
Definition finite_abs (l : list (option R)) : res (list R) := mapM (fun o => match o with Some x => Ok (Rabs x) | None => UB end) l.

(** what is stored on the figure object, sf:35-38 *)
Record stored := Stored { edges : option (list R); bin_width : option (list R); prob_isolated : option (list xr); prob_not_isolated : option (list xr) }.
(** sh:82-117.  A single datum: the width returned is the scalar 1.0 (shared_handling_functions.py:36), so len() raises (sh:94). *)
Definition plot_data (all iso non : list (option R)) : res stored :=
  (a <- finite_abs all ;
   i <- finite_abs iso ;
   n <- finite_abs non ;
   out <- sharpness_histogram a 100 ;
   minb <- match out with
           | None => Ok 1%nat
           | Some o => if Nat.eqb (List.length a) 1 then Exc TypeError else Ok (List.length (out_width o))
           end ;
   let e := option_map out_edges out in
   pi <- log_spec_edges LBlas (Some i) e true false minb false ;
   pn <- log_spec_edges LBlas (Some n) e true false minb false ;
   Ok (Stored e (option_map out_width out) pi pn))%res.

(** one call of Axes.bar: positions, heights, widths, and the number in the label *)
Record bars := Bars { centres : list R; heights : list xr; bar_widths : list R; label : nat }.
(** sp:13-21 *)
Definition x_coordinates (e : list R) : list R := map (fun p => (fst p + snd p) / 2) (combine (tl e) (removelast e)).
(** Axes.bar(x, height, width): np.broadcast_arrays of the three one-dimensional arguments, ValueError when they do not fit
    (a length of 1 is repeated; that cannot occur here together with a longer one and is not modelled) *)
Definition bar (x : list R) (h : list xr) (w : list R) (n : nat) : res bars :=
  if Nat.eqb (List.length x) (List.length h) && Nat.eqb (List.length x) (List.length w) then Ok (Bars x h w n)
  else if Nat.eqb (List.length x) 1 || Nat.eqb (List.length h) 1 || Nat.eqb (List.length w) 1 then UB
  else Exc ValueError.
(** sp:101-110: probability * 100 *)
Definition percent (p : list xr) : list xr := map (xmul 100) p.
(** sp:24-64: isolated bars first; [None] when a class is not drawn *)
Definition draw (s : stored) (counts_iso counts_non : list nat) : res (option bars * option bars) :=
  match option_map x_coordinates (edges s), bin_width s with
  | Some x, Some w =>
      (i <- match prob_isolated s with None => Ok None | Some p => b <- bar x (percent p) w (list_sum counts_iso) ; Ok (Some b) end ;
       n <- match prob_not_isolated s with None => Ok None | Some p => b <- bar x (percent p) w (list_sum counts_non) ; Ok (Some b) end ;
       Ok (i, n))%res
  | _, _ => Ok (None, None)
  end.
(** qp:192-201, 799-813 with sf:44-62, 178-191: from the loaded tables to the bars of the figure *)
Definition sharpness_figure (part : list R -> list nat) (ts : list (list Plot_Model.raw)) : res (option bars * option bars) :=
  (d <- Plot_Model.sharpness_data part ts ;
   s <- plot_data (Plot_Model.all_sharpness d) (Plot_Model.isolated_sharpness d) (Plot_Model.not_isolated_sharpness d) ;
   draw s (Plot_Model.isolated_counts d) (Plot_Model.not_isolated_counts d))%res.

(** ** Files *)
Local Open Scope string_scope.
(** pathlib: save_dir / subdir, for relative sub-directories without '.' or redundant separators; [dir] is not the current directory *)
Definition slash (dir sub : string) : string := dir ++ "/" ++ sub.
(** sf:144-159, of:56-72: the files written (the sub-directory is created when it is not empty) *)
Definition save_paths (dir subdir name extra : string) (formats : list string) : list string :=
  let template := name ++ (if Nat.ltb 0 (String.length extra) then "_" ++ extra else "") in
  let d := if Nat.ltb 0 (String.length subdir) then slash dir subdir else dir in
  map (fun f => d ++ "/" ++ template ++ "." ++ f) formats.
(** PurePath.name: the part after the last slash; PurePath.suffix: from its last dot, unless that is its first or last character *)
Fixpoint after_last (c : ascii) (s : string) (acc : string) : string :=
  match s with "" => acc | String a t => if Ascii.eqb a c then after_last c t t else after_last c t acc end.
Definition path_name (p : string) : string := after_last "/" p p.
Fixpoint has_char (c : ascii) (s : string) : bool := match s with "" => false | String a t => Ascii.eqb a c || has_char c t end.
(** .suffix[1:] is empty when there is no suffix *)
Definition suffix1 (p : string) : string :=
  let n := path_name p in
  match n with
  | "" => ""
  | String _ t => if has_char "." t then after_last "." t "" else ""
  end.
(** sf:194-228, of:128-162: figures written, with the format handed to savefig *)
Definition saved (paths : list string) : list (string * string) := map (fun p => (p, suffix1 p)) paths.
