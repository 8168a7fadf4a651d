(** * Model of the plotter's data (aesolver/aeplotter)
    Sources: quadratic_plotter.py (qp), library_functions/masking.py (pm), data_files/hdf5_data_path_mapper.py (dm),
    overview_plot/figure_class.py (fc), overview_plot/plot.py (pl), utility_functions.py (uf).
    pm:1-366 is character by character lines 1-366 of aesolver/ae_analyzer/library_functions/masking.py, so the functions
    of Mask_Model are used for it; qp:319-361, 465-568 and 585-630 are the same computations as the analyzer's, so the
    row functions of Ana_Model are used for them.  The analyzer's loading code (quadratic_stationary_analyzer.py 141-236)
    and path table are the same as the plotter's.
    Simplifications: a number is [Some x], or [None] for anything that is not a finite double; rounding is left out; an
    array element left arbitrary by np.empty counts as [None]; figures are the lists of points handed to matplotlib;
    log and progress messages, labels and styles are dropped. *)
From Coq Require Import Reals List ZArith Bool String.
From Verif Require Import Base Py Mask_Model Ana_Model.
From Verif Require Saver_Model.
Import ListNotations.
Local Open Scope R_scope.

(** ** Reading a results file *)
(** dm:76-119: the arrays and their places *)
Definition array_paths : list (string * string) := [
  ("surfs", "coupling/stationary_three_mode/surface_flux_variations");
  ("checks", "checks/pre_checks");
  ("driv_damp_rates", "linear_driving/driving_rates");
  ("theoretical_amps", "coupling/stationary_three_mode/equilibrium_theoretical_amplitudes");
  ("thresh_amp", "coupling/stationary_three_mode/critical_parent_amplitudes");
  ("rad_ord", "quantum_numbers/n");
  ("corot_mode_omegas", "mode_frequency_info/corot_mode_omegas");
  ("corot_mode_freqs", "mode_frequency_info/corot_mode_freqs");
  ("inert_mode_omegas", "mode_frequency_info/inert_mode_omegas");
  ("inert_mode_freqs", "mode_frequency_info/inert_mode_freqs");
  ("inert_dimless_mode_freqs", "mode_frequency_info/inert_dimless_mode_omegas");
  ("kappa", "coupling/generic/|kappa|");
  ("kappa_norm", "coupling/generic/|kappa_norm|");
  ("stationary_relative_luminosity_phase", "coupling/stationary_three_mode/stationary_relative_luminosity_phases")]%string.
(** my_h5[path][()]: KeyError if there is no such object, TypeError for a group *)
Definition h5_read (f : Saver_Model.file) (p : string) : res Saver_Model.arr :=
  match Saver_Model.obj f (Saver_Model.split_path p) with
  | Some (Saver_Model.Dset a) => Ok a
  | Some Saver_Model.Grp => Exc TypeError
  | None => Exc KeyError
  end.
Definition arrays := list (string * Saver_Model.arr).
(** qp:278-286 *)
Definition load_specific_file_data (f : Saver_Model.file) : res arrays :=
  mapM (fun kp => (a <- h5_read f (snd kp) ; Ok (fst kp, a))%res) array_paths.

(** one entry (triad) of the loaded arrays *)
Record raw := Raw {
  r_surfs : trip; r_checks : list bool; r_rates : trip; r_amps : trip; r_thresh_amp : option R;
  r_n : Z * Z * Z; r_corot : trip; r_inert : trip; r_inert_freq : trip; r_kappa : option R; r_kappa_norm : option R }.
Definition num_of (e : Saver_Model.elt) : option R := match e with Saver_Model.Num r => Some r | _ => None end.
Definition bool_of (e : Saver_Model.elt) : bool :=
  match e with Saver_Model.Num r => if Req_EM_T r 0 then false else true | _ => true end.
Definition int_of (e : Saver_Model.elt) : Z := match e with Saver_Model.Num r => Int_part r | _ => 0%Z end.
Fixpoint aget (d : arrays) (k : string) : Saver_Model.arr :=
  match d with
  | [] => Saver_Model.mkArr Saver_Model.F64 [O] (fun _ => Saver_Model.Undef)
  | (k', a) :: t => if (k =? k')%string then a else aget t k
  end.
(** entry i of the arrays, which all have one entry (row) per triad *)
Definition entry (d : arrays) (i : nat) : raw :=
  let at2 (k : string) (j : nat) := Saver_Model.at_ (aget d k) [i; j] in
  let t3 (k : string) := (num_of (at2 k 0%nat), num_of (at2 k 1%nat), num_of (at2 k 2%nat)) in
  let at1 (k : string) := num_of (Saver_Model.at_ (aget d k) [i]) in
  Raw (t3 "surfs"%string) (map (fun j => bool_of (at2 "checks"%string j)) (seq 0 (nth 1 (Saver_Model.shape (aget d "checks")) O)))
    (t3 "driv_damp_rates"%string) (t3 "theoretical_amps"%string) (at1 "thresh_amp"%string)
    (int_of (at2 "rad_ord"%string 0%nat), int_of (at2 "rad_ord"%string 1%nat), int_of (at2 "rad_ord"%string 2%nat))
    (t3 "corot_mode_omegas"%string) (t3 "inert_mode_omegas"%string) (t3 "inert_mode_freqs"%string)
    (at1 "kappa"%string) (at1 "kappa_norm"%string).
Definition table_of (d : arrays) : list raw :=
  map (entry d) (seq 0 (hd O (Saver_Model.shape (aget d "checks")))).
Definition read_table (f : Saver_Model.file) : res (list raw) :=
  (d <- load_specific_file_data f ; Ok (table_of d))%res.

(** ** Which files form one table *)
(** an element of the list of paths: one path or a list of paths *)
Inductive load_item (P : Type) := OneFile (p : P) | ManyFiles (l : list P).
Arguments OneFile {P} p.
Arguments ManyFiles {P} l.
(** np.concatenate along the first axis (tables are lists of rows): ValueError for an empty list of arrays *)
Definition np_concatenate {A} (l : list (list A)) : res (list A) :=
  match l with [] => Exc ValueError | _ => Ok (List.concat l) end.
(** qp:233-248 *)
Definition load_flat {P A} (read : P -> res (list A)) (l : list P) : res (list (list A)) :=
  (ts <- mapM read l ; t <- np_concatenate ts ; Ok [t])%res.
(** qp:250-276 *)
Definition load_nested {P A} (read : P -> res (list A)) (l : list (load_item P)) : res (list (list A)) :=
  mapM (fun it => match it with
    | OneFile p => read p
    | ManyFiles ps => (ts <- mapM read ps ; np_concatenate ts)%res
    end) l.
Definition one_file {P} (it : load_item P) : option P := match it with OneFile p => Some p | ManyFiles _ => None end.
Definition is_one {P} (it : load_item P) : bool := match it with OneFile _ => true | ManyFiles _ => false end.
(** qp:226-276: the library multimethod selects the method by the type of the list: list[str] or list[list[str]].
    What it does with a list mixing both, or an empty one, is not modelled (UB). *)
Definition load_tables {P A} (read : P -> res (list A)) (l : list (load_item P)) : res (list (list A)) :=
  match l with
  | [] => UB
  | _ => if forallb is_one l then load_flat read (flat_map (fun it => match it with OneFile p => [p] | ManyFiles _ => [] end) l)
         else if forallb (fun it => negb (is_one it)) l then load_nested read l
         else UB
  end.

(** ** Derived columns *)
(** qp:344-361, 465-483: the columns the masks look at; checks[:, 0] is the parametric check *)
Definition derive (x : raw) : row :=
  Row (r_n x) (thresh_surf_ppm (nth 0 (r_checks x) false) (col 0 (r_surfs x)) (col 0 (r_amps x)) (r_thresh_amp x))
    (r_surfs x) (linear_omega_diff_to_min_omega (r_corot x)) (r_checks x).
(** qp:711-715 *)
Definition harmonic (x : raw) : bool := (Mask_Model.col 1 (r_n x) =? Mask_Model.col 2 (r_n x))%Z.
(** qp:575-583 *)
Definition resonance_sharpness_factor (x : raw) : option R :=
  odiv (linear_omega_diff (r_corot x)) (oadd (col 1 (r_rates x)) (col 2 (r_rates x))).
(** qp:718-730: one of the two equal columns of min_inertial_freq_stack *)
Definition min_inertial_freq (x : raw) : option R :=
  let cyc (f : option R) := omul f (cst 86400) in
  let sh (s : option R) := odiv (hz_to_cpd s) (cst (2 * PI)) in
  let f0 := oadd (cyc (col 0 (r_inert_freq x))) (sh (freq_shift_p (r_corot x) (r_rates x))) in
  let f1 := oadd (cyc (col 1 (r_inert_freq x))) (sh (freq_shift_d 1 (r_corot x) (r_rates x))) in
  let f2 := oadd (cyc (col 2 (r_inert_freq x))) (sh (freq_shift_d 2 (r_corot x) (r_rates x))) in
  omin (omin f0 f1) f2.
(** qp:735 *)
Definition kepler_notional_nyquist : R := 283 / 10 ^ 6 * 86400.
(** qp:733-776 on one number; the array written to is the array read from, while the masks are computed once *)
Definition mirror (x : R) : R :=
  let N := kepler_notional_nyquist in
  let neg := dltb x 0 in
  let a := Rabs x in
  let x1 := if dltb a N && neg then Rabs x else x in
  let x2 := if dltb a (2 * N) && dleb N a && neg then 2 * N + x1 else x1 in
  let x3 := if dltb a (3 * N) && dleb (2 * N) a && neg then -3 * N - x2 else x2 in
  if dltb a (4 * N) && dleb (3 * N) a && neg then 4 * N + x3 else x3.
Definition neg_mask (x : raw) : bool := oltb (min_inertial_freq x) (Some 0).
Definition plotted_freq (x : raw) : option R := option_map mirror (min_inertial_freq x).
(** qp:505-564 (surf_ratio_daughter_parent_OG_SHAPE): checks[:, 0] parametric, checks[:, 1] direct *)
Definition plotted_ratios (x : raw) : option R * option R :=
  let '(a, b, _) := amp_ratios (nth 0 (r_checks x) false) (nth 1 (r_checks x) false) (r_surfs x) in (a, b).

(** ** Masks *)
(** pm:354-363 *)
Definition hyper_ae_isolation_masks (part : list R -> list nat) (d : list row) : res (list bool * list bool * list bool) :=
  let hyper := stability_check_mask d in
  let ae := ae_validity_check_mask d in
  (iso <- isolation_mask_lowest_thresh_amp part d ; Ok (hyper, ae, iso))%res.
(** pm:369-418 *)
Definition masks_overview (part : list R -> list nat) (t : list raw) : res (list bool * list bool * list bool) :=
  let harmonic_removal := bnot (map harmonic t) in
  (m <- hyper_ae_isolation_masks part (map derive t) ;
   let '(stab, ae, iso) := m in
   let stable := band stab harmonic_removal in
   let ae_stable := band (band stab ae) harmonic_removal in
   let stable_valid := band (band (band stab ae) iso) harmonic_removal in
   let stable := band (band (band stable (bnot ae_stable)) (bnot stable_valid)) harmonic_removal in
   let ae_stable := band (band ae_stable (bnot stable_valid)) harmonic_removal in
   Ok (stable, ae_stable, stable_valid))%res.
(** pm:421-481 *)
Definition isolated_non_isolated (part : list R -> list nat) (t : list raw) (minimum_threshold_lum max_threshold_detuning : option R) :
    res (list bool * list bool) :=
  let d := map derive t in
  (m <- hyper_ae_isolation_masks part d ;
   let '(hyper, ae, iso) := m in
   let with_isolation := band (band hyper ae) iso in
   let without_isolation := band (band hyper ae) (bnot iso) in
   match minimum_threshold_lum, max_threshold_detuning with
   | Some lo, Some hi =>
       let lum := threshold_lum_mask d lo in
       let det := threshold_det_mask d hi in
       Ok (band (band with_isolation lum) det, band (band without_isolation lum) det)
   | Some lo, None =>
       let lum := threshold_lum_mask d lo in
       Ok (band with_isolation lum, band without_isolation lum)
   | None, Some hi =>
       let det := threshold_det_mask d hi in
       Ok (band with_isolation det, band without_isolation det)
   | None, None => Ok (with_isolation, without_isolation)
   end)%res.

(** ** Resonance sharpness figure *)
Record sharpness := Sharpness { all_sharpness : list (option R); isolated_sharpness : list (option R);
  not_isolated_sharpness : list (option R); isolated_counts : list nat; not_isolated_counts : list nat }.
Definition np_sum (m : list bool) : nat := List.length (filter (fun b => b) m).
(** qp:644-708; np.concatenate of no arrays cannot occur here unless there are no tables (ValueError) *)
Definition sharpness_data (part : list R -> list nat) (ts : list (list raw)) : res sharpness :=
  (ms <- mapM (fun t => isolated_non_isolated part t None None) ts ;
   let iso := map (fun p => sel (fst (fst p)) (map resonance_sharpness_factor (snd p))) (combine ms ts) in
   let non := map (fun p => sel (snd (fst p)) (map resonance_sharpness_factor (snd p))) (combine ms ts) in
   i <- np_concatenate iso ;
   n <- np_concatenate non ;
   Ok (Sharpness (i ++ n) i n (map (fun m => np_sum (fst m)) ms) (map (fun m => np_sum (snd m)) ms)))%res.

(** ** Overview figure *)
Definition point := (option R * option R)%type.
Definition two_points (x : raw) : list point := [(plotted_freq x, fst (plotted_ratios x)); (plotted_freq x, snd (plotted_ratios x))].
(** pl:62-103 for one category: the points of regular and of mirrored data.  x, y and the negative mask are (n, 2) arrays
    whose two columns of x and of the negative mask are equal; indexing by the (n, 2) negative mask flattens row by row. *)
Definition scatter (mask : list bool) (rows : list raw) : list point * list point :=
  let masked := sel mask rows in
  let neg := map neg_mask masked in
  (List.concat (map two_points (sel (bnot neg) masked)), List.concat (map two_points (sel neg masked))).
(** qp:779-795, fc:75-99: all masks, then concatenation over the tables; the categories are stable, AE-valid, isolated *)
Definition overview_points (part : list R -> list nat) (ts : list (list raw)) : res (list (list point * list point)) :=
  (ms <- mapM (masks_overview part) ts ;
   stable <- np_concatenate (map (fun m => fst (fst m)) ms) ;
   ae <- np_concatenate (map (fun m => snd (fst m)) ms) ;
   valid <- np_concatenate (map snd ms) ;
   let rows := List.concat ts in
   Ok (map (fun m => scatter m rows) [stable; ae; valid]))%res.
