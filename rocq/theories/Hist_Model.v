(** * Model of the histogram maker (Hogg 2008 jackknife bin-width selection).
    Sources, all below histogram_maker/hogg_jacky/, cited as
    sc = shared/shared_computation_functions.py, sh = shared/shared_handling_functions.py,
    sk = shared/shared_check_functions.py, sm = shared/shared_masking_functions.py,
    sl = shared/shared_log_functions.py, ni = numpy_iterator_jacky.py, bl = blas_jacky.py,
    ne = numexpr_jacky.py, cy = cython_jacky/cy_jacky.py,
    cb = cython_jacky/cython_jacky_binning.pyx, cj = cython_jacky/cython_jacky_jacky.pyx,
    cp = cython_jacky/cython_jacky_empirical_probability_conversion_factor.pyx,
    ch = cython_jacky/cython_jacky_empirical_probability_hist.pyx,
    cd = cython_jacky/cython_jacky_empirical_density_hist.pyx,
    cw = cython_jacky/cython_jacky_bin_widths.pyx.
    Simplifications: exact real arithmetic; a datum is [None] for NaN and [Some x] for a finite double
    (infinite data are not modelled); quotients, logarithms and likelihoods live in [xr] so that the
    NaNs and infinities which steer the search are visible, with a zero denominator taken as +0;
    conversion of a quotient by a zero bin width to int32 is UB; the int32 range is unbounded;
    parallel loops compute the same sums as serial ones (exact addition is associative, C02's remark). *)
From Coq Require Import Reals List ZArith Bool Lia Lra.
From Verif Require Import Base Py.
Import ListNotations.
Local Open Scope R_scope.
Local Open Scope res_scope.

(** IEEE double values up to rounding *)
Inductive xr := Fin (r : R) | PInf | NInf | NaN.
(** a / b of doubles with finite a, b (numpy, and C with cdivision(True)) *)
Definition xdiv (a b : R) : xr :=
  if Req_EM_T b 0 then (if Rlt_dec 0 a then PInf else if Rlt_dec a 0 then NInf else NaN) else Fin (a / b).
(** np.log / C log *)
Definition xlog (x : xr) : xr :=
  match x with
  | Fin r => if Rlt_dec 0 r then Fin (ln r) else if Req_EM_T r 0 then NInf else NaN
  | PInf => PInf | NInf => NaN | NaN => NaN
  end.
(** n * x *)
Definition xmul (n : R) (x : xr) : xr :=
  match x with
  | Fin r => Fin (n * r)
  | PInf => if Rlt_dec 0 n then PInf else if Rlt_dec n 0 then NInf else NaN
  | NInf => if Rlt_dec 0 n then NInf else if Rlt_dec n 0 then PInf else NaN
  | NaN => NaN
  end.
(** x + y *)
Definition xadd (x y : xr) : xr :=
  match x, y with
  | Fin a, Fin b => Fin (a + b)
  | NaN, _ => NaN | _, NaN => NaN
  | PInf, NInf => NaN | NInf, PInf => NaN
  | PInf, _ => PInf | _, PInf => PInf
  | NInf, _ => NInf | _, NInf => NInf
  end.
(** x > y *)
Definition xgt (x y : xr) : bool :=
  match x, y with
  | NaN, _ => false | _, NaN => false
  | PInf, PInf => false | PInf, _ => true
  | _, PInf => false
  | NInf, _ => false
  | Fin _, NInf => true
  | Fin a, Fin b => if Rlt_dec b a then true else false
  end.

(** my_data.min(), my_data.max() of a non-empty array, np.ptp sc:25-41 *)
Definition dmin (l : list R) : R := fold_left Rmin l (hd 0 l).
Definition dmax (l : list R) : R := fold_left Rmax l (hd 0 l).
Definition ptp (l : list R) : R := dmax l - dmin l.
(** sc:81-99 compute_bin_width: my_ptp_range / float(my_bin_number) *)
Definition compute_bin_width (range : R) (nb : nat) : R := range / INR nb.
(** sm:16-31 retrieve_valued_data: my_data[~nan_mask] *)
Definition valued (l : list (option R)) : list R := flat_map (fun o => match o with Some x => [x] | None => [] end) l.

(** floor and truncation towards zero (astype(np.int32)) *)
Definition floorZ (x : R) : Z := (up x - 1)%Z.
Definition truncZ (x : R) : Z := if Rle_dec 0 x then floorZ x else (- floorZ (- x))%Z.

(** np.bincount(l, minlength): ValueError for negative entries; length max(minlength, max+1) *)
Definition bincount (l : list Z) (minlength : nat) : res (list nat) :=
  if existsb (fun b => (b <? 0)%Z) l then Exc ValueError
  else let len := Nat.max minlength (fold_left Nat.max (map (fun b => S (Z.to_nat b)) l) 0%nat) in
       Ok (map (fun i => count_occ Z.eq_dec l (Z.of_nat i)) (seq 0 len)).

(** the three hand-written constant-width implementations *)
Inductive impl := Blas | Numexpr | Cython.

(** Bin number of one datum.  cb:30-35 <int32>floor(((x - low) / bw) - phase) (cython);
    ne:264-284 (((x - low)/bw) - bp).astype(int32) (numexpr, truncation);
    bl:313-333 floor(daxpy(x - low, full(phase), n, 1/bw)) = floor(phase + (1/bw) (x - low)) (BLAS). *)
Definition bin_index (v : impl) (low bw phase x : R) : res Z :=
  if Req_EM_T bw 0 then UB
  else Ok (match v with
           | Cython => floorZ ((x - low) / bw - phase)
           | Numexpr => truncZ ((x - low) / bw - phase)
           | Blas => floorZ (phase + (1 / bw) * (x - low))
           end).

(** np.argmax / np.argmin: first index of an extremal element *)
Fixpoint argbest (better : R -> R -> bool) (l : list R) (i bi : nat) (b : R) : nat :=
  match l with
  | [] => bi
  | x :: t => if better x b then argbest better t (S i) i x else argbest better t (S i) bi b
  end.
Definition rgt (a b : R) : bool := if Rlt_dec b a then true else false.
Definition rlt (a b : R) : bool := if Rlt_dec a b then true else false.
Definition argmax (l : list R) : nat := argbest rgt l 0 0 (hd 0 l).
Definition argmin (l : list R) : nat := argbest rlt l 0 0 (hd 0 l).

(** cy:267-277, ne:219-229 (argmax), bl:268-278 (argmin): the "additional checks" *)
Definition negative_check (v : impl) (data : list R) (bins : list Z) : res (list Z) :=
  match filter (fun i => (nth i bins 0 <? 0)%Z) (seq 0 (List.length bins)) with
  | [] => Ok bins
  | [i] => if Nat.eqb i (match v with Blas => argmin data | _ => argmax data end)
           then Ok (map (fun b => if (b <? 0)%Z then 0%Z else b) bins) else Exc SystemExit
  | _ => Exc SystemExit
  end.

(** cy:248-281 _cython_histogram_counts, bl:256-282 _blas_histogram_counts, ne:207-233
    _numexpr_histogram_counts; nb = 0 makes every index -1 (an infinite width), hence ValueError. *)
Definition histogram_counts (v : impl) (data : list R) (bw phase : R) (nb minb : nat) (checks : bool)
    (data_min : option R) : res (list R) :=
  if Nat.eqb nb 1 then Ok [INR (List.length data)]
  else if Nat.eqb nb 0 then Exc ValueError
  else let low := match data_min with None => dmin data | Some m => m end in
  raw <- mapM (bin_index v low bw phase) data ;
  let top := map (fun b => if Z.eqb b (Z.of_nat nb) then (Z.of_nat nb - 1)%Z else b) raw in
  fixed <- (if checks then negative_check v data top else Ok top) ;
  c <- bincount fixed minb ;
  Ok (map INR c).

(** np.linspace(a, b, n + 1): cy:299-305, bl:351-357, ne:302-308 bin edges *)
Definition linspace (a b : R) (n : nat) : list R := map (fun i => a + INR i * ((b - a) / INR n)) (seq 0 (S n)).
Definition bin_edges (data : list R) (nb : nat) : list R := linspace (dmin data) (dmax data) nb.

(** np.histogram(data, bins=n): n equal bins over [min, max] (min-1/2, max+1/2 when they coincide),
    half-open except the last one *)
Definition np_edges (data : list R) (n : nat) : list R :=
  if Req_EM_T (dmin data) (dmax data) then linspace (dmin data - 1 / 2) (dmax data + 1 / 2) n
  else linspace (dmin data) (dmax data) n.
Definition in_bin (edges : list R) (n i : nat) (x : R) : bool :=
  if Rle_dec (nth i edges 0) x then
    (if Rlt_dec x (nth (S i) edges 0) then true
     else if Nat.eqb (S i) n then (if Rle_dec x (nth (S i) edges 0) then true else false) else false)
  else false.
Definition np_histogram (data : list R) (n : nat) : res (list R * list R) :=
  if Nat.eqb n 0 then Exc ValueError
  else let e := np_edges data n in
  Ok (map (fun i => INR (List.length (filter (in_bin e n i) data))) (seq 0 n), e).

(** empirical probability: ni:182, bl:151, ne:106-113, ch (loops hist[i] /= N) *)
Definition to_probability (counts : list R) (N : nat) : list xr := map (fun c => xdiv c (INR N)) counts.
(** empirical density, constant width: ni:204, bl:214, ne:159-166, cd:22-24 *)
Definition to_density (counts : list R) (N : nat) (bw : R) : list xr := map (fun c => xdiv c (INR N * bw)) counts.

(** conversion factors: ni:96; bl:377 (dasum adds absolute values); ne:328-333; cp:9-11 (the one
    the cython search uses, cy:454, 647: it is handed the NUMBER OF BINS) and cp:22-31, 45-54 (unused loops) *)
Definition conversion_numpy (N nb : nat) (alpha : R) : R := INR N - 1 + INR nb * alpha.
Definition sumR (l : list R) : R := fold_right Rplus 0 l.
Definition conversion_blas (counts : list R) (alpha : R) : R := sumR (map (fun c => Rabs (c + alpha)) counts) - 1.
Definition conversion_numexpr (counts : list R) (alpha : R) : R := sumR (map (fun c => c + alpha) counts) - 1.
Definition conversion_no_loop (view_size : nat) (alpha : R) : R := INR view_size * (1 + alpha) - 1.
Definition conversion_loop (counts : list R) (alpha : R) : R := sumR (map (fun c => c + alpha) counts) - 1.
Definition conversion (v : impl) (counts : list R) (alpha : R) : R :=
  match v with
  | Blas => conversion_blas counts alpha
  | Numexpr => conversion_numexpr counts alpha
  | Cython => conversion_no_loop (List.length counts) alpha
  end.

(** jackknife likelihood: ni:123-128, bl:404-410, ne:361-369, cj:12-21 *)
Definition xsum (l : list xr) : xr := fold_right xadd (Fin 0) l.
Definition jacky (counts : list R) (bw alpha cf : R) : xr :=
  xsum (map (fun n => xmul n (xlog (xdiv (n + alpha - 1) (cf * bw)))) counts).
(** variable widths: ni:155-162, bl:437-447, ne:396-405, cj:35-44 *)
Fixpoint widths (e : list R) : list R :=
  match e with a :: ((b :: _) as t) => (b - a) :: widths t | _ => [] end.
Definition jacky_var (counts ws : list R) (alpha cf : R) : xr :=
  xsum (map (fun nw => xmul (fst nw) (xlog (xdiv (fst nw + alpha - 1) (snd nw * cf)))) (combine counts ws)).

(** sc:44-78 get_parameter_combinations: itertools.product *)
Definition combinations2 (alphas : list R) (nbs : list nat) : list (R * nat) := list_prod alphas nbs.
Definition combinations3 (alphas : list R) (nbs : list nat) (phases : list R) : list (R * nat * R) :=
  list_prod (list_prod alphas nbs) phases.

(** ** The searches *)
(** the `if likelihood > best: best = ...` loop, ni:484-515, 657-689, cy:434-468, 635-660,
    bl:552-591, 737-772, ne:511-549, 691-721; [score] may raise *)
Definition pick {C I} (score : C -> res (xr * I)) (combos : list C) (init : option (C * I)) :
    res (xr * option (C * I)) :=
  fold_left (fun acc c =>
    st <- acc ;
    s <- score c ;
    Ok (if xgt (fst s) (fst st) then (fst s, Some (c, snd s)) else st)) combos (Ok (NInf, init)).
(** np.nanargmax, ni:338: NaNs replaced by -inf, first maximum; ValueError when all are NaN (or none) *)
Fixpoint argbestx (l : list xr) (i bi : nat) (b : xr) : nat :=
  match l with
  | [] => bi
  | x :: t => if xgt x b then argbestx t (S i) i x else argbestx t (S i) bi b
  end.
Definition is_nan (x : xr) : bool := match x with NaN => true | _ => false end.
Definition nanargmax (l : list xr) : res nat :=
  if forallb is_nan l then Exc ValueError
  else let r := map (fun x => if is_nan x then NInf else x) l in Ok (argbestx r 0 0 (hd NInf r)).

(** likelihood and width of one combination *)
Definition score_numpy (data : list R) (c : R * nat) : res (xr * R) :=
  let bw := compute_bin_width (ptp data) (snd c) in
  h <- np_histogram data (snd c) ;
  Ok (jacky (fst h) bw (fst c) (conversion_numpy (List.length data) (snd c) (fst c)), bw).
Definition score_impl (v : impl) (data : list R) (checks : bool) (c : R * nat * R) : res (xr * R) :=
  let '(alpha, nb, phase) := c in
  let bw := compute_bin_width (ptp data) nb in
  h <- histogram_counts v data bw phase nb 0 checks None ;
  Ok (jacky h bw alpha (conversion v h alpha), bw).

(** options of the public functions; [None] inputs are Python's None *)
Record options := Options {
  o_alphas : option (list R); o_bins : option (list nat); o_phases : list R; o_custom : list R;
  o_verbose : bool; o_prob : bool; o_dens : bool; o_checks : bool; o_negative : bool; o_params : bool }.
(** returned tuple: histogram, edges, width(s), parameters (alpha, bins, phase); [None] stands for
    the all-None tuple *)
Record output := Output { out_hist : list xr; out_edges : list R; out_width : list R; out_params : option (R * nat * R) }.

(** sh:41-71: the combination handed over always has two entries, so the phase reported is 0 *)
Definition binning_parameters (o : options) (c : R * nat) : option (R * nat * R) :=
  if o_params o then Some (fst c, snd c, 0) else None.
(** ni:359-386 and analogues *)
Definition convert (o : options) (counts : list R) (N : nat) (bw : R) : list xr :=
  if o_prob o then to_probability counts N else if o_dens o then to_density counts N bw else map Fin counts.
(** sh:17-38: one datum *)
Definition single_datum (d : option R) (o : options) : res (option output) :=
  w <- py_get (o_custom o) 0 ;
  match d with
  | None => Exc ValueError                                 (* np.histogram of NaN: range not finite *)
  | Some x => h <- np_histogram [x] 1 ; Ok (Some (Output (map Fin (fst h)) (snd h) [w] None))
  end.

(** common prologue: ni:253-286, 436-468, bl:~520-548, ne:~475-503, cy:377-411 *)
Definition prologue (data : option (list (option R))) (o : options)
    (k : list R -> list R -> list nat -> res (option output)) : res (option output) :=
  match data, o_alphas o, o_bins o with
  | Some d, Some al, Some nb =>
      match d with
      | [] => Ok None
      | [x] => single_datum x o
      | _ => if forallb (fun x => match x with None => true | _ => false end) d then Ok None
             else k (valued d) al nb
      end
  | _, _, _ => Exc SystemExit
  end.

(** verbose: print_maximal_values(max_bin_width=...) although the parameter is called
    max_bin_width_edges (sl:37-40): ni:343-346, 517-520, bl:593-598, ne:551-556, cy:470-475 *)
Definition print_maximal (o : options) : res unit := if o_verbose o then Exc TypeError else Ok tt.

(** ni:207-386 hogg_jackknife_likelihood_numpy *)
Definition likelihood_numpy (data : option (list (option R))) (o : options) : res (option output) :=
  prologue data o (fun d al nbs =>
    let combos := combinations2 al nbs in
    scores <- mapM (score_numpy d) combos ;
    i <- nanargmax (map fst scores) ;
    c <- py_get combos (Z.of_nat i) ;
    s <- py_get scores (Z.of_nat i) ;
    _ <- print_maximal o ;
    h <- np_histogram d (snd c) ;
    Ok (Some (Output (convert o (fst h) (List.length d) (snd s)) (snd h) [snd s] (binning_parameters o c)))).
(** ni:389-555 hogg_jackknife_likelihood_iterator *)
Definition likelihood_iterator (data : option (list (option R))) (o : options) : res (option output) :=
  prologue data o (fun d al nbs =>
    w0 <- py_get (o_custom o) 0 ;
    best <- pick (score_numpy d) (combinations2 al nbs) (Some ((1, 1%nat), w0)) ;
    match snd best with
    | None => UB                                                    (* impossible: a default is set *)
    | Some (c, bw) =>
        _ <- print_maximal o ;
        h <- np_histogram d (snd c) ;
        Ok (Some (Output (convert o (fst h) (List.length d) bw) (snd h) [bw] (binning_parameters o c)))
    end).
(** cy:415-417, ne:494-496 (one bin) and bl:541-543 (zero bins) initial combination; the initial phase
    NaN is never used by a one-bin histogram and with zero bins the outcome is ValueError anyway, so 0
    stands for it *)
Definition default_bins (v : impl) : nat := match v with Blas => 0%nat | _ => 1%nat end.
(** cy:308-510, bl:450-630, ne:408-588: hogg_jackknife_likelihood_{cython,blas,numexpr} *)
Definition likelihood_impl (v : impl) (data : option (list (option R))) (o : options) : res (option output) :=
  prologue data o (fun d al nbs =>
    w0 <- py_get (o_custom o) 0 ;
    best <- pick (score_impl v d (o_checks o)) (combinations3 al nbs (o_phases o)) (Some ((1, default_bins v, 0), w0)) ;
    match snd best with
    | None => UB
    | Some ((alpha, nb, phase), bw) =>
        _ <- print_maximal o ;
        h <- histogram_counts v d bw phase nb 0 (o_checks o) None ;
        Ok (Some (Output (convert o h (List.length d) bw) (bin_edges d nb) [bw] (binning_parameters o (alpha, nb))))
    end).

(** ** Logarithmic bins *)
Definition log10 (x : R) : R := ln x / ln 10.
(** np.logspace(log10 min, log10 max, nb + 1), sc:137-144 *)
Definition log_edges (data : list R) (nb : nat) : list R :=
  map (fun i => Rpower 10 (log10 (dmin data) + INR i * ((log10 (dmax data) - log10 (dmin data)) / INR nb))) (seq 0 (S nb)).
(** np.searchsorted(edges, x, side='left'): number of entries below x (sorted edges) *)
Definition searchsorted_left (edges : list R) (x : R) : nat :=
  List.length (filter (fun e => rlt e x) edges).
(** sc:154-194 histogram_log_counts: clamp -1 to 0, then bin_nr to bin_nr - 1, then bincount *)
Definition histogram_log_counts (data edges : list R) (minb : nat) : res (list R) :=
  let nb := (Z.of_nat (List.length edges) - 1)%Z in
  let raw := map (fun x => (Z.of_nat (searchsorted_left edges x) - 1)%Z) data in
  let low := map (fun b => if Z.eqb b (-1) then 0%Z else b) raw in
  let top := map (fun b => if Z.eqb b nb then (nb - 1)%Z else b) low in
  c <- bincount top minb ;
  Ok (map INR c).
(** sc:102-151 histogram_log_counts_and_edges; logarithms of non-positive data are not modelled (UB) *)
Definition log_counts_and_edges (data : list R) (nb minb : nat) : res (list R * list R) :=
  if forallb (fun x => rlt 0 x) data then
    (if Nat.eqb nb 1 then Ok ([INR (List.length data)], [dmin data; dmax data])
     else let e := if Nat.eqb nb 0 then [dmin data] else log_edges data nb in
     c <- histogram_log_counts data e minb ; Ok (c, e))
  else UB.
(** numpy broadcasting of a / b for one-dimensional arrays *)
Definition np_div (a b : list R) : res (list xr) :=
  if Nat.eqb (List.length a) (List.length b) then Ok (map (fun p => xdiv (fst p) (snd p)) (combine a b))
  else if Nat.eqb (List.length a) 1 then Ok (map (fun y => xdiv (hd 0 a) y) b)
  else if Nat.eqb (List.length b) 1 then Ok (map (fun x => xdiv x (hd 0 b)) a)
  else Exc ValueError.
(** sc:197-230 empirical_probability_histogram_log_counts *)
Definition log_probability (data edges : list R) (minb : nat) : res (list xr) :=
  c <- histogram_log_counts data edges minb ; Ok (to_probability c (List.length data)).
(** sc:233-268 empirical_density_histogram_log_counts: (counts / N) / widths *)
Definition log_density (data edges : list R) (minb : nat) : res (list xr) :=
  c <- histogram_log_counts data edges minb ;
  np_div (map (fun x => x / INR (List.length data)) c) (widths edges).

(** the four implementations of the logarithmic search *)
Inductive limpl := LNumpy | LBlas | LNumexpr | LCython.
(** cd: variable-width loop hist[i] /= N * (edges[i+1] - edges[i]) without bounds checks *)
Definition cython_log_density (counts edges : list R) (N : nat) : res (list xr) :=
  if Nat.ltb (List.length (widths edges)) (List.length counts) then UB
  else Ok (map (fun p => xdiv (fst p) (INR N * snd p)) (combine counts (widths edges))).
Definition conversion_log (v : limpl) (counts : list R) (N nb : nat) (alpha : R) : R :=
  match v with
  | LNumpy => conversion_numpy N nb alpha
  | LBlas => conversion_blas counts alpha
  | LNumexpr => conversion_numexpr counts alpha
  | LCython => conversion_no_loop (List.length counts) alpha
  end.
Definition score_log (v : limpl) (data : list R) (c : R * nat) : res (xr * list R) :=
  h <- log_counts_and_edges data (snd c) 0 ;
  Ok (jacky_var (fst h) (widths (snd h)) (fst c) (conversion_log v (fst h) (List.length data) (snd c) (fst c)), snd h).
(** output conversion.  [Nall] counts NaNs too: ne:743-752, 761-772 divide by my_data.shape[0].
    bl:212-217: dscal(1/(N * widths), counts) -- f2py converts an array argument for the scalar to
    its first element, so every bin is scaled with the first width. *)
Definition convert_log (v : limpl) (o : options) (counts edges : list R) (N Nall : nat) : res (list xr) :=
  if o_prob o then Ok (to_probability counts (match v with LNumexpr => Nall | _ => N end))
  else if o_dens o then
    match v with
    | LNumpy => np_div counts (map (fun w => INR N * w) (widths edges))
    | LNumexpr => np_div counts (map (fun w => INR Nall * w) (widths edges))
    | LBlas => Ok (to_density counts N (hd 0 (widths edges)))
    | LCython => cython_log_density counts edges N
    end
  else Ok (map Fin counts).
(** ni:558-739, bl:633-811 (phases [0.0]; they do not influence logarithmic bins), ne:591-789, cy:513-746.
    The default combination is (nan, 0) without edges. *)
Definition likelihood_log (v : limpl) (data : option (list (option R))) (o : options) : res (option output) :=
  prologue data o (fun d al nbs =>
    if o_negative o then Ok None else
    best <- pick (score_log v d) (combinations2 al nbs) None ;
    let c := match snd best with None => (0, 0%nat) | Some (c, _) => c end in
    h <- log_counts_and_edges d (snd c) 0 ;
    r <- convert_log v o (fst h) (snd h) (List.length d) (match data with Some l => List.length l | None => 0%nat end) ;
    Ok (Some (Output r (snd h) (widths (snd h)) (binning_parameters o c)))).

(** ** Histograms with specified widths or edges *)
(** ni:742-787 histogram_spec_width *)
Definition spec_width_numpy (data : option (list R)) (nb : option nat) (prob dens : bool) : res (option (list xr)) :=
  match nb, data with
  | Some n, Some d =>
      if Nat.eqb (List.length d) 0 then Ok None
      else h <- np_histogram d n ;
      if prob then Ok (Some (to_probability (fst h) (List.length d)))
      else if dens then Ok (Some (to_density (fst h) (List.length d) (nth 1 (snd h) 0 - nth 0 (snd h) 0)))
      else Ok (Some (map Fin (fst h)))
  | _, _ => Ok None
  end.
(** cy:749-839, ne:792-867 pass my_bw= to a function whose parameter is called bin_width (TypeError);
    bl:814-889 passes bin_width= *)
Definition spec_width (v : impl) (data : option (list R)) (bw : option R) (phase : R) (prob dens : bool)
    (nb minb : nat) (checks : bool) (data_min : option R) : res (option (list xr)) :=
  match bw, data with
  | Some w, Some d =>
      if Nat.eqb (List.length d) 0 then Ok None
      else match v with
           | Blas => h <- histogram_counts Blas d w phase nb minb checks data_min ;
                     Ok (Some (if prob then to_probability h (List.length d)
                               else if dens then to_density h (List.length d) w else map Fin h))
           | _ => Exc TypeError
           end
  | _, _ => Ok None
  end.
(** ni:790-849, bl:892-951 (shared functions); ne:870-936; cy:842-918 *)
Definition log_spec_edges (v : limpl) (data : option (list R)) (edges : option (list R)) (prob dens : bool)
    (minb : nat) (negative : bool) : res (option (list xr)) :=
  match edges, data with
  | Some e, Some d =>
      if Nat.eqb (List.length d) 0 then Ok None
      else if negative then Ok None
      else if prob then r <- log_probability d e minb ; Ok (Some r)
      else if dens then
        match v with
        | LNumpy | LBlas => r <- log_density d e minb ; Ok (Some r)
        | LNumexpr => c <- histogram_log_counts d e minb ;
                      r <- np_div c (map (fun w => INR (List.length d) * w) (widths e)) ; Ok (Some r)
        | LCython => c <- histogram_log_counts d e minb ; r <- cython_log_density c e (List.length d) ; Ok (Some r)
        end
      else c <- histogram_log_counts d e minb ; Ok (Some (map Fin c))
  | _, _ => Ok None
  end.
