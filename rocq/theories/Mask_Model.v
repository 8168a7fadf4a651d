(** * Model of the masks used by the analyzer
    (aesolver/ae_analyzer/library_functions/masking.py, cited as mk).
    Simplifications: a double is a real number or NaN ([None]; NaN compares False and propagates);
    infinities and rounding are left out.  Boolean-mask indexing, masked assignment, np.unique,
    np.isin and dictionaries are modelled on lists.  The printed message (mk:264-267) has no effect
    on the result and is dropped.  Arrays have the lengths given; the table has one row per triad. *)
From Coq Require Import Reals List ZArith Bool Lia Lra.
From Verif Require Import Base Py.
Import ListNotations.
Local Open Scope R_scope.

(** ** numpy primitives *)
Definition dleb (a b : R) : bool := if Rle_dec a b then true else false.
Definition dltb (a b : R) : bool := if Rlt_dec a b then true else false.
(** comparisons of doubles: False as soon as a NaN takes part *)
Definition oleb (a b : option R) : bool := match a, b with Some x, Some y => dleb x y | _, _ => false end.
Definition oltb (a b : option R) : bool := match a, b with Some x, Some y => dltb x y | _, _ => false end.
Definition oabs (a : option R) : option R := option_map Rabs a.
Definition omul (a b : option R) : option R := match a, b with Some x, Some y => Some (x * y) | _, _ => None end.
Definition isnan (a : option R) : bool := match a with None => true | Some _ => false end.
(** np.isclose(a, b, rtol=0, atol=1e-14) *)
Definition isclose14 (a b : option R) : bool :=
  match a, b with Some x, Some y => dleb (Rabs (x - y)) (/ 10 ^ 14) | _, _ => false end.

(** l[m] with a boolean mask *)
Definition sel {A} (m : list bool) (l : list A) : list A := map snd (filter fst (combine m l)).
(** l[m] = v with v an array holding one entry per True of m *)
Fixpoint put {A} (l : list A) (m : list bool) (v : list A) : list A :=
  match l, m with
  | x :: l', true :: m' => match v with y :: v' => y :: put l' m' v' | [] => x :: put l' m' [] end
  | x :: l', false :: m' => x :: put l' m' v
  | _, _ => l
  end.
(** l[m] = c with a scalar c *)
Definition put1 {A} (l : list A) (m : list bool) (c : A) : list A :=
  map (fun p : bool * A => if fst p then c else snd p) (combine m l).
(** pointwise &, |, ~ *)
Definition band (a b : list bool) : list bool := map (fun p : bool * bool => fst p && snd p) (combine a b).
Definition bor (a b : list bool) : list bool := map (fun p : bool * bool => fst p || snd p) (combine a b).
Definition bnot (a : list bool) : list bool := map negb a.
(** np.unique: sorted, duplicates removed *)
Fixpoint ins (x : Z) (l : list Z) : list Z :=
  match l with
  | [] => [x]
  | y :: t => if (x <? y)%Z then x :: l else if (x =? y)%Z then l else y :: ins x t
  end.
Definition np_unique (l : list Z) : list Z := fold_right ins [] l.
(** np.isin(l, values) *)
Definition np_isin (l values : list Z) : list bool := map (fun x => existsb (Z.eqb x) values) l.
(** array.min(): ValueError on an empty array *)
Definition np_min (l : list R) : res R :=
  match l with [] => Exc ValueError | x :: t => Ok (fold_left Rmin t x) end.
(** dictionaries *)
Fixpoint dget (d : list (Z * R)) (k : Z) : option R :=
  match d with [] => None | (k', v) :: t => if (k' =? k)%Z then Some v else dget t k end.
Fixpoint dset (d : list (Z * R)) (k : Z) (v : R) : list (Z * R) :=
  match d with [] => [(k, v)] | (k', v') :: t => if (k' =? k)%Z then (k, v) :: t else (k', v') :: dset t k v end.
Definition dgetM (d : list (Z * R)) (k : Z) : res R := match dget d k with Some v => Ok v | None => Exc KeyError end.

(** ** The data dictionary (one entry per triad) *)
Record row := Row {
  rad_ord : Z * Z * Z;              (* radial orders: parent, daughter, daughter *)
  thresh : option R;                (* thresh_surf_ppm *)
  surf : option R * option R * option R; (* surfs, as a fraction *)
  detuning : option R;              (* linear_omega_diff_to_min_omega *)
  checks : list bool                (* checks/pre_checks *)
}.
(** a[:, idx] of an array with three columns *)
Definition col {A} (idx : nat) (t : A * A * A) : A :=
  match idx with O => fst (fst t) | S O => snd (fst t) | _ => snd t end.
Definition setcol {A} (idx : nat) (t : A * A * A) (v : A) : A * A * A :=
  let '(a, b, c) := t in match idx with O => (v, b, c) | S O => (a, v, c) | _ => (a, b, v) end.

(** mk:12-25  checks[:, -3:].prod(axis=1) *)
Definition stability_check_mask (d : list row) : list bool :=
  map (fun r => forallb (fun b => b) (skipn (List.length (checks r) - 3) (checks r))) d.
(** mk:28-41 *)
Definition ae_validity_check_mask (d : list row) : list bool :=
  map (fun r => oleb (oabs (detuning r)) (Some (1/10))) d.
(** mk:44-65 *)
Definition isolation_mask_of (lowest : list (option R * option R * option R)) : list bool :=
  band (map (fun t => isclose14 (col 0 t) (col 1 t)) lowest) (map (fun t => isclose14 (col 0 t) (col 2 t)) lowest).
(** mk:68-91 *)
Definition threshold_det_mask (d : list row) (max_threshold_detuning : R) : list bool :=
  map (fun r => oleb (oabs (detuning r)) (Some max_threshold_detuning)) d.

(** mk:176-205 *)
Definition lowest_thresh_amp_map (rads : list (Z * Z * Z)) (threshs : list R) (idx : nat) :
    res (list (Z * R) * list Z) :=
  let rel := map (col idx) rads in
  let u := np_unique rel in
  (m <- mapM (fun n => v <- np_min (sel (np_isin rel [n]) threshs) ; Ok (n, v)) u ;
   Ok (m, u))%res.
(** mk:124-133 *)
Definition daughters_map (m1 m2 : list (Z * R)) : list (Z * R) :=
  fold_left (fun acc kv => let '(k, lt_d2) := kv in
    match dget m1 k with
    | Some v => if dltb lt_d2 v then dset acc k lt_d2 else acc
    | None => dset acc k lt_d2
    end) m2 m1.
(** mk:208-234  lowest_thresholds[np.isin(my_rad_ords, n_unique), idx] = surf_map[n_unique] *)
Definition get_lowest_thresh_surfs (rads : list (Z * Z * Z)) (u : list Z) (surf_map : list (Z * R))
    (lowest : list (option R * option R * option R)) (idx : nat) : res (list (option R * option R * option R)) :=
  fold_left (fun acc n => (a <- acc ; v <- dgetM surf_map n ;
    Ok (map (fun p : bool * (option R * option R * option R) => if fst p then setcol idx (snd p) (Some v) else snd p)
            (combine (np_isin (map (col idx) rads) [n]) a)))%res) u (Ok lowest).

(** np.argpartition(a, 1): ValueError unless there are two entries; which of several admissible
    index arrays is returned is left open ([part], constrained in the statements) *)
Definition np_argpartition1 (part : list R -> list nat) (l : list R) : res (list nat) :=
  if (List.length l <? 2)%nat then Exc ValueError else Ok (part l).

(** mk:237-269 *)
Definition compare_second_lowest (part : list R -> list nat) (is_valued : list bool) (uniq : list Z) (d : list row) : res (list bool) :=
  let n_parents := map (fun r => col 0 (rad_ord r)) (sel is_valued d) in
  let eq_amps := map (fun r => omul (col 0 (surf r)) (Some (10 ^ 6))) (sel is_valued d) in
  let threshs := flat_map (fun r => match thresh r with Some t => [t] | None => [] end) (sel is_valued d) in
  (mask_arr <- fold_left (fun acc n_p => (ma <- acc ;
      let mask_parent := map (fun n => Z.eqb n n_p) n_parents in
      let eqs := sel mask_parent eq_amps in
      let ths := sel mask_parent threshs in
      arg_part <- np_argpartition1 part ths ;
      i1 <- py_get arg_part 1 ;
      second_lowest <- py_get ths (Z.of_nat i1) ;
      i0 <- py_get arg_part 0 ;
      eq_amp <- py_get eqs (Z.of_nat i0) ;
      Ok (put1 ma mask_parent (oltb eq_amp (Some second_lowest)))))
      uniq (Ok (map (fun _ => false) n_parents)) ;
   Ok (put (map (fun _ => false) is_valued) is_valued mask_arr))%res.

(** mk:97-173 *)
Definition isolation_mask_lowest_thresh_amp (part : list R -> list nat) (d : list row) : res (list bool) :=
  let is_valued := map (fun r => negb (isnan (thresh r))) d in
  let valued_thresh := flat_map (fun r => match thresh r with Some t => [t] | None => [] end) (sel is_valued d) in
  let valued_rad := map rad_ord (sel is_valued d) in
  (pm <- lowest_thresh_amp_map valued_rad valued_thresh 0 ;
   d1 <- lowest_thresh_amp_map valued_rad valued_thresh 1 ;
   d2 <- lowest_thresh_amp_map valued_rad valued_thresh 2 ;
   let dm := daughters_map (fst d1) (fst d2) in
   let l0 := map (fun _ => (None, None, None)) valued_rad in
   l1 <- get_lowest_thresh_surfs valued_rad (snd pm) (fst pm) l0 0 ;
   l2 <- get_lowest_thresh_surfs valued_rad (snd d1) dm l1 1 ;
   l3 <- get_lowest_thresh_surfs valued_rad (snd d2) dm l2 2 ;
   let all_same := isolation_mask_of l3 in
   let og := put (map (fun _ => false) is_valued) is_valued all_same in
   second <- compare_second_lowest part is_valued (snd pm) d ;
   Ok (band og second))%res.

(** mk:322-348 *)
Definition unique_value_mask (ignored : list (Z * Z * Z)) (d : list row) (idx : nat) : list bool :=
  np_isin (map (fun r => col idx (rad_ord r)) d) (np_unique (map (col idx) ignored)).
(** mk:275-319 (minimum_threshold_lum already converted to a finite float) *)
Definition threshold_lum_mask (d : list row) (minimum : R) : list bool :=
  let low := map (fun r => oltb (thresh r) (Some minimum) || isnan (thresh r)) d in
  let ignored := map rad_ord (sel low d) in
  bnot (bor (bor (unique_value_mask ignored d 0) (unique_value_mask ignored d 1)) (unique_value_mask ignored d 2)).

(** mk:354-396: stability, AE validity, isolation, validity, stability and validity *)
Definition mask_information (part : list R -> list nat) (d : list row) :
    res (list bool * list bool * list bool * list bool * list bool) :=
  let stab := stability_check_mask d in
  let ae := ae_validity_check_mask d in
  (iso <- isolation_mask_lowest_thresh_amp part d ;
   let val := band ae iso in
   let stab_val := band (band stab ae) iso in
   Ok (stab, ae, iso, val, stab_val))%res.
