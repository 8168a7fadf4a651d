(** * Model of the storage of results: the grid solver's result lists, their unpacking and the HDF5 file.
    Sources: aesolver/aesolver/data_handling/data_specific/hdf5_saver.py (hs),
    data_specific/hdf5_specific/overwrite_dataset.py (od), data_specific/hdf5_specific/create_group.py (cg),
    unpacker.py (up), storer.py (sr), enumeration_files/enum_generic.py (eg), enumeration_files/enum_hdf5_saver.py (eh) in the same
    package; aesolver/aesolver/solver/solver_base_classes/quadratic_solver.py and solver/quadratic_solver.py, which
    define the same methods (qs, lines of the latter); solver/quadratic_grid.py (qg).
    Simplifications: floating point numbers are reals or NaN; log messages are dropped; an HDF5 file is a pair of
    functions (objects by path, attributes by path and name); every stored value is an array (the saver never passes
    None, so h5.Empty is left out); h5py is modelled by the operations it offers to this code:
    membership, create_dataset, require_group, del, attribute assignment and dataset[...] = array with h5py's
    broadcasting rule (a leading source dimension of length zero is refused as well). *)
From Coq Require Import Reals List String Ascii ZArith Bool.
From Verif Require Import Base Py Stab_Model PreCheck_Model.
Import ListNotations.
Local Open Scope string_scope.

(** ** HDF5 files *)
Inductive dtype := F64 | I32 | I64 | B8.
Definition dtype_eqb (a b : dtype) : bool :=
  match a, b with F64, F64 | I32, I32 | I64, I64 | B8, B8 => true | _, _ => false end.
(** an array element; [Undef] is the arbitrary content of np.empty *)
Inductive elt := Undef | NaN | Num (r : R).
Record arr := mkArr { adt : dtype; shape : list nat; at_ : list nat -> elt }.
Inductive node := Grp | Dset (a : arr).
Inductive aval := AStr (s : string) | AInts (l : list Z) | ABool (b : bool) | ANum (r : R) | AEmpty.
Definition path := list string.
Record file := mkFile { obj : path -> option node; attr : path -> string -> option aval }.

(** an HDF5 path: components between slashes, empty ones ignored *)
Fixpoint split_aux (s cur : string) : path :=
  match s with
  | EmptyString => if cur =? "" then [] else [cur]
  | String c s' => if Ascii.eqb c "/" then (if cur =? "" then split_aux s' "" else cur :: split_aux s' "")
                   else split_aux s' (cur ++ String c "")
  end.
Definition split_path (s : string) : path := split_aux s "".
Definition path_eqb (p q : path) : bool := if list_eq_dec string_dec p q then true else false.
(** proper prefixes of a path: the groups that contain it *)
Fixpoint proper_prefixes (p : path) : list path :=
  match p with [] => [] | x :: p' => [] :: map (cons x) (proper_prefixes p') end.
Definition is_dset (f : file) (p : path) : bool := match obj f p with Some (Dset _) => true | _ => false end.
Definition exists_ (f : file) (p : path) : bool := match obj f p with Some _ => true | None => false end.

(** the objects after the groups [ps] have been made where missing *)
Definition with_groups (f : file) (ps : list path) : path -> option node :=
  fun q => match obj f q with Some n => Some n | None => if existsb (path_eqb q) ps then Some Grp else None end.
(** File.create_dataset: intermediate groups are made; an existing object or a dataset among the parents is refused *)
Definition create_dataset (f : file) (p : path) (a : arr) : file * res unit :=
  if exists_ f p || existsb (is_dset f) (proper_prefixes p) then (f, Exc ValueError)
  else (mkFile (fun q => if path_eqb q p then Some (Dset a) else with_groups f (proper_prefixes p) q) (attr f), Ok tt).
(** cg:9-29, File.require_group *)
Definition require_group (f : file) (p : path) : file * res unit :=
  if is_dset f p then (f, Exc TypeError)
  else if existsb (is_dset f) (proper_prefixes p) then (f, Exc ValueError)
  else (mkFile (with_groups f (p :: proper_prefixes p)) (attr f), Ok tt).
(** del file[path] for a dataset *)
Definition del_dataset (f : file) (p : path) : file :=
  mkFile (fun q => if path_eqb q p then None else obj f q) (fun q n => if path_eqb q p then None else attr f q n).
Definition put_dataset (f : file) (p : path) (a : arr) : file :=
  mkFile (fun q => if path_eqb q p then Some (Dset a) else obj f q) (attr f).
Definition set_attr (f : file) (p : path) (n : string) (v : aval) : file :=
  mkFile (obj f) (fun q k => if path_eqb q p && (k =? n) then Some v else attr f q k).

(** ** dataset[...] = array (h5py Dataset.__setitem__): nothing is written to a dataset without elements; otherwise
    the source dimensions, matched from the last one, are 1 or equal to the target's *)
Definition prod (l : list nat) : nat := fold_right Nat.mul 1%nat l.
Fixpoint fits (src dst : list nat) : bool :=
  match src, dst with
  | [], _ => true
  | s :: src', [] => (s =? 1)%nat && fits src' []
  | s :: src', d :: dst' => ((s =? 1)%nat || (s =? d)%nat) && fits src' dst'
  end.
Fixpoint project (src idx : list nat) : list nat :=
  match src, idx with
  | [], _ => []
  | _ :: src', [] => 0%nat :: project src' []
  | s :: src', i :: idx' => (if (s =? 1)%nat then 0%nat else i) :: project src' idx'
  end.
Definition setitem_all (old new : arr) : res arr :=
  if (prod (shape old) =? 0)%nat then Ok old
  else if fits (rev (shape new)) (rev (shape old)) then
    Ok (mkArr (adt old) (shape old) (fun idx => at_ new (rev (project (rev (shape new)) (rev idx)))))
  else Exc TypeError.

(** od:14-90, called without dtype (hs:167-171) *)
Definition overwrite_dataset (f : file) (p : path) (v : arr) : file * res unit :=
  match obj f p with
  | None => (f, Exc KeyError)
  | Some Grp => (f, Ok tt)
  | Some (Dset old) =>
      if dtype_eqb (adt old) (adt v) then
        match setitem_all old v with
        | Ok a => (put_dataset f p a, Ok tt)
        | Exc TypeError | Exc ValueError => create_dataset (del_dataset f p) p v
        | Exc e => (f, Exc e)
        | UB => (f, UB)
        end
      else create_dataset (del_dataset f p) p v
  end.

(** eh:10-48 *)
Inductive mode := Write | Append | RPlus.
Definition select_file_open_mode (r_w app : bool) : mode := if r_w then RPlus else if app then Append else Write.

(** one storage action: a group ("" is the file itself) with an attribute, or a dataset *)
Inductive op := SetAttr (group name : string) (v : aval) | SetData (group name : string) (v : arr).
(** hs:89-137, 186-215 and hs:139-184, 217-243; the dtype argument of the creation equals the dtype of the array
    for every array of this program (up:151-349), so no conversion is modelled *)
Definition run_op (m : mode) (f : file) (o : op) : file * res unit :=
  match o with
  | SetAttr g n v =>
      if g =? "" then (set_attr f [] n v, Ok tt)
      else let (f', r) := require_group f (split_path g) in
           match r with Ok _ => (set_attr f' (split_path g) n v, Ok tt) | e => (f', e) end
  | SetData g n v =>
      let p := split_path (g ++ "/" ++ n) in
      if exists_ f p then match m with RPlus => overwrite_dataset f p v | _ => (f, Ok tt) end
      else create_dataset f p v
  end.
(** actions in order; the first exception ends the save, what has been written stays *)
Fixpoint run_ops (m : mode) (f : file) (l : list op) : file * res unit :=
  match l with
  | [] => (f, Ok tt)
  | o :: l' => let (f', r) := run_op m f o in match r with Ok _ => run_ops m f' l' | e => (f', e) end
  end.
Definition empty_file : file := mkFile (fun q => match q with [] => Some Grp | _ => None end) (fun _ _ => None).
(** hs:248: h5.File(path, mode); [None] is a file that does not exist. The actions may end in an exception raised
    by the evaluation of an argument, hence [res]. *)
Definition open_file (m : mode) (disk : option file) : res file :=
  match m, disk with
  | Write, _ => Ok empty_file
  | Append, Some f => Ok f
  | Append, None => Ok empty_file
  | RPlus, Some f => Ok f
  | RPlus, None => Exc FileNotFoundError
  end.
Definition save (m : mode) (disk : option file) (acts : list op) (last : res unit) : option file * res unit :=
  match open_file m disk with
  | Ok f => let (f', r) := run_ops m f acts in (Some f', match r with Ok _ => last | e => e end)
  | Exc e => (disk, Exc e)
  | UB => (disk, UB)
  end.

(** ** What the solver hands over: one tuple per triad *)
Inductive cell := CVec (l : list R) | CNum (r : R) | CBool (b : bool) | CNone | CStr (s : string) | COther.
Definition dict := list (string * cell).
Fixpoint dget (d : dict) (k : string) : res cell :=
  match d with [] => Exc KeyError | (k', v) :: d' => if k =? k' then Ok v else dget d' k end.

(** the frequency handler's properties for one triad *)
Record freqs := mkFreqs {
  inert_f : list R; corot_f : list R; inert_w : list R; corot_w : list R;
  dless_inert_f : list R; dless_corot_f : list R; dless_inert_w : list R; dless_corot_w : list R;
  inert_f_nad : list R; corot_f_nad : list R; inert_w_nad : list R; corot_w_nad : list R;
  dless_inert_f_nad : list R; dless_corot_f_nad : list R; dless_inert_w_nad : list R; dless_corot_w_nad : list R;
  spin : list R; quality_f : list R; surf_rot : R; units : string }.
(** qs:771-817 *)
Definition mode_freq_info (poly : bool) (h : freqs) : list cell :=
  let ad := [CVec (inert_f h); CVec (corot_f h); CVec (inert_w h); CVec (corot_w h);
             CVec (dless_inert_f h); CVec (dless_corot_f h); CVec (dless_inert_w h); CVec (dless_corot_w h)] in
  if poly then (ad ++ [CVec (spin h); CNum (surf_rot h); CStr (units h)])%list
  else (ad ++ [CVec (spin h); CVec (quality_f h); CNum (surf_rot h); CStr (units h);
        CVec (inert_f_nad h); CVec (corot_f_nad h); CVec (inert_w_nad h); CVec (corot_w_nad h);
        CVec (dless_inert_f_nad h); CVec (dless_corot_f_nad h); CVec (dless_inert_w_nad h); CVec (dless_corot_w_nad h)])%list.

(** the coupler's results for one triad *)
Record coupled := mkCoupled { cc : R; ncc : R; elcc : R; norms : list R; terms : list R }.
(** qs:820-864; the copies of frequencies and detunings are not stored in the file and are opaque here *)
Definition coupling_info (adiabatic : bool) (c : option coupled) : list cell :=
  match c with
  | Some c => [CNum (cc c); CNum (ncc c); CNum (elcc c); COther; COther; CVec (norms c); CBool adiabatic; COther; CVec (terms c)]
  | None => [CNum 0; CNum 0; CNum 0; COther; COther; CVec [0; 0; 0]%R; CBool adiabatic; COther; CVec [0; 0; 0; 0]%R]
  end.
(** the stationary solution of one triad (stationary_solving/three_mode/three_mode_stationary.py, st): None is a triad
    whose pre-check failed *)
Record solved := mkSolved { amps : list R; flucs : list R; acrit : R; rel_phase : R; lum_phase : R }.
Record stationary := mkStat { s_solved : option solved; rates : list R; gamma : R; detuning : R; q_fac : R; q_crit : R; hyperbolic : bool }.
(** st:135-188 *)
Definition stat_dict (s : stationary) : dict :=
  match s_solved s with
  | Some v => [("equilibrium amplitudes", CVec (amps v)); ("surface flux variations", CVec (flucs v));
      ("linear driving rates", CVec (rates s)); ("gamma", CNum (gamma s)); ("detunings", CNum (detuning s));
      ("q factor", CNum (q_fac s)); ("critical q factor", CNum (q_crit s)); ("critical parent amplitude", CNum (acrit v));
      ("stationary relative phase", CNum (rel_phase v)); ("stationary relative luminosity phase", CNum (lum_phase v));
      ("hyperbolic", CBool (hyperbolic s)); ("linearly stable", CBool true)]
  | None => [("equilibrium amplitudes", CVec [0; 0; 0]%R); ("surface flux variations", CVec [0; 0; 0]%R);
      ("linear driving rates", CVec (rates s)); ("gamma", CNum (gamma s)); ("detunings", CNum (detuning s));
      ("q factor", CNum (q_fac s)); ("critical q factor", CNum (q_crit s)); ("critical parent amplitude", CNone);
      ("stationary relative phase", CNone); ("stationary relative luminosity phase", CNone);
      ("hyperbolic", CBool (hyperbolic s)); ("linearly stable", CBool false)]
  end.
(** ig (mode_input_generator/input_generator.py) 135-147 and qg:117-127: (average radial order, Wu difference) *)
Definition mean3 (t : Z * Z * Z) : R := let '(a, b, c) := t in (IZR (a + b + c) / 3)%R.
Definition wu3 (t : Z * Z * Z) : R := let '(a, b, c) := t in IZR (a - Z.abs (b - c)).
Definition coupling_stat (t : Z * Z * Z) : list cell := [CNum (mean3 t); CNum (wu3 t)].

(** ** Unpacking into arrays (up:132-349) *)
(** int64 array element from a float: truncation toward zero *)
Definition trunc (r : R) : R := if Rle_dec 0 r then IZR (Int_part r) else (- IZR (Int_part (- r)))%R.
Definition conv (dt : dtype) (r : R) : elt :=
  match dt with
  | F64 => Num r
  | I32 | I64 => Num (trunc r)
  | B8 => Num (if Req_EM_T r 0 then 0%R else 1%R)
  end.
Definition conv_bool (b : bool) : R := if b then 1%R else 0%R.
(** arr[i] = cell for a one-dimensional array *)
Definition slot (dt : dtype) (c : cell) : res elt :=
  match c with
  | CNum r => Ok (conv dt r)
  | CBool b => Ok (conv dt (conv_bool b))
  | CVec [r] => Ok (conv dt r)
  | CVec _ => Exc ValueError
  | CNone => match dt with F64 => Ok NaN | B8 => Ok (Num 0) | _ => Exc TypeError end
  | CStr _ | COther => Exc ValueError
  end.
(** arr[i, :] = cell for a two-dimensional array with w columns *)
Definition row (dt : dtype) (w : nat) (c : cell) : res (list elt) :=
  match c with
  | CVec l => if (List.length l =? w)%nat then Ok (map (conv dt) l)
              else match l with [r] => Ok (repeat (conv dt r) w) | _ => Exc ValueError end
  | _ => (e <- slot dt c ; Ok (repeat e w))
  end.
(** a column of scalars / a block of rows: np.empty((n,..)) filled from the first tuples *)
Definition nth_undef (l : list elt) (i : nat) : elt := nth i l Undef.
Definition arr1 (dt : dtype) (n : nat) (l : list elt) : arr :=
  mkArr dt [n] (fun idx => match idx with [i] => nth_undef l i | _ => Undef end).
Definition arr2 (dt : dtype) (n w : nat) (rows : list (list elt)) : arr :=
  mkArr dt [n; w] (fun idx => match idx with [i; j] => nth_undef (nth i rows []) j | _ => Undef end).
(** for i, t in enumerate(l): arr[i] = t[k] (IndexError beyond the n slots); several columns are filled in one loop
    in the source, here one after the other, so when more than one of them fails the reported exception may differ *)
Definition fill1 (dt : dtype) (n : nat) (cells : res (list cell)) : res arr :=
  cs <- cells ; es <- mapM (slot dt) cs ;
  if (List.length es <=? n)%nat then Ok (arr1 dt n es) else Exc IndexError.
Definition fill2 (dt : dtype) (n w : nat) (cells : res (list cell)) : res arr :=
  cs <- cells ; es <- mapM (row dt w) cs ;
  if (List.length es <=? n)%nat then Ok (arr2 dt n w es) else Exc IndexError.
Definition column (l : list (list cell)) (k : Z) : res (list cell) := mapM (fun t => py_get t k) l.
Definition keyed (l : list (option dict)) (k : string) : res (list cell) :=
  mapM (fun d => match d with Some d => dget d k | None => Exc TypeError end) l.

(** the attributes of the unpacked-data object that hold arrays *)
Definition store := list (string * arr).
Fixpoint sget (s : store) (k : string) : res arr :=
  match s with [] => Exc AttributeError | (k', v) :: s' => if k =? k' then Ok v else sget s' k end.
(** a sequence of attribute assignments *)
Fixpoint assigns (l : list (string * res arr)) : res store :=
  match l with [] => Ok [] | (k, r) :: l' => a <- r ; s <- assigns l' ; Ok ((k, a) :: s) end.

(** what the solver has computed (sr:237-258) *)
Record results := mkResults {
  r_poly : bool;
  r_stat : list (option dict);
  r_couple : list (list cell);
  r_stats : list (list cell);
  r_freq : list (list cell);
  r_l : list Z; r_m : list Z;
  r_orders : list (Z * Z * Z);
  r_method : string; r_use_cheby : bool; r_order_mul : Z; r_blow_up : bool; r_blow_fac : R }.
(** everything computed for one triad *)
Record triad := mkTriad { t_orders : Z * Z * Z; t_freqs : freqs; t_coupled : option coupled; t_stat : stationary }.
Record config := mkConfig { c_poly : bool; c_adiabatic : bool; c_l : list Z; c_m : list Z;
  c_method : string; c_use_cheby : bool; c_order_mul : Z; c_blow_up : bool; c_blow_fac : R }.
(** the solver's result lists after a grid run over the triads (qs:376-397, 593-864, qg:77-127; the run itself is modelled in
    Solver_Model) *)
Definition results_of (c : config) (ts : list triad) : results :=
  mkResults (c_poly c) (map (fun t => if c_poly c then None else Some (stat_dict (t_stat t))) ts)
    (map (fun t => coupling_info (c_adiabatic c) (t_coupled t)) ts) (map (fun t => coupling_stat (t_orders t)) ts)
    (map (fun t => mode_freq_info (c_poly c) (t_freqs t)) ts) (c_l c) (c_m c) (map t_orders ts)
    (c_method c) (c_use_cheby c) (c_order_mul c) (c_blow_up c) (c_blow_fac c).
Definition n_combos (d : results) : nat := List.length (r_stat d).

(** the pre-check functions applied to a stationary-solution dictionary (pre_checks/specific/three_mode_checks.py 34-110,
    PreCheck_Model; stability_checker's gamma-sum check, Stab_Model); the rates are a float array *)
Definition rates_of (d : dict) : res vec :=
  c <- dget d "linear driving rates" ;
  match c with
  | CVec l => if (3 <=? List.length l)%nat then Ok (fun i => nth i l 0%R) else Exc IndexError
  | _ => Exc TypeError
  end.
Definition gss (c : cell) : res bool := match c with CNum g => Ok (gamma_sum_stability_float g) | _ => Exc TypeError end.

Section Unpack.
Variable nr_modes : nat.

(** up:132-163 *)
Definition check_row (d : option dict) : res (list elt) :=
  match d with
  | None => Exc TypeError
  | Some d =>
      v <- rates_of d ;
      g <- dget d "gamma" ; e <- gss g ; s <- dget d "linearly stable" ; h <- dget d "hyperbolic" ;
      s' <- slot B8 s ; h' <- slot B8 h ;
      Ok [conv B8 (conv_bool (check_parametric v)); conv B8 (conv_bool (check_direct v)); conv B8 (conv_bool (check_driven v)); conv B8 (conv_bool e); s'; h']
  end.
Definition unpack_checks (d : results) : list (string * res arr) :=
  if r_poly d then []
  else [("_pre_checks", rows <- mapM check_row (r_stat d) ; Ok (arr2 B8 (n_combos d) 6 rows))].
(** up:166-209 *)
Definition unpack_stationary (d : results) : list (string * res arr) :=
  if r_poly d then []
  else
    let s := fun k => fill1 F64 (n_combos d) (keyed (r_stat d) k) in
    let v := fun k => fill2 F64 (n_combos d) nr_modes (keyed (r_stat d) k) in
    [("_detunings", s "detunings"); ("_gammas", s "gamma"); ("_crit_parent_amp", s "critical parent amplitude");
     ("_stat_sols_rel_phase", s "stationary relative phase");
     ("_stat_sols_rel_lum_phase", s "stationary relative luminosity phase");
     ("_q_factors", s "q factor"); ("_critical_q_factors", s "critical q factor");
     ("_driving_rates", v "linear driving rates"); ("_eq_amps", v "equilibrium amplitudes");
     ("_surf_flux_vars", v "surface flux variations")].
(** up:212-236 *)
Definition unpack_coupling (d : results) : list (string * res arr) :=
  let n := n_combos d in
  [("_abs_ccs", fill1 F64 n (column (r_couple d) 0)); ("_abs_nccs", fill1 F64 n (column (r_couple d) 1));
   ("_abs_etas", fill1 F64 n (column (r_couple d) 2)); ("_cc_terms", fill2 F64 n 4 (column (r_couple d) 8));
   ("_norm_factors", fill2 F64 n nr_modes (column (r_couple d) 5)); ("_adiabatic", fill1 B8 n (column (r_couple d) 6))].
(** up:331-337 *)
Definition unpack_stats (d : results) : list (string * res arr) :=
  [("_wu_rule", fill1 I64 (n_combos d) (column (r_stats d) 0))].
(** up:239-329 *)
Definition unpack_freqs (d : results) : list (string * res arr) :=
  let n := n_combos d in
  let v := fun k => fill2 F64 n nr_modes (column (r_freq d) k) in
  let s := fun k => fill1 F64 n (column (r_freq d) k) in
  let ad := [("_inert_mode_freqs", v 0%Z); ("_corot_mode_freqs", v 1%Z); ("_inert_mode_omegas", v 2%Z); ("_corot_mode_omegas", v 3%Z);
             ("_inert_dimless_mode_freqs", v 4%Z); ("_corot_dimless_mode_freqs", v 5%Z);
             ("_inert_dimless_mode_omegas", v 6%Z); ("_corot_dimless_mode_omegas", v 7%Z); ("_spin_factors", v 8%Z)] in
  if r_poly d then (ad ++ [("_surf_rot_f", s 9%Z)])%list
  else (ad ++ [("_quality_factors", v 9%Z); ("_surf_rot_f", s 10%Z);
        ("_inert_mode_freqs_nad", v 12%Z); ("_corot_mode_freqs_nad", v 13%Z); ("_inert_mode_omegas_nad", v 14%Z); ("_corot_mode_omegas_nad", v 15%Z);
        ("_inert_dimless_mode_freqs_nad", v 16%Z); ("_corot_dimless_mode_freqs_nad", v 17%Z);
        ("_inert_dimless_mode_omegas_nad", v 18%Z); ("_corot_dimless_mode_omegas_nad", v 19%Z)])%list.
Definition unpack_units (d : results) : res (list cell) := column (r_freq d) (if r_poly d then 10 else 11).
(** up:339-349; radial orders are integers, so their int32 array is exact (values within the 32-bit range) *)
Definition orders_row (t : Z * Z * Z) : list elt := let '(a, b, c) := t in [Num (IZR a); Num (IZR b); Num (IZR c)].
Definition unpack_orders (d : results) : list (string * res arr) :=
  [("_mode_rad_orders", Ok (match r_orders d with
      | [] => mkArr I32 [0%nat] (fun _ => Undef)
      | l => arr2 I32 (List.length l) 3 (map orders_row l) end))].
Definition mode_k (d : results) : list Z := map (fun lm => (fst lm - Z.abs (snd lm))%Z) (combine (r_l d) (r_m d)).

(** up:117-129 *)
Definition unpack (d : results) : res store :=
  (s <- assigns (unpack_checks d ++ unpack_stationary d ++ unpack_coupling d ++ unpack_stats d ++ unpack_freqs d ++ unpack_orders d) ;
   u <- unpack_units d ; Ok s)%list.

(** ** hs:245-448: the actions of one save, in source order *)
Inductive act := AAttr (group name : string) (v : aval) | AUnits (group : string) | AData (group name attribute : string).
Definition freq_acts (group suffix : string) : list act :=
  map (fun n => AData group n ("_" ++ n ++ suffix))
    ["inert_mode_freqs"; "corot_mode_freqs"; "inert_mode_omegas"; "corot_mode_omegas";
     "inert_dimless_mode_freqs"; "corot_dimless_mode_freqs"; "inert_dimless_mode_omegas"; "corot_dimless_mode_omegas"].
Definition save_acts (d : results) : list act :=
  let mesa := negb (r_poly d) in
  ([AAttr "" "num_int_method" (AStr (r_method d)); AAttr "" "use_cheby" (ABool (r_use_cheby d));
    AAttr "" "cheby_order_mul" (AInts [r_order_mul d]); AAttr "" "cheby_blow_up" (ABool (r_blow_up d));
    AAttr "" "cheby_blow_up_fac" (ANum (r_blow_fac d));
    AAttr "quantum_numbers" "l" (AInts (r_l d)); AAttr "quantum_numbers" "m" (AInts (r_m d));
    AAttr "quantum_numbers" "k" (AInts (mode_k d));
    AData "quantum_numbers" "n" "_mode_rad_orders"; AData "mode_statistics" "wu" "_wu_rule"]
   ++ (if mesa then [AData "checks" "pre_checks" "_pre_checks"] else [])
   ++ freq_acts "mode_frequency_info" "" ++ [AUnits "mode_frequency_info"]
   ++ (if mesa then freq_acts "nad_mode_frequency_info" "_nad" ++ [AUnits "nad_mode_frequency_info"] else [])
   ++ [AData "rotation" "spin_factors" "_spin_factors"; AData "rotation" "surface_rotation_frequency" "_surf_rot_f"]
   ++ (if mesa then [AData "linear_driving" "driving_rates" "_driving_rates"; AData "linear_driving" "quality_factors" "_quality_factors"] else [])
   ++ [AData "coupling/generic" "|kappa|" "_abs_ccs"; AData "coupling/generic" "|kappa_norm|" "_abs_nccs";
       AData "coupling/generic" "|eta|" "_abs_etas"; AData "coupling/generic" "adiabatic" "_adiabatic";
       AData "coupling/generic" "quadratic_terms" "_cc_terms"; AData "normalization" "radial" "_norm_factors"]
   ++ (if mesa then
       [AData "coupling/stationary_three_mode" "detunings" "_detunings"; AData "coupling/stationary_three_mode" "gammas" "_gammas";
        AData "coupling/stationary_three_mode" "critical_parent_amplitudes" "_crit_parent_amp";
        AData "coupling/stationary_three_mode" "stationary_relative_phases" "_stat_sols_rel_phase";
        AData "coupling/stationary_three_mode" "stationary_relative_luminosity_phases" "_stat_sols_rel_lum_phase";
        AData "coupling/stationary_three_mode" "q_factors" "_q_factors";
        AData "coupling/stationary_three_mode" "critical_q_factors" "_critical_q_factors";
        AData "coupling/stationary_three_mode" "equilibrium_theoretical_amplitudes" "_eq_amps";
        AData "coupling/stationary_three_mode" "surface_flux_variations" "_surf_flux_vars"] else []))%list.
(** evaluation of the arguments: attribute lookups and the first unit string (hs:56, 332, 366) *)
Definition eval_act (s : store) (us : list cell) (a : act) : res op :=
  match a with
  | AAttr g n v => Ok (SetAttr g n v)
  | AUnits g => match us with CStr u :: _ => Ok (SetAttr g "frequency_units" (AStr u)) | _ :: _ => Exc TypeError | [] => Exc IndexError end
  | AData g n k => a <- sget s k ; Ok (SetData g n a)
  end.
(** the actions up to the first one whose arguments fail *)
Fixpoint eval_acts (s : store) (us : list cell) (l : list act) : list op * res unit :=
  match l with
  | [] => ([], Ok tt)
  | a :: l' => match eval_act s us a with
               | Ok o => let (os, r) := eval_acts s us l' in (o :: os, r)
               | Exc e => ([], Exc e)
               | UB => ([], UB)
               end
  end.
(** sr:130-140 and hs:245-448: unpack, then save *)
Definition store_results (m : mode) (disk : option file) (d : results) : option file * res unit :=
  match unpack d, unpack_units d with
  | Ok s, Ok us => let (os, r) := eval_acts s us (save_acts d) in save m disk os r
  | Exc e, _ => (disk, Exc e)
  | UB, _ => (disk, UB)
  | _, Exc e => (disk, Exc e)
  | _, UB => (disk, UB)
  end.
End Unpack.

(** ** Names of the save file *)
(** f'{k}' of an integer *)
Fixpoint pos_digits (fuel : nat) (z : Z) (acc : string) : string :=
  match fuel with
  | O => acc
  | S fuel' => let acc' := String (ascii_of_nat (48 + Z.to_nat (z mod 10))) acc in
               if (z <? 10)%Z then acc' else pos_digits fuel' (z / 10) acc'
  end.
Definition str_of_Z (z : Z) : string :=
  if (z <? 0)%Z then "-" ++ pos_digits (S (Z.to_nat (Z.log2 (- z)))) (- z) "" else pos_digits (S (Z.to_nat (Z.log2 z))) z "".
Fixpoint join (sep : string) (l : list string) : string :=
  match l with [] => "" | [x] => x | x :: l' => x ++ sep ++ join sep l' end.
(** hs:83 *)
Definition qnr_string (k m : list Z) : string :=
  "_k_" ++ join "_" (map str_of_Z k) ++ "_m_" ++ join "_" (map str_of_Z m).
(** \w, ASCII *)
Definition is_word (c : ascii) : bool :=
  let n := nat_of_ascii c in
  ((48 <=? n) && (n <=? 57) || (65 <=? n) && (n <=? 90) || (97 <=? n) && (n <=? 122) || (n =? 95))%nat.
Fixpoint span_word (s : string) : string * string :=
  match s with
  | String c s' => if is_word c then let (w, t) := span_word s' in (String c w, t) else ("", s)
  | EmptyString => ("", "")
  end.
(** \/\w+\.\w+ at the start of s, with q put before the dot *)
Definition insert_here (q s : string) : option string :=
  match s with
  | String c s' =>
      if Ascii.eqb c "/" then
        match span_word s' with
        | (EmptyString, _) => None
        | (w, String d t) =>
            if Ascii.eqb d "." then
              match t with String e _ => if is_word e then Some ("/" ++ w ++ q ++ "." ++ t) else None | EmptyString => None end
            else None
        | _ => None
        end
      else None
  | EmptyString => None
  end.
(** hs:85-87, re.sub(r'(.*\/\w+)(\.\w+)', ..): .* is greedy, so the last slash that is followed by a word, a dot and a word;
    names without line breaks, where the pattern matches at most once *)
Fixpoint insert_last (q s : string) : option string :=
  match s with
  | EmptyString => None
  | String c s' => match insert_last q s' with Some r => Some (String c r) | None => insert_here q s end
  end.
Definition adjust_file_path (q s : string) : string := match insert_last q s with Some r => r | None => s end.

(** str.lower on ASCII *)
Fixpoint lower (s : string) : string :=
  match s with
  | EmptyString => ""
  | String c s' => let n := nat_of_ascii c in String (if ((65 <=? n) && (n <=? 90))%nat then ascii_of_nat (n + 32) else c) (lower s')
  end.
(** eg:17-89: the last character tested is that of "my_<format>", never a slash, so the second pattern is always used *)
Definition last_is_slash (s : string) : bool :=
  match String.get (String.length s - 1) s with Some c => Ascii.eqb c "/" | None => false end.
Definition obtain_save_directory (fmt base : string) : res (string * string) :=
  let key := "my_" ++ lower fmt in
  match (if key =? "my_ascii" then Some ("ascii_output/", "asc")
         else if key =? "my_hdf5" then Some ("hdf5_output/", "h5")
         else if key =? "my_csv" then Some ("csv_output/", "csv") else None) with
  | Some (dir, suffix) => Ok (if last_is_slash key then base ++ dir else base ++ "/" ++ dir, suffix)
  | None => Exc SystemExit
  end.
(** eg:115-132 for a string argument *)
Definition slash_subdir (s : string) : string :=
  match s with
  | EmptyString => ""
  | String c _ => if last_is_slash s then substring 0 (String.length s - 1) s
                  else if Ascii.eqb c "/" then s else "/" ++ s
  end.
(** eg:135-151, sr:206-235 *)
Definition save_name (base sub extra name fmt : string) : res string :=
  d <- obtain_save_directory fmt base ;
  Ok (fst d ++ slash_subdir sub ++ extra ++ name ++ "." ++ snd d).
(** hs:52 together with sr:130-140: the file that is opened *)
Definition save_file (base sub extra name fmt : string) (k m : list Z) : res string :=
  s <- save_name base sub extra name fmt ; Ok (adjust_file_path (qnr_string k m) s).
