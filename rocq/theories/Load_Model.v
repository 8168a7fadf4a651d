(** * Model of the model loader: which directories are searched, which files are selected and read, unit conversion and
    dimensionalisation.
    lm = aesolver/aesolver/model_handling/load_models.py, rm = aesolver/aesolver/model_handling/read_models.py,
    ss = aesolver/aesolver/model_handling/subselection_classes.py,
    er = aesolver/aesolver/model_handling/enumeration_files/enumeration_read.py,
    em = aesolver/aesolver/model_handling/enumeration_files/enumeration_models.py,
    ed = aesolver/aesolver/model_handling/enumeration_files/enumeration_dimensions.py,
    cc = num-tools/carr_conv/carr_conv.py.
    File names are sequences of ASCII characters. A file is reduced to the values stored under its names: HDF5 datasets or table
    columns, and HDF5 attributes or header entries; parsing the bytes is h5py / pandas and is not modelled. Numbers are exact
    reals; scalars and arrays with one element are identified. Log messages and progress bars are dropped. *)
From Coq Require Import List ZArith Lia Reals String Ascii Bool.
From Coquelicot Require Import Complex.
From Verif Require Import Base Py.
Import ListNotations.
Local Open Scope string_scope.

(** ** Regular expressions (the fragment of Python's re used in ss:152, 189-192, 230-237, 441-443, 473-480) *)
Definition text := list ascii.
(** one item of a pattern: a character class, a greedy star, a greedy plus, alternatives of literal words; [cap]: inside ( ) *)
Inductive item :=
| ISet (p : ascii -> bool) (cap : bool)
| IStar (p : ascii -> bool)
| IPlus (p : ascii -> bool) (cap : bool)
| IAlt (ws : list text) (cap : bool).
(** ways a greedy repetition of class p consumes a prefix, in the order the matcher tries them: longest first *)
Fixpoint greedy (p : ascii -> bool) (s : text) : list (text * text) :=
  match s with
  | [] => [([], [])]
  | c :: r => if p c then (map (fun ab => (c :: fst ab, snd ab)) (greedy p r) ++ [([], s)])%list else [([], s)]
  end.
Fixpoint strip (w s : text) : option text :=
  match w, s with
  | [], _ => Some s
  | c :: w', d :: s' => if Ascii.eqb c d then strip w' s' else None
  | _ :: _, [] => None
  end.
(** (consumed, rest) for one item, in the order tried *)
Definition splits (it : item) (s : text) : list (text * text) :=
  match it with
  | ISet p _ => match s with c :: r => if p c then [([c], r)] else [] | [] => [] end
  | IStar p => greedy p s
  | IPlus p _ => filter (fun ab => match fst ab with [] => false | _ => true end) (greedy p s)
  | IAlt ws _ => flat_map (fun w => match strip w s with Some r => [(w, r)] | None => [] end) ws
  end.
Definition captured (it : item) : bool :=
  match it with ISet _ c => c | IStar _ => false | IPlus _ c => c | IAlt _ c => c end.
(** all successful runs of the backtracking matcher with their groups, in the order they are found *)
Fixpoint rmatch (pat : list item) (s : text) : list (list text) :=
  match pat with
  | [] => [[]]
  | it :: pat' => flat_map (fun ab => map (fun gs => if captured it then fst ab :: gs else gs) (rmatch pat' (snd ab))) (splits it s)
  end.
(** pattern.match(name): anchored at the start only; the first success *)
Definition re_match (pat : list item) (s : text) : option (list text) := hd_error (rmatch pat s).

Definition dot (c : ascii) : bool := negb (Ascii.eqb c "010"%char).
Definition digit (c : ascii) : bool := ((48 <=? nat_of_ascii c) && (nat_of_ascii c <=? 57))%nat.
Definition lit (c : ascii) : item := ISet (Ascii.eqb c) false.
(** ss:231, 474: r'.*l(\d+).*' *)
Definition pat_l : list item := [IStar dot; lit "l"; IPlus digit true; IStar dot].
(** ss:232, 475: r'.*m([\+|-])(\d+).*'; the bracket holds the three characters + | - *)
Definition sign_class (c : ascii) : bool := Ascii.eqb c "+" || Ascii.eqb c "|" || Ascii.eqb c "-".
Definition pat_m : list item := [IStar dot; lit "m"; ISet sign_class true; IPlus digit true; IStar dot].
(** ss:233, 476: r'.*n\+(\d+).*' *)
Definition pat_n : list item := [IStar dot; lit "n"; lit "+"; IPlus digit true; IStar dot].
(** ss:228, 234-236, 471, 477-479 *)
Definition mode_word (g : bool) : text := list_ascii_of_string (if g then "g_mode" else "p_mode").
Definition pat_mode (g : bool) : list item := [IStar dot; IAlt [mode_word g] true; IStar dot].
(** ss:190, 442: rf'.+\.({suffix})', the suffix taken as literal characters *)
Definition pat_suffix (suffix : string) : list item := [IPlus dot false; lit "."; IAlt [list_ascii_of_string suffix] true].
(** ss:191 *)
Definition pat_not_gyre : list item := [IPlus dot false; IAlt [list_ascii_of_string "gyre"; list_ascii_of_string "GYRE"] true; IStar dot].

(** int(digits) *)
Definition digit_value (c : ascii) : Z := (Z.of_nat (nat_of_ascii c) - 48)%Z.
Definition int_of (ds : text) : Z := fold_left (fun a c => (10 * a + digit_value c)%Z) ds 0%Z.
(** w in name *)
Fixpoint contains (w : text) (s : text) : bool :=
  match strip w s with Some _ => true | None => match s with [] => false | _ :: s' => contains w s' end end.
Definition is_in (w name : string) : bool := contains (list_ascii_of_string w) (list_ascii_of_string name).
Definition txt (s : string) : text := list_ascii_of_string s.

(** ** Sub-selection *)
(** the additional_substring argument *)
Inductive substr := SNone | SStr (s : string) | SList (l : list string) | STuple (l : list string).
(** quantum numbers searched for (ss:219-229, 462-472) *)
Record search := { s_l : list Z; s_m : list Z; s_n : list Z }.
(** _conditional (ss:367-423, 602-665): one element of the search dictionary *)
Definition cond_l (q : search) (name : string) (nr : Z) : res bool :=
  match re_match pat_l (txt name) with
  | Some (ds :: _) => v <- py_get (s_l q) nr ; Ok (int_of ds =? v)%Z
  | _ => Ok false
  end.
Definition cond_n (q : search) (name : string) (nr : Z) : res bool :=
  match re_match pat_n (txt name) with
  | Some (ds :: _) => v <- py_get (s_n q) nr ; Ok (int_of ds =? v)%Z
  | _ => Ok false
  end.
Definition cond_m (q : search) (name : string) (nr : Z) : res bool :=
  match re_match pat_m (txt name) with
  | Some (sg :: ds :: _) =>
      v <- py_get (s_m q) nr ;
      Ok (if list_eq_dec ascii_dec sg ["+"%char] then (int_of ds =? v)%Z else ((-1) * int_of ds =? v)%Z)
  | _ => Ok false
  end.
Definition cond_mode (name : string) (g : bool) : res bool :=
  match re_match (pat_mode g) (txt name) with
  | Some (w :: _) => Ok (if list_eq_dec ascii_dec w (mode_word g) then true else false)
  | _ => Ok false
  end.
(** loop over the search dictionary, leaving at the first unfulfilled condition (ss:310-318 and its copies) *)
Fixpoint all_conds (cs : list (res bool)) : res bool :=
  match cs with
  | [] => Ok true
  | c :: cs' => b <- c ; if b : bool then all_conds cs' else Ok false
  end.
(** GYREDetailSubSelector.subselect, PolytropeOscillationModelSubSelector.subselect (ss:241-364, 484-599); mode_number >= 1 *)
Definition subselect_mode (q : search) (sub : substr) (name : string) (mode_number : Z) (g : bool) : res bool :=
  let nr := (mode_number - 1)%Z in
  let rest := all_conds [cond_l q name nr; cond_m q name nr; cond_n q name nr; cond_mode name g] in
  match sub with
  | SNone => rest
  | SStr s => if is_in s name then rest else Ok false
  | SList l => s <- py_get l nr ; if is_in s name then rest else Ok false
  | STuple l => if forallb (fun s => is_in s name) l then rest else Ok false
  end.
(** SubSelectorFiles._conditional (ss:133-168) *)
Definition cond_generic (want : string) (positive : bool) (pat : list item) (name : string) : bool :=
  match re_match pat (txt name) with
  | Some (w :: _) => positive && (if list_eq_dec ascii_dec w (txt want) then true else false)
  | Some [] => false
  | None => negb positive
  end.
(** SubSelectorFiles.subselect (ss:45-130): no method is registered for a plain string *)
Definition subselect_structure (conds : string -> bool) (sub : substr) (name : string) : res bool :=
  match sub with
  | SNone => Ok (conds name)
  | SStr _ => Exc NotImplementedError
  | SList l | STuple l => if forallb (fun s => is_in s name) l then Ok (conds name) else Ok false
  end.
(** MESAProfileSubSelector (ss:172-193) and PolytropeModelSubSelector (ss:427-444) *)
Definition mesa_conds (suffix name : string) : bool :=
  cond_generic suffix true (pat_suffix suffix) name && cond_generic "gyre" false pat_not_gyre name.
Definition poly_conds (suffix name : string) : bool := cond_generic suffix true (pat_suffix suffix) name.

(** ** Reading files *)
(** a Python dict in insertion order *)
Definition dict (V : Type) := list (string * V).
Fixpoint dget {V} (k : string) (d : dict V) : option V :=
  match d with [] => None | (k', v) :: d' => if string_dec k k' then Some v else dget k d' end.
Fixpoint dset {V} (d : dict V) (k : string) (v : V) : dict V :=
  match d with [] => [(k, v)] | (k', v') :: d' => if string_dec k k' then (k', v) :: d' else (k', v') :: dset d' k v end.
(** datasets or columns first, attributes or header entries second *)
Record content (V : Type) := { c_main : dict V; c_extra : dict V }.
Arguments c_main {V}. Arguments c_extra {V}.
Record entry (V : Type) := { e_name : string; e_file : bool; e_content : content V }.
Arguments e_name {V}. Arguments e_file {V}. Arguments e_content {V}.
(** rm:123-168, 196-233: _dat_reader, _hdf5_reader: the attributes found, unknown ones discarded *)
Definition read_attrs {V} (attrs : list string) (c : content V) : dict V :=
  fold_left (fun d k => match dget k (c_main c) with
                        | Some v => dset d k v
                        | None => match dget k (c_extra c) with Some v => dset d k v | None => d end
                        end) attrs [].
Definition upper_char (c : ascii) : ascii := let n := nat_of_ascii c in if ((97 <=? n) && (n <=? 122))%nat then ascii_of_nat (n - 32) else c.
Definition lower_char (c : ascii) : ascii := let n := nat_of_ascii c in if ((65 <=? n) && (n <=? 90))%nat then ascii_of_nat (n + 32) else c.
Fixpoint upper (s : string) : string := match s with EmptyString => EmptyString | String c s' => String (upper_char c) (upper s') end.
Fixpoint lower (s : string) : string := match s with EmptyString => EmptyString | String c s' => String (lower_char c) (lower s') end.
(** name.rsplit('.', maxsplit=1)[1] (rm:92-94): the text after the last dot, IndexError without a dot *)
Fixpoint after_last_dot (s : string) : option string :=
  match s with
  | EmptyString => None
  | String c s' => match after_last_dot s' with
                   | Some r => Some r
                   | None => if Ascii.eqb c "." then Some s' else None
                   end
  end.
Definition suffix_finder (name : string) : res string :=
  match after_last_dot name with Some s => Ok s | None => Exc IndexError end.
(** rm:98-120 with er:37-67, text files read as nothing (rm:171-193) *)
Definition read_file {V} (attrs : list string) (c : content V) (suffix : string) : res (dict V) :=
  let u := upper suffix in
  if string_dec u "H5" then Ok (read_attrs attrs c)
  else if string_dec u "HDF5" then Ok (read_attrs attrs c)
  else if string_dec u "TXT" then Ok []
  else if string_dec u "DAT" then Ok (read_attrs attrs c)
  else Exc SystemExit.
(** rm:236-287: data_file_reader over the entries in the order scandir yields them *)
Fixpoint data_file_reader {V} (attrs : list string) (sel : string -> res bool) (dir : list (entry V)) : res (list (dict V)) :=
  match dir with
  | [] => Ok []
  | e :: dir' =>
      b <- (if e_file e then sel (e_name e) else Ok false) ;
      if b : bool then
        s <- suffix_finder (e_name e) ;
        d <- read_file attrs (e_content e) s ;
        ds <- data_file_reader attrs sel dir' ;
        Ok (d :: ds)
      else data_file_reader attrs sel dir'
  end.
(** the file system: the entries of a directory, None if it cannot be listed; os.scandir(None) lists the current directory *)
Definition fsys (V : Type) := string -> option (list (entry V)).
Definition scandir {V} (fs : fsys V) (d : option string) : res (list (entry V)) :=
  match fs (match d with Some p => p | None => "." end) with Some l => Ok l | None => Exc FileNotFoundError end.
(** lm:535-581, 667-713: one dictionary per mode, modes without exactly one file are dropped, then the count is checked *)
Definition load_modes {V} (fs : fsys V) (dir : option string) (attrs : list string) (q : search) (sub : substr) (g_modes : list bool) : res (list (dict V)) :=
  let nr := List.length (s_l q) in
  per <- mapM (fun i => g <- py_get g_modes (Z.of_nat i) ;
                        es <- scandir fs dir ;
                        data_file_reader attrs (fun name => subselect_mode q sub name (Z.of_nat i + 1) g) es) (seq 0 nr) ;
  let kept := flat_map (fun ds => match ds with [d] => [d] | _ => [] end) per in
  if (List.length kept =? nr)%nat then Ok kept else Exc SystemExit.
(** lm:599-622, 631-653: exactly one non-empty structure file *)
Definition load_structure {V} (fs : fsys V) (dir : option string) (attrs : list string) (conds : string -> bool) (sub : substr) : res (dict V) :=
  es <- scandir fs dir ;
  ds <- data_file_reader attrs (subselect_structure conds sub) es ;
  match ds with
  | [d] => match d with [] => Exc SystemExit | _ => Ok d end
  | _ => Exc SystemExit
  end.

(** ** Directories *)
(** lm:287-310: _init_dir_path; every caller passes infer_subdir = False *)
Definition init_dir_path (base : option string) (subdir : option string) (infer_subdir : bool) : option string :=
  match subdir with
  | None => None
  | Some s => match base with
              | Some b => if infer_subdir then Some (b ++ s) else Some s
              | None => Some ("None" ++ s)
              end
  end.
Record dirs := { d_mesa : option string; d_gyre : option string; d_poly_model : option string; d_poly_osc : option string }.
Definition initialize_dirs (base mesa gyre pm po : option string) : dirs :=
  {| d_mesa := init_dir_path base mesa false; d_gyre := init_dir_path base gyre false;
     d_poly_model := init_dir_path base pm false; d_poly_osc := init_dir_path base po false |}.
(** DirEntry.path *)
Definition path_join (b n : string) : string :=
  match List.rev (txt b) with
  | c :: _ => if Ascii.eqb c "/" then b ++ n else b ++ "/" ++ n
  | [] => n
  end.
(** a subdirectory entry: name, is_dir *)
Definition possible (base key : string) (sub : list (string * bool)) : list string :=
  map (fun nb => path_join base (fst nb)) (filter (fun nb => snd nb && is_in key (lower (fst nb))) sub).
(** lm:360-389: _results_infer *)
Definition results_infer (found : list string) : option string := match found with [p] => Some p | _ => None end.
Definition infer_one (base key : string) (sub : list (string * bool)) (d : option string) : option string :=
  match d with Some p => Some p | None => results_infer (possible base key sub) end.
Definition missing (d : dirs) : bool :=
  match d_mesa d, d_gyre d, d_poly_model d, d_poly_osc d with Some _, Some _, Some _, Some _ => false | _, _, _, _ => true end.
(** lm:392-457: _infer_dirs; [list_base]: entries of the base directory *)
Definition infer_dirs (base : option string) (list_base : string -> option (list (string * bool))) (infer : bool) (d : dirs) : res dirs :=
  if infer && missing d then
    match base with
    | None => Exc SystemExit
    | Some b => match list_base b with
                | None => Exc FileNotFoundError
                | Some sub => Ok {| d_mesa := infer_one b "mesa" sub (d_mesa d); d_gyre := infer_one b "gyre" sub (d_gyre d);
                                    d_poly_model := infer_one b "polytrope_model" sub (d_poly_model d);
                                    d_poly_osc := infer_one b "polytrope_oscillation" sub (d_poly_osc d) |}
                end
    end
  else Ok d.
(** the directories an initialised loader searches (lm:154-174) *)
Definition loader_dirs (base mesa gyre pm po : option string) (list_base : string -> option (list (string * bool))) (infer : bool) : res dirs :=
  infer_dirs base list_base infer (initialize_dirs base mesa gyre pm po).

(** ** Values, unit conversion, dimensionalisation *)
(** real arrays, the compound (re, im) arrays of GYRE, complex arrays, anything else (strings, labels) *)
Inductive val := VReal (l : list R) | VReIm (l : list (R * R)) | VCx (l : list C) | VStr (s : string).
(** numpy broadcasting of one-dimensional operands *)
Definition bcast {A B D} (f : A -> B -> D) (x : list A) (y : list B) : res (list D) :=
  match x, y with
  | [a], _ => Ok (map (f a) y)
  | _, [b] => Ok (map (fun a => f a b) x)
  | _, _ => if (List.length x =? List.length y)%nat then Ok (map (fun ab => f (fst ab) (snd ab)) (combine x y)) else Exc ValueError
  end.
(** em:90-207: entries of GYREDetailFiles with a conversion factor; every other entry has {'SI': None} *)
Definition si_factor (k : string) : option R :=
  if string_dec k "M_star" then Some (/ 1000)%R
  else if string_dec k "R_star" then Some (/ 100)%R
  else if string_dec k "L_star" then Some (/ 10000000)%R
  else if string_dec k "M_r" then Some (/ 1000)%R
  else if string_dec k "P" then Some (/ 10)%R
  else if string_dec k "rho" then Some 1000%R
  else None.
(** em:94-207: the names read from a GYRE detail file, in order *)
Definition gyre_detail_attrs : list string :=
  ["n"; "omega"; "x"; "y_1"; "y_2"; "y_3"; "y_4"; "y_5"; "y_6"; "freq"; "freq_units"; "freq_frame"; "f_T"; "f_g"; "psi_T"; "psi_g"; "j"; "l"; "l_i"; "m";
   "n_p"; "n_g"; "n_pg"; "omega_int"; "dzeta_dx"; "Yt_1"; "Yt_2"; "I_0"; "I_1"; "prop_type"; "x_ref"; "xi_r_ref"; "xi_h_ref"; "eul_phi_ref";
   "deul_phi_ref"; "lag_S_ref"; "lag_L_ref"; "xi_r"; "xi_h"; "eul_phi"; "deul_phi"; "lag_S"; "lag_L"; "eul_P"; "eul_rho"; "eul_T"; "lag_P"; "lag_rho";
   "lag_T"; "eta"; "E"; "E_p"; "E_g"; "E_norm"; "E_ratio"; "H"; "W"; "W_eps"; "tau_ss"; "tau_tr"; "dE_dx"; "dW_dx"; "dW_eps_dx"; "dtau_ss_dx";
   "dtau_tr_dx"; "alpha_0"; "alpha_1"; "domega_rot"; "dfreq_rot"; "beta"; "dbeta_dx"; "lambda"; "M_star"; "R_star"; "L_star"; "Delta_p"; "Delta_g";
   "V_2"; "As"; "U"; "c_1"; "Gamma_1"; "nabla"; "nabla_ad"; "dnabla_ad"; "upsilon_r"; "c_lum"; "c_rad"; "c_thn"; "c_thk"; "c_eps"; "kap_rho"; "kap_T";
   "eps_rho"; "eps_T"; "Omega_rot"; "M_r"; "P"; "rho"; "T"].
(** em:61-86: the action for a unit system; the key is looked up with its exact spelling *)
Definition conversion (unit_system k : string) (v : val) : res val :=
  if string_dec unit_system "SI" then
    match si_factor k with
    | None => Ok v
    | Some f => match v with
                | VReal l => Ok (VReal (map (Rmult f) l))
                | VCx l => Ok (VCx (map (Cmult (RtoC f)) l))
                | VReIm _ | VStr _ => Exc TypeError
                end
    end
  else Ok v.
(** lm:461-492: _unit_conversion of one dictionary *)
Fixpoint unit_conversion (unit_system : string) (d : dict val) : res (dict val) :=
  match d with
  | [] => Ok []
  | (k, v) :: d' => v' <- conversion unit_system k v ; r <- unit_conversion unit_system d' ; Ok ((k, v') :: r)
  end.
(** lm:529-533: G of the unit system, here with the spelling folded to lower case *)
Definition g_value (g_cgs g_si : R) (unit_system : string) : R := if string_dec (lower unit_system) "si" then g_si else g_cgs.

(** d[k] of a real-valued entry *)
Definition real_entry (d : dict val) (k : string) : res (list R) :=
  match dget k d with Some (VReal l) => Ok l | Some _ => Exc TypeError | None => Exc KeyError end.
(** ed:97-254 *)
Definition get_r (d : dict val) : res (list R) := real_entry d "R_star".
Definition get_eul_phi_fac (d : dict val) : res (list R) :=
  g <- real_entry d "G" ; m <- real_entry d "M_star" ; gm <- bcast Rmult g m ; r <- real_entry d "R_star" ; bcast Rdiv gm r.
Definition get_deul_phi_fac (d : dict val) : res (list R) :=
  g <- real_entry d "G" ; m <- real_entry d "M_star" ; gm <- bcast Rmult g m ; r <- real_entry d "R_star" ; bcast Rdiv gm (map (fun x => x ^ 2)%R r).
Definition get_P (d : dict val) : res (list R) := real_entry d "P".
Definition get_rho (d : dict val) : res (list R) := real_entry d "rho".
Definition get_T (d : dict val) : res (list R) := real_entry d "T".
Definition get_om_rot_fac (d : dict val) : res (list R) :=
  g <- real_entry d "G" ; m <- real_entry d "M_star" ; gm <- bcast Rmult g m ; r <- real_entry d "R_star" ;
  q <- bcast Rdiv gm (map (fun x => x ^ 3)%R r) ; Ok (map sqrt q).
Definition get_L (d : dict val) : res (list R) := real_entry d "L_star".
Definition get_E_fac (d : dict val) : res (list R) :=
  m <- real_entry d "M_star" ; r <- real_entry d "R_star" ; bcast Rmult m (map (fun x => x ^ 2)%R r).
Definition get_H_fac (d : dict val) : res (list R) :=
  g <- real_entry d "G" ; m <- real_entry d "M_star" ; gm <- bcast Rmult g (map (fun x => x ^ 2)%R m) ; r <- real_entry d "R_star" ; bcast Rdiv gm r.
(** a dimensionalisation class: factors by upper-cased key, keys holding complex arrays, keys left out *)
Record dimclass := { dc_factor : string -> option (dict val -> res (list R)); dc_complex : list string; dc_avoid : list string }.
(** ed:258-348: DimGyre *)
Definition gyre_factors : list (string * (dict val -> res (list R))) :=
  [("XI_R", get_r); ("XI_H", get_r); ("EUL_PHI", get_eul_phi_fac); ("DEUL_PHI", get_deul_phi_fac); ("EUL_P", get_P); ("EUL_RHO", get_rho);
   ("EUL_T", get_T); ("LAG_P", get_P); ("LAG_RHO", get_rho); ("LAG_T", get_T); ("OMEGA_ROT", get_om_rot_fac); ("DELTA_P", get_om_rot_fac);
   ("DELTA_G", get_om_rot_fac); ("XI_R_REF", get_r); ("XI_H_REF", get_r); ("EUL_PHI_REF", get_eul_phi_fac); ("DEUL_PHI_REF", get_deul_phi_fac);
   ("LAG_S_REF", get_r); ("LAG_L_REF", get_L); ("LAG_S", get_r); ("LAG_L", get_L); ("E", get_E_fac); ("E_P", get_E_fac); ("E_G", get_E_fac);
   ("H", get_H_fac); ("W", get_H_fac); ("W_EPS", get_H_fac); ("TAU_SS", get_H_fac); ("TAU_TR", get_H_fac); ("DE_DX", get_E_fac);
   ("DW_DX", get_H_fac); ("DW_EPS_DX", get_H_fac); ("DTAU_SS_DX", get_H_fac); ("DTAU_TR_DX", get_H_fac)].
Definition dim_gyre : dimclass := {|
  dc_factor := fun u => dget u gyre_factors;
  dc_complex := ["xi_r"; "xi_h"; "eul_phi"; "deul_phi"; "eul_P"; "eul_rho"; "eul_T"; "xi_r_ref"; "lag_P"; "lag_rho"; "lag_T"; "omega"; "y_1"; "y_2";
                 "y_3"; "y_4"; "y_5"; "y_6"; "freq"; "l_i"; "lambda"; "omega_int"; "dzeta_dx"; "Yt_1"; "Yt_2"; "I_0"; "I_1"; "xi_h_ref"; "eul_phi_ref";
                 "deul_phi_ref"; "lag_S_ref"; "lag_L_ref"; "lag_S"; "lag_S_ref"; "dbeta_dx"; "lag_L"];
  dc_avoid := ["freq_units"; "freq_frame"; "n"; "j"; "l"; "m"; "n_p"; "n_g"; "n_pg"; "prop_type"] |}.
(** ed:62-93: ReImPoly *)
Definition re_im_poly : dimclass := {|
  dc_factor := fun _ => None;
  dc_complex := ["xi_r"; "xi_h"; "eul_phi"; "deul_phi"; "omega"; "y_1"; "y_2"; "y_3"; "y_4"; "y_5"; "y_6"; "freq"; "l_i"; "lambda"];
  dc_avoid := ["freq_units"; "freq_frame"; "n"; "j"; "l"; "m"; "n_p"; "n_g"; "n_pg"; "label"] |}.
(** cc:11-35: re_im; the result has the length of the array, so a longer factor cannot be stored in it *)
Definition re_im (v : val) (f : list R) : res val :=
  match v with
  | VReIm l => r <- bcast (fun z x => (fst z * x, snd z * x)%R : C) l f ;
               if (List.length r =? List.length l)%nat then Ok (VCx r) else Exc ValueError
  | _ => Exc IndexError
  end.
(** value times factor *)
Definition times (v : val) (f : list R) : res val :=
  match v with
  | VReal l => r <- bcast Rmult l f ; Ok (VReal r)
  | VCx l => r <- bcast (fun z x => Cmult z (RtoC x)) l f ; Ok (VCx r)
  | VReIm _ | VStr _ => Exc TypeError
  end.
(** ed:30-58: one entry of the loop *)
Definition dim_entry (c : dimclass) (d : dict val) (kv : string * val) : res (option (string * val)) :=
  let (k, v) := kv in
  if in_dec string_dec k (dc_avoid c) then Ok None
  else
    nf <- (match dc_factor c (upper k) with
           | Some f => x <- f d ; Ok (k ++ "_dim", x)
           | None => Ok (k, [1%R])
           end) ;
    w <- (if in_dec string_dec k (dc_complex c) then re_im v (snd nf) else times v (snd nf)) ;
    Ok (Some (fst nf, w)).
Definition dimensionalize (c : dimclass) (d : dict val) : res (dict val) :=
  new <- mapM (dim_entry c d) d ;
  let dummy := fold_left (fun t o => match o with Some kv => dset t (fst kv) (snd kv) | None => t end) new [] in
  Ok (fold_left (fun t kv => dset t (fst kv) (snd kv)) dummy d).
(** lm:582-597: a GYRE detail dictionary as the loader returns it *)
Definition finish_detail (g_cgs g_si : R) (unit_system : string) (d : dict val) : res (dict val) :=
  d' <- unit_conversion unit_system d ; dimensionalize dim_gyre (dset d' "G" (VReal [g_value g_cgs g_si unit_system])).
