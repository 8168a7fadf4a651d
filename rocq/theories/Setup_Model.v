(** * Model of the names of result files to be loaded and of the directories a run reads.
    ln = aesolver/aesolver/read_load_info/load_name_plots.py, ri = aesolver/aesolver/read_load_info/read_info_dirs.py,
    qs = aesolver/aesolver/solver/solver_base_classes/quadratic_solver.py, qg = aesolver/aesolver/solver/quadratic_grid.py,
    lm = aesolver/aesolver/model_handling/load_models.py, pq = aesolver/aerunners/plot_quadratic.py.
    Simplifications: the text of floats and of containers is a parameter (repr); the custom (shlex) information file is modelled in Info_Model;
    here the toml form; log messages and progress bars are dropped. Values are those of Parser_Model. *)
From Coq Require Import List ZArith QArith Ascii String Bool.
From Verif Require Import Base Py Inlist_Model Parser_Model.
From Verif Require Saver_Model Load_Model.
Import ListNotations.
Local Open Scope string_scope.

(** f'{v}' and str(v); [repr] gives the text of floats, arrays, tuples and tables *)
Definition py_str (repr : val -> string) (v : val) : string :=
  match v with
  | VNone => "None"
  | VBool b => if b then "True" else "False"
  | VInt z => Saver_Model.str_of_Z z
  | VStr s => s
  | _ => repr v
  end.
(** v[i] for an integer i >= 0; a table has no integer keys *)
Fixpoint nth_char (s : string) (i : nat) : option string :=
  match s, i with
  | EmptyString, _ => None
  | String c _, O => Some (String c "")
  | String _ s', S i' => nth_char s' i'
  end.
Definition at_index (i : nat) (v : val) : res val :=
  match v with
  | VArr l | VTup l => match nth_error l i with Some x => Ok x | None => Exc IndexError end
  | VStr s => match nth_char s i with Some x => Ok (VStr x) | None => Exc IndexError end
  | VTab _ => Exc KeyError
  | _ => Exc TypeError
  end.

(** ** Names of the files to load (ln) *)
(** text.split('.') into exactly two parts (ln:183), otherwise the unpacking raises *)
Fixpoint split_dot (s : string) : list string :=
  match s with
  | EmptyString => [""]
  | String c s' => if Ascii.eqb c "." then "" :: split_dot s'
                   else match split_dot s' with [] => [String c ""] | w :: ws => String c w :: ws end
  end.
Inductive paths := One (s : string) | Many (l : list string).
(** the texts of a list; [None]: some element is not a string *)
Fixpoint strings (l : list val) : option (list string) :=
  match l with
  | [] => Some []
  | VStr s :: l' => option_map (cons s) (strings l')
  | _ :: _ => None
  end.
Section Names.
  Variable repr : val -> string.
  (** self._raw_info[key][self._index] (ln:165-173) *)
  Definition raw (d : table) (i : nat) (k : string) : res val := v <- item k (VTab d) ; at_index i v.
  (** ln:199-245 *)
  Definition order_string (d : table) (i : nat) (pre key : string) : res string :=
    v <- raw d i key ; a <- at_index 0 v ; b <- at_index 1 v ; c <- at_index 2 v ;
    Ok (pre ++ "_" ++ py_str repr a ++ "_" ++ py_str repr b ++ "_" ++ py_str repr c).
  (** ln:175-184 *)
  Definition split_xc (d : table) (i : nat) : res string :=
    v <- raw d i "Xcs" ;
    match split_dot (py_str repr v) with [a; b] => Ok (a ++ "_" ++ b) | _ => Exc ValueError end.
  (** ln:186-197 *)
  Definition radial_order_string (d : table) (i : nat) : res string :=
    t <- raw d i "triple_pairs" ;
    a <- at_index 0 t ; a0 <- at_index 0 a ; a1 <- at_index 1 a ;
    b <- at_index 1 t ; b0 <- at_index 0 b ; b1 <- at_index 1 b ;
    c <- at_index 2 t ; c0 <- at_index 0 c ; c1 <- at_index 1 c ;
    Ok ("d" ++ py_str repr a0 ++ "_" ++ py_str repr a1 ++ "_d" ++ py_str repr b0 ++ "_" ++ py_str repr b1 ++ "_p" ++ py_str repr c0 ++ "_" ++ py_str repr c1).
  (** ln:116-127 and the body of the loop ln:133-144: the same text; [std] is '' for custom names *)
  Definition generic_name (std ks ms bn sn sf : string) : string :=
    bn ++ (if String.eqb sn "" then "" else "_" ++ sn) ++ std ++ "_" ++ ks ++ "_" ++ ms ++ "." ++ sf.
  (** zip of three lists *)
  Fixpoint zip3 (a b c : list string) : list (string * string * string) :=
    match a, b, c with x :: a', y :: b', z :: c' => (x, y, z) :: zip3 a' b' c' | _, _, _ => [] end.
  (** ln:90-145: LoadFileName(d, i)().  The multimethod dispatches on three strings or three lists of strings and raises
      DispatchError (a TypeError) otherwise; empty lists and lists with other elements are outside the model. *)
  Definition load_file_name (d : table) (i : nat) : res paths :=
    base <- item "base_dir" (VTab d) ;
    match base with
    | VStr base =>
      out <- item "output_dir" (VTab d) ;
      match out with
      | VStr out =>
        std <- item "use_standard_format" (VTab d) ;
        bn <- raw d i "base_file_names" ;
        sn <- raw d i "specification_names" ;
        ks <- order_string d i "k" "meridional_degrees" ;
        ms <- order_string d i "m" "azimuthal_orders" ;
        sf <- raw d i "file_suffix" ;
        extra <- (if truthy std then
                    m <- raw d i "masses" ; x <- split_xc d i ; r <- radial_order_string d i ;
                    Ok ("_M" ++ py_str repr m ++ "_Xc" ++ x ++ "_" ++ r)
                  else Ok "") ;
        let path := fun n => base ++ "/" ++ out ++ "/" ++ n in
        match bn, sn, sf with
        | VStr b, VStr s, VStr f => Ok (One (path (generic_name extra ks ms b s f)))
        | VArr b, VArr s, VArr f =>
            match strings b, strings s, strings f with
            | Some (b0 :: b'), Some (s0 :: s'), Some (f0 :: f') =>
                Ok (Many (map (fun x => let '(b, s, f) := x in path (generic_name extra ks ms b s f)) (zip3 (b0 :: b') (s0 :: s') (f0 :: f'))))
            | _, _, _ => UB
            end
        | _, _, _ => Exc TypeError
        end
      | _ => Exc TypeError
      end
    | _ => Exc TypeError
    end.
  (** range(v) *)
  Definition py_range (v : val) : res (list nat) :=
    match v with
    | VInt z => Ok (seq 0 (Z.to_nat z))
    | VBool b => Ok (if b then [0%nat] else [])
    | _ => Exc TypeError
    end.
  (** ln:23-50: only a KeyError is turned into an exit *)
  Definition generate_load_file_path_list (d : table) : res (list paths) :=
    match (v <- item "nr_files" (VTab d) ; ids <- py_range v ; mapM (load_file_name d) ids) with
    | Exc KeyError => Exc SystemExit
    | r => r
    end.
End Names.
(** pq:139-176 (aq: the same): the dictionary read from the inlist *)
Definition load_spec : list entry :=
  [E3 "base_file_names" (IPath ["plotting"; "load"; "base_file_names"]) false;
   E3 "specification_names" (IPath ["plotting"; "load"; "specification_names"]) false;
   E3 "masses" (IPath ["plotting"; "load"; "masses"]) false;
   E3 "Xcs" (IPath ["plotting"; "load"; "Xcs"]) false;
   E3 "triple_pairs" (IPath ["plotting"; "load"; "triple_pairs"]) false;
   E3 "meridional_degrees" (IPath ["plotting"; "load"; "meridional_degrees"]) false;
   E3 "azimuthal_orders" (IPath ["plotting"; "load"; "azimuthal_orders"]) false;
   E3 "file_suffix" (IPath ["plotting"; "load"; "file_suffix"]) false;
   E3 "nr_files" (IPath ["plotting"; "load"; "nr_files"]) false;
   E3 "output_dir" (IPath ["plotting"; "load"; "output_dir"]) false;
   E3 "base_dir" (IPath ["plotting"; "load"; "base_dir"]) false;
   E3 "use_standard_format" (IPath ["plotting"; "load"; "use_custom_name"]) true].
(** the plot and analysis scripts: the inlist values, then the paths *)
Definition paths_of_inlist (repr : val -> string) (inlist : table) : res (list paths) :=
  d <- read_in_to_dict (VTab (adjust_for_none inlist)) load_spec ; generate_load_file_path_list repr d.

(** ** Information folders (ri:262-341) *)
(** tuple(v) *)
Fixpoint chars (s : string) : list val := match s with EmptyString => [] | String c s' => VStr (String c "") :: chars s' end.
Definition to_tuple (v : val) : res val :=
  match v with
  | VArr l | VTup l => Ok (VTup l)
  | VStr s => Ok (VTup (chars s))
  | VTab t => Ok (VTup (map (fun kv => VStr (fst kv)) t))
  | _ => Exc TypeError
  end.
(** tuple(sel[k]) if sel[flag] else sel[k] *)
Definition maybe_tuple (sel : val) (k flag : string) : res val :=
  f <- item flag sel ; v <- item k sel ; if truthy f then to_tuple v else Ok v.
Definition parse_toml_info_file (toml : table) : res table :=
  info <- item "information_folders" (VTab toml) ;
  mesa <- item "MESA" info ;
  gyre <- item "GYRE" info ;
  poly <- item "POLY" info ; structure <- item "structure" poly ;
  poly' <- item "POLY" info ; modes <- item "modes" poly' ;
  d1 <- item "default" mesa ; v1 <- item "base_dir" d1 ;
  d2 <- item "default" mesa ; v2 <- item "output_dir" d2 ;
  s3 <- item "selection" mesa ; v3 <- maybe_tuple s3 "substrings" "substrings_to_tuple" ;
  s4 <- item "selection" mesa ; v4 <- item "suffix" s4 ;
  d5 <- item "default" gyre ; v5 <- item "base_dir" d5 ;
  d6 <- item "default" gyre ; v6 <- item "output_dir" d6 ;
  s7 <- item "selection" gyre ; v7 <- maybe_tuple s7 "detail_substrings" "detail_substrings_to_tuple" ;
  s8 <- item "selection" gyre ; v8 <- item "summary_substring" s8 ;
  d9 <- item "default" structure ; v9 <- item "base_dir" d9 ;
  d10 <- item "default" structure ; v10 <- item "output_dir" d10 ;
  s11 <- item "selection" structure ; v11 <- maybe_tuple s11 "substrings" "substrings_to_tuple" ;
  s12 <- item "selection" structure ; v12 <- item "suffix" s12 ;
  d13 <- item "default" modes ; v13 <- item "base_dir" d13 ;
  d14 <- item "default" modes ; v14 <- item "output_dir" d14 ;
  s15 <- item "selection" modes ; v15 <- maybe_tuple s15 "detail_substrings" "detail_substrings_to_tuple" ;
  s16 <- item "selection" modes ; v16 <- item "summary_substring" s16 ;
  Ok [("base_dir", v1); ("mesa_output_dir", v2); ("mesa_profile_substrings", v3); ("mesa_suffix", v4);
      ("gyre_base_dir", v5); ("gyre_output_dir", v6); ("gyre_detail_substring", v7); ("gyre_summary_substring", v8);
      ("poly_base_dir", v9); ("poly_struct_dir", v10); ("poly_struct_substrings", v11); ("poly_struct_suffix", v12);
      ("poly_mode_base_dir", v13); ("poly_mode_dir", v14); ("poly_mode_substrings", v15); ("poly_summary_substring", v16)].

(** ** Directories a run reads (qs:217-247, 338-422) *)
(** d.pop(k) *)
Definition pop (k : string) (d : table) : res table :=
  match tget d k with
  | Some _ => Ok (filter (fun kv => negb (String.eqb k (fst kv))) d)
  | None => Exc KeyError
  end.
Fixpoint pops (ks : list string) (d : table) : res table :=
  match ks with [] => Ok d | k :: ks' => d' <- pop k d ; pops ks' d' end.
(** what the constructor keeps: the two mode directories and the information folders *)
Record setup := { ad_dir : string; nad_dir : option string; info : table }.
Definition solver_setup (repr : val -> string) (polytrope : bool) (rot_pct base ad nad : val) (folders : table) : res setup :=
  let ad := match ad with VNone => "output_rot_" ++ py_str repr rot_pct | _ => py_str repr ad end in
  let nad := match nad with VNone => "output_nad_rot_" ++ py_str repr rot_pct | _ => py_str repr nad end in
  f <- pops ["gyre_base_dir"; "gyre_output_dir"] folders ;
  Ok {| ad_dir := py_str repr base ++ ad ++ "/";
        nad_dir := if polytrope then None else Some (py_str repr base ++ nad ++ "/"); info := f |}.
(** values as arguments of the loader: strings or None are paths; other values are outside the model *)
Definition as_path (v : val) : res (option string) :=
  match v with VStr s => Ok (Some s) | VNone => Ok None | _ => UB end.
Definition as_text (v : val) : res string := match v with VStr s => Ok s | _ => UB end.
Definition as_substr (v : val) : res Load_Model.substr :=
  match v with
  | VNone => Ok Load_Model.SNone
  | VStr s => Ok (Load_Model.SStr s)
  | VArr l => match strings l with Some t => Ok (Load_Model.SList t) | None => UB end
  | VTup l => match strings l with Some t => Ok (Load_Model.STuple t) | None => UB end
  | _ => UB
  end.
(** what a triad is computed from: adiabatic modes, non-adiabatic modes, structure *)
Definition loaded (V : Type) := (list (Load_Model.dict V) * list (Load_Model.dict V) * Load_Model.dict V)%type.
Section Load.
  Context {V : Type}.
  (** attribute names read (Load_Model.gyre_detail_attrs for GYRE) *)
  Variable gyre_attrs mesa_attrs poly_osc_attrs poly_attrs : list string.
  Variable fs : Load_Model.fsys V.
  Variable list_base : string -> option (list (string * bool)).
  (** ModelLoader(...) followed by read_data_files(...): infer_dir is False (qg:132) and the modes are all g modes *)
  Definition g_modes := [true; true; true].
  (** qs:386-418: MESA + GYRE *)
  Definition load_mesa (s : setup) (q : Load_Model.search) : res (loaded V) :=
    f <- pops ["poly_base_dir"; "poly_struct_dir"; "poly_struct_substrings"; "poly_struct_suffix"; "poly_mode_base_dir"; "poly_mode_dir";
               "poly_mode_substrings"; "poly_summary_substring"] (info s) ;
    base <- (v <- item "base_dir" (VTab f) ; as_path v) ;
    mesa <- (v <- item "mesa_output_dir" (VTab f) ; as_path v) ;
    suffix <- (v <- item "mesa_suffix" (VTab f) ; as_text v) ;
    msub <- (v <- item "mesa_profile_substrings" (VTab f) ; as_substr v) ;
    gsub <- (v <- item "gyre_detail_substring" (VTab f) ; as_substr v) ;
    d <- Load_Model.loader_dirs base mesa (Some (ad_dir s)) None None list_base false ;
    ad <- Load_Model.load_modes fs (Load_Model.d_gyre d) gyre_attrs q gsub g_modes ;
    struct <- Load_Model.load_structure fs (Load_Model.d_mesa d) mesa_attrs (Load_Model.mesa_conds suffix) msub ;
    d' <- Load_Model.loader_dirs base mesa (nad_dir s) None None list_base false ;
    nad <- Load_Model.load_modes fs (Load_Model.d_gyre d') gyre_attrs q gsub g_modes ;
    Ok (ad, nad, struct).
  (** qs:350-385: polytropes; lm:599-735 reads the structure file before the modes *)
  Definition load_poly (s : setup) (q : Load_Model.search) : res (loaded V) :=
    base <- (v <- item "base_dir" (VTab (info s)) ; as_path v) ;
    model <- (v <- item "poly_struct_dir" (VTab (info s)) ; as_path v) ;
    osc <- (v <- item "poly_mode_dir" (VTab (info s)) ; as_path v) ;
    suffix <- (v <- item "poly_struct_suffix" (VTab (info s)) ; as_text v) ;
    msub <- (v <- item "poly_struct_substrings" (VTab (info s)) ; as_substr v) ;
    osub <- (v <- item "poly_mode_substrings" (VTab (info s)) ; as_substr v) ;
    d <- Load_Model.loader_dirs base None None model osc list_base false ;
    struct <- Load_Model.load_structure fs (Load_Model.d_poly_model d) poly_attrs (Load_Model.poly_conds suffix) msub ;
    modes <- Load_Model.load_modes fs (Load_Model.d_poly_osc d) poly_osc_attrs q osub g_modes ;
    Ok (modes, [], struct).
  Definition load_triad (polytrope : bool) (s : setup) (q : Load_Model.search) : res (loaded V) :=
    if polytrope then load_poly s q else load_mesa s q.
  (** a run with a toml inlist: folders, constructor, one triad *)
  Definition run_load (repr : val -> string) (polytrope : bool) (rot_pct base ad nad : val) (inlist : table) (q : Load_Model.search) : res (loaded V) :=
    f <- parse_toml_info_file (adjust_for_none inlist) ;
    s <- solver_setup repr polytrope rot_pct base ad nad f ;
    load_triad polytrope s q.
End Load.
