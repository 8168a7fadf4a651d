(** * Model of inlist lookup, of the generic parser and of the run scripts
    (util-tools/generic_parser/generic_parser.py, cited as gp; util-tools/inlist_handler/toml_inlist_handler.py,
    cited as ti; util-tools/path_resolver/resolve_paths.py, cited as rp; util-tools/log_formatter/log_formatter.py,
    cited as lf; aesolver/aerunners/solve_quadratic.py, cited as sq; analyze_quadratic.py and plot_quadratic.py in the same
    directory, cited as aq and pq; data_modules/utility_functions.py, cited as uf).
    Simplifications: dates are left out of the values; floats are rationals (no infinities or NaN); log messages are dropped;
    tomllib, argparse and the file system are parameters. *)
From Coq Require Import List ZArith QArith Ascii String Bool.
From Verif Require Import Base Py Inlist_Model.
Import ListNotations.
Local Open Scope string_scope.

(** values of a parsed toml document (and of Python containers made from them) *)
Inductive val :=
| VNone | VBool (b : bool) | VInt (z : Z) | VFloat (q : Q) | VStr (s : string)
| VArr (l : list val) | VTup (l : list val) | VTab (t : list (string * val)).
Definition table := list (string * val).

(** dict.get / key in dict *)
Fixpoint tget (t : table) (k : string) : option val :=
  match t with [] => None | (k', v) :: t' => if String.eqb k k' then Some v else tget t' k end.
(** d[k] = v: keeps the position of an existing key *)
Fixpoint tset (t : table) (k : string) (v : val) : table :=
  match t with
  | [] => [(k, v)]
  | (k', v') :: t' => if String.eqb k k' then (k', v) :: t' else (k', v') :: tset t' k v
  end.
(** bool(v) *)
Definition truthy (v : val) : bool :=
  match v with
  | VNone => false | VBool b => b | VInt z => negb (z =? 0)%Z | VFloat q => negb (Qnum q =? 0)%Z
  | VStr s => negb (String.eqb s "") | VArr l => match l with [] => false | _ => true end
  | VTup l => match l with [] => false | _ => true end | VTab t => match t with [] => false | _ => true end
  end.

(** ti:35-48; the loop only replaces values of existing keys, arrays are not entered *)
Fixpoint adjust_val (v : val) : val :=
  match v with
  | VTab [] => VNone
  | VTab t => VTab (map (fun kv => (fst kv, adjust_val (snd kv))) t)
  | _ => v
  end.
Definition adjust_for_none (t : table) : table := map (fun kv => (fst kv, adjust_val (snd kv))) t.

(** an index: a list of keys, or a single string (which Python indexes character by character) *)
Inductive index := IPath (ks : list string) | IStr (s : string).
Definition uncons (i : index) : option (string * option index) :=
  match i with
  | IPath [] => None
  | IPath [k] => Some (k, None)
  | IPath (k :: ks) => Some (k, Some (IPath ks))
  | IStr EmptyString => None
  | IStr (String c EmptyString) => Some (String c "", None)
  | IStr (String c s) => Some (String c "", Some (IStr s))
  end.
Definition size (i : index) : nat := match i with IPath ks => List.length ks | IStr s => String.length s end.

(** `key in v` for a string key: TypeError for None and numbers, equality for sequences, substring for strings *)
Definition member (k : string) (v : val) : res bool :=
  match v with
  | VNone | VBool _ | VInt _ | VFloat _ => Exc TypeError
  | VStr s => Ok (containsb (str k) (str s))
  | VArr l | VTup l => Ok (existsb (fun x => match x with VStr s => String.eqb k s | _ => false end) l)
  | VTab t => Ok (match tget t k with Some _ => true | None => false end)
  end.
(** v[key] for a string key *)
Definition item (k : string) (v : val) : res val :=
  match v with
  | VTab t => match tget t k with Some x => Ok x | None => Exc KeyError end
  | _ => Exc TypeError
  end.
(** gp:505-533 *)
Fixpoint get_ha_n (n : nat) (v : val) (i : index) : res val :=
  match uncons i with
  | None => match i with IStr _ => item "" v | IPath _ => Exc TypeError end
  | Some (k, rest) =>
      m <- member k v ;
      if m then
        match rest, n with
        | None, _ => item k v
        | Some i', S n' => x <- item k v ; get_ha_n n' x i'
        | Some _, O => UB (* never reached: n is the length of the index *)
        end
      else Ok VNone
  end.
Definition get_ha (v : val) (i : index) : res val := get_ha_n (size i) v i.

(** elements of the argument of read_in_to_dict *)
Inductive entry := E2 (k : string) (i : index) | E3 (k : string) (i : index) (negate : bool).
(** gp:445-473; _data_read_dictionary is d *)
Definition put3 (d : val) (e : entry) (acc : table) : res table :=
  match e with
  | E3 k i n => v <- get_ha d i ; Ok (tset acc k (if n then VBool (negb (truthy v)) else v))
  | E2 _ _ => Exc ValueError
  end.
Definition put2 (d : val) (e : entry) (acc : table) : res table :=
  match e with
  | E2 k i => v <- get_ha d i ; Ok (tset acc k v)
  | E3 _ _ _ => Exc ValueError
  end.
(** the dictionary filled so far is kept when the first loop raises *)
Fixpoint loop3 (d : val) (l : list entry) (acc : table) : table * res unit :=
  match l with
  | [] => (acc, Ok tt)
  | e :: l' => match put3 d e acc with Ok acc' => loop3 d l' acc' | UB => (acc, UB) | Exc x => (acc, Exc x) end
  end.
Fixpoint loop2 (d : val) (l : list entry) (acc : table) : res table :=
  match l with [] => Ok acc | e :: l' => acc' <- put2 d e acc ; loop2 d l' acc' end.
Definition read_in_to_dict (d : val) (l : list entry) : res table :=
  match loop3 d l [] with
  | (acc, Ok _) => Ok acc
  | (acc, Exc ValueError) => loop2 d l acc
  | (_, Exc x) => Exc x
  | (_, UB) => UB
  end.

(** elements of the argument of read_in_to_list: a list of keys, a string, or a pair (list of keys, bool).
    Simplification: no pairs whose first component is a string. *)
Inductive arg := APath (ks : list string) | AStr (s : string) | APair (ks : list string) (negate : bool).
(** for _my_val, _negating_bool in argument_list: any sequence of length two is unpacked *)
Definition unpack2 (a : arg) : res (index * bool) :=
  match a with
  | APair ks n => Ok (IPath ks, n)
  | APath [k1; k2] => Ok (IStr k1, negb (String.eqb k2 ""))
  | AStr (String c1 (String c2 EmptyString)) => Ok (IStr (String c1 ""), true)
  | _ => Exc ValueError
  end.
(** the argument used as an index; a pair has a list as first key, which is not hashable *)
Definition as_index (a : arg) : res index :=
  match a with APath ks => Ok (IPath ks) | AStr s => Ok (IStr s) | APair _ _ => Exc TypeError end.
(** gp:475-503 *)
Definition read_in_to_list (d : val) (l : list arg) : res (list val) :=
  match mapM (fun a => (p <- unpack2 a ; v <- get_ha d (fst p) ; Ok (if snd p : bool then VBool (negb (truthy v)) else v))%res) l with
  | Exc ValueError => mapM (fun a => (i <- as_index a ; get_ha d i)%res) l
  | r => r
  end.

(** ** where the inlist is *)
(** s.split(c) *)
Fixpoint split (c : ascii) (s : text) : list text :=
  match s with
  | [] => [[]]
  | a :: s' => if Ascii.eqb a c then [] :: split c s'
               else match split c s' with [] => [[a]] | w :: ws => (a :: w) :: ws end
  end.
(** an absolute normalised path: the names from the root to the file *)
Definition path := list text.
Record path_info := PathInfo { pi_suffix : text; pi_name : text; pi_base : path; pi_dir : path }.
(** gp:196-213: the nearest ancestor whose name contains the base name; [anc] are the ancestors' names from the
    root on.  The root itself has the empty name. *)
Fixpoint nearest (base : text) (rev_anc : list text) : option nat :=
  match rev_anc with
  | [] => if containsb base [] then Some 0%nat else None
  | n :: up => if containsb base n then Some (List.length rev_anc) else nearest base up
  end.
(** gp:158-241 for a given path; None stands for the appended exceptions (no path: TypeError, no base: FileNotFoundError) *)
Definition mode_1 (p : option path) (base : text) : option path_info :=
  match p with
  | None => None
  | Some p =>
      match rev p with
      | [] => None (* not a file name: the root; simplification *)
      | file :: rev_anc =>
          match nearest base rev_anc with
          | None => None
          | Some n => let anc := rev rev_anc in
                      Some (PathInfo (last (split "." file) []) (hd [] (split "." file)) (firstn n anc) (skipn n anc))
          end
      end
  end.
(** gp:243-300: strings given for base directory and inlist name; the directory strings are paths here *)
Definition mode_2 (base_dir : option path) (name : option text) (dir : option path) (suffix : text) : option path_info :=
  match base_dir, name with
  | Some b, Some n => Some (PathInfo suffix n b (match dir with None => [str "inlists"; str "user_input"] | Some d => d end))
  | _, _ => None
  end.
(** gp:96-157 *)
Definition initialize_path_info (base : text) (p : option path) (base_dir : option path) (name : option text)
    (dir : option path) (suffix : text) : res path_info :=
  match mode_1 p base, mode_2 base_dir name dir suffix with
  | Some i, _ => Ok i
  | None, Some i => Ok i
  | None, None => Exc ExceptionGroup
  end.
(** gp:371-384 *)
Definition default_inlist (is_file : path -> bool) (i : path_info) : res path :=
  let q := (pi_base i ++ pi_dir i ++ [pi_name i ++ "."%char :: pi_suffix i])%list in
  if is_file q then Ok q else Exc SystemExit.

(** ** logging level, lf:44-72 *)
Inductive level := DEBUG | INFO | WARNING.
Definition tpop (t : table) (k : string) : res table :=
  match tget t k with None => Exc KeyError | Some _ => Ok (filter (fun kv => negb (String.eqb k (fst kv))) t) end.
Definition adjust_root_logger_level (lv : level) (info : table) : res (level * table) :=
  (dbg <- item "debug" (VTab info) ;
   lv' <- (if truthy dbg then Ok DEBUG else vb <- item "verbose" (VTab info) ; Ok (if truthy vb then lv else WARNING)) ;
   t <- tpop info "debug" ; t' <- tpop t "verbose" ; Ok (lv', t'))%res.

(** ** the solve run *)
(** sq:94-102 *)
Definition convert_toml_input_list_to_tuple (d : val) : res val :=
  (c <- item "coupling_coefficient" d ; x <- item "terms_cc_conj" c ;
   l <- (match x with
         | VArr l | VTup l => Ok l
         | VStr s => Ok (map (fun a => VStr (String a "")) (list_ascii_of_string s))
         | VTab t => Ok (map (fun kv => VStr (fst kv)) t)
         | _ => Exc TypeError end) ;
   match d, c with
   | VTab t, VTab ct => Ok (VTab (tset t "coupling_coefficient" (VTab (tset ct "terms_cc_conj" (VTup l)))))
   | _, _ => Exc TypeError
   end)%res.
Definition triples (l : list (string * list string)) : list entry := map (fun kp => E3 (fst kp) (IPath (snd kp)) false) l.
Definition pairs (l : list (string * list string)) : list entry := map (fun kp => E2 (fst kp) (IPath (snd kp))) l.
(** sq:145-335, the dictionaries in the order in which they are read *)
Definition mode_info_spec := triples [("rot_pct", ["rotation"; "rot_percent"]); ("base_dir", ["GYRE_selection"; "gyre_dir_path"]);
  ("alternative_directory_path", ["GYRE_selection"; "alternative"; "directory_path"]);
  ("alternative_file_name", ["GYRE_selection"; "alternative"; "file_name"]);
  ("verbose", ["verbosity-debug"; "verbose"]); ("debug", ["verbosity-debug"; "debug"])].
Definition mode_poly_spec := triples [("rot_pct", ["rotation"; "rot_percent"]); ("base_dir", ["POLY_selection"; "mode_path"]);
  ("alternative_directory_path", ["POLY_selection"; "alternative"; "directory_path"]);
  ("alternative_file_name", ["POLY_selection"; "alternative"; "file_name"]);
  ("verbose", ["verbosity-debug"; "verbose"]); ("debug", ["verbosity-debug"; "debug"])].
Definition mode_selection_spec := pairs [("driven_n_low", ["mode_info"; "parent"; "n"; "low"]); ("driven_n_high", ["mode_info"; "parent"; "n"; "high"]);
  ("damped_n_low1", ["mode_info"; "daughter_1"; "n"; "low"]); ("damped_n_high1", ["mode_info"; "daughter_1"; "n"; "high"]);
  ("damped_n_low2", ["mode_info"; "daughter_2"; "n"; "low"]); ("damped_n_high2", ["mode_info"; "daughter_2"; "n"; "high"])].
Definition index_list := ["parent"; "daughter_1"; "daughter_2"].
Definition l_spec := map (fun i => APath ["mode_info"; i; "l"]) index_list.
Definition m_spec := map (fun i => APath ["mode_info"; i; "m"]) index_list.
Definition mode_computation_spec := triples [("adiabatic", ["coupling_coefficient"; "adiabatic"]); ("use_complex", ["coupling_coefficient"; "use_complex"]);
  ("use_symbolic_profiles", ["coupling_coefficient"; "symbolic_profiles"]); ("use_brunt_def", ["coupling_coefficient"; "brunt_def_profiles"]);
  ("use_rotating_formalism", ["rotation"; "rotating_formalism"]); ("terms_cc_conj", ["coupling_coefficient"; "terms_cc_conj"]);
  ("polytrope_comp", ["coupling_coefficient"; "compute_for_polytrope"]); ("analytic_polytrope", ["coupling_coefficient"; "analytic_polytrope"])].
Definition computation_spec := triples [("use_parallel", ["computation"; "parallel_mode_coupling"]); ("compute_grid", ["computation"; "compute_grid_models"]);
  ("compute_profile", ["computation"; "compute_coefficient_profile"]); ("progress_bars", ["computation"; "display_progress"])].
Definition save_spec := triples [("base_dir", ["saving"; "solve"; "base_dir"]); ("save_dir", ["saving"; "solve"; "save_dir"]);
  ("extra_specifier", ["saving"; "solve"; "extra_specifier"]); ("initial_save_format", ["saving"; "solve"; "save_format"])].
Definition poly_model_spec := triples [("polytrope_mass", ["POLY_model"; "mass"]); ("polytrope_radius", ["POLY_model"; "radius"])].
Definition ang_integ_spec := triples [("numerical_integration_method", ["computation"; "integration_method"]);
  ("use_cheby_integration", ["computation"; "angular"; "use_cheby"]); ("cheby_order_multiplier", ["computation"; "angular"; "cheby_mul"]);
  ("cheby_blow_up_protection", ["computation"; "angular"; "blow_up_protect"]); ("cheby_blow_up_factor", ["computation"; "angular"; "blow_up_fac"])].
Definition cc_selection_spec := triples [("parent_n", ["mode_info"; "coupling"; "parent"; "n"]); ("daughter_1_n", ["mode_info"; "coupling"; "daughter_1"; "n"]);
  ("daughter_2_n", ["mode_info"; "coupling"; "daughter_2"; "n"])].
Definition cc_plot_spec := triples [("view_kernels", ["plotting"; "profile"; "show_kernels"]); ("view_term_by_term", ["plotting"; "profile"; "show_term_by_term"])].
Definition rest_spec := [APath ["GYRE_selection"; "specifier"; "adiabatic"]; APath ["GYRE_selection"; "specifier"; "nonadiabatic"];
  APath ["POLY_selection"; "specifier"; "modes"]; APath ["verbosity-debug"; "get_debug_info"]].
Record settings := Settings { save_info : table; mode_info : table; cc_profile_selection : table; cc_profile_plot : table;
  mode_selection : table; mode_computation : table; comp : table; poly_select : table; poly_model : table; a_i : table;
  ad : val; nad : val; poly_modes : val; get_debug_info : val }.
(** sq:105-357 *)
Definition read_toml_args (d0 : val) : res settings :=
  (d <- convert_toml_input_list_to_tuple d0 ;
   mode_info <- read_in_to_dict d mode_info_spec ;
   mode_poly <- read_in_to_dict d mode_poly_spec ;
   mode_selection <- read_in_to_dict d mode_selection_spec ;
   ls <- read_in_to_list d l_spec ;
   ms <- read_in_to_list d m_spec ;
   mode_computation <- read_in_to_dict d mode_computation_spec ;
   computation <- read_in_to_dict d computation_spec ;
   save <- read_in_to_dict d save_spec ;
   poly_model <- read_in_to_dict d poly_model_spec ;
   ang_integ <- read_in_to_dict d ang_integ_spec ;
   cc_selection <- read_in_to_dict d cc_selection_spec ;
   ls' <- read_in_to_list d l_spec ;
   ms' <- read_in_to_list d m_spec ;
   cc_plot <- read_in_to_dict d cc_plot_spec ;
   rest <- read_in_to_list d rest_spec ;
   match rest with
   | [r1; r2; r3; r4] =>
       Ok (Settings save mode_info (tset (tset cc_selection "mode_l" (VArr ls')) "mode_m" (VArr ms')) cc_plot
             (tset (tset mode_selection "mode_l" (VArr ls)) "mode_m" (VArr ms)) mode_computation computation mode_poly poly_model ang_integ
             r1 r2 r3 r4)
   | _ => Exc ValueError (* unpacking into 14 names, sq:480-495 *)
   end)%res.

Section Run.
  (** the world: argparse (the option destinations registered, the command line, the default inlist), tomllib and the
      custom reader, the file system *)
  Variable parse_known_args : list string -> list string -> path -> res (list (string * val) * path).
  Variable toml_load : path -> res table.
  Variable custom_load : path -> res table.
  Variable is_file : path -> bool.
  (** absolute path of "dir/name" relative to the working directory, or to the parent of the script's directory *)
  Variable from_cwd from_script : string -> option path.

  (** rp:26-76 *)
  Definition resolve_path_to_file (name dir : string) : res path :=
    match from_cwd (dir ++ "/" ++ name) with
    | Some p => Ok p
    | None => match from_script (dir ++ "/" ++ name) with Some p => Ok p | None => Exc FileNotFoundError end
    end.
  (** uf:52-74 *)
  Definition check_save_file_name (argv : list string) (pos : nat) : res unit :=
    match nth_error argv pos with
    | None => Exc IndexError
    | Some a => if String.eqb a "--save_file_name" then Ok tt else Exc RuntimeError
    end.
  (** sq:360-425 *)
  Definition get_path_to_inlist (argv : list string) : res path :=
    match argv with
    | [_; name; suffix; dir; _; _] => _ <- check_save_file_name argv 4 ; resolve_path_to_file (name ++ "." ++ suffix) dir
    | [_; _; _] => _ <- check_save_file_name argv 1 ; resolve_path_to_file "inlist.toml" "./inlists/"
    | _ => Exc RuntimeError
    end.

  (** methods of a class: what they register with the argument parser; the first class that defines the name is used *)
  Definition methods := list (string * list string).
  Fixpoint find_method (mro : list methods) (name : string) : res (list string) :=
    match mro with
    | [] => Exc AttributeError
    | c :: up => match find (fun m => String.eqb name (fst m)) c with Some m => Ok (snd m) | None => find_method up name end
    end.
  (** gp:542-549 *)
  Definition generic_parser_methods : methods := [("_set_up_specific_argparser_groups_arguments", [])].
  (** sq:66-81 *)
  Definition solve_parser_methods : methods := [("_set_up_specific_argparser", ["save_file_name"])].
  (** gp:341-391 *)
  Definition generic_options := ["no_verbose"; "debug"; "no_inlist"; "inlist_name"].

  Record parser := Parser { p_suffix : text; p_args : list (string * val); p_data : table }.
  (** gp:57-84 with gp:413-443 *)
  Definition make_parser (mro : list methods) (base : text) (inlist : path) (argv : list string) : res parser :=
    (i <- initialize_path_info base (Some inlist) None None None [] ;
     default <- default_inlist is_file i ;
     specific <- find_method mro "_set_up_specific_argparser_groups_arguments" ;
     ns <- parse_known_args (generic_options ++ specific)%list (tl argv) default ;
     let args := fst ns in
     no <- (match tget args "no_inlist" with Some v => Ok (truthy v) | None => Exc AttributeError end) ;
     data <- (if no then Ok args
              else if text_eqb (pi_suffix i) (str "toml") then t <- toml_load (snd ns) ; Ok (adjust_for_none t)
              else custom_load (snd ns)) ;
     Ok (Parser (pi_suffix i) args data))%res.
  (** gp:535-540; read_custom_args is not overloaded and returns None, which cannot be unpacked (sq:480-495) *)
  Definition read_args (p : parser) : res settings :=
    if text_eqb (p_suffix p) (str "toml") then read_toml_args (VTab (p_data p)) else Exc TypeError.
  (** sq:83-91 *)
  Definition get_save_name (p : parser) : res val :=
    match tget (p_args p) "save_file_name" with Some v => Ok v | None => Exc AttributeError end.
  (** sq:428-504 and 604-613: everything before the computations; [compute] stands for _perform_computations and _save_data *)
  Definition solve_run (mro : list methods) (argv : list string) {A} (compute : parser -> settings -> val -> res A) : res A :=
    (inlist <- get_path_to_inlist argv ;
     p <- make_parser mro (str "AESolver") inlist argv ;
     s <- read_args p ;
     name <- get_save_name p ;
     match name with VNone => Exc SystemExit | _ => compute p s name end)%res.
  Definition perform_complete_solve_run (argv : list string) {A} (compute : parser -> settings -> val -> res A) : res A :=
    solve_run [solve_parser_methods; generic_parser_methods] argv compute.
  (** aq:188-229 (pq:183-223 is the same up to the function that reads the arguments): read the inlist, or fail *)
  Definition get_path_to_inlist_analysis (argv : list string) : res path :=
    match argv with
    | [_; name; suffix; dir] => resolve_path_to_file (name ++ "." ++ suffix) dir
    | [_] => resolve_path_to_file "inlist.toml" "./inlists/"
    | _ => Exc RuntimeError
    end.
  Definition analysis_run (argv : list string) {A} (compute : parser -> res A) : res A :=
    (inlist <- get_path_to_inlist_analysis argv ;
     p <- make_parser [[]; generic_parser_methods] (str "amplitude_equations_solver") inlist argv ;
     compute p)%res.
End Run.

(** which solver is run, sq:509-580 *)
Inductive action := Grid | Profile.
Definition choose_action (comp : table) : res action :=
  (g <- item "compute_grid" (VTab comp) ; 
   if truthy g then p <- item "compute_profile" (VTab comp) ; if truthy p then Exc RuntimeError else Ok Grid
   else p <- item "compute_profile" (VTab comp) ; if truthy p then Ok Profile else Exc RuntimeError)%res.
