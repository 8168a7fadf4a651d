(** * What is expected of result-file names and of the directories of a run, independently of the code. *)
From Coq Require Import List ZArith QArith Ascii String Bool.
From Verif Require Import Inlist_Model Parser_Model Parser_Spec.
From Verif Require Saver_Model.
Import ListNotations.
Local Open Scope string_scope.

(** ** Names of result files *)
Definition dec (z : Z) : string := Saver_Model.str_of_Z z.
(** one entry of the loading lists: one file, or several with their own names, specifications and suffixes *)
Inductive wanted := Single (name spec suffix : string) | Several (names specs suffixes : list string).
Record request := { r_files : wanted; r_k : Z * Z * Z; r_m : Z * Z * Z; r_mass : val; r_xc : val; r_pairs : (Z * Z) * (Z * Z) * (Z * Z) }.
(** "_k_a_b_c_m_d_e_f" *)
Definition quantum_text (k m : Z * Z * Z) : string :=
  let '(a, b, c) := k in let '(d, e, f) := m in
  "_k_" ++ dec a ++ "_" ++ dec b ++ "_" ++ dec c ++ "_m_" ++ dec d ++ "_" ++ dec e ++ "_" ++ dec f.
(** "_M<mass>_Xc<i>_<f>_d.._.._d.._.._p.._..", the two parts of Xc written with a decimal point *)
Definition standard_text (mass xi xf : string) (p : (Z * Z) * (Z * Z) * (Z * Z)) : string :=
  let '(a, b, c) := p in
  "_M" ++ mass ++ "_Xc" ++ xi ++ "_" ++ xf ++ "_d" ++ dec (fst a) ++ "_" ++ dec (snd a) ++ "_d" ++ dec (fst b) ++ "_" ++ dec (snd b)
  ++ "_p" ++ dec (fst c) ++ "_" ++ dec (snd c).
Definition spec_text (s : string) : string := match s with EmptyString => "" | _ => "_" ++ s end.
Definition path_text (base out name spec std quantum suffix : string) : string :=
  base ++ "/" ++ out ++ "/" ++ name ++ spec_text spec ++ std ++ quantum ++ "." ++ suffix.

(** columns of the loading lists *)
Definition name_cell (r : request) : val := match r_files r with Single n _ _ => VStr n | Several n _ _ => VArr (map VStr n) end.
Definition spec_cell (r : request) : val := match r_files r with Single _ s _ => VStr s | Several _ s _ => VArr (map VStr s) end.
Definition suffix_cell (r : request) : val := match r_files r with Single _ _ x => VStr x | Several _ _ x => VArr (map VStr x) end.
Definition triple_cell (t : Z * Z * Z) : val := let '(a, b, c) := t in VArr [VInt a; VInt b; VInt c].
Definition pair_cell (t : Z * Z) : val := VArr [VInt (fst t); VInt (snd t)].
Definition pairs_cell (t : (Z * Z) * (Z * Z) * (Z * Z)) : val := let '(a, b, c) := t in VArr [pair_cell a; pair_cell b; pair_cell c].
(** non-empty lists for several files *)
Definition sensible (r : request) : Prop := match r_files r with Single _ _ _ => True | Several n s x => n <> [] /\ s <> [] /\ x <> [] end.

(** ** Information folders: name used by the code, position in the inlist, switch that turns it into a tuple *)
Definition folder_table : list (string * (string * option string)) :=
  [("base_dir", ("information_folders.MESA.default.base_dir", None));
   ("mesa_output_dir", ("information_folders.MESA.default.output_dir", None));
   ("mesa_profile_substrings", ("information_folders.MESA.selection.substrings", Some "information_folders.MESA.selection.substrings_to_tuple"));
   ("mesa_suffix", ("information_folders.MESA.selection.suffix", None));
   ("gyre_base_dir", ("information_folders.GYRE.default.base_dir", None));
   ("gyre_output_dir", ("information_folders.GYRE.default.output_dir", None));
   ("gyre_detail_substring", ("information_folders.GYRE.selection.detail_substrings", Some "information_folders.GYRE.selection.detail_substrings_to_tuple"));
   ("gyre_summary_substring", ("information_folders.GYRE.selection.summary_substring", None));
   ("poly_base_dir", ("information_folders.POLY.structure.default.base_dir", None));
   ("poly_struct_dir", ("information_folders.POLY.structure.default.output_dir", None));
   ("poly_struct_substrings", ("information_folders.POLY.structure.selection.substrings", Some "information_folders.POLY.structure.selection.substrings_to_tuple"));
   ("poly_struct_suffix", ("information_folders.POLY.structure.selection.suffix", None));
   ("poly_mode_base_dir", ("information_folders.POLY.modes.default.base_dir", None));
   ("poly_mode_dir", ("information_folders.POLY.modes.default.output_dir", None));
   ("poly_mode_substrings", ("information_folders.POLY.modes.selection.detail_substrings", Some "information_folders.POLY.modes.selection.detail_substrings_to_tuple"));
   ("poly_summary_substring", ("information_folders.POLY.modes.selection.summary_substring", None))].
(** a container turned into a tuple of its elements; a text gives its letters, a table its keys *)
Inductive as_tuple : val -> val -> Prop :=
| tuple_of_array : forall l, as_tuple (VArr l) (VTup l)
| tuple_of_tuple : forall l, as_tuple (VTup l) (VTup l)
| tuple_of_text : forall s, as_tuple (VStr s) (VTup (map (fun c => VStr (String c "")) (list_ascii_of_string s)))
| tuple_of_table : forall t, as_tuple (VTab t) (VTup (map (fun k => VStr k) (map fst t))).
(** value [v] is stored for a row of the table *)
Definition folder_value (d : val) (position : string) (switch : option string) (v : val) : Prop :=
  exists w, at_path d (undot position) w /\
    match switch with
    | None => v = w
    | Some s => exists f, at_path d (undot s) f /\ if truthy f then as_tuple w v else v = w
    end.

(** a directory in a path list *)
Definition agree_on {V} (dirs : list string) (f g : string -> option V) : Prop := forall d, In d dirs -> f d = g d.
