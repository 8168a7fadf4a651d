(** * Model of the reader of the custom-style information file (information_folders.dat):
    ri = aesolver/aesolver/read_load_info/read_info_dirs.py,
    er = aesolver/aesolver/read_load_info/enumeration_files/enumeration_read.py, and the part of
    Python's shlex (non-posix mode, CPython Lib/shlex.py, cited as shlex) it uses.
    Simplifications: the file is an ASCII text with universal newlines already applied;
    ast.literal_eval is a parameter (any function from texts to values or exceptions); log messages are
    dropped.  Texts are lists of characters as in Inlist_Model. *)
From Coq Require Import List Ascii String Bool.
From Verif Require Import Base Inlist_Model.
Import ListNotations.
Local Open Scope char_scope.

(** ** tokens: shlex.read_token/get_token in non-posix mode, for given character classes (the lexer of
    Inlist_Model with the classes as parameters) *)
Section Lexer.
  Variables wordchar whitespace commenter : ascii -> bool.
  Fixpoint glex (m : mode) (s : text) : list text * bool :=
    let emit t (r : list text * bool) := (t :: fst r, snd r) in
    match m, s with
    | Space, [] => ([], false)
    | Space, c :: s' =>
        if whitespace c then glex Space s'
        else if commenter c then glex (Comment None) s'
        else if wordchar c then glex (Word [c]) s'
        else if quote c then glex (Quoted c [c]) s'
        else emit [c] (glex Space s')
    | Word acc, [] => ([acc], false)
    | Word acc, c :: s' =>
        if whitespace c then emit acc (glex Space s')
        else if commenter c then glex (Comment (Some acc)) s'
        else if wordchar c || quote c then glex (Word (acc ++ [c])) s'
        else emit acc (emit [c] (glex Space s'))
    | Quoted q acc, [] => ([], true)
    | Quoted q acc, c :: s' => if Ascii.eqb c q then emit (acc ++ [c]) (glex Space s') else glex (Quoted q (acc ++ [c])) s'
    | Comment None, [] => ([], false)
    | Comment (Some acc), [] => ([acc], false)
    | Comment w, c :: s' => if Ascii.eqb c newline then glex (match w with None => Space | Some acc => Word acc end) s' else glex (Comment w) s'
    end.
End Lexer.
(** shlex.__init__: wordchars *)
Definition std_word (c : ascii) : bool := in_chars (str "abcdfeghijklmnopqrstuvwxyzABCDEFGHIJKLMNOPQRSTUVWXYZ0123456789_") c.
(** ri:220, 223, 226-229, 235: the lexer of the values *)
Definition value_lexer : mode -> text -> list text * bool :=
  glex (fun c => std_word c || in_chars (str ",.()") c) (fun c => in_chars [" "; "009"; "013"; "010"] c) (fun c => Ascii.eqb c "#").
(** ri:221, 224, 231-233, 240: the lexer of the comments *)
Definition comment_lexer : mode -> text -> list text * bool :=
  glex (fun c => std_word c || in_chars (str "# /") c) (fun c => Ascii.eqb c "010") (fun _ => false).

(** er:23-40, CONVERSION_DICT *)
Definition conversion : list (string * string) :=
  [ ("MESA base folder/directory", "base_dir");
    ("MESA default output folder/directory", "mesa_output_dir");
    ("MESA default profile substrings", "mesa_profile_substrings");
    ("MESA default suffix", "mesa_suffix");
    ("GYRE base folder/directory", "gyre_base_dir");
    ("GYRE default output folder/directory", "gyre_output_dir");
    ("GYRE default detail substring", "gyre_detail_substring");
    ("GYRE default summary substring", "gyre_summary_substring");
    ("POLYTROPE structure base folder/directory", "poly_base_dir");
    ("POLYTROPE structure default output folder/directory", "poly_struct_dir");
    ("POLYTROPE default structure substrings", "poly_struct_substrings");
    ("POLYTROPE default structure suffix", "poly_struct_suffix");
    ("POLYTROPE mode base folder/directory", "poly_mode_base_dir");
    ("POLYTROPE mode default output folder/directory", "poly_mode_dir");
    ("POLYTROPE mode default detail substring", "poly_mode_substrings");
    ("POLYTROPE mode default summary substring", "poly_summary_substring") ]%string.
(** er:43-63, convert() *)
Definition convert (s : text) : res string :=
  match find (fun p => text_eqb (str (fst p)) s) conversion with Some p => Ok (snd p) | None => Exc SystemExit end.
(** ri:242-246: the names; [noclose]: does the lexer raise ValueError after these tokens? *)
Fixpoint names_of (toks : list text) (noclose : bool) : res (list string) :=
  match toks with
  | [] => if noclose then Exc ValueError else Ok []
  | x :: t => if containsb ["#"] x then (n <- convert (skipn 2 x) ; ns <- names_of t noclose ; Ok (n :: ns))%res
              else names_of t noclose
  end.

Section Reader.
  Context {L : Type} (literal_eval : text -> res L).
  (** the information dictionary, with insertion order *)
  Definition info := list (string * L).
  Fixpoint iset (d : info) (k : string) (v : L) : info :=
    match d with
    | [] => [(k, v)]
    | (k', v') :: d' => if String.eqb k k' then (k, v) :: d' else (k', v') :: iset d' k v
    end.
  Fixpoint iget (d : info) (k : string) : option L :=
    match d with [] => None | (k', v) :: d' => if String.eqb k k' then Some v else iget d' k end.
  (** ri:248-255: zip asks for a token first and for a name then; the dictionary is that of the object,
      changed in place *)
  Fixpoint zip_loop (toks : list text) (noclose : bool) (names : list string) (d : info) : info * res unit :=
    match toks with
    | [] => (d, if noclose then Exc ValueError else Ok tt)
    | t :: ts =>
        match names with
        | [] => (d, Ok tt)
        | n :: ns => match literal_eval t with
                     | Ok v => zip_loop ts noclose ns (iset d n v)
                     | Exc SyntaxError => (d, Exc SystemExit)
                     | Exc e => (d, Exc e)
                     | UB => (d, UB)
                     end
        end
    end.
  (** ri:216-259, the body of _parse_custom_info_files() *)
  Definition parse_body (content : text) (d : info) : info * res unit :=
    let s := joined_lines content in
    let c := comment_lexer Space s in
    match names_of (fst c) (snd c) with
    | Ok names => let v := value_lexer Space s in zip_loop (fst v) (snd v) names d
    | Exc e => (d, Exc e)
    | UB => (d, UB)
    end.
  (** ri:202-259: NameError and TypeError are logged; the argument is not used *)
  Definition parse_custom_info_files (content : text) (d : info) (dictionary_information : option info) : info * res unit :=
    let r := parse_body content d in
    match snd r with
    | Exc NameError | Exc TypeError => (fst r, Ok tt)
    | _ => r
    end.
End Reader.
