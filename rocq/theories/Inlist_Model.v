(** * Model of the custom-format inlist reader
    (util-tools/inlist_handler/inlist_handler.py, cited as ih) together with the part of Python's
    shlex (non-posix mode, CPython Lib/shlex.py, cited as shlex) and of regular expressions it uses.
    Simplifications: files are ASCII texts with universal newlines already applied; a text is a list
    of characters.  ast.literal_eval is a parameter (a function from texts to values or exceptions);
    the limit on the number of digits accepted by int() is left out; log messages are dropped. *)
From Coq Require Import List ZArith Ascii String Bool.
From Verif Require Import Base.
Import ListNotations.
Local Open Scope char_scope.

Definition text := list ascii.
Definition str (s : string) : text := list_ascii_of_string s.
Definition text_eqb (a b : text) : bool := if list_eq_dec ascii_dec a b then true else false.

(** ** strings *)
Fixpoint prefixb (p s : text) : bool :=
  match p, s with
  | [], _ => true
  | a :: p', b :: s' => Ascii.eqb a b && prefixb p' s'
  | _ :: _, [] => false
  end.
(** `p in s` *)
Fixpoint containsb (p s : text) : bool :=
  prefixb p s || match s with [] => false | _ :: s' => containsb p s' end.
(** s.strip(c) for a single character c *)
Fixpoint lstrip (c : ascii) (s : text) : text :=
  match s with [] => [] | a :: s' => if Ascii.eqb a c then lstrip c s' else s end.
Definition strip (c : ascii) (s : text) : text := rev (lstrip c (rev (lstrip c s))).
Definition in_chars (cs : text) (c : ascii) : bool := existsb (Ascii.eqb c) cs.

(** ** type inference, ih:25-144 *)
(** ih:25-57, the two modes used by the partial methods *)
Definition any_in (vals : list string) (s : text) : bool := existsb (fun v => containsb (str v) s) vals.
Definition all_in (vals : list string) (s : text) : bool := forallb (fun v => containsb (str v) s) vals.
(** ih:59-82 *)
Definition dquote : ascii := "034".
Definition squote : ascii := "'".
Definition string_check (s : text) : bool := containsb [squote] s || containsb [dquote] s.
Definition bool_check := any_in ["False"; "FALSE"; "True"; "TRUE"]%string.
Definition bool_false_check := any_in ["False"; "FALSE"]%string.
Definition list_check := all_in ["["; "]"]%string.
Definition tuple_check := all_in ["("; ")"]%string.
Definition none_check := all_in ["None"]%string.
Definition float_check := all_in ["."]%string.

Definition digit (c : ascii) : option Z :=
  let n := N_of_ascii c in if (48 <=? n)%N && (n <=? 57)%N then Some (Z.of_N n - 48)%Z else None.
Definition is_digit (c : ascii) : bool := match digit c with Some _ => true | None => false end.
Fixpoint skip (f : ascii -> bool) (s : text) : text :=
  match s with [] => [] | a :: s' => if f a then skip f s' else s end.
Definition starts (f : ascii -> bool) (s : text) : bool := match s with [] => false | a :: _ => f a end.
(** ih:87 re.compile(r'\d+[eE]-*\d+').match: the three repetitions do not overlap, so no backtracking *)
Definition float_regex (s : text) : bool :=
  starts is_digit s &&
  match skip is_digit s with
  | e :: s' => (Ascii.eqb e "e" || Ascii.eqb e "E") && starts is_digit (skip (fun c => Ascii.eqb c "-") s')
  | [] => false
  end.
(** int(s): optional sign, decimal digits, single underscores between digits; ValueError otherwise *)
Fixpoint int_digits (acc : Z) (after_digit : bool) (s : text) : option Z :=
  match s with
  | [] => if after_digit then Some acc else None
  | c :: s' => match digit c with
               | Some d => int_digits (10 * acc + d)%Z true s'
               | None => if Ascii.eqb c "_" && after_digit then int_digits acc false s' else None
               end
  end.
Definition py_int (s : text) : option Z :=
  match s with
  | c :: s' => if Ascii.eqb c "-" then option_map Z.opp (int_digits 0 false s')
               else if Ascii.eqb c "+" then int_digits 0 false s' else int_digits 0 false s
  | [] => None
  end.

Section Handler.
  (** ast.literal_eval *)
  Context {L : Type} (literal_eval : text -> res L).
  Inductive value := VStr (s : text) | VBool (b : bool) | VNone | VInt (z : Z) | VLit (l : L).
  Definition lit (s : text) : res value := (l <- literal_eval s ; Ok (VLit l))%res.
  (** ih:89-144 *)
  Definition typer (s : text) : res value :=
    if string_check s then
      if list_check s then lit s else Ok (VStr (strip squote (strip dquote s)))
    else if bool_check s then
      if bool_false_check s then Ok (VBool false) else Ok (VBool true)
    else if none_check s then Ok VNone
    else if list_check s then lit s
    else if tuple_check s then lit s
    else if float_check s || float_regex s then lit s
    else match py_int s with Some z => Ok (VInt z) | None => Exc ValueError end.

  (** ** tokens: shlex read_token/get_token in non-posix mode *)
  (** shlex.__init__ wordchars and whitespace, extended by ih:173-185; ih:170 commenters, ih:187 quotes *)
  Definition wordchar (c : ascii) : bool :=
    in_chars (str "abcdfeghijklmnopqrstuvwxyzABCDEFGHIJKLMNOPQRSTUVWXYZ0123456789_.-[],()") c.
  Definition whitespace (c : ascii) : bool := in_chars [" "; "009"; "013"; "010"] c.
  Definition quote (c : ascii) : bool := Ascii.eqb c squote || Ascii.eqb c dquote.
  Definition newline : ascii := "010".
  (** lexer states: ' ', 'a', inside quotes, and the rest of a comment line (after which the lexer is
      again in the state the comment started in: shlex keeps state 'a' in non-posix mode) *)
  Inductive mode := Space | Word (acc : text) | Quoted (q : ascii) (acc : text) | Comment (word : option text).
  (** all tokens in order, and whether reading on afterwards raises ValueError("No closing quotation").
      A character that ends a word without being whitespace, comment or quote is pushed back and
      becomes a token of its own. *)
  Fixpoint lex (m : mode) (s : text) : list text * bool :=
    let emit t (r : list text * bool) := (t :: fst r, snd r) in
    match m, s with
    | Space, [] => ([], false)
    | Space, c :: s' =>
        if whitespace c then lex Space s'
        else if Ascii.eqb c "%" then lex (Comment None) s'
        else if wordchar c then lex (Word [c]) s'
        else if quote c then lex (Quoted c [c]) s'
        else emit [c] (lex Space s')
    | Word acc, [] => ([acc], false)
    | Word acc, c :: s' =>
        if whitespace c then emit acc (lex Space s')
        else if Ascii.eqb c "%" then lex (Comment (Some acc)) s'
        else if wordchar c || quote c then lex (Word (acc ++ [c])) s'
        else emit acc (emit [c] (lex Space s'))
    | Quoted q acc, [] => ([], true)
    | Quoted q acc, c :: s' => if Ascii.eqb c q then emit (acc ++ [c]) (lex Space s') else lex (Quoted q (acc ++ [c])) s'
    | Comment None, [] => ([], false)
    | Comment (Some acc), [] => ([acc], false)
    | Comment w, c :: s' => if Ascii.eqb c newline then lex (match w with None => Space | Some acc => Word acc end) s' else lex (Comment w) s'
    end.

  (** ** dictionaries with insertion order *)
  Definition dict := list (text * value).
  Fixpoint dset (d : dict) (k : text) (v : value) : dict :=
    match d with
    | [] => [(k, v)]
    | (k', v') :: d' => if text_eqb k k' then (k, v) :: d' else (k', v') :: dset d' k v
    end.
  Fixpoint dget (d : dict) (k : text) : option value :=
    match d with [] => None | (k', v) :: d' => if text_eqb k k' then Some v else dget d' k end.

  (** ih:191-197: keyword, any token in place of "=", value; at the end of the file get_token returns '' *)
  Fixpoint assign (toks : list text) (noclose : bool) (d : dict) : res dict :=
    match toks with
    | [] => if noclose then Exc ValueError else Ok d
    | [k] | [k; _] => if noclose then Exc ValueError else (v <- typer [] ; Ok (dset d k v))%res
    | k :: _ :: v :: rest => (tv <- typer v ; assign rest noclose (dset d k tv))%res
    end.
  (** '\n'.join(f.readlines()), ih:168: every newline that is not the last character is doubled *)
  Fixpoint joined_lines (s : text) : text :=
    match s with
    | [] => []
    | c :: s' => if Ascii.eqb c newline then match s' with [] => [c] | _ => c :: newline :: joined_lines s' end
                 else c :: joined_lines s'
    end.
  (** the file system: content of a file or None *)
  Variable fs : text -> option text.
  (** ih:146-203; NameError/TypeError are logged and None is returned.  [NameError] cannot be raised here
      except by literal_eval *)
  Definition parse_inlist (path : text) (d : option dict) : res (option dict) :=
    match fs path with
    | None => Exc FileNotFoundError
    | Some content =>
        let t := lex Space (joined_lines content) in
        match assign (fst t) (snd t) (match d with None => [] | Some d => d end) with
        | Ok d' => Ok (Some d')
        | Exc NameError | Exc TypeError => Ok None
        | Exc e => Exc e
        | UB => UB
        end
    end.

  (** ** the defaults file *)
  (** patterns made of (.STAR), .STAR and literal characters, greedy with backtracking; `.` matches no newline *)
  Inductive item := Cap | Any | Lit (c : ascii).
  Fixpoint run (s : text) : nat := match s with [] => 0 | c :: s' => if Ascii.eqb c newline then 0 else S (run s') end.
  Fixpoint rx_match (p : list item) (s : text) : option (list text) :=
    match p with
    | [] => Some []
    | Lit c :: p' => match s with [] => None | a :: s' => if Ascii.eqb a c then rx_match p' s' else None end
    | it :: p' =>
        (fix go n := match rx_match p' (skipn n s) with
                     | Some caps => Some (match it with Cap => firstn n s :: caps | _ => caps end)
                     | None => match n with O => None | S n' => go n' end
                     end) (run s)
    end.
  (** ih:85 (.STAR)\/.STAR\/(.STAR)\..STAR *)
  Definition regex_defaults : list item := [Cap; Lit "/"; Any; Lit "/"; Cap; Lit "."; Any].
  (** ih:224-233 *)
  Definition defaults_path (path : text) : res text :=
    match rx_match regex_defaults path with
    | Some [g1; g2] => Ok (g1 ++ str "/defaults/" ++ g2 ++ str ".defaults")
    | _ => Exc NameError
    end.
  Definition get_default_inlist_values (path : text) : res (option dict) :=
    (p <- defaults_path path ; parse_inlist p None)%res.
  (** ih:235-261; the second try only guards the user inlist, whose NameErrors were caught already *)
  Definition get_inlist_values (path : text) : res (option dict) :=
    (d <- get_default_inlist_values path ; 
     match parse_inlist path d with Exc NameError => Ok None | r => r end)%res.
End Handler.
