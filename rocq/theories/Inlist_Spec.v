(** * What a custom-format inlist file looks like, independently of the reader. *)
From Coq Require Import List ZArith NArith Ascii String DecimalString.
Import ListNotations.
Local Open Scope char_scope.

Definition one_of (codes : list N) (c : ascii) : Prop := In (N_of_ascii c) codes.
Definition is_nl (c : ascii) : Prop := N_of_ascii c = 10%N.
(** blanks inside a line: space, tab, carriage return *)
Definition blank (c : ascii) : Prop := one_of [32; 9; 13]%N c.
Definition letter_or_digit (c : ascii) : Prop :=
  let n := N_of_ascii c in (48 <= n <= 57 \/ 65 <= n <= 90 \/ 97 <= n <= 122)%N.
(** characters of keywords and unquoted values: letters, digits, _ . - [ ] , ( ) *)
Definition plain (c : ascii) : Prop := letter_or_digit c \/ one_of [95; 46; 45; 91; 93; 44; 40; 41]%N c.
(** ' and the double quote *)
Definition quotation (c : ascii) : Prop := one_of [39; 34]%N c.

(** how a value is written *)
Inductive written : list ascii -> Prop :=
| unquoted : forall c w, plain c -> (forall x, In x w -> plain x \/ quotation x) -> written (c :: w)
| quoted : forall q body, quotation q -> (forall x, In x body -> x <> q /\ ~ is_nl x) -> written (q :: body ++ [q]).

(** keyword = value, with blanks anywhere around and possibly a comment *)
Record assignment := Assignment {
  indent : list ascii; keyword : list ascii; before_eq : list ascii; after_eq : list ascii;
  written_value : list ascii; trailing : list ascii; comment : option (list ascii) }.
Inductive line := Empty (blanks : list ascii) (c : option (list ascii)) | Assign (a : assignment).

Definition comment_text (c : option (list ascii)) : list ascii := match c with None => [] | Some t => "%" :: t end.
Definition comment_ok (c : option (list ascii)) : Prop := match c with None => True | Some t => forall x, In x t -> ~ is_nl x end.
Definition line_text (l : line) : list ascii :=
  match l with
  | Empty b c => b ++ comment_text c
  | Assign a => indent a ++ keyword a ++ before_eq a ++ ["="] ++ after_eq a ++ written_value a ++ trailing a ++ comment_text (comment a)
  end.
Definition blanks (l : list ascii) : Prop := forall x, In x l -> blank x.
Definition line_ok (l : line) : Prop :=
  match l with
  | Empty b c => blanks b /\ comment_ok c
  | Assign a => blanks (indent a) /\ keyword a <> [] /\ (forall x, In x (keyword a) -> plain x) /\ blanks (before_eq a) /\
                blanks (after_eq a) /\ written (written_value a) /\ blanks (trailing a) /\ comment_ok (comment a)
  end.
(** a file: lines separated by newlines, with or without newline at the very end *)
Fixpoint file_text (ls : list line) (final_newline : bool) : list ascii :=
  match ls with
  | [] => []
  | [l] => line_text l ++ (if final_newline then ["010"] else [])
  | l :: r => line_text l ++ "010" :: file_text r final_newline
  end.

(** v is the value written in the last line assigning k *)
Definition last_assigned (ls : list line) (k v : list ascii) : Prop :=
  exists before a after, ls = before ++ Assign a :: after /\ keyword a = k /\ written_value a = v /\
    forall b, In (Assign b) after -> keyword b <> k.
Definition never_assigned (ls : list line) (k : list ascii) : Prop := forall b, In (Assign b) ls -> keyword b <> k.

(** decimal notation of an integer (Coq's own printer) *)
Definition decimal (z : Z) : list ascii := list_ascii_of_string (NilZero.string_of_int (Z.to_int z)).
Definition occurs (p s : list ascii) : Prop := exists a b, s = a ++ p ++ b.
