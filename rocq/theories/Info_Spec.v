(** * The custom-style information file, independently of its reader (C160-C162). *)
From Coq Require Import List Ascii String NArith.
From Verif Require Import Inlist_Spec.
Import ListNotations.
Local Open Scope char_scope.

Definition hash (c : ascii) : Prop := N_of_ascii c = 35%N.
(** the comments that name a value, and the name in the program *)
Inductive means : string -> string -> Prop :=
| mesa_1 : means "MESA base folder/directory" "base_dir"
| mesa_2 : means "MESA default output folder/directory" "mesa_output_dir"
| mesa_3 : means "MESA default profile substrings" "mesa_profile_substrings"
| mesa_4 : means "MESA default suffix" "mesa_suffix"
| gyre_1 : means "GYRE base folder/directory" "gyre_base_dir"
| gyre_2 : means "GYRE default output folder/directory" "gyre_output_dir"
| gyre_3 : means "GYRE default detail substring" "gyre_detail_substring"
| gyre_4 : means "GYRE default summary substring" "gyre_summary_substring"
| poly_1 : means "POLYTROPE structure base folder/directory" "poly_base_dir"
| poly_2 : means "POLYTROPE structure default output folder/directory" "poly_struct_dir"
| poly_3 : means "POLYTROPE default structure substrings" "poly_struct_substrings"
| poly_4 : means "POLYTROPE default structure suffix" "poly_struct_suffix"
| poly_5 : means "POLYTROPE mode base folder/directory" "poly_mode_base_dir"
| poly_6 : means "POLYTROPE mode default output folder/directory" "poly_mode_dir"
| poly_7 : means "POLYTROPE mode default detail substring" "poly_mode_substrings"
| poly_8 : means "POLYTROPE mode default summary substring" "poly_summary_substring".

(** values: a quoted text, a tuple of quoted words without blanks, or a plain word such as a number *)
Definition wordc (c : ascii) : Prop := letter_or_digit c \/ one_of [95; 44; 46; 40; 41]%N c.   (* _ , . ( ) *)
Definition quoted_text (q : ascii) (body : list ascii) : list ascii := q :: body ++ [q].
Fixpoint commas (l : list (list ascii)) : list ascii :=
  match l with [] => [] | [x] => x | x :: t => x ++ "," :: commas t end.
Inductive value_text : list ascii -> Prop :=
| v_quoted : forall q body, quotation q -> (forall x, In x body -> x <> q /\ ~ hash x /\ ~ is_nl x) -> value_text (quoted_text q body)
| v_tuple : forall items : list (ascii * list ascii), (forall q w, In (q, w) items -> quotation q /\ forall x, In x w -> wordc x) ->
    value_text ("(" :: commas (map (fun i => quoted_text (fst i) (snd i)) items) ++ [")"])
| v_plain : forall c w, (forall x, In x (c :: w) -> wordc x) -> value_text (c :: w).

(** the lines of a file: a comment with a name, a value, nothing *)
Inductive entry := Named (comment : string) | Valued (v : list ascii) (trailing : nat) | Nothing (blanks : nat).
Definition entry_text (e : entry) : list ascii :=
  match e with
  | Named c => "#" :: " " :: list_ascii_of_string c
  | Valued v t => v ++ repeat " " t
  | Nothing n => repeat " " n
  end.
Definition entry_ok (e : entry) : Prop :=
  match e with Named c => exists k, means c k | Valued v _ => value_text v | Nothing _ => True end.
(** lines followed by newlines, the last one possibly without *)
Fixpoint info_text (es : list entry) (final_newline : bool) : list ascii :=
  match es with
  | [] => []
  | [e] => entry_text e ++ (if final_newline then ["010"] else [])
  | e :: r => entry_text e ++ "010" :: info_text r final_newline
  end.
(** the comments and the values of a file, each in their order *)
Definition comments (es : list entry) : list string := flat_map (fun e => match e with Named c => [c] | _ => [] end) es.
Definition written_values (es : list entry) : list (list ascii) := flat_map (fun e => match e with Valued v _ => [v] | _ => [] end) es.
(** what is found under key k after storing these pairs in order, from what was there before *)
Definition latest {L} (stored : list (string * L)) (before : option L) (k : string) : option L :=
  match find (fun p => String.eqb k (fst p)) (rev stored) with Some p => Some (snd p) | None => before end.
