(** * Count words and the profile poll.
    Sources: aesolver/aerunners/data_modules/utility_functions.py (uf),
    aesolver/aesolver/solver/profile_helper_classes/input_user/user_poller.py (up).
    Simplifications: a typed line is what int() makes of it (a number, or nothing when it
    raises ValueError); the answer of the external simple_poller.Poller is a boolean of the
    script; the printed text is kept as events. *)
From Coq Require Import List ZArith String Ascii Bool.
From Verif Require Import Base Saver_Model.
Import ListNotations.
Local Open Scope string_scope.
Local Open Scope list_scope.
Local Open Scope res_scope.

(** uf:20-22 *)
Definition units := [""; "one"; "two"; "three"; "four"; "five"; "six"; "seven"; "eight"; "nine"].
Definition teens := [""; "eleven"; "twelve"; "thirteen"; "fourteen"; "fifteen"; "sixteen"; "seventeen"; "eighteen"; "nineteen"].
Definition tens := [""; "ten"; "twenty"; "thirty"; "forty"; "fifty"; "sixty"; "seventy"; "eighty"; "ninety"].

(** uf:33, int() of one character *)
Definition digit (c : ascii) : res nat :=
  let n := nat_of_ascii c in
  if ((48 <=? n) && (n <=? 57))%nat then Ok (n - 48)%nat else Exc ValueError.

(** uf:34-48, the words of one group of three digits; digits are below 10, so no index is out of range *)
Definition group_words (h t u : nat) : list string :=
  (if 1 <=? h then [nth h units ""; "hundred"] else [])%nat ++
  (if 1 <? t then nth h tens "" :: (if 1 <=? u then [nth u units ""] else [])
   else if t =? 1 then (if 1 <=? u then [nth u teens ""] else [nth t tens ""])
   else (if 1 <=? u then [nth u units ""] else []))%nat.

(** uf:32-48, the loop over the groups *)
Fixpoint groups (s : list ascii) : res (list string) :=
  match s with
  | [] => Ok []
  | a :: b :: c :: r =>
      h <- digit a ; t <- digit b ; u <- digit c ;
      ws <- groups r ; Ok (group_words h t u ++ ws)
  | _ => Exc IndexError
  end.

(** uf:31, str.zfill: zeros go after a sign *)
Definition zfill (s : list ascii) (w : nat) : list ascii :=
  let pad := repeat "0"%char (w - List.length s) in
  match s with
  | c :: r => if Ascii.eqb c "-" || Ascii.eqb c "+" then c :: pad ++ r else pad ++ s
  | [] => pad
  end.

(** uf:7-49, _convert_integer_to_count_string *)
Definition count_string (pos : Z) : res string :=
  if (pos =? 0)%Z then Ok (join " " ["zero"])
  else
    let num := list_ascii_of_string (str_of_Z pos) in
    let x3g := (3 * ((List.length num + 2) / 3))%nat in
    ws <- groups (zfill num x3g) ; Ok (join " " ws).

(** ** The poll for a profile *)
Inductive event (A : Type) :=
| Prompt (lo hi : Z)          (* up:71-75 *)
| Selected (k : Z) (combo : A) (* up:76-78 *)
| Asked                        (* up:80 *)
| Unknown (k : Z).             (* up:83-90 *)
Arguments Prompt {A}. Arguments Selected {A}. Arguments Asked {A}. Arguments Unknown {A}.

(** indexing a Python list, up:77 *)
Definition index {A} (l : list A) (k : Z) : option A :=
  let n := Z.of_nat (List.length l) in
  if ((- n <=? k) && (k <? n))%Z then nth_error l (Z.to_nat (if k <? 0 then k + n else k))%Z else None.

(** up:44-92. The script holds, for each line typed, its reading and the answer to the
    question asked afterwards, if it is asked. [last] is the local my_rad_ord_combo.
    The result is None while the user has typed nothing further. *)
Fixpoint poll {A} (nr : Z) (combos : list A) (last : option Z) (script : list (option Z * bool)) : list (event A) * option (res Z) :=
  match script with
  | [] => ([Prompt 0 (nr - 1)], None)
  | (line, yes) :: rest =>
      match line with
      | Some k =>
          match index combos k with
          | None => ([Prompt 0 (nr - 1)], Some (Exc IndexError))
          | Some c =>
              if yes then ([Prompt 0 (nr - 1); Selected k c; Asked], Some (Ok k))
              else let (ev, r) := poll nr combos (Some k) rest in (Prompt 0 (nr - 1) :: Selected k c :: Asked :: ev, r)
          end
      | None =>
          match last with
          | None => ([Prompt 0 (nr - 1)], Some (Exc UnboundLocalError))
          | Some k => let (ev, r) := poll nr combos last rest in (Prompt 0 (nr - 1) :: Unknown k :: ev, r)
          end
      end
  end.
(** up:44-50: the local variable is not bound at the start (the assignment in up:64-65 is for type checkers only) *)
Definition poll_user {A} (nr : Z) (combos : list A) script := poll nr combos None script.
