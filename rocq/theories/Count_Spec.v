(** * English numerals, and what a poll accepts *)
From Coq Require Import List ZArith String Bool.
Import ListNotations.
Local Open Scope string_scope.
Local Open Scope Z_scope.

Definition below_twenty := ["zero"; "one"; "two"; "three"; "four"; "five"; "six"; "seven"; "eight"; "nine"; "ten"; "eleven"; "twelve"; "thirteen";
  "fourteen"; "fifteen"; "sixteen"; "seventeen"; "eighteen"; "nineteen"].
Definition multiples_of_ten := ["twenty"; "thirty"; "forty"; "fifty"; "sixty"; "seventy"; "eighty"; "ninety"].
Definition small (n : Z) : string := nth (Z.to_nat n) below_twenty "".
Definition after (n : Z) (s : string) : string := if n =? 0 then "" else " " ++ s.
Definition below_hundred (n : Z) : string :=
  if n <? 20 then small n else nth (Z.to_nat (n / 10 - 2)) multiples_of_ten "" ++ after (n mod 10) (small (n mod 10)).
(** the number n, 0 <= n < 1000, in words, without "and" *)
Definition english (n : Z) : string :=
  if n <? 100 then below_hundred n
  else small (n / 100) ++ " hundred" ++ after (n mod 100) (below_hundred (n mod 100)).

(** a line that is a valid index of a Python list of n elements *)
Definition valid (n : nat) (k : Z) : Prop := - Z.of_nat n <= k < Z.of_nat n.
(** lines that keep the poll going: unreadable ones, and valid numbers that are then declined *)
Definition goes_on (n : nat) (x : option Z * bool) : Prop :=
  match x with (None, _) => True | (Some k, yes) => valid n k /\ yes = false end.
Definition readable_first (l : list (option Z * bool)) : Prop :=
  match l with (None, _) :: _ => False | _ => True end.
