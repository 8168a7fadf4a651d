(** * Model of the pairing functions.
    Sources: py-combinations/pairing_functions/{cantor,symmetric,xie}_pairing.py.
    Every float operation of the code goes through [fl] and every numpy int64
    operation through [wrap]; [exact] takes both as identities, [ieee] takes
    IEEE-754 binary64 round-to-nearest-even and two's complement wrap-around.
    Double overflow to infinity is not modelled (operands are below 2^64). *)
From Coq Require Import List ZArith Reals Bool.
From Flocq Require Import Core.
From Verif Require Import Base.
Local Open Scope Z_scope.
Local Open Scope res_scope.

Record fpmode := FPMode { fl : R -> R; wrap : Z -> Z }.
Definition exact : fpmode := FPMode (fun x => x) (fun z => z).
Definition rnd64 : R -> R := round radix2 (FLT_exp (-1074) 53) ZnearestE.
Definition wrap64 (z : Z) : Z := (z + 2 ^ 63) mod 2 ^ 64 - 2 ^ 63.
Definition ieee : fpmode := FPMode rnd64 wrap64.

(** Python's int versus numpy's int64, and tuple versus ndarray. *)
Inductive pyint := PyInt (z : Z) | NpInt (z : Z).
Inductive pairkind := Tup | Arr.
Definition zof (i : pyint) : Z := match i with PyInt z | NpInt z => z end.

Section Model.
Variable M : fpmode.

(** int(z / d) for an integer z and literal d *)
Definition int_div (z d : Z) : Z := Ztrunc (fl M (fl M (IZR z) / IZR d)).

(** cantor_pairing.py:11-31. tuple - int raises TypeError; an ndarray operand on
    either side makes the subtraction element-wise. *)
Definition cantor_pair (k : pairkind) (p : Z * Z) (lowest : pyint) : res Z :=
  match k, lowest with
  | Tup, PyInt _ => Exc TypeError
  | _, _ =>
    let lo := zof lowest in
    let m0 := wrap M (fst p - lo) in let m1 := wrap M (snd p - lo) in
    let s := wrap M (m0 + m1) in
    Ok (wrap M (int_div (wrap M (s * wrap M (s + 1))) 2 + m1))
  end.

(** tuple + lowest: TypeError for a Python int, element-wise for numpy. *)
Definition tuple_plus (t : Z * Z) (lowest : pyint) (c : Z) : res (Z * Z) :=
  match lowest with
  | PyInt _ => Exc TypeError
  | NpInt lo => Ok (wrap M (wrap M (fst t + lo) + c), wrap M (wrap M (snd t + lo) + c))
  end.

(** floor(0.5 * np.sqrt(8.0 * n + 1.0) - 0.5): cantor_pairing.py:52, symmetric_pairing.py:52.
    The square root of a negative number is nan, whose floor raises ValueError. *)
Definition w_of (n : Z) : res Z :=
  if n <? 0 then Exc ValueError
  else Ok (Zfloor (fl M (fl M (/ 2 * fl M (sqrt (fl M (fl M (8 * fl M (IZR n)) + 1)))) - / 2))).

(** cantor_pairing.py:35-57 *)
Definition invert_cantor_pair (n : Z) (lowest : pyint) : res (Z * Z) :=
  w <- w_of n ;
  let t := int_div (w * w + w) 2 in
  tuple_plus (w - n + t, n - t) lowest 0.

(** symmetric_pairing.py:11-32 *)
Definition symmetric_pair (p : Z * Z) (lowest : pyint) : res Z :=
  let q := if snd p <=? fst p then (snd p, fst p) else p in
  let lo := zof lowest in
  let a := wrap M (wrap M (fst q - lo) + 1) in
  let b := wrap M (wrap M (snd q - lo) + 1) in
  Ok (wrap M (a + int_div (wrap M (b * wrap M (b - 1))) 2)).

(** symmetric_pairing.py:36-57 *)
Definition invert_symmetric_pair (n : Z) (lowest : pyint) : res (Z * Z) :=
  w <- w_of n ;
  let t := int_div (w * w + w) 2 in
  tuple_plus (n - t, w + 1) lowest (-1).

(** xie_pairing.py:15-28; np.sign is exact. *)
Definition sgn_accent (z : Z) : Z := int_div (Z.abs (Z.sgn z) + Z.sgn z) 2.

(** xie_pairing.py:32-57 *)
Definition xie_pair (p : Z * Z) (lowest : pyint) : res Z :=
  let q := if fst p <? snd p then (snd p, fst p) else p in
  let lo := zof lowest in
  let a := wrap M (wrap M (fst q - lo) + 1) in
  let b := wrap M (wrap M (snd q - lo) + 1) in
  let sum := wrap M (a + b) in
  let int_sum := wrap M (sum - 1) in
  let minint := int_div (wrap M (sum - Z.abs (wrap M (a - b)))) 2 in
  let mod_int := int_sum mod 2 in
  Ok (int_div (wrap M (wrap M (int_sum * int_sum) - mod_int)) 4 + minint).

(** xie_pairing.py:61-86 *)
Definition invert_xie_pair (n : Z) (lowest : pyint) : res (Z * Z) :=
  if n <? 0 then Exc ValueError
  else
    let t := Zfloor (fl M (sqrt (fl M (IZR n)))) in
    let tsq := t * t in
    let a := Z.sgn (n - tsq) in
    let b := sgn_accent (n - tsq - t) in
    let first_fac := (1 - a) * t in
    let m := first_fac + a * ((t + 1) * (t + 1 + b) - n) in
    let n' := first_fac + a * (n - t * (t + b)) in
    tuple_plus (m, n') lowest (-1).
End Model.
