(** * The numerical integrator in binary64 arithmetic.
    Source: cpp-numintegrator/num_integrator/num_integration.cpp, the functions of
    [NumInt_Model] (lines 58-205) read with C's [double]: every [+ - * /] of the
    source is one correctly rounded IEEE-754 operation (ties to even), no operation
    is fused or reordered, and the literals 0.0, 2.0, 3.0 and 4.0 are exact.
    Simplification: not a number is a single value; the sign of a zero is kept. *)
From Coq Require Import ZArith.
From Flocq Require Import Core BinarySingleNaN.
From Verif Require Import Base Cmp_Model.
Local Open Scope Z_scope.

(** num_integration.cpp:58-185, the operators on [double] *)
Definition DA : arith double := {|
  nadd := Bplus mode_NE;
  nsub := Bminus mode_NE;
  nmul := Bmult mode_NE;
  ndiv := Bdiv mode_NE;
  nopp := Bopp;
  nofQ := fun a b => if Pos.eqb b 1 then of_int a else Bdiv mode_NE (of_int a) (of_int (Zpos b))
|}.
