(** * Specification for finite differences: polynomials and their derivatives. *)
From Coq Require Import List Reals.
Import ListNotations.
Local Open Scope R_scope.

(** Polynomial a0 + a1 x + a2 x^2 + ... *)
Fixpoint peval (a : list R) (x : R) : R :=
  match a with [] => 0 | c :: a' => c + x * peval a' x end.

(** sum_j w_j p(x_j) *)
Fixpoint apply_weights (w : list R) (p : R -> R) (nodes : list R) : R :=
  match w, nodes with
  | c :: w', x :: n' => c * p x + apply_weights w' p n'
  | _, _ => 0
  end.
