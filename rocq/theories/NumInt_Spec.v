(** * Specifications for numerical integration, independent of the model. *)
From Coq Require Import List ZArith Reals String.
Import ListNotations.

(** Which calls stay inside the two buffers: lengths of integrand/variable. *)
Definition in_bounds (simpson es : bool) (nf nv : nat) : Prop :=
  if es then
    if (simpson && Nat.odd nf)%bool then nf >= 3 /\ nv >= 2
    else nf >= 1 /\ nv >= 2
  else nf <= 1 \/ nf <= nv.

(** Points of a list as a function of the index. *)
Definition pt (l : list R) (i : nat) : R := nth i l 0%R.

(** Textbook composite trapezoid sum over n points. *)
Fixpoint trapezoid_sum (x y : nat -> R) (n : nat) : R :=
  match n with
  | O => 0
  | S O => 0
  | S (S k as m) => trapezoid_sum x y m + (x m - x k) * (y k + y m) / 2
  end.

(** t lies between a and b (in either order). *)
Definition between (a b t : R) : Prop := (Rmin a b <= t <= Rmax a b)%R.

(** g interpolates the data and is affine on each cell. *)
Definition piecewise_affine_interpolant (x y : nat -> R) (n : nat) (g : R -> R) : Prop :=
  (forall i, i < n -> g (x i) = y i) /\
  (forall i, S i < n -> exists a b, forall t, between (x i) (x (S i)) t -> g t = (a + b * t)%R).

(** Uniform grid and sampled function. *)
Definition uniform (a h : R) (n : nat) : list R := map (fun i => (a + INR i * h)%R) (seq 0 n).
Definition sample (g : R -> R) (x : list R) : list R := map g x.
Definition cubic (c0 c1 c2 c3 t : R) : R := (c0 + c1 * t + c2 * t ^ 2 + c3 * t ^ 3)%R.

(** Loop iterations lo, lo+1, ..., hi-1. *)
Definition iterations (lo hi : Z) : list Z :=
  map (fun d => (lo + Z.of_nat d)%Z) (seq 0 (Z.to_nat (hi - lo))).
(** Pointwise a*f + b*g. *)
Definition lincomb (a b : R) (f g : list R) : list R :=
  map (fun '(x, y) => (a * x + b * y)%R) (combine f g).
(** The constant function 1 sampled at n points. *)
Definition ones (n : nat) : list R := repeat 1%R n.
