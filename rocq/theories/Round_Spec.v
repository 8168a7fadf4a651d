(** * Bounds on rounding errors, independent of the integrator. *)
From Coq Require Import List ZArith Reals.
From Flocq Require Import Core BinarySingleNaN.
From Verif Require Import Cmp_Model.
Import ListNotations.
Local Open Scope R_scope.

(** half a unit in the last place of 1, and half the smallest positive number *)
Definition unit_roundoff : R := / 2 ^ 53.
Definition tiny : R := / 2 ^ 1075.

(** [n] roundings, each relative to its operand by at most [unit_roundoff], of terms
    whose magnitudes add up to [magnitude]; underflow contributes [under] *)
Definition ErrorAtMost (n : nat) (magnitude under : R) (computed exact : R) : Prop :=
  Rabs (computed - exact) <= ((1 + unit_roundoff) ^ n - 1) * magnitude + (1 + unit_roundoff) ^ n * under.

(** the numbers in a list of binary64 numbers *)
Definition val (l : list double) (i : nat) : R := B2R (nth i l (B754_nan)).
Definition reals (l : list double) : list R := map B2R l.

(** g 0 + ... + g (n-1) *)
Fixpoint total (g : nat -> R) (n : nat) : R :=
  match n with O => 0 | S k => total g k + g k end.

Fixpoint ztotal (g : nat -> Z) (n : nat) : Z := match n with O => 0%Z | S k => (ztotal g k + g k)%Z end.

(** The magnitudes that the rules add up, on [n] points. *)
Definition cell (x y : nat -> R) (i : nat) : R := Rabs (y i + y (S i)) / 2 * Rabs (x (S i) - x i).
Definition width (x : nat -> R) (i : nat) : R := Rabs (x (S i) - x i).

(** Exact values of the rules for equal spacing [h] *)
Definition uniform_trapezoid (h : R) (y : nat -> R) (n : nat) : R :=
  h * ((y 0%nat + y (n - 1)%nat) / 2 + total (fun i => y (S i)) (n - 2)).
Definition composite_simpson (h : R) (y : nat -> R) (k : nat) : R :=
  total (fun i => h / 3 * (y (2 * i)%nat + 4 * y (2 * i + 1)%nat + y (2 * i + 2)%nat)) (S k).
Definition uniform_trapezoid_magnitude (h : R) (y : nat -> R) (n : nat) : R :=
  Rabs h * (Rabs (y 0%nat + y (n - 1)%nat) / 2 + total (fun i => Rabs (y (S i))) (n - 2)).
Definition simpson_sum_magnitude (y : nat -> R) (k : nat) : R :=
  Rabs (y 0%nat + y (2 * k + 2)%nat) + total (fun i => 4 * Rabs (y (2 * i + 1)%nat) + 2 * Rabs (y (2 * i + 2)%nat)) k
  + 4 * Rabs (y (2 * k + 1)%nat).
