(** * What the zones and adjusted profiles should be. *)
From Coq Require Import Reals List Bool Arith.
From Verif Require Import Base Tar_Model.
Import ListNotations.
Local Open Scope nat_scope.

(** the TAR holds at a point of Brunt-Vaisala frequency N if N is real, N/10 exceeds the Coriolis frequency 2 Omega and the
    co-rotating frequency of every mode *)
Definition tar_holds (omega_surf conv : R) (omegas : list R) (n2 : R) : Prop :=
  (0 <= n2 /\ Rabs (2 * omega_surf) < 0.1 * sqrt n2 /\ forall w, In w omegas -> Rabs w < Rabs (0.1 * conv * sqrt n2))%R.
(** grid points with a given validity, in order *)
Definition points (b : bool) (v : list bool) : list nat := filter (fun j => Bool.eqb (nth j v false) b) (seq 0 (length v)).
(** grid points selected by a mask *)
Definition selected (n : nat) (m : mask) : list nat := filter (in_mask n m) (seq 0 n).
(** the profile that grows only over the intervals that begin at a valid point *)
Fixpoint kept (y : nat -> R) (v : list bool) (k : nat) : R :=
  match k with O => y 0 | S k' => (kept y v k' + (if nth k' v false then y (S k') - y k' else 0))%R end.
(** [a, b) is the first invalid zone after the valid point k *)
Definition next_invalid (v : list bool) (k a b : nat) : Prop :=
  k < a /\ a < b /\ b <= length v /\ (forall j, k <= j < a -> nth j v false = true) /\ (forall j, a <= j < b -> nth j v false = false) /\
  (b = length v \/ nth b v false = true).
