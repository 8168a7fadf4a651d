(** * Binary64 data for histograms, independent of the implementations *)
From Coq Require Import List ZArith Reals.
From Flocq Require Import Core BinarySingleNaN.
From Verif Require Import Cmp_Model.
Import ListNotations.
Local Open Scope R_scope.

Definition all_finite (l : list double) : Prop := forall x, In x l -> is_finite x = true.
Definition minimum (m : R) (l : list double) : Prop := (exists x, In x l /\ B2R x = m) /\ forall x, In x l -> m <= B2R x.
Definition maximum (m : R) (l : list double) : Prop := (exists x, In x l /\ B2R x = m) /\ forall x, In x l -> B2R x <= m.
(** a range that stays away from overflow, and n parts of it from underflow *)
Definition well_scaled (lo hi : R) (n : nat) : Prop := INR n / 2 ^ 1000 <= hi - lo <= 2 ^ 1000.
(** x lies in part i of n equal parts of [lo, hi], enlarged on both sides by a 2^-49 th of the range *)
Definition nearly_in (lo hi : R) (n i : nat) (x : R) : Prop :=
  let w := (hi - lo) / INR n in
  let slack := (hi - lo) / 2 ^ 49 in
  lo + INR i * w - slack <= x <= lo + INR (S i) * w + slack.
(** x is farther than that from all edges between two parts *)
Definition inside (lo hi : R) (n : nat) (x : R) : Prop :=
  let w := (hi - lo) / INR n in
  forall i, (1 <= i < n)%nat -> (hi - lo) / 2 ^ 49 < Rabs (x - (lo + INR i * w)).
Fixpoint ntotal (l : list nat) : nat := match l with [] => 0 | x :: t => x + ntotal t end.
