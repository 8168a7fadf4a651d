(** * Specifications for limb darkening and disc integrals. *)
From Coq Require Import List ZArith Reals Permutation.
From Verif Require Import Disc_Model.
Import ListNotations.

(** A legal execution of one loop pass over iterations 0..n-1: every iteration
    reads once and writes once, reading first; anything else is unordered. *)
Definition legal_trace (n : nat) (tr : list mstep) : Prop :=
  NoDup tr /\
  (forall k, In (MRead k) tr <-> k < n) /\
  (forall k, In (MWrite k) tr <-> k < n) /\
  (forall k, k < n -> exists a b c, tr = a ++ MRead k :: b ++ MWrite k :: c).

(** Cells [b, b+n) and [b', b'+n) do not overlap. *)
Definition disjoint (b b' : nat) (n : nat) : Prop := b + n <= b' \/ b' + n <= b.

(** Points on the visible disc, with their data, in order. *)
Definition keep4 (mus ang first second : list R) : list (R * R * R * R) :=
  filter (fun p => let '(m, _, _, _) := p in
            if Rle_dec 0 m then if Rle_dec m 1 then true else false else false)
         (combine (combine (combine mus ang) first) second).
Definition mu4 (p : R * R * R * R) : R := let '(m, _, _, _) := p in m.
(** Kernels of the two disc integrals (limb darkening 1 + 1.5 mu). *)
Definition kernel1 (p : R * R * R * R) : R :=
  let '(m, a, _, _) := p in (m * a * (1 + 3 / 2 * m))%R.
Definition kernel2 (p : R * R * R * R) : R :=
  let '(m, _, f, s) := p in ((2 * m * f + (m * m - 1) * s) * (1 + 3 / 2 * m) * m)%R.
