(** * Specification vocabulary for the analyzer masks; uses only the table type of the model. *)
From Coq Require Import Reals List ZArith Bool Permutation.
From Verif Require Import Mask_Model.
Import ListNotations.
Local Open Scope R_scope.

Definition parent (r : row) : Z := fst (fst (rad_ord r)).
Definition daughter1 (r : row) : Z := snd (fst (rad_ord r)).
Definition daughter2 (r : row) : Z := snd (rad_ord r).
Definition has_parent (n : Z) (r : row) : Prop := parent r = n.
Definition has_daughter (n : Z) (r : row) : Prop := daughter1 r = n \/ daughter2 r = n.

(** m is the lowest threshold among the triads of the table satisfying P (NaN thresholds do not count) *)
Definition lowest_threshold (d : list row) (P : row -> Prop) (m : R) : Prop :=
  (exists r, In r d /\ P r /\ thresh r = Some m) /\
  forall r t, In r d -> P r -> thresh r = Some t -> m <= t.

(** rows number i and j hold the lowest and second-lowest thresholds of the triads with parent n *)
Definition two_lowest (d : list row) (n : Z) (i j : nat) : Prop :=
  i <> j /\ exists a b ta tb, nth_error d i = Some a /\ nth_error d j = Some b /\
    parent a = n /\ parent b = n /\ thresh a = Some ta /\ thresh b = Some tb /\ ta <= tb /\
    forall k c tc, nth_error d k = Some c -> k <> i -> parent c = n -> thresh c = Some tc -> tb <= tc.
(** row i's parent equilibrium luminosity fluctuation (a fraction) stays below row j's threshold (ppm) *)
Definition equilibrium_below (d : list row) (i j : nat) : Prop :=
  exists a b s tb, nth_error d i = Some a /\ nth_error d j = Some b /\
    fst (fst (surf a)) = Some s /\ thresh b = Some tb /\ s * 10 ^ 6 < tb.

(** the three lowest thresholds of the modes of triad r agree to 1e-14 *)
Definition modes_agree (d : list row) (r : row) : Prop :=
  exists p d1 d2, lowest_threshold d (has_parent (parent r)) p /\
    lowest_threshold d (has_daughter (daughter1 r)) d1 /\
    lowest_threshold d (has_daughter (daughter2 r)) d2 /\
    Rabs (p - d1) <= / 10 ^ 14 /\ Rabs (p - d2) <= / 10 ^ 14.

(** numpy's contract for argpartition(a, 1) *)
Definition valid_argpartition (part : list R -> list nat) : Prop :=
  forall l, (2 <= length l)%nat -> exists i j rest, part l = i :: j :: rest /\
    Permutation (part l) (seq 0 (length l)) /\ nth i l 0 <= nth j l 0 /\
    forall k, (k < length l)%nat -> k <> i -> nth j l 0 <= nth k l 0.

Definition holds (m : list bool) (i : nat) : Prop := nth_error m i = Some true.
