(** * What the estimate of the threshold should be. A point is a pair (theta_2, amplitude ratio). Nothing
    here refers to the code, except that [argpartition_spec] states the documented behaviour of
    numpy.argpartition (NaN, i.e. [None], sorts last). *)
From Coq Require Import Reals List Permutation.
Import ListNotations.
Local Open Scope R_scope.

Definition nan_le (a b : option R) : Prop :=
  match a, b with _, None => True | None, Some _ => False | Some x, Some y => x <= y end.
Definition argpartition_spec (ap : list (option R) -> nat -> list nat) : Prop :=
  forall a k, (k < length a)%nat -> Permutation (ap a k) (seq 0 (length a)) /\
  forall i j x y u v, (i <= k <= j)%nat -> nth_error (ap a k) i = Some x -> nth_error (ap a k) j = Some y ->
    nth_error a x = Some u -> nth_error a y = Some v -> nan_le u v.

(** the points whose ratio is above 1, and the others *)
Definition above (l : list (R * R)) : list (R * R) := filter (fun p => if Rlt_dec 1 (snd p) then true else false) l.
Definition below (l : list (R * R)) : list (R * R) := filter (fun p => if Rlt_dec 1 (snd p) then false else true) l.
(** [sel] are k points of l whose ratios are closest to 1 *)
Definition closest (k : nat) (l sel : list (R * R)) : Prop :=
  length sel = k /\ exists rest, Permutation (sel ++ rest) l /\
  forall s r, In s sel -> In r rest -> Rabs (snd s - 1) <= Rabs (snd r - 1).

(** sum of the squared differences of the theta_2 and the line A + B ratio *)
Fixpoint sum_sq (l : list (R * R)) (A B : R) : R :=
  match l with [] => 0 | (t, y) :: l' => (t - (A + B * y)) ^ 2 + sum_sq l' A B end.
(** A + B ratio is the line of least squares *)
Definition least_squares (l : list (R * R)) (A B : R) : Prop :=
  forall A' B', sum_sq l A B <= sum_sq l A' B' /\ (sum_sq l A' B' = sum_sq l A B -> A' = A /\ B' = B).

(** mean ratio and sum of squared deviations from it *)
Fixpoint sum_ratio (l : list (R * R)) : R := match l with [] => 0 | (_, y) :: l' => y + sum_ratio l' end.
Definition mean_ratio (l : list (R * R)) : R := sum_ratio l / INR (length l).
Fixpoint spread_about (m : R) (l : list (R * R)) : R := match l with [] => 0 | (_, y) :: l' => (y - m) ^ 2 + spread_about m l' end.
(** square of the standard error of the fitted value A + B y at y (textbook formula) *)
Definition fitted_variance (l : list (R * R)) (A B y : R) : R :=
  sum_sq l A B / (INR (length l) - 2) * (1 / INR (length l) + (y - mean_ratio l) ^ 2 / spread_about (mean_ratio l) l).
