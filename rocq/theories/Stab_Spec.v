(** * What stability means: the amplitude equations, their Jacobian, eigenvalues.
    Nothing here refers to the code. *)
From Coq Require Import Reals.
From Coquelicot Require Import Coquelicot.
Local Open Scope R_scope.

(** Amplitude equations of a resonant triad (real amplitudes A1,A2,A3 and phase
    difference Phi; rates g, frequencies w, coupling eta, detuning d = w1-w2-w3).
    They are the modulus/phase form of a1' = g1 a1 + 2 i w1 eta a2 a3,
    a2' = g2 a2 + 2 i w2 eta a1 a3*, a3' = g3 a3 + 2 i w3 eta a1 a2*. *)
Definition ae3 (g w : nat -> R) (eta d : R) (v : nat -> R) (i : nat) : R :=
  let A1 := v 0%nat in let A2 := v 1%nat in let A3 := v 2%nat in let Phi := v 3%nat in
  match i with
  | 0%nat => g 0%nat * A1 + 2 * w 0%nat * eta * A2 * A3 * sin Phi
  | 1%nat => g 1%nat * A2 - 2 * w 1%nat * eta * A1 * A3 * sin Phi
  | 2%nat => g 2%nat * A3 - 2 * w 2%nat * eta * A1 * A2 * sin Phi
  | _ => - d + 2 * eta * cos Phi * (w 0%nat * A2 * A3 / A1 - w 1%nat * A1 * A3 / A2 - w 2%nat * A1 * A2 / A3)
  end.
(** ... and of a harmonic pair a1' = g1 a1 + i k1 a2^2, a2' = g2 a2 + i k2 a1 a2*. *)
Definition ae2 (g1 g2 k1 k2 d : R) (v : nat -> R) (i : nat) : R :=
  let A1 := v 0%nat in let A2 := v 1%nat in let Phi := v 2%nat in
  match i with
  | 0%nat => g1 * A1 + k1 * A2 ^ 2 * sin Phi
  | 1%nat => g2 * A2 - k2 * A1 * A2 * sin Phi
  | _ => - d + cos Phi * (k1 * A2 ^ 2 / A1 - 2 * k2 * A1)
  end.

Definition setc (v : nat -> R) (j : nat) (t : R) : nat -> R := fun k => if Nat.eqb k j then t else v k.
(** J is the Jacobian matrix of F at v (n variables). *)
Definition jacobian (n : nat) (F : (nat -> R) -> nat -> R) (v : nat -> R) (J : nat -> nat -> R) : Prop :=
  forall i j, (i < n)%nat -> (j < n)%nat -> is_derive (fun t => F (setc v j t) i) (v j) (J i j).

(** Determinants by expansion along the first row. *)
Definition det2 (a b c d : C) : C := (a * d - b * c)%C.
Definition det3 (M : nat -> nat -> C) : C :=
  (M 0%nat 0%nat * det2 (M 1%nat 1%nat) (M 1%nat 2%nat) (M 2%nat 1%nat) (M 2%nat 2%nat)
   - M 0%nat 1%nat * det2 (M 1%nat 0%nat) (M 1%nat 2%nat) (M 2%nat 0%nat) (M 2%nat 2%nat)
   + M 0%nat 2%nat * det2 (M 1%nat 0%nat) (M 1%nat 1%nat) (M 2%nat 0%nat) (M 2%nat 1%nat))%C.
Definition skip (k j : nat) : nat := if Nat.ltb j k then j else S j.
Definition minor0 (M : nat -> nat -> C) (k : nat) : nat -> nat -> C := fun i j => M (S i) (skip k j).
Definition det4 (M : nat -> nat -> C) : C :=
  (M 0%nat 0%nat * det3 (minor0 M 0) - M 0%nat 1%nat * det3 (minor0 M 1)
   + M 0%nat 2%nat * det3 (minor0 M 2) - M 0%nat 3%nat * det3 (minor0 M 3))%C.
(** M - l I *)
Definition shifted (M : nat -> nat -> R) (l : C) : nat -> nat -> C :=
  fun i j => (RtoC (M i j) - (if Nat.eqb i j then l else 0))%C.
Definition eigenvalue4 (M : nat -> nat -> R) (l : C) : Prop := det4 (shifted M l) = 0%C.
Definition eigenvalue3 (M : nat -> nat -> R) (l : C) : Prop := det3 (shifted M l) = 0%C.
(** All small perturbations decay (resp. the fixed point is hyperbolic). *)
Definition decaying4 (M : nat -> nat -> R) : Prop := forall l, eigenvalue4 M l -> Re l < 0.
Definition decaying3 (M : nat -> nat -> R) : Prop := forall l, eigenvalue3 M l -> Re l < 0.
Definition hyperbolic4 (M : nat -> nat -> R) : Prop := forall l, eigenvalue4 M l -> Re l <> 0.
