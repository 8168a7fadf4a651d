(** * What the selection rules mean. No reference to the code. *)
From Coq Require Import Reals ZArith List.
From Coquelicot Require Import Coquelicot.
Import ListNotations.
Local Open Scope R_scope.

(** Real part of the longitude integral of exp(i M phi), M the sum of the azimuthal
    orders with complex-conjugated modes counted negatively (the imaginary part,
    the integral of sin, is always 0). *)
Definition longitude_integral (M : Z) : R := RInt (fun phi => cos (IZR M * phi)) 0 (2 * PI).
Definition signed (conj : bool) (m : Z) : Z := if conj then (- m)%Z else m.
(** latitudinal eigenfunction of meridional order k: even or odd about the equator *)
Definition has_parity (k : Z) (f : R -> R) : Prop := forall mu, f (- mu) = (if Z.even k then 1 else -1) * f mu.
