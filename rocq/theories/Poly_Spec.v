(** * Specification for polytropic structures (C107, C108). Independent of the model except for
    the input record and the floating point numbers. *)
From Coq Require Import Reals.
From Coquelicot Require Import Coquelicot.
From Verif Require Import Base.
From Verif Require Poly_Model.
Local Open Scope R_scope.
Notation Fin := Poly_Model.Fin.

(** a solution of the Lane-Emden equation of index n inside (0, zs): positive, decreasing *)
Definition lane_emden (n zs : R) (th th' : R -> R) : Prop := forall z, 0 < z < zs ->
  0 < th z /\ th' z < 0 /\ is_derive th z (th' z) /\ is_derive th' z (- Rpower (th z) n - 2 / z * th' z).
(** the input arrays sample that solution at the points zz, the last of which is zs *)
Definition samples (S : Poly_Model.poly) (zz : nat -> R) (zs : R) (th th' : R -> R) : Prop :=
  (forall i, (i <= Poly_Model.p_n S)%nat -> Poly_Model.p_z S i = Fin (zz i) /\
     Poly_Model.p_theta S i = Fin (th (zz i)) /\ Poly_Model.p_dtheta S i = Fin (th' (zz i))) /\
  zz (Poly_Model.p_n S) = zs.
(** sensible scalars *)
Definition sensible (S : Poly_Model.poly) (zs : R) (th' : R -> R) : Prop :=
  0 < Poly_Model.p_idx S /\ 0 < Poly_Model.p_G S /\ 0 < Poly_Model.p_mass S /\ 0 < Poly_Model.p_radius S /\ 0 < zs /\ th' zs < 0.

(** A self-gravitating star in hydrostatic equilibrium with a polytropic relation: pressure P,
    density rho, gravity g = dPhi/dr, enclosed mass m inside (0, radius). *)
Definition hydrostatic_polytrope (G n K radius : R) (rho P g m : R -> R) : Prop := forall r, 0 < r < radius ->
  0 < rho r /\ P r = K * Rpower (rho r) (1 + 1 / n) /\
  g r = G * m r / r ^ 2 /\ is_derive m r (4 * PI * r ^ 2 * rho r) /\ is_derive P r (- rho r * g r).
(** the enclosed mass goes from 0 at the centre to the given mass at the surface *)
Definition total_mass (mass radius : R) (m : R -> R) : Prop :=
  filterlim m (at_right 0) (locally 0) /\ filterlim m (at_left radius) (locally mass).
(** behaviour of the solution at the ends: normalised, no central cusp, continuity at the surface *)
Definition regular_ends (zs : R) (th th' : R -> R) : Prop :=
  filterlim th (at_right 0) (locally 1) /\ filterlim th' (at_right 0) (locally 0) /\ filterlim th' (at_left zs) (locally (th' zs)).
(** the three numbers are finite and are the first three derivatives of f at r *)
Definition derivatives_at (f : R -> R) (r : R) (a b c : Poly_Model.fl) : Prop := exists d1 d2 d3,
  a = Fin d1 /\ b = Fin d2 /\ c = Fin d3 /\ is_derive_n f 1 r d1 /\ is_derive_n f 2 r d2 /\ is_derive_n f 3 r d3.
