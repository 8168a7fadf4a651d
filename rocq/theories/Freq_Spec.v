(** * What the frequency units mean. No reference to the code. *)
From Coq Require Import Reals String ZArith.
Local Open Scope R_scope.
Local Open Scope string_scope.

(** How many cycles per second one unit is (one turn is 2 pi radians). *)
Definition unit_size (u : string) : option R :=
  if u =? "HZ" then Some 1
  else if u =? "UHZ" then Some (1 / 1000000)
  else if u =? "RAD_PER_SEC" then Some (1 / (2 * PI))
  else if u =? "CYC_PER_DAY" then Some (1 / 86400)
  else None.
(** the same for requested units, which have the additional name CPD for cycles per day *)
Definition requested_size (u : string) : option R :=
  if u =? "CPD" then Some (1 / 86400) else unit_size u.

(** The time unit (in seconds, inverted) of the pair (cyclic, angular) of frequencies reported
    for a requested unit: cycles and radians per second, microhertz or day. *)
Definition cyclic_size (u : string) : option R :=
  if u =? "RAD_PER_SEC" then Some 1 else requested_size u.

(** Cycles per second of a frequency [x] stored in unit [u] by the oscillation code, for a
    star of mass [mst] and radius [rst]; the unit "none" is the dynamical rate
    sqrt(G M / R^3), in radians per second. *)
Definition stored_hz (u : string) (g mst rst x : R) : R :=
  match unit_size u with Some s => x * s | None => x * sqrt (g * mst / rst ^ 3) / (2 * PI) end.

(** GYRE's frames: inertial = co-rotating + m * rotation. *)
Definition to_inertial (frame : string) (mm : Z) (W f : R) : R :=
  if frame =? "INERTIAL" then f else f + IZR mm * W.
Definition to_corotating (frame : string) (mm : Z) (W f : R) : R :=
  if frame =? "INERTIAL" then f - IZR mm * W else f.
