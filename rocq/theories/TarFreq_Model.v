(** * Model of the validity check of the traditional approximation as it reads the frequency handler.
    Source: aesolver/aesolver/solver/quadratic_profile.py lines 122-206 (qp; the same code in solver/quadratic_solver.py 1258-1340) and
    frequency_handling/frequency_handler.py lines 216-247 (fh). Simplification: exact real arithmetic; the quotient of two zeros (NaN, the
    rotation frequencies are numpy floats) is None, and comparisons with it are False. *)
From Coq Require Import Reals List Bool.
From Verif Require Import Base Py Freq_Model Tar_Model.
Import ListNotations.

(** fh:227-247 with NaN for a star without rotation, whose converted rotation frequency is 0 as well *)
Definition conv_factor (h : handler) : option R :=
  if Req_EM_T (h_rps h) 0 then None else Some (angular_conv_factor_from_rps h).
(** qp:150-154: with the conversion factor of the handler and its co-rotating angular frequencies *)
Definition handler_frequency_check (h : handler) (n2 : list R) : list bool :=
  let omegas := map corot_o (h_modes h) in
  match conv_factor h with
  | Some c => frequency_check c omegas n2
  | None => map (fun _ => forallb (fun _ => false) omegas) n2
  end.
(** qp:138-149 *)
Definition handler_rotation_check (h : handler) (n2 : list R) : list bool := rotation_check (h_rps h) n2.
(** qp:122-206 for a coupling object with this handler, quality factors and profile of N^2 *)
Definition handler_zones (h : handler) (quality n2 : list R) : res zones :=
  tar_zones (slow_manifold quality) (handler_rotation_check h n2) (handler_frequency_check h n2).
