(** * What the Hough functions on the coupling object should be, independently of the code. *)
From Coq Require Import Reals List ZArith Bool String.
From Verif Require Import Base Hough_Model Hough_Spec HFOut_Model.
Import ListNotations.
Local Open Scope string_scope.

(** the attribute of the given name for mode number i (1, 2, 3) *)
Definition attribute_of (s : store) (name : string) (i : nat) (a : vec) : Prop :=
  exists n, nth_error ["1"; "2"; "3"] (i - 1) = Some n /\ (1 <= i)%nat /\ s ("_" ++ name ++ "_mode_" ++ n) = Some a.
(** the 14 names *)
Definition names : list string :=
  ["hr"; "ht"; "hp"; "mhr"; "theta_phi"; "phi_phi"; "theta_der_hr"; "theta_der_ht"; "theta_der_hp"; "theta_der2_hr";
   "theta_der_hr_theta"; "theta_der_ht_theta"; "theta_der_hp_theta"; "theta_der2_hr_theta"].
(** the tidal problem of a mode on this grid is solved exactly by numpy *)
Definition tidal_problem_ok (X : invs) (eig : mat -> list epair) (nu : R) (l m : Z) (npts : nat) : Prop :=
  forall o, o_nu o = nu -> o_l o = l -> o_m o = m -> o_h o = Nat.div npts 2 -> well_posed X eig o.
