(** * Specification vocabulary for debug information (C163-C166) *)
From Coq Require Import List ZArith Reals String.
From Coquelicot Require Import Complex.
From Verif Require Import Base Grid_Model Grid_Spec.
Import ListNotations.
Local Open Scope string_scope.

(** an attribute that holds debug information *)
Definition debug_attr (k : string) : Prop := exists a b, k = a ++ "max_min" ++ b.
(** two objects hold the same results *)
Definition same_results (o o' : obj) : Prop := forall k, ~ debug_attr k -> o k = o' k.
(** a computation that does not look at debug information *)
Definition blind {A} (f : obj -> A) : Prop := forall o o', same_results o o' -> f o = f o'.
(** what a run with debug information [d] may do, given what the run without it does *)
Definition unaffected (plain d : res obj) : Prop :=
  match d with
  | Ok o' => exists o, plain = Ok o /\ same_results o o'
  | Exc e => e = ValueError \/ plain = Exc e
  | UB => plain = UB
  end.
(** the order of complex numbers by real, then by imaginary part *)
Definition lex_le (a b : C) : Prop := (fst a < fst b \/ fst a = fst b /\ snd a <= snd b)%R.
(** v is the summary of the samples l: greatest and least sample, the last three and the first three (or all, if there are fewer) *)
Definition describes (l : list C) (v : gval) : Prop :=
  exists mx mn su co, v = VSum mx mn su co /\
    (In mx l /\ forall b, In b l -> lex_le b mx) /\ (In mn l /\ forall b, In b l -> lex_le mn b) /\
    (exists rest, l = (rest ++ su)%list) /\ List.length su = Nat.min 3 (List.length l) /\
    (exists rest, l = (co ++ rest)%list) /\ List.length co = Nat.min 3 (List.length l).
(** attribute [e] of the object summarises the samples [l] *)
Definition entry (o : obj) (e : string) (l : list C) : Prop := exists v, o e = Some v /\ describes l v.
(** no array among the values of a dictionary is empty *)
Definition no_empty (d : gdict) : Prop := forall k v, In (k, v) d -> samples v <> Some [].

(** none of the names of the data is that of debug information *)
Definition no_debug_keys (d : gdict) : Prop := forall k, In k (map fst d) -> ~ debug_attr k.
(** the quantities of the stellar structure: density, pressure and their derivatives, and the derivatives of the gravitational potential *)
Definition matter_attrs : list string := ["_P"; "_rho"; "_drho"; "_drho2"; "_drho3"; "_dP"; "_dP2"; "_dP3"].
Definition gravity_attrs : list string := ["_dgravpot"; "_dgravpot2"; "_dgravpot3"].
(** the radial functions and the Hough functions of a mode *)
Definition radial_functions : list string :=
  ["z_1"; "z_2"; "x_z_1"; "z_2_over_c_1_omega"; "x_z_2_over_c_1_omega"; "rad_der_x_z_1"; "rad_der_x_z_2_c_1_omega"; "rad_diverg"].
Definition hough_functions : list string :=
  ["hr"; "ht"; "hp"; "theta_der_hr"; "theta_der_ht"; "theta_der_hp"; "theta_phi"; "phi_phi"; "mhr"; "theta_der2_hr";
   "theta_der_hr_theta"; "theta_der2_hr_theta"; "theta_der_ht_theta"; "theta_der_hp_theta"].
Definition times (c : R) (z : C) : C := (fst z * c, snd z * c)%R.
