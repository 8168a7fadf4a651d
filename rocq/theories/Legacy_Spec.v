(** * Vocabulary for the older solver class. *)
From Coq Require Import List String ZArith Bool.
From Verif Require Import Base Py Inlist_Model Parser_Model Setup_Model Run_Model Legacy_Model.
From Verif Require Saver_Model Solver_Model Solver_Spec.
Import ListNotations.
Local Open Scope string_scope.

(** the parameters that the older class and the grid and profile classes have in common (those passed on to their common base,
    apart from the progress bars, which the older class takes when it is called) *)
Definition shared : list string := filter (fun n => negb (String.eqb n "progress_bars")) passed_on.
(** two constructors were given, or fell back on, the same values of these *)
Definition same_arguments (a a' : table) : Prop := forall n, In n shared -> tget a n = tget a' n.
(** the same settings reach every component: mode files, structure files, coupling object, frequency handler, pre-check, disc integrals *)
Definition same_components (k k' : wiring) : Prop :=
  k_setup k = k_setup k' /\ k_source k = k_source k' /\ k_coupler k = k_coupler k' /\ k_handler k = k_handler k' /\ k_conj k = k_conj k' /\
  k_disc k = k_disc k' /\ k_folders k = k_folders k' /\
  forall n, n <> "_display_progress_bars" -> n <> "_recompute_for_profile" -> tget (k_attributes k) n = tget (k_attributes k') n.
(** methods that compute no profile *)
Definition not_profile (m : method) : Prop := match m with Call _ p => p = false | CoefficientProfile | TriadProfile _ _ => False | _ => True end.
(** a dictionary that names one triad: radial orders, degrees and azimuthal orders *)
Definition describes (t : table) (n1 n2 n3 : Z) (l m : list Z) : Prop :=
  tget t "parent_n" = Some (VInt n1) /\ tget t "daughter_1_n" = Some (VInt n2) /\ tget t "daughter_2_n" = Some (VInt n3) /\
  tget t "mode_l" = Some (VArr (map VInt l)) /\ tget t "mode_m" = Some (VArr (map VInt m)).
(** what the user sees of a method call: the figures saved and how it ended *)
Definition shown {data coupler A} (out : object data coupler * figures * res A) : figures * res A := (snd (fst out), snd out).
