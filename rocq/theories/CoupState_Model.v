(** * Model of a rotating-star coupling object through its life: which of its attributes the coupling
    computations set, and what its getters report. Real arithmetic.
    Source: aesolver/aesolver/coupling_coefficients/quadratic_coupling_coefficient_rotating.py (qc).
    Simplifications: those of [Coupling_Model]; the stored values of the four terms of the last
    computation are left out (no getter reads them); debug attributes and logging are dropped; a call that raises
    is caught by the caller, so that the object lives on. *)
From Coq Require Import Reals List Arith.
From Verif Require Import Base Coupling_Model.
Import ListNotations.
Local Open Scope R_scope.

(** _coupling_coefficient and _coupling_coefficient_integrated (with its four companions) *)
Record cstate := mkC { s_cc : option R; s_prof : option cc_profile }.
(** qc:438-442: both None after construction *)
Definition fresh : cstate := mkC None None.

(** adiabatic_coupling_rot(), adiabatic_coupling_rot(indexer=k) for an integer k, adiabatic_coupling_rot_profile() *)
Inductive call := Full | To (k : nat) | Profile.

(** qc:1853-1884: the attribute is assigned only once the four terms are known. x[:k] with k beyond the end is x. *)
Definition compute (E : cenv) (stop : nat) (s : cstate) : cstate * res unit :=
  match coupling_rot E (Nat.min stop (e_n E)) with
  | Ok r => (mkC (Some (cc_tot r)) (s_prof s), Ok tt)
  | UB => (s, UB)
  | Exc e => (s, Exc e)
  end.
(** qc:1909-1946, one pass per element of range(2, n + 1), here [stops] *)
Fixpoint profile_loop (E : cenv) (stops : list nat) (cc : option R) (p : cc_profile) : cstate * res unit :=
  match stops with
  | [] => (mkC cc (Some p), Ok tt)
  | i :: l =>
      match coupling_rot E i with
      | Ok r => profile_loop E l (Some (cc_tot r)) (store_profile p (i - 1) r)
      | UB => (mkC cc (Some p), UB)
      | Exc e => (mkC cc (Some p), Exc e)
      end
  end.
(** qc:1887-1908: five arrays of zeros *)
Definition zero_profile (n : nat) : cc_profile :=
  {| p_1 := repeat 0 n; p_2 := repeat 0 n; p_3 := repeat 0 n; p_4 := repeat 0 n; p_tot := repeat 0 n |}.
Definition step (E : cenv) (s : cstate) (c : call) : cstate * res unit :=
  match c with
  | Full => compute E (e_n E) s
  | To k => compute E k s
  | Profile => profile_loop E (seq 2 (e_n E - 1)) (s_cc s) (zero_profile (e_n E))
  end.
(** the state after a history of calls *)
Definition after (E : cenv) (l : list call) : cstate := fold_left (fun s c => fst (step E s c)) l fresh.

(** ** The getters; [en] is _energy_mode_1 *)
(** qc:475-487 *)
Definition get_normed (en : R) (s : cstate) : option R := option_map (fun k => k / en) (s_cc s).
(** qc:524-537 *)
Definition get_eta (en : R) (s : cstate) : option R := option_map (fun k => 2 * k) (get_normed en s).
(** qc:489-500 *)
Definition get_normed_profile (en : R) (s : cstate) : option (list R) :=
  option_map (fun p => map (fun x => x / en) (p_tot p)) (s_prof s).
(** qc:503-521 *)
Definition get_normed_contributions (en : R) (s : cstate) : option (list R * list R * list R * list R) :=
  option_map (fun p => let d := map (fun x => x / en) in (d (p_1 p), d (p_2 p), d (p_3 p), d (p_4 p))) (s_prof s).
