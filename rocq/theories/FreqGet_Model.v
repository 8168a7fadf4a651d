(** * Model of the getters of the frequency handler, in exact real arithmetic.
    Source: aesolver/aesolver/frequency_handling/frequency_handler.py (fh). Simplifications: those of
    [Freq_Model]; an array of shape (2, 1) is a list of two rows; integers of any size may be given. *)
From Coq Require Import Reals List ZArith.
From Verif Require Import Base Py Freq_Model.
Import ListNotations.
Local Open Scope R_scope.

(** np.array([a[nr - 1], b[nr - 1]]).reshape((-1, 1)), the body shared by fh:569-586, 588-606,
    609-627, 630-648, 692-710, 713-733, 736-756, 759-778 *)
Definition get_pair (a b : list R) (nr : Z) : res (list (list R)) :=
  x <- py_get a (nr - 1) ; y <- py_get b (nr - 1) ; Ok [[x]; [y]].

(** fh:569-586 *)
Definition get_inert_corot_f (h : handler) (nr : Z) := get_pair (map corot_f (h_modes h)) (map inert_f (h_modes h)) nr.
(** fh:588-606 *)
Definition get_inert_corot_f_nad (n : nonad) (nr : Z) := get_pair (map corot_f (n_modes n)) (map inert_f (n_modes n)) nr.
(** fh:609-627 *)
Definition get_inert_corot_o (h : handler) (nr : Z) := get_pair (map corot_o (h_modes h)) (map inert_o (h_modes h)) nr.
(** fh:630-648 *)
Definition get_inert_corot_o_nad (n : nonad) (nr : Z) := get_pair (map corot_o (n_modes n)) (map inert_o (n_modes n)) nr.
(** fh:692-710 *)
Definition get_dimless_freqs (h : handler) (nr : Z) := get_pair (dimless_corot_freqs h) (dimless_inert_freqs h) nr.
(** fh:736-756 *)
Definition get_dimless_omegas (h : handler) (nr : Z) := get_pair (dimless_corot_omegas h) (dimless_inert_omegas h) nr.
(** fh:713-733 with fh:948-963: the non-adiabatic arrays are made dimensionless with the factor of the adiabatic files *)
Definition get_dimless_freqs_nad (h : handler) (n : nonad) (nr : Z) :=
  get_pair (map (fun x => corot_f x * h_dimfac h) (n_modes n)) (map (fun x => inert_f x * h_dimfac h) (n_modes n)) nr.
(** fh:759-778 with fh:948-963 *)
Definition get_dimless_omegas_nad (h : handler) (n : nonad) (nr : Z) :=
  get_pair (map (fun x => corot_o x * h_dimfac h) (n_modes n)) (map (fun x => inert_o x * h_dimfac h) (n_modes n)) nr.
(** fh:651-667 *)
Definition get_detunings (h : handler) : list (list R) := [[h_detuning h]; [h_detuning h]].
(** fh:670-687 *)
Definition get_detunings_nad (n : nonad) : list (list R) := [[n_detuning n]; [n_detuning n]].
(** fh:569, 609, 692, 736: the default number, used when a triad's coupling information is stored
    (solver/quadratic_solver.py:845-849, 858-862) *)
Definition default_nr : Z := 1.
