(** * Specification vocabulary for the plotter *)
From Coq Require Import Reals List ZArith Bool String.
From Verif Require Import Base Mask_Model Ana_Model Ana_Spec Plot_Model.
From Verif Require PreCheck_Model Stab_Model Saver_Model Saver_Spec.
Import ListNotations.
Local Open Scope R_scope.

(** ** what the solver computed for a triad, as the plotter should see it *)
Definition trip_of (l : list R) : trip := match l with [a; b; c] => (Some a, Some b, Some c) | _ => (None, None, None) end.
Definition computed (t : Saver_Model.triad) : raw :=
  let s := Saver_Model.t_stat t in
  let h := Saver_Model.t_freqs t in
  let sol (g : Saver_Model.solved -> list R) := match Saver_Model.s_solved s with Some v => g v | None => [0; 0; 0] end in
  let cpl (g : Saver_Model.coupled -> R) := match Saver_Model.t_coupled t with Some c => g c | None => 0 end in
  Raw (trip_of (sol Saver_Model.flucs))
    [PreCheck_Model.check_parametric (Saver_Spec.rate t); PreCheck_Model.check_direct (Saver_Spec.rate t);
     PreCheck_Model.check_driven (Saver_Spec.rate t); Stab_Model.gamma_sum_stability_float (Saver_Model.gamma s);
     match Saver_Model.s_solved s with Some _ => true | None => false end; Saver_Model.hyperbolic s]
    (trip_of (Saver_Model.rates s)) (trip_of (sol Saver_Model.amps)) (option_map Saver_Model.acrit (Saver_Model.s_solved s))
    (Saver_Model.t_orders t) (trip_of (Saver_Model.corot_w h)) (trip_of (Saver_Model.inert_w h)) (trip_of (Saver_Model.inert_f h))
    (Some (cpl Saver_Model.cc)) (Some (cpl Saver_Model.ncc)).

(** ** categories of triads *)
(** the last three stored checks hold *)
Definition stable (x : raw) : Prop := exists l, r_checks x = (l ++ [true; true; true])%list.
(** the detuning is at most a tenth of the smallest co-rotating frequency (which is not zero) *)
Definition ae_valid (x : raw) : Prop :=
  exists w0 w1 w2 m, r_corot x = (Some w0, Some w1, Some w2) /\ smallest m (Rabs w0) (Rabs w1) (Rabs w2) /\ 0 < m /\
    Rabs (w0 - w1 - w2) <= m / 10.
(** both daughters are the same mode *)
Definition is_harmonic (x : raw) : Prop := snd (fst (r_n x)) = snd (r_n x).
(** the arrays of checks have (at least) three columns *)
Definition checked (x : raw) : Prop := (3 <= List.length (r_checks x))%nat.

(** ** frequencies *)
(** y cannot be told from x when sampled twice per 1/N: they agree up to sign and multiples of 2 N *)
Definition alias (N x y : R) : Prop := exists k : Z, y = x + 2 * N * IZR k \/ y = - x + 2 * N * IZR k.
