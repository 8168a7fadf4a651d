(** * The results of one triad, as a function of that triad's own data. No solver state, no slots. *)
From Coq Require Import Reals List String ZArith Bool.
From Coquelicot Require Import Coquelicot.
From Verif Require Import Base Py Stab_Model Stat_Model Saver_Model Solver_Model.
Import ListNotations.

Section Spec.
Variable cfg : settings.
Variables data coupler : Type.
Variable load : orders -> res data.
Variable make_handler : data -> res handler.
Variable set_nonadiabatic : handler -> data -> res handler.
Variable two_mode : data -> res bool.
Variable stationary_check : data -> handler -> bool -> res bool.
Variable selection_check : data -> res bool.
Variable make_coupler : data -> handler -> res coupler.
Variable coupled_of : coupler -> coupled.
Variable jacobian_check : bool -> handler -> R -> res bool.
Variable lag_surface : data -> list C.
Variable xir_surface : data -> list C.
Variable disc_integrals : coupler -> res (list R * list R).

(** handler, pre-check and resonance type *)
Definition prepared (d : data) : res (handler * bool * bool) :=
  if polytrope cfg then h <- make_handler d ; two <- two_mode d ; Ok (h, true, two)
  else h0 <- make_handler d ; h <- set_nonadiabatic h0 d ; two <- two_mode d ;
       pre <- (if stat_solv cfg then stationary_check d h two else selection_check d) ; Ok (h, pre, two).
(** a coupling object is made for polytropes, when the pre-check holds, and when no stationary solution is asked for *)
Definition coupling_of (d : data) (h : handler) (pre : bool) : res (option coupler) :=
  if negb (rot_formalism cfg) then Exc SystemExit
  else if polytrope cfg || pre || negb (stat_solv cfg) then q <- make_coupler d h ; Ok (Some q) else Ok None.
Definition hyper_of (h : handler) (q : option coupler) (two : bool) : res bool :=
  if polytrope cfg then Ok true else match q with None => Ok false | Some q => jacobian_check two h (ncc (coupled_of q)) end.
(** q factors *)
Definition q_of (h : handler) : R := (h_detuning h / h_gamma h)%R.
Definition qc_of (h : handler) : R := (h_detuning h / (nth 1 (h_rates h) 0 + nth 2 (h_rates h) 0))%R.
Definition amps_of (h : handler) (q : coupler) : amplitudes :=
  theoretical_amps (h_products h) (Rabs (elcc (coupled_of q)) ^ 2)%R (q_of h) (qc_of h).
(** surface values multiplied by the adiabatic flag (0 or 1) *)
Definition flagged (l : list C) : list C := map (fun z => (z * (if adiabatic cfg then 1 else 0))%C) l.
Definition flux_of (h : handler) (q : coupler) (d : data) (tk ek : list R) : list R :=
  map (fun af => (fst af * Rabs (snd af))%R) (combine (amps3 (amps_of h q)) (disc_factors tk ek (flagged (lag_surface d)) (flagged (xir_surface d)))).
Definition stat_of (d : data) (h : handler) (pre : bool) (q : option coupler) (hy : bool) : res stationary :=
  match q with
  | Some q => de <- disc_integrals q ;
      Ok (mkStat (if pre then Some (mkSolved (amps3 (amps_of h q)) (flux_of h q d (fst de) (snd de)) (Stat_Model.acrit (amps_of h q))
                                       (relative_phase (q_of h)) (relative_phase (q_of h))) else None)
                 (h_rates h) (h_gamma h) (h_detuning h) (q_of h) (qc_of h) hy)
  | None => Ok (mkStat None (h_rates h) (h_gamma h) (h_detuning h) (q_of h) (qc_of h) hy)
  end.
Definition no_stat : stationary := mkStat None [] 0 0 0 0 true.
Definition triad_of (o : orders) : res triad :=
  d <- load o ; p <- prepared d ; let '(h, pre, two) := p in
  q <- coupling_of d h pre ; hy <- hyper_of h q two ;
  s <- (if polytrope cfg then Ok no_stat else stat_of d h pre q hy) ;
  Ok (mkTriad o (h_freqs h) (option_map coupled_of q) s).

(** the slots of a solver after these triads *)
Definition couple_slot (t : triad) := Some (coupling_info (adiabatic cfg) (t_coupled t)).
Definition freq_slot (t : triad) := Some (mode_freq_info (polytrope cfg) (t_freqs t)).
Definition stat_slot (t : triad) := Some (if polytrope cfg then None else Some (stat_dict (t_stat t))).
Definition hyper_slot (t : triad) := Some (hyperbolic (t_stat t)).
(** average radial order n1 + n2 + n3 over three, and Wu's difference n1 - |n2 - n3| *)
Definition stats_slot (t : triad) := let '(n1, n2, n3) := t_orders t in
  Some [CNum ((IZR n1 + IZR n2 + IZR n3) / 3)%R; CNum (IZR n1 - Rabs (IZR n2 - IZR n3))%R].
Definition sized (n : nat) (s : state data coupler) : Prop :=
  List.length (l_couple _ _ s) = n /\ List.length (l_freq _ _ s) = n /\ List.length (l_hyper _ _ s) = n /\
  List.length (l_stat _ _ s) = n /\ List.length (l_stats _ _ s) = n.
End Spec.
(** modulus of tk * lum - ek * xir for surface values lum and xir multiplied by a normalisation factor *)
Definition flux_factor (tk ek norm : R) (lum xir : C) : R := Cmod (RtoC tk * (lum * RtoC norm) - RtoC ek * (xir * RtoC norm))%C.
