(** * Model of the stationary three-mode solution as it is reported to an observer.
    Sources: aesolver/aesolver/stationary_solving/three_mode/three_mode_stationary.py (st) and
    aesolver/aesolver/stationary_solving/generic/stationary_solve.py (ss).
    Simplifications: exact real arithmetic, where NaN (the root of a negative number) is None; divisions by zero have Coq's value,
    so theorems about quotients carry the hypotheses that exclude them; nr_modes has its default 3 (the only value used); the
    B-splines of scipy (splrep, splev) are parameters, splrep may raise; the detuning is the value the frequency handler returns;
    the frequency handler's products of quality factors are a list. *)
From Coq Require Import Reals List ZArith Bool.
From Coquelicot Require Import Complex.
From Verif Require Import Base Py Stab_Model Stat_Model.
Import ListNotations.
Local Open Scope R_scope.
Local Open Scope res_scope.

(** A double that may be NaN, and a Python object that may be None instead. *)
Definition num := option R.
Inductive pval := PNone | PNum (x : num).
Definition nmul (x y : num) : num := match x, y with Some a, Some b => Some (a * b) | _, _ => None end.
(** np.sqrt *)
Definition nsqrt (x : R) : num := if Rlt_dec x 0 then None else Some (sqrt x).
(** the remainder of np.mod for a positive second argument *)
Definition np_mod (x y : R) : R := x - y * IZR (Int_part (x / y)).
(** np.angle of a real number *)
Definition np_angle (x : R) : R := if Rlt_dec x 0 then PI else 0.

(** What is read from the coupling object: eta_lee_coupling_coefficient, _mu_values, _hr_mode_i, _m_mode_i. *)
Record coupler := mkCoupler { eta : option C; mus : list R; hr : nat -> list R; m_mode : nat -> Z }.
(** What is read from the solver object (ss:52-66): _coupler, _lag_var_surf_lum, _xir_terms_norm, _tk_disc_integrals, _ek_disc_integrals. *)
Record solver := mkSolver { s_coupler : option coupler; lums : vec; xirs : vec; tk : vec; ek : vec }.
(** The arguments of the constructor (st:86-95) and what is read from the frequency handler (st:101-118, 199-207). *)
Record args := mkArgs { pre : bool; solver_object : option solver; hyperbolic : bool; rates : vec; qf_products : list R; detuning : R;
                        spin_inclination : option R; periastron_arg : option R }.
(** The returned dictionary (st:154-188). *)
Record solution := mkSolution { eq_amps : list num; fluxes : list num; drive_rates : vec; s_gamma : R; s_detuning : R; s_q : R; s_q_crit : R;
  crit_amp : pval; rel_phase : pval; lum_phase : pval; s_hyperbolic : bool; s_linearly_stable : bool }.

Section Splines.
Variable spline : Type.
Variable splrep : list R -> list R -> res spline.
Variable splev : R -> spline -> R.

(** st:190-197: the squared modulus, None without a coefficient; without a coupler the attribute access raises *)
Definition get_cc_product (c : option coupler) : res (option R) :=
  match c with None => Exc AttributeError | Some c => Ok (match eta c with None => None | Some e => Some (Cmod e ^ 2) end) end.
(** st:119-124 *)
Definition mu_inclination (a : args) : option R := match spin_inclination a with None => None | Some i => Some (cos i) end.
(** st:125-131 *)
Definition azimuth (a : args) : option R :=
  match periastron_arg a with None => None | Some p => Some (np_mod (PI / 2 - p) (2 * PI)) end.
(** st:209-231 *)
Definition amps (cc : option R) (qf : list R) (q q_crit : R) : pval * pval * pval * pval :=
  match cc with
  | None => (PNone, PNone, PNone, PNone)
  | Some c =>
      let pre_facs := fun k => 1 / (c * nth k qf 0) in
      let pre_facs_q := fun k => (1 + q ^ 2) * pre_facs k in
      let pre_facs_crit := (1 + q_crit ^ 2) * pre_facs 2%nat in
      (PNum (nmul (nsqrt (pre_facs_q 2%nat)) (Some (/ 2))), PNum (nmul (nsqrt (- pre_facs_q 1%nat)) (Some (/ 2))),
       PNum (nmul (nsqrt (- pre_facs_q 0%nat)) (Some (/ 2))), PNum (nmul (nsqrt pre_facs_crit) (Some (/ 2))))
  end.
(** ss:68-73 *)
Definition disc_factors (s : solver) : vec := fun i => Rabs (tk s i * lums s i - ek s i * xirs s i).
(** st:233-242: None times a number raises *)
Definition fluctuation (d : vec) (i : nat) (a : pval) : res num :=
  match a with PNone => Exc TypeError | PNum x => Ok (nmul x (Some (Rabs (d i)))) end.
(** st:244-250 *)
Definition rel_lum_phase (d : vec) : R := np_angle (d 0%nat) - (np_angle (d 1%nat) + np_angle (d 2%nat)).
(** st:265-289: the spline is built for every mode, and evaluated only if an inclination is given *)
Definition observer_hough (a : args) (c : coupler) : res (list R) :=
  mapM (fun i => b <- splrep (mus c) (hr c i) ; Ok (match mu_inclination a with None => 1 | Some mu => splev mu b end)) [0%nat; 1%nat; 2%nat].
(** st:291-314 *)
Definition azimuthal_factors (a : args) (c : coupler) : vec :=
  match azimuth a with
  | None => fun _ => 0
  | Some z => if Req_EM_T z 0 then fun _ => 0 else fun i => IZR (m_mode c i) * z
  end.
(** st:256-263 *)
Definition stationary_lum_phase (phase lum : R) (az : vec) : R := phase + lum + (az 0%nat - (az 1%nat + az 2%nat)).
(** np.array of the attributes, ss:75-90 *)
Definition as_num (p : pval) : num := match p with PNone => None | PNum x => x end.

(** st:140-167 for a constructed object with a coupler *)
Definition solve (a : args) (s : solver) (c : coupler) (cc : option R) : res solution :=
  let q := q_factor (detuning a) (rates a) in
  let qc := q_critical (detuning a) (rates a) in
  let '(a1, a2, a3, ac) := amps cc (qf_products a) q qc in
  let d := disc_factors s in
  f1 <- fluctuation d 0 a1 ; f2 <- fluctuation d 1 a2 ; f3 <- fluctuation d 2 a3 ;
  h <- observer_hough a c ;
  let phase := relative_phase q in
  Ok (mkSolution [as_num a1; as_num a2; as_num a3] (map (fun fh => nmul (fst fh) (Some (snd fh))) (combine [f1; f2; f3] h))
        (rates a) (sum3 (rates a)) (detuning a) q qc ac (PNum (Some phase))
        (PNum (Some (stationary_lum_phase phase (rel_lum_phase d) (azimuthal_factors a c)))) (hyperbolic a) true).
(** st:97-188: construction and call. When the pre-checks are met but no solver object is given, the product of coupling coefficients
    is never stored and reading it raises. *)
Definition stationary (a : args) : res solution :=
  if pre a then
    match solver_object a with
    | None => Exc AttributeError
    | Some s =>
        cc <- get_cc_product (s_coupler s) ;
        match s_coupler s with None => Exc AttributeError | Some c => solve a s c cc end
    end
  else
    Ok (mkSolution [Some 0; Some 0; Some 0] [Some 0; Some 0; Some 0] (rates a) (sum3 (rates a)) (detuning a)
          (q_factor (detuning a) (rates a)) (q_critical (detuning a) (rates a)) PNone PNone PNone (hyperbolic a) false).
End Splines.
