(** * Model of the grid solver: one triad after the other, results kept in slots, state carried over.
    Sources: aesolver/aesolver/solver/quadratic_grid.py (qg), solver/solver_base_classes/quadratic_solver.py (qb),
    stationary_solving/generic/stationary_solve.py (ss), stationary_solving/three_mode/three_mode_stationary.py (st).
    The model loader, frequency handler, pre-checks, coupler, Jacobians and disc integrals enter as arbitrary functions of the
    loaded data (they are modelled in Freq_Model, PreCheck_Model, Coupling_Model, Stab_Model, Disc_Model); any of them may
    raise. Simplifications: exact real arithmetic; square roots of negative numbers (NaN in the code, possible only when
    the stability part of the pre-check is switched off) are 0; log messages and progress bars are dropped; the
    inclination and periastron arguments have their default None, as in the only call (qg:91-96). *)
From Coq Require Import Reals List String ZArith Bool.
From Coquelicot Require Import Coquelicot.
From Verif Require Import Base Py Stab_Model Stat_Model Saver_Model.
Import ListNotations.
Local Open Scope string_scope.

Definition orders := (Z * Z * Z)%type.
(** settings of a run that the loop reads *)
Record settings := mkSettings { polytrope : bool; adiabatic : bool; stat_solv : bool; rot_formalism : bool }.
(** the part of the frequency handler read by the solver *)
Record handler := mkHandler { h_freqs : freqs; h_rates : list R; h_gamma : R; h_detuning : R; h_products : list R; h_q : R; h_corot_w : list R }.

Section Solver.
Variable cfg : settings.
(** everything the model loader returns for one triad, and the coupling object *)
Variables data coupler : Type.
Variable load : orders -> res data.
Variable make_handler : data -> res handler.
Variable set_nonadiabatic : handler -> data -> res handler.
Variable two_mode : data -> res bool.
Variable stationary_check : data -> handler -> bool -> res bool.
Variable selection_check : data -> res bool.
Variable make_coupler : data -> handler -> res coupler.
Variable coupled_of : coupler -> coupled.
Variable jacobian_check : bool -> handler -> R -> res bool.
(** surface values of the GYRE files, three modes each: lag_L[-1] and xi_r[-1] / x[-1] *)
Variable lag_surface : data -> list C.
Variable xir_surface : data -> list C.
Variable disc_integrals : coupler -> res (list R * list R).

(** the attributes that survive from one triad to the next, and the result lists; a slot is None until it is written *)
Record state := mkState {
  s_coupler : option coupler; s_handler : option handler; s_data : option data;
  s_lag : option (list C); s_xir : option (list C); s_disc : option (list R * list R);
  l_couple : list (option (list cell)); l_freq : list (option (list cell)); l_hyper : list (option bool);
  l_stat : list (option (option dict)); l_stats : list (option (list cell)) }.
(** a computation that changes the state and may raise; the changes made before the exception stay *)
Definition M (A : Type) := state -> state * res A.
Definition ret {A} (a : A) : M A := fun s => (s, Ok a).
Definition bindM {A B} (m : M A) (k : A -> M B) : M B :=
  fun s => let (s', r) := m s in match r with Ok a => k a s' | Exc e => (s', Exc e) | UB => (s', UB) end.
Definition lift {A} (r : res A) : M A := fun s => (s, r).
Definition modify (f : state -> state) : M unit := fun s => (f s, Ok tt).
Definition gets {A} (f : state -> A) : M A := fun s => (s, Ok (f s)).
Notation "x <<- m ; k" := (bindM m (fun x => k)) (at level 60, m at next level, right associativity).
(** self.<attribute> that has not been assigned *)
Definition need {A} (o : option A) : M A := lift (match o with Some a => Ok a | None => Exc AttributeError end).
Fixpoint put_slot {A} (i : nat) (a : A) (l : list (option A)) : list (option A) :=
  match l, i with [], _ => [] | _ :: l', O => Some a :: l' | x :: l', S i' => x :: put_slot i' a l' end.

Definition set_data d s := mkState (s_coupler s) (s_handler s) (Some d) (s_lag s) (s_xir s) (s_disc s) (l_couple s) (l_freq s) (l_hyper s) (l_stat s) (l_stats s).
Definition set_handler h s := mkState (s_coupler s) (Some h) (s_data s) (s_lag s) (s_xir s) (s_disc s) (l_couple s) (l_freq s) (l_hyper s) (l_stat s) (l_stats s).
Definition set_coupler c s := mkState c (s_handler s) (s_data s) (s_lag s) (s_xir s) (s_disc s) (l_couple s) (l_freq s) (l_hyper s) (l_stat s) (l_stats s).
Definition set_lag v s := mkState (s_coupler s) (s_handler s) (s_data s) (Some v) (s_xir s) (s_disc s) (l_couple s) (l_freq s) (l_hyper s) (l_stat s) (l_stats s).
Definition set_xir v s := mkState (s_coupler s) (s_handler s) (s_data s) (s_lag s) (Some v) (s_disc s) (l_couple s) (l_freq s) (l_hyper s) (l_stat s) (l_stats s).
Definition set_disc v s := mkState (s_coupler s) (s_handler s) (s_data s) (s_lag s) (s_xir s) (Some v) (l_couple s) (l_freq s) (l_hyper s) (l_stat s) (l_stats s).
Definition set_couple i v s := mkState (s_coupler s) (s_handler s) (s_data s) (s_lag s) (s_xir s) (s_disc s) (put_slot i v (l_couple s)) (l_freq s) (l_hyper s) (l_stat s) (l_stats s).
Definition set_freq i v s := mkState (s_coupler s) (s_handler s) (s_data s) (s_lag s) (s_xir s) (s_disc s) (l_couple s) (put_slot i v (l_freq s)) (l_hyper s) (l_stat s) (l_stats s).
Definition set_hyper i v s := mkState (s_coupler s) (s_handler s) (s_data s) (s_lag s) (s_xir s) (s_disc s) (l_couple s) (l_freq s) (put_slot i v (l_hyper s)) (l_stat s) (l_stats s).
Definition set_stat i v s := mkState (s_coupler s) (s_handler s) (s_data s) (s_lag s) (s_xir s) (s_disc s) (l_couple s) (l_freq s) (l_hyper s) (put_slot i v (l_stat s)) (l_stats s).
Definition set_stats i v s := mkState (s_coupler s) (s_handler s) (s_data s) (s_lag s) (s_xir s) (s_disc s) (l_couple s) (l_freq s) (l_hyper s) (l_stat s) (put_slot i v (l_stats s)).

(** qb:425-556: the coupling object, or None when the stationary pre-check failed *)
Definition choose_coupler (d : data) (h : handler) (pre : bool) : res (option coupler) :=
  if rot_formalism cfg then
    if polytrope cfg || (pre && stat_solv cfg) || negb (stat_solv cfg) then (q <- make_coupler d h ; Ok (Some q)) else Ok None
  else Exc SystemExit.
(** qb:558-602 *)
Definition hyperbolicity (h : handler) (q : option coupler) (two : bool) : res bool :=
  if polytrope cfg then Ok true
  else match q with Some q => jacobian_check two h (ncc (coupled_of q)) | None => Ok false end.
(** multiplication of an array by an entry of the coupling tuple (numpy: a bool counts as 0 or 1, an array of three
    multiplies element by element) *)
Definition times_cell (l : list C) (c : cell) : res (list C) :=
  match c with
  | CBool b => Ok (map (fun z => (z * (if b then 1 else 0))%C) l)
  | CNum r => Ok (map (fun z => (z * RtoC r)%C) l)
  | CVec v => if (List.length v =? List.length l)%nat then Ok (map (fun zr => (fst zr * RtoC (snd zr))%C) (combine l v)) else Exc ValueError
  | _ => Exc TypeError
  end.
(** qb:699-757, 790-841: entry -3 of the coupling tuple *)
Definition additional_mode_info (i : nat) (d : data) : M unit :=
  info <<- gets (fun s => nth i (l_couple s) None) ; t <<- need info ;
  c <<- lift (py_get t (-3)) ;
  lag <<- lift (times_cell (lag_surface d) c) ; _ <<- modify (set_lag lag) ;
  xir <<- lift (times_cell (xir_surface d) c) ; _ <<- modify (set_xir xir) ;
  q <<- gets s_coupler ;
  match q with
  | Some q => v <<- lift (disc_integrals q) ; modify (set_disc v)
  | None => ret tt
  end.
(** qb:843-938 with qb:338-422 (loading), qb:425-556, qb:604-697 *)
Definition compute_coupling_one_triad (i : nat) (o : orders) : M bool :=
  d <<- lift (load o) ; _ <<- modify (set_data d) ;
  h0 <<- lift (make_handler d) ; _ <<- modify (set_handler h0) ;
  pt <<- (if polytrope cfg then (two <<- lift (two_mode d) ; ret (true, two, h0))
          else (h1 <<- lift (set_nonadiabatic h0 d) ; _ <<- modify (set_handler h1) ;
                two <<- lift (two_mode d) ;
                pre <<- lift (if stat_solv cfg then stationary_check d h1 two else selection_check d) ;
                ret (pre, two, h1))) ;
  let '(pre, two, h) := pt in
  q <<- lift (choose_coupler d h pre) ; _ <<- modify (set_coupler q) ;
  _ <<- modify (set_couple i (coupling_info (adiabatic cfg) (option_map coupled_of q))) ;
  _ <<- modify (set_freq i (mode_freq_info (polytrope cfg) (h_freqs h))) ;
  hy <<- lift (hyperbolicity h q two) ; _ <<- modify (set_hyper i hy) ;
  _ <<- (if polytrope cfg then ret tt else additional_mode_info i d) ;
  ret pre.

(** ss:76-81: moduli of tk * lum - ek * xir *)
Fixpoint disc_factors (tk ek : list R) (lum xir : list C) : list R :=
  match tk, ek, lum, xir with
  | t :: tk', e :: ek', l :: lum', x :: xir' => Cmod (RtoC t * l - RtoC e * x)%C :: disc_factors tk' ek' lum' xir'
  | _, _, _, _ => []
  end.
(** np.angle of a real number *)
Definition angle (r : R) : R := if Rlt_dec r 0 then PI else 0%R.
(** np.sqrt(x)/2 etc.: st:209-231, from Stat_Model *)
Definition amps3 (a : amplitudes) : list R := [a1 a; a2 a; a3 a].
(** st:94-188, 190-270 and ss:50-99: the stationary solution of the triad the solver has just loaded *)
Definition three_mode_stationary (pre : bool) (i : nat) : M dict :=
  hh <<- gets s_handler ; h <<- need hh ;
  hy <<- gets (fun s => nth i (l_hyper s) None) ; hyper <<- need hy ;
  let q := (h_detuning h / h_gamma h)%R in
  let qc := (h_detuning h / (nth 1 (h_rates h) 0 + nth 2 (h_rates h) 0))%R in
  if pre then
    qq <<- gets s_coupler ; lag' <<- gets s_lag ; xir' <<- gets s_xir ; disc' <<- gets s_disc ;
    lag <<- need lag' ; xir <<- need xir' ; disc <<- need disc' ; cp <<- need qq ;
    let a := theoretical_amps (h_products h) (Rabs (elcc (coupled_of cp)) ^ 2)%R q qc in
    let f := disc_factors (fst disc) (snd disc) lag xir in
    let flucs := map (fun af => (fst af * Rabs (snd af))%R) (combine (amps3 a) f) in
    let lum := (angle (nth 0 f 0) - (angle (nth 1 f 0) + angle (nth 2 f 0)))%R in
    let phase := relative_phase q in
    ret (stat_dict (mkStat (Some (mkSolved (amps3 a) flucs (Stat_Model.acrit a) phase (phase + lum + 0)%R)) (h_rates h) (h_gamma h) (h_detuning h) q qc hyper))
  else ret (stat_dict (mkStat None (h_rates h) (h_gamma h) (h_detuning h) q qc hyper)).

(** qg:77-106 *)
Definition grid_step (i : nat) (o : orders) : M unit :=
  pre <<- compute_coupling_one_triad i o ;
  if polytrope cfg then modify (set_stat i None)
  else (d <<- three_mode_stationary pre i ; modify (set_stat i (Some d))).
Fixpoint grid_loop (i : nat) (os : list orders) : M unit :=
  match os with [] => ret tt | o :: os' => _ <<- grid_step i o ; grid_loop (S i) os' end.
(** qg:109-127 *)
Fixpoint store_statistics (i : nat) (os : list orders) : M unit :=
  match os with [] => ret tt | o :: os' => _ <<- modify (set_stats i (coupling_stat o)) ; store_statistics (S i) os' end.
(** qg:63-76: placeholders; nothing else is assigned before the first triad *)
Definition fresh (n : nat) : state :=
  mkState None None None None None None (repeat None n) (repeat None n) (repeat None n) (repeat None n) (repeat None n).
Definition grid_run (os : list orders) : M unit := _ <<- grid_loop 0 os ; store_statistics 0 os.
End Solver.

(** data_handling/storer.py 237-258: the result lists are handed to the saver; an unwritten slot is an empty tuple or
    dictionary there, whose unpacking raises (IndexError or KeyError; IndexError here) *)
Fixpoint all_written {A} (l : list (option A)) : res (list A) :=
  match l with [] => Ok [] | Some a :: l' => (r <- all_written l' ; Ok (a :: r)) | None :: _ => Exc IndexError end.
Definition read_solver {data coupler} (c : config) (os : list orders) (s : state data coupler) : res results :=
  st <- all_written (l_stat _ _ s) ; cp <- all_written (l_couple _ _ s) ; sts <- all_written (l_stats _ _ s) ; fr <- all_written (l_freq _ _ s) ;
  Ok (mkResults (c_poly c) st cp sts fr (c_l c) (c_m c) os (c_method c) (c_use_cheby c) (c_order_mul c) (c_blow_up c) (c_blow_fac c)).
