(** * Model of the pre-checks and of the gate in front of the coupling computation.
    Sources (aesolver/aesolver/): pre_checks/generic/generic_quadratic_checks.py (ge),
    pre_checks/specific/three_mode_checks.py (tm), solver/quadratic_solver.py (qs).
    Simplifications: a mode dictionary is the record of the entries these functions
    read; driving rates are reals (see Stab_Model); missing dictionary keys (sys.exit)
    are not modelled. *)
From Coq Require Import List ZArith Reals Bool.
From Verif Require Import Base Py Stab_Model.
Import ListNotations.
Local Open Scope Z_scope.
Local Open Scope res_scope.

Record mode := mkMode { ml : Z; mm : Z; mn : Z }.

(** ge:34-36, 60: the conjugation argument: None, a list starting with a bool, or a
    list of tuples of bools *)
Inductive conj_arg := ConjNone | ConjBools (first : bool) (rest : list bool) | ConjTuples (l : list (list bool)).

(** ge:58-61. [conjugation[0]] on an empty list raises IndexError. *)
Definition conj_triads (c : conj_arg) : res (list (list bool)) :=
  match c with
  | ConjNone | ConjBools _ _ => Ok [[true; false; false]]
  | ConjTuples [] => Exc IndexError
  | ConjTuples l => Ok l
  end.
(** ge:125-151 *)
Definition mode_attr (attr : mode -> Z) (gyre_ad : list mode) (triad : list Z) : res (list Z) :=
  mapM (fun g => x <- py_get gyre_ad (g - 1) ; Ok (attr x)) triad.
(** ge:227-242 *)
Definition k_grav_in (l m : Z) : Z := l - Z.abs m.
(** ge:154-178: indexes the triad's own lists of three by the mode numbers again *)
Definition meridional_orders (l_list m_list triad : list Z) : res (list Z) :=
  mapM (fun mnr => l <- py_get l_list (mnr - 1) ; m <- py_get m_list (mnr - 1) ; Ok (k_grav_in l m)) triad.
(** ge:109-122, for one triad: (l, m, k) lists *)
Definition relevant_info (gyre_ad : list mode) (triad : list Z) : res (list Z * list Z * list Z) :=
  ll <- mode_attr ml gyre_ad triad ; mml <- mode_attr mm gyre_ad triad ; kl <- meridional_orders ll mml triad ; Ok (ll, mml, kl).
(** ge:182-197 *)
Definition conjer_m (c : bool) (m : Z) : Z := if c then - m else m.
(** ge:200-223: map over two iterables stops at the shorter one *)
Fixpoint adapt_conj (cs : list bool) (ms : list Z) : list Z :=
  match cs, ms with c :: cs', m :: ms' => conjer_m c m :: adapt_conj cs' ms' | _, _ => [] end.
Definition zsum (l : list Z) : Z := fold_left Z.add l 0.
(** ge:246-268 *)
Definition azimuthal_rule (m_list : list Z) (c : list bool) : bool := zsum (adapt_conj c m_list) =? 0.
(** ge:271-285. Python's % with positive divisor is Coq's Z.modulo. *)
Definition meridional_rule (k_list : list Z) : bool := (zsum k_list mod 2) =? 0.
(** ge:288-308 (list of per-triad results; [and] does not evaluate its second operand
    when the first is False, which has no side effect here) *)
Definition rule_checks (infos : list (list Z * list Z * list Z)) (cs : list (list bool)) : res (list bool) :=
  mapM (fun i => c <- py_get cs (Z.of_nat i) ;
                 info <- py_get infos (Z.of_nat i) ;
                 Ok (azimuthal_rule (snd (fst info)) c && meridional_rule (snd info))) (seq 0 (List.length infos)).
(** constructor + generic_check() with all_fulfilled=True *)
Definition generic_check (gyre_ad : list mode) (triads : option (list (list Z))) (c : conj_arg) : res bool :=
  let ts := match triads with Some t => t | None => [[1; 2; 3]] end in
  cs <- conj_triads c ;
  infos <- mapM (relevant_info gyre_ad) ts ;
  bs <- rule_checks infos cs ;
  Ok (forallb (fun b => b) bs).

Local Open Scope R_scope.
(** tm:34-56, 160-172 *)
Definition check_parametric (g : vec) : bool := Rltb 0 (g 0%nat) && (Rltb (g 1%nat) 0 && Rltb (g 2%nat) 0).
(** tm:59-80, 174-186 *)
Definition check_direct (g : vec) : bool := Rltb (g 0%nat) 0 && (Rltb 0 (g 1%nat) && Rltb 0 (g 2%nat)).
(** tm:83-100, 188-196 (three rates) *)
Definition check_driven (g : vec) : bool := Rltb 0 (g 0%nat) && (Rltb 0 (g 1%nat) && Rltb 0 (g 2%nat)).
(** tm:199-238 *)
Definition linearly_stable (two_mode : bool) (g : vec) (q : R) : bool :=
  if check_parametric g then
    if two_mode then two_mode_parametric g q
    else gamma_sum_stability g && corrected_dziembowski g q
  else if check_direct g then
    if two_mode then two_mode_direct g else false
  else false.
(** tm:241-258 with the constructor call of qs:1189-1199 *)
Definition three_mode_check (gyre_ad : list mode) (triads : option (list (list Z))) (c : conj_arg) (two_mode : bool) (g : vec) (q : R) : res bool :=
  gen <- generic_check gyre_ad triads c ;
  Ok (gen && linearly_stable two_mode g q).

(** qs:1236-1255 *)
Definition two_mode_sum (gyre_ad : list mode) : res bool :=
  m2 <- py_get gyre_ad 1%Z ; m3 <- py_get gyre_ad 2%Z ;
  Ok ((mm m2 =? mm m3)%Z && (mn m2 =? mn m3)%Z && (ml m2 =? ml m3)%Z).

(** qs:215: terms_cc_conj : tuple | bool | None *)
Inductive cc_conj := CcNone | CcBool (b : bool) | CcTuple (l : list bool).
Record solver_conf := mkConf { polytrope : bool; stat_solv : bool; terms_cc_conj : cc_conj }.
(** qs:1193-1195, 1207-1209 *)
Definition conf_conj (cf : solver_conf) : conj_arg :=
  match terms_cc_conj cf with CcNone => ConjNone | CcBool b => ConjBools b [] | CcTuple c => ConjTuples [c] end.
(** qs:1138-1232: whether the pre-check is satisfied *)
Definition precheck (cf : solver_conf) (modes : list mode) (g : vec) (q : R) : res bool :=
  if polytrope cf then (_ <- two_mode_sum modes ; Ok true)
  else
    two <- two_mode_sum modes ;
    if stat_solv cf then three_mode_check modes (Some [[1; 2; 3]%Z]) (conf_conj cf) two g q
    else generic_check modes (Some [[1; 2; 3]%Z]) (conf_conj cf).
(** qs:617-712: whether a coupling object is created *)
Definition coupler_created (cf : solver_conf) (precheck_satisfied : bool) : bool :=
  if polytrope cf then true else (precheck_satisfied && stat_solv cf) || negb (stat_solv cf).
Definition triad_computed (cf : solver_conf) (modes : list mode) (g : vec) (q : R) : res bool :=
  p <- precheck cf modes g q ; Ok (coupler_created cf p).
