(** * Model of the quadratic coupling coefficients (rotating, adiabatic).
    Sources, cited as
    qc = aesolver/aesolver/coupling_coefficients/quadratic_coupling_coefficient_rotating.py
    hi = aesolver/aesolver/angular_integration/rotating_tar_angular/hough_integration.py
    cr = aesolver/aesolver/coupling_coefficients/coefficient_support_classes/coupling_coefficient_rotating.py
    ct = hough-func-tools/cheby_transform/cheby_transform.py
    hf = hough-func-tools/hough_function/hough_function.py.
    Simplifications: exact real arithmetic; the numpy arrays of the coupling
    object are functions of the grid index together with the common grid size
    (all radial arrays have the size of [_x], all angular arrays the size of
    [_mu_values]); the attributes [_<name>_mode_<i>] are the functions [e_rad],
    [e_ang] applied to the name and the mode number; the radial profiles are
    complex-valued as [_rad_int] stores them; [cni.integrate] with the object's
    method and thread settings is the function [e_integ] of the equal-spacing flag,
    the integrand and the variable (its own model is NumInt_Model); logging and
    debug printing are left out. *)
From Coq Require Import Reals List ZArith Bool Lia Lra.
From Coquelicot Require Import Complex.
From Verif Require Import Base Py.
Import ListNotations.
Local Open Scope R_scope.
Local Open Scope res_scope.

(** the radial attribute names used by the coupler, qc:1403-1850 *)
Inductive rterm :=
| RDerXZ1        (* '_rad_der_x_z_1' *)
| RDerXZ2c       (* '_rad_der_x_z_2_c_1_omega' *)
| RDiverg        (* '_rad_diverg' *)
| RZ1            (* '_z_1' *)
| RZ2c           (* '_z_2_over_c_1_omega' *)
| RXZ1           (* '_x_z_1' *)
| RXZ2c.         (* '_x_z_2_over_c_1_omega' *)

(** the angular attribute names used by the coupler, qc:1403-1850 *)
Inductive aterm :=
| Hr | Ht | Hp | DHr (* theta_der_hr_theta *) | DHt (* theta_der_ht_theta *)
| DHp (* theta_der_hp_theta *) | ThPh (* theta_phi *) | PhPh (* phi_phi *) | MHr (* mhr *).

Scheme Equality for rterm.
Scheme Equality for aterm.

(** the values [conj_cc] / [conj] can take, qc:304, hi:265 *)
Inductive conj_arg := ConjNone | ConjBool (b : bool) | ConjTuple (l : list bool) | ConjOther.

(** a coupling object after its initialisation: the attributes that the
    coefficient computation reads *)
Record cenv := {
  e_n : nat;                               (* self._x.shape[0] *)
  e_x : nat -> R;                          (* self._x *)
  e_nmu : nat;                             (* self._mu_values.shape[0] *)
  e_mu : nat -> R;                         (* self._mu_values *)
  e_rad : rterm -> nat -> nat -> C;        (* radial term, mode number, grid index *)
  e_ang : aterm -> nat -> nat -> R;        (* angular term, mode number, grid index *)
  e_m : list Z;                            (* self._m_list *)
  e_conj : conj_arg;                       (* self._conj_cc *)
  e_self : bool;                           (* self._self_coupling *)
  e_complex : bool;                        (* self._use_complex *)
  e_cheby : bool;                          (* self._use_cheby *)
  e_cheby_mul : nat;                       (* self._cheby_order_mul *)
  e_blow : bool;                           (* self._cheby_blow_up *)
  e_blow_fac : R;                          (* self._cheby_blow_up_fac *)
  e_poly : bool;                           (* self._use_polytropic *)
  e_P : nat -> R;                          (* self._P_normed *)
  e_G1 : nat -> R;                         (* self._Gamma_1 *)
  e_rhon : nat -> R;                       (* self._rho_normed *)
  e_rho : nat -> R;                        (* self._rho *)
  e_adder : option (nat -> R);             (* self._gamma_1_adDer_profile, if present *)
  e_g1 : nat -> R;                         (* self._dgravpot *)
  e_g2 : nat -> R;                         (* self._dgravpot2 *)
  e_g3 : nat -> R;                         (* self._dgravpot3 *)
  e_normP : R; e_normrho : R; e_R : R;     (* self._norm_P, self._norm_rho, self._R_star *)
  e_corot : nat -> R;                      (* corot_mode_omegas[mode_nr - 1] by mode number *)
  e_surf : R;                              (* surf_rot_angular_freq *)
  e_integ : bool -> list R -> list R -> R  (* cni.integrate(method, equally_spaced, y, x, ...) *)
}.

(** the array with value [f i] at index [i], of size [n] *)
Definition tab (n : nat) (f : nat -> R) : list R := map f (seq 0 n).

(** ** Azimuthal part *)
(** hi:33-48, conjugator() *)
Definition conjugator (m : Z) (c : bool) : Z := if c then (- m)%Z else m.
(** hi:61-74, _phi_m_selection_rule() *)
Definition phi_rule (ms : list Z) : bool := (fold_left Z.add ms 0 =? 0)%Z.
(** map(conjugator, m_list, conj) stops at the shorter argument, hi:293 *)
Fixpoint map2 {A B C} (f : A -> B -> C) (l : list A) (k : list B) : list C :=
  match l, k with a :: l', b :: k' => f a b :: map2 f l' k' | _, _ => [] end.
(** hi:264-301, _adapt_to_complex_conjugation() *)
Definition adapt_conj (c : conj_arg) (ms : list Z) : res (list Z) :=
  match c with
  | ConjNone => Ok ms
  | ConjTuple l =>
      if negb (length l =? 3)%nat then Exc SystemExit else Ok (map2 conjugator ms l)
  | ConjBool b => m0 <- py_get ms 0 ; Ok (conjugator m0 b :: tl ms)
  | ConjOther => Exc SystemExit
  end.
(** qc:312, self._conj_cc = conj_cc if conj_cc else (True, False, False) *)
Definition init_conj (c : conj_arg) : conj_arg :=
  match c with
  | ConjNone | ConjBool false | ConjTuple [] => ConjTuple [true; false; false]
  | _ => c
  end.

(** ** Theta part *)
(** scipy.interpolate.interp1d(x, y)(q), linear, default bounds_error, ascending [x]
    of size n, used at hi:186-190 and 224-230: a query outside the grid raises ValueError
    (None); inside, the segment is searchsorted(x, q) clipped to 1..n-1. *)
Definition interp1d (n : nat) (x y : nat -> R) (q : R) : option R :=
  if Rlt_dec q (x 0%nat) then None else if Rlt_dec (x (n - 1)%nat) q then None
  else
    let k := length (filter (fun i => if Rlt_dec (x i) q then true else false) (seq 0 n)) in
    let hi_ := Nat.min (Nat.max k 1) (n - 1) in
    let lo := (hi_ - 1)%nat in
    Some ((y hi_ - y lo) / (x hi_ - x lo) * (q - x lo) + y lo).
(** all values of a list of options, None as soon as one is *)
Fixpoint all_some (l : list (option R)) : option (list R) :=
  match l with
  | [] => Some []
  | Some a :: l' => match all_some l' with Some k => Some (a :: k) | None => None end
  | None :: _ => None
  end.
Definition rsum (l : list R) : R := fold_right Rplus 0 l.
(** hi:77-114, _chebyshev_gauss_quad(): nodes cos(pi (2 i - 1) / (2 order)), i = 1..order
    (the argument is already in (0, pi), so np.mod(., 2 pi) leaves it unchanged) *)
Definition cheby_node (order : nat) (i : nat) : R :=
  cos (PI * (2 * INR (i + 1) - 1) / (2 * INR order)).
Definition cheby_gauss (f : R -> option R) (order : nat) : option R :=
  let weight := PI / INR order in
  match all_some (map (fun i => f (cheby_node order i)) (seq 0 order)) with
  | Some vs => Some (rsum (map (Rmult weight) vs))
  | None => None
  end.
(** np.sqrt(1.0 - mu ** 2.0), hi:187 *)
Definition sin_mu (mu : nat -> R) (i : nat) : R := sqrt (1 - mu i * mu i).

(** the attributes named by [descrips]: (angular name, mode number), hi:164-175; the
    product over them *)
Definition ang_prod (E : cenv) (ds : list (aterm * nat)) (i : nat) : R :=
  fold_left (fun p d => p * e_ang E (fst d) (snd d) i) ds 1.

(** hi:118-260, _compute_theta_integral() *)
Definition theta_integral (E : cenv) (ds : list (aterm * nat)) (div_by_sin mul_with_mu : bool) : res R :=
  let n := e_nmu E in
  let mu := e_mu E in
  let integrand := fun i => if mul_with_mu then ang_prod E ds i * mu i else ang_prod E ds i in
  let cheby :=
    cheby_gauss (interp1d n mu (fun i => if div_by_sin then integrand i
                                         else integrand i * sin_mu mu i))
                (e_cheby_mul E * n) in
  let regular :=
    e_integ E true (tab n (fun i => if div_by_sin then integrand i / sin_mu mu i else integrand i))
                   (tab n mu) in
  if e_cheby E then
    match cheby with None => Exc SystemExit | Some r => Ok r end
  else if e_blow E then
    if Rlt_dec (e_blow_fac E) regular then
      match cheby with Some r => Ok r | None => Ok regular end
    else Ok regular
  else Ok regular.

(** hi:305-382, quadratic_angular_integral(): [ml] is m_list_for_azimuthal_check *)
Definition angular_integral (E : cenv) (ds : list (aterm * nat)) (ml : option (list Z))
    (only_theta : bool) (cj : conj_arg) (div_by_sin mul_with_mu : bool) : res R :=
  pre <- (match only_theta, ml with
          | true, _ | _, None => Ok true
          | false, Some ms => a <- adapt_conj cj ms ; Ok (phi_rule a)
          end) ;
  if (pre : bool) then
    t <- theta_integral E ds div_by_sin mul_with_mu ; Ok (2 * PI * t)
  else Ok 0.

(** ** Radial part *)
(** qc:1240-1334 with self._radint of qc:327-331: the real integral keeps the real part;
    the complex one computes both parts, each a scalar, and then reads [_imag.shape] *)
Definition radint (E : cenv) (integrand : nat -> C) (stop : nat) : res R :=
  if e_complex E then Exc AttributeError
  else Ok (e_integ E false (firstn stop (tab (e_n E) (fun i => fst (integrand i))))
                           (firstn stop (tab (e_n E) (e_x E)))).
(** qc:665-700, _rad_int(); [t1], [t2], [t3] belong to modes 1, 2, 3; [stop] is the stop of
    the slice [:stop] (the full slice is [e_n E]) *)
Definition rad_int (E : cenv) (t : rterm * rterm * rterm) (mult : nat -> R) (stop : nat) : res R :=
  let '(t1, t2, t3) := t in
  radint E (fun i => (e_rad E t1 1%nat i * e_rad E t2 2%nat i * e_rad E t3 3%nat i
                      * RtoC (mult i) * RtoC (e_x E i * e_x E i))%C) stop.

(** ** Symmetrisation *)
(** list(itertools.permutations((a, b, c))), qc:747 *)
Definition permutations3 {A} (t : A * A * A) : list (A * A * A) :=
  let '(a, b, c) := t in
  [(a, b, c); (a, c, b); (b, a, c); (b, c, a); (c, a, b); (c, b, a)].
(** operator_dict[key].append(i) on a defaultdict(list) in insertion order, qc:749-751 *)
Fixpoint dict_append {K} (eqb : K -> K -> bool) (d : list (K * list nat)) (k : K) (i : nat) :=
  match d with
  | [] => [(k, [i])]
  | (k', l) :: d' => if eqb k k' then (k', l ++ [i]) :: d' else (k', l) :: dict_append eqb d' k i
  end.
(** qc:731-753, _symmetry_mapping() *)
Definition symmetry_mapping {A} (eqb : A * A * A -> A * A * A -> bool) (t : A * A * A)
  : list (A * A * A * list nat) :=
  fst (fold_left (fun s tup => (dict_append eqb (fst s) tup (snd s), S (snd s)))
                 (permutations3 t) ([], 0%nat)).
(** arr[index_list] = v for an array of 6 entries, None = uninitialised (np.empty) *)
Definition assign_all (l : list nat) (v : R) (arr : list (option R)) : list (option R) :=
  fold_left (fun a i => upd a i (Some v)) l arr.
(** the loop "for key, index in dict.items(): arr[index] = factor * integral(key)",
    qc:793-822 etc. *)
Fixpoint fill_dict {K} (f : K -> res R) (d : list (K * list nat)) (arr : list (option R))
  : res (list (option R)) :=
  match d with
  | [] => Ok arr
  | (k, idx) :: d' => v <- f k ; fill_dict f d' (assign_all idx v arr)
  end.
(** reading an array of np.empty: an entry that was never assigned is UB *)
Definition filled (arr : list (option R)) : res (list R) :=
  match all_some arr with Some l => Ok l | None => UB end.
(** one result column: np.empty(6) filled through the symmetry mapping *)
Definition column {A} (eqb : A * A * A -> A * A * A -> bool) (f : A * A * A -> res R)
    (t : A * A * A) : res (list R) :=
  arr <- fill_dict f (symmetry_mapping eqb t) (repeat None 6) ; filled arr.

Definition triple_eqb {A} (eqb : A -> A -> bool) (s t : A * A * A) : bool :=
  let '(a, b, c) := s in let '(a', b', c') := t in eqb a a' && eqb b b' && eqb c c'.

(** angular terms with their div_by_sin flags, and radial terms: a single list of names
    or a list of such lists (the dispatch of qc:756-1062) *)
Inductive ang_terms :=
| ASingle (t : aterm * aterm * aterm) (div : bool)
| AMulti (ts : list (aterm * aterm * aterm)) (divs : list bool).
Inductive rad_terms :=
| RSingle (t : rterm * rterm * rterm)
| RMulti (ts : list (rterm * rterm * rterm)).

(** the angular integral of a triple of names, mapped to modes 1, 2, 3 (qc:703-727) *)
Definition ang_int (E : cenv) (div : bool) (t : aterm * aterm * aterm) : res R :=
  let '(a, b, c) := t in
  angular_integral E [(a, 1%nat); (b, 2%nat); (c, 3%nat)] (Some (e_m E)) false (e_conj E) div false.

(** the columns ang_factor[_i] * integral, one per list of angular names, qc:961-983 *)
Fixpoint ang_columns (E : cenv) (ts : list (aterm * aterm * aterm)) (i : Z) (divs : list bool) (fac : list R)
  : res (list (list R)) :=
  match ts with
  | [] => Ok []
  | t :: ts' =>
      c <- column (triple_eqb aterm_beq)
             (fun key => f <- py_get fac i ; d <- py_get divs i ; v <- ang_int E d key ; Ok (f * v)) t ;
      cs <- ang_columns E ts' (i + 1) divs fac ; Ok (c :: cs)
  end.
(** the columns rad_factor[_i] * integral, qc:1050-1060 *)
Fixpoint rad_columns (E : cenv) (ts : list (rterm * rterm * rterm)) (i : Z) (mult : nat -> R) (fac : list R) (stop : nat)
  : res (list (list R)) :=
  match ts with
  | [] => Ok []
  | t :: ts' =>
      c <- column (triple_eqb rterm_beq)
             (fun key => f <- py_get fac i ; v <- rad_int E key mult stop ; Ok (f * v)) t ;
      cs <- rad_columns E ts' (i + 1) mult fac stop ; Ok (c :: cs)
  end.
(** entry j of the sum over columns *)
Definition row_sum (cols : list (list R)) (j : nat) : R := rsum (map (fun c => nth j c 0) cols).
(** np.dot(ang, rad), (rad * ang[:, None]).sum(), (rad[:, None] * ang).sum() and
    einsum('ji,jk->ik', rad, ang).sum() are all this double sum in exact arithmetic,
    qc:824, 903, 984, 1062 *)
Definition contract (rc ac : list (list R)) : R :=
  rsum (map (fun j => row_sum rc j * row_sum ac j) (seq 0 6)).

(** qc:756-1062, _overloaded_symmetry_determiner(): the single-list forms use factor[0] and
    one column; the radial integrals come first in the variant of qc:905-984 *)
Definition determiner (E : cenv) (at_ : ang_terms) (rt : rad_terms) (mult : nat -> R)
    (afac rfac : list R) (stop : nat) : res R :=
  match at_, rt with
  | ASingle a d, RSingle r =>
      ac <- ang_columns E [a] 0 [d] afac ; rc <- rad_columns E [r] 0 mult rfac stop ; Ok (contract rc ac)
  | ASingle a d, RMulti rs =>
      ac <- ang_columns E [a] 0 [d] afac ; rc <- rad_columns E rs 0 mult rfac stop ; Ok (contract rc ac)
  | AMulti as_ ds, RSingle r =>
      rc <- rad_columns E [r] 0 mult rfac stop ; ac <- ang_columns E as_ 0 ds afac ; Ok (contract rc ac)
  | AMulti as_ ds, RMulti rs =>
      ac <- ang_columns E as_ 0 ds afac ; rc <- rad_columns E rs 0 mult rfac stop ; Ok (contract rc ac)
  end.

(** zip(angular_terms, div_by_sin) of the self-coupling branch, qc:1113-1133 *)
Fixpoint sum_ang (E : cenv) (l : list ((aterm * aterm * aterm) * bool)) (acc : R) : res R :=
  match l with
  | [] => Ok acc
  | (t, d) :: l' => v <- ang_int E d t ; sum_ang E l' (acc + v)
  end.
Fixpoint sum_rad (E : cenv) (l : list (rterm * rterm * rterm)) (mult : nat -> R) (stop : nat) (acc : R) : res R :=
  match l with
  | [] => Ok acc
  | t :: l' => v <- rad_int E t mult stop ; sum_rad E l' mult stop (acc + v)
  end.
(** qc:1065-1185, _symmetrization_s_term_integral() *)
Definition s_term (E : cenv) (rt : rad_terms) (mult : nat -> R) (at_ : ang_terms)
    (afac rfac : list R) (stop : nat) : res R :=
  if e_self E then
    a <- (match at_ with
          | AMulti ts ds => sum_ang E (combine ts ds) 0
          | ASingle t d => ang_int E d t
          end) ;
    if Req_EM_T a 0 then Ok 0
    else
      r <- (match rt with
            | RMulti ts => sum_rad E ts mult stop 0
            | RSingle t => rad_int E t mult stop
            end) ;
      Ok (r * a * 6)
  else determiner E at_ rt mult afac rfac stop.

(** ** Norms and energies *)
Definition pow2C (z : C) : C := (z * z)%C.
(** one (angular, radial) contribution of qc:1205-1235 *)
Definition trad_contrib (E : cenv) (mode : nat) (h : aterm) (r : rterm) : res R :=
  a <- angular_integral E [(h, mode); (h, mode)] None false (ConjBool false) false false ;
  b <- radint E (fun i => (RtoC (e_x E i * e_x E i * e_rhon E i) * pow2C (e_rad E r mode i))%C) (e_n E) ;
  Ok (a * b).
(** qc:1188-1237, _compute_traditional_norms_modes(): the stored _classic_norm_mode *)
Definition classic_norm (E : cenv) (mode : nat) : res R :=
  c1 <- trad_contrib E mode Hr RXZ1 ;
  c2 <- trad_contrib E mode Ht RXZ2c ;
  c3 <- trad_contrib E mode Hp RXZ2c ;
  Ok ((0 + c1 + c2 + c3) * 2 * PI).
(** qc:1344-1399, compute_b_a_mode_energy(): (classic norm, b_a, energy) of one mode *)
Definition b_a_energy (E : cenv) (mode : nat) : res (R * R * R) :=
  let pref := e_normrho E * e_R E ^ 5 in
  cn <- classic_norm E mode ;
  ca <- angular_integral E [(Ht, mode); (Hp, mode)] None false ConjNone false true ;
  cr <- radint E (fun i => (RtoC (e_rhon E i * (e_x E i * e_x E i)) * pow2C (e_rad E RXZ2c mode i))%C) (e_n E) ;
  let cor := cr * ca * 8 * PI * e_surf E in
  let w := e_corot E mode in
  let b_a := (cor + 2 * w * cn) * pref in
  Ok (cn, b_a, w * b_a).

(** ** The four coefficient terms *)
(** qc:1403-1499, _kappa_1_abc() *)
Definition kappa_1 (E : cenv) (stop : nat) : res R :=
  let mult := fun i => e_P E i * (e_G1 E i - 1) in
  let dim := e_normP E * e_R E ^ 3 in
  s1 <- s_term E (RSingle (RDerXZ1, RDerXZ1, RDiverg)) mult (ASingle (Hr, Hr, Hr) false) [1] [1] stop ;
  s2 <- s_term E (RSingle (RZ2c, RZ2c, RDiverg)) mult
          (AMulti [(DHt, DHt, Hr); (PhPh, PhPh, Hr); (ThPh, DHp, Hr)] [false; false; true])
          [1; 1; -2] [1] stop ;
  s3 <- s_term E (RSingle (RZ1, RZ1, RDiverg)) mult (ASingle (Hr, Hr, Hr) false) [1] [1] stop ;
  s4 <- s_term E (RSingle (RZ2c, RZ1, RDiverg)) mult
          (AMulti [(DHt, Hr, Hr); (PhPh, Hr, Hr)] [false; false]) [1; 1] [1] stop ;
  s5 <- s_term E (RSingle (RZ1, RDerXZ2c, RDiverg)) mult
          (AMulti [(DHr, Ht, Hr); (MHr, Hp, Hr)] [false; true]) [1; -1] [1] stop ;
  s6 <- s_term E (RSingle (RDiverg, RZ2c, RDerXZ2c)) mult
          (AMulti [(Hr, Ht, Ht); (Hr, Hp, Hp)] [false; false]) [-1; 1] [1] stop ;
  let total := 1 / 2 * s1 + 1 / 2 * s2 + s3 + s4 + s5 + s6 in
  Ok (1 / 2 * total * dim).
(** qc:1502-1563, _kappa_2_abc() *)
Definition kappa_2 (E : cenv) (stop : nat) : res R :=
  let gam := fun i => (e_G1 E i - 1) * (e_G1 E i - 1) in
  let mult := fun i =>
    if e_poly E then e_P E i * gam i
    else match e_adder E with
         | Some ad => e_P E i * (gam i + e_rho E i * ad i)
         | None => e_P E i * gam i
         end in
  let dim := e_normP E * e_R E ^ 3 in
  r <- rad_int E (RDiverg, RDiverg, RDiverg) mult stop ;
  a <- ang_int E false (Hr, Hr, Hr) ;
  Ok (r * a * (1 / 2) * dim).
(** qc:1566-1786, _kappa_3_abc() *)
Definition kappa_3 (E : cenv) (stop : nat) : res R :=
  let mult := e_P E in
  let dim := e_normP E * e_R E ^ 3 in
  s1 <- s_term E (RSingle (RDerXZ1, RZ1, RDerXZ2c)) mult
          (AMulti [(Hr, DHr, Ht); (Hr, MHr, Hp)] [false; true]) [1; -1] [1] stop ;
  s2 <- s_term E (RSingle (RDerXZ1, RZ2c, RDerXZ2c)) mult
          (AMulti [(Hr, Ht, Ht); (Hr, Hp, Hp)] [false; false]) [-1; 1] [1] stop ;
  s3 <- s_term E (RSingle (RZ1, RZ1, RDerXZ2c)) mult
          (AMulti [(DHr, Hr, Ht); (MHr, Hr, Hp)] [false; true]) [1; -1] [1] stop ;
  s4 <- s_term E (RSingle (RZ1, RZ2c, RDerXZ2c)) mult
          (AMulti [(Hr, Ht, Ht); (DHr, DHt, Ht); (Hr, Hp, Hp); (MHr, PhPh, Hp); (MHr, DHp, Ht); (DHr, ThPh, Hp)]
                  [false; false; false; true; true; true]) [-1; 1; 1; -1; -1; -1] [1] stop ;
  s5 <- s_term E (RSingle (RZ2c, RZ2c, RDerXZ2c)) mult
          (AMulti [(Ht, DHt, Ht); (Hp, PhPh, Hp); (Hp, DHp, Ht); (ThPh, Ht, Hp)]
                  [false; false; false; true]) [-1; 1; 1; 1] [1] stop ;
  s6 <- s_term E (RSingle (RZ1, RZ2c, RZ2c)) mult
          (AMulti [(Hr, ThPh, DHp); (Hr, PhPh, PhPh); (Hr, DHt, DHt)] [true; false; false])
          [-2; 1; 1] [1] stop ;
  s7 <- s_term E (RSingle (RZ2c, RZ2c, RZ2c)) mult
          (AMulti [(DHt, ThPh, DHp); (DHp, ThPh, PhPh)] [true; true]) [-1; -1] [1] stop ;
  s8 <- s_term E (RSingle (RZ1, RZ1, RZ2c)) mult
          (AMulti [(Hr, Hr, DHt); (Hr, Hr, PhPh)] [false; false]) [1; 1] [1] stop ;
  let symmetric := s1 + s2 + s3 + s4 + s5 + s6 + s7 + s8 in
  q1 <- rad_int E (RDerXZ1, RDerXZ1, RDerXZ1) mult stop ;
  let rad_1 := 2 * q1 in
  q2 <- rad_int E (RZ1, RZ1, RZ1) mult stop ;
  let rad_2 := 4 * q2 in
  ang_1_2 <- ang_int E false (Hr, Hr, Hr) ;
  q3 <- rad_int E (RZ2c, RZ2c, RZ2c) mult stop ;
  let rad_3_4 := 2 * q3 in
  ang_3 <- ang_int E false (PhPh, PhPh, PhPh) ;
  ang_4 <- ang_int E false (DHt, DHt, DHt) ;
  let non_symmetric := ang_1_2 * (rad_1 + rad_2) + rad_3_4 * (ang_3 + ang_4) in
  Ok (1 / 2 * (non_symmetric + symmetric) * dim).
(** qc:1789-1850, _kappa_4_abc() *)
Definition kappa_4 (E : cenv) (stop : nat) : res R :=
  let mult := fun i => e_rhon E i * e_x E i ^ 3 in
  let radius := fun i => e_x E i * e_R E in
  let add1 := fun i => - 1 / radius i ^ 2 * e_g1 E i + 1 / radius i * e_g2 E i in
  s <- s_term E (RSingle (RZ1, RZ2c, RZ2c)) (fun i => mult i * add1 i)
         (AMulti [(Hr, Ht, Ht); (Hr, Hp, Hp)] [false; false]) [1; -1] [1] stop ;
  let sym := 1 / 2 * s in
  r <- rad_int E (RZ1, RZ1, RZ1) (fun i => mult i * e_g3 E i) stop ;
  a <- ang_int E false (Hr, Hr, Hr) ;
  let dim := e_normrho E * e_R E ^ 6 in
  Ok (- (1 / 2) * (sym + r * a) * dim).

(** qc:1853-1884, adiabatic_coupling_rot(): the stored (_cc_term_1.._4, _coupling_coefficient)
    for the slice [:stop] *)
Record cc_result := { cc_1 : R; cc_2 : R; cc_3 : R; cc_4 : R; cc_tot : R }.
Definition coupling_rot (E : cenv) (stop : nat) : res cc_result :=
  k1 <- kappa_1 E stop ; k2 <- kappa_2 E stop ; k3 <- kappa_3 E stop ; k4 <- kappa_4 E stop ;
  Ok {| cc_1 := k1; cc_2 := k2; cc_3 := k3; cc_4 := k4; cc_tot := k1 + k2 + k3 + k4 |}.
(** the default call: indexer np.s_[:] *)
Definition coupling_coefficient (E : cenv) : res R :=
  r <- coupling_rot E (e_n E) ; Ok (cc_tot r).

(** the five arrays of qc:1887-1909 *)
Record cc_profile := { p_1 : list R; p_2 : list R; p_3 : list R; p_4 : list R; p_tot : list R }.
Definition store_profile (p : cc_profile) (j : nat) (r : cc_result) : cc_profile :=
  {| p_1 := upd (p_1 p) j (cc_1 r); p_2 := upd (p_2 p) j (cc_2 r); p_3 := upd (p_3 p) j (cc_3 r);
     p_4 := upd (p_4 p) j (cc_4 r); p_tot := upd (p_tot p) j (cc_tot r) |}.
(** qc:1887-1946, adiabatic_coupling_rot_profile() (both branches of progress_bar run this
    loop): for _i in range(2, n + 1), entry _i - 1 *)
Definition coupling_profile (E : cenv) : res cc_profile :=
  let z := repeat 0 (e_n E) in
  for_ 2 (Z.of_nat (e_n E) + 1)
    (fun i p => r <- coupling_rot E (Z.to_nat i) ; Ok (store_profile p (Z.to_nat (i - 1)) r))
    {| p_1 := z; p_2 := z; p_3 := z; p_4 := z; p_tot := z |}.

(** qc:475-487 and 524-538: normalized and Lee's eta coefficients *)
Definition normed_coupling (E : cenv) : res R :=
  k <- coupling_coefficient E ; b <- b_a_energy E 1 ; Ok (k / snd b).
Definition eta_lee (E : cenv) : res R := k <- normed_coupling E ; Ok (2 * k).

(** ** Radial vectors of one mode, cr:142-181 *)
(** [y1], [y2]: GYRE's eigenfunctions, [l]: the degree, [om]: dimless_corot_omegas[i-1];
    x ** (l - 2) is the integer power (x > 0 when l < 2) *)
Definition z_1 (x : R) (l : Z) (y1 : R) : R := y1 * powerRZ x (l - 2) * sqrt (4 * PI).
Definition z_2 (x : R) (l : Z) (y2 : R) : R := y2 * powerRZ x (l - 2) * sqrt (4 * PI).
Definition x_z_1 (x : R) (l : Z) (y1 : R) : R := x * z_1 x l y1.
Definition z_2_over_c_1_omega (x : R) (l : Z) (y2 c_1 om : R) : R := z_2 x l y2 / (c_1 * om ^ 2).
Definition x_z_2_over_c_1_omega (x : R) (l : Z) (y2 c_1 om : R) : R := x * z_2_over_c_1_omega x l y2 c_1 om.
(** cr:210-230, symbolic _rad_der_x_z_1; [lam] = _lambda_mode_i[0] *)
Definition rad_der_x_z_1 (x V_2 Gamma_1 lam c_1 om z1 z2 : R) : R :=
  let V_over_G1 := V_2 * x ^ 2 / Gamma_1 in
  (V_over_G1 - 2) * z1 + (lam / (c_1 * om ^ 2) - V_over_G1) * z2.
(** cr:240-255, symbolic _rad_der_x_z_2_c_1_omega *)
Definition rad_der_x_z_2_c_1_omega (c_1 om As U rho M_star R_star z1 z2 : R) : R :=
  let c1_omega := c_1 * om ^ 2 in
  let avg_rho := M_star / R_star ^ 3 in
  (1 - As / c1_omega) * z1
  + ((As - U - 1) / c1_omega + 4 * PI * rho / (avg_rho * om ^ 2)) * z2.
(** cr:288-299, _rad_diverg *)
Definition rad_diverg (x V_2 Gamma_1 z1 z2 : R) : R := (z1 - z2) * (V_2 * x ^ 2 / Gamma_1).

(** ** Structure derivatives at one radius,
    sc = aesolver/aesolver/coupling_coefficients/coefficient_support_classes/super_coupling_coefficients.py *)
(** sc:880 *)
Definition dgravpot (G M_r r : R) : R := G * M_r / r ^ 2.
(** sc:894-900, use_brunt_def *)
Definition drho (rho g Gamma_1 P N2 : R) : R := rho * (-1 * rho * g / (Gamma_1 * P) - N2 / g).
(** sc:927-929 *)
Definition dgravpot2 (G rho g r : R) : R := 4 * PI * G * rho - g * (2 / r).
(** sc:932-934 *)
Definition dgravpot3 (G drho_ g g2 r : R) : R := 4 * PI * G * drho_ + 2 / r * (g / r - g2).
(** sc:954 *)
Definition dP (rho g : R) : R := - g * rho.
(** sc:958-960 *)
Definition dP2 (rho drho_ g g2 : R) : R := - g2 * rho - g * drho_.
(** sc:961-965; [drho2_] is the numerical second derivative *)
Definition dP3 (rho drho_ drho2_ g g2 g3 : R) : R := - g3 * rho - 2 * g2 * drho_ - g * drho2_.

(** ** The mu grid of the Hough functions: ct:53-62 (theta_n = pi / npts (n + 0.5)) and
    hf:426-434 (mu_range = [-mu, mu reversed]); [h] = npts // 2, so npts = 2 h *)
Definition cheby_mu (h : nat) (k : nat) : R := cos (PI / INR (2 * h) * (INR k + 1 / 2)).
Definition mu_range (h : nat) (i : nat) : R :=
  if (i <? h)%nat then - cheby_mu h i else cheby_mu h (2 * h - 1 - i).
