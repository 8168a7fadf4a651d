(** * Model of the eigenfunction normaliser and of its use by the coupler.
    Sources, cited as
    gn = gyre-tools/gyre_eigen_norm/gyre_eigen_norm.py
    en = gyre-tools/gyre_eigen_norm/enumeration_modules/enum_norm.py
    ew = gyre-tools/gyre_eigen_norm/enumeration_modules/enum_norm_wrapper.py
    qe = aesolver/aesolver/coupling_coefficients/enumeration_files/enumerated_quadratic_coupling.py
    qc = aesolver/aesolver/coupling_coefficients/quadratic_coupling_coefficient_rotating.py.
    Simplifications: exact real arithmetic; the attributes [<name>_mode_<i>] of the data object are
    the function [attrs] of the mode number, the base name and the grid index; the data object's own
    compute_b_a_mode_energy() is the parameter [d_comp] returning (energy, classic norm); log calls
    are recorded in [log] as (mode numbers, percentage deviations); a NaN or infinite normalisation
    factor is the outcome UB (no finite number). *)
From Coq Require Import Reals List ZArith Bool String Ascii Lia Lra.
From Coquelicot Require Import Complex.
From Verif Require Import Base Py Coupling_Model.
Import ListNotations.
Local Open Scope R_scope.
Local Open Scope res_scope.

(** qe:16-68, EnumRadial.access_all_parameters() *)
Definition enum_radial : list string :=
  ["_z_1"; "_z_2"; "_x_z_1"; "_z_2_over_c_1_omega"; "_x_z_2_over_c_1_omega";
   "_rad_der_x_z_1"; "_rad_der_x_z_2_c_1_omega"; "_rad_diverg"; "_lag_L_dim"]%string.
(** qe:72-123, EnumRadialPoly.access_all_parameters() *)
Definition enum_radial_poly : list string :=
  ["_z_1"; "_z_2"; "_x_z_1"; "_z_2_over_c_1_omega"; "_x_z_2_over_c_1_omega";
   "_rad_der_x_z_1"; "_rad_der_x_z_2_c_1_omega"; "_rad_diverg"]%string.

(** str.upper() on ASCII strings, ew:60 *)
Definition upper_ascii (c : ascii) : ascii :=
  let n := nat_of_ascii c in
  if ((97 <=? n) && (n <=? 122))%nat then ascii_of_nat (n - 32) else c.
Fixpoint upper (s : string) : string :=
  match s with EmptyString => EmptyString | String c s' => String (upper_ascii c) (upper s') end.

Inductive convention := Lee2012 | Schenk2002.
(** ew:55-66: cls.__getitem__(name.upper()); an unknown member raises KeyError, which the
    AttributeError handler does not catch *)
Definition get_convention (s : string) : res convention :=
  if String.eqb (upper s) "LEE2012" then Ok Lee2012
  else if String.eqb (upper s) "SCHENK2002" then Ok Schenk2002
  else Exc KeyError.

Definition attributes := nat -> string -> nat -> C.

(** the data object and the arguments of the normaliser, gn:59-86; [np_bool]: the comparison
    target == value produces a numpy boolean (some operand is a numpy scalar) *)
Record setup := {
  d_G : R; d_M : R; d_R : R;
  d_comp : attributes -> nat -> res (R * R);
  d_names : list string;
  d_conv : string;
  d_modes : nat;
  d_iterate : bool;
  d_max : nat;
  d_npbool : bool
}.

(** mutable state: eigenfunctions, energies and norms of the data object; factors (None: still
    uninitialised), check array, iteration counter and log of the normaliser *)
Record st := {
  attrs : attributes; en_ : nat -> R; cn_ : nat -> R;
  facs : list (option R); checks : list bool; iters : nat; log : list (list nat * list R)
}.
Definition with_attrs a s := {| attrs := a; en_ := en_ s; cn_ := cn_ s; facs := facs s; checks := checks s; iters := iters s; log := log s |}.
Definition with_energy (f g : nat -> R) s := {| attrs := attrs s; en_ := f; cn_ := g; facs := facs s; checks := checks s; iters := iters s; log := log s |}.
Definition with_facs l s := {| attrs := attrs s; en_ := en_ s; cn_ := cn_ s; facs := l; checks := checks s; iters := iters s; log := log s |}.
Definition with_checks l s := {| attrs := attrs s; en_ := en_ s; cn_ := cn_ s; facs := facs s; checks := l; iters := iters s; log := log s |}.
Definition with_iters k s := {| attrs := attrs s; en_ := en_ s; cn_ := cn_ s; facs := facs s; checks := checks s; iters := k; log := log s |}.
Definition with_log l s := {| attrs := attrs s; en_ := en_ s; cn_ := cn_ s; facs := facs s; checks := checks s; iters := iters s; log := l |}.

(** np.sqrt(a / b) *)
Definition sqrt_quot (a b : R) : res R :=
  if Req_EM_T b 0 then UB else if Rlt_dec (a / b) 0 then UB else Ok (sqrt (a / b)).
(** en:29-52, first entries: the normalisation factor from the stored energy / classic norm *)
Definition factor_from_object (d : setup) (s : st) (nr : nat) : res R :=
  cv <- get_convention (d_conv d) ;
  match cv with
  | Lee2012 => sqrt_quot (d_G d * d_M d ^ 2) (d_R d * en_ s nr)
  | Schenk2002 => sqrt_quot (d_M d * d_R d ^ 2) (cn_ s nr)
  end.
(** en:34-37 and 46-49: the pair (target, current value) *)
Definition target_value (d : setup) (s : st) (nr : nat) : res (R * R) :=
  cv <- get_convention (d_conv d) ;
  match cv with
  | Lee2012 => Ok (d_G d * d_M d ^ 2 / d_R d, en_ s nr)
  | Schenk2002 => Ok (d_M d * d_R d ^ 2, cn_ s nr)
  end.
(** en:122 and gn:344-350: the array entry set to ~(target == value); ~ of a Python bool is -1
    or -2, both stored as True *)
Definition check_normalization (d : setup) (nr : nat) (s : st) : res st :=
  tv <- target_value d s nr ;
  let eq := if Req_EM_T (fst tv) (snd tv) then true else false in
  Ok (with_checks (upd (checks s) (nr - 1) (if d_npbool d then negb eq else true)) s).

(** setattr(obj, f'{name}_mode_{nr}', c * getattr(obj, ...)), gn:284-288 and 327-332 *)
Definition scale_attr (c : R) (nr : nat) (name : string) (a : attributes) : attributes :=
  fun m nm i => if Nat.eqb m nr && String.eqb nm name then (RtoC c * a m nm i)%C else a m nm i.
(** gn:313-332, _eigenmode_normalizer() with factor c *)
Definition scale_all (c : R) (nr : nat) (names : list string) (a : attributes) : attributes :=
  fold_left (fun a nm => scale_attr c nr nm a) names a.

(** for _i in ...: body *)
Fixpoint forM {S} (l : list nat) (f : nat -> S -> res S) (s : S) : res S :=
  match l with [] => Ok s | x :: l' => s' <- f x s ; forM l' f s' end.

(** gn:295-311 then 313-332 for one mode of gn:150-158 *)
Definition initial_mode (d : setup) (nr : nat) (s : st) : res st :=
  c <- factor_from_object d s nr ;
  let s1 := with_facs (upd (facs s) (nr - 1) (Some c)) s in
  Ok (with_attrs (scale_all c nr (d_names d) (attrs s1)) s1).
(** self._data_obj.compute_b_a_mode_energy(nr), gn:165 and 291 *)
Definition compute_energy (d : setup) (nr : nat) (s : st) : res st :=
  v <- d_comp d (attrs s) nr ;
  Ok (with_energy (fun m => if Nat.eqb m nr then fst v else en_ s m)
                  (fun m => if Nat.eqb m nr then snd v else cn_ s m) s).
(** gn:168-175 for one mode *)
Definition check_mode (d : setup) (nr : nat) (s : st) : res st :=
  if nth (nr - 1) (checks s) false then check_normalization d nr s else Ok s.
(** gn:263-293, _refine_mode_obj() *)
Definition refine_mode (d : setup) (nr : nat) (s : st) : res st :=
  c <- factor_from_object d s nr ;
  f <- (match nth (nr - 1) (facs s) None with Some f => Ok f | None => UB end) ;
  let s1 := with_facs (upd (facs s) (nr - 1) (Some (f * c))) s in
  let s2 := with_attrs (scale_all c nr (d_names d) (attrs s1)) s1 in
  s3 <- compute_energy d nr s2 ;
  check_normalization d nr s3.

(** self._check_array.any() *)
Definition any (l : list bool) : bool := existsb (fun b => b) l.
(** self._check_array.nonzero()[0] + 1, gn:190 and 206 *)
Definition flagged (l : list bool) : list nat :=
  map S (filter (fun i => nth i l false) (seq 0 (List.length l))).
(** gn:217-260: one log record with the percentage deviations *)
Definition log_devs (d : setup) (nrs : list nat) (s : st) : res st :=
  devs <- mapM (fun nr => tv <- target_value d s nr ; Ok ((fst tv - snd tv) / fst tv * 100)) nrs ;
  Ok (with_log (log s ++ [(nrs, devs)]) s).

(** gn:196-215, _iterative_refinement_looper(): [k] iterations left, [last] the value of
    _refine_mode_nrs (None: not yet bound) *)
Fixpoint looper (d : setup) (k : nat) (last : option (list nat)) (s : st) : res st :=
  match k with
  | O => match last with None => Exc UnboundLocalError | Some nrs => log_devs d nrs s end
  | S k' =>
      if negb (any (checks s)) then Ok s
      else
        let s1 := with_iters (S (iters s)) s in
        let nrs := flagged (checks s1) in
        s2 <- forM nrs (refine_mode d) s1 ;
        looper d k' (Some nrs) s2
  end.
(** gn:178-194, _iteratively_refine() *)
Definition iteratively_refine (d : setup) (s : st) : res st :=
  if d_iterate d && any (checks s) then looper d (d_max d) None s
  else if any (checks s) then log_devs d (flagged (checks s)) s
  else Ok s.

(** gn:59-97: __init__ (facs = np.empty, checks = ones, counter 0) followed by __call__ *)
Definition normalise (d : setup) (a : attributes) (e c : nat -> R) : res st :=
  let s0 := {| attrs := a; en_ := e; cn_ := c; facs := repeat None (d_modes d);
               checks := repeat true (d_modes d); iters := 0; log := [] |} in
  let modes := seq 1 (d_modes d) in
  s1 <- forM modes (initial_mode d) s0 ;
  s2 <- forM modes (compute_energy d) s1 ;
  s3 <- forM modes (check_mode d) s2 ;
  iteratively_refine d s3.

(** ** Use by the coupler, qc:418-438 *)
(** the attribute behind every radial name of the coefficient computation *)
Definition rname (t : rterm) : string :=
  match t with
  | RDerXZ1 => "_rad_der_x_z_1" | RDerXZ2c => "_rad_der_x_z_2_c_1_omega" | RDiverg => "_rad_diverg"
  | RZ1 => "_z_1" | RZ2c => "_z_2_over_c_1_omega" | RXZ1 => "_x_z_1" | RXZ2c => "_x_z_2_over_c_1_omega"
  end.
Definition with_rad (f : rterm -> nat -> nat -> C) (E : cenv) : cenv := {|
  e_n := e_n E; e_x := e_x E; e_nmu := e_nmu E; e_mu := e_mu E; e_rad := f; e_ang := e_ang E;
  e_m := e_m E; e_conj := e_conj E; e_self := e_self E; e_complex := e_complex E; e_cheby := e_cheby E;
  e_cheby_mul := e_cheby_mul E; e_blow := e_blow E; e_blow_fac := e_blow_fac E; e_poly := e_poly E;
  e_P := e_P E; e_G1 := e_G1 E; e_rhon := e_rhon E; e_rho := e_rho E; e_adder := e_adder E; e_g1 := e_g1 E;
  e_g2 := e_g2 E; e_g3 := e_g3 E; e_normP := e_normP E; e_normrho := e_normrho E; e_R := e_R E;
  e_corot := e_corot E; e_surf := e_surf E; e_integ := e_integ E |}.
Definition with_attributes (E : cenv) (a : attributes) : cenv :=
  with_rad (fun t m i => a m (rname t) i) E.
(** qc:1344-1399 on the current attributes: (energy, classic norm) *)
Definition coupler_comp (E : cenv) (a : attributes) (nr : nat) : res (R * R) :=
  v <- b_a_energy (with_attributes E a) nr ; Ok (snd v, fst (fst v)).
(** qc:423-436: energies of the raw eigenfunctions, then the lee2012 normalisation of 3 modes,
    iterative_process = False, max_iterations = 10; [G], [M] are self._G, self._M_star; the
    energies come out of numpy arithmetic *)
Definition coupler_normalisation (E : cenv) (G M : R) (a : attributes) : res st :=
  v1 <- coupler_comp E a 1 ; v2 <- coupler_comp E a 2 ; v3 <- coupler_comp E a 3 ;
  let sel (f : R * R -> R) (m : nat) := if Nat.eqb m 1 then f v1 else if Nat.eqb m 2 then f v2 else f v3 in
  normalise {| d_G := G; d_M := M; d_R := e_R E; d_comp := coupler_comp E;
               d_names := if e_poly E then enum_radial_poly else enum_radial;
               d_conv := "lee2012"; d_modes := 3; d_iterate := false; d_max := 10; d_npbool := true |}
            a (sel fst) (sel snd).
(** the normalised coupling coefficient of the object so initialised, qc:475-487 *)
Definition coupler_normed (E : cenv) (G M : R) (a : attributes) : res R :=
  s <- coupler_normalisation E G M a ;
  k <- coupling_coefficient (with_attributes E (attrs s)) ; Ok (k / en_ s 1%nat).
