(** * Model of the polytropic structure computations. Sources, cited as
    ps = aesolver/aesolver/polytropic_computations/poly_struct_comps.py
    pe = aesolver/aesolver/polytropic_computations/enumeration_files/polytropic_struct_enumeration.py.
    Simplifications: exact arithmetic on the finite numbers, with the infinities and NaN of IEEE
    (no rounding, overflow or signed zeros: a quotient by zero has the sign of its numerator);
    arrays are functions of the grid index; a single polytropic index (one region). *)
From Coq Require Import Reals List ZArith Bool Lra.
From Verif Require Import Base.
Local Open Scope R_scope.

(** ** Floating point numbers without rounding *)
Inductive fl := Fin (r : R) | Inf (neg : bool) | NaN.
Definition sgn_neg (r : R) : bool := if Rlt_dec r 0 then true else false.
Definition fadd (a b : fl) : fl :=
  match a, b with
  | Fin x, Fin y => Fin (x + y)
  | NaN, _ | _, NaN => NaN
  | Inf s, Inf t => if Bool.eqb s t then Inf s else NaN
  | Inf s, _ => Inf s
  | _, Inf t => Inf t
  end.
Definition fneg (a : fl) : fl := match a with Fin x => Fin (- x) | Inf s => Inf (negb s) | NaN => NaN end.
Definition fsub (a b : fl) : fl := fadd a (fneg b).
Definition fmul (a b : fl) : fl :=
  match a, b with
  | Fin x, Fin y => Fin (x * y)
  | NaN, _ | _, NaN => NaN
  | Inf s, Inf t => Inf (xorb s t)
  | Inf s, Fin y => if Req_EM_T y 0 then NaN else Inf (xorb s (sgn_neg y))
  | Fin x, Inf t => if Req_EM_T x 0 then NaN else Inf (xorb (sgn_neg x) t)
  end.
Definition fdiv (a b : fl) : fl :=
  match a, b with
  | Fin x, Fin y => if Req_EM_T y 0 then (if Req_EM_T x 0 then NaN else Inf (sgn_neg x)) else Fin (x / y)
  | NaN, _ | _, NaN => NaN
  | Inf s, Inf t => NaN
  | Inf s, Fin y => Inf (xorb s (sgn_neg y))
  | Fin x, Inf t => Fin 0
  end.
(** x ** e for a real exponent e that is not a literal integer: a negative base is left to a
    parameter of the model ([neg_pow], NaN unless the exponent is an integer) *)
Definition fpow (neg_pow : R -> R -> fl) (a : fl) (e : R) : fl :=
  match a with
  | Fin x => if Rlt_dec x 0 then neg_pow x e
             else if Req_EM_T x 0 then (if Rlt_dec 0 e then Fin 0 else if Rlt_dec e 0 then Inf false else Fin 1)
             else Fin (Rpower x e)
  | Inf s => if Req_EM_T e 0 then Fin 1 else if Rlt_dec 0 e then Inf false else Fin 0
  | NaN => if Req_EM_T e 0 then Fin 1 else NaN
  end.
(** x ** 2.0, x ** 3.0, x ** 4.0 *)
Definition fsq (a : fl) : fl := fmul a a.
Definition fcube (a : fl) : fl := fmul (fmul a a) a.
Definition fquad (a : fl) : fl := fmul (fsq a) (fsq a).
Definition fsqrt (a : fl) : fl :=
  match a with Fin x => if Rlt_dec x 0 then NaN else Fin (sqrt x) | Inf false => Inf false | _ => NaN end.
(** np.nan_to_num: NaN to 0, the infinities to the largest finite numbers *)
Definition max_float : R := (2 - / 2 ^ 52) * 2 ^ 1023.
Definition nan_to_num (a : fl) : fl :=
  match a with NaN => Fin 0 | Inf false => Fin max_float | Inf true => Fin (- max_float) | _ => a end.

(** ps:87-126, what the object reads: polytropic index, grid (z), theta, dtheta, Gamma_1, G,
    mass, radius; the arrays have [p_n] + 1 entries *)
Record poly := {
  p_idx : R; p_n : nat; p_z : nat -> fl; p_theta : nat -> fl; p_dtheta : nat -> fl;
  p_gamma1 : nat -> fl; p_G : R; p_mass : R; p_radius : R; p_negpow : R -> R -> fl
}.
Section poly.
Variable P : poly.
Definition z := p_z P.
Definition theta := p_theta P.
Definition dtheta := p_dtheta P.
Definition n := p_idx P.
Definition F := Fin.
Definition tpow (i : nat) (e : R) : fl := fpow (p_negpow P) (theta i) e.
(** ps:98, self._z[-1] *)
Definition z_s : fl := z (p_n P).
(** ps:142-147 *)
Definition aux_mass (i : nat) : fl := fmul (fmul (F (-1)) (fsq (z i))) (dtheta i).
Definition aux_s : fl := aux_mass (p_n P).
(** ps:149-153 *)
Definition avg_rho : fl := F (3 / (4 * PI) * (p_mass P / p_radius P ^ 3)).
(** ps:155-157 *)
Definition x (i : nat) : fl := fdiv (z i) z_s.
(** ps:159-161 *)
Definition rho0 : fl := fmul (fdiv avg_rho (F 3)) (fdiv (fcube z_s) aux_s).
(** ps:163-178; for a scalar the index [0] raises IndexError and the value itself is stored *)
Definition p0 : fl :=
  let rat := fdiv rho0 avg_rho in
  let pw := fpow (p_negpow P) in
  let nn := fmul (fdiv (pw z_s (1 - 3 / n)) (F (n + 1))) (fmul (F (Rpower (4 * PI) (1 / n))) (pw aux_s (1 / n - 1))) in
  let wn := fmul nn (pw (fmul (F (3 / (4 * PI))) rat) (1 + 1 / n)) in
  fdiv (fmul wn (F (p_G P * p_mass P ^ 2))) (F (p_radius P ^ 4)).
(** ps:180-185 *)
Definition alpha : fl := fsqrt (fdiv (fmul p0 (F (1 + n))) (fmul (F (p_G P * 4 * PI)) (fsq rho0))).
(** ps:208-212 *)
Definition dtheta2 (i : nat) : fl :=
  nan_to_num (fsub (fneg (tpow i n)) (fmul (fdiv (F 2) (z i)) (dtheta i))).
(** ps:214-220 *)
Definition dtheta3 (i : nat) : fl :=
  nan_to_num (fadd (fmul (fdiv (F 2) (z i)) (tpow i n))
                   (fmul (fadd (fmul (F (- n)) (tpow i (n - 1))) (fdiv (F 6) (fsq (z i)))) (dtheta i))).
(** ps:222-224 *)
Definition rho_norm (i : nat) : fl := tpow i n.
(** ps:239-247 *)
Definition drho_dz (i : nat) : fl := fmul (fmul (F n) (dtheta i)) (tpow i (n - 1)).
(** ps:249-262 *)
Definition drho2_dz2 (i : nat) : fl :=
  fmul (F n) (fadd (fmul (fmul (F (n - 1)) (tpow i (n - 1 - 1))) (fsq (dtheta i))) (fmul (tpow i (n - 1)) (dtheta2 i))).
(** ps:264-285 *)
Definition drho3_dz3 (i : nat) : fl :=
  fmul (F n) (fadd
    (fmul (F (n - 1))
       (fadd (fmul (fmul (F (n - 1 - 1)) (tpow i (n - 1 - 1 - 1))) (fcube (dtheta i)))
             (fmul (fmul (fmul (F 3) (tpow i (n - 1 - 1))) (dtheta2 i)) (dtheta i))))
    (fmul (tpow i (n - 1)) (dtheta3 i))).
(** ps:287-289 *)
Definition p_norm (i : nat) : fl := tpow i (n + 1).
(** ps:304-312 *)
Definition dp_dz (i : nat) : fl := fmul (fmul (F (n + 1)) (tpow i n)) (dtheta i).
(** ps:314-328 *)
Definition dp2_dz2 (i : nat) : fl :=
  fmul (fmul (F (n + 1)) (tpow i (n - 1))) (fadd (fmul (F n) (fsq (dtheta i))) (fmul (theta i) (dtheta2 i))).
(** ps:330-352 *)
Definition dp3_dz3 (i : nat) : fl :=
  fmul (fmul (F (n + 1)) (tpow i (n - 1 - 1)))
    (fadd (fadd (fmul (fmul (F (n - 1)) (F n)) (fcube (dtheta i)))
                (fmul (fmul (fmul (fmul (F 3) (F n)) (theta i)) (dtheta i)) (dtheta2 i)))
          (fmul (fsq (theta i)) (dtheta3 i))).
(** ps:354-393 *)
Definition dgrav_dz (i : nat) : fl := fmul (F (- (n + 1))) (dtheta i).
Definition dgrav2_dz2 (i : nat) : fl := fmul (F (- (n + 1))) (dtheta2 i).
Definition dgrav3_dz3 (i : nat) : fl := fmul (F (- (n + 1))) (dtheta3 i).
(** alpha ** (-order), ps:425-433 *)
Definition alpha_inv (order : nat) : fl :=
  match alpha with
  | Fin a => if Req_EM_T a 0 then Inf false else Fin (/ a ^ order)
  | Inf _ => Fin 0
  | NaN => NaN
  end.
(** ps:395-433 with the table pe:69-97 *)
Definition convert (order : nat) (d : fl) (factor : fl) : fl := fmul (fmul (alpha_inv order) d) factor.
Definition grav_factor : fl := fdiv p0 rho0.
Definition drho (i : nat) := convert 1 (drho_dz i) rho0.
Definition drho2 (i : nat) := convert 2 (drho2_dz2 i) rho0.
Definition drho3 (i : nat) := convert 3 (drho3_dz3 i) rho0.
Definition dp (i : nat) := convert 1 (dp_dz i) p0.
Definition dp2 (i : nat) := convert 2 (dp2_dz2 i) p0.
Definition dp3 (i : nat) := convert 3 (dp3_dz3 i) p0.
Definition dgravpot (i : nat) := convert 1 (dgrav_dz i) grav_factor.
Definition dgravpot2 (i : nat) := convert 2 (dgrav2_dz2 i) grav_factor.
Definition dgravpot3 (i : nat) := convert 3 (dgrav3_dz3 i) grav_factor.
(** ps:444-454 *)
Definition r (i : nat) : fl := fmul (z i) alpha.
Definition p (i : nat) : fl := fmul (p_norm i) p0.
Definition rho (i : nat) : fl := fmul (rho_norm i) rho0.
(** ps:456-475 *)
Definition dt_ratio (i : nat) : fl := fdiv (dtheta i) (dtheta (p_n P)).
Definition dt_t_ratio (i : nat) : fl := fdiv (dtheta i) (theta i).
(** ps:477-515 *)
Definition v_2 (i : nat) : fl := fmul (fmul (fmul (F (-1)) (F (n + 1))) (dt_t_ratio i)) (fdiv z_s (x i)).
Definition v (i : nat) : fl := fmul (fmul (fneg (z i)) (F (n + 1))) (dt_t_ratio i).
Definition u (i : nat) : fl := fdiv (fmul (fneg (z i)) (tpow i n)) (dtheta i).
Definition c1 (i : nat) : fl := fdiv (x i) (dt_ratio i).
Definition as_ (i : nat) : fl := fmul (v i) (fsub (fdiv (F n) (F (n + 1))) (fdiv (F 1) (p_gamma1 P i))).
Definition mr (i : nat) : fl := fmul (fmul (F (p_mass P)) (dt_ratio i)) (fsq (x i)).
Definition surfgrav (i : nat) : fl := fmul (F (p_G P * p_mass P / p_radius P ^ 2)) (dt_ratio i).
Definition brunt_n2 (i : nat) : fl := fdiv (fmul (surfgrav i) (as_ i)) (fmul (x i) (F (p_radius P))).
End poly.
