(** * The cubic interaction energy of three displacement fields (specification for C103, C104).
    Independent of the model except for the arrays of the coupling object ([cenv]). *)
From Coq Require Import Reals List ZArith Bool.
From Coquelicot Require Import Complex.
From Verif Require Import Base Coupling_Model.
Import ListNotations.
Local Open Scope R_scope.

(** components 0, 1, 2 = r, theta, phi *)
Definition vec3 := nat -> C.
Definition mat3 := nat -> nat -> C.
Definition sum3 (f : nat -> C) : C := (f 0%nat + f 1%nat + f 2%nat)%C.
(** contractions of gradient tensors: A_ij B_ji and A_ij B_jk C_ki *)
Definition tr2 (A B : mat3) : C := sum3 (fun i => sum3 (fun j => A i j * B j i))%C.
Definition tr3 (A B D : mat3) : C := sum3 (fun i => sum3 (fun j => sum3 (fun k => A i j * B j k * D k i)))%C.

(** Gradient tensor, at one point of unit radius-derivative scale, of the displacement field
      xi = (x z1 Hr, x z2 Ht, i s x z2 Hp) exp(i s m phi)
    (phase removed), s = 1, or s = -1 for its complex conjugate; der1, der2 are the radial derivatives of x z1 and x z2; dHr, dHt, dHp
    the theta derivatives; entry (j, l) is the j-th covariant derivative of component l. The
    three azimuthal derivatives may be given different azimuthal orders mr, mt, mp to describe
    inconsistent tensors; a field has mr = mt = mp = m. *)
Definition grad (z1 z2 der1 der2 : C) (hr ht hp dhr dht dhp mu sn : R) (mr mt mp s : R) : mat3 := fun j l =>
  match j, l with
  | 0%nat, 0%nat => der1 * RtoC hr
  | 0%nat, 1%nat => der2 * RtoC ht
  | 0%nat, 2%nat => Ci * RtoC s * der2 * RtoC hp
  | 1%nat, 0%nat => z1 * RtoC dhr - z2 * RtoC ht
  | 1%nat, 1%nat => z2 * RtoC dht + z1 * RtoC hr
  | 1%nat, 2%nat => Ci * RtoC s * z2 * RtoC dhp
  | 2%nat, 0%nat => Ci * RtoC s * (z1 * RtoC (mr * hr / sn) - z2 * RtoC hp)
  | 2%nat, 1%nat => Ci * RtoC s * z2 * RtoC ((mt * ht - mu * hp) / sn)
  | 2%nat, 2%nat => z2 * RtoC ((mu * ht - mp * hp) / sn) + z1 * RtoC hr
  | _, _ => RtoC 0
  end%C.
(** the field itself *)
Definition disp (x : R) (z1 z2 : C) (hr ht hp s : R) : vec3 := fun l =>
  match l with
  | 0%nat => RtoC x * z1 * RtoC hr
  | 1%nat => RtoC x * z2 * RtoC ht
  | 2%nat => Ci * RtoC s * RtoC x * z2 * RtoC hp
  | _ => RtoC 0
  end%C.
(** third covariant derivative of a spherical potential with derivatives g1, g2, g3 at radius r *)
Definition potential3 (g1 g2 g3 r : R) (a b c : nat) : R :=
  match a, b, c with
  | 0%nat, 0%nat, 0%nat => g3
  | 0%nat, 1%nat, 1%nat | 1%nat, 0%nat, 1%nat | 1%nat, 1%nat, 0%nat
  | 0%nat, 2%nat, 2%nat | 2%nat, 0%nat, 2%nat | 2%nat, 2%nat, 0%nat => g2 / r - g1 / r ^ 2
  | _, _, _ => 0
  end.
Definition contract3 (T : nat -> nat -> nat -> R) (X Y Z : vec3) : C :=
  sum3 (fun a => sum3 (fun b => sum3 (fun c => RtoC (T a b c) * X a * Y b * Z c)))%C.

(** the arrays of mode p of a coupling object at radial index i, angular index k *)
Definition sin_at (E : cenv) (k : nat) : R := sqrt (1 - e_mu E k ^ 2).
Definition order (E : cenv) (p : nat) : R := IZR (nth (p - 1) (e_m E) 0%Z).
Definition grad_of (E : cenv) (mr mt mp : nat -> R) (s : nat -> R) (i k p : nat) : mat3 :=
  grad (e_rad E RZ1 p i) (e_rad E RZ2c p i) (e_rad E RDerXZ1 p i) (e_rad E RDerXZ2c p i)
    (e_ang E Hr p k) (e_ang E Ht p k) (e_ang E Hp p k) (e_ang E DHr p k) (e_ang E DHt p k) (e_ang E DHp p k)
    (e_mu E k) (sin_at E k) (mr p) (mt p) (mp p) (s p).
Definition disp_of (E : cenv) (s : nat -> R) (i k p : nat) : vec3 :=
  disp (e_x E i) (e_rad E RZ1 p i) (e_rad E RZ2c p i) (e_ang E Hr p k) (e_ang E Ht p k) (e_ang E Hp p k) (s p).
Definition div_of (E : cenv) (i k p : nat) : C := (e_rad E RDiverg p i * RtoC (e_ang E Hr p k))%C.

(** ** Densities of the four terms (Schenk et al. 2002, Lee 2012), x^2 included:
    (1/2) p (Gamma_1 - 1) [Xi_12 div_3 + Xi_13 div_2 + Xi_23 div_1],
    (1/2) p [(Gamma_1 - 1)^2 + dGamma_1/dln(rho)] div_1 div_2 div_3,
    (1/2) p (chi_123 + chi_132),  - (1/2) rho xi_1 xi_2 xi_3 : grad grad grad Phi *)
Definition weight_p (E : cenv) (i : nat) : R := 1 / 2 * (e_normP E * e_R E ^ 3) * e_P E i * e_x E i ^ 2.
Definition density_1 (E : cenv) (G : nat -> mat3) (D : nat -> C) (i : nat) : R := weight_p E i * (e_G1 E i - 1) *
    Re (tr2 (G 1%nat) (G 2%nat) * D 3%nat + tr2 (G 1%nat) (G 3%nat) * D 2%nat + tr2 (G 2%nat) (G 3%nat) * D 1%nat)%C.
Definition gamma_term (E : cenv) (i : nat) : R := (e_G1 E i - 1) ^ 2 +
    (if e_poly E then 0 else match e_adder E with Some ad => e_rho E i * ad i | None => 0 end).
Definition density_2 (E : cenv) (D : nat -> C) (i : nat) : R := weight_p E i * gamma_term E i * Re (D 1%nat * D 2%nat * D 3%nat)%C.
Definition density_3 (E : cenv) (G : nat -> mat3) (i : nat) : R := weight_p E i * Re (tr3 (G 1%nat) (G 2%nat) (G 3%nat) + tr3 (G 1%nat) (G 3%nat) (G 2%nat))%C.
Definition density_4 (E : cenv) (X : nat -> vec3) (i : nat) : R := - (1 / 2) * (e_normrho E * e_R E ^ 6) * e_rhon E i * e_x E i ^ 2 *
    Re (contract3 (potential3 (e_g1 E i) (e_g2 E i) (e_g3 E i) (e_x E i * e_R E)) (X 1%nat) (X 2%nat) (X 3%nat)).

(** iterated quadrature of a density over the first [stop] radii, all latitudes and the azimuth *)
Definition quad (E : cenv) (stop : nat) (F : nat -> nat -> R) : R :=
  2 * PI * e_integ E true
    (map (fun k => e_integ E false (firstn stop (map (fun i => F i k) (seq 0 (e_n E))))
                                   (firstn stop (map (e_x E) (seq 0 (e_n E))))) (seq 0 (e_nmu E)))
    (map (e_mu E) (seq 0 (e_nmu E))).
(** a quadrature that is linear in the integrand, for arrays of equal size >= 2 *)
Definition linear (integ : bool -> list R -> list R -> R) : Prop :=
  forall b a c ys zs xs, length ys = length xs -> length zs = length xs -> (2 <= length xs)%nat ->
    integ b (map (fun p => a * fst p + c * snd p) (combine ys zs)) xs = a * integ b ys xs + c * integ b zs xs.
(** cubic interaction energy with azimuthal orders mr, mt, mp and conjugation signs s *)
Definition energy (E : cenv) (stop : nat) (mr mt mp s : nat -> R) : R :=
  quad E stop (fun i k =>
    let G := grad_of E mr mt mp s i k in let D := div_of E i k in
    density_1 E G D i + density_2 E D i + density_3 E G i + density_4 E (disp_of E s i k) i).

(** the derived angular arrays in terms of the Hough functions, as the Hough function class
    supplies them (C103_hough_arrays) *)
Definition hough_arrays (E : cenv) : Prop := forall p k, (1 <= p <= 3)%nat -> (k < e_nmu E)%nat ->
  e_ang E MHr p k = - order E p * e_ang E Hr p k /\
  e_ang E ThPh p k = order E p * e_ang E Ht p k - e_mu E k * e_ang E Hp p k /\
  e_ang E PhPh p k = (e_mu E k * e_ang E Ht p k - order E p * e_ang E Hp p k) / sin_at E k.

(** the same object with other conjugation flags; the signs of the fields that they ask for *)
Definition with_conj (l : list bool) (E : cenv) : cenv := {|
  e_n := e_n E; e_x := e_x E; e_nmu := e_nmu E; e_mu := e_mu E; e_rad := e_rad E; e_ang := e_ang E;
  e_m := e_m E; e_conj := ConjTuple l; e_self := e_self E; e_complex := e_complex E; e_cheby := e_cheby E;
  e_cheby_mul := e_cheby_mul E; e_blow := e_blow E; e_blow_fac := e_blow_fac E; e_poly := e_poly E;
  e_P := e_P E; e_G1 := e_G1 E; e_rhon := e_rhon E; e_rho := e_rho E; e_adder := e_adder E; e_g1 := e_g1 E;
  e_g2 := e_g2 E; e_g3 := e_g3 E; e_normP := e_normP E; e_normrho := e_normrho E; e_R := e_R E;
  e_corot := e_corot E; e_surf := e_surf E; e_integ := e_integ E |}.
Definition conj_sign (E : cenv) (p : nat) : R :=
  match e_conj E with ConjTuple l => if nth (p - 1) l false then -1 else 1 | _ => 1 end.
