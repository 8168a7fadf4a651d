(** * Model of the radial and angular kernels shown in a profile run. Sources, cited as
    rk = aesolver/aesolver/solver/profile_helper_classes/radial_kernels/radial_kernel_helper.py
    ak = aesolver/aesolver/solver/profile_helper_classes/angular_kernels/angular_kernel_helper.py.
    Simplifications: exact arithmetic; arrays are functions of the grid index (see
    Coupling_Model); the rows of a two-dimensional kernel array are listed with their legend
    tuples, before these are turned into TeX text (rk labeler, ak labeler); attributes of the
    coupler other than [_gamma_1_adDer_profile] are assumed to exist. *)
From Coq Require Import Reals List ZArith Bool.
From Coquelicot Require Import Complex.
From Verif Require Import Base Coupling_Model.
Import ListNotations.
Local Open Scope R_scope.
Local Open Scope res_scope.

(** rk:86-104: what is read from the coupler besides the arrays of Coupling_Model *)
Record kenv := {
  k_E : cenv;            (* self._coupler *)
  k_P : nat -> R;        (* self._coupler._P *)
  k_energy : R           (* self._coupler._energy_mode_1 *)
}.

(** names of the profiles that multiply a radial kernel *)
Inductive profile :=
| Pressure        (* 'pressure' *)
| GamMin          (* '_gam_min' *)
| GamMinSq        (* '_gam_min_sq' *)
| DerGam          (* 'der_gamma_1_ad' *)
| Density         (* 'density' *)
| PR3 | PR2 | PR1 (* '_r3', '_r2', 'radial_coordinate' *)
| DPhi | D2Phi | D3Phi.   (* 'dgravpot', 'd2gravpot', 'd3gravpot' *)

(** rk:100-113, the stored profiles; [ad] is the coupler's _gamma_1_adDer_profile *)
Definition profile_value (K : kenv) (ad : nat -> R) (p : profile) (i : nat) : R :=
  let E := k_E K in
  let r := e_x E i * e_R E in
  match p with
  | Pressure => k_P K i
  | GamMin => e_G1 E i - 1
  | GamMinSq => (e_G1 E i - 1) ^ 2
  | DerGam => e_rho E i * ad i
  | Density => e_rho E i
  | PR3 => r ^ 3
  | PR2 => r ^ 2
  | PR1 => r
  | DPhi => e_g1 E i
  | D2Phi => e_g2 E i
  | D3Phi => e_g3 E i
  end.

(** one entry of the dictionary of kernels: rows with the tuple of names they stand for *)
Record kterm (A : Type) := { t_rows : list ((A * A * A) * (nat -> C)); t_sym : bool }.
Arguments t_rows {A}. Arguments t_sym {A}.

(** rk:185-208, _kernel_term_constructor(): name j belongs to mode j *)
Definition rad_product (E : cenv) (t : rterm * rterm * rterm) (i : nat) : C :=
  let '(a, b, c) := t in (e_rad E a 1%nat i * e_rad E b 2%nat i * e_rad E c 3%nat i)%C.
(** rk:154-183, _symmetry_mapping(): the keys, in order of first appearance *)
Definition perm_keys {A} (eqb : A -> A -> bool) (t : A * A * A) : list (A * A * A) :=
  map fst (symmetry_mapping (triple_eqb eqb) t).

(** rk:211-303, _load_radial_kernel_term(): the symmetrised rows are stored in a float64 array
    (rk:137-145), which keeps the real part; the product with r^3, the factor and the profiles *)
Definition radial_kernel_term (K : kenv) (ad : nat -> R) (sym : bool) (t : rterm * rterm * rterm)
    (factor : R) (ps : list profile) : kterm rterm :=
  let E := k_E K in
  let scale := fun i => fold_left (fun v p => v * profile_value K ad p i) ps
                          (factor * (e_x E i * e_R E) ^ 3 / k_energy K) in
  if sym
  then {| t_rows := map (fun key => (key, fun i => RtoC (Re (rad_product E key i) * scale i))) (perm_keys rterm_beq t);
          t_sym := true |}
  else {| t_rows := [(t, fun i => (rad_product E t i * RtoC (scale i))%C)]; t_sym := false |}.

(** rk:306-359, _load_terms_first_contribution_cc() *)
Definition radial_1 : list (bool * (rterm * rterm * rterm) * R * list profile) :=
  let p := [Pressure; GamMin] in
  [ (true, (RDerXZ1, RDerXZ1, RDiverg), 1 / 2, p);
    (true, (RZ2c, RZ2c, RDiverg), 1 / 2, p);
    (true, (RZ1, RZ1, RDiverg), 1, p);
    (true, (RZ2c, RZ1, RDiverg), 1, p);
    (true, (RZ1, RDerXZ2c, RDiverg), 1, p);
    (true, (RDiverg, RZ2c, RDerXZ2c), -1, p) ].
(** rk:362-392, _load_terms_second_contribution_cc() *)
Definition radial_2 : list (bool * (rterm * rterm * rterm) * R * list profile) :=
  [ (false, (RDiverg, RDiverg, RDiverg), 1, [Pressure; GamMinSq]);
    (false, (RDiverg, RDiverg, RDiverg), 1, [Pressure; DerGam]) ].
(** rk:395-488, _load_terms_third_contribution_cc() *)
Definition radial_3 : list (bool * (rterm * rterm * rterm) * R * list profile) :=
  let p := [Pressure] in
  [ (true, (RDerXZ1, RZ2c, RDerXZ2c), -1, p);
    (true, (RDerXZ1, RZ1, RDerXZ2c), 1, p);
    (true, (RZ1, RZ2c, RDerXZ2c), 1, p);
    (true, (RZ2c, RZ2c, RDerXZ2c), 1, p);
    (true, (RZ1, RZ1, RDerXZ2c), 1, p);
    (true, (RZ2c, RZ2c, RZ2c), -1, p);
    (true, (RZ1, RZ2c, RZ2c), -2, p);
    (true, (RZ1, RZ2c, RZ2c), 1, p);
    (true, (RZ1, RZ1, RZ2c), 1, p);
    (false, (RDerXZ1, RDerXZ1, RDerXZ1), 2, p);
    (false, (RZ1, RZ1, RZ1), 4, p);
    (false, (RZ2c, RZ2c, RZ2c), 2, p) ].
(** rk:491-521, _load_terms_fourth_contribution_cc() *)
Definition radial_4 : list (bool * (rterm * rterm * rterm) * R * list profile) :=
  [ (true, (RZ1, RZ2c, RZ2c), - (1 / 2), [Density; PR1; DPhi]);
    (true, (RZ1, RZ2c, RZ2c), 1 / 2, [Density; PR2; D2Phi]);
    (false, (RZ1, RZ1, RZ1), 1, [Density; PR3; D3Phi]) ].
Definition radial_table (nr : Z) :=
  match nr with 1 => Some radial_1 | 2 => Some radial_2 | 3 => Some radial_3 | 4 => Some radial_4 | _ => None end%Z.

(** rk:52-83, RadialKernelData(coupler)(contribution_nr): without the adiabatic derivative
    profile the constructor raises AttributeError (rk:92-94); an unknown number gives None *)
Definition radial_kernels (K : kenv) (nr : Z) : res (option (list (kterm rterm))) :=
  match e_adder (k_E K) with
  | None => Exc AttributeError
  | Some ad =>
      Ok (match radial_table nr with
          | None => None
          | Some l => Some (map (fun '(sym, t, f, ps) => radial_kernel_term K ad sym t f ps) l)
          end)
  end.

(** ** Angular kernels *)
Record aterm_entry := { a_term : kterm aterm; a_mu : bool; a_div : bool; a_factor : R }.
(** ak:142-165, _kernel_term_constructor() *)
Definition ang_product (E : cenv) (t : aterm * aterm * aterm) (k : nat) : R :=
  let '(a, b, c) := t in e_ang E a 1%nat k * e_ang E b 2%nat k * e_ang E c 3%nat k.
(** ak:167-205, _scale_angular_terms(): computes the scaled array and binds it to its own local
    name; the caller's array is not changed and nothing is returned *)
Definition scale_angular (E : cenv) (mul_mu div : bool) (factor : R) (row : nat -> C) : nat -> C :=
  fun k => (row k * RtoC (factor * (if mul_mu then e_mu E k else 1) * (if div then 1 / sqrt (1 - e_mu E k ^ 2) else 1)))%C.
(** ak:207-283, _load_angular_kernel_term() *)
Definition angular_kernel_term (E : cenv) (sym : bool) (t : aterm * aterm * aterm) (div : bool) (factor : R) : aterm_entry :=
  let rows := if sym then map (fun key => (key, fun k => RtoC (ang_product E key k))) (perm_keys aterm_beq t)
              else [(t, fun k => RtoC (ang_product E t k))] in
  let scaled := map (fun p => (fst p, scale_angular E false div factor (snd p))) rows in
  let _ := scaled in
  {| a_term := {| t_rows := rows; t_sym := sym |}; a_mu := false; a_div := div; a_factor := factor |}.
(** ak:286-348 *)
Definition angular_1 : list (bool * (aterm * aterm * aterm) * bool * R) :=
  [ (true, (Hr, Hr, Hr), false, 1);
    (true, (DHt, DHt, Hr), false, 1);
    (true, (PhPh, PhPh, Hr), false, 1);
    (true, (ThPh, DHp, Hr), true, -2);
    (true, (DHt, Hr, Hr), false, 1);
    (true, (PhPh, Hr, Hr), false, 1);
    (true, (DHr, Ht, Hr), false, 1);
    (true, (MHr, Hp, Hr), true, -1);
    (true, (Hr, Ht, Ht), false, 1);
    (true, (Hr, Hp, Hp), false, -1) ].
(** ak:351-360 *)
Definition angular_2 : list (bool * (aterm * aterm * aterm) * bool * R) := [ (false, (Hr, Hr, Hr), false, 1) ].
(** ak:363-516 *)
Definition angular_3 : list (bool * (aterm * aterm * aterm) * bool * R) :=
  [ (true, (Hr, Ht, Ht), false, 1);
    (true, (Hr, Hp, Hp), false, -1);
    (true, (DHr, Hr, Ht), false, 1);
    (true, (MHr, Hr, Hp), true, -1);
    (true, (DHr, DHt, Ht), false, 1);
    (true, (MHr, PhPh, Hp), true, 1);
    (true, (MHr, DHp, Ht), true, 1);
    (true, (DHr, ThPh, Hp), true, 1);
    (true, (Ht, DHt, Ht), false, 1);
    (true, (Hp, PhPh, Hp), false, 1);
    (true, (Hp, DHp, Ht), false, 1);
    (true, (ThPh, Ht, Hp), true, 1);
    (true, (DHr, Hr, Ht), false, 1);
    (true, (MHr, Hr, Hp), true, -1);
    (true, (DHt, ThPh, DHp), true, 1);
    (true, (DHp, ThPh, PhPh), true, 1);
    (true, (Hr, ThPh, DHp), true, -1);
    (true, (Hr, PhPh, PhPh), true, 1);
    (true, (Hr, DHt, DHt), true, 1);
    (true, (Hr, Hr, DHt), false, 1);
    (true, (Hr, Hr, PhPh), false, 1);
    (false, (Hr, Hr, Hr), false, 1);
    (false, (PhPh, PhPh, PhPh), false, 1);
    (false, (DHt, DHt, DHt), false, 1) ].
(** ak:519-538 *)
Definition angular_4 : list (bool * (aterm * aterm * aterm) * bool * R) :=
  [ (true, (Hr, Ht, Ht), false, 1); (true, (Hr, Hp, Hp), false, -1); (false, (Hr, Hr, Hr), false, 1) ].
Definition angular_table (nr : Z) :=
  match nr with 1 => Some angular_1 | 2 => Some angular_2 | 3 => Some angular_3 | 4 => Some angular_4 | _ => None end%Z.
(** ak:42-72, AngularKernelData(coupler)(contribution_nr) *)
Definition angular_kernels (E : cenv) (nr : Z) : option (list aterm_entry) :=
  match angular_table nr with
  | None => None
  | Some l => Some (map (fun '(sym, t, d, f) => angular_kernel_term E sym t d f) l)
  end.
