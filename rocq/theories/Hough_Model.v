(** * Model of the Hough function computation (hough-func-tools).
    ct = hough-func-tools/cheby_transform/cheby_transform.py
    hf = hough-func-tools/hough_function/hough_function.py
    hn = hough-func-tools/hough_function/hough_normalizer.py
    hs = hough-func-tools/hough_function/hough_instructions.py
    hh = aesolver/aesolver/angular_integration/rotating_tar_angular/hough_function_handler.py
    qc = aesolver/aesolver/coupling_coefficients/quadratic_coupling_coefficient_rotating.py

    Exact real arithmetic.  A numpy vector of length h is a function [nat -> R] read below h,
    a matrix is [nat -> nat -> R]; numpy.linalg.inv and numpy.linalg.eig are parameters whose
    contracts appear as hypotheses of the theorems (A.X = 1, and A v = w v for each returned
    pair). *)
From Coq Require Import Reals List ZArith Bool Lia Lra String Ascii.
From Verif Require Import Base NumInt_Model.
Import ListNotations.
Local Open Scope R_scope.

(** sum_{k<n} f k: np.dot and ndarray.sum *)
Fixpoint vsum (n : nat) (f : nat -> R) : R :=
  match n with O => 0 | S k => vsum k f + f k end.

Definition vec := nat -> R.
Definition mat := nat -> nat -> R.
(** np.dot of two matrices, of a matrix and a vector *)
Definition mmul (h : nat) (A B : mat) : mat := fun i j => vsum h (fun k => A i k * B k j).
Definition mvec (h : nat) (A : mat) (f : vec) : vec := fun i => vsum h (fun k => A i k * f k).
Definition ident : mat := fun i j => if Nat.eqb i j then 1 else 0.

(** ** Collocation grid and matrices *)
(** ct:39-40, m_size and (even) number of points *)
Definition m_size (npts : nat) : nat := Nat.div npts 2.
(** ct:50-55 *)
Definition theta (h i : nat) : R := PI / INR (2 * h) * (INR i + 1 / 2).
(** ct:57-65 *)
Definition mu_ (h i : nat) : R := cos (theta h i).
Definition s_ (h i : nat) : R := sqrt (1 - mu_ h i ^ 2).
(** ct:78-85 and 105-110: j_index, cij and sij; [parity] true is parity 1 *)
Definition j_index (parity : bool) (j : nat) : nat := if parity then (2 * j + 1)%nat else (2 * j)%nat.
Definition arg (h i jj : nat) : R := PI * INR jj / INR (2 * h) * (INR (2 * h) + INR i + 1 / 2).
(** ct:87, 97, 113, 119: d0 before the inversion; [pf] true is parity factor 1 *)
Definition t0 (h : nat) (parity pf : bool) : mat := fun i j =>
  let cij := cos (arg h i (j_index parity j)) in
  if pf then cij * s_ h i else cij.
(** ct:88-90, 98, 114, 120-122 *)
Definition t1 (h : nat) (parity pf : bool) : mat := fun i j =>
  let jj := INR (j_index parity j) in
  let cij := cos (arg h i (j_index parity j)) in
  let sij := sin (arg h i (j_index parity j)) in
  if pf then jj * sij - cij * mu_ h i / s_ h i else jj * sij / s_ h i.
(** ct:91-95, 99-101, 115-117, 123-127 *)
Definition t2 (h : nat) (parity pf : bool) : mat := fun i j =>
  let jj := INR (j_index parity j) in
  let cij := cos (arg h i (j_index parity j)) in
  let sij := sin (arg h i (j_index parity j)) in
  if pf then (- (jj ^ 2) * cij * s_ h i ^ 2 - jj * sij * mu_ h i * s_ h i - cij) / s_ h i ^ 3
  else jj / s_ h i ^ 3 * (mu_ h i * sij - jj * cij * s_ h i).

(** ct:129-142, _prepare_full_expansion(): [X parity pf] is np.linalg.inv(d0[parity, pf]) *)
Definition invs := bool -> bool -> mat.
Definition d1 (h : nat) (X : invs) (parity pf : bool) : mat := mmul h (t1 h parity pf) (X parity pf).
Definition d2 (h : nat) (X : invs) (parity pf : bool) : mat := mmul h (t2 h parity pf) (X parity pf).

(** ct:174-179 and 214-219: np.dot(np.diag(c), D) has entries c_i D_ik *)
Definition full_matrix (h : nat) (X : invs) (c0 c1 : vec) (c2 : option vec) (parity pf : bool) : mat :=
  fun i k => c1 i * d1 h X parity pf i k + (if Nat.eqb i k then c0 i else 0)
             + match c2 with Some c => c i * d2 h X parity pf i k | None => 0 end.
(** ct:183-219 *)
Definition apply_op (h : nat) (X : invs) (f c0 c1 : vec) (c2 : option vec) (parity pf : bool) : vec :=
  mvec h (full_matrix h X c0 c1 c2 parity pf) f.
(** ct:221-257 *)
Definition diff1 (h : nat) (X : invs) (f : vec) (parity pf : bool) : vec := mvec h (d1 h X parity pf) f.
Definition diff2 (h : nat) (X : invs) (f : vec) (parity pf : bool) : vec := mvec h (d2 h X parity pf) f.

(** ** The HoughFunction object *)
(** str.upper on ASCII *)
Definition upper_ascii (c : ascii) : ascii :=
  let n := nat_of_ascii c in
  if ((97 <=? n) && (n <=? 122))%nat then ascii_of_nat (n - 32) else c.
Fixpoint upper (s : string) : string :=
  match s with EmptyString => EmptyString | String c t => String (upper_ascii c) (upper t) end.
(** hs:20-22: the flags adjust_phi_sign and sin_factor *)
Record instructions := { adjust_phi_sign : bool; sin_factor : bool }.
Definition PRAT := {| adjust_phi_sign := false; sin_factor := false |}.
Definition LEE_SAIO := {| adjust_phi_sign := true; sin_factor := false |}.
Definition TOWNSEND := {| adjust_phi_sign := true; sin_factor := true |}.
(** hs:25-47, get_instructions() (hf:157 lowers the string, hs:41 uppers it again) *)
Definition get_instructions (s : string) : res instructions :=
  let u := upper s in
  if String.eqb u "PRAT" then Ok PRAT
  else if String.eqb u "LEE_SAIO_EQUIVALENT" then Ok LEE_SAIO
  else if String.eqb u "TOWNSEND" then Ok TOWNSEND
  else Exc SystemExit.

(** the lmbd argument: a float or a list of floats (arrays and complex numbers not modelled) *)
Inductive lm := LFloat (x : R) | LList (l : list R).
(** results of one call on the half grid mu > 0 *)
Record hres := {
  r_ev : R; r_hr : vec; r_ht : vec; r_hp : vec; r_hrp : vec; r_hrpp : vec; r_htp : vec; r_hpp : vec }.
Record hobj := {
  o_nu : R; o_l : Z; o_m : Z; o_h : nat; o_lmbd : option lm; o_adj : bool;
  o_ins : instructions; o_res : option hres }.

(** hf:122-160, __init__(); a list has no attribute .real (hf:142) *)
Definition init (nu : R) (l m : Z) (npts : nat) (lmbd : option lm) (use_complex : bool)
    (definition : string) (adj : bool) : res hobj :=
  lm_ <- (match lmbd, use_complex with
          | Some (LList _), false => Exc AttributeError
          | _, _ => Ok lmbd
          end) ;
  ins <- get_instructions definition ;
  Ok {| o_nu := nu; o_l := l; o_m := m; o_h := m_size npts; o_lmbd := lm_; o_adj := adj;
        o_ins := ins; o_res := None |}.

(** hf:136-137: (l - m) % 2 and m % 2 as matrix indices *)
Definition parity_ (o : hobj) : bool := Z.odd (o_l o - o_m o).
Definition pf_ (o : hobj) : bool := Z.odd (o_m o).
(** hf:670 *)
Definition denom (nu : R) (h i : nat) : R := 1 - nu ^ 2 * mu_ h i ^ 2.
(** hf:671-676 *)
Definition lte_2 (nu : R) (h : nat) : vec := fun i => s_ h i ^ 2 / denom nu h i.
Definition lte_1 (nu : R) (h : nat) : vec := fun i => -2 * mu_ h i * (1 - nu ^ 2) / denom nu h i ^ 2.
Definition lte_0 (nu m : R) (h : nat) : vec := fun i =>
  nu * m * (1 + nu ^ 2 * mu_ h i ^ 2) / denom nu h i ^ 2 - m ^ 2 / (s_ h i ^ 2 * denom nu h i).
(** hf:667-680, _colloc(): the matrix handed to np.linalg.eig *)
Definition colloc_matrix (X : invs) (o : hobj) : mat :=
  full_matrix (o_h o) X (lte_0 (o_nu o) (IZR (o_m o)) (o_h o)) (lte_1 (o_nu o) (o_h o))
    (Some (lte_2 (o_nu o) (o_h o))) (parity_ o) (pf_ o).

(** a computed eigenpair: (real part, imaginary part) of the value, of the vector *)
Record epair := { ep_re : R; ep_im : R; ep_vre : vec; ep_vim : vec }.
(** hf:686-693: keep real negative eigenvalues *)
Definition keep (l : list epair) : list (R * vec) :=
  map (fun e => (ep_re e, ep_vre e))
    (filter (fun e => if Req_EM_T (ep_im e) 0 then (if Rlt_dec (ep_re e) 0 then true else false) else false) l).
(** hf:694-697: sort by eigenvalue (np.argsort; modelled as a stable sort) *)
Fixpoint insert (x : R * vec) (l : list (R * vec)) : list (R * vec) :=
  match l with
  | [] => [x]
  | y :: t => if Rle_dec (fst x) (fst y) then x :: y :: t else y :: insert x t
  end.
Definition sort (l : list (R * vec)) : list (R * vec) := fold_right insert [] l.
(** hf:698-715: the estimate, also stored back in self._lmbd *)
Definition estimate (o : hobj) : res R :=
  match o_lmbd o with
  | None => Ok (- IZR (o_l o) * (IZR (o_l o) + 1))
  | Some (LList []) => Exc IndexError
  | Some (LList (x :: _)) => Ok (if o_adj o then (-1) * x else x)
  | Some (LFloat x) => Ok (if o_adj o then x * (-1) else x)
  end.
(** hf:717: first minimum of |estimate - eigenvalue| (np.argmin of an empty array raises) *)
Fixpoint argmin_from (est : R) (best : R * vec) (l : list (R * vec)) : R * vec :=
  match l with
  | [] => best
  | y :: t => if Rlt_dec (Rabs (est - fst y)) (Rabs (est - fst best)) then argmin_from est y t
              else argmin_from est best t
  end.
Definition argmin (est : R) (l : list (R * vec)) : res (R * vec) :=
  match l with [] => Exc ValueError | x :: t => Ok (argmin_from est x t) end.
(** np.abs(f).max() over h entries *)
Fixpoint max_abs (h : nat) (f : vec) : R :=
  match h with O => 0 | S k => Rmax (max_abs k f) (Rabs (f k)) end.
(** hf:720-725: sign and scale of the eigenvector *)
Definition oriented (h : nat) (f : vec) : vec :=
  let g := if Rlt_dec (f (h - 1)%nat) 0 then (fun i => f i * -1) else f in
  fun i => g i / max_abs h g.

(** hf:735-752, _get_latitudinal_hough() *)
Definition ht_coeff_1 (nu : R) (h : nat) : vec := fun i => - (s_ h i ^ 2) / denom nu h i.
Definition ht_coeff_0 (nu m : R) (h : nat) : vec := fun i => - m * nu * mu_ h i / denom nu h i.
Definition latitudinal (X : invs) (o : hobj) (hr : vec) : vec :=
  let h := o_h o in
  let v := fun i => apply_op h X hr (ht_coeff_0 (o_nu o) (IZR (o_m o)) h) (ht_coeff_1 (o_nu o) h) None
                      (parity_ o) (pf_ o) i / s_ h i in
  if sin_factor (o_ins o) then fun i => v i * s_ h i else v.
(** hf:755-786, _get_azimuthal_hough() *)
Definition hp_coeff_1 (nu : R) (h : nat) : vec := fun i => nu * mu_ h i * s_ h i ^ 2 / denom nu h i.
Definition hp_coeff_0 (nu m : R) (h : nat) : vec := fun i => m / denom nu h i.
Definition azimuthal (X : invs) (o : hobj) (hr : vec) : vec :=
  let h := o_h o in
  let v := fun i => apply_op h X hr (hp_coeff_0 (o_nu o) (IZR (o_m o)) h) (hp_coeff_1 (o_nu o) h) None
                      (parity_ o) (pf_ o) i / s_ h i in
  let w := if adjust_phi_sign (o_ins o) then fun i => v i * -1 else v in
  if sin_factor (o_ins o) then fun i => w i * s_ h i else w.
(** hf:801-836 *)
Definition htp_coeff_2 (nu : R) (h : nat) : vec := fun i => - (s_ h i ^ 4) / denom nu h i.
Definition htp_coeff_1 (nu m : R) (h : nat) : vec := fun i =>
  s_ h i ^ 2 * (- m * nu * mu_ h i * denom nu h i + mu_ h i + mu_ h i ^ 3 * nu ^ 2 - 2 * mu_ h i * nu ^ 2)
  / denom nu h i ^ 2.
Definition htp_coeff_0 (nu m : R) (h : nat) : vec := fun i =>
  m * nu * (2 * mu_ h i ^ 4 * nu ^ 2 - mu_ h i ^ 2 * nu ^ 2 - 1) / denom nu h i ^ 2.
Definition d_latitudinal (X : invs) (o : hobj) (hr ht : vec) : vec :=
  let h := o_h o in
  let v := fun i => apply_op h X hr (htp_coeff_0 (o_nu o) (IZR (o_m o)) h) (htp_coeff_1 (o_nu o) (IZR (o_m o)) h)
                      (Some (htp_coeff_2 (o_nu o) h)) (parity_ o) (pf_ o) i / s_ h i ^ 3 in
  if sin_factor (o_ins o) then fun i => s_ h i * v i - mu_ h i * ht i / s_ h i ^ 2 else v.
(** hf:839-876 *)
Definition hpp_coeff_2 (nu : R) (h : nat) : vec := fun i => nu * mu_ h i * s_ h i ^ 4 / denom nu h i.
Definition hpp_coeff_1 (nu m : R) (h : nat) : vec := fun i =>
  s_ h i ^ 2 * (m * denom nu h i + nu + nu ^ 3 * mu_ h i ^ 2 - 2 * mu_ h i ^ 2 * nu) / denom nu h i ^ 2.
Definition hpp_coeff_0 (nu m : R) (h : nat) : vec := fun i =>
  m * mu_ h i * (1 - nu ^ 2 * mu_ h i ^ 2 + 2 * nu ^ 2 - 2 * nu ^ 2 * mu_ h i ^ 2) / denom nu h i ^ 2.
Definition d_azimuthal (X : invs) (o : hobj) (hr hp : vec) : vec :=
  let h := o_h o in
  let v := fun i => apply_op h X hr (hpp_coeff_0 (o_nu o) (IZR (o_m o)) h) (hpp_coeff_1 (o_nu o) (IZR (o_m o)) h)
                      (Some (hpp_coeff_2 (o_nu o) h)) (parity_ o) (pf_ o) i / s_ h i ^ 3 in
  if sin_factor (o_ins o) then fun i => s_ h i * v i - mu_ h i * hp i / s_ h i ^ 2 else v.

(** everything computed from the chosen eigenpair, hf:719-881 *)
Definition results (X : invs) (o : hobj) (ev : R) (v : vec) : hres :=
  let h := o_h o in
  let hr := oriented h v in
  let ht := latitudinal X o hr in
  let hp := azimuthal X o hr in
  {| r_ev := ev; r_hr := hr; r_ht := ht; r_hp := hp;
     r_hrp := diff1 h X hr (parity_ o) (pf_ o); r_hrpp := diff2 h X hr (parity_ o) (pf_ o);
     r_htp := d_latitudinal X o hr ht; r_hpp := d_azimuthal X o hr hp |}.

(** hf:644-664, __call__(): the object after the call *)
Definition hf_call (X : invs) (eig : mat -> list epair) (o : hobj) : res hobj :=
  est <- estimate o ;
  p <- argmin est (sort (keep (eig (colloc_matrix X o)))) ;
  Ok {| o_nu := o_nu o; o_l := o_l o; o_m := o_m o; o_h := o_h o; o_lmbd := Some (LFloat est);
        o_adj := o_adj o; o_ins := o_ins o; o_res := Some (results X o (fst p) (snd p)) |}.

(** ** Theta derivatives and extension to the southern hemisphere *)
(** hf:884-900 *)
Definition hrp_theta (h : nat) (r : hres) : vec := fun i => - s_ h i * r_hrp r i.
Definition htp_theta (h : nat) (r : hres) : vec := fun i => - s_ h i * r_htp r i.
Definition hpp_theta (h : nat) (r : hres) : vec := fun i => - s_ h i * r_hpp r i.
Definition hrpp_theta (h : nat) (r : hres) : vec := fun i => s_ h i ^ 2 * r_hrpp r i - mu_ h i * r_hrp r i.
(** hf:168-186, 245-253: (-1)^|k| and (-1)^(|k|+1), k = l - |m| *)
Definition k_grav (o : hobj) : Z := (o_l o - Z.abs (o_m o))%Z.
Definition sgn_k (o : hobj) : R := (-1) ^ Z.abs_nat (k_grav o).
Definition sgn_k1 (o : hobj) : R := (-1) ^ (Z.abs_nat (k_grav o) + 1).
(** hf:65-68: np.concatenate([value1, value2[::-1]]), entry i < 2h *)
Definition concat_rev (h : nat) (a b : vec) : vec := fun i =>
  if (i <? h)%nat then a i else b (2 * h - 1 - i)%nat.
Definition extend (h : nat) (sgn : R) (f : vec) : vec := concat_rev h (fun i => sgn * f i) f.
(** hf:404-434 *)
Definition mu_full (h : nat) : vec := concat_rev h (fun i => -1 * mu_ h i) (mu_ h).
(** hf:448-457 and 256-265 *)
Definition hr_range (o : hobj) (r : hres) : vec := extend (o_h o) (sgn_k o) (r_hr r).
(** hf:459-470 *)
Definition hr_range_m (o : hobj) (r : hres) : vec := fun i => -1 * IZR (o_m o) * hr_range o r i.
(** hf:473-482 and 270-281 *)
Definition ht_range (o : hobj) (r : hres) : vec := extend (o_h o) (sgn_k1 o) (r_ht r).
(** hf:484-493 and 284-295 *)
Definition hp_range (o : hobj) (r : hres) : vec := extend (o_h o) (sgn_k o) (r_hp r).
(** hf:495-517 and 298-323 *)
Definition hrp_range (o : hobj) (r : hres) : vec := extend (o_h o) (sgn_k1 o) (r_hrp r).
Definition hrp_range_theta (o : hobj) (r : hres) : vec := extend (o_h o) (sgn_k1 o) (hrp_theta (o_h o) r).
(** hf:519-541 and 326-349 *)
Definition hrpp_range (o : hobj) (r : hres) : vec := extend (o_h o) (sgn_k1 o) (r_hrpp r).
Definition hrpp_range_theta (o : hobj) (r : hres) : vec := extend (o_h o) (sgn_k1 o) (hrpp_theta (o_h o) r).
(** hf:543-565 and 352-375 *)
Definition htp_range (o : hobj) (r : hres) : vec := extend (o_h o) (sgn_k o) (r_htp r).
Definition htp_range_theta (o : hobj) (r : hres) : vec := extend (o_h o) (sgn_k o) (htp_theta (o_h o) r).
(** hf:567-589 and 378-401 *)
Definition hpp_range (o : hobj) (r : hres) : vec := extend (o_h o) (sgn_k1 o) (r_hpp r).
Definition hpp_range_theta (o : hobj) (r : hres) : vec := extend (o_h o) (sgn_k1 o) (hpp_theta (o_h o) r).
(** hf:591-613 *)
Definition theta_phi (o : hobj) (r : hres) : vec :=
  let h := o_h o in let m := IZR (o_m o) in
  concat_rev h (fun i => m * (sgn_k1 o * r_ht r i) - (-1 * mu_ h i) * (sgn_k o * r_hp r i))
               (fun i => m * r_ht r i - mu_ h i * r_hp r i).
(** hf:616-641 *)
Definition phi_phi (o : hobj) (r : hres) : vec :=
  let h := o_h o in let m := IZR (o_m o) in
  concat_rev h (fun i => ((-1 * mu_ h i) * (sgn_k1 o * r_ht r i) - m * (sgn_k o * r_hp r i)) / s_ h i)
               (fun i => (mu_ h i * r_ht r i - m * r_hp r i) / s_ h i).

(** ** Normalisation *)
(** hn:83-111 *)
Definition prat_factor (n : nat) (hr : vec) : R := 1 / max_abs n hr.
(** hn:115-143; [hist] = earlier integrator calls of the process *)
Definition lee_factor (hist : list (@NumInt_Model.call R)) (threads : Z) (par : bool) (n : nat) (mu hr : vec) : res R :=
  q <- integrate RA hist "trapz" true (map (fun i => hr i ^ 2) (seq 0 n)) (map mu (seq 0 n)) threads par ;
  Ok (1 / sqrt (2 * PI * q)).
(** hn:30-66, get_norm_factor() *)
Definition get_norm_factor (hist : list (@NumInt_Model.call R)) (procedure : string) (threads : Z) (par : bool)
    (n : nat) (mu hr : vec) : res R :=
  let u := upper procedure in
  if String.eqb u "LEE2012" then lee_factor hist threads par n mu hr
  else if String.eqb u "PRAT2019" then Ok (prat_factor n hr)
  else Exc SystemExit.
(** qc:632-664, _normalize_houghs() for one mode: the 14 arrays, the first being hr *)
Definition normalize_houghs (hist : list (@NumInt_Model.call R)) (procedure : string) (threads : Z) (par : bool)
    (n : nat) (mu hr : vec) (others : list vec) : res (vec * list vec) :=
  f <- get_norm_factor hist procedure threads par n mu hr ;
  Ok (fun i => hr i * f, map (fun a i => a i * f) others).
