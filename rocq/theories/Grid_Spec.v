(** * Specification vocabulary for the coupling object's arrays (C116-C124) *)
From Coq Require Import List ZArith Lia Reals String Bool.
From Coquelicot Require Import Complex.
From Verif Require Import Base Load_Model Grid_Model.
Import ListNotations.
Local Open Scope R_scope.

(** strictly / weakly increasing sample points *)
Definition increasing (l : list R) : Prop := forall i j, (i < j < List.length l)%nat -> nth i l 0 < nth j l 0.
Definition nondecreasing (l : list R) : Prop := forall i j, (i < j < List.length l)%nat -> nth i l 0 <= nth j l 0.
(** r is the value at t of the piecewise linear function through (xp_i, fp_i), constant outside *)
Definition lin_interp (xp fp : list R) (t r : R) : Prop :=
  let n := List.length xp in
  (t < nth 0 xp 0 /\ r = nth 0 fp 0) \/
  (nth (n - 1) xp 0 <= t /\ r = nth (n - 1) fp 0) \/
  (exists i, (S i < n)%nat /\ nth i xp 0 <= t < nth (S i) xp 0 /\
     r = nth i fp 0 + (nth (S i) fp 0 - nth i fp 0) * ((t - nth i xp 0) / (nth (S i) xp 0 - nth i xp 0))).
(** all but the first and the last point *)
Definition kept {A} (l : list A) : list A := removelast (tl l).
(** the complex samples of an array value *)
Definition samples (v : gval) : option (list C) :=
  match v with VArr a => Some (map RtoC a) | VCpx a => Some a | VComp a => Some a | _ => None end.
(** w holds at every point of xs the piecewise linear interpolant of the samples of v at xp *)
Definition resampled (xs xp : list R) (v : gval) (w : list C) : Prop :=
  exists s, samples v = Some s /\ List.length s = List.length xp /\ List.length w = List.length xs /\
    forall j, (j < List.length xs)%nat ->
      lin_interp xp (map fst s) (nth j xs 0) (fst (nth j w (RtoC 0))) /\
      lin_interp xp (map snd s) (nth j xs 0) (snd (nth j w (RtoC 0))).
Definition array_at (o : obj) (k : string) (l : list C) : Prop := exists v, o k = Some v /\ samples v = Some l.
Definition tab {A} (n : nat) (f : nat -> A) : list A := map f (seq 0 n).

(** ** Inputs *)
Local Open Scope string_scope.
(** the radial functions of a mode *)
Definition mode_functions : list string :=
  ["y_1"; "y_2"; "y_3"; "y_4"; "y_5"; "y_6"; "xi_r"; "xi_h"; "eul_phi"; "deul_phi"; "lag_L"; "eul_P"; "eul_rho"; "eul_T"; "lag_P";
   "lag_rho"; "lag_T"; "xi_r_dim"; "xi_h_dim"; "eul_phi_dim"; "deul_phi_dim"; "lag_L_dim"; "eul_P_dim"; "eul_rho_dim"; "eul_T_dim";
   "lag_P_dim"; "lag_rho_dim"; "lag_T_dim"].
(** the data of one mode: a dictionary with its grid [xp], the number of points, and radial functions sampled on that grid *)
Record mode_ok (d : gdict) (xp : list R) : Prop := {
  mo_keys : NoDup (map fst d);
  mo_x : dget "x" d = Some (VArr xp);
  mo_n : dget "n" d = Some (VInt (Z.of_nat (List.length xp)));
  mo_pos : (0 < List.length xp)%nat;
  mo_incr : nondecreasing xp;
  mo_funs : forall k v, In (k, v) d -> In k mode_functions -> exists s, samples v = Some s /\ List.length s = List.length xp }.
(** names under which attributes of a mode and of the structure profile are kept *)
Definition of_mode (k : string) (i : string) : string := "_" ++ k ++ "_mode_" ++ i.
Definition of_profile (k : string) : string := "_" ++ k ++ "_profile".
(** the MESA profile, surface first: radius and columns of the same length; numbers and strings do not carry the name of an
    attribute of a mode or of the structure *)
Record profile_ok (prof : gdict) (rname : string) (rad : list R) : Prop := {
  po_keys : NoDup (map fst prof);
  po_rad : dget rname prof = Some (VArr rad);
  po_pos : (0 < List.length rad)%nat;
  po_cols : forall k v, In (k, v) prof -> scalar v = false -> exists a, v = VArr a /\ List.length a = List.length rad;
  po_scalars : forall k v, In (k, v) prof -> scalar v = true ->
    (forall q i, In i ["1"; "2"; "3"] -> "_" ++ k <> of_mode q i) /\ (forall q, "_" ++ k <> of_profile q) /\
    ~ In k ["x"; "M_r"; "rho"; "P"; "Gamma_1"; "c_1"; "V_2"; "As"; "U"; "R_star"; "G"; "norm_P"; "norm_rho"] }.
Definition structure_names : list string := ["M_r"; "rho"; "P"; "Gamma_1"; "c_1"; "V_2"; "As"; "U"].
(** the radial functions whose end points are removed *)
Definition mesa_functions : list string := ["y_1"; "y_2"; "xi_r"; "xi_h"; "eul_phi"; "deul_phi"].
Definition poly_functions : list string := ["y_1"; "y_2"; "xi_r"; "xi_h"].
(** numerical differentiation (x, y) -> dy/dx of n values returns n values *)
Definition derivative_ok (der : list R -> list R -> res (list (option (list R)))) (n : nat) : Prop :=
  forall x y, List.length x = n -> List.length y = n -> exists d0 d, der x y = Ok [d0; Some d] /\ List.length d = n.
(** three modes, of which the first has the most points, their structure data and the MESA profile *)
Record mesa_input (d1 d2 d3 prof : gdict) (x1 x2 x3 : list R) (st : string -> list R) (Rs G : R) (rad N2 ad : list R) : Prop := {
  mi_1 : mode_ok d1 x1; mi_2 : mode_ok d2 x2; mi_3 : mode_ok d3 x3;
  mi_first : (3 <= List.length x1 /\ List.length x2 <= List.length x1 /\ List.length x3 <= List.length x1)%nat;
  mi_funs : forall d k, In d [d1; d2; d3] -> In k mesa_functions -> exists v, dget k d = Some v;
  mi_st : forall k, In k structure_names -> dget k d1 = Some (VArr (st k)) /\ List.length (st k) = List.length x1;
  mi_R : dget "R_star" d1 = Some (VNum Rs); mi_G : dget "G" d1 = Some (VNum G);
  mi_prof : profile_ok prof "radius" rad;
  mi_N2 : dget "brunt_N2" prof = Some (VArr N2);
  mi_ad : dget "gamma_1_adDer" prof = Some (VArr ad) }.

(** ** Polytropes *)
(** the grid of the first of the modes that have the most points *)
Definition longest_grid (x1 x2 x3 xs : list R) : Prop :=
  (List.length x1 <= List.length xs /\ List.length x2 <= List.length xs /\ List.length x3 <= List.length xs)%nat /\
  (xs = x1 \/ (List.length x1 < List.length xs)%nat /\ xs = x2 \/
   (List.length x1 < List.length xs)%nat /\ (List.length x2 < List.length xs)%nat /\ xs = x3).
(** the columns of the polytropic structure that are used, and its analytical derivatives with the attributes they are kept under *)
Definition poly_columns : list string := ["r"; "mr"; "rho"; "p"; "brunt_n2"; "c1"; "v2"; "as"; "u"].
Definition poly_derivatives : list (string * string) :=
  [("_dgravpot", "dgravpot"); ("_dgravpot2", "dgravpot2"); ("_dgravpot3", "dgravpot3"); ("_drho", "drho"); ("_drho2", "drho2");
   ("_drho3", "drho3"); ("_dP", "dp"); ("_dP2", "dp2"); ("_dP3", "dp3")].
(** three modes and a polytropic structure (centre first) with as many points as the finest mode grid [xs] *)
Record poly_input (d1 d2 d3 prof : gdict) (x1 x2 x3 xs : list R) (col : string -> list R) (G1 : list R) (P0 rho0 Gp G Rs : R) : Prop := {
  pi_1 : mode_ok d1 x1; pi_2 : mode_ok d2 x2; pi_3 : mode_ok d3 x3;
  pi_grid : longest_grid x1 x2 x3 xs;
  pi_len : (3 <= List.length xs)%nat;
  pi_funs : forall d k, In d [d1; d2; d3] -> In k poly_functions -> exists v, dget k d = Some v;
  pi_G1 : dget "Gamma_1" d1 = Some (VArr G1);
  pi_G : dget "G" d1 = Some (VNum G); pi_R : dget "R_star" d1 = Some (VNum Rs);
  pi_keys : NoDup (map fst prof);
  pi_cols : forall k, In k poly_columns -> dget k prof = Some (VArr (col k)) /\ List.length (col k) = List.length xs;
  pi_P0 : dget "p0" prof = Some (VNum P0); pi_rho0 : dget "rho0" prof = Some (VNum rho0); pi_Gp : dget "G" prof = Some (VNum Gp) }.

(** ** Derived structure *)
(** value i of a real array of the object *)
Definition val (o : obj) (k : string) (i : nat) : R := match o k with Some (VArr a) => nth i a 0%R | _ => 0%R end.
Definition real_array (o : obj) (k : string) (n : nat) : Prop := exists a, o k = Some (VArr a) /\ List.length a = n.
(** gravity, density gradient of a stratification with Brunt-Vaisala frequency N2, Poisson's equation and its derivative,
    hydrostatic equilibrium and its first two derivatives, at one radius r *)
Definition structure_equations (G r M rho P G1 N2 g drho drho2 g2 g3 p1 p2 p3 : R) : Prop :=
  (g = G * M / r ^ 2 /\ drho = rho * (- rho * g / (G1 * P) - N2 / g) /\
   g2 = 4 * PI * G * rho - 2 * g / r /\ g3 = 4 * PI * G * drho + 2 / r * (g / r - g2) /\
   p1 = - (rho * g) /\ p2 = - (drho * g + rho * g2) /\ p3 = - (drho2 * g + 2 * drho * g2 + rho * g3))%R.
Definition derived_names : list string :=
  ["_dgravpot"; "_dgravpot2"; "_dgravpot3"; "_drho"; "_drho2"; "_drho3"; "_dP"; "_dP2"; "_dP3"; "_P_normed"; "_dP_normed";
   "_dP2_normed"; "_dP3_normed"; "_rho_normed"; "_drho_normed"; "_drho2_normed"; "_drho3_normed"].
(** the normalised arrays with the array they are computed from *)
Definition pressure_like (P : string) : list (string * string) := [("_P_normed", P); ("_dP_normed", "_dP"); ("_dP2_normed", "_dP2"); ("_dP3_normed", "_dP3")].
Definition density_like (rho : string) : list (string * string) :=
  [("_rho_normed", rho); ("_drho_normed", "_drho"); ("_drho2_normed", "_drho2"); ("_drho3_normed", "_drho3")].
Definition greatest (l : list R) (m : R) : Prop := In m l /\ forall v, In v l -> (v <= m)%R.
(** a column of the MESA profile (surface first, at radii [rad]) on the grid [xs] of the modes (centre first, radius 1 at the surface) *)
Definition profile_on_grid (xs rad a w : list R) : Prop :=
  List.length w = List.length xs /\
  (List.length rad = List.length xs -> w = rev a) /\
  (List.length rad <> List.length xs -> forall R0, greatest rad R0 -> forall j, (j < List.length xs)%nat ->
     lin_interp (rev (map (fun r => r / R0)%R rad)) (rev a) (nth j xs 0%R) (nth j w 0%R)).
