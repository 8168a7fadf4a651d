(** * What the loader should select and return, in terms of file names and stored values. *)
From Coq Require Import List ZArith Reals String Ascii Bool.
From Verif Require Import Base Load_Model.
Import ListNotations.
Local Open Scope string_scope.

Definition no_newline (s : text) : Prop := ~ In "010"%char s.
Definition starts_digit (s : text) : Prop := match s with c :: _ => digit c = true | [] => False end.
(** the number written after the last occurrence of the tag that is directly followed by a digit; all its digits *)
Definition last_number (tag s : text) (v : Z) : Prop :=
  exists pre ds post, s = (pre ++ tag ++ ds ++ post)%list /\ ds <> [] /\ forallb digit ds = true /\ ~ starts_digit post /\ v = int_of ds /\
    forall pre' post', s = (pre' ++ tag ++ post')%list -> starts_digit post' -> (List.length pre' <= List.length pre)%nat.
(** likewise for an azimuthal order: m, then one of + | -, then digits; any sign but + negates *)
Definition last_signed (s : text) (v : Z) : Prop :=
  exists pre sg ds post, s = (pre ++ "m"%char :: sg :: ds ++ post)%list /\ In sg ["+"; "|"; "-"]%char /\ ds <> [] /\ forallb digit ds = true /\
    ~ starts_digit post /\ v = (if Ascii.eqb sg "+" then int_of ds else - int_of ds)%Z /\
    forall pre' sg' post', s = (pre' ++ "m"%char :: sg' :: post')%list -> In sg' ["+"; "|"; "-"]%char -> starts_digit post' -> (List.length pre' <= List.length pre)%nat.
(** a word occurs in a text *)
Definition occurs (w s : text) : Prop := exists a b, s = (a ++ w ++ b)%list.
(** what the additional substrings ask of the name for mode i (from 0) *)
Definition substrings_ok (sub : substr) (name : string) (i : nat) : Prop :=
  match sub with
  | SNone => True
  | SStr s => occurs (txt s) (txt name)
  | SList l => exists s, nth_error l i = Some s /\ occurs (txt s) (txt name)
  | STuple l => forall s, In s l -> occurs (txt s) (txt name)
  end.
(** a place where a quantum number could be read: l and a digit; m, a sign and a digit; n+ and a digit *)
Definition number_tag (b : text) : Prop :=
  match b with
  | "l"%char :: r => starts_digit r
  | "m"%char :: c :: r => In c ["+"; "|"; "-"]%char /\ starts_digit r
  | "n"%char :: "+"%char :: r => starts_digit r
  | _ => False
  end.
(** text that may stand between or after the quantum numbers of a file name *)
Definition neutral (s : text) : Prop := ~ starts_digit s /\ forall a b, s = (a ++ b)%list -> ~ number_tag b.
(** stem l<degree> .. m<sign><order> .. n+<radial order> extension, digits possibly zero-padded *)
Definition conventional (stem dl s1 : text) (sg : ascii) (dm s2 dn ext : text) : text :=
  (stem ++ "l"%char :: dl ++ s1 ++ "m"%char :: sg :: dm ++ s2 ++ "n"%char :: "+"%char :: dn ++ ext)%list.
Definition number (ds : text) : Prop := ds <> [] /\ forallb digit ds = true.
Definition signed_value (sg : ascii) (ds : text) : Z := if Ascii.eqb sg "+" then int_of ds else (- int_of ds)%Z.
(** SI value of one CGS unit, by the key under which a GYRE quantity is returned *)
Definition si_per_cgs (k : string) : R :=
  if in_dec string_dec k ["M_star"; "M_r"; "G"] then (/ 1000)%R                                             (* kg per g; N m^2 kg^-2 per dyn cm^2 g^-2 *)
  else if in_dec string_dec k ["R_star"; "xi_r_dim"; "xi_h_dim"; "xi_r_ref_dim"; "xi_h_ref_dim"; "lag_S_dim"; "lag_S_ref_dim"] then (/ 100)%R  (* m per cm *)
  else if in_dec string_dec k ["deul_phi_dim"; "deul_phi_ref_dim"] then (/ 100)%R                           (* m s^-2 per cm s^-2 *)
  else if in_dec string_dec k ["eul_phi_dim"; "eul_phi_ref_dim"] then (/ 10000)%R                           (* m^2 s^-2 per cm^2 s^-2 *)
  else if in_dec string_dec k ["P"; "eul_P_dim"; "lag_P_dim"] then (/ 10)%R                                 (* Pa per barye *)
  else if in_dec string_dec k ["rho"; "eul_rho_dim"; "lag_rho_dim"] then 1000%R                             (* kg m^-3 per g cm^-3 *)
  else if in_dec string_dec k ["L_star"; "lag_L_dim"; "lag_L_ref_dim"] then (/ 10000000)%R                  (* W per erg s^-1 *)
  else if in_dec string_dec k ["E_dim"; "E_p_dim"; "E_g_dim"; "dE_dx_dim"; "H_dim"; "W_dim"; "W_eps_dim"; "tau_ss_dim"; "tau_tr_dim"; "dW_dx_dim";
                               "dW_eps_dx_dim"; "dtau_ss_dx_dim"; "dtau_tr_dx_dim"] then (/ 10000000)%R      (* J per erg; kg m^2 per g cm^2 *)
  else 1%R.
(** a value times a number *)
Definition vscale (c : R) (v : val) : val :=
  match v with
  | VReal l => VReal (map (Rmult c) l)
  | VCx l => VCx (map (fun z => (c * fst z, c * snd z)%R) l)
  | other => other
  end.
(** the file named [name] is the one asked for as mode i *)
Definition names_mode (q : search) (sub : substr) (g : bool) (i : nat) (name : string) : Prop :=
  substrings_ok sub name i /\ last_number ["l"%char] (txt name) (nth i (s_l q) 0%Z) /\ last_signed (txt name) (nth i (s_m q) 0%Z) /\
  last_number ["n"%char; "+"%char] (txt name) (nth i (s_n q) 0%Z) /\ occurs (txt (if g then "g_mode" else "p_mode")) (txt name).
(** as many degrees, azimuthal orders and radial orders as modes, and at least as many g-mode flags (and substrings, if a list) *)
Definition well_formed_search (q : search) (sub : substr) (g_modes : list bool) : Prop :=
  List.length (s_m q) = List.length (s_l q) /\ List.length (s_n q) = List.length (s_l q) /\ (List.length (s_l q) <= List.length g_modes)%nat /\
  match sub with SList l => (List.length (s_l q) <= List.length l)%nat | _ => True end.
(** suffixes that can be read *)
Definition readable (name : string) : Prop :=
  exists stem suffix, name = stem ++ "." ++ suffix /\ ~ In "."%char (txt suffix) /\ In (upper suffix) ["H5"; "HDF5"; "TXT"; "DAT"].
(** what is read: for each known name the dataset of that name, else the attribute of that name, else nothing; text files give nothing *)
Definition stored {V} (c : content V) (k : string) : option V := match dget k (c_main c) with Some v => Some v | None => dget k (c_extra c) end.
Definition text_file (name : string) : Prop := exists stem suffix, name = stem ++ "." ++ suffix /\ ~ In "."%char (txt suffix) /\ upper suffix = "TXT".
Definition read_from {V} (attrs : list string) (e : entry V) (d : dict V) : Prop :=
  NoDup (map fst d) /\ (text_file (e_name e) -> d = []) /\
  (~ text_file (e_name e) -> forall k, dget k d = if in_dec string_dec k attrs then stored (e_content e) k else None).
(** exactly one entry of a list has a property *)
Definition the_only {A} (P : A -> Prop) (l : list A) (x : A) : Prop := exists l1 l2, l = (l1 ++ x :: l2)%list /\ P x /\ forall y, In y (l1 ++ l2)%list -> ~ P y.
(** the star behind a GYRE detail file: constant of gravity, mass, radius, luminosity, and profiles of pressure, density and temperature *)
Record scales := { sc_G : R; sc_M : R; sc_R : R; sc_L : R; sc_P : list R; sc_rho : list R; sc_T : list R }.
(** the unit in which GYRE writes a quantity, at grid point i *)
Definition unit_of (s : scales) (k : string) : option (nat -> R) :=
  let const (u : R) := Some (fun _ : nat => u) in
  if in_dec string_dec k ["xi_r"; "xi_h"; "xi_r_ref"; "xi_h_ref"; "lag_S"; "lag_S_ref"] then const (sc_R s)
  else if in_dec string_dec k ["eul_phi"; "eul_phi_ref"] then const (sc_G s * sc_M s / sc_R s)%R
  else if in_dec string_dec k ["deul_phi"; "deul_phi_ref"] then const (sc_G s * sc_M s / sc_R s ^ 2)%R
  else if in_dec string_dec k ["eul_P"; "lag_P"] then Some (fun i => nth i (sc_P s) 0%R)
  else if in_dec string_dec k ["eul_rho"; "lag_rho"] then Some (fun i => nth i (sc_rho s) 0%R)
  else if in_dec string_dec k ["eul_T"; "lag_T"] then Some (fun i => nth i (sc_T s) 0%R)
  else if in_dec string_dec k ["Omega_rot"; "Delta_p"; "Delta_g"] then const (sqrt (sc_G s * sc_M s / sc_R s ^ 3))
  else if in_dec string_dec k ["lag_L"; "lag_L_ref"] then const (sc_L s)
  else if in_dec string_dec k ["E"; "E_p"; "E_g"; "dE_dx"] then const (sc_M s * sc_R s ^ 2)%R
  else if in_dec string_dec k ["H"; "W"; "W_eps"; "tau_ss"; "tau_tr"; "dW_dx"; "dW_eps_dx"; "dtau_ss_dx"; "dtau_tr_dx"] then const (sc_G s * sc_M s ^ 2 / sc_R s)%R
  else None.
(** labels and counters, left as they are; quantities stored as (re, im) pairs; all others are real *)
Definition labels : list string := ["freq_units"; "freq_frame"; "n"; "j"; "l"; "m"; "n_p"; "n_g"; "n_pg"; "prop_type"].
Definition pairs : list string :=
  ["xi_r"; "xi_h"; "eul_phi"; "deul_phi"; "eul_P"; "eul_rho"; "eul_T"; "lag_P"; "lag_rho"; "lag_T"; "lag_S"; "lag_L"; "xi_r_ref"; "xi_h_ref"; "eul_phi_ref";
   "deul_phi_ref"; "lag_S_ref"; "lag_L_ref"; "omega"; "freq"; "omega_int"; "l_i"; "lambda"; "y_1"; "y_2"; "y_3"; "y_4"; "y_5"; "y_6"; "dzeta_dx"; "Yt_1"; "Yt_2";
   "I_0"; "I_1"; "dbeta_dx"].
Definition on_grid : list string := ["eul_P"; "lag_P"; "eul_rho"; "lag_rho"; "eul_T"; "lag_T"].
(** what a GYRE detail file holds *)
Definition detail_data (s : scales) (d : dict val) : Prop :=
  NoDup (map fst d) /\ (forall k v, In (k, v) d -> In k gyre_detail_attrs) /\
  dget "M_star" d = Some (VReal [sc_M s]) /\ dget "R_star" d = Some (VReal [sc_R s]) /\ dget "L_star" d = Some (VReal [sc_L s]) /\
  dget "P" d = Some (VReal (sc_P s)) /\ dget "rho" d = Some (VReal (sc_rho s)) /\ dget "T" d = Some (VReal (sc_T s)) /\
  List.length (sc_rho s) = List.length (sc_P s) /\ List.length (sc_T s) = List.length (sc_P s) /\
  forall k v, In (k, v) d -> ~ In k labels ->
    if in_dec string_dec k pairs then exists l, v = VReIm l /\ (In k on_grid -> List.length l = List.length (sc_P s)) else exists l, v = VReal l.
(** a stored quantity with every element times its unit; (re, im) pairs become complex numbers *)
Definition in_units (U : nat -> R) (v : val) : val :=
  match v with
  | VReal l => VReal (map (fun i => nth i l 0 * U i)%R (seq 0 (List.length l)))
  | VReIm l => VCx (map (fun i => (fst (nth i l (0, 0)) * U i, snd (nth i l (0, 0)) * U i)%R) (seq 0 (List.length l)))
  | other => other
  end.
