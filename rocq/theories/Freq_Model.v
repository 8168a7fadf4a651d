(** * Model of the frequency handling, in exact real arithmetic.
    Sources: aesolver/aesolver/frequency_handling/frequency_handler.py (fh) and
    enumeration_files/enumeration_freq_converter_normalization.py (fe).
    Simplifications: IEEE doubles are real numbers (division by zero has Coq's
    default value); strings are ASCII and byte strings are strings; a GYRE 'freq'
    entry (a complex array of length one) is a pair (real, imaginary part); arrays
    over the modes are lists; np.empty arrays hold arbitrary contents, given by the
    parameter [garbage]; logging is dropped. *)
From Coq Require Import Reals List String Ascii ZArith Bool.
From Verif Require Import Base Py Stab_Model Stat_Model.
Import ListNotations.
Local Open Scope R_scope.
Local Open Scope string_scope.

(** str.upper / str.lower on ASCII *)
Definition up_ascii (c : ascii) : ascii :=
  let n := nat_of_ascii c in if ((97 <=? n) && (n <=? 122))%nat then ascii_of_nat (n - 32) else c.
Definition lo_ascii (c : ascii) : ascii :=
  let n := nat_of_ascii c in if ((65 <=? n) && (n <=? 90))%nat then ascii_of_nat (n + 32) else c.
Fixpoint smap (f : ascii -> ascii) (s : string) : string :=
  match s with EmptyString => EmptyString | String c s' => String (f c) (smap f s') end.
Definition upper : string -> string := smap up_ascii.
Definition lower : string -> string := smap lo_ascii.

(** fe:29-50 *)
Definition is_angular_frequency (requested : string) : bool :=
  let l := lower requested in
  (l =? "rps") || (l =? "rad_per_sec") || (l =? "rpd") || (l =? "rad_per_day").

Definition convf := R -> R.
(** value of an enumeration member NAME_REQUESTED: a table or an exception instance *)
Inductive req_entry := Table (t : list (string * convf)) | NotImpl.

(** fe:113-172. 1e-6 is 1/1000000, 1e6 is 1000000. *)
Definition requested_members : list (string * req_entry) := [
  ("NONE", NotImpl);
  ("HZ", Table [("HZ", fun v => v); ("UHZ", fun v => v * (1 / 1000000)); ("RAD_PER_SEC", fun v => v / (2 * PI)); ("CYC_PER_DAY", fun v => v / 86400)]);
  ("UHZ", Table [("HZ", fun v => v * 1000000); ("UHZ", fun v => v); ("RAD_PER_SEC", fun v => v * 1000000 / (2 * PI)); ("CYC_PER_DAY", fun v => v * 1000000 / 86400)]);
  ("CYC_PER_DAY", Table [("HZ", fun v => v * 86400); ("UHZ", fun v => v * (1 / 1000000) * 86400); ("RAD_PER_SEC", fun v => v * 86400 / (2 * PI)); ("CYC_PER_DAY", fun v => v)]);
  ("CPD", Table [("HZ", fun v => v * 86400); ("UHZ", fun v => v * (1 / 1000000) * 86400); ("RAD_PER_SEC", fun v => v * 86400 / (2 * PI)); ("CYC_PER_DAY", fun v => v)]);
  ("RAD_PER_SEC", Table [("HZ", fun v => v * (2 * PI)); ("UHZ", fun v => v * (1 / 1000000) * (2 * PI)); ("RAD_PER_SEC", fun v => v); ("CYC_PER_DAY", fun v => v * (2 * PI) / 86400)]);
  ("ACOUSTIC_DELTA", NotImpl); ("GRAVITY_DELTA", NotImpl); ("UPPER_DELTA", NotImpl); ("LOWER_DELTA", NotImpl);
  ("ACOUSTIC_CUTOFF", NotImpl); ("GRAVITY_CUTOFF", NotImpl); ("ROSSBY_I", NotImpl); ("ROSSBY_O", NotImpl); ("CRITICAL", NotImpl)].

Fixpoint assoc {A} (k : string) (l : list (string * A)) : option A :=
  match l with [] => None | (k', v) :: l' => if k =? k' then Some v else assoc k l' end.

(** fe:175-209. A returned function is [Ok (Some f)], a returned KeyError object is
    [Ok None]; subscripting an exception instance is a TypeError, an unknown
    enumeration member a KeyError. *)
Definition factor_from_str (my_units requested : string) (no_exit : bool) : res (option convf) :=
  match assoc (upper requested) requested_members with
  | None => Exc KeyError
  | Some NotImpl => Exc TypeError
  | Some (Table t) =>
      match assoc my_units t with
      | Some f => Ok (Some f)
      | None => if no_exit then Ok None else Exc SystemExit
      end
  end.

(** a GYRE mode dictionary; [Omega_rot_dim] may be absent (KeyError) *)
Record mode_dict := mkMode {
  freq : R * R; freq_units : string; freq_frame : string; m : Z;
  G : R; M_star : R; R_star : R;
  Omega_rot_dim : option (list R); Omega_rot : list R }.

(** sqrt(G M / R^3), fe:269, fh:823 *)
Definition dyn_rate (d : mode_dict) : R := sqrt (G d * M_star d / R_star d ^ 3).

(** fe:212-269. [raise f] for a function f is a TypeError (line 247), which leads to the
    second identical look-up at lines 248-256; a KeyError, returned or raised, leads to
    lines 257-269. *)
Definition factor_from_dict (d : mode_dict) (requested : string) (no_exit : bool) : res convf :=
  let dimensionless :=
    match factor_from_str "RAD_PER_SEC" requested false with
    | Ok (Some f) => Ok (fun v => f (v * dyn_rate d))
    | Ok None => Ok (fun v => v)   (* unreachable: lines 267-269 would call a KeyError *)
    | Exc e => Exc e
    | UB => UB
    end in
  match factor_from_str (freq_units d) requested no_exit with
  | Ok (Some f) => Ok f
  | Ok None => dimensionless
  | Exc KeyError => dimensionless
  | Exc e => Exc e
  | UB => UB
  end.

(** fe:66-111, 305-348, for an attribute holding a real frequency [v]: the unit name is
    upper-cased; members without a tuple are not modelled (they are not units). *)
Inductive obj_action := Act (f : R -> R) | NoAct | ActNotImpl.
Definition object_members (g mst rst : R) : list (string * obj_action) := [
  ("NONE", Act (fun v => v * sqrt (g * mst / rst ^ 3))); ("HZ", NoAct); ("UHZ", Act (fun v => v / 1000000));
  ("RAD_PER_SEC", Act (fun v => v / (2 * PI))); ("CYC_PER_DAY", Act (fun v => v / 86400));
  ("ACOUSTIC_DELTA", ActNotImpl); ("GRAVITY_DELTA", ActNotImpl); ("UPPER_DELTA", ActNotImpl); ("LOWER_DELTA", ActNotImpl);
  ("ACOUSTIC_CUTOFF", ActNotImpl); ("GRAVITY_CUTOFF", ActNotImpl); ("ROSSBY_I", ActNotImpl); ("ROSSBY_O", ActNotImpl); ("CRITICAL", ActNotImpl)].
Definition factor_from_object (g mst rst : R) (units : string) (v : R) : res R :=
  match assoc (upper units) (object_members g mst rst) with
  | None => Exc KeyError
  | Some ActNotImpl => Exc NotImplementedError
  | Some NoAct => Exc TypeError       (* raise None, then None(...) *)
  | Some (Act f) => Ok (f v)
  end.

(** fe:350-389 *)
Definition factor_for_dimensioning_factor (requested : string) : res convf :=
  match factor_from_str "HZ" requested false with
  | Ok (Some f) => Ok (if is_angular_frequency requested then fun v => f v / (2 * PI) else f)
  | Ok None => Exc SystemExit
  | Exc e => Exc e
  | UB => UB
  end.

(** fh:781-789 *)
Definition store_cffs (ds : list mode_dict) (requested : string) : res (list convf) :=
  mapM (fun d => factor_from_dict d requested true) ds.

(** fh:800-827: rotation frequency in rad/s and in the requested unit, from the first
    dictionary; the last grid point is the surface *)
Definition rotation_rps (ds : list mode_dict) : res R :=
  d <- py_get ds 0 ;
  match Omega_rot_dim d with
  | Some l => py_get l (-1)
  | None => x <- py_get (Omega_rot d) (-1) ; Ok (x * dyn_rate d)
  end.
Definition rotation_frequency (ds : list mode_dict) (requested : string) : res (R * R) :=
  match factor_from_str "RAD_PER_SEC" requested false with
  | Ok (Some f) => r <- rotation_rps ds ; Ok (r, f r)
  | Ok None => Exc SystemExit
  | Exc e => Exc e
  | UB => UB
  end.

(** fh:830-846 *)
Definition ocf (angular : bool) (v : R) : R := if angular then v else v * 2 * PI.
Definition fcf (angular : bool) (v : R) : R := if angular then v / (PI * 2) else v.

(** the four stored numbers of one mode *)
Record mode_freqs := mkMF { corot_f : R; inert_f : R; corot_o : R; inert_o : R }.

(** fh:858-912, one pass of the loop. [g0] is the uninitialised content of
    _corot_mode_freqs[i] (np.empty, line 852). Only the real part is used. *)
Definition mode_pass (angular : bool) (rot : R) (g0 : R) (d : mode_dict) (cff : convf) : mode_freqs :=
  let c := cff (fst (freq d)) in
  let om := ocf angular c in
  let fr := fcf angular c in
  let mm := IZR (m d) in
  if freq_frame d =? "INERTIAL" then
    if angular then {| inert_f := fr; inert_o := om; corot_o := om - mm * rot; corot_f := g0 / (2 * PI) |}
    else let cf := fr - mm * rot in {| inert_f := fr; inert_o := om; corot_f := cf; corot_o := 2 * PI * cf |}
  else
    if angular then let io := om + mm * rot in {| corot_f := fr; corot_o := om; inert_o := io; inert_f := io / (2 * PI) |}
    else let inf := fr + mm * rot in {| corot_f := fr; corot_o := om; inert_f := inf; inert_o := 2 * PI * inf |}.

Fixpoint mode_loop (angular : bool) (rot : R) (garbage : nat -> R) (i : nat) (l : list (mode_dict * convf)) : list mode_freqs :=
  match l with
  | [] => []
  | (d, cff) :: l' => mode_pass angular rot (garbage i) d cff :: mode_loop angular rot garbage (S i) l'
  end.

(** fh:915-926 *)
Definition spin_factor (angular : bool) (rot corot_omega : R) : R :=
  if angular then 2 * rot / corot_omega else 4 * PI * rot / corot_omega.

(** fh:929-969: the factor multiplying every dimensional frequency *)
Definition dim_factor (ds : list mode_dict) (requested : string) : res R :=
  cfc <- factor_for_dimensioning_factor requested ;
  d <- py_get ds 0 ;
  Ok (cfc (sqrt (R_star d ^ 3 / (G d * M_star d)))).

Fixpoint rsum (l : list R) : R := match l with [] => 0 | x :: l' => x + rsum l' end.
(** fh:972-989 *)
Definition detuning_of (omegas : list R) : res R :=
  w0 <- py_get omegas 0 ; Ok (w0 - rsum (tl omegas)).

(** the state after construction, fh:83-116 *)
Record handler := mkH {
  h_angular : bool; h_rps : R; h_rot : R; h_modes : list mode_freqs; h_spin : list R;
  h_dimfac : R; h_detuning : R; h_cffs : list convf; h_dicts : list mode_dict; h_requested : string }.
Definition dimless_corot_omegas (h : handler) : list R := map (fun x => corot_o x * h_dimfac h) (h_modes h).
Definition dimless_inert_omegas (h : handler) : list R := map (fun x => inert_o x * h_dimfac h) (h_modes h).
Definition dimless_corot_freqs (h : handler) : list R := map (fun x => corot_f x * h_dimfac h) (h_modes h).
Definition dimless_inert_freqs (h : handler) : list R := map (fun x => inert_f x * h_dimfac h) (h_modes h).
Definition set_mode_info (garbage : nat -> R) (ds : list mode_dict) (requested : string) : res handler :=
  let angular := is_angular_frequency requested in
  cffs <- store_cffs ds requested ;
  rr <- rotation_frequency ds requested ;
  let modes := mode_loop angular (snd rr) garbage 0 (combine ds cffs) in
  let spins := map (fun x => spin_factor angular (snd rr) (corot_o x)) modes in
  df <- dim_factor ds requested ;
  det <- detuning_of (map corot_o modes) ;
  Ok {| h_angular := angular; h_rps := fst rr; h_rot := snd rr; h_modes := modes; h_spin := spins;
        h_dimfac := df; h_detuning := det; h_cffs := cffs; h_dicts := ds; h_requested := requested |}.

(** fh:192-213 *)
Definition surf_rot_angular_freq (h : handler) : R := if h_angular h then h_rot h else h_rot h * 2 * PI.
(** fh:227-247 *)
Definition angular_conv_factor_from_rps (h : handler) : R :=
  let c := h_rot h / h_rps h in if h_angular h then c else c * 2 * PI.

(** fh:992-1044 *)
Definition nad_conversion_functions (h : handler) (ns : list mode_dict) : res (list convf) :=
  if forallb (fun p => freq_units (fst p) =? freq_units (snd p)) (combine (h_dicts h) ns) then Ok (h_cffs h)
  else mapM (fun d => factor_from_dict d (h_requested h) false) ns.

(** fh:1084-1155, one pass: stored frequencies and the linear driving rate. The rotation
    frequency is real, so subtracting it leaves the imaginary part unchanged. *)
Definition nad_pass (angular : bool) (rot : R) (d : mode_dict) (cff : convf) : mode_freqs * R :=
  let c := cff (fst (freq d)) in
  let om := ocf angular c in
  let fr := fcf angular c in
  let om_im := ocf angular (cff (snd (freq d))) in
  let mm := IZR (m d) in
  if freq_frame d =? "INERTIAL" then
    ((if angular then let co := om - mm * rot in {| inert_f := fr; inert_o := om; corot_o := co; corot_f := co / (2 * PI) |}
      else let cf := fr - mm * rot in {| inert_f := fr; inert_o := om; corot_f := cf; corot_o := 2 * PI * cf |}), om_im)
  else
    ((if angular then let io := om + mm * rot in {| corot_f := fr; corot_o := om; inert_o := io; inert_f := io / (2 * PI) |}
      else let inf := fr + mm * rot in {| corot_f := fr; corot_o := om; inert_f := inf; inert_o := 2 * PI * inf |}), om_im).

(** fh:119-145, 1046-1063, 1158-1197. Quality factors and their products are those of
    [Stat_Model]; for three modes. *)
Record nonad := mkN {
  n_modes : list mode_freqs; n_rates : list R; n_quality : list R; n_quality_nad : list R;
  n_products : list R; n_products_nad : list R; n_gamma_sum : R; n_detuning : R;
  n_q : R; n_q1 : R; n_q_nad : R; n_q1_nad : R }.
Definition nthv (l : list R) : vec := fun i => nth i l 0.
Definition set_nonad (h : handler) (ns : list mode_dict) : res nonad :=
  if negb (Nat.eqb (List.length ns) (List.length (h_dicts h))) then Exc SystemExit
  else
    cffs <- nad_conversion_functions h ns ;
    let passes := map (fun p => nad_pass (h_angular h) (h_rot h) (fst p) (snd p)) (combine ns cffs) in
    let modes := map fst passes in
    let rates := map snd passes in
    let qual := fun ws => map (fun p => fst p / snd p) (combine ws rates) in
    let Q := qual (map corot_o (h_modes h)) in
    let Qn := qual (map corot_o modes) in
    let gs := rsum rates in
    det <- detuning_of (map corot_o modes) ;
    g0 <- py_get rates 0 ;
    Ok {| n_modes := modes; n_rates := rates; n_quality := Q; n_quality_nad := Qn;
          n_products := quality_products (List.length Q) (nthv Q); n_products_nad := quality_products (List.length Qn) (nthv Qn);
          n_gamma_sum := gs; n_detuning := det;
          n_q := h_detuning h / gs; n_q1 := h_detuning h / g0; n_q_nad := det / gs; n_q1_nad := det / g0 |}.
