(** * Model of the construction of a coupling object: which arrays it holds and on which grid.
    sc = aesolver/aesolver/coupling_coefficients/coefficient_support_classes/super_coupling_coefficients.py,
    cr = aesolver/aesolver/coupling_coefficients/coefficient_support_classes/coupling_coefficient_rotating.py,
    qc = aesolver/aesolver/coupling_coefficients/quadratic_coupling_coefficient_rotating.py,
    gc = gyre-tools/gyre_cutter/gyre_cutter.py, cc = num-tools/carr_conv/carr_conv.py,
    em = aesolver/aesolver/model_handling/enumeration_files/enumeration_models.py.
    The object is the map from attribute names to values. Numbers are exact reals; in arithmetic a scalar and an array with one
    element are identified; structure arrays are real. Logging is dropped. *)
From Coq Require Import List ZArith Lia Reals String Ascii Bool.
From Coquelicot Require Import Complex.
From Verif Require Import Base Py NumDeriv_Model Load_Model.
Import ListNotations.
Local Open Scope string_scope.

(** values stored in the dictionaries and in the object; [VComp]: the compound (re, im) arrays of GYRE; [VSum]: the summaries kept
    when debug information is requested (Debug_Model) *)
Inductive gval := VNone | VNum (r : R) | VInt (z : Z) | VText (s : string) | VArr (a : list R) | VCpx (a : list C) | VComp (a : list (R * R))
  | VSum (max min : C) (surface core : list C).
Definition gdict := dict gval.
Definition obj := string -> option gval.
Definition empty_obj : obj := fun _ => None.
(** getattr, setattr *)
Definition oget (o : obj) (k : string) : res gval := match o k with Some v => Ok v | None => Exc AttributeError end.
Definition oset (o : obj) (k : string) (v : gval) : obj := fun k' => if string_dec k' k then Some v else o k'.
Definition dread (d : gdict) (k : string) : res gval := match dget k d with Some v => Ok v | None => Exc KeyError end.
Fixpoint foldM {A S} (f : S -> A -> res S) (l : list A) (s : S) : res S :=
  match l with [] => Ok s | a :: l' => s' <- f s a ; foldM f l' s' end.
Definition has (k : string) (l : list string) : bool := existsb (String.eqb k) l.

(** ** np.interp(x, xp, fp), xp not decreasing (numpy does not check): the last sample point not above x and its successor *)
Fixpoint interp_from (x x0 f0 : R) (pts : list (R * R)) : R :=
  match pts with
  | [] => f0
  | (x1, f1) :: pts' => if Rlt_dec x x1 then ((f1 - f0) / (x1 - x0) * (x - x0) + f0)%R else interp_from x x1 f1 pts'
  end.
Definition interp1 (pts : list (R * R)) (x : R) : R :=
  match pts with [] => 0%R | (x0, f0) :: pts' => if Rlt_dec x x0 then f0 else interp_from x x0 f0 pts' end.
Definition interp_list (x xp fp : list R) : res (list R) :=
  if ((0 <? List.length xp) && (List.length xp =? List.length fp))%nat then Ok (map (interp1 (combine xp fp)) x) else Exc ValueError.
(** complex samples: real and imaginary parts are interpolated with the same weights *)
Definition np_interp (x xp fp : gval) : res gval :=
  match x, xp, fp with
  | VArr x, VArr xp, VArr fp => l <- interp_list x xp fp ; Ok (VArr l)
  | VArr x, VArr xp, VCpx fp =>
      re <- interp_list x xp (map fst fp) ; im <- interp_list x xp (map snd fp) ; Ok (VCpx (combine re im))
  | VArr _, VArr _, VNone => Exc ValueError   (* one NaN against several sample points *)
  | _, _, _ => Exc TypeError
  end.

(** ** Attribute extraction *)
(** sc:490-513 *)
Definition extract_common (common : list string) (d : gdict) (o : obj) : obj :=
  fold_left (fun o a => oset o ("_" ++ a) (match dget a d with Some v => v | None => VNone end)) common o.
Definition mode_attr (k : string) (i : nat) : string :=
  "_" ++ k ++ "_mode_" ++ (match i with 1 => "1" | 2 => "2" | _ => "3" end)%nat.
(** sc:516-538 *)
Definition extract_mode (common : list string) (i : nat) (d : gdict) (o : obj) : obj :=
  fold_left (fun o kv => if has (fst kv) common then o else oset o (mode_attr (fst kv) i) (snd kv)) d o.
(** sc:551-580 *)
Definition to_interpolate : list string :=
  ["y_1"; "y_2"; "y_3"; "y_4"; "xi_r"; "xi_h"; "eul_phi"; "deul_phi"; "lag_L"; "eul_P"; "eul_rho"; "eul_T"; "lag_P"; "lag_rho";
   "lag_T"; "xi_r_dim"; "xi_h_dim"; "eul_phi_dim"; "deul_phi_dim"; "lag_L_dim"; "eul_P_dim"; "eul_rho_dim"; "eul_T_dim";
   "lag_P_dim"; "lag_rho_dim"; "lag_T_dim"; "y_5"; "y_6"].
(** cc:40-66: re_im_parts of two real arrays *)
Definition re_im_parts (re im : list R) : gval := VCpx (combine re im).
(** sc:697-713: one interpolated entry; a compound array makes np.interp raise TypeError *)
Definition interp_entry (x xp v : gval) : res gval :=
  match np_interp x xp v with
  | Exc TypeError =>
      match x, xp, v with
      | VArr x, VArr xp, VComp a =>
          re <- interp_list x xp (map fst a) ; im <- interp_list x xp (map snd a) ; Ok (re_im_parts re im)
      | _, _, _ => Exc TypeError
      end
  | r => r
  end.
(** sc:667-713 *)
Definition interpolator (i : nat) (d : gdict) (x : gval) (o : obj) : res obj :=
  foldM (fun o kv => if has (fst kv) to_interpolate then
                       xp <- dread d "x" ; v <- interp_entry x xp (snd kv) ; Ok (oset o (mode_attr (fst kv) i) v)
                     else Ok o) d (oset o "_x" x).
(** np.argmax: the first index at which the maximum is attained *)
Fixpoint argmax_from (best : Z) (at_ i : nat) (l : list Z) : nat :=
  match l with [] => at_ | z :: l' => if (best <? z)%Z then argmax_from z i (S i) l' else argmax_from best at_ (S i) l' end.
Definition argmax (l : list Z) : nat := match l with [] => O | z :: l' => argmax_from z 0 1 l' end.
Definition as_int (v : gval) : res Z := match v with VInt z => Ok z | _ => Exc TypeError end.
(** sc:541-593 *)
Definition interpolation_modes (ds : list gdict) (o : obj) : res obj :=
  lens <- mapM (fun d => v <- dread d "n" ; as_int v) ds ;
  x <- (match nth_error ds (argmax lens) with Some d => dread d "x" | None => Exc IndexError end) ;
  foldM (fun o id => interpolator (fst id) (snd id) x o) (combine (seq 1 (List.length ds)) ds) o.

(** ** Additional structure profile: sc:716-810 *)
Definition scalar (v : gval) : bool := match v with VNum _ | VText _ | VInt _ => true | _ => false end.
(** _v[::-1] *)
Definition vrev (v : gval) : res gval :=
  match v with VArr a => Ok (VArr (rev a)) | VCpx a => Ok (VCpx (rev a)) | VComp a => Ok (VComp (rev a)) | VText _ => Ok v | _ => Exc TypeError end.
(** a.max() *)
Definition np_max (a : list R) : res R := match a with [] => Exc ValueError | _ => Ok (amax a) end.
Definition poly_exclude : list string :=
  ["n"; "n_r"; "n_poly"; "z"; "theta"; "dtheta"; "drho"; "drho2"; "drho3"; "dp"; "dp2"; "dp3"; "dgravpot"; "dgravpot2"; "dgravpot3"; "v"; "surfgrav"].
(** sc:729-764: the normalised radius of the profile, centre first *)
Definition norm_rad (poly : bool) (prof : gdict) : res (list R) :=
  v <- dread prof (if poly then "r" else "radius") ;
  match v with
  | VArr r => m <- np_max r ; let q := map (fun a => (a / m)%R) r in Ok (if poly then q else rev q)
  | _ => Exc AttributeError
  end.
Definition arr_len (v : gval) : res nat :=
  match v with VArr a => Ok (List.length a) | VCpx a => Ok (List.length a) | VComp a => Ok (List.length a) | _ => Exc AttributeError end.
Definition extract_profile (poly : bool) (prof : gdict) (o : obj) : res obj :=
  nr <- norm_rad poly prof ;
  x <- oget o "_x" ;
  n <- arr_len x ;
  if (List.length nr =? n)%nat then
    foldM (fun o kv => let '(k, v) := kv in
      if has k (if poly then poly_exclude else []) then Ok o
      else if poly || scalar v then Ok (oset o ("_" ++ k ++ "_profile") v)
      else w <- vrev v ; Ok (oset o ("_" ++ k ++ "_profile") w)) prof o
  else
    foldM (fun o kv => let '(k, v) := kv in
      if scalar v then Ok (oset o ("_" ++ k) v)
      else w <- (if poly then Ok v else vrev v) ;
           u <- np_interp x (VArr nr) w ; Ok (oset o ("_" ++ k ++ "_profile") u)) prof o.

(** ** Cuts *)
(** np.s_[1:] and np.s_[:-1] *)
Inductive slicer := DropFirst | DropLast.
Definition lslice {A} (s : slicer) (l : list A) : list A := match s with DropFirst => tl l | DropLast => removelast l end.
Definition vslice (s : slicer) (v : gval) : res gval :=
  match v with
  | VArr a => Ok (VArr (lslice s a)) | VCpx a => Ok (VCpx (lslice s a)) | VComp a => Ok (VComp (lslice s a))
  | VText t => Ok (VText (string_of_list_ascii (lslice s (list_ascii_of_string t))))
  | _ => Exc TypeError
  end.
(** gc:24-98: the members of the enumeration *)
Definition cut_members : list (string * list string) :=
  [("STRUCTURE_COEFFICIENT_CUTS", ["_c_1"; "_V_2"; "_As"; "_U"]);
   ("POLYTROPIC_CUTS", ["_xi_h_mode_1"; "_xi_h_mode_2"; "_xi_h_mode_3"; "_xi_r_mode_1"; "_xi_r_mode_2"; "_xi_r_mode_3";
      "_y_1_mode_1"; "_y_1_mode_2"; "_y_1_mode_3"; "_y_2_mode_1"; "_y_2_mode_2"; "_y_2_mode_3"]);
   ("MESA_GYRE_CUTS", ["_deul_phi_mode_1"; "_deul_phi_mode_2"; "_deul_phi_mode_3"; "_eul_phi_mode_1"; "_eul_phi_mode_2";
      "_eul_phi_mode_3"; "_xi_h_mode_1"; "_xi_h_mode_2"; "_xi_h_mode_3"; "_xi_r_mode_1"; "_xi_r_mode_2"; "_xi_r_mode_3";
      "_y_1_mode_1"; "_y_1_mode_2"; "_gamma_1_adDer_profile"; "_y_1_mode_3"; "_y_2_mode_1"; "_y_2_mode_2"; "_y_2_mode_3"]);
   ("PRE_PROFILE_LOAD_CUTS", ["_x"; "_M_r"; "_rho"; "_P"; "_Gamma_1"; "_brunt_N2_profile"]);
   ("PRE_PROFILE_LOAD_CUTS_POLY", ["_x"; "_mr_profile"; "_rho_profile"; "_r_profile"; "_p_profile"; "_Gamma_1"; "_brunt_n2_profile"]);
   ("PROFILE_LOAD_CUTS_ANALYTIC_POLY", ["_x"; "_mr_profile"; "_rho_profile"; "_r_profile"; "_p_profile"; "_Gamma_1";
      "_brunt_n2_profile"; "_drho"; "_drho2"; "_drho3"; "_dP"; "_dP2"; "_dP3"; "_dgravpot"; "_dgravpot2"; "_dgravpot3"])].
Inductive cut_arg := CutName (s : string) | CutList (l : list string).
(** gc:102-143 *)
Definition cut_names (a : cut_arg) (poly : bool) : res (list string) :=
  match a with
  | CutName s => match dget (upper s ++ (if poly then "_POLY" else "")) cut_members with Some l => Ok l | None => Exc SystemExit end
  | CutList l => Ok (if poly then map (fun c => c ++ "_POLY") l else l)
  end.
Definition cutter (o : obj) (a : cut_arg) (s : slicer) (poly : bool) : res obj :=
  names <- cut_names a poly ;
  foldM (fun o c => v <- oget o c ; w <- vslice s v ; Ok (oset o c w)) names o.
(** the recurring pair of calls sc:843-858, 1293-1304, 1456-1481 *)
Definition cut2 (center surface : bool) (a : list string) (poly : bool) (o : obj) : res obj :=
  o <- (if center then foldM (fun o s => cutter o (CutName s) DropFirst poly) a o else Ok o) ;
  if surface then foldM (fun o s => cutter o (CutName s) DropLast poly) a o else Ok o.
Definition pre_profile_cuts (center surface poly : bool) (o : obj) : res obj := cut2 center surface ["pre_profile_load_cuts"] poly o.
Definition mode_structure_cuts (center surface poly : bool) (o : obj) : res obj :=
  cut2 center surface [if poly then "polytropic_cuts" else "mesa_gyre_cuts"; "structure_coefficient_cuts"] false o.

(** ** Normalisation factors: sc:812-838 *)
Definition norm_slice {A} (center surface : bool) (l : list A) : list A :=
  let l := if center then tl l else l in if surface then removelast l else l.
Definition norm_factor (center surface : bool) (v : gval) : res gval :=
  match v with VArr a => m <- np_max (norm_slice center surface a) ; Ok (VNum m) | _ => Ok v end.
Definition set_normalization (center surface : bool) (P rho : gval) (o : obj) : res obj :=
  p <- norm_factor center surface P ; r <- norm_factor center surface rho ; Ok (oset (oset o "_norm_P" p) "_norm_rho" r).

(** ** Derivatives of arrays: sc:1353-1433. [print]: the argument print_statement *)
Section Der.
Variable der : list R -> list R -> res (list (option (list R))).   (* differentiator.differentiate(x, y, keywords)[0] *)
Definition to_cpx (re im : option (list R)) : option gval :=
  match re, im with Some a, Some b => Some (re_im_parts a b) | _, _ => None end.
Definition compute_der (use_complex print : bool) (x : list R) (y : gval) : res (list (option gval)) :=
  match y with
  | VCpx a =>
      re <- der x (map fst a) ;
      l <- (if use_complex then im <- der x (map snd a) ; Ok (map (fun ab => to_cpx (fst ab) (snd ab)) (combine re im))
            else Ok (map (option_map VArr) re)) ;
      if print then Exc UnboundLocalError else Ok l       (* the message string is only bound in the branch for real arrays *)
  | VArr a => l <- der x a ; Ok (map (option_map VArr) l)
  | _ => Exc SystemExit
  end.
(** _, d = self._compute_der(...) of a real array *)
Definition der1 (x y : list R) : res (list R) :=
  l <- compute_der false true x (VArr y) ;
  match l with [_; Some (VArr d)] => Ok d | _ => Exc ValueError end.

(** ** Structure profiles *)
Definition rarr (v : gval) : res (list R) :=
  match v with VArr a => Ok a | VNum r => Ok [r] | VInt z => Ok [IZR z] | _ => Exc TypeError end.
Definition oarr (o : obj) (k : string) : res (list R) := v <- oget o k ; rarr v.
Definition vmul := bcast Rmult.
Definition vdiv := bcast Rdiv.
Definition vsub := bcast Rminus.
Definition vadd := bcast Rplus.
Definition osets (l : list (string * list R)) (o : obj) : obj := fold_left (fun o kv => oset o (fst kv) (VArr (snd kv))) l o.
(** the statements shared by sc:884-979 (MESA: radial, _rho, _P, _G) and sc:1030-1146 (polytrope: _r_profile, _rho_profile,
    _p_profile, _G_profile, but _G in the third derivative); [g]: _dgravpot; [rho_num]: the density that is differentiated
    numerically when use_brunt_def is False *)
Definition structure_derivs (sym brunt : bool) (radial G G3 g rho P G1 N2 : list R) (rho_num : res (list R)) : res (list (string * list R)) :=
  drho <- (if sym then
             if brunt then
               a <- vmul [(-1)%R] rho ; a <- vmul a g ; b <- vmul G1 P ; a <- vdiv a b ;
               c <- vdiv N2 g ; d <- vsub a c ; vmul rho d
             else y <- rho_num ; der1 radial y
           else der1 radial rho) ;
  drho2 <- der1 radial drho ;
  drho3 <- der1 radial drho2 ;
  g23 <- (if sym then
            a <- vmul [(4 * PI)%R] G ; a <- vmul a rho ; b <- vdiv [2%R] radial ; b <- vmul g b ; g2 <- vsub a b ;
            a <- vmul [(4 * PI)%R] G3 ; a <- vmul a drho ; b <- vdiv [2%R] radial ; c <- vdiv g radial ; c <- vsub c g2 ;
            b <- vmul b c ; g3 <- vadd a b ; Ok (g2, g3)
          else g2 <- der1 radial g ; g3 <- der1 radial g2 ; Ok (g2, g3)) ;
  let '(g2, g3) := g23 in
  dPs <- (if sym then
            d1 <- vmul (map Ropp g) rho ;
            a <- vmul (map Ropp g2) rho ; b <- vmul g drho ; d2 <- vsub a b ;
            a <- vmul (map Ropp g3) rho ; b <- vmul [2%R] g2 ; b <- vmul b drho ; a <- vsub a b ; c <- vmul g drho2 ; d3 <- vsub a c ;
            Ok (d1, d2, d3)
          else d1 <- der1 radial P ; d2 <- der1 radial d1 ; d3 <- der1 radial d2 ; Ok (d1, d2, d3)) ;
  let '(dP, dP2, dP3) := dPs in
  Ok [("_drho", drho); ("_drho2", drho2); ("_drho3", drho3); ("_dgravpot2", g2); ("_dgravpot3", g3);
      ("_dP", dP); ("_dP2", dP2); ("_dP3", dP3)].
(** sc:981-993, 1153-1165 *)
Definition normed (P rho : list R) (o : obj) : res obj :=
  nP <- oarr o "_norm_P" ; nrho <- oarr o "_norm_rho" ;
  foldM (fun o t => let '(name, src, nf) := t in a <- src ; q <- vdiv a nf ; Ok (oset o name (VArr q)))
    [("_P_normed", Ok P, nP); ("_dP_normed", oarr o "_dP", nP); ("_dP2_normed", oarr o "_dP2", nP); ("_dP3_normed", oarr o "_dP3", nP);
     ("_rho_normed", Ok rho, nrho); ("_drho_normed", oarr o "_drho", nrho); ("_drho2_normed", oarr o "_drho2", nrho);
     ("_drho3_normed", oarr o "_drho3", nrho)] o.
(** sc:861-1011: _get_profiles_MESA_GYRE *)
Definition profiles_mesa (center surface sym brunt : bool) (o : obj) : res obj :=
  o <- pre_profile_cuts center surface false o ;
  x <- oarr o "_x" ; Rs <- oarr o "_R_star" ; radial <- vmul x Rs ;
  G <- oarr o "_G" ; M <- oarr o "_M_r" ; a <- vmul G M ; b <- vmul radial radial ; g <- vdiv a b ;
  rho <- oarr o "_rho" ; P <- oarr o "_P" ; G1 <- oarr o "_Gamma_1" ; N2 <- oarr o "_brunt_N2_profile" ;
  l <- structure_derivs sym brunt radial G G g rho P G1 N2 (oarr o "_rho") ;
  normed P rho (osets (("_dgravpot", g) :: l) o).
(** sc:1014-1175: _get_profiles_polytrope_MESA_GYRE *)
Definition profiles_poly (center surface sym brunt : bool) (o : obj) : res obj :=
  o <- pre_profile_cuts center surface true o ;
  r <- oarr o "_r_profile" ;
  G <- oarr o "_G_profile" ; M <- oarr o "_mr_profile" ; a <- vmul G M ; b <- vmul r r ; g <- vdiv a b ;
  rho <- oarr o "_rho_profile" ; P <- oarr o "_p_profile" ; G1 <- oarr o "_Gamma_1" ; N2 <- oarr o "_brunt_n2_profile" ;
  G3 <- oarr o "_G" ;
  l <- structure_derivs sym brunt r G G3 g rho P G1 N2 (oarr o "_rho") ;
  normed P rho (osets (("_dgravpot", g) :: l) o).
(** sc:1178-1228: one derivative of the polytrope dictionary; [if np.isnan(array)] raises ValueError unless it has one element *)
Definition get_or_interp (o : obj) (k : string) (interp : bool) (prof : gdict) (help_r : list R) : res gval :=
  let v := match dget k prof with Some v => v | None => VNone end in
  if interp then
    x <- oget o "_x" ; w <- np_interp x (VArr help_r) v ;
    match w with VArr [_] => Ok w | _ => Exc ValueError end
  else Ok v.
(** None stays None, arrays are divided: sc:1330-1350 *)
Definition opt_div (v : gval) (nf : list R) : res gval :=
  match v with VNone => Ok VNone | _ => a <- rarr v ; q <- vdiv a nf ; Ok (VArr q) end.
(** sc:1231-1350: _get_profiles_polytrope_analytic *)
Definition profiles_analytic (center surface : bool) (prof : gdict) (o : obj) : res obj :=
  r <- oarr o "_r_profile" ; Rs <- oarr o "_R_star" ; help_r <- vdiv r Rs ;
  x <- oget o "_x" ; n <- arr_len x ;
  let interp := negb (List.length help_r =? n)%nat in
  o <- foldM (fun o t => v <- get_or_interp o (snd t) interp prof help_r ; Ok (oset o (fst t) v))
         [("_dgravpot", "dgravpot"); ("_dgravpot2", "dgravpot2"); ("_dgravpot3", "dgravpot3"); ("_drho", "drho"); ("_drho2", "drho2");
          ("_drho3", "drho3"); ("_dP", "dp"); ("_dP2", "dp2"); ("_dP3", "dp3")] o ;
  o <- cut2 center surface ["profile_load_cuts_analytic"] true o ;
  nP <- oarr o "_norm_P" ; nrho <- oarr o "_norm_rho" ;
  foldM (fun o t => let '(name, src, nf) := t in v <- oget o src ; q <- opt_div v nf ; Ok (oset o name q))
    [("_P_normed", "_p_profile", nP); ("_dP_normed", "_dP", nP); ("_dP2_normed", "_dP2", nP); ("_dP3_normed", "_dP3", nP);
     ("_rho_normed", "_rho_profile", nrho); ("_drho_normed", "_drho", nrho); ("_drho2_normed", "_drho2", nrho);
     ("_drho3_normed", "_drho3", nrho)] o.
(** sc:1436-1453 (.copy() of an array) *)
Definition store_poly_coefficients (o : obj) : res obj :=
  foldM (fun o t => v <- oget o (snd t) ;
                    match v with VArr _ | VCpx _ | VComp _ | VNum _ => Ok (oset o (fst t) v) | _ => Exc AttributeError end)
    [("_c_1", "_c1_profile"); ("_V_2", "_v2_profile"); ("_As", "_as_profile"); ("_U", "_u_profile")] o.

(** ** The constructor, up to the radial vectors: qc:333-392. The rotating superclass never passes the cut flags on, so both keep
    their default True (cr:120-141) *)
(** em:141-180, 211-226: the names of the stellar structure data, and 'x' *)
Definition mesa_common : list string :=
  ["M_star"; "R_star"; "L_star"; "Delta_p"; "Delta_g"; "V_2"; "As"; "U"; "c_1"; "Gamma_1"; "nabla"; "nabla_ad"; "dnabla_ad";
   "upsilon_r"; "c_lum"; "c_rad"; "c_thn"; "c_thk"; "c_eps"; "kap_rho"; "kap_T"; "eps_rho"; "eps_T"; "Omega_rot"; "M_r"; "P"; "rho"; "T"; "x"].
(** em:495-503 *)
Definition poly_common : list string := ["Omega_rot"; "G"; "M_star"; "R_star"; "Gamma_1"].
Definition extracted (common : list string) (d1 d2 d3 : gdict) : obj :=
  extract_mode common 3 d3 (extract_mode common 2 d2 (extract_mode common 1 d1 (extract_common common d1 empty_obj))).
Definition build_mesa (sym brunt : bool) (d1 d2 d3 prof : gdict) : res obj :=
  o <- interpolation_modes [d1; d2; d3] (extracted mesa_common d1 d2 d3) ;
  o <- extract_profile false prof o ;
  P <- oget o "_P" ; rho <- oget o "_rho" ;
  o <- set_normalization true true P rho o ;
  G <- dread d1 "G" ;
  o <- profiles_mesa true true sym brunt (oset o "_G" G) ;
  mode_structure_cuts true true false o.
Definition build_poly (analytic sym brunt : bool) (d1 d2 d3 prof : gdict) : res obj :=
  o <- interpolation_modes [d1; d2; d3] (extracted poly_common d1 d2 d3) ;
  o <- extract_profile true prof o ;
  P <- oget o "_p0_profile" ; rho <- oget o "_rho0_profile" ;
  o <- set_normalization true true P rho o ;
  o <- (if analytic then profiles_analytic true true prof o else profiles_poly true true sym brunt o) ;
  o <- store_poly_coefficients o ;
  mode_structure_cuts true true true o.
(** cr:253-272: radial gradients without symbolic derivatives, for one array of a mode: compute_der with the default print_statement *)
Definition numerical_radial_gradient (use_complex : bool) (x : list R) (y : gval) : res gval :=
  l <- compute_der use_complex true x y ;
  match l with [_; Some d] => Ok d | [_; None] => Ok VNone | _ => Exc ValueError end.
End Der.
