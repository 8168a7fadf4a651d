(** * Model of the Hough functions stored on the coupling object.
    hh = aesolver/aesolver/angular_integration/rotating_tar_angular/hough_function_handler.py,
    qc = aesolver/aesolver/coupling_coefficients/quadratic_coupling_coefficient_rotating.py,
    hf = hough-func-tools/hough_function/hough_function.py (Hough_Model).
    Exact real arithmetic, as in Hough_Model; an array over the full grid is a function read below 2 h. *)
From Coq Require Import Reals List ZArith Bool String Ascii.
From Verif Require Import Base Py Hough_Model.
Import ListNotations.
Local Open Scope string_scope.

(** hf:436-445, thetas_range *)
Definition thetas_range (o : hobj) : vec := fun i => acos (mu_full (o_h o) i).
(** the attributes of a HoughFunction object that the handler reads, hf:426-641 *)
Definition hf_attributes (o : hobj) (r : hres) : list (string * vec) :=
  [("hr_range", hr_range o r); ("ht_range", ht_range o r); ("hp_range", hp_range o r); ("hrp_range", hrp_range o r);
   ("hrpp_range", hrpp_range o r); ("htp_range", htp_range o r); ("hpp_range", hpp_range o r);
   ("hrp_range_theta", hrp_range_theta o r); ("hrpp_range_theta", hrpp_range_theta o r); ("htp_range_theta", htp_range_theta o r);
   ("hpp_range_theta", hpp_range_theta o r); ("theta_phi_hough_tilde", theta_phi o r); ("phi_phi_hough_tilde", phi_phi o r);
   ("hr_range_m", hr_range_m o r); ("mu_range", mu_full (o_h o)); ("thetas_range", thetas_range o)].
(** hh:38-77: members of the enumeration, the attribute each one gets *)
Definition members : list (string * string) :=
  [("HR", "hr_range"); ("HT", "ht_range"); ("HP", "hp_range"); ("THETA_DER_HR", "hrp_range"); ("THETA_DER2_HR", "hrpp_range");
   ("THETA_DER_HT", "htp_range"); ("THETA_DER_HP", "hpp_range"); ("THETA_DER_HR_THETA", "hrp_range_theta");
   ("THETA_DER2_HR_THETA", "hrpp_range_theta"); ("THETA_DER_HT_THETA", "htp_range_theta"); ("THETA_DER_HP_THETA", "hpp_range_theta");
   ("THETA_PHI", "theta_phi_hough_tilde"); ("PHI_PHI", "phi_phi_hough_tilde"); ("MHR", "hr_range_m"); ("MU", "mu_range"); ("THETAS", "thetas_range")].
(** hh:79-94, FUNCTION_LIST *)
Definition function_list : list string :=
  ["HR"; "HT"; "HP"; "THETA_DER_HR"; "THETA_DER_HT"; "THETA_DER_HP"; "THETA_PHI"; "PHI_PHI"; "MHR"; "THETA_DER2_HR";
   "THETA_DER_HR_THETA"; "THETA_DER2_HR_THETA"; "THETA_DER_HT_THETA"; "THETA_DER_HP_THETA"].
Fixpoint assoc {A} (k : string) (l : list (string * A)) : option A :=
  match l with [] => None | (k', v) :: t => if String.eqb k k' then Some v else assoc k t end.
(** hh:249-263 and hh:186-187: getattr(cls, name).value(hough_object) *)
Definition compute_term (o : hobj) (r : hres) (name : string) : res vec :=
  match assoc name members with
  | None => Exc AttributeError
  | Some a => match assoc a (hf_attributes o r) with Some v => Ok v | None => Exc AttributeError end
  end.
(** str.lower on ASCII *)
Definition lower_ascii (c : ascii) : ascii :=
  let n := nat_of_ascii c in if ((65 <=? n) && (n <=? 90))%nat then ascii_of_nat (n + 32) else c.
Fixpoint lower (s : string) : string :=
  match s with EmptyString => EmptyString | String c t => String (lower_ascii c) (lower t) end.

Section World.
  (** np.linalg.inv and np.linalg.eig *)
  Variable X : invs.
  Variable eig : mat -> list epair.

  (** hh:159-161: the first element of a list of estimates *)
  Definition first_estimate (lmbd : option lm) : res (option lm) :=
    match lmbd with
    | Some (LList []) => Exc IndexError
    | Some (LList (x :: _)) => Ok (Some (LFloat x))
    | l => Ok l
    end.
  (** hh:109-188, get_relevant_hough_output(), with hh:190-246, _get_hough_object() *)
  Definition hough_output (nu : R) (l m : Z) (npts : nat) (lmbd : option lm) (use_complex adj : bool) (definition : string)
      : res (list (string * vec) * vec * vec) :=
    (lmbd1 <- first_estimate lmbd ;
     o <- init nu l m npts lmbd1 use_complex definition adj ;
     o1 <- hf_call X eig o ;
     match o_res o1 with
     | None => Exc TypeError (* the arrays are None; not reached after a call *)
     | Some r =>
         d <- mapM (fun n => (v <- compute_term o1 r n ; Ok (lower n, v))%res) function_list ;
         mu <- compute_term o1 r "MU" ;
         th <- compute_term o1 r "THETAS" ;
         Ok (d, mu, th)
     end)%res.

  (** the coupling object: attribute name to array *)
  Definition store := string -> option vec.
  Definition setattr (s : store) (k : string) (v : vec) : store := fun k' => if String.eqb k' k then Some v else s k'.
  Definition digit (i : nat) : string := match i with 1%nat => "1" | 2%nat => "2" | _ => "3" end.
  (** qc:618: f'_{_key}_mode_{_i}' *)
  Definition attribute (key : string) (i : nat) : string := "_" ++ key ++ "_mode_" ++ digit i.
  (** qc:617-621; debug attributes are left out (Debug_Model) *)
  Definition store_dict (d : list (string * vec)) (i : nat) (s : store) : store :=
    fold_left (fun s kv => setattr s (attribute (fst kv) i) (snd kv)) d s.
  (** what is known of one mode: (l, m, nu, lambda) *)
  Definition mode := (Z * Z * R * option lm)%type.
  (** zip(range(1, 4), l_list, m_list, nu_list, lambda_list), qc:591-597 *)
  Definition zipped (ls ms : list Z) (nus : list R) (lams : list (option lm)) : list (nat * mode) :=
    combine (seq 1 3) (combine (combine (combine ls ms) nus) lams).
  (** qc:598-621: the loop; [last] is (_mu_values, _theta_values), unbound before the first turn.  An exception leaves the
      attributes set so far on the object. *)
  Fixpoint store_loop (npts : nat) (use_complex : bool) (l : list (nat * mode)) (last : option (vec * vec)) (s : store)
      : store * res (option (vec * vec)) :=
    match l with
    | [] => (s, Ok last)
    | (i, (l0, m0, nu0, lmb0)) :: rest =>
        match hough_output nu0 l0 m0 npts lmb0 use_complex true "lee_saio_equivalent" with
        | Ok (d, mu, th) => store_loop npts use_complex rest (Some (mu, th)) (store_dict d i s)
        | UB => (s, UB)
        | Exc e => (s, Exc e)
        end
    end.
  (** qc:581-632, _store_houghs() *)
  Definition store_houghs (npts : nat) (use_complex : bool) (ls ms : list Z) (nus : list R) (lams : list (option lm)) (s : store)
      : store * res unit :=
    match store_loop npts use_complex (zipped ls ms nus lams) None s with
    | (s1, Ok (Some (mu, th))) => (setattr (setattr s1 "_mu_values" mu) "_theta_values" th, Ok tt)
    | (s1, Ok None) => (s1, Exc UnboundLocalError)
    | (s1, UB) => (s1, UB)
    | (s1, Exc e) => (s1, Exc e)
    end.
End World.
