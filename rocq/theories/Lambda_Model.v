(** * Model of the retrieval of the eigenvalue estimates of Laplace's tidal equation.
    Sources: gyre-tools/lam_tar_gyre/lam_tar_gyre.py (lg);
    aesolver/aesolver/coupling_coefficients/quadratic_coupling_coefficient_rotating.py (qc).
    Simplifications: the operating system and the GYRE Python module are a record of functions (read
    once, not changing during the call); the quotation marks of lg:89, which make the file unreadable
    for Python, are taken as balanced; log messages are left out; sys.exit() is the exception
    SystemExit; a path is the text that is passed to pathlib.Path. The types accepted by multimethod
    (integers, floats, lists of them) are those of the arguments. *)
From Coq Require Import ZArith List Bool String.
From Verif Require Import Base Py Saver_Model.
Import ListNotations.
Local Open Scope string_scope.

Section Lambda.
(** spin factors and eigenvalues *)
Context {spin value : Type}.

(** what the retriever sees of the outside: the variable GYRE_DIR, directories, files, whether
    [import gyre_tar_fit] succeeds with one more directory in the search path, and what
    TarFit.load(name).lam(spin) gives *)
Record outside := { gyre_dir : option string; is_dir : string -> bool; is_file : string -> bool;
  importable : string -> bool; table : string -> spin -> value }.

(** lg:62-91; [None] is Python's None *)
Definition set_base_gyre_dir (w : outside) (base_gyre_dir : option string) : res string :=
  match base_gyre_dir with
  | Some d =>
      if Nat.eqb (String.length d) 0 then match gyre_dir w with Some e => Ok e | None => Exc KeyError end
      else if is_dir w d then if is_dir w (d ++ "/src/tar") then Ok d else Exc SystemExit
      else Exc SystemExit
  | None => Exc SystemExit
  end.
(** lg:47-60 *)
Definition set_gtf (w : outside) (base : string) : res unit :=
  if importable w (base ++ "/src/tar/") then Ok tt else Exc SystemExit.
(** lg:35-43: the object is its base directory *)
Definition gyre_lambdas (w : outside) (base_gyre_dir : option string) : res string :=
  (base <- set_base_gyre_dir w base_gyre_dir ; _ <- set_gtf w base ; Ok base)%res.

(** lg:95-109 *)
Definition sgnval (number : Z) : string :=
  if (0 <=? number)%Z then "+" ++ str_of_Z number else "-" ++ str_of_Z number.
(** lg:111-131 *)
Definition get_k (degree azimuthal : Z) : Z := (degree - Z.abs azimuthal)%Z.
(** lg:133-163 *)
Definition retrieve_name_gyre_file (w : outside) (base : string) (degree azimuthal : Z) : res string :=
  let my_k := get_k degree azimuthal in
  let fn := base ++ "/data/tar/tar_fit.m" ++ sgnval azimuthal ++ ".k" ++ sgnval my_k ++ ".h5" in
  if is_file w fn then Ok fn else Exc SystemExit.
(** lg:168-191 *)
Definition get_lambda (w : outside) (base : string) (degree azimuthal : Z) (spin_factor : spin) : res value :=
  (fn <- retrieve_name_gyre_file w base degree azimuthal ; Ok (table w fn spin_factor))%res.
(** zip of three lists *)
Fixpoint zip3 {A B C} (a : list A) (b : list B) (c : list C) : list (A * B * C) :=
  match a, b, c with x :: a', y :: b', z :: c' => (x, y, z) :: zip3 a' b' c' | _, _, _ => [] end.
(** lg:193-214 *)
Definition get_lambda_list (w : outside) (base : string) (degree azimuthal : list Z) (spin_factor : list spin) : res (list value) :=
  mapM (fun '(d, a, sf) => get_lambda w base d a sf) (zip3 degree azimuthal spin_factor).

(** qc:403-413; [attr i] is the attribute _lambda_mode_i of the coupler, if it has one *)
Definition lambda_list (w : outside) (attr : nat -> option value) (l_list m_list : list Z) (nu_list : list spin) : res (list value) :=
  match mapM (fun g => match attr g with Some v => Ok v | None => Exc AttributeError end) [1; 2; 3]%nat with
  | Exc AttributeError => (gl_obj <- gyre_lambdas w (Some "") ; get_lambda_list w gl_obj l_list m_list nu_list)%res
  | r => r
  end.
End Lambda.
Arguments outside : clear implicits.
