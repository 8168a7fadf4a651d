(** * Specification: where GYRE keeps the tables of eigenvalues.
    GYRE names the table of the modes with azimuthal order m and index k
    data/tar/tar_fit.m<m>.k<k>.h5 below its directory, both numbers with their sign, as in
    tar_fit.m-1.k+0.h5. *)
From Coq Require Import ZArith String.
From Verif Require Import Saver_Model.
Local Open Scope string_scope.

(** a number with its sign: +3, +0, -2 *)
Definition signed (z : Z) : string := (if (z <? 0)%Z then "-" else "+") ++ str_of_Z (Z.abs z).
Definition gyre_table (dir : string) (m k : Z) : string :=
  dir ++ "/data/tar/tar_fit.m" ++ signed m ++ ".k" ++ signed k ++ ".h5".
(** every file called tar_fit... in a GYRE directory is such a table *)
Definition proper_names (dir : string) (is_file : string -> bool) : Prop :=
  forall rest, is_file (dir ++ "/data/tar/tar_fit" ++ rest) = true ->
  exists m k, dir ++ "/data/tar/tar_fit" ++ rest = gyre_table dir m k.
