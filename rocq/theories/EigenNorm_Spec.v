(** * Specification vocabulary for the eigenfunction normaliser (C51, C75). *)
From Coq Require Import Reals List Bool String.
From Coquelicot Require Import Complex.
From Verif Require Import Base EigenNorm_Model.
Import ListNotations.
Local Open Scope R_scope.

(** The attributes of one mode after normalisation: the listed ones are [f] times the original
    ones at every grid point, all others are the original ones. *)
Definition scaled_by (names : list string) (f : R) (new old : string -> nat -> C) : Prop :=
  (forall nm, In nm names -> forall i, new nm i = (RtoC f * old nm i)%C) /\
  (forall nm, ~ In nm names -> forall i, new nm i = old nm i).

(** The data object computes the energy of a mode from that mode's eigenfunctions only. *)
Definition local_energy (comp : attributes -> nat -> res (R * R)) : Prop :=
  forall a b m, (forall nm i, a m nm i = b m nm i) -> comp a m = comp b m.

(** The energy and the norm are quadratic in the listed eigenfunctions. *)
Definition quadratic_energy (names : list string) (comp : attributes -> nat -> res (R * R)) : Prop :=
  forall a b m c e k, 0 < c -> comp a m = Ok (e, k) -> scaled_by names c (b m) (a m) ->
    comp b m = Ok (c ^ 2 * e, c ^ 2 * k).

(** The value the normalisation should reach, by convention: G M^2 / R for the mode energy,
    M R^2 for the classical norm; [quantity] is the one of (energy, norm) concerned. *)
Definition goal (d : setup) (cv : convention) : R :=
  match cv with Lee2012 => d_G d * d_M d ^ 2 / d_R d | Schenk2002 => d_M d * d_R d ^ 2 end.
Definition quantity (cv : convention) (v : R * R) : R :=
  match cv with Lee2012 => fst v | Schenk2002 => snd v end.
