(** * What the figures with coupling coefficient profiles should show. *)
From Coq Require Import Reals List Bool Arith String.
From Verif Require Import Base Tar_Model Tar_Spec Pfig_Model.
Import ListNotations.
Local Open Scope nat_scope.

(** the curves of a panel show these profiles, in order *)
Definition shows (p : panel) (ys : list profile) : Prop := map c_y (p_curves p) = ys.
(** the radii shaded in a panel are exactly these *)
Definition shaded (p : panel) (v : list bool) : Prop := p_shade p = Some v.
(** sum of the values at a grid point *)
Definition sum_at (ys : list profile) (k : nat) : R := fold_right Rplus 0%R (map (fun y => y k) ys).
(** the legend explains exactly these profiles by these labels *)
Definition legend_explains (f : figure) (ys : list profile) (labels : list string) : Prop :=
  exists cs, f_legend f = Some (cs, Some labels) /\ map c_y cs = ys /\ map c_label cs = map Some labels.
(** place of the i-th curve's colour in an endless repetition of the palette: two colours are left out before the third
    curve and four before the fourth *)
Definition colour_place (i : nat) : nat := match i with 0 => 0 | 1 => 1 | 2 => 4 | 3 => 9 | S (S (S (S j))) => 10 + j end.
