(** * Model of the zones in which the traditional approximation (TAR) holds, and of the adjusted profiles.
    Sources: aesolver/aesolver/solver/quadratic_profile.py (qp), the same code in solver/quadratic_solver.py 1258-1451,
    solver/profile_plot_classes/coupling_coefficient_plots/plot_template.py (pt),
    solver/profile_print_functions/coupling_coefficient_print_functions.py (pp).
    Simplifications: exact real arithmetic; NaN (square root of a negative number) is None, and compares as False; figures and
    log messages are dropped. *)
From Coq Require Import Reals List Bool Arith.
From Verif Require Import Base Py.
Import ListNotations.
Local Open Scope nat_scope.

(** ** Validity at each grid point *)
(** qp:140 *)
Definition brunt (n2 : R) : option R := if Rlt_dec n2 0 then None else Some (sqrt n2).
(** |c * x| > |y| with NaN *)
Definition abs_gt (c : R) (x : option R) (y : R) : bool :=
  match x with Some x => if Rlt_dec (Rabs y) (Rabs (c * x)) then true else false | None => false end.
(** qp:147-150; omega_surf is the surface rotation in rad/s *)
Definition rotation_check (omega_surf : R) (n2 : list R) : list bool := map (fun n => abs_gt 0.1 (brunt n) (2 * omega_surf)) n2.
(** qp:151-154; conv converts rad/s to the unit of the mode frequencies *)
Definition frequency_check (conv : R) (omegas : list R) (n2 : list R) : list bool :=
  map (fun n => forallb (fun w => abs_gt (0.1 * conv) (brunt n) w) omegas) n2.
(** qp:155-157 *)
Definition tar_valid (rot freq : list bool) : list bool := map (fun p => fst p && snd p) (combine rot freq).
(** qp:136-138 *)
Definition slow_manifold (quality : list R) : bool := forallb (fun q => if Rlt_dec 10 (Rabs q) then true else false) quality.

(** ** Zones *)
(** np.nonzero of a boolean array, offset i *)
Fixpoint nonzero (i : nat) (l : list bool) : list nat :=
  match l with [] => [] | b :: l' => if b then i :: nonzero (S i) l' else nonzero (S i) l' end.
Definition pairwise (f : bool -> bool -> bool) (v : list bool) : list bool := map (fun p => f (fst p) (snd p)) (combine (removelast v) (tl v)).
(** qp:159-164; < and > of booleans *)
Definition starts (v : list bool) : list nat := map S (nonzero 0 (pairwise (fun a b => negb a && b) v)).
Definition ends (v : list bool) : list nat := nonzero 0 (pairwise (fun a b => a && negb b) v).
(** np.s_[a:b] with either end possibly missing; np.s_[None] *)
Inductive mask := Slice (a b : option nat) | NewAxis.
(** np.unique of a boolean array *)
Definition unique (l : list bool) : list bool := (if existsb negb l then [false] else []) ++ (if existsb (fun b => b) l then [true] else []).
Definition first {A} (l : list A) : res A := match l with a :: _ => Ok a | [] => Exc IndexError end.
Definition final {A} (l : list A) : res A := match rev l with a :: _ => Ok a | [] => Exc IndexError end.
Record zones := mkZones { z_valid : list bool; z_indices : list (nat * nat); z_valid_masks : list mask; z_invalid_masks : list mask; z_fully : bool }.
(** np.s_[s:e+1] for s, e in zip(...) and so on *)
Definition valid_slices (s e : list nat) : list mask := map (fun p => Slice (Some (fst p)) (Some (snd p + 1))) (combine s e).
Definition invalid_slices (s e : list nat) : list mask := map (fun p => Slice (Some (snd p + 1)) (Some (fst p))) (combine s e).
Definition invalid_pairs (s e : list nat) : list (nat * nat) := map (fun p => (snd p + 1, fst p)) (combine s e).
(** qp:177-206: the warnings when no point changes validity; an unexplained case raises *)
Definition explain (rot freq : list bool) : res unit :=
  let iu := unique freq in let ru := unique rot in
  let is1 := fun l : list bool => length l =? 1 in
  let false0 := fun l => match l with b :: _ => negb b | [] => false end in
  if (is1 iu && negb (is1 ru)) && false0 iu then Ok tt
  else if negb (is1 iu) && is1 ru && false0 ru then Ok tt
  else if is1 iu && is1 ru && false0 ru && false0 iu then Ok tt
  else Exc PhysicsError.
(** qp:167-314 *)
Definition tar_zones (slow : bool) (rot freq : list bool) : res zones :=
  let v := tar_valid rot freq in
  let n := length v in
  let s := starts v in let e := ends v in
  if negb slow then Exc PhysicsError
  else if (length s =? 0) && (length e =? 0) then
    _ <- explain rot freq ; Ok (mkZones v [(0, n - 1)] [NewAxis] [Slice None None] true)
  else if length s =? length e then
    s0 <- first s ; e0 <- first e ; sl <- final s ; el <- final e ;
    if e0 <? s0 then
      Ok (mkZones v (invalid_pairs s e) ([Slice None (Some (e0 + 1))] ++ valid_slices (removelast s) (tl e) ++ [Slice (Some sl) None]) (invalid_slices s e) false)
    else
      Ok (mkZones v ([(0, s0)] ++ invalid_pairs (tl s) (removelast e) ++ [(el + 1, n - 1)]) (valid_slices s e)
            ([Slice None (Some s0)] ++ invalid_slices (tl s) (removelast e) ++ [Slice (Some (el + 1)) None]) false)
  else if length s =? length e + 1 then
    s0 <- first s ; sl <- final s ;
    Ok (mkZones v ([(0, s0)] ++ invalid_pairs (tl s) e) (valid_slices (removelast s) e ++ [Slice (Some sl) None]) ([Slice None (Some s0)] ++ invalid_slices (tl s) e) false)
  else if length s + 1 =? length e then
    e0 <- first e ; el <- final e ;
    Ok (mkZones v (invalid_pairs s (removelast e) ++ [(el + 1, n - 1)]) ([Slice None (Some (e0 + 1))] ++ valid_slices s (tl e)) (invalid_slices s (removelast e) ++ [Slice (Some (el + 1)) None]) false)
  else Exc PhysicsError.
(** qp:122-322 for a coupling object, with its profile of N^2, frequencies and quality factors; without one (the pre-check
    failed) the first attribute access raises *)
Record tar_input := mkTar { i_n2 : list R; i_quality : list R; i_surf : R; i_conv : R; i_omegas : list R }.
Definition masking_info (c : option tar_input) : res zones :=
  match c with
  | None => Exc AttributeError
  | Some c => tar_zones (slow_manifold (i_quality c)) (rotation_check (i_surf c) (i_n2 c)) (frequency_check (i_conv c) (i_omegas c) (i_n2 c))
  end.

(** ** Adjusted profiles (pt:34-55, 336-378, 384-418 and the list version 219-332): profiles are functions of the grid index,
    n is the number of grid points *)
Definition in_mask (n : nat) (m : mask) (k : nat) : bool :=
  match m with
  | NewAxis => true
  | Slice a b => (match a with Some a => a <=? k | None => true end) && (match b with Some b => k <? b | None => true end) && (k <? n)
  end.
Definition contribution (y : nat -> R) (z : nat * nat) : R := (y (snd z) - y (fst z))%R.
Fixpoint cumsum (acc : R) (l : list R) : list R := match l with [] => [] | x :: l' => (acc + x)%R :: cumsum (acc + x)%R l' end.
Definition assign (n : nat) (m : mask) (g : nat -> R) (a : nat -> R) : nat -> R := fun k => if in_mask n m k then g k else a k.
(** the loop over the TAR-invalid zones: i is the loop counter *)
Fixpoint fill_invalid (n : nat) (sums : list R) (i : nat) (ms : list (mask * R)) (a : nat -> R) : nat -> R :=
  match ms with
  | [] => a
  | (m, c) :: ms' => fill_invalid n sums (S i) ms' (assign n m (fun _ => match i with O => c | S p => (c - nth p sums 0)%R end) a)
  end.
Fixpoint fill_valid (n : nat) (y : nat -> R) (ms : list (R * mask)) (a : nat -> R) : nat -> R :=
  match ms with [] => a | (c, m) :: ms' => fill_valid n y ms' (assign n m (fun k => (y k - c)%R) a) end.
Record adjusted := mkAdj { plain : R; adj_value : R; adj_profile : nat -> R; contributions : list R }.
Definition adjust (n : nat) (y : nat -> R) (z : zones) : adjusted :=
  let cs := map (contribution y) (z_indices z) in
  let sums := cumsum 0 cs in
  let invalid := map (fun x => y (fst x)) (z_indices z) in
  let zero := fun _ : nat => 0%R in
  mkAdj (y (n - 1)) (y (n - 1)%nat - last sums 0)%R
    (if z_fully z then zero
     else fill_valid n y (combine sums (z_valid_masks z)) (fill_invalid n sums 0 (combine (z_invalid_masks z) invalid) zero)) cs.

(** ** Printed quantities (pp:19-78) *)
Definition adjust_ratio (cc adjusted_cc : R) : R := (adjusted_cc / cc)%R.
(** parts per million, plain and adjusted *)
Definition printed_amps (amps : list R) (ratio : R) : list R * list R :=
  let a := map (fun x => (x * 1000000)%R) amps in (a, map (fun x => (x / ratio)%R) a).
Definition printed_threshold (acrit ratio : R) : R * R := ((acrit * 1000000)%R, (acrit * 1000000 / ratio)%R).
Definition printed_threshold_flux (acrit ratio : R) (fluxes amps : list R) : R * R :=
  let conv := (nth 0 fluxes 0 * 1000000 / (nth 0 amps 0 * 1000000))%R in
  ((acrit * conv * 1000000)%R, (acrit * conv * 1000000 / ratio)%R).
