(** * Model of the script that estimates the threshold of theta_2, in exact real arithmetic.
    Source: VB_et_al_2024_additional_plot_compute_scripts/compute_threshold_theta.py (ct).
    Simplifications: IEEE doubles are real numbers, NaN is [None]; the DataFrame is the list of pairs;
    numpy.argpartition is a parameter (any function that meets [argpartition_spec] of Thresh_Spec);
    scipy.stats.linregress is modelled by its documented formulas; printing and the plot are left out. *)
From Coq Require Import Reals List Bool.
From Verif Require Import Base Stab_Model.
Import ListNotations.
Local Open Scope R_scope.

(** ct:19-78 *)
Definition theta_2 : list R :=
  [76947/100000; 92560/100000; 30289/100000; 17994/100000; 206433/100000; 127865/100000; 1816/100000; 
   76510/100000; 13080/100000; 907/100000; 2771/100000; 85748/100000; 9346/100000; 387770/10000; 358916/100000; 
   21492/100000; 92741/100000; 99670/100000; 41545/100000; 158532/100000; 180122/10000].
Definition ratio_2_1 : list R :=
  [55605/100000; 42858/100000; 65585/100000; 91831/100000; 48298/100000; 32000/100000; 253183/100000; 
   32190/100000; 84057/100000; 308804/100000; 202044/100000; 79629/100000; 205217/100000; 7627/100000; 
   29260/100000; 72069/100000; 34623/100000; 48095/100000; 61223/100000; 30289/100000; 12459/100000].

(** ct:106-136 on the column ratio_2_1 of the table *)
Definition get_difference_arrays (ratio : list R) : list (option R) * list (option R) :=
  let difference_arrays := map (fun x => x - 1) ratio in
  (map (fun d => if Rltb 0 d then Some d else None) difference_arrays,
   map (fun d => if Rltb 0 d then None else Some d) difference_arrays).

(** numpy.abs *)
Definition abs_arr (a : list (option R)) : list (option R) := map (option_map Rabs) a.

(** numpy.argpartition(a, k): an oracle [ap]; it raises ValueError when k is not an index *)
Definition argpartition (ap : list (option R) -> nat -> list nat) (a : list (option R)) (k : nat) : res (list nat) :=
  if Nat.ltb k (length a) then Ok (ap a k) else Exc ValueError.

(** ct:139-174 *)
Definition get_k_smallest_points_masks ap (k : nat) (my_pos_diff my_neg_diff : list (option R)) : res (list nat * list nat) :=
  bind (argpartition ap my_pos_diff k) (fun pos_closest_k =>
  bind (argpartition ap (abs_arr my_neg_diff) k) (fun neg_closest_k =>
  Ok (pos_closest_k, neg_closest_k))).

(** X[indices] for an integer array of indices *)
Fixpoint take_at (X : list R) (ix : list nat) : res (list R) :=
  match ix with
  | [] => Ok []
  | i :: ix' => match nth_error X i with
                | Some x => bind (take_at X ix') (fun l => Ok (x :: l))
                | None => Exc IndexError
                end
  end.
(** ct:177-214 *)
Definition get_k_smallest_points (k : nat) (X Y : list R) (pos_closest_k neg_closest_k : list nat) : res (list R * list R) :=
  bind (take_at X (firstn k pos_closest_k)) (fun xp =>
  bind (take_at X (firstn k neg_closest_k)) (fun xn =>
  bind (take_at Y (firstn k pos_closest_k)) (fun yp =>
  bind (take_at Y (firstn k neg_closest_k)) (fun yn =>
  Ok (xp ++ xn, yp ++ yn))))).

Fixpoint total (l : list R) : R := match l with [] => 0 | x :: l' => x + total l' end.
Definition mean (l : list R) : R := total l / INR (length l).
(** covariance with bias=1, numpy.cov(x, y, bias=1) *)
Definition cov (x y : list R) : R :=
  mean (map (fun p => (fst p - mean x) * (snd p - mean y)) (combine x y)).
Definition all_same (l : list R) : bool :=
  match l with [] => true | a :: l' => forallb (fun b => if Req_EM_T a b then true else false) l' end.
Record lin_result := { slope : R; intercept : R; stderr : R; intercept_stderr : R }.
(** scipy.stats.linregress(x, y) *)
Definition linregress (x y : list R) : res lin_result :=
  match x with
  | [] => Exc ValueError
  | _ =>
    if all_same x && Nat.ltb 1 (length x) then Exc ValueError else
    let ssxm := cov x x in let ssxym := cov x y in let ssym := cov y y in
    let r := if Req_EM_T (ssxm * ssym) 0 then 0 else ssxym / sqrt (ssxm * ssym) in
    let sl := ssxym / ssxm in
    let se := sqrt ((1 - r ^ 2) * ssym / ssxm / (INR (length x) - 2)) in
    Ok {| slope := sl; intercept := mean y - sl * mean x;
          stderr := if Nat.eqb (length x) 2 then 0 else se;
          intercept_stderr := if Nat.eqb (length x) 2 then 0 else se * sqrt (ssxm + mean x ^ 2) |}
  end.

(** ct:217-245 *)
Definition perform_linear_regression (xx_k yy_k : list R) : res (lin_result * R * R) :=
  bind (linregress yy_k xx_k) (fun lr =>
  let boundary := intercept lr + slope lr in
  let uncertainty_boundary := sqrt (stderr lr ^ 2 + intercept_stderr lr ^ 2) in
  Ok (lr, uncertainty_boundary, boundary)).

(** ct:271-314: the run, for k closest points; (boundary, uncertainty) *)
Definition threshold ap (k : nat) (theta ratio : list R) : res (R * R) :=
  let '(my_pos_diff, my_neg_diff) := get_difference_arrays (map snd (combine theta ratio)) in
  bind (get_k_smallest_points_masks ap k my_pos_diff my_neg_diff) (fun '(pos_closest_k, neg_closest_k) =>
  bind (get_k_smallest_points k theta ratio pos_closest_k neg_closest_k) (fun '(xx_k, yy_k) =>
  bind (perform_linear_regression xx_k yy_k) (fun '(_, u, b) => Ok (b, u)))).
