(** * Properties of the numerical integrator (C01-C10). *)
From Coq Require Import List ZArith Lia Reals Lra String Bool Permutation.
From Coquelicot Require Import Coquelicot.
From Verif Require Import Base NumInt_Model NumInt_Spec NumInt_Proofs.
Import ListNotations.

(** C01: a call is free of out-of-bounds reads exactly when [in_bounds] holds,
    for every arithmetic, every call history, method, flag and array. *)
Theorem C01_integrate_memory_safety :
  forall (num : Type) (A : arith num) hist method es integrand variable threads par,
  (in_bounds (String.eqb method "simpson") es (List.length integrand) (List.length variable) ->
     exists r, integrate A hist method es integrand variable threads par = Ok r) /\
  (~ in_bounds (String.eqb method "simpson") es (List.length integrand) (List.length variable) ->
     integrate A hist method es integrand variable threads par = UB).
Proof. exact @integrate_safety. Qed.
Print Assumptions C01_integrate_memory_safety.

Example C01_case_ok : in_bounds true true 5 2.
Proof. cbv; lia. Qed.
Example C01_case_bad : ~ in_bounds true true 1 2 /\ ~ in_bounds false true 0 2 /\ ~ in_bounds false false 3 2.
Proof. cbv; lia. Qed.

(** C02: on any grid, the unequally spaced rule is the composite trapezoid and
    the exact integral of every piecewise affine interpolant. *)
Theorem C02_trapz_is_integral_of_interpolant :
  forall hist f v threads par g,
  (1 <= List.length f <= List.length v)%nat ->
  piecewise_affine_interpolant (pt v) (pt f) (List.length f) g ->
  exists r, integrate RA hist "trapz" false f v threads par = Ok r /\
    r = trapezoid_sum (pt v) (pt f) (List.length f) /\
    is_RInt g (pt v 0) (pt v (List.length f - 1)) r.
Proof. exact trapz_exact. Qed.
Print Assumptions C02_trapz_is_integral_of_interpolant.

Example C02_case : piecewise_affine_interpolant (pt [0;1;4]%R) (pt [1;3;9]%R) 3 (fun t => 1 + 2 * t)%R.
Proof.
  split.
  - intros i Hi. destruct i as [|[|[|i]]]; cbv [pt nth]; try lra. lia.
  - intros i _. exists 1%R, 2%R. intros; reflexivity.
Qed.

(** C03: on uniform grids both trapezoid code paths agree. *)
Theorem C03_trapz_paths_agree_on_uniform_grid :
  forall hist hist' f a h threads par threads' par',
  (2 <= List.length f)%nat ->
  integrate RA hist "trapz" true f (uniform a h (List.length f)) threads par =
  integrate RA hist' "trapz" false f (uniform a h (List.length f)) threads' par'.
Proof. exact trapz_uniform_agree. Qed.
Print Assumptions C03_trapz_paths_agree_on_uniform_grid.

Example C03_case : (2 <= List.length [1;2;5]%R)%nat.
Proof. simpl; lia. Qed.

(** C04: Simpson's rule integrates cubics exactly. *)
Theorem C04_simpson_exact_on_cubics :
  forall hist c0 c1 c2 c3 a h n threads par,
  (3 <= n)%nat -> Nat.odd n = true ->
  exists r, integrate RA hist "simpson" true (sample (cubic c0 c1 c2 c3) (uniform a h n))
              (uniform a h n) threads par = Ok r /\
    is_RInt (cubic c0 c1 c2 c3) a (a + INR (n - 1) * h) r.
Proof. exact simpson_cubic_exact. Qed.
Print Assumptions C04_simpson_exact_on_cubics.

Example C04_case : (3 <= 5)%nat /\ Nat.odd 5 = true.
Proof. split; [lia|reflexivity]. Qed.

(** C05: the Simpson fallback is the trapezoid computation itself. *)
Theorem C05_simpson_fallback_is_trapz :
  forall (num : Type) (A : arith num) hist hist' es f v threads par threads' par',
  es = false \/ Nat.odd (List.length f) = false ->
  integrate A hist "simpson" es f v threads par = integrate A hist' "trapz" es f v threads' par'.
Proof. exact @simpson_fallback. Qed.
Print Assumptions C05_simpson_fallback_is_trapz.

Example C05_case : Nat.odd (List.length [1;2;3;4]%R) = false.
Proof. reflexivity. Qed.

(** C06: thread count and parallel flag never matter. *)
Theorem C06_threads_do_not_matter :
  forall (num : Type) (A : arith num) hist method es f v threads par threads' par',
  integrate A hist method es f v threads par = integrate A hist method es f v threads' par'.
Proof. exact @threads_irrelevant. Qed.
Print Assumptions C06_threads_do_not_matter.

(** C07: the OpenMP reductions compute the serial value for every distribution
    of the iterations over threads (exact arithmetic)... *)
Theorem C07_parallel_trapz_any_schedule :
  forall parts f v,
  (1 <= List.length f)%nat -> (2 <= List.length v)%nat ->
  Permutation (List.concat parts) (iterations 1 (Z.of_nat (List.length f) - 1)) ->
  trapz RA true (Z.of_nat (List.length f)) f v =
    Ok (trapz_parallel_es RA parts 0%R (Z.of_nat (List.length f)) f v).
Proof. exact trapz_parallel_any_schedule. Qed.
Print Assumptions C07_parallel_trapz_any_schedule.

Theorem C07_parallel_simpson_any_schedule :
  forall parts f v k,
  List.length f = (2 * k + 3)%nat -> (2 <= List.length v)%nat ->
  Permutation (List.concat parts) (iterations 1 (Z.of_nat k + 1)) ->
  simpson RA true (Z.of_nat (List.length f)) f v =
    Ok (simpson_parallel_es RA parts 0%R (Z.of_nat (List.length f)) f v).
Proof. exact simpson_parallel_any_schedule. Qed.
Print Assumptions C07_parallel_simpson_any_schedule.

(** ... but the unequal-grid variant shares its temporaries: two threads, one
    iteration each, each thread runs its three steps in order, and the result
    depends on the interleaving (12 instead of 7). *)
Theorem C07_parallel_trapz_unequal_race_refuted :
  exists f v its il il',
    (* both interleavings schedule each thread exactly three times *)
    count_occ Nat.eq_dec il 0%nat = 3%nat /\ count_occ Nat.eq_dec il 1%nat = 3%nat /\
    count_occ Nat.eq_dec il' 0%nat = 3%nat /\ count_occ Nat.eq_dec il' 1%nat = 3%nat /\
    trapz_parallel_ne RA 0%R 2 its il f v = 12%R /\
    trapz_parallel_ne RA 0%R 2 its il' f v = 7%R /\
    trapz RA false 3 f v = Ok 7%R.
Proof. exact race_witness. Qed.
Print Assumptions C07_parallel_trapz_unequal_race_refuted.

Example C07_case : Permutation (List.concat [[3;1]%Z;[];[2]%Z]) (iterations 1 4).
Proof. cbv. apply (Permutation_sym (l := [1;2;3]%Z)).
  apply (perm_trans (l' := [1;3;2]%Z)); [apply perm_skip, perm_swap|apply perm_swap]. Qed.

(** C08: after any history of calls, "simpson" means Simpson and every other
    method string means trapezoid. *)
Theorem C08_method_meaning_is_history_independent :
  forall (num : Type) (A : arith num) hist method es f v threads par,
  method <> "simpson"%string ->
  integrate A hist method es f v threads par = integrate A [] "trapz" es f v threads par /\
  integrate A hist "simpson" es f v threads par = integrate A [] "simpson" es f v threads par.
Proof. exact @unknown_method. Qed.
Print Assumptions C08_method_meaning_is_history_independent.

(** ... and the two meanings are different rules. *)
Example C08_case :
  integrate RA [] "trapz" true [0;0;1]%R [0;1;2]%R 1 false = Ok (1/2)%R /\
  integrate RA [("foo"%string, true, [], [], 1%Z, true)] "simpson" true [0;0;1]%R [0;1;2]%R 1 false = Ok (1/3)%R.
Proof.
  split; rewrite integrate_char; cbv -[Rplus Rminus Rmult Rdiv IZR]; f_equal; lra.
Qed.

(** C09: linearity for every rule; additivity at a grid point. *)
Theorem C09_integrate_linear :
  forall hist method es a b f g v threads par rf rg,
  List.length f = List.length g ->
  integrate RA hist method es f v threads par = Ok rf ->
  integrate RA hist method es g v threads par = Ok rg ->
  integrate RA hist method es (lincomb a b f g) v threads par = Ok (a * rf + b * rg)%R.
Proof. exact integrate_linear. Qed.
Print Assumptions C09_integrate_linear.

Theorem C09_integrate_additive :
  forall hist f1 f2 fm v1 v2 vm threads par,
  List.length f1 = List.length v1 -> List.length f2 = List.length v2 ->
  exists r r1 r2,
    integrate RA hist "trapz" false (f1 ++ fm :: f2) (v1 ++ vm :: v2) threads par = Ok r /\
    integrate RA hist "trapz" false (f1 ++ [fm]) (v1 ++ [vm]) threads par = Ok r1 /\
    integrate RA hist "trapz" false (fm :: f2) (vm :: v2) threads par = Ok r2 /\
    r = (r1 + r2)%R.
Proof. exact integrate_additive. Qed.
Print Assumptions C09_integrate_additive.

Example C09_case : exists r, integrate RA [] "trapz" true [0;0;1]%R [0;1;2]%R 1 false = Ok r.
Proof. apply C01_integrate_memory_safety. cbv; lia. Qed.

(** C10: on the Chebyshev grid of the Hough functions with 2m >= 4 points, the
    constant 1 integrated with equally_spaced=True is strictly below the
    interval length, and at most pi^2/(2m) -- it tends to 0 with growing
    resolution -- while equally_spaced=False is exact. *)
Theorem C10_equally_spaced_flag_wrong_on_chebyshev_grid :
  forall hist m threads par threads' par',
  (2 <= m)%nat ->
  exists r,
    integrate RA hist "trapz" true (ones (2 * m)) (cheb_grid m) threads par = Ok r /\
    integrate RA hist "trapz" false (ones (2 * m)) (cheb_grid m) threads' par' =
      Ok (pt (cheb_grid m) (2 * m - 1) - pt (cheb_grid m) 0)%R /\
    (r < pt (cheb_grid m) (2 * m - 1) - pt (cheb_grid m) 0)%R /\
    (r <= PI ^ 2 / (2 * INR m))%R.
Proof. exact cheb_es_wrong. Qed.
Print Assumptions C10_equally_spaced_flag_wrong_on_chebyshev_grid.

Example C10_case : (2 <= 100)%nat /\ List.length (cheb_grid 100) = 200%nat.
Proof. split; [lia|apply cheb_grid_length]. Qed.
