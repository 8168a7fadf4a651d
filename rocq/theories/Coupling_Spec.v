(** * Specification vocabulary for the coupling coefficients (C43-C47, C66-C70). *)
From Coq Require Import Reals List ZArith Bool.
From Coquelicot Require Import Complex.
From Verif Require Import Base Coupling_Model.
Import ListNotations.
Local Open Scope R_scope.

(** The six ways to hand the three modes to three operators: (p, q, r) = operator 1 acts
    on mode p, operator 2 on mode q, operator 3 on mode r. *)
Definition assignments : list (nat * nat * nat) :=
  [(1, 2, 3); (1, 3, 2); (2, 1, 3); (2, 3, 1); (3, 1, 2); (3, 2, 1)]%nat.

Definition sum_over {A} (l : list A) (f : A -> R) : R := fold_right (fun a s => f a + s) 0 l.

(** radial integral over the first [stop] grid points of
    Re(f1(mode p) f2(mode q) f3(mode r) w) x^2 *)
Definition radial_value (E : cenv) (t : rterm * rterm * rterm) (w : nat -> R) (stop : nat)
    (s : nat * nat * nat) : R :=
  let '(f1, f2, f3) := t in let '(p, q, r) := s in
  e_integ E false
    (firstn stop (map (fun i => Re (e_rad E f1 p i * e_rad E f2 q i * e_rad E f3 r i)%C * w i * (e_x E i) ^ 2)
                      (seq 0 (e_n E))))
    (firstn stop (map (e_x E) (seq 0 (e_n E)))).

(** what the regular quadrature of the theta part returns for an integrand *)
Definition regular_theta (E : cenv) (f : nat -> R) : R :=
  e_integ E true (map f (seq 0 (e_nmu E))) (map (e_mu E) (seq 0 (e_nmu E))).
(** divided by sin(theta) when asked *)
Definition over_sin (E : cenv) (div : bool) (f : nat -> R) (i : nat) : R :=
  if div then f i / sqrt (1 - e_mu E i ^ 2) else f i.

(** the azimuthal orders, conjugated modes with the sign changed *)
Definition signed_m_sum (E : cenv) : Z :=
  match e_conj E, e_m E with
  | ConjTuple [c1; c2; c3], [m1; m2; m3] =>
      (if c1 then - m1 else m1) + (if c2 then - m2 else m2) + (if c3 then - m3 else m3)
  | _, _ => 0
  end%Z.

(** angular integral of the product of three angular functions: azimuthal part 2 pi or 0,
    polar part by the regular quadrature *)
Definition angular_value (E : cenv) (t : aterm * aterm * aterm) (div : bool) (s : nat * nat * nat) : R :=
  let '(h1, h2, h3) := t in let '(p, q, r) := s in
  if (signed_m_sum E =? 0)%Z
  then 2 * PI * regular_theta E (over_sin E div (fun i => e_ang E h1 p i * e_ang E h2 q i * e_ang E h3 r i))
  else 0.

(** An object in the default configuration: a tuple of three conjugation flags, three
    azimuthal orders, no Chebyshev quadrature, real-valued integration. *)
Definition standard (E : cenv) : Prop :=
  (exists c1 c2 c3, e_conj E = ConjTuple [c1; c2; c3]) /\ (exists m1 m2 m3, e_m E = [m1; m2; m3])
  /\ e_cheby E = false /\ e_blow E = false /\ e_complex E = false.

(** weighted sums over lists of terms *)
Definition weighted_rad (E : cenv) (ts : list (rterm * rterm * rterm)) (fac : list R) w stop s : R :=
  fold_right (fun p a => snd p * radial_value E (fst p) w stop s + a) 0 (combine ts fac).
Definition weighted_ang (E : cenv) (ts : list (aterm * aterm * aterm)) (divs : list bool) (fac : list R) s : R :=
  fold_right (fun p a => snd p * angular_value E (fst (fst p)) (snd (fst p)) s + a) 0
    (combine (combine ts divs) fac).

Definition rad_list (rt : rad_terms) := match rt with RSingle t => [t] | RMulti ts => ts end.
Definition ang_list (at_ : ang_terms) := match at_ with ASingle t _ => [t] | AMulti ts _ => ts end.
Definition div_list (at_ : ang_terms) := match at_ with ASingle _ d => [d] | AMulti _ ds => ds end.

(** Lee's S operator: sum over all assignments of the modes to the operators *)
Definition S_value (E : cenv) (rt : rad_terms) w (at_ : ang_terms) (afac rfac : list R) stop : R :=
  sum_over assignments (fun s =>
    weighted_rad E (rad_list rt) rfac w stop s * weighted_ang E (ang_list at_) (div_list at_) afac s).

(** renaming the modes: new mode i is old mode (pi i) *)
Definition pick {A} (s : nat * nat * nat) (f : nat -> A) : list A :=
  let '(p, q, r) := s in [f p; f q; f r].
Definition perm_of (s : nat * nat * nat) (i : nat) : nat :=
  let '(p, q, r) := s in match i with 1 => p | 2 => q | 3 => r | _ => i end%nat.
Definition relabel (s : nat * nat * nat) (E : cenv) : cenv := {|
  e_n := e_n E; e_x := e_x E; e_nmu := e_nmu E; e_mu := e_mu E;
  e_rad := fun t i => e_rad E t (perm_of s i);
  e_ang := fun t i => e_ang E t (perm_of s i);
  e_m := pick s (fun i => nth (i - 1) (e_m E) 0%Z);
  e_conj := match e_conj E with ConjTuple l => ConjTuple (pick s (fun i => nth (i - 1) l false)) | c => c end;
  e_self := e_self E; e_complex := e_complex E; e_cheby := e_cheby E; e_cheby_mul := e_cheby_mul E;
  e_blow := e_blow E; e_blow_fac := e_blow_fac E; e_poly := e_poly E; e_P := e_P E; e_G1 := e_G1 E;
  e_rhon := e_rhon E; e_rho := e_rho E; e_adder := e_adder E; e_g1 := e_g1 E; e_g2 := e_g2 E; e_g3 := e_g3 E;
  e_normP := e_normP E; e_normrho := e_normrho E; e_R := e_R E;
  e_corot := fun i => e_corot E (perm_of s i); e_surf := e_surf E; e_integ := e_integ E |}.

(** the same object with another self-coupling flag *)
Definition with_self (b : bool) (E : cenv) : cenv := {|
  e_n := e_n E; e_x := e_x E; e_nmu := e_nmu E; e_mu := e_mu E; e_rad := e_rad E; e_ang := e_ang E;
  e_m := e_m E; e_conj := e_conj E; e_self := b; e_complex := e_complex E; e_cheby := e_cheby E;
  e_cheby_mul := e_cheby_mul E; e_blow := e_blow E; e_blow_fac := e_blow_fac E; e_poly := e_poly E;
  e_P := e_P E; e_G1 := e_G1 E; e_rhon := e_rhon E; e_rho := e_rho E; e_adder := e_adder E; e_g1 := e_g1 E;
  e_g2 := e_g2 E; e_g3 := e_g3 E; e_normP := e_normP E; e_normrho := e_normrho E; e_R := e_R E;
  e_corot := e_corot E; e_surf := e_surf E; e_integ := e_integ E |}.

(** the three modes are one and the same *)
Definition identical_modes (E : cenv) : Prop :=
  (forall t i j, (1 <= i <= 3)%nat -> e_rad E t i j = e_rad E t 1%nat j) /\
  (forall t i j, (1 <= i <= 3)%nat -> e_ang E t i j = e_ang E t 1%nat j).

(** the object with the radial functions of mode i multiplied by [a i] *)
Definition scale_modes (a : nat -> R) (E : cenv) : cenv := {|
  e_n := e_n E; e_x := e_x E; e_nmu := e_nmu E; e_mu := e_mu E;
  e_rad := fun t i j => (RtoC (a i) * e_rad E t i j)%C; e_ang := e_ang E;
  e_m := e_m E; e_conj := e_conj E; e_self := e_self E; e_complex := e_complex E; e_cheby := e_cheby E;
  e_cheby_mul := e_cheby_mul E; e_blow := e_blow E; e_blow_fac := e_blow_fac E; e_poly := e_poly E;
  e_P := e_P E; e_G1 := e_G1 E; e_rhon := e_rhon E; e_rho := e_rho E; e_adder := e_adder E; e_g1 := e_g1 E;
  e_g2 := e_g2 E; e_g3 := e_g3 E; e_normP := e_normP E; e_normrho := e_normrho E; e_R := e_R E;
  e_corot := e_corot E; e_surf := e_surf E; e_integ := e_integ E |}.

(** a quadrature that is homogeneous in the integrand for arrays of equal size >= 2
    (see C68_library_integrator_homogeneous) *)
Definition homogeneous (integ : bool -> list R -> list R -> R) : Prop :=
  forall b a ys xs, length ys = length xs -> (2 <= length ys)%nat ->
    integ b (map (Rmult a) ys) xs = a * integ b ys xs.

(** volume integral of  density-weight w(r) f(r)^2  times an angular product: azimuth 2 pi *)
Definition volume_value (E : cenv) (mode : nat) (r : rterm) (h h' : aterm) (withmu : bool) : R :=
  2 * PI * regular_theta E (fun i => e_ang E h mode i * e_ang E h' mode i * (if withmu then e_mu E i else 1))
  * e_integ E false (map (fun i => (e_x E i) ^ 2 * e_rhon E i * Re (e_rad E r mode i * e_rad E r mode i)%C) (seq 0 (e_n E)))
                    (map (e_x E) (seq 0 (e_n E))).
