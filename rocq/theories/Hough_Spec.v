(** * Specification vocabulary for the Hough functions. *)
From Coq Require Import Reals List ZArith Bool Lia Lra.
From Coquelicot Require Import Coquelicot.
From Verif Require Import Base Hough_Model.
Import ListNotations.
Local Open Scope R_scope.

(** Chebyshev polynomials of the first kind, and their first two derivatives, by the
    three-term recurrence *)
Fixpoint T_pair (n : nat) (x : R) : R * R :=   (* (T_n, T_{n+1}) *)
  match n with O => (1, x) | S k => let p := T_pair k x in (snd p, 2 * x * snd p - fst p) end.
Definition T (n : nat) (x : R) : R := fst (T_pair n x).

(** X is a right inverse of the h x h matrix A *)
Definition right_inverse (h : nat) (A X : mat) : Prop :=
  forall i j, (i < h)%nat -> (j < h)%nat -> vsum h (fun k => A i k * X k j) = if Nat.eqb i j then 1 else 0.
(** all four inverses of a transform object with h half-grid points are right inverses *)
Definition inverses_ok (h : nat) (X : invs) : Prop :=
  forall parity pf, right_inverse h (t0 h parity pf) (X parity pf).
(** contract of np.linalg.eig on a real matrix: every returned pair is an eigenpair, and the
    vector of a real eigenvalue is a nonzero real vector *)
Definition eig_ok (h : nat) (A : mat) (l : list epair) : Prop :=
  forall e, In e l -> ep_im e = 0 ->
    (forall i, (i < h)%nat -> vsum h (fun k => A i k * ep_vre e k) = ep_re e * ep_vre e i) /\
    (exists i, (i < h)%nat /\ ep_vre e i <> 0).

(** F1 and F2 are the first and second derivative of F on (-1, 1) *)
Definition derivatives (F F1 F2 : R -> R) : Prop :=
  forall x, -1 < x < 1 -> is_derive F x (F1 x) /\ is_derive F1 x (F2 x).

(** Laplace's tidal equation at x with eigenvalue l (sign convention of the code: l < 0), in
    divergence form *)
Definition tidal_equation (nu m : R) (F F1 : R -> R) (l x : R) : Prop :=
  exists flux', is_derive (fun y => (1 - y ^ 2) / (1 - nu ^ 2 * y ^ 2) * F1 y) x flux' /\
  flux' + (nu * m * (1 + nu ^ 2 * x ^ 2) / (1 - nu ^ 2 * x ^ 2) ^ 2
           - m ^ 2 / ((1 - x ^ 2) * (1 - nu ^ 2 * x ^ 2))) * F x = l * F x.

(** horizontal components derived from a radial function, as functions of mu *)
Definition Ht_of (nu m : R) (F F1 : R -> R) (x : R) : R :=
  (- (1 - x ^ 2) * F1 x - m * nu * x * F x) / ((1 - nu ^ 2 * x ^ 2) * sqrt (1 - x ^ 2)).
Definition Hp_of (nu m : R) (F F1 : R -> R) (x : R) : R :=
  (nu * x * (1 - x ^ 2) * F1 x + m * F x) / ((1 - nu ^ 2 * x ^ 2) * sqrt (1 - x ^ 2)).

(** the array of 2h values samples the function G on the full grid *)
Definition samples (h : nat) (a : vec) (G : R -> R) : Prop := forall i, (i < 2 * h)%nat -> a i = G (mu_full h i).
(** the array holds the derivative of G on the full grid *)
Definition derivative_samples (h : nat) (a : vec) (G : R -> R) : Prop :=
  forall i, (i < 2 * h)%nat -> is_derive G (mu_full h i) (a i).
(** derivative with respect to theta of G(cos theta), at the angle theta_i in (0, pi) whose
    cosine is the i-th grid value *)
Definition theta_derivative_samples (h : nat) (a : vec) (G : R -> R) : Prop :=
  forall i t, (i < 2 * h)%nat -> 0 < t < PI -> cos t = mu_full h i -> is_derive (fun u => G (cos u)) t (a i).
(** preconditions of a computation: at least one half-grid point, exact inverses, exact
    eigenpairs, no grid point on the critical latitude *)
Definition well_posed (X : invs) (eig : mat -> list epair) (o : hobj) : Prop :=
  (1 <= o_h o)%nat /\ inverses_ok (o_h o) X /\ eig_ok (o_h o) (colloc_matrix X o) (eig (colloc_matrix X o)) /\
  (forall j, (j < o_h o)%nat -> 1 - o_nu o ^ 2 * mu_ (o_h o) j ^ 2 <> 0).
(** the radial function behind a result: twice differentiable, of the parity of l - m, equal to
    the returned samples *)
Definition radial_function (o : hobj) (r : hres) (F F1 F2 : R -> R) : Prop :=
  derivatives F F1 F2 /\ (forall y, F (- y) = (if Z.even (o_l o - o_m o) then 1 else -1) * F y) /\
  samples (o_h o) (hr_range o r) F /\ samples (o_h o) (hrp_range o r) F1.
(** a truncated Chebyshev expansion: even or odd polynomials, times sqrt(1-x^2) when [pf] *)
Definition expansion (h : nat) (parity pf : bool) (a : nat -> R) (x : R) : R :=
  (if pf then sqrt (1 - x ^ 2) else 1) *
  vsum h (fun j => a j * T (if parity then 2 * j + 1 else 2 * j)%nat x).
(** the estimate an eigenvalue is compared with *)
Definition wanted (o : hobj) (est : R) : Prop :=
  match o_lmbd o with
  | None => est = - (IZR (o_l o) * (IZR (o_l o) + 1))
  | Some (LFloat x) | Some (LList (x :: _)) => est = if o_adj o then - x else x
  | Some (LList []) => False
  end.
(** the eigenpair (ev, v) is one of the real negative ones, none is nearer to [est], and the
    equally near ones are not more negative *)
Definition nearest_negative (l : list epair) (est ev : R) (v : vec) : Prop :=
  (exists e, In e l /\ ep_im e = 0 /\ ep_re e < 0 /\ ev = ep_re e /\ v = ep_vre e) /\
  forall e, In e l -> ep_im e = 0 -> ep_re e < 0 ->
    Rabs (est - ev) <= Rabs (est - ep_re e) /\ (Rabs (est - ev) = Rabs (est - ep_re e) -> ev <= ep_re e).
