(** * Model of the C++ numerical integrator and its Cython wrapper.
    Source: cpp-numintegrator/num_integrator/num_integration.cpp (cited as ni),
    cpp-numintegrator/num_integrator/libcpp_num_integrator.pyx (cited as pyx).
    Simplifications: C [int] sizes are unbounded integers (arrays of at most
    2^31-1 elements); memory is exactly the two arrays, every access outside
    them is [UB]. Arithmetic is the abstract [arith]. *)
From Coq Require Import List ZArith Reals String.
From Verif Require Import Base.
Import ListNotations.
Local Open Scope Z_scope.
Local Open Scope res_scope.

Section Model.
Context {num : Type} (A : arith num).
Local Infix "+." := (nadd A) (at level 50, left associativity).
Local Infix "-." := (nsub A) (at level 50, left associativity).
Local Infix "*." := (nmul A) (at level 40, left associativity).
Local Infix "/." := (ndiv A) (at level 40, left associativity).
Local Notation "# z" := (nofZ A z) (at level 5).

(** ni:58-71, trapz(), branch [equally_spaced]; [n] is [arr_size]. *)
Definition trapz_es (n : Z) (f v : list num) : res num :=
  v1 <- rd v 1 ;
  v0 <- rd v 0 ;
  let increment := v1 -. v0 in
  f0 <- rd f 0 ;
  fl <- rd f (n - 1) ;
  s <- for_ 1 (n - 1) (fun i s => fi <- rd f i ; Ok (s +. fi)) ((f0 +. fl) /. #2) ;
  Ok (s *. increment).

(** ni:72-81, trapz(), branch not [equally_spaced]. *)
Definition trapz_ne (n : Z) (f v : list num) : res num :=
  for_ 1 n (fun i s =>
    vi <- rd v i ; vp <- rd v (i - 1) ;
    let local_increment := vi -. vp in
    fi <- rd f i ; fp <- rd f (i - 1) ;
    let local_integrand_sum := (fi +. fp) /. #2 in
    Ok (s +. local_integrand_sum *. local_increment)) #0.

(** ni:58-82, trapz(). *)
Definition trapz (es : bool) (n : Z) (f v : list num) : res num :=
  if es then trapz_es n f v else trapz_ne n f v.

(** ni:125-155, simpson(). [Z.rem] is C's [%]. *)
Definition simpson (es : bool) (n : Z) (f v : list num) : res num :=
  if es then
    if negb (Z.rem (n - 1) 2 =? 0) then trapz es n f v
    else
      v1 <- rd v 1 ; v0 <- rd v 0 ;
      let increment := v1 -. v0 in
      let half_size := Z.quot n 2 in
      let m := n - 1 in
      f0 <- rd f 0 ; fm <- rd f m ;
      s <- for_ 1 half_size (fun i s =>
             a <- rd f (2 * i - 1) ; b <- rd f (2 * i) ;
             Ok (s +. (#4 *. a +. #2 *. b))) (f0 +. fm) ;
      fo <- rd f (m - 1) ;
      Ok ((increment /. #3) *. (s +. #4 *. fo))
  else trapz es n f v.

(** ni:14-17, enum IntegrationOptions { trapz = 0, simpson = 1 }. *)
Definition opt_trapz : Z := 0.
Definition opt_simpson : Z := 1.

(** ni:20-23, the process-wide unordered_map; [operator[]] (ni:51) inserts a
    value-initialised (0) entry for an absent key. Entries are never removed. *)
Definition table := list (string * Z).
Definition table0 : table := [("trapz"%string, opt_trapz); ("simpson"%string, opt_simpson)].
Fixpoint tlookup (t : table) (k : string) : option Z :=
  match t with
  | [] => None
  | (k', z) :: t' => if String.eqb k k' then Some z else tlookup t' k
  end.
Definition tindex (t : table) (k : string) : table * Z :=
  match tlookup t k with
  | Some z => (t, z)
  | None => ((k, 0) :: t, 0)
  end.

(** ni:195-209, integrate(): switch on the stored option. *)
Definition dispatch (sw : Z) (es : bool) (n : Z) (f v : list num) : res num :=
  if sw =? opt_trapz then trapz es n f v
  else if sw =? opt_simpson then simpson es n f v
  else trapz es n f v.

(** pyx:31-43 and pyx:11-28 with the constructor ni:36-52: one Python-level
    call. [threads]/[par] are stored in the object and never read again. *)
Definition integrate_st (t : table) (method : string) (es : bool) (f v : list num)
    (threads : Z) (par : bool) : table * res num :=
  let arrsize := Z.of_nat (List.length f) in
  let '(t', sw) := tindex t method in
  (t', dispatch sw es arrsize f v).

(** A whole process: the calls made so far determine the table. *)
Definition call : Type := (string * bool * list num * list num * Z * bool)%type.
Definition after (cs : list call) : table :=
  fold_left (fun t c => let '(m, es, f, v, th, p) := c in
                        fst (integrate_st t m es f v th p)) cs table0.

(** The Python function [integrate] in a process where [hist] was called before. *)
Definition integrate (hist : list call) (method : string) (es : bool)
    (f v : list num) (threads : Z) (par : bool) : res num :=
  snd (integrate_st (after hist) method es f v threads par).

(** ** OpenMP variants (not reachable from integrate).
    A schedule is a list of threads, each with the iterations it executes in
    order; every thread starts its private reduction variable at 0 and the
    partial results are added to the original in some order [combine]. *)
Definition reduce_sched (init : num) (term : Z -> num) (parts : list (list Z)) : num :=
  fold_left (fun acc its => acc +. fold_left (fun s i => s +. term i) its #0) parts init.

(** ni:88-105, trapz_parallel(), equally spaced branch, given a schedule of the
    iterations 1..n-2. *)
Definition trapz_parallel_es (parts : list (list Z)) (d : num) (n : Z) (f v : list num) : num :=
  let at_ l i := nth (Z.to_nat i) l d in
  reduce_sched ((at_ f 0 +. at_ f (n - 1)) /. #2) (at_ f) parts *. (at_ v 1 -. at_ v 0).

(** ni:161-185, simpson_parallel(), equally spaced, odd size, given a schedule
    of the iterations 1..half_size-1. *)
Definition simpson_parallel_es (parts : list (list Z)) (d : num) (n : Z) (f v : list num) : num :=
  let at_ l i := nth (Z.to_nat i) l d in
  let m := n - 1 in
  let s := reduce_sched (at_ f 0 +. at_ f m)
             (fun i => #4 *. at_ f (2 * i - 1) +. #2 *. at_ f (2 * i)) parts in
  ((at_ v 1 -. at_ v 0) /. #3) *. (s +. #4 *. at_ f (m - 1)).

(** ni:106-117, trapz_parallel(), unequal branch: [local_increment] and
    [local_integrand_sum] are declared outside the loop and not listed as
    private, hence shared. Per iteration a thread executes three steps. *)
Inductive step_kind := WriteIncrement | WriteSum | Accumulate.
Record race_state := RS {
  sh_inc : num; sh_sum : num;                  (* shared temporaries *)
  acc_of : nat -> num;                         (* private reduction copies *)
  todo_of : nat -> list (step_kind * Z)        (* remaining steps per thread *)
}.
Definition steps_of (its : list Z) : list (step_kind * Z) :=
  flat_map (fun i => [(WriteIncrement, i); (WriteSum, i); (Accumulate, i)]) its.
Definition fupd {B} (g : nat -> B) (k : nat) (b : B) : nat -> B :=
  fun j => if Nat.eqb j k then b else g j.
Definition race_step (d : num) (f v : list num) (st : race_state) (tid : nat) : race_state :=
  let at_ l i := nth (Z.to_nat i) l d in
  match todo_of st tid with
  | [] => st
  | (k, i) :: rest =>
    let td := fupd (todo_of st) tid rest in
    match k with
    | WriteIncrement => RS (at_ v i -. at_ v (i - 1)) (sh_sum st) (acc_of st) td
    | WriteSum => RS (sh_inc st) ((at_ f i +. at_ f (i - 1)) /. #2) (acc_of st) td
    | Accumulate =>
      RS (sh_inc st) (sh_sum st)
         (fupd (acc_of st) tid (acc_of st tid +. sh_sum st *. sh_inc st)) td
    end
  end.
(** Result with [k] threads, thread [t] given iterations [its t], under the
    interleaving [il] (which thread moves at each point). *)
Definition trapz_parallel_ne (d : num) (k : nat) (its : nat -> list Z) (il : list nat)
    (f v : list num) : num :=
  let st0 := RS d d (fun _ => #0) (fun t => steps_of (its t)) in
  let st := fold_left (race_step d f v) il st0 in
  fold_left (fun r t => r +. acc_of st t) (seq 0 k) #0.

End Model.

(** The full-sphere Chebyshev collocation grid on which the Hough functions are
    tabulated and integrated.
    cheby_transform.py:38-40 ([m_size = npts // 2], [npts = 2 m_size]) and
    :50-60 ([theta_n = pi / npts (n + 0.5)], [mu = cos theta], n < m_size);
    hough_function.py:403-434 ([neg_mu = -mu], [mu_range = [neg_mu, mu[::-1]]]).
    The argument is [m_size]. *)
Definition cheb_mu (m : nat) : list R :=
  map (fun n => cos (PI / (2 * INR m) * (INR n + / 2))%R) (seq 0 m).
Definition cheb_grid (m : nat) : list R :=
  map Ropp (cheb_mu m) ++ rev (cheb_mu m).
