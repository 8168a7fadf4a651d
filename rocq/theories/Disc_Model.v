(** * Model of the limb-darkening and disc-integral C++ code.
    Sources: cpp-ld-funcs/ld_funcs/ld_functions.cpp (ld), libcpp_ld_funcs.pyx
    (ldx), cpp-disc-integrator/disc_integrator/disc_integrals.cpp (di),
    libcpp_disc_integration.pyx (dix). *)
From Coq Require Import List ZArith Reals String.
From Verif Require Import Base NumInt_Model.
Import ListNotations.
Local Open Scope Z_scope.
Local Open Scope res_scope.

(** Arithmetic with comparison and C's [pow]. *)
Record arith_ord (num : Type) := ArithOrd {
  oar : arith num;
  nleb : num -> num -> bool;       (* C's <=, false when an operand is NaN *)
  npow : num -> num -> num         (* C's pow *)
}.
Arguments oar {num}. Arguments nleb {num}. Arguments npow {num}.

(** Exact reals: pow with exponent 2 is the only use. *)
Definition RO : arith_ord R := {|
  oar := RA;
  nleb := fun x y => if Rle_dec x y then true else false;
  npow := fun x y => if Req_EM_T y 2 then (x * x)%R else Rpower x y |}.

Section LD.
Context {num : Type} (A : arith num).
Local Infix "+." := (nadd A) (at level 50, left associativity).
Local Infix "*." := (nmul A) (at level 40, left associativity).

(** ld:50,62 : 1.0 + (1.5 * mu). *)
Definition edd (x : num) : num := nofZ A 1 +. (nofQ A 3 2 *. x).

(** A numpy view handed to the wrapper: ldx:29-30 accepts strided [double[:]]. *)
Record view := View { vbase : Z; vstride : Z; vlen : nat }.
(** What Python sees at index i of a view. *)
Definition vget (mem : list num) (w : view) (i : nat) : res num :=
  rd mem (vbase w + Z.of_nat i * vstride w).

(** One pass of the loop ld:48-52 / ld:58-64 at the granularity of memory
    accesses. Iteration k loads muvals[k] into a register and stores
    ld_funcs[k]. A schedule is a list of such micro steps. *)
Inductive mstep := MRead (k : nat) | MWrite (k : nat).
Record mstate := MS { memory : list num; regs : nat -> num }.
Definition mexec (kb rb : Z) (st : mstate) (s : mstep) : res mstate :=
  match s with
  | MRead k => x <- rd (memory st) (kb + Z.of_nat k) ;
               Ok (MS (memory st) (fun j => if Nat.eqb j k then x else regs st j))
  | MWrite k => m <- wr (memory st) (rb + Z.of_nat k) (edd (regs st k)) ;
                Ok (MS m (regs st))
  end.
Fixpoint mrun (kb rb : Z) (tr : list mstep) (st : mstate) : res mstate :=
  match tr with
  | [] => Ok st
  | s :: tr' => st' <- mexec kb rb st s ; mrun kb rb tr' st'
  end.
Definition pass (kb rb : Z) (tr : list mstep) (mem : list num) : res (list num) :=
  st <- mrun kb rb tr (MS mem (fun _ => nofZ A 0)) ; Ok (memory st).

(** The serial loop's schedule (ld:48). *)
Definition serial_trace (n : nat) : list mstep :=
  flat_map (fun k => [MRead k; MWrite k]) (seq 0 n).

(** ld:19-21,35: string table, [operator[]] inserts 0 = eddington. *)
Definition ld_table := list (string * Z).
Definition ld_table0 : ld_table := [("eddington"%string, 0)].
Definition ld_index (t : ld_table) (k : string) : ld_table * Z :=
  match tlookup t k with Some z => (t, z) | None => ((k, 0) :: t, 0) end.
Definition ld_after (names : list string) : ld_table :=
  fold_left (fun t k => fst (ld_index t k)) names ld_table0.

(** ld:73-89, compute(): the eddington case has no break and falls through
    into default, so two passes run; any other value runs one. *)
Definition ld_compute (sel : Z) (kb rb : Z) (tr1 tr2 : list mstep) (mem : list num) : res (list num) :=
  if sel =? 0 then mem1 <- pass kb rb tr1 mem ; pass kb rb tr2 mem1
  else pass kb rb tr2 mem.

(** ldx:28-37: the Python function. Only the base pointers of the two views and
    the length of the first one are used; strides are ignored. [tr1],[tr2] are
    the schedules of the two passes over [vlen kap] iterations. *)
Definition ld_call (hist : list string) (name : string) (kap res_ : view)
    (tr1 tr2 : list mstep) (mem : list num) : res (list num) :=
  let '(_, sel) := ld_index (ld_after hist) name in
  ld_compute sel (vbase kap) (vbase res_) tr1 tr2 mem.
End LD.

Section Disc.
Context {num : Type} (O : arith_ord num).
Let A := oar O.
Local Infix "+." := (nadd A) (at level 50, left associativity).
Local Infix "-." := (nsub A) (at level 50, left associativity).
Local Infix "*." := (nmul A) (at level 40, left associativity).
Local Notation "# z" := (nofZ A z) (at level 5).

Record disc_data := DD { d_mu : list num; d_ang : list num; d_first : list num; d_second : list num }.

(** di:53-64, adjust_data_to_integration_length(). *)
Definition in_disc (mu : num) : bool := nleb O #0 mu && nleb O mu #1.
Definition adjust (n : Z) (d : disc_data) : res disc_data :=
  for_ 0 n (fun i acc =>
    mu <- rd (d_mu d) i ;
    if in_disc mu then
      a <- rd (d_ang d) i ; f <- rd (d_first d) i ; s <- rd (d_second d) i ;
      Ok (DD (d_mu acc ++ [mu]) (d_ang acc ++ [a]) (d_first acc ++ [f]) (d_second acc ++ [s]))
    else Ok acc) (DD [] [] [] []).

(** di:69-77: limb darkening of the retained mu; the two vectors are disjoint
    blocks of memory (here: concatenated). *)
Definition disc_ld (hist : list string) (name : string) (tr1 tr2 : list mstep) (mus : list num)
  : res (list num) :=
  let n := List.length mus in
  mem <- ld_call A hist name (View 0 1 n) (View (Z.of_nat n) 1 n) tr1 tr2 (mus ++ repeat #0 n) ;
  Ok (skipn n mem).

(** Filling a freshly allocated vector (di:104-108 etc.), the loop iterations
    executed in the order [ord] (serial: 0..n-1; OpenMP: any order). *)
Definition fill (ord : list nat) (n : nat) (g : nat -> res num) : res (list num) :=
  fold_left (fun v j => v' <- v ; x <- g j ; wr v' (Z.of_nat j) x) ord (Ok (repeat #0 n)).

(** di:101-110 and di:115-126. *)
Definition first_integrand (d : disc_data) (ld : list num) (j : nat) : res num :=
  m <- rd (d_mu d) (Z.of_nat j) ; a <- rd (d_ang d) (Z.of_nat j) ; l <- rd ld (Z.of_nat j) ;
  Ok (m *. a *. l).
(** di:143-155 and di:160-175. *)
Definition second_integrand (d : disc_data) (ld : list num) (j : nat) : res num :=
  m <- rd (d_mu d) (Z.of_nat j) ; f <- rd (d_first d) (Z.of_nat j) ;
  s <- rd (d_second d) (Z.of_nat j) ; l <- rd ld (Z.of_nat j) ;
  Ok (((#2 *. m *. f) +. ((npow O m #2 -. #1) *. s)) *. l *. m).

(** dix:33-47, dix:12-30 and di:18-47, di:82-96: get_integrals. [perform_integration]
    (di:82-88) always passes equally_spaced = true. [ihist] are earlier integrate
    calls, [lhist] earlier limb-darkening names, [ord1],[ord2] loop schedules. *)
Definition get_integrals (lhist : list string) (ihist : list (@call num))
    (tr1 tr2 : list mstep) (ord1 ord2 : list nat)
    (mus ang first second : list num) (ldname method : string) (threads : Z) (par : bool)
  : res (num * num) :=
  d <- adjust (Z.of_nat (List.length mus)) (DD mus ang first second) ;
  let n := List.length (d_mu d) in
  ld <- disc_ld lhist ldname tr1 tr2 (d_mu d) ;
  f1 <- fill ord1 n (first_integrand d ld) ;
  r1 <- integrate A ihist method true f1 (d_mu d) threads par ;
  f2 <- fill ord2 n (second_integrand d ld) ;
  r2 <- integrate A ihist method true f2 (d_mu d) threads par ;
  Ok (r1, r2).
End Disc.
