(** * Specification for the kernels of a profile run (C105, C106). *)
From Coq Require Import Reals List ZArith Bool.
From Coquelicot Require Import Complex.
From Verif Require Import Base Coupling_Model Coupling_Spec Kernel_Model.
Import ListNotations.
Local Open Scope R_scope.

(** the tuple of names, by mode number, when operator 1 acts on mode p, 2 on q, 3 on r *)
Definition place {A} (t : A * A * A) (s : nat * nat * nat) : A * A * A :=
  let '(a, b, c) := t in
  match s with
  | (1, 2, 3) => (a, b, c) | (1, 3, 2) => (a, c, b) | (2, 1, 3) => (b, a, c)
  | (3, 1, 2) => (b, c, a) | (2, 3, 1) => (c, a, b) | _ => (c, b, a)
  end%nat.
(** the row of a kernel with a given legend (zero if there is none) *)
Fixpoint row {A} (eqb : A -> A -> bool) (rows : list ((A * A * A) * (nat -> C))) (key : A * A * A) : nat -> C :=
  match rows with
  | [] => fun _ => RtoC 0
  | (k, f) :: l => if triple_eqb eqb k key then f else row eqb l key
  end.
(** quadrature of a kernel with respect to ln r over the first [stop] radii *)
Definition log_integral (E : cenv) (stop : nat) (f : nat -> C) : R :=
  e_integ E false (firstn stop (map (fun i => Re (f i) / e_x E i) (seq 0 (e_n E))))
                  (firstn stop (map (e_x E) (seq 0 (e_n E)))).

(** the angular functions that each radial kernel of the figures goes with: (functions in the
    order of the operators of the radial kernel, divided by sin(theta)?, weight) *)
Definition partner := list ((aterm * aterm * aterm) * bool * R).
Definition partners_1 : list ((rterm * rterm * rterm) * partner) :=
  [ ((RDerXZ1, RDerXZ1, RDiverg), [((Hr, Hr, Hr), false, 1)]);
    ((RZ2c, RZ2c, RDiverg), [((DHt, DHt, Hr), false, 1); ((PhPh, PhPh, Hr), false, 1); ((ThPh, DHp, Hr), true, -2)]);
    ((RZ1, RZ1, RDiverg), [((Hr, Hr, Hr), false, 1)]);
    ((RZ2c, RZ1, RDiverg), [((DHt, Hr, Hr), false, 1); ((PhPh, Hr, Hr), false, 1)]);
    ((RZ1, RDerXZ2c, RDiverg), [((DHr, Ht, Hr), false, 1); ((MHr, Hp, Hr), true, -1)]);
    ((RDiverg, RZ2c, RDerXZ2c), [((Hr, Ht, Ht), false, 1); ((Hr, Hp, Hp), false, -1)]) ].
Definition partners_2 : list ((rterm * rterm * rterm) * partner) :=
  [ ((RDiverg, RDiverg, RDiverg), [((Hr, Hr, Hr), false, 1)]); ((RDiverg, RDiverg, RDiverg), [((Hr, Hr, Hr), false, 1)]) ].
Definition partners_3 : list ((rterm * rterm * rterm) * partner) :=
  [ ((RDerXZ1, RZ2c, RDerXZ2c), [((Hr, Ht, Ht), false, 1); ((Hr, Hp, Hp), false, -1)]);
    ((RDerXZ1, RZ1, RDerXZ2c), [((Hr, DHr, Ht), false, 1); ((Hr, MHr, Hp), true, -1)]);
    ((RZ1, RZ2c, RDerXZ2c), [((Hr, Ht, Ht), false, -1); ((DHr, DHt, Ht), false, 1); ((Hr, Hp, Hp), false, 1);
        ((MHr, PhPh, Hp), true, -1); ((MHr, DHp, Ht), true, -1); ((DHr, ThPh, Hp), true, -1)]);
    ((RZ2c, RZ2c, RDerXZ2c), [((Ht, DHt, Ht), false, -1); ((Hp, PhPh, Hp), false, 1); ((Hp, DHp, Ht), false, 1); ((ThPh, Ht, Hp), true, 1)]);
    ((RZ1, RZ1, RDerXZ2c), [((DHr, Hr, Ht), false, 1); ((MHr, Hr, Hp), true, -1)]);
    ((RZ2c, RZ2c, RZ2c), [((DHt, ThPh, DHp), true, 1); ((DHp, ThPh, PhPh), true, 1)]);
    ((RZ1, RZ2c, RZ2c), [((Hr, ThPh, DHp), true, 1)]);
    ((RZ1, RZ2c, RZ2c), [((Hr, PhPh, PhPh), false, 1); ((Hr, DHt, DHt), false, 1)]);
    ((RZ1, RZ1, RZ2c), [((Hr, Hr, DHt), false, 1); ((Hr, Hr, PhPh), false, 1)]);
    ((RDerXZ1, RDerXZ1, RDerXZ1), [((Hr, Hr, Hr), false, 1)]);
    ((RZ1, RZ1, RZ1), [((Hr, Hr, Hr), false, 1)]);
    ((RZ2c, RZ2c, RZ2c), [((PhPh, PhPh, PhPh), false, 1); ((DHt, DHt, DHt), false, 1)]) ].
Definition partners_4 : list ((rterm * rterm * rterm) * partner) :=
  [ ((RZ1, RZ2c, RZ2c), [((Hr, Ht, Ht), false, 1); ((Hr, Hp, Hp), false, -1)]);
    ((RZ1, RZ2c, RZ2c), [((Hr, Ht, Ht), false, 1); ((Hr, Hp, Hp), false, -1)]);
    ((RZ1, RZ1, RZ1), [((Hr, Hr, Hr), false, 1)]) ].

(** sum over the kernels of a contribution, over the assignments of the modes to the operators
    (one only for kernels that are not symmetrised), of the ln r quadrature of the row shown for
    that assignment times its angular integral *)
Definition from_kernels (E : cenv) (stop : nat) (terms : list (kterm rterm)) (ps : list ((rterm * rterm * rterm) * partner)) : R :=
  sum_over (combine terms ps) (fun '(t, (names, pt)) =>
    sum_over (if t_sym t then assignments else [(1, 2, 3)%nat]) (fun s =>
      log_integral E stop (row rterm_beq (t_rows t) (place names s)) *
      sum_over pt (fun '(a, d, w) => w * angular_value E a d s))).

(** pressure and density are the normalised ones times their norms *)
Definition consistent (K : kenv) : Prop :=
  let E := k_E K in e_normP E <> 0 /\ e_normrho E <> 0 /\ k_energy K <> 0 /\ e_R E <> 0 /\
  (forall i, e_P E i = k_P K i / e_normP E) /\ (forall i, e_rhon E i = e_rho E i / e_normrho E) /\
  (forall i, (i < e_n E)%nat -> e_x E i <> 0).

(** an angular kernel as its label announces it *)
Definition announced (E : cenv) (e : aterm_entry) (key : aterm * aterm * aterm) (k : nat) : R :=
  let '(a, b, c) := key in
  a_factor e * (if a_mu e then e_mu E k else 1) * (e_ang E a 1%nat k * e_ang E b 2%nat k * e_ang E c 3%nat k)
  / (if a_div e then sqrt (1 - e_mu E k ^ 2) else 1).
