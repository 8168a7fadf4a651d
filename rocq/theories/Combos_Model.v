(** * Model of the combination classes and of the mode-input generator.
    Sources: py-combinations/py_combinations/{cartesian_combinations,
    single_set_combinations,symmetric_product}.py and
    aesolver/aesolver/mode_input_generator/input_generator.py (ig).
    Elements are integers. A Python set is modelled by the duplicate-free list of
    its elements in the (unspecified) order in which Python iterates over it;
    that order is an argument wherever the code iterates over a set. *)
From Coq Require Import List ZArith Bool QArith.
From Verif Require Import Base.
Import ListNotations.
Local Open Scope Z_scope.

(** itertools.product(A, B) *)
Definition product (A B : list Z) : list (Z * Z) := flat_map (fun a => map (fun b => (a, b)) B) A.
(** itertools.combinations(l, 2) *)
Fixpoint combinations2 (l : list Z) : list (Z * Z) :=
  match l with
  | [] => []
  | a :: t => map (fun b => (a, b)) t ++ combinations2 t
  end.
(** math.comb(n, 2) *)
Definition comb2 (n : Z) : Z := n * (n - 1) / 2.

(** cartesian_combinations.py:38-44 *)
Definition cartesian_value (A B : list Z) := product A B.
Definition cartesian_cardinality (A B : list Z) : Z := Z.of_nat (length A) * Z.of_nat (length B).
(** single_set_combinations.py:35-41 *)
Definition single_value (l : list Z) := combinations2 l.
Definition single_cardinality (l : list Z) : Z := comb2 (Z.of_nat (length l)).

Definition mem (x : Z) (l : list Z) : bool := existsb (Z.eqb x) l.
Definition pair_eqb (p q : Z * Z) : bool := (fst p =? fst q) && (snd p =? snd q).
Definition pmem (p : Z * Z) (l : list (Z * Z)) : bool := existsb (pair_eqb p) l.
(** set difference and union of sets of pairs; the order of the result models one
    possible iteration order *)
Definition pdiff (l k : list (Z * Z)) := filter (fun p => negb (pmem p k)) l.
Definition punion (l k : list (Z * Z)) := l ++ pdiff k l.

(** symmetric_product.py:62-75. [U], [AmB], [BmA]: the iteration orders of the
    sets A|B, A-B and B-A. The inputs A and B are iterated in their own order
    (lines 51-52). *)
Definition sym_value (A B U AmB BmA : list Z) : list (Z * Z) :=
  let cA := combinations2 A in
  let cB := combinations2 B in
  let first := pdiff (combinations2 U) (punion cA cB) in
  let second := pdiff cA (combinations2 AmB) in
  let third := pdiff cB (combinations2 BmA) in
  punion (punion first second) third.

(** len(set(l)) *)
Definition card (l : list Z) : Z := Z.of_nat (length (nodup Z.eq_dec l)).
(** symmetric_product.py:77-89 *)
Definition diag_cardinality (A B : list Z) : Z := card (filter (fun x => mem x B) A).
Definition sym_cardinality (A B : list Z) : Z :=
  let d := diag_cardinality A B in
  comb2 (card A + card B - d) - comb2 (card A - d) - comb2 (card B - d).

(** symmetric_product.py:91-100; [I] is the iteration order of A & B. *)
Definition sym_value_diag (incl : bool) (A B U AmB BmA I : list Z) : list (Z * Z) :=
  sym_value A B U AmB BmA ++ (if incl then map (fun d => (d, d)) I else []).
Definition sym_cardinality_diag (incl : bool) (A B : list Z) : Z :=
  sym_cardinality A B + (if incl then diag_cardinality A B else 0).

(** range(lo, hi + 1) *)
Definition range (lo hi : Z) : list Z := map (fun k => lo + Z.of_nat k) (seq 0 (Z.to_nat (hi + 1 - lo))).

(** ig:115-133. [orders]: the iteration orders (U, A-B, B-A, A&B) of the set
    operations in the two-range case. *)
Definition generate (driven damped1 : list Z) (damped2 : option (list Z)) (U AmB BmA I : list Z) : list (Z * Z * Z) :=
  match damped2 with
  | None => flat_map (fun d => map (fun p => (d, fst p, snd p)) (single_value damped1)) driven
  | Some damped2 => flat_map (fun d => map (fun p => (d, fst p, snd p)) (sym_value_diag true damped1 damped2 U AmB BmA I)) driven
  end.
(** ig:135-147 *)
Definition average (t : Z * Z * Z) : Q := let '(a, b, c) := t in ((a + b + c) # 3)%Q.
Definition wu_difference (t : Z * Z * Z) : Z := let '(a, b, c) := t in a - Z.abs (b - c).
Definition averages (l : list (Z * Z * Z)) := map average l.
Definition wu_differences (l : list (Z * Z * Z)) := map wu_difference l.
