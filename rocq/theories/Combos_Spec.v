(** * Specification vocabulary for combinations. *)
From Coq Require Import List ZArith.
Import ListNotations.
Local Open Scope Z_scope.

(** x occurs somewhere before y in l. *)
Definition precedes (l : list Z) (x y : Z) : Prop := exists l1 l2 l3, l = l1 ++ x :: l2 ++ y :: l3.
(** l is a possible iteration order of the set {x | P x}. *)
Definition enumerates (l : list Z) (P : Z -> Prop) : Prop := NoDup l /\ forall x, In x l <-> P x.
(** every two elements of l are iterated in the same order by u *)
Definition same_order (l u : list Z) : Prop := forall x y, precedes l x y -> precedes u x y.
(** the pairs the symmetric product should contain *)
Definition wanted (A B : list Z) (x y : Z) : Prop := x <> y /\ ((In x A /\ In y B) \/ (In y A /\ In x B)).
