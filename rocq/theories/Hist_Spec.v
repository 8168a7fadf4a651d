(** * Specification vocabulary for histograms, independent of the model. *)
From Coq Require Import Reals List ZArith Lia Lra.
Import ListNotations.
Local Open Scope R_scope.

(** [counted P l n]: exactly n entries of l satisfy P *)
Inductive counted {A} (P : A -> Prop) : list A -> nat -> Prop :=
| counted_nil : counted P [] 0
| counted_yes x l n : P x -> counted P l n -> counted P (x :: l) (S n)
| counted_no x l n : ~ P x -> counted P l n -> counted P (x :: l) n.

Definition is_min (m : R) (l : list R) : Prop := In m l /\ forall x, In x l -> m <= x.
Definition is_max (m : R) (l : list R) : Prop := In m l /\ forall x, In x l -> x <= m.

(** bin number i of n equal bins of width w starting at lo: half-open, the last one closed *)
Definition linear_bin (lo w : R) (n i : nat) (x : R) : Prop :=
  lo + INR i * w <= x < lo + INR (S i) * w \/ (S i = n /\ x = lo + INR n * w).

(** bin number i given by edges e_0 < ... < e_n: open on the left, closed on the right; data
    outside the edges belong to the first or last bin *)
Definition edge_bin (e : list R) (i : nat) (x : R) : Prop :=
  (i = 0%nat \/ nth i e 0 < x) /\ (S (S i) = length e \/ x <= nth (S i) e 0).

Fixpoint total (l : list R) : R := match l with [] => 0 | x :: t => x + total t end.
Fixpoint dot (l w : list R) : R := match l, w with x :: t, y :: u => x * y + dot t u | _, _ => 0 end.

(** the histogram of [data] with n bins over [lo, hi]: [c] lists the numbers of data per bin *)
Definition histogram_of (lo hi : R) (n : nat) (data : list R) (c : list R) : Prop :=
  length c = n /\ forall i, (i < n)%nat -> exists k, counted (linear_bin lo ((hi - lo) / INR n) n i) data k /\ nth i c 0 = INR k.
Definition edge_histogram_of (e : list R) (data : list R) (c : list R) : Prop :=
  S (length c) = length e /\ forall i, (i < length c)%nat -> exists k, counted (edge_bin e i) data k /\ nth i c 0 = INR k.

(** Hogg (2008), eq. for the jackknife log-likelihood with smoothing alpha, bin width w:
    sum_i n_i ln((n_i + alpha - 1) / ((N + n alpha - 1) w)), defined when every logarithm is *)
Definition hogg (c : list R) (N : nat) (alpha w : R) : R :=
  total (map (fun n => n * ln ((n + alpha - 1) / ((INR N + INR (length c) * alpha - 1) * w))) c).
Definition hogg_defined (c : list R) (alpha : R) : Prop := forall n, In n c -> 0 < n + alpha - 1.

(** [first_best ok val l k]: position k of l holds the first maximal value among the admissible entries *)
Definition first_best {C} (ok : C -> Prop) (val : C -> R) (l : list C) (c : C) : Prop :=
  exists k, nth_error l k = Some c /\ ok c /\
    (forall j d, nth_error l j = Some d -> ok d -> val d <= val c) /\
    (forall j d, (j < k)%nat -> nth_error l j = Some d -> ok d -> val d < val c).

(** requested representation of a count histogram: probabilities, densities, or the counts themselves *)
Definition represented (prob dens : bool) (c : list R) (N : nat) (w : R) : list R :=
  if prob then map (fun x => x / INR N) c else if dens then map (fun x => x / (INR N * w)) c else c.
(** equally spaced edges from lo to hi *)
Definition equal_edges (lo hi : R) (n : nat) : list R := map (fun i => lo + INR i * ((hi - lo) / INR n)) (seq 0 (S n)).

(** ** Logarithmic bins *)
(** n + 1 edges from lo to hi in geometric progression *)
Definition geometric_edges (lo hi : R) (n : nat) : list R :=
  map (fun i => lo * Rpower (hi / lo) (INR i / INR n)) (seq 0 (S n)).
(** distances between successive edges *)
Definition gaps (e : list R) : list R := map (fun i => nth (S i) e 0 - nth i e 0) (seq 0 (length e - 1)).
(** jackknife log-likelihood with bin widths ws and normalisation M *)
Definition hogg_widths (c ws : list R) (M alpha : R) : R :=
  total (map (fun p => fst p * ln ((fst p + alpha - 1) / (snd p * M))) (combine c ws)).
Definition represented_edges (prob dens : bool) (c : list R) (N : nat) (ws : list R) : list R :=
  if prob then map (fun x => x / INR N) c
  else if dens then map (fun p => fst p / (INR N * snd p)) (combine c ws) else c.
