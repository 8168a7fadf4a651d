(** * Specification vocabulary for the resonance-sharpness figure *)
From Coq Require Import Reals List ZArith Bool String Ascii.
From Verif Require Import Base Hist_Model Hist_Spec Sharp_Model.
Import ListNotations.
Local Open Scope R_scope.

(** a class of triads with the given (absolute) sharpnesses, drawn over bins with edges e_0 < ... < e_n: nothing when the class is empty;
    otherwise the label tells the number of triads, there is one bar per bin, bar i reaches from e_i to e_{i+1}, and its height is the
    percentage of the triads of this class whose sharpness lies in bin i *)
Definition drawn_over (e : list R) (values : list R) (drawn : option bars) : Prop :=
  match drawn with
  | None => values = []
  | Some b =>
      values <> [] /\ label b = List.length values /\
      S (List.length (centres b)) = List.length e /\ List.length (heights b) = List.length (centres b) /\ List.length (bar_widths b) = List.length (centres b) /\
      forall i, (S i < List.length e)%nat -> exists k, counted (edge_bin e i) values k /\
        nth i (centres b) 0 - nth i (bar_widths b) 0 / 2 = nth i e 0 /\
        nth i (centres b) 0 + nth i (bar_widths b) 0 / 2 = nth (S i) e 0 /\
        nth i (heights b) NaN = Fin (100 * INR k / INR (List.length values))
  end.
(** the numbers of bins and smoothing parameters tried for N values *)
Definition bins_tried (N n : nat) : Prop := (2 <= n <= 100)%nat /\ (n <= N)%nat.
Definition smoothing_tried : list R := [0.01; 0.1; 1; 10; 100].
(** Hogg's jackknife log-likelihood of the histogram with n logarithmic bins and smoothing a, defined when every logarithm is *)
Definition jackknife (hist : nat -> list R) (lo hi : R) (N : nat) (c : R * nat) : R :=
  hogg_widths (hist (snd c)) (gaps (geometric_edges lo hi (snd c))) (INR N + INR (snd c) * fst c - 1) (fst c).
Definition jackknife_defined (hist : nat -> list R) (c : R * nat) : Prop := hogg_defined (hist (snd c)) (fst c).
(** [a, n] maximises the likelihood among all defined pairs that are tried *)
Definition best_binning (hist : nat -> list R) (lo hi : R) (N : nat) (a : R) (n : nat) : Prop :=
  In a smoothing_tried /\ bins_tried N n /\ jackknife_defined hist (a, n) /\
  forall a' n', In a' smoothing_tried -> bins_tried N n' -> jackknife_defined hist (a', n') ->
    jackknife hist lo hi N (a', n') <= jackknife hist lo hi N (a, n).
