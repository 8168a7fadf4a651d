(** * Limb darkening and disc integrals (C11-C16, C63). *)
From Coq Require Import List ZArith Lia Reals Lra String Bool Permutation.
From Verif Require Import Base NumInt_Model NumInt_Spec NumInt_Proofs Disc_Model Disc_Spec Disc_Proofs.
Import ListNotations.
Open Scope nat_scope.

(** C11: contiguous, disjoint buffers: under every legal interleaving of the
    memory accesses of both passes, output element k is 1 + 1.5*mu[k] and no
    other memory cell changes. *)
Theorem C11_limb_darkening_elementwise :
  forall (num : Type) (A : arith num) (d : num) hist name n kb rb mem tr1 tr2,
  kb + n <= List.length mem -> rb + n <= List.length mem -> disjoint kb rb n ->
  legal_trace n tr1 -> legal_trace n tr2 ->
  exists mem',
    ld_call A hist name (View (Z.of_nat kb) 1 n) (View (Z.of_nat rb) 1 n) tr1 tr2 mem = Ok mem' /\
    List.length mem' = List.length mem /\
    (forall k, k < n -> nth (rb + k) mem' d =
        nadd A (nofZ A 1) (nmul A (nofQ A 3 2) (nth (kb + k) mem d))) /\
    (forall i, i < rb \/ rb + n <= i -> nth i mem' d = nth i mem d).
Proof. intros num A d hist name n kb rb. exact (ld_disjoint A d hist name n kb rb 1 1 n). Qed.
Print Assumptions C11_limb_darkening_elementwise.

Example C11_case : legal_trace 3 [MRead 2; MRead 0; MWrite 2; MRead 1; MWrite 1; MWrite 0] /\ disjoint 0 3 3.
Proof.
  split; [|unfold disjoint; lia]. split; [|split; [|split]].
  - repeat constructor; simpl; intuition discriminate.
  - intros k. simpl. split; [intros H; repeat destruct H as [H|H]; try discriminate; try injection H as <-; try lia; contradiction|].
    intros H. destruct k as [|[|[|k]]]; auto 8; lia.
  - intros k. simpl. split; [intros H; repeat destruct H as [H|H]; try discriminate; try injection H as <-; try lia; contradiction|].
    intros H. destruct k as [|[|[|k]]]; auto 8; lia.
  - intros k H. destruct k as [|[|[|k]]]; [| | |lia].
    + exists [MRead 2], [MWrite 2; MRead 1; MWrite 1], []. reflexivity.
    + exists [MRead 2; MRead 0; MWrite 2], [], [MWrite 0]. reflexivity.
    + exists [], [MRead 0], [MRead 1; MWrite 1; MWrite 0]. reflexivity.
Qed.

(** C12: in place, the law is applied twice, under every schedule. *)
Theorem C12_in_place_limb_darkening_applied_twice :
  forall (num : Type) (A : arith num) (d : num) hist name n kb mem tr1 tr2,
  kb + n <= List.length mem -> legal_trace n tr1 -> legal_trace n tr2 ->
  exists mem',
    ld_call A hist name (View (Z.of_nat kb) 1 n) (View (Z.of_nat kb) 1 n) tr1 tr2 mem = Ok mem' /\
    List.length mem' = List.length mem /\
    (forall k, k < n -> nth (kb + k) mem' d =
        nadd A (nofZ A 1) (nmul A (nofQ A 3 2)
          (nadd A (nofZ A 1) (nmul A (nofQ A 3 2) (nth (kb + k) mem d))))) /\
    (forall i, i < kb \/ kb + n <= i -> nth i mem' d = nth i mem d).
Proof. intros num A d hist name n kb. exact (ld_alias A d hist name n kb 1 1 n). Qed.
Print Assumptions C12_in_place_limb_darkening_applied_twice.

(** so the in-place call does not compute the Eddington law. *)
Theorem C12_in_place_equals_law_refuted :
  exists mem tr mem', legal_trace 1 tr /\
    ld_call RA [] "eddington" (View 0 1 1) (View 0 1 1) tr tr mem = Ok mem' /\
    nth 0 mem' 0%R <> (1 + 3/2 * nth 0 mem 0)%R.
Proof. exact ld_alias_wrong. Qed.
Print Assumptions C12_in_place_equals_law_refuted.

Example C12_case : legal_trace 4 (serial_trace 4).
Proof. apply serial_legal. Qed.

(** C13: the name never matters, whatever names were used before. *)
Theorem C13_unknown_limb_darkening_is_eddington :
  forall (num : Type) (A : arith num) hist hist' name kap out tr1 tr2 mem,
  ld_call A hist name kap out tr1 tr2 mem = ld_call A hist' "eddington" kap out tr1 tr2 mem.
Proof. intros num A hist hist' name. exact (ld_name_irrelevant A hist hist' name "eddington"). Qed.
Print Assumptions C13_unknown_limb_darkening_is_eddington.

Example C13_case : ld_after ["foo"%string] <> ld_after ([] : list string).
Proof. discriminate. Qed.

(** C14 + C15: for every legal schedule of all loops, the disc integrals are the
    equally spaced integrals, over exactly the points with 0<=mu<=1 in their
    original order, of the two kernels; with fewer than two such points the call
    is undefined behaviour. Exact arithmetic. *)
Theorem C14_disc_integrals_keep_visible_points :
  forall lhist ihist tr1 tr2 ord1 ord2 mus ang first second ldname method threads par,
  List.length ang = List.length mus -> List.length first = List.length mus ->
  List.length second = List.length mus ->
  let K := keep4 mus ang first second in
  legal_trace (List.length K) tr1 -> legal_trace (List.length K) tr2 ->
  Permutation ord1 (seq 0 (List.length K)) -> Permutation ord2 (seq 0 (List.length K)) ->
  (2 <= List.length K -> exists r1 r2,
     integrate RA ihist method true (map kernel1 K) (map mu4 K) threads par = Ok r1 /\
     integrate RA ihist method true (map kernel2 K) (map mu4 K) threads par = Ok r2 /\
     get_integrals RO lhist ihist tr1 tr2 ord1 ord2 mus ang first second ldname method threads par = Ok (r1, r2)) /\
  (List.length K < 2 ->
     get_integrals RO lhist ihist tr1 tr2 ord1 ord2 mus ang first second ldname method threads par = UB).
Proof. exact disc_R. Qed.
Print Assumptions C14_disc_integrals_keep_visible_points.

Example C14_case : map mu4 (keep4 [-1; 0; 1/2; 2; 1]%R [1;2;3;4;5]%R [1;2;3;4;5]%R [1;2;3;4;5]%R) = [0; 1/2; 1]%R.
Proof.
  unfold keep4. cbn [combine filter].
  repeat (match goal with |- context [Rle_dec ?x ?y] => destruct (Rle_dec x y); try lra end). reflexivity.
Qed.

(** C15: the same for every arithmetic (so for IEEE doubles): [in_disc] is the
    pair of C comparisons, which rejects NaN; kernels are the coded expressions. *)
Theorem C15_disc_integral_formulas_any_arithmetic :
  forall (num : Type) (O : arith_ord num) lhist ihist tr1 tr2 ord1 ord2 mus ang first second ldname method threads par,
  List.length ang = List.length mus -> List.length first = List.length mus ->
  List.length second = List.length mus ->
  let A := oar O in
  let K := filter (fun q => nleb O (nofZ A 0) (q1 q) && nleb O (q1 q) (nofZ A 1))
                  (combine (combine (combine mus ang) first) second) in
  let ld m := nadd A (nofZ A 1) (nmul A (nofQ A 3 2) m) in
  let g1 q := nmul A (nmul A (q1 q) (q2 q)) (ld (q1 q)) in
  let g2 q := nmul A (nmul A (nadd A (nmul A (nmul A (nofZ A 2) (q1 q)) (q3 q))
       (nmul A (nsub A (npow O (q1 q) (nofZ A 2)) (nofZ A 1)) (q4 q))) (ld (q1 q))) (q1 q) in
  legal_trace (List.length K) tr1 -> legal_trace (List.length K) tr2 ->
  Permutation ord1 (seq 0 (List.length K)) -> Permutation ord2 (seq 0 (List.length K)) ->
  (2 <= List.length K -> exists r1 r2,
     integrate A ihist method true (map g1 K) (map q1 K) threads par = Ok r1 /\
     integrate A ihist method true (map g2 K) (map q1 K) threads par = Ok r2 /\
     get_integrals O lhist ihist tr1 tr2 ord1 ord2 mus ang first second ldname method threads par = Ok (r1, r2)) /\
  (List.length K < 2 ->
     get_integrals O lhist ihist tr1 tr2 ord1 ord2 mus ang first second ldname method threads par = UB).
Proof. exact @get_integrals_safe. Qed.
Print Assumptions C15_disc_integral_formulas_any_arithmetic.

(** C16: uniform retained points: trapezoid of the kernels ... *)
Theorem C16_disc_integrals_on_uniform_points :
  forall lhist ihist tr1 tr2 ord1 ord2 mus ang first second ldname threads par a h,
  List.length ang = List.length mus -> List.length first = List.length mus ->
  List.length second = List.length mus ->
  let K := keep4 mus ang first second in
  legal_trace (List.length K) tr1 -> legal_trace (List.length K) tr2 ->
  Permutation ord1 (seq 0 (List.length K)) -> Permutation ord2 (seq 0 (List.length K)) ->
  2 <= List.length K -> map mu4 K = uniform a h (List.length K) ->
  get_integrals RO lhist ihist tr1 tr2 ord1 ord2 mus ang first second ldname "trapz" threads par =
   Ok (trapezoid_sum (pt (map mu4 K)) (pt (map kernel1 K)) (List.length K),
       trapezoid_sum (pt (map mu4 K)) (pt (map kernel2 K)) (List.length K)).
Proof. exact disc_uniform. Qed.
Print Assumptions C16_disc_integrals_on_uniform_points.

(** ... and not in general on non-uniform points. *)
Theorem C16_disc_integral_nonuniform_refuted :
  exists mus ang first second r1 r2,
    let K := keep4 mus ang first second in
    List.length K = 3 /\
    get_integrals RO [] [] (serial_trace 3) (serial_trace 3) [0;1;2] [0;1;2]
      mus ang first second "eddington" "trapz" 1 false = Ok (r1, r2) /\
    r1 <> trapezoid_sum (pt (map mu4 K)) (pt (map kernel1 K)) (List.length K).
Proof. exact disc_nonuniform. Qed.
Print Assumptions C16_disc_integral_nonuniform_refuted.

Example C16_case : map mu4 (keep4 [0; 1/2; 1]%R [1;2;3]%R [1;2;3]%R [1;2;3]%R) = uniform 0 (1/2) 3.
Proof.
  unfold keep4. cbn [combine filter].
  repeat (match goal with |- context [Rle_dec ?x ?y] => destruct (Rle_dec x y); try lra end).
  unfold uniform. cbn [map seq mu4 INR]. repeat (f_equal; try (simpl; lra)).
Qed.

(** C63: strided views. The wrapper accepts any strides but ignores them: the
    cells written are rb, rb+1, ... from the cells kb, kb+1, ... *)
Theorem C63_strides_are_ignored :
  forall (num : Type) (A : arith num) hist name kap kap' out out' tr1 tr2 mem,
  vbase kap = vbase kap' -> vbase out = vbase out' ->
  ld_call A hist name kap out tr1 tr2 mem = ld_call A hist name kap' out' tr1 tr2 mem.
Proof. exact @ld_strides. Qed.
Print Assumptions C63_strides_are_ignored.

(** hence a strided input (every second element) is misread, and a reversed
    input view (negative stride) reads out of bounds. *)
Theorem C63_strided_view_refuted :
  (exists mem mem', (* kap = mem[0:4:2], out = mem[4:6] *)
     ld_call RA [] "eddington" (View 0 2 2) (View 4 1 2) (serial_trace 2) (serial_trace 2) mem = Ok mem' /\
     exists x y, vget mem (View 0 2 2) 1 = Ok x /\ vget mem' (View 4 1 2) 1 = Ok y /\ y <> (1 + 3/2 * x)%R) /\
  (exists mem : list R, (* kap = mem[1::-1] (whole array of 2 reversed), out elsewhere *)
     (exists x, vget mem (View 1 (-1) 2) 1 = Ok x) /\
     ld_call RA [] "eddington" (View 1 (-1) 2) (View 0 1 2) (serial_trace 2) (serial_trace 2) mem = UB).
Proof. exact ld_strided_wrong. Qed.
Print Assumptions C63_strided_view_refuted.
