(** * Constant-width histograms in binary64 arithmetic.
    Sources, below histogram_maker/hogg_jacky/: sc = shared/shared_computation_functions.py,
    cy = cython_jacky/cy_jacky.py, cb = cython_jacky/cython_jacky_binning.pyx, bl = blas_jacky.py,
    ne = numexpr_jacky.py. The functions of [Hist_Model] read with doubles: every operation of the
    source is one correctly rounded IEEE-754 operation. daxpy is a product followed by a sum; with a
    fused multiply-add the result differs only when the bin phase is not zero. Conversion of a
    number outside the int32 range, an infinity or NaN to int32 is UB. The data are not NaN
    (retrieve_valued_data removes those). *)
From Coq Require Import List ZArith Bool.
From Flocq Require Import Core BinarySingleNaN.
From Verif Require Import Base Py Cmp_Model Hist_Model.
Import ListNotations.
Local Open Scope Z_scope.
Local Open Scope res_scope.

(** my_data.min(), my_data.max(), np.ptp sc:25-41 *)
Definition fmin (l : list double) : double := fold_left (fun a x => if Bltb x a then x else a) l (hd B754_nan l).
Definition fmax (l : list double) : double := fold_left (fun a x => if Bltb a x then x else a) l (hd B754_nan l).
Definition fptp (l : list double) : double := Bminus mode_NE (fmax l) (fmin l).
(** sc:81-99 compute_bin_width *)
Definition fwidth (range : double) (nb : nat) : double := Bdiv mode_NE range (of_int (Z.of_nat nb)).

(** the integer below a finite double, and the one next to it towards zero *)
Definition dfloor (x : double) : option Z :=
  match x with
  | B754_zero _ => Some 0
  | B754_finite s m e _ => let z := cond_Zopp s (Zpos m) in Some (if 0 <=? e then z * 2 ^ e else z / 2 ^ (- e))
  | _ => None
  end.
Definition dtrunc (x : double) : option Z :=
  match x with
  | B754_zero _ => Some 0
  | B754_finite s m e _ => let z := cond_Zopp s (Zpos m) in Some (if 0 <=? e then z * 2 ^ e else Z.quot z (2 ^ (- e)))
  | _ => None
  end.
(** astype(np.int32) *)
Definition int32 (o : option Z) : res Z :=
  match o with Some z => if ((- 2 ^ 31 <=? z) && (z <? 2 ^ 31)) then Ok z else UB | None => UB end.

(** cb:30-35 and 59-64, ne:264-284, bl:313-333 *)
Definition fbin_index (v : impl) (low bw phase x : double) : res Z :=
  match v with
  | Cython => int32 (dfloor (Bminus mode_NE (Bdiv mode_NE (Bminus mode_NE x low) bw) phase))
  | Numexpr => int32 (dtrunc (Bminus mode_NE (Bdiv mode_NE (Bminus mode_NE x low) bw) phase))
  | Blas => int32 (dfloor (Bplus mode_NE (Bmult mode_NE (Bdiv mode_NE (of_int 1) bw) (Bminus mode_NE x low)) phase))
  end.

(** np.argmax / np.argmin *)
Fixpoint fargbest (better : double -> double -> bool) (l : list double) (i bi : nat) (b : double) : nat :=
  match l with
  | [] => bi
  | x :: t => if better x b then fargbest better t (S i) i x else fargbest better t (S i) bi b
  end.
(** cy:267-277, ne:219-229, bl:268-278 *)
Definition fnegative_check (v : impl) (data : list double) (bins : list Z) : res (list Z) :=
  match filter (fun i => (nth i bins 0 <? 0)) (seq 0 (List.length bins)) with
  | [] => Ok bins
  | [i] => if Nat.eqb i (match v with Blas => fargbest Bltb data 0 0 (hd B754_nan data) | _ => fargbest (fun x y => Bltb y x) data 0 0 (hd B754_nan data) end)
           then Ok (map (fun b => if (b <? 0) then 0 else b) bins) else Exc SystemExit
  | _ => Exc SystemExit
  end.

(** cy:248-281, bl:256-282, ne:207-233: the counts; their conversion to doubles is exact below 2^53 *)
Definition fcounts (v : impl) (data : list double) (bw phase : double) (nb minb : nat) (checks : bool)
    (data_min : option double) : res (list nat) :=
  if Nat.eqb nb 1 then Ok [List.length data]
  else
    let low := match data_min with None => fmin data | Some m => m end in
    raw <- mapM (fbin_index v low bw phase) data ;
    let top := map (fun b => if b =? Z.of_nat nb then Z.of_nat nb - 1 else b) raw in
    fixed <- (if checks then fnegative_check v data top else Ok top) ;
    bincount fixed minb.
