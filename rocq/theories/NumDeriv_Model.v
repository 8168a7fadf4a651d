(** * Model of the Python numerical differentiator.
    Sources: num-tools/num_deriv/stencils.py (st), num-tools/num_deriv/num_deriv.py (nd).
    Exact real arithmetic. numpy.gradient is a parameter [gradient]. *)
From Coq Require Import List ZArith Reals String Bool.
From Verif Require Import Base Fornberg_Model.
Import ListNotations.
Local Open Scope R_scope.
Local Open Scope res_scope.

(** numba @stencil: the kernel reads relative offsets -lo..hi; output has the
    length of the arrays; elements whose neighbourhood leaves the array are 0
    (numba's default cval). [kernel x y] with x, y indexed relative to i. *)
Definition nthZ (l : list R) (i : Z) : R := nth (Z.to_nat i) l 0.
Definition kernel := (Z -> R) -> (Z -> R) -> R.
Record stencil := Stencil { st_lo : Z; st_hi : Z; st_kernel : kernel }.
Definition run_stencil (s : stencil) (x y : list R) : list R :=
  map (fun k => let i := Z.of_nat k in
     if (i - st_lo s <? 0)%Z || (Z.of_nat (List.length x) <=? i + st_hi s)%Z then 0
     else st_kernel s (fun d => nthZ x (i + d)) (fun d => nthZ y (i + d)))
   (seq 0 (List.length x)).

(** st:16-18 *)
Definition forward1 : stencil := Stencil 0 1 (fun x y => (y 1%Z - y 0%Z) / (x 1%Z - x 0%Z)).
(** st:21-23 *)
Definition backward1 : stencil := Stencil 1 0 (fun x y => (y 0%Z - y (-1)%Z) / (x 0%Z - x (-1)%Z)).
(** st:26-28 *)
Definition center1 : stencil := Stencil 1 1 (fun x y => (y 1%Z - y (-1)%Z) / (x 1%Z - x (-1)%Z)).
(** st:31-35 *)
Definition center2 : stencil := Stencil 2 2
  (fun x y => (-1 * y 2%Z + 8 * y 1%Z - 8 * y (-1)%Z + y (-2)%Z) / (12 * (x 1%Z - x 0%Z))).

(** st:38-86. The differencing type is upper-cased and looked up outside the
    try block (KeyError); an unknown order exits; FORWARD/BACKWARD order 2 is
    the entry None. *)
Inductive dtype := FORWARD | BACKWARD | CENTER | OtherType.
Definition retrieve_stencil (order : Z) (t : dtype) : res (option stencil) :=
  match t with
  | OtherType => Exc KeyError
  | FORWARD => if (order =? 1)%Z then Ok (Some forward1) else if (order =? 2)%Z then Ok None else Exc SystemExit
  | BACKWARD => if (order =? 1)%Z then Ok (Some backward1) else if (order =? 2)%Z then Ok None else Exc SystemExit
  | CENTER => if (order =? 1)%Z then Ok (Some center1) else if (order =? 2)%Z then Ok (Some center2) else Exc SystemExit
  end.

(** nd:60-69, 86-110: differentiation methods. *)
Inductive dmethod :=
| StencilM (order : Z) (t : dtype)      (* keyword arguments my_order, my_differencing_type *)
| GradientM
| FornbergM (acc : Z)                   (* interpolation_order *)
| FornbergOriginal                      (* original_formulation=True, nd:135-138 *)
| UnknownM.

Section Exec.
Variable gradient : list R -> list R -> list R.   (* np.gradient(y, x, edge_order=2) *)

(** A Python list comprehension over 0..order: sequence of results. *)
Fixpoint seq_res {A} (l : list (res A)) : res (list A) :=
  match l with
  | [] => Ok []
  | r :: t => a <- r ; q <- seq_res t ; Ok (a :: q)
  end.

(** nd:112-240 *)
Definition execute (m : dmethod) (order : nat) (x y : list R) : res (list (option (list R))) :=
  match m with
  | UnknownM => Exc SystemExit
  | FornbergOriginal => Exc SystemExit
  | FornbergM acc =>
      seq_res (map (fun d => if Nat.eqb d 0 then Ok (Some y)
        else du <- grid_derivative RA (Z.of_nat d) acc x y ; Ok (Some du)) (seq 0 (order + 1)))
  | GradientM =>
      Ok (map (fun d => if Nat.eqb d 1 then Some (gradient y x) else if Nat.eqb d 0 then Some y else None) (seq 0 (order + 1)))
  | StencilM o t =>
      s <- retrieve_stencil o t ;
      seq_res (map (fun d =>
        if Nat.eqb d 1 then match s with None => Exc TypeError | Some k => Ok (Some (run_stencil k x y)) end
        else if Nat.eqb d 0 then Ok (Some y) else Ok None) (seq 0 (order + 1)))
  end.

(** x.min(), x.max() of a non-empty array *)
Definition amin (x : list R) : R := fold_left Rmin x (hd 0 x).
Definition amax (x : list R) : R := fold_left Rmax x (hd 0 x).
(** np.linspace(a, b, num) for num >= 2 *)
Definition linspace (a b : R) (num : nat) : list R :=
  map (fun i => a + INR i * ((b - a) / INR (num - 1))) (seq 0 num).
(** scipy interp1d, linear, on an ascending grid, inside the range. *)
Fixpoint interp (x y : list R) (t : R) : R :=
  match x, y with
  | x0 :: ((x1 :: _) as x'), y0 :: ((y1 :: _) as y') =>
      if Rle_dec t x1 then y0 + (t - x0) / (x1 - x0) * (y1 - y0) else interp x' y' t
  | _, y0 :: _ => y0
  | _, _ => 0
  end.
Definition memR (t : R) (l : list R) : bool := existsb (fun v => if Req_EM_T t v then true else false) l.

(** nd:245-304. np.in1d(_x, x).nonzero()[0] keeps, in order, the indices of the
    fine grid that are original grid values. *)
Definition map_idx (fine x : list R) : list nat :=
  filter (fun i => memR (nth i fine 0) x) (seq 0 (List.length fine)).
Definition pick (idx : list nat) (l : list R) : list R := map (fun i => nth i l 0) idx.
Definition differentiate (m : dmethod) (order : nat) (interpolate : bool) (factor : nat) (x y : list R)
  : res (list (option (list R))) :=
  if interpolate then
    let fine := linspace (amin x) (amax x) (List.length x * factor - 1) in
    ders <- execute m order fine (map (interp x y) fine) ;
    Ok (map (option_map (pick (map_idx fine x))) ders)
  else execute m order x y.
End Exec.
