(** * Model of the Fortran finite-difference module.
    Source: fornberg-num-deriv/fornberg_num_deriv/fornberg.f90 (ff).
    Arrays are 1-based. The work array [weight] has shape (8,20,20) and [coef]
    shape (20): accesses outside are UB. Integers unbounded. *)
From Coq Require Import List ZArith Reals.
From Verif Require Import Base.
Import ListNotations.
Local Open Scope bool_scope.
Local Open Scope Z_scope.
Local Open Scope res_scope.

Section Model.
Context {num : Type} (A : arith num).
Local Infix "+." := (nadd A) (at level 50, left associativity).
Local Infix "-." := (nsub A) (at level 50, left associativity).
Local Infix "*." := (nmul A) (at level 40, left associativity).
Local Infix "/." := (ndiv A) (at level 40, left associativity).
Local Notation "# z" := (nofZ A z) (at level 5).

(** ff:4 *)
Definition mmax : Z := 8.
Definition nmax : Z := 20.
Definition iaccuracy_max : Z := 20.

(** ff:16 weight(mmax,nmax,nmax) *)
Definition wtab := Z -> Z -> Z -> num.
Definition w_in (i j k : Z) : bool :=
  (1 <=? i) && (i <=? mmax) && (1 <=? j) && (j <=? nmax) && (1 <=? k) && (k <=? nmax).
Definition wget (w : wtab) (i j k : Z) : res num := if w_in i j k then Ok (w i j k) else UB.
Definition wset (w : wtab) (i j k : Z) (x : num) : res wtab :=
  if w_in i j k then
    Ok (fun a b c => if (a =? i) && (b =? j) && (c =? k) then x else w a b c)
  else UB.

(** ff:27-35, body of the nu loop at level nn; state (weight, c2). *)
Definition nu_body (g : Z -> res num) (x0 : num) (nmmin nn nu : Z) (st : wtab * num) : res (wtab * num) :=
  let '(w, c2) := st in
  gn <- g nn ; gu <- g nu ;
  let c3 := gn -. gu in
  let c2 := c2 *. c3 in
  let c4 := #1 /. c3 in
  let pfac := gn -. x0 in
  a <- wget w 1 (nn - 1) nu ;
  w <- wset w 1 nn nu (c4 *. (pfac *. a)) ;
  w <- for_ 2 (nmmin + 1) (fun mm w =>
         a <- wget w mm (nn - 1) nu ; b <- wget w (mm - 1) (nn - 1) nu ;
         wset w mm nn nu (c4 *. (pfac *. a -. #(mm - 1) *. b))) w ;
  Ok (w, c2).

(** ff:23-41, body of the nn loop; state (weight, c1). *)
Definition nn_body (g : Z -> res num) (x0 : num) (nmmin nn : Z) (st : wtab * num) : res (wtab * num) :=
  let '(w, c1) := st in
  r <- for_ 1 nn (fun nu st => nu_body g x0 nmmin nn nu st) (w, #1) ;
  let '(w, c2) := r in
  gp <- g (nn - 1) ;
  let pfac := gp -. x0 in
  a <- wget w 1 (nn - 1) (nn - 1) ;
  w <- wset w 1 nn nn ((c1 /. c2) *. (nopp A (pfac *. a))) ;
  let c4 := c1 /. c2 in
  w <- for_ 2 (nmmin + 1) (fun mm w =>
         b <- wget w (mm - 1) (nn - 1) (nn - 1) ; a <- wget w mm (nn - 1) (nn - 1) ;
         wset w mm nn nn (c4 *. (#(mm - 1) *. b -. pfac *. a))) w ;
  Ok (w, c2).

(** ff:8-46 fdcoef. [g] reads grid(1..nord) (an out-of-range read of the actual
    argument is UB); the result is coef(1..nord) as a list. [coef] is the
    caller's array of extent 20 (ff:52), written at 1..nord. *)
Definition fdcoef (mord nord : Z) (x0 : num) (g : Z -> res num) : res (list num) :=
  w0 <- wset (fun _ _ _ => #0) 1 1 1 #1 ;
  let nmmin := Z.min nord mord in
  r <- for_ 2 (nord + 1) (fun nn st => nn_body g x0 nmmin nn st) (w0, #1) ;
  let '(w, _) := r in
  for_ 1 (nord + 1) (fun nu cs =>
     x <- wget w mord nord nu ;
     if nu <=? iaccuracy_max then Ok (cs ++ [x]) else UB) [].

(** dot_product(coef(1:n), u(a:a+n-1)), left to right. *)
Definition dot (cs : list num) (u : list num) (start : Z) : res num :=
  for_ 0 (Z.of_nat (List.length cs)) (fun j s =>
    c <- rd cs j ; x <- rd u (start + j) ; Ok (s +. c *. x)) #0.

(** ff:48-83 grid_derivative: [grid], [u] are 0-based Coq lists, so Fortran
    index i is list index i-1. [du] is the list of results in order. [stop]
    (ff:54) is the outcome [Exc SystemExit]. *)
Definition point (iorder iaccuracy : Z) (grid u : list num) (i base : Z) : res num :=
  x0 <- rd grid (i - 1) ;
  cs <- fdcoef (iorder + 1) (iaccuracy + 1) x0 (fun k => rd grid (base - 1 + (k - 1))) ;
  dot cs u (base - 1).

Definition grid_derivative (iorder iaccuracy : Z) (grid u : list num) : res (list num) :=
  if iaccuracy_max <? iaccuracy then Exc SystemExit
  else
    let ngrid := Z.of_nat (List.length grid) in
    let '(imid, jend) :=
      if Z.rem iaccuracy 2 =? 0 then (Z.quot iaccuracy 2, Z.quot iaccuracy 2)
      else (Z.quot iaccuracy 2 + 1, Z.quot iaccuracy 2) in
    d1 <- for_ 1 (imid + 1) (fun i du => y <- point iorder iaccuracy grid u i 1 ; Ok (du ++ [y])) [] ;
    d2 <- for_ (imid + 1) (ngrid - jend + 1)
            (fun i du => y <- point iorder iaccuracy grid u i (i - imid) ; Ok (du ++ [y])) d1 ;
    for_ (ngrid - jend + 1) (ngrid + 1)
            (fun i du => y <- point iorder iaccuracy grid u i (ngrid - iaccuracy) ; Ok (du ++ [y])) d2.
End Model.
