(** * What it means for two values to be the same, independent of the functions.
    Only the objects themselves ([obj], [arr], [value], [coll]) come from the model. *)
From Coq Require Import List ZArith Reals Bool String.
From Flocq Require Import Core BinarySingleNaN.
From Verif Require Import Cmp_Model.
Import ListNotations.
Local Open Scope R_scope.

(** rounding to the nearest binary64 number, ties to even *)
Definition rnd : R -> R := round radix2 (FLT_exp (-1074) 53) ZnearestE.
(** the binary64 numbers nearest to 1e-9, 1e-5 and 1e-8 (see [tol9_nearest] ...) *)
Definition tol9 : R := 4835703278458517 / 2 ^ 82.
Definition tol5 : R := 5902958103587057 / 2 ^ 69.
Definition tol8 : R := 6044629098073146 / 2 ^ 79.

(** within a relative distance 1e-9 of one another, in floating-point arithmetic *)
Definition Close9 (r s : R) : Prop :=
  rnd (Rabs (r - s)) <= rnd (tol9 * Rabs r) \/ rnd (Rabs (r - s)) <= rnd (tol9 * Rabs s).
(** within 1e-8 plus 1e-5 times the second *)
Definition Near (r s : R) : Prop := rnd (Rabs (r - s)) <= rnd (tol8 + rnd (tol5 * Rabs s)).

(** a real number and the binary64 number that represents it *)
Inductive Real : obj -> R -> Prop :=
| r_bool b : Real (OBool b) (if b then 1 else 0)
| r_int z : Real (OInt z) (IZR z)
| r_float i x : is_finite x = true -> Real (OFloat i x) (B2R x).
Definition Represented (o : obj) (r : R) : Prop := exists q, Real o q /\ r = rnd q /\ Rabs r < 2 ^ 1024.

Inductive SameNumberType : obj -> obj -> Prop :=
| t_bool b c : SameNumberType (OBool b) (OBool c)
| t_int z w : SameNumberType (OInt z) (OInt w)
| t_float i x j y : SameNumberType (OFloat i x) (OFloat j y).

(** value of a key *)
Inductive Has {A} (k : string) (v : A) : list (string * A) -> Prop :=
| has_here d : Has k v ((k, v) :: d)
| has_later k' v' d : k <> k' -> Has k v d -> Has k v ((k', v') :: d).

(** Python's equality of objects, as used inside containers *)
Inductive Equal : obj -> obj -> Prop :=
| e_num a b r : Real a r -> Real b r -> Equal a b
| e_inf i j s : Equal (OFloat i (B754_infinity s)) (OFloat j (B754_infinity s))
| e_nan i : Equal (OFloat i B754_nan) (OFloat i B754_nan)
| e_str s : Equal (OStr s) (OStr s)
| e_fun i c : Equal (OFun i c) (OFun i c)
| e_other i : Equal (OOther i) (OOther i)
| e_list l m : Forall2 Equal l m -> Equal (OList l) (OList m)
| e_tuple l m : Forall2 Equal l m -> Equal (OTuple l) (OTuple m)
| e_dict d e : List.length d = List.length e ->
    (forall k v, In (k, v) d -> exists w, Has k w e /\ Equal v w) -> Equal (ODict d) (ODict e).

(** what iterating over an object with a length yields *)
Inductive Iterates : obj -> list obj -> Prop :=
| i_str s : Iterates (OStr s) (map (fun c => OStr (String c EmptyString)) (list_ascii_of_string s))
| i_list l : Iterates (OList l) l
| i_tuple l : Iterates (OTuple l) l
| i_dict d : Iterates (ODict d) (map (fun kv => OStr (fst kv)) d).

(** two functions with the same bytecode *)
Inductive SameCode : obj -> obj -> Prop := same_code i j c : SameCode (OFun i c) (OFun j c).

(** the verdict on two objects *)
Inductive Same : obj -> obj -> Prop :=
| s_number a b r s : SameNumberType a b -> Represented a r -> Represented b s -> Close9 r s -> Same a b
| s_infinite i j sg : Same (OFloat i (B754_infinity sg)) (OFloat j (B754_infinity sg))
| s_code a b : SameCode a b -> Same a b
| s_codes a b l m : Iterates a l -> Iterates b m -> Forall2 SameCode l m -> Same a b
| s_equal a b l m : Iterates a l -> Iterates b m -> Equal a b -> Same a b.

(** ** Arrays *)

Definition shape (a : arr) : list nat := match a with ArrF s _ | ArrI s _ => s end.
Inductive SameDtype : arr -> arr -> Prop :=
| d_float s d t e : SameDtype (ArrF s d) (ArrF t e)
| d_int s d t e : SameDtype (ArrI s d) (ArrI t e).

(** axes of two shapes, last axis first, that numpy can combine *)
Inductive Axes : list nat -> list nat -> list nat -> Prop :=
| a_left t : Axes [] t t
| a_right m s : Axes (m :: s) [] (m :: s)
| a_same n s t r : Axes s t r -> Axes (n :: s) (n :: t) (n :: r)
| a_one_left n s t r : Axes s t r -> Axes (1%nat :: s) (n :: t) (n :: r)
| a_one_right m s t r : Axes s t r -> Axes (m :: s) (1%nat :: t) (m :: r).

(** a position inside axes *)
Definition Inside (pos axes : list nat) : Prop := Forall2 lt pos axes.

(** place in memory, in C order, of the element at a position: axes last first, a
    position is ignored along an axis of length one and beyond the last axis *)
Inductive Place : list nat -> list nat -> nat -> Prop :=
| p_nil pos : Place [] pos 0
| p_one s i pos k : Place s pos k -> Place (1%nat :: s) (i :: pos) k
| p_axis n s i pos k : n <> 1%nat -> Place s pos k -> Place (n :: s) (i :: pos) (i + n * k).

(** binary64 number at a place; integers are converted *)
Definition DataAt (a : arr) (k : nat) (r : R) : Prop :=
  match a with
  | ArrF _ d => exists x, nth_error d k = Some x /\ is_finite x = true /\ r = B2R x
  | ArrI _ d => exists z, nth_error d k = Some z /\ r = rnd (IZR z)
  end.
Definition InfAt (a : arr) (k : nat) (sg : bool) : Prop :=
  match a with ArrF _ d => nth_error d k = Some (B754_infinity sg) | ArrI _ _ => False end.

(** a well-formed array: as many data as the shape says; integers are 64-bit *)
Definition size (s : list nat) : nat := fold_right Nat.mul 1%nat s.
Definition WfArr (a : arr) : Prop :=
  match a with
  | ArrF s d => List.length d = size s
  | ArrI s d => List.length d = size s /\ Forall (fun z => (- 2 ^ 63 <= z < 2 ^ 63)%Z) d
  end.

(** the verdict on two arrays *)
Definition SameArrays (a b : arr) : Prop :=
  SameDtype a b /\
  exists axes, Axes (rev (shape a)) (rev (shape b)) axes /\
    forall pos j k, Inside pos axes -> Place (rev (shape a)) pos j -> Place (rev (shape b)) pos k ->
      (exists r s, DataAt a j r /\ DataAt b k s /\ Near r s) \/ (exists sg, InfAt a j sg /\ InfAt b k sg).

(** ** Collections *)

Inductive SameValues : value -> value -> Prop :=
| v_obj a b : Same a b -> SameValues (VObj a) (VObj b)
| v_arr a b : SameArrays a b -> SameValues (VArr a) (VArr b).
(** no array is compared with an object that is none *)
Inductive Alike : value -> value -> Prop :=
| k_obj a b : Alike (VObj a) (VObj b)
| k_arr a b : WfArr a -> WfArr b -> Alike (VArr a) (VArr b).

(** ** Objects as Python can build them: dictionaries have distinct keys *)
Inductive WfObj : obj -> Prop :=
| w_bool b : WfObj (OBool b) | w_int z : WfObj (OInt z) | w_float i x : WfObj (OFloat i x)
| w_str s : WfObj (OStr s) | w_fun i c : WfObj (OFun i c) | w_other i : WfObj (OOther i)
| w_list l : (forall a, In a l -> WfObj a) -> WfObj (OList l)
| w_tuple l : (forall a, In a l -> WfObj a) -> WfObj (OTuple l)
| w_dict d : NoDup (map fst d) -> (forall k a, In (k, a) d -> WfObj a) -> WfObj (ODict d).

(** ** What the assertion helper checks *)

(** the length of a value *)
Inductive Length : value -> Z -> Prop :=
| l_obj o l : Iterates o l -> Length (VObj o) (Z.of_nat (List.length l))
| l_arr a n s : shape a = n :: s -> Length (VArr a) (Z.of_nat n).
(** the elements a loop over a value runs through: rows of an array in C order *)
Inductive Elements : value -> list value -> Prop :=
| el_obj o l : Iterates o l -> Elements (VObj o) (map VObj l)
| el_float n s rows : List.length rows = n -> Forall (fun r => List.length r = size s) rows ->
    Elements (VArr (ArrF (n :: s) (List.concat rows))) (map (fun r => VArr (ArrF s r)) rows)
| el_int n s rows : List.length rows = n -> Forall (fun r => List.length r = size s) rows ->
    Elements (VArr (ArrI (n :: s) (List.concat rows))) (map (fun r => VArr (ArrI s r)) rows).
(** isinstance *)
Inductive Instance : value -> ty -> Prop :=
| in_object v : Instance v TObject
| in_bool b : Instance (VObj (OBool b)) TBool
| in_boolint b : Instance (VObj (OBool b)) TInt
| in_int z : Instance (VObj (OInt z)) TInt
| in_float i x : Instance (VObj (OFloat i x)) TFloat
| in_npfloat d : Instance (VArr (ArrF [] d)) TFloat
| in_str s : Instance (VObj (OStr s)) TStr
| in_list l : Instance (VObj (OList l)) TList
| in_tuple l : Instance (VObj (OTuple l)) TTuple
| in_dict d : Instance (VObj (ODict d)) TDict
| in_fun i c : Instance (VObj (OFun i c)) TFun
| in_arr a n s : shape a = n :: s -> Instance (VArr a) TArr.
