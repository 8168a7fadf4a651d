(** * Model of the comparison and assertion helpers of the test utilities.
    Sources: pytest-util-tools/pytest_util_functions/comparison.py and
    assertion_checker.py.
    The functions multiply booleans, so that they return 0/1, True/False or numpy
    booleans; the model returns the truth value.  Log output is not modelled. *)
From Coq Require Import List ZArith Bool String.
From Flocq Require Import Core BinarySingleNaN.
Import ListNotations.
Local Open Scope Z_scope.

(** ** Python objects and numpy arrays *)

(** IEEE-754 binary64 numbers *)
Definition double := binary_float 53 1024.
Definition p_prec : Prec_gt_0 53 := eq_refl.
Definition p_emax : Prec_lt_emax 53 1024 := eq_refl.
#[export] Existing Instance p_prec.
#[export] Existing Instance p_emax.

(** Objects without a [dtype].  [OFloat] carries the identity of the object, as
    containers find an object equal to itself even when it is not a number.
    [OFun] is a Python function: its identity and its [__code__.co_code].
    [OOther] is an object with neither code nor length that is no real number
    ([None], a complex number, a plain object); the argument tells which one.
    Keys of dictionaries are strings. *)
Inductive obj :=
| OBool (b : bool) | OInt (z : Z) | OFloat (id : nat) (x : double) | OStr (s : string)
| OFun (id : nat) (code : string) | OOther (what : nat)
| OList (l : list obj) | OTuple (l : list obj) | ODict (l : list (string * obj)).

(** Arrays and numpy scalars (shape []) of data type float64 or int64, in C order *)
Inductive arr := ArrF (shape : list nat) (data : list double) | ArrI (shape : list nat) (data : list Z).

Inductive value := VObj (o : obj) | VArr (a : arr).

(** [Odd]: the function returns an array or lets an exception escape *)
Inductive outcome := Answer (b : bool) | Odd.

(** ** Numbers *)

(** the literals 1e-9 (math.isclose), 1e-5 and 1e-8 (np.allclose) *)
Definition rel9 : double := B754_finite false 4835703278458517 (-82) (eq_refl : SpecFloat.bounded 53 1024 4835703278458517 (-82) = true).
Definition rtol5 : double := B754_finite false 5902958103587057 (-69) (eq_refl : SpecFloat.bounded 53 1024 5902958103587057 (-69) = true).
Definition atol8 : double := B754_finite false 6044629098073146 (-79) (eq_refl : SpecFloat.bounded 53 1024 6044629098073146 (-79) = true).

Definition is_inf (x : double) : bool := match x with B754_infinity _ => true | _ => false end.

(** float(z) *)
Definition of_int (z : Z) : double := binary_normalize 53 1024 p_prec p_emax mode_NE z 0 false.

(** CPython's math.isclose on two doubles, rel_tol = 1e-9, abs_tol = 0 *)
Definition isclose (x y : double) : bool :=
  if Beqb x y then true
  else if is_inf x || is_inf y then false
  else
    let diff := Babs (Bminus mode_NE y x) in
    Bleb diff (Babs (Bmult mode_NE rel9 y)) || Bleb diff (Babs (Bmult mode_NE rel9 x))
    || Bleb diff (B754_zero false).

(** conversion of an argument of math.isclose: TypeError, OverflowError or a double *)
Inductive conv := CType | COver | CNum (x : double).
Definition to_double (o : obj) : conv :=
  match o with
  | OBool b => CNum (of_int (Z.b2z b))
  | OInt z => let x := of_int z in if is_inf x then COver else CNum x
  | OFloat _ x => CNum x
  | _ => CType
  end.

Inductive closeness := ClType | ClOver | ClAns (b : bool).
Definition math_isclose (a b : conv) : closeness :=
  match a with
  | CType => ClType
  | COver => ClOver
  | CNum x => match b with CType => ClType | COver => ClOver | CNum y => ClAns (isclose x y) end
  end.

(** type(a) == type(b), for numbers *)
Definition same_num_type (a b : obj) : bool :=
  match a, b with
  | OBool _, OBool _ => true | OInt _, OInt _ => true | OFloat _ _, OFloat _ _ => true
  | _, _ => false
  end.

(** ** Equality (==) of objects; inside containers, identical objects are equal *)

(** exact comparison of an int with a float *)
Definition int_eq_float (z : Z) (x : double) : bool :=
  match x with
  | B754_zero _ => z =? 0
  | B754_finite s m e _ => cond_Zopp s (Zpos m) * 2 ^ Z.max 0 e =? z * 2 ^ Z.max 0 (- e)
  | _ => false
  end.

Definition int_of (o : obj) : option Z :=
  match o with OBool b => Some (Z.b2z b) | OInt z => Some z | _ => None end.

Fixpoint get {A} (k : string) (d : list (string * A)) : option A :=
  match d with
  | [] => None
  | (k', v) :: r => if String.eqb k k' then Some v else get k r
  end.

Fixpoint equal (a b : obj) {struct a} : bool :=
  let fix equals (l m : list obj) {struct l} : bool :=
    match l, m with
    | [], [] => true
    | x :: l', y :: m' => equal x y && equals l' m'
    | _, _ => false
    end in
  let fix matched (d e : list (string * obj)) {struct d} : bool :=
    match d with
    | [] => true
    | (k, v) :: d' => match get k e with Some w => equal v w && matched d' e | None => false end
    end in
  match a, b with
  | OFloat i x, OFloat j y => Nat.eqb i j && (Beqb x y || is_nan x && is_nan y) || Beqb x y
  | OFloat _ x, _ => match int_of b with Some z => int_eq_float z x | None => false end
  | OStr s, OStr t => String.eqb s t
  | OFun i c, OFun j d => Nat.eqb i j && String.eqb c d
  | OOther i, OOther j => Nat.eqb i j
  | OList l, OList m => equals l m
  | OTuple l, OTuple m => equals l m
  | ODict d, ODict e => Nat.eqb (List.length d) (List.length e) && matched d e
  | _, _ =>
    match int_of a, b with
    | Some z, OFloat _ y => int_eq_float z y
    | Some z, _ => match int_of b with Some z' => z =? z' | None => false end
    | None, _ => false
    end
  end.

(** what iterating over an object yields; None when len() raises TypeError *)
Definition chars (s : string) : list obj := map (fun c => OStr (String c EmptyString)) (list_ascii_of_string s).
Definition items (o : obj) : option (list obj) :=
  match o with
  | OStr s => Some (chars s)
  | OList l | OTuple l => Some l
  | ODict d => Some (map (fun kv => OStr (fst kv)) d)
  | _ => None
  end.

(** ** np.allclose *)

(** numpy's isclose on two doubles: rtol = 1e-5, atol = 1e-8, equal_nan = False *)
Definition np_isclose (x y : double) : bool :=
  Bleb (Babs (Bminus mode_NE x y)) (Bplus mode_NE atol8 (Bmult mode_NE rtol5 (Babs y))) && is_finite y
  || Beqb x y.

Definition shape_of (a : arr) := match a with ArrF s _ | ArrI s _ => s end.
(** the second argument is converted to float64, and the difference with it *)
Definition data_of (a : arr) : list double := match a with ArrF _ d => d | ArrI _ d => map of_int d end.
Definition same_dtype (a b : arr) : bool :=
  match a, b with ArrF _ _, ArrF _ _ => true | ArrI _ _, ArrI _ _ => true | _, _ => false end.

(** broadcasting of two shapes, given last axis first; None: ValueError *)
Fixpoint broadcast_rev (s t : list nat) : option (list nat) :=
  match s, t with
  | [], _ => Some t
  | _, [] => Some s
  | m :: s', n :: t' =>
    match broadcast_rev s' t' with
    | None => None
    | Some r =>
      if Nat.eqb m n then Some (m :: r)
      else if Nat.eqb m 1 then Some (n :: r)
      else if Nat.eqb n 1 then Some (m :: r)
      else None
    end
  end.

(** all index vectors of a shape *)
Fixpoint indices (s : list nat) : list (list nat) :=
  match s with
  | [] => [[]]
  | n :: s' => flat_map (fun i => map (cons i) (indices s')) (seq 0 n)
  end.

(** offset, in C order, of the element an operand contributes to a position of the
    broadcast array; shape and position last axis first, an axis of length 1 is repeated *)
Fixpoint offset (s pos : list nat) (stride : nat) : nat :=
  match s, pos with
  | n :: s', i :: p' => ((if Nat.eqb n 1 then 0 else i) * stride + offset s' p' (stride * n))%nat
  | _, _ => 0%nat
  end.
Definition element (a : arr) (pos : list nat) : double :=
  nth (offset (rev (shape_of a)) pos 1) (data_of a) B754_nan.

(** None: ValueError *)
Definition allclose (a b : arr) : option bool :=
  match broadcast_rev (rev (shape_of a)) (rev (shape_of b)) with
  | None => None
  | Some s => Some (forallb (fun pos => np_isclose (element a pos) (element b pos)) (indices s))
  end.

(** ** comparison.py:13-72 *)

(** the loop over zip(first, second), comparison.py:52-55: the product so far, and
    whether an element without [__code__] ended it (comparison.py:56) *)
Fixpoint zip_codes (check : bool) (l m : list obj) : bool * bool :=
  match l, m with
  | x :: l', y :: m' =>
    match x, y with
    | OFun _ c, OFun _ d => zip_codes (check && String.eqb c d) l' m'
    | _, _ => (check, true)
    end
  | _, _ => (check, false)
  end.

(** comparison.py:49-62 *)
Definition compare_sized (a b : obj) : bool :=
  match items a, items b with
  | Some l, Some m =>
    match zip_codes (Nat.eqb (List.length l) (List.length m)) l m with
    | (check, false) => check
    | (check, true) => check && equal a b
    end
  | _, _ => false
  end.

(** comparison.py:37-68, neither object has a dtype *)
Definition compare_objects (a b : obj) : bool :=
  match math_isclose (to_double a) (to_double b) with
  | ClAns c => c && same_num_type a b
  | ClOver => false
  | ClType =>
    match a, b with
    | OFun _ c, OFun _ d => String.eqb c d
    | _, _ => compare_sized a b
    end
  end.

(** an array compared with an object that has no dtype: AttributeError at line 33 or
    34.  math.isclose accepts an array of one element, but then the types differ; only
    one of the two has [__code__]; len() fails on a 0-d array; an array element has no
    [__code__], so the comparison ends in [==] between array and object *)
Definition compare_mixed (a : arr) (o : obj) (first : bool) : outcome :=
  let ca := match data_of a with [x] => CNum x | _ => CType end in
  match (if first then math_isclose ca (to_double o) else math_isclose (to_double o) ca) with
  | ClAns _ | ClOver => Answer false
  | ClType =>
    match shape_of a, items o with
    | n :: _, Some l =>
      match n, l with
      | O, _ => Answer (Nat.eqb 0 (List.length l))
      | _, [] => Answer false
      | _, _ => Odd
      end
    | _, _ => Answer false
    end
  end.

(** value_comparison, comparison.py:13-72 *)
Definition value_comparison (first second : value) : outcome :=
  match first, second with
  | VArr a, VArr b =>
    match allclose a b with
    | Some c => Answer (same_dtype a b && c)
    | None => Answer false
    end
  | VObj a, VObj b => Answer (compare_objects a b)
  | VArr a, VObj o => compare_mixed a o true
  | VObj o, VArr a => compare_mixed a o false
  end.

(** ** comparison.py:75-140 *)

Inductive coll := CDict (d : list (string * value)) | CList (l : list value).
Definition clen (c : coll) : nat := match c with CDict d => List.length d | CList l => List.length l end.

(** product of outcomes; an odd one spoils the result *)
Definition times (a b : outcome) : outcome :=
  match a, b with Answer x, Answer y => Answer (x && y) | _, _ => Odd end.

(** comparison.py:91-98; None: second[_k] raises (KeyError, or TypeError for a list) *)
Fixpoint dict_loop (acc : outcome) (d : list (string * value)) (second : coll) : option outcome :=
  match d with
  | [] => Some acc
  | (k, v) :: d' =>
    match second with
    | CDict e =>
      match get k e with
      | Some w => dict_loop (times acc (value_comparison v w)) d' second
      | None => None
      end
    | CList _ => None
    end
  end.

(** comparison.py:102-105 *)
Fixpoint list_loop (acc : outcome) (l m : list value) : outcome :=
  match l, m with
  | x :: l', y :: m' => list_loop (times acc (value_comparison x y)) l' m'
  | _, _ => acc
  end.

(** iterating over a collection *)
Definition elements (c : coll) : list value :=
  match c with CDict d => map (fun kv => VObj (OStr (fst kv))) d | CList l => l end.

(** compare_elements, comparison.py:75-111.  Once an array has been multiplied into
    the result it is not followed further, unless a missing key resets it *)
Definition compare_elements (first second : coll) : outcome :=
  match first with
  | CDict d => match dict_loop (Answer true) d second with Some o => o | None => Answer false end
  | CList l => list_loop (Answer (Nat.eqb (clen first) (clen second))) l (elements second)
  end.

(** compare_dicts, comparison.py:114-140 *)
Definition compare_dicts (first second : coll) (len_enforced : bool) : outcome :=
  if len_enforced && negb (Nat.eqb (clen first) (clen second)) then Answer false
  else compare_elements first second.

(** ** assertion_checker.py:10-44 *)

(** the types used in checks, [TNone] is type(None) *)
Inductive ty := TBool | TInt | TFloat | TStr | TList | TTuple | TDict | TFun | TArr | TObject.

(** isinstance: every object is an [object], a bool is an int.  A numpy scalar of
    type float64 is a float. *)
Definition isinstance (v : value) (t : ty) : bool :=
  match t, v with
  | TObject, _ => true
  | TBool, VObj (OBool _) => true
  | TInt, VObj (OBool _) => true | TInt, VObj (OInt _) => true
  | TFloat, VObj (OFloat _ _) => true | TFloat, VArr (ArrF [] _) => true
  | TStr, VObj (OStr _) => true
  | TList, VObj (OList _) => true
  | TTuple, VObj (OTuple _) => true
  | TDict, VObj (ODict _) => true
  | TFun, VObj (OFun _ _) => true
  | TArr, VArr a => match shape_of a with [] => false | _ => true end
  | _, _ => false
  end.

Inductive verdict := Passes | AssertionFails | RaisesTypeError.

Definition take_rows {A} (size : nat) (n : nat) (d : list A) : list (list A) :=
  map (fun i => firstn size (skipn (i * size) d)) (seq 0 n).
(** iterating over a value: None when it raises TypeError *)
Definition iterate (v : value) : option (list value) :=
  match v with
  | VObj o => option_map (map VObj) (items o)
  | VArr (ArrF (n :: s) d) => Some (map (fun r => VArr (ArrF s r)) (take_rows (fold_right Nat.mul 1%nat s) n d))
  | VArr (ArrI (n :: s) d) => Some (map (fun r => VArr (ArrI s r)) (take_rows (fold_right Nat.mul 1%nat s) n d))
  | VArr _ => None
  end.
Definition length_of (v : value) : option nat :=
  match v with
  | VObj o => option_map (@List.length obj) (items o)
  | VArr a => match shape_of a with n :: _ => Some n | [] => None end
  end.

(** [if t: assert isinstance(v, t)]: a type is truthy *)
Definition check_type (v : value) (t : option ty) : verdict :=
  match t with
  | Some t => if isinstance v t then Passes else AssertionFails
  | None => Passes
  end.
(** [if n: assert len(v) == n]: zero is falsy *)
Definition check_length (v : value) (n : option Z) : verdict :=
  match n with
  | Some n =>
    if n =? 0 then Passes
    else match length_of v with
         | Some k => if Z.of_nat k =? n then Passes else AssertionFails
         | None => RaisesTypeError
         end
  | None => Passes
  end.
Definition andthen (a b : verdict) : verdict := match a with Passes => b | _ => a end.

Fixpoint check_all (vs : list value) (t : option ty) (n : option Z) : verdict :=
  match vs with
  | [] => Passes
  | v :: r => andthen (check_type v t) (andthen (check_length v n) (check_all r t n))
  end.

(** check_assertions, assertion_checker.py:10-44 *)
Definition check_assertions (v : value) (top_type : option ty) (top_length : option Z)
    (element_type : option ty) (element_length : option Z) : verdict :=
  andthen (check_type v top_type)
    (andthen (check_length v top_length)
       (match element_type, element_length with
        | None, None => Passes
        | _, _ => match iterate v with
                  | None => RaisesTypeError
                  | Some vs => check_all vs element_type element_length
                  end
        end)).
