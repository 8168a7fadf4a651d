(** * Python helpers shared by the models of Python code: list indexing, comprehensions.
    Infrastructure only; no property is stated here. *)
From Coq Require Import List ZArith Lia.
From Verif Require Import Base.
Import ListNotations.

(** lst[i]: negative indices count from the end, outside raises IndexError *)
Definition py_get {A} (l : list A) (i : Z) : res A :=
  let j := if (i <? 0)%Z then (i + Z.of_nat (List.length l))%Z else i in
  if (j <? 0)%Z then Exc IndexError
  else match nth_error l (Z.to_nat j) with Some a => Ok a | None => Exc IndexError end.

(** [f x for x in l], left to right, stopping at the first exception *)
Fixpoint mapM {A B} (f : A -> res B) (l : list A) : res (list B) :=
  match l with
  | [] => Ok []
  | x :: l' => (y <- f x ; ys <- mapM f l' ; Ok (y :: ys))%res
  end.

Lemma py_get_ok {A} (l : list A) (i : Z) (d : A) :
  (0 <= i < Z.of_nat (List.length l))%Z -> py_get l i = Ok (nth (Z.to_nat i) l d).
Proof.
  intros H. unfold py_get. destruct (Z.ltb_spec i 0); [lia|]. destruct (Z.ltb_spec i 0); [lia|].
  rewrite (nth_error_nth' l d) by lia. reflexivity.
Qed.
Lemma py_get_neg {A} (l : list A) (i : Z) (d : A) :
  (- Z.of_nat (List.length l) <= i < 0)%Z -> py_get l i = Ok (nth (Z.to_nat (i + Z.of_nat (List.length l))) l d).
Proof.
  intros H. unfold py_get. destruct (Z.ltb_spec i 0); [|lia]. destruct (Z.ltb_spec (i + Z.of_nat (List.length l)) 0); [lia|].
  rewrite (nth_error_nth' l d) by lia. reflexivity.
Qed.
Lemma py_get_exc {A} (l : list A) (i : Z) :
  (i < - Z.of_nat (List.length l) \/ Z.of_nat (List.length l) <= i)%Z -> py_get l i = Exc IndexError.
Proof.
  intros H. unfold py_get. destruct (Z.ltb_spec i 0).
  - destruct (Z.ltb_spec (i + Z.of_nat (List.length l)) 0); [reflexivity|lia].
  - destruct (Z.ltb_spec i 0); [lia|]. destruct (nth_error l (Z.to_nat i)) eqn:E; [|reflexivity].
    assert (Z.to_nat i < List.length l)%nat by (apply nth_error_Some; congruence). lia.
Qed.
Lemma py_get_cases {A} (l : list A) (i : Z) : (exists a, py_get l i = Ok a) \/ py_get l i = Exc IndexError.
Proof.
  unfold py_get. destruct (_ <? 0)%Z eqn:?; [right; reflexivity|].
  destruct (nth_error l _); [left; eexists; reflexivity|right; reflexivity].
Qed.

Lemma mapM_ok {A B} (f : A -> res B) (g : A -> B) (l : list A) :
  (forall x, In x l -> f x = Ok (g x)) -> mapM f l = Ok (map g l).
Proof.
  induction l as [|x l IH]; intros H; [reflexivity|]. cbn. rewrite H by (left; reflexivity). cbn. rewrite IH by (intros; apply H; right; assumption). reflexivity.
Qed.
Lemma mapM_inv {A B} (f : A -> res B) (l : list A) (ys : list B) :
  mapM f l = Ok ys -> List.length ys = List.length l /\ forall i y, nth_error ys i = Some y -> exists x, nth_error l i = Some x /\ f x = Ok y.
Proof.
  revert ys. induction l as [|x l IH]; intros ys H.
  - injection H as <-. split; [reflexivity|]. intros [|i] y E; discriminate.
  - cbn in H. destruct (f x) as [a| |] eqn:Ex; try discriminate. cbn in H. destruct (mapM f l) as [ys'| |]; try discriminate. cbn in H. injection H as <-.
    destruct (IH ys' eq_refl) as [L E]. split; [cbn; congruence|]. intros [|i] y Ey; cbn in *.
    + injection Ey as <-. exists x. auto.
    + apply E, Ey.
Qed.
