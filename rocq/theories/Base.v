(** * Base: outcomes, arithmetic interface, bounds-checked arrays, C loops.
    Shared infrastructure of every model file; no property is stated here. *)
From Coq Require Import List ZArith Lia Reals String Bool.
Import ListNotations.

(** Python exceptions that the modelled code can raise. *)
Inductive exn :=
| TypeError | ValueError | KeyError | IndexError | AttributeError
| UnboundLocalError | RuntimeError | ZeroDivisionError | NotImplementedError
| SystemExit | NameError | SyntaxError | FileNotFoundError | OSError | ExceptionGroup
| InlistError | PhysicsError.

(** Outcome of a modelled call: a value, C/C++/Fortran undefined behaviour
    (here always an out-of-bounds or uninitialised access), or a Python
    exception. *)
Inductive res (A : Type) :=
| Ok (a : A)
| UB
| Exc (e : exn).
Arguments Ok {A} a.
Arguments UB {A}.
Arguments Exc {A} e.

Definition bind {A B} (x : res A) (k : A -> res B) : res B :=
  match x with Ok a => k a | UB => UB | Exc e => Exc e end.

Declare Scope res_scope.
Delimit Scope res_scope with res.
Notation "x <- e ; k" := (bind e (fun x => k))
  (at level 60, e at next level, right associativity) : res_scope.
Open Scope res_scope.

(** Arithmetic interface: the operations a C++/Python double expression uses.
    Theorems over all [arith] hold for IEEE doubles; theorems over [RA] are
    statements in exact real arithmetic. *)
Record arith (num : Type) := Arith {
  nadd : num -> num -> num;
  nsub : num -> num -> num;
  nmul : num -> num -> num;
  ndiv : num -> num -> num;
  nopp : num -> num;
  nofQ : Z -> positive -> num   (* rational literal such as 1.5 = nofQ 3 2 *)
}.
Arguments nadd {num}. Arguments nsub {num}. Arguments nmul {num}.
Arguments ndiv {num}. Arguments nopp {num}. Arguments nofQ {num}.

Definition nofZ {num} (A : arith num) (z : Z) : num := nofQ A z 1.

(** Exact real arithmetic. *)
Definition RA : arith R := {|
  nadd := Rplus; nsub := Rminus; nmul := Rmult; ndiv := Rdiv; nopp := Ropp;
  nofQ := fun z p => (IZR z / IZR (Zpos p))%R |}.

(** Bounds-checked read of a C array of known extent: outside is UB. *)
Definition rd {A} (l : list A) (i : Z) : res A :=
  if (i <? 0)%Z then UB
  else match nth_error l (Z.to_nat i) with Some a => Ok a | None => UB end.

(** Bounds-checked write. *)
Fixpoint upd {A} (l : list A) (i : nat) (a : A) : list A :=
  match l, i with
  | [], _ => []
  | _ :: t, O => a :: t
  | h :: t, S j => h :: upd t j a
  end.

Definition wr {A} (l : list A) (i : Z) (a : A) : res (list A) :=
  if (i <? 0)%Z then UB
  else if (Z.to_nat i <? List.length l)%nat then Ok (upd l (Z.to_nat i) a) else UB.

(** for (int i = lo; i < hi; i++) body *)
Fixpoint loopn {St} (k : nat) (i : Z) (body : Z -> St -> res St) (s : St) : res St :=
  match k with
  | O => Ok s
  | S k' => s' <- body i s ; loopn k' (i + 1)%Z body s'
  end.

Definition for_ {St} (lo hi : Z) (body : Z -> St -> res St) (s : St) : res St :=
  loopn (Z.to_nat (hi - lo)) lo body s.

(** ** Lemmas *)
Lemma rd_ok {A} (l : list A) (i : Z) (d : A) :
  (0 <= i < Z.of_nat (List.length l))%Z -> rd l i = Ok (nth (Z.to_nat i) l d).
Proof.
  intros H. unfold rd. destruct (Z.ltb_spec i 0); [lia|].
  rewrite (nth_error_nth' l d) by lia. reflexivity.
Qed.

Lemma rd_ub {A} (l : list A) (i : Z) :
  (i < 0 \/ Z.of_nat (List.length l) <= i)%Z -> rd l i = UB.
Proof.
  intros H. unfold rd. destruct (Z.ltb_spec i 0); [reflexivity|].
  destruct (nth_error l (Z.to_nat i)) eqn:E; [|reflexivity].
  assert (Z.to_nat i < List.length l)%nat by (apply nth_error_Some; congruence). lia.
Qed.

Lemma rd_inv {A} (l : list A) (i : Z) :
  (exists a, rd l i = Ok a) <-> (0 <= i < Z.of_nat (List.length l))%Z.
Proof.
  split.
  - intros [a Ha].
    destruct (Z_lt_dec i 0) as [H|H]; [rewrite rd_ub in Ha by lia; discriminate|].
    destruct (Z_le_dec (Z.of_nat (List.length l)) i) as [H'|H'];
      [rewrite rd_ub in Ha by lia; discriminate|lia].
  - intros H. destruct l as [|d l']; [simpl in H; lia|].
    eexists. apply (rd_ok _ _ d). exact H.
Qed.

Lemma rd_not_exc {A} (l : list A) (i : Z) e : rd l i <> Exc e.
Proof.
  unfold rd. destruct (i <? 0)%Z; [discriminate|].
  destruct (nth_error l (Z.to_nat i)); discriminate.
Qed.

(** A loop all of whose iterations succeed is a fold. *)
Lemma loopn_fold {St} (k : nat) (i : Z) (body : Z -> St -> res St) (g : Z -> St -> St) (s : St) :
  (forall j s, (i <= j < i + Z.of_nat k)%Z -> body j s = Ok (g j s)) ->
  loopn k i body s = Ok (fold_left (fun s j => g j s) (map (fun d => (i + Z.of_nat d)%Z) (seq 0 k)) s).
Proof.
  revert i s. induction k as [|k IH]; intros i s H; [reflexivity|].
  cbn [loopn]. rewrite H by lia. cbn [bind].
  rewrite IH by (intros; apply H; lia).
  cbn [seq map fold_left]. rewrite Z.add_0_r.
  f_equal. rewrite <- seq_shift, map_map.
  f_equal. apply map_ext. intros a. lia.
Qed.

Lemma for_fold {St} (lo hi : Z) (body : Z -> St -> res St) (g : Z -> St -> St) (s : St) :
  (forall j s, (lo <= j < hi)%Z -> body j s = Ok (g j s)) ->
  for_ lo hi body s = Ok (fold_left (fun s j => g j s)
     (map (fun d => (lo + Z.of_nat d)%Z) (seq 0 (Z.to_nat (hi - lo)))) s).
Proof. intros H. apply loopn_fold. intros; apply H; lia. Qed.

Lemma for_empty {St} (lo hi : Z) (body : Z -> St -> res St) (s : St) :
  (hi <= lo)%Z -> for_ lo hi body s = Ok s.
Proof. intros H. unfold for_. replace (Z.to_nat (hi - lo)) with O by lia. reflexivity. Qed.

(** If an iteration inside the range faults in every state, the loop faults. *)
Lemma loopn_ub {St} (k : nat) (i j : Z) (body : Z -> St -> res St) (s : St) :
  (i <= j < i + Z.of_nat k)%Z ->
  (forall s, body j s = UB) ->
  (forall j' s e, body j' s <> Exc e) ->
  loopn k i body s = UB.
Proof.
  revert i s. induction k as [|k IH]; intros i s Hj Hb He; [lia|].
  cbn [loopn]. destruct (body i s) as [s'| |e] eqn:E.
  - cbn [bind]. apply IH; try assumption.
    assert (i <> j) by (intros ->; rewrite Hb in E; discriminate). lia.
  - reflexivity.
  - exfalso. exact (He i s e E).
Qed.

Lemma for_ub {St} (lo hi j : Z) (body : Z -> St -> res St) (s : St) :
  (lo <= j < hi)%Z -> (forall s, body j s = UB) ->
  (forall j' s e, body j' s <> Exc e) -> for_ lo hi body s = UB.
Proof. intros H. apply loopn_ub. lia. Qed.

Lemma loopn_ext {St} (k : nat) (i : Z) (b1 b2 : Z -> St -> res St) (s : St) :
  (forall j s, (i <= j < i + Z.of_nat k)%Z -> b1 j s = b2 j s) ->
  loopn k i b1 s = loopn k i b2 s.
Proof.
  revert i s. induction k as [|k IH]; intros i s H; [reflexivity|].
  cbn [loopn]. rewrite H by lia. destruct (b2 i s); cbn [bind]; try reflexivity.
  apply IH. intros; apply H; lia.
Qed.

Lemma upd_length {A} (l : list A) i a : List.length (upd l i a) = List.length l.
Proof. revert i; induction l as [|h t IH]; intros [|i]; simpl; auto. Qed.

Lemma nth_upd_eq {A} (l : list A) i a d : (i < List.length l)%nat -> nth i (upd l i a) d = a.
Proof. revert i; induction l as [|h t IH]; intros [|i]; simpl; intros; try lia; auto. apply IH; lia. Qed.

Lemma nth_upd_ne {A} (l : list A) i j a d : i <> j -> nth j (upd l i a) d = nth j l d.
Proof. revert i j; induction l as [|h t IH]; intros [|i] [|j]; simpl; intros; try lia; auto. Qed.

(** Loop invariant rule. *)
Lemma loopn_inv {St} (P : Z -> St -> Prop) (body : Z -> St -> res St) k : forall i s,
  P i s ->
  (forall j s, (i <= j < i + Z.of_nat k)%Z -> P j s -> exists s', body j s = Ok s' /\ P (j + 1)%Z s') ->
  exists s', loopn k i body s = Ok s' /\ P (i + Z.of_nat k)%Z s'.
Proof.
  induction k as [|k IH]; intros i s H0 Hs.
  - exists s. split; [reflexivity|]. rewrite Z.add_0_r. exact H0.
  - destruct (Hs i s ltac:(lia) H0) as (s1 & E1 & H1). cbn [loopn]. rewrite E1. cbn [bind].
    destruct (IH (i + 1)%Z s1 H1) as (s2 & E2 & H2).
    { intros j t Hj. apply Hs. lia. }
    exists s2. split; [exact E2|]. replace (i + Z.of_nat (S k))%Z with (i + 1 + Z.of_nat k)%Z by lia. exact H2.
Qed.

Lemma for_inv {St} (P : Z -> St -> Prop) (lo hi : Z) (body : Z -> St -> res St) s :
  (lo <= hi)%Z -> P lo s ->
  (forall j s, (lo <= j < hi)%Z -> P j s -> exists s', body j s = Ok s' /\ P (j + 1)%Z s') ->
  exists s', for_ lo hi body s = Ok s' /\ P hi s'.
Proof.
  intros Hle H0 Hs. unfold for_.
  destruct (loopn_inv P body (Z.to_nat (hi - lo)) lo s H0) as (s' & E & H).
  { intros j t Hj. apply Hs. lia. }
  exists s'. split; [exact E|]. replace hi with (lo + Z.of_nat (Z.to_nat (hi - lo)))%Z by lia. exact H.
Qed.

(** A loop never raises if its body never raises. *)
Lemma loopn_noexc {St} (body : Z -> St -> res St) k : forall i s e,
  (forall j s e, body j s <> Exc e) -> loopn k i body s <> Exc e.
Proof.
  induction k as [|k IH]; intros i s e H; cbn [loopn]; [discriminate|].
  destruct (body i s) eqn:E; cbn [bind]; [apply IH; exact H|discriminate|].
  exfalso. exact (H _ _ _ E).
Qed.
Lemma for_noexc {St} lo hi (body : Z -> St -> res St) s e :
  (forall j s e, body j s <> Exc e) -> for_ lo hi body s <> Exc e.
Proof. apply loopn_noexc. Qed.
Lemma bind_noexc {A B} (x : res A) (k : A -> res B) e :
  (forall e, x <> Exc e) -> (forall a e, k a <> Exc e) -> bind x k <> Exc e.
Proof. intros H1 H2. destruct x as [a| |e0]; cbn [bind]; [apply H2|discriminate|]. exfalso. exact (H1 e0 eq_refl). Qed.
