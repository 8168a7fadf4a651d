(** * Lemmas about lookups and dictionaries. *)
From Coq Require Import List ZArith QArith Ascii String Bool Lia.
From Verif Require Import Base Py Inlist_Model Inlist_Proofs Parser_Model Parser_Spec.
Import ListNotations.
Local Open Scope string_scope.

Lemma tget_has t k v : tget t k = Some v <-> has t k v.
Proof.
  induction t as [|[k' w] t IH]; cbn [tget].
  - split; [discriminate|]. intros (a & b & E & _). destruct a; discriminate.
  - destruct (String.eqb_spec k k') as [->|N].
    + split.
      * intros E. injection E as ->. exists [], t. split; [reflexivity|intros []].
      * intros (a & b & E & H). destruct a as [|[k1 w1] a]; cbn in E; inversion E; subst; [reflexivity|]. exfalso. apply H. left. reflexivity.
    + rewrite IH. split.
      * intros (a & b & -> & H). exists ((k', w) :: a), b. split; [reflexivity|]. intros [X|X]; [cbn in X; congruence|exact (H X)].
      * intros (a & b & E & H). destruct a as [|[k1 w1] a]; cbn in E; inversion E; subst; [contradiction|]. exists a, b. split; [reflexivity|]. intros X. apply H. right. exact X.
Qed.
Lemma tget_lacks t k : tget t k = None <-> lacks t k.
Proof.
  unfold lacks. induction t as [|[k' w] t IH]; cbn [tget map fst]; [cbn; tauto|]. destruct (String.eqb_spec k k') as [->|N].
  - split; [discriminate|]. intros H. exfalso. apply H. left. reflexivity.
  - rewrite IH. cbn [In]. split; [intros H [X|X]; [congruence|exact (H X)]|intros H X; apply H; right; exact X].
Qed.
Lemma has_unique t k v w : has t k v -> has t k w -> v = w.
Proof. intros A B. apply tget_has in A, B. congruence. Qed.
Lemma has_lacks t k v : has t k v -> lacks t k -> False.
Proof. intros A B. apply tget_has in A. apply tget_lacks in B. congruence. Qed.
Lemma has_in t k v : has t k v -> In (k, v) t.
Proof. intros (a & b & -> & _). apply in_app_iff. right. left. reflexivity. Qed.

(** lookups along a list of keys *)
Fixpoint lookup (v : val) (ks : list string) : res val :=
  match ks with
  | [] => Exc TypeError
  | k :: ks' => m <- member k v ; if m then x <- item k v ; match ks' with [] => Ok x | _ => lookup x ks' end else Ok VNone
  end.
Lemma get_ha_n_path n ks : (List.length ks <= n)%nat -> forall v, get_ha_n n v (IPath ks) = lookup v ks.
Proof.
  revert ks. induction n as [|n IH]; intros ks L v.
  - destruct ks; [reflexivity|cbn in L; lia].
  - destruct ks as [|k [|k2 ks]]; [reflexivity| |].
    + cbn. destruct (member k v) as [[]| |]; cbn; [|reflexivity..]. destruct (item k v); reflexivity.
    + cbn [get_ha_n uncons]. cbn [lookup]. destruct (member k v) as [[]| |]; cbn [bind]; [|reflexivity..]. destruct (item k v) as [x| |]; cbn [bind]; [|reflexivity..].
      rewrite IH by (cbn [List.length] in *; lia). reflexivity.
Qed.
Lemma get_ha_path v ks : get_ha v (IPath ks) = lookup v ks.
Proof. apply get_ha_n_path. cbn. lia. Qed.
Lemma lookup_tab t k ks : lookup (VTab t) (k :: ks) = match tget t k with None => Ok VNone | Some x => match ks with [] => Ok x | _ => lookup x ks end end.
Proof. cbn [lookup member item]. destruct (tget t k); reflexivity. Qed.
Lemma lookup_at d ks v : at_path d ks v -> ks <> [] -> lookup d ks = Ok v.
Proof.
  induction 1 as [v|t k ks v w H A IH]; intros N; [contradiction|]. rewrite lookup_tab. apply tget_has in H. rewrite H. destruct ks as [|k2 ks]; [|apply IH; discriminate].
  inversion A; subst. reflexivity.
Qed.
Lemma lookup_through d pre v k post : at_path d pre v -> lookup d (pre ++ k :: post) = lookup v (k :: post).
Proof.
  induction 1 as [v|t k0 ks v w H A IH]; [reflexivity|]. cbn [app]. rewrite lookup_tab. apply tget_has in H. rewrite H.
  destruct (ks ++ k :: post)%list eqn:E; [destruct ks; discriminate|]. exact IH.
Qed.
Lemma at_path_app d p v q w : at_path d p v -> at_path v q w -> at_path d (p ++ q) w.
Proof. induction 1 as [v|t k ks v x H A IH]; intros B; [exact B|]. cbn. eapply below; [exact H|apply IH, B]. Qed.
Lemma at_path_unique d p v w : at_path d p v -> at_path d p w -> v = w.
Proof.
  intros A. revert w. induction A as [v|t k ks v x H A IH]; intros w B; inversion B; subst; [reflexivity|]. apply IH. replace x with w0; [assumption|]. eapply has_unique; eassumption.
Qed.
Lemma lookup_cases v : forall ks d, ks <> [] -> lookup d ks = Ok v -> at_path d ks v \/ v = VNone.
Proof.
  induction ks as [|k ks IH]; intros d N E; [contradiction|]. cbn [lookup] in E. destruct (member k d) as [[]| |] eqn:M; cbn [bind] in E; try discriminate; [|injection E as <-; right; reflexivity].
  destruct (item k d) as [x| |] eqn:I; cbn [bind] in E; try discriminate. destruct d as [| | | | | | |t]; try discriminate. cbn in I. destruct (tget t k) eqn:T; [|discriminate]. injection I as ->. apply tget_has in T.
  destruct ks as [|k2 ks].
  - injection E as ->. left. eapply below; [exact T|constructor].
  - destruct (IH x ltac:(discriminate) E) as [H|H]; [left; eapply below; eassumption|right; exact H].
Qed.
Lemma lookup_exn : forall ks d, (exists v, lookup d ks = Ok v) \/ lookup d ks = Exc TypeError.
Proof.
  induction ks as [|k ks IH]; intros d; [right; reflexivity|]. cbn [lookup]. destruct d; try (right; reflexivity).
  - cbn. destruct (containsb (str k) (str s)); [right; reflexivity|left; eexists; reflexivity].
  - cbn. destruct (existsb _ l); [right; reflexivity|left; eexists; reflexivity].
  - cbn. destruct (existsb _ l); [right; reflexivity|left; eexists; reflexivity].
  - cbn [member item bind]. destruct (tget t k) as [x|]; cbn [bind]; [|left; eexists; reflexivity]. destruct ks; [left; eexists; reflexivity|apply IH].
Qed.

(** assignment to a dictionary *)
Lemma tget_tset t k v k' : tget (tset t k v) k' = if String.eqb k' k then Some v else tget t k'.
Proof.
  induction t as [|[k0 w] t IH]; cbn [tset tget].
  - destruct (String.eqb k' k); reflexivity.
  - destruct (String.eqb_spec k k0) as [->|N]; cbn [tget].
    + destruct (String.eqb k' k0); reflexivity.
    + rewrite IH. destruct (String.eqb_spec k' k0) as [->|N']; [|reflexivity]. destruct (String.eqb_spec k0 k); [congruence|reflexivity].
Qed.
Lemma tset_keys t k v : forall n, In n (map fst (tset t k v)) <-> In n (map fst t) \/ n = k.
Proof.
  intros n. induction t as [|[k0 w] t IH]; cbn [tset map fst In].
  - split; [intros [X|[]]; auto|intros [[]|X]; auto].
  - destruct (String.eqb_spec k k0) as [->|N]; cbn [map fst In].
    + split; [tauto|]. intros [X|X]; [exact X|left; congruence].
    + rewrite IH. tauto.
Qed.
Lemma truthy_falsy v : truthy v = false <-> falsy v.
Proof.
  unfold falsy. split.
  - destruct v as [|b|z|q|s|l|l|t]; cbn [truthy]; intros H.
    + left; reflexivity.
    + subst b. right; left; reflexivity.
    + apply negb_false_iff, Z.eqb_eq in H. subst z. right; right; left; reflexivity.
    + apply negb_false_iff, Z.eqb_eq in H. right; right; right; left. exists q. split; [reflexivity|]. unfold Qeq. cbn. rewrite H. reflexivity.
    + apply negb_false_iff, String.eqb_eq in H. subst s. do 4 right. left; reflexivity.
    + destruct l; [|discriminate]. do 5 right. left; reflexivity.
    + destruct l; [|discriminate]. do 6 right. left; reflexivity.
    + destruct t; [|discriminate]. do 7 right. reflexivity.
  - intros [->|[->|[->|[(q & -> & H)|[->|[->|[->| ->]]]]]]]; try reflexivity. cbn [truthy]. apply negb_false_iff, Z.eqb_eq. unfold Qeq in H. cbn in H. rewrite Z.mul_1_r in H. exact H.
Qed.
Lemma truthy_not_falsy v : truthy v = true <-> ~ falsy v.
Proof. rewrite <- truthy_falsy. destruct (truthy v); split; congruence. Qed.
