(** * C148, C149: eigenvalue estimates of Laplace's tidal equation *)
From Coq Require Import ZArith List Bool String Ascii Lia.
From Verif Require Import Base Py Saver_Model Saver_Names Lambda_Model Lambda_Spec.
Import ListNotations.
Local Open Scope string_scope.

Lemma str_app_assoc a b c : (a ++ b) ++ c = a ++ (b ++ c).
Proof. induction a; cbn; congruence. Qed.
Lemma str_app_inv a b c : a ++ b = a ++ c -> b = c.
Proof. induction a; cbn; intros H; [exact H|]. inversion H. auto. Qed.
(** text up to the first character that is not a digit *)
Lemma digits_then a b c d s t : alldig a -> alldig b -> is_dig c = false -> is_dig d = false ->
  a ++ String c s = b ++ String d t -> a = b /\ String c s = String d t.
Proof.
  intros A B C D. revert b B. induction a as [|x a IH]; intros b B H.
  - destruct b as [|y b]; [split; [reflexivity|exact H]|]. cbn in H. inversion H; subst. cbn in B. unfold alldig in B. cbn in B. apply andb_prop in B. destruct B as [B _]. congruence.
  - unfold alldig in A. cbn in A. apply andb_prop in A. destruct A as [A1 A2]. destruct b as [|y b].
    + cbn in H. inversion H; subst. congruence.
    + unfold alldig in B. cbn in B. apply andb_prop in B. destruct B as [B1 B2]. cbn in H. inversion H; subst. destruct (IH A2 b B2) as [-> E]; [assumption|]. split; [reflexivity|exact E].
Qed.
Lemma abs_digits z : alldig (str_of_Z (Z.abs z)) /\ decode 0 (str_of_Z (Z.abs z)) = Z.abs z.
Proof.
  destruct (str_of_Z_shape (Z.abs z)) as (s & A & [(P & E & D)|(N & _)]); [|lia]. rewrite E. split; [exact A|exact D].
Qed.
Lemma signed_cases z : exists c s, signed z = String c s /\ alldig s /\ ((0 <= z)%Z /\ c = "+"%char \/ (z < 0)%Z /\ c = "-"%char) /\ decode 0 s = Z.abs z.
Proof.
  unfold signed. destruct (abs_digits z) as [A D]. destruct (Z.ltb_spec z 0); [exists "-"%char|exists "+"%char]; exists (str_of_Z (Z.abs z)); (split; [reflexivity|split; [exact A|split; [|exact D]]]).
  - right. split; [assumption|reflexivity].
  - left. split; [assumption|reflexivity].
Qed.
Lemma signed_then a b c d s t : is_dig c = false -> is_dig d = false -> signed a ++ String c s = signed b ++ String d t -> a = b /\ String c s = String d t.
Proof.
  intros C D H. destruct (signed_cases a) as (x & u & Ea & U & Sa & Da). destruct (signed_cases b) as (y & v & Eb & V & Sb & Db).
  rewrite Ea, Eb in H. cbn in H. inversion H as [[HC HS]]. destruct (digits_then u v c d s t U V C D HS) as [-> E]. split; [|exact E].
  rewrite Da in Db. destruct Sa as [[? ->]|[? ->]]; destruct Sb as [[? ->]|[? ->]]; try discriminate; lia.
Qed.
Lemma gyre_table_inj dir m k m' k' : gyre_table dir m k = gyre_table dir m' k' -> m = m' /\ k = k'.
Proof.
  unfold gyre_table. intros H. apply str_app_inv, str_app_inv in H. change (".k" ++ signed k ++ ".h5") with (String "." ("k" ++ signed k ++ ".h5")) in H.
  change (".k" ++ signed k' ++ ".h5") with (String "." ("k" ++ signed k' ++ ".h5")) in H.
  destruct (signed_then m m' "." "." _ _ eq_refl eq_refl H) as [-> H2]. split; [reflexivity|]. inversion H2 as [H3]. change ".h5" with (String "." "h5") in H3.
  destruct (signed_then k k' "." "." _ _ eq_refl eq_refl H3) as [-> _]. reflexivity.
Qed.
Lemma sgnval_pos z : (0 <= z)%Z -> sgnval z = signed z.
Proof. intros H. unfold sgnval, signed. destruct (Z.leb_spec 0 z); [|lia]. destruct (Z.ltb_spec z 0); [lia|]. rewrite Z.abs_eq by lia. reflexivity. Qed.
Lemma sgnval_neg z : (z < 0)%Z -> exists s, sgnval z = String "-" (String "-" s).
Proof.
  intros H. unfold sgnval. destruct (Z.leb_spec 0 z); [lia|]. destruct (str_of_Z_shape z) as (s & _ & [(P & _)|(_ & E & _)]); [lia|]. rewrite E. exists s. reflexivity.
Qed.
Lemma double_sign z s t c u : is_dig c = false -> String "-" (String "-" s) ++ t = signed z ++ String c u -> c = "-"%char.
Proof.
  intros C H. destruct (signed_cases z) as (x & v & E & V & _). rewrite E in H. cbn in H. inversion H as [[HX HV]]. destruct v as [|y v]; cbn in HV; inversion HV; [reflexivity|].
  subst. unfold alldig in V. cbn in V. discriminate.
Qed.

Section L.
Context {spin value : Type}.
Implicit Type w : outside spin value.

(** ** C148: the table of a mode *)
Theorem C148_table_of_a_mode : forall w dir l m nu, (0 <= m <= l)%Z ->
  get_lambda w dir l m nu =
    (if is_file w (gyre_table dir m (l - m)) then Ok (table w (gyre_table dir m (l - m)) nu) else Exc SystemExit).
Proof.
  intros w dir l m nu H. unfold get_lambda, retrieve_name_gyre_file, get_k, gyre_table. rewrite Z.abs_eq by lia. rewrite !sgnval_pos by lia.
  destruct (is_file w _); reflexivity.
Qed.
Print Assumptions C148_table_of_a_mode.

(** different (m, k) are different tables *)
Theorem C148_tables_distinct : forall dir l m l' m', gyre_table dir m (l - m) = gyre_table dir m' (l' - m') <-> m = m' /\ l = l'.
Proof. intros. split; [intros H; apply gyre_table_inj in H; lia|intros [-> ->]; reflexivity]. Qed.
Print Assumptions C148_tables_distinct.

(** finding: for a retrograde mode (m < 0), or l < |m|, the file asked for has a doubled sign in its name, so
    that no table of GYRE is ever found, although it may be there *)
Theorem C148_negative_orders_never_found : forall w dir l m nu, (m < 0 \/ l < Z.abs m)%Z -> proper_names dir (is_file w) ->
  get_lambda w dir l m nu = Exc SystemExit.
Proof.
  intros w dir l m nu H P. unfold get_lambda, retrieve_name_gyre_file. set (fn := dir ++ _). destruct (is_file w fn) eqn:F; [|reflexivity]. exfalso.
  assert (E : fn = dir ++ "/data/tar/tar_fit" ++ ".m" ++ sgnval m ++ ".k" ++ sgnval (get_k l m) ++ ".h5") by reflexivity.
  rewrite E in F. destruct (P _ F) as (m' & k' & Q). unfold gyre_table in Q. apply str_app_inv in Q.
  change ("/data/tar/tar_fit" ++ ".m" ++ sgnval m ++ ".k" ++ sgnval (get_k l m) ++ ".h5") with ("/data/tar/tar_fit.m" ++ sgnval m ++ ".k" ++ sgnval (get_k l m) ++ ".h5") in Q.
  apply str_app_inv in Q. destruct (Z.ltb_spec m 0) as [N|N].
  - destruct (sgnval_neg m N) as (s & ES). rewrite ES in Q. apply (double_sign m' s _ "."%char ("k" ++ signed k' ++ ".h5") eq_refl) in Q. discriminate.
  - rewrite (sgnval_pos m N) in Q. apply (signed_then m m' "." "." ("k" ++ sgnval (get_k l m) ++ ".h5") ("k" ++ signed k' ++ ".h5") eq_refl eq_refl) in Q. destruct Q as [_ Q]. inversion Q as [R].
    assert (K : (get_k l m < 0)%Z) by (unfold get_k; lia). destruct (sgnval_neg _ K) as (s & ES). rewrite ES in R.
    apply (double_sign k' s _ "."%char "h5" eq_refl) in R. discriminate.
Qed.
Print Assumptions C148_negative_orders_never_found.

(** ** C149: the eigenvalues of the triad *)
(** stored with the modes: those, in mode order, and nothing outside is consulted *)
Theorem C149_stored_values : forall w attr l m nu a b c, attr 1%nat = Some a -> attr 2%nat = Some b -> attr 3%nat = Some c ->
  lambda_list w attr l m nu = Ok [a; b; c].
Proof. intros w attr l m nu a b c A B C. unfold lambda_list. cbn [mapM]. rewrite A, B, C. reflexivity. Qed.
Print Assumptions C149_stored_values.

(** otherwise all three come from the tables below $GYRE_DIR, even if only one is missing *)
Theorem C149_from_tables : forall w attr dir l1 l2 l3 m1 m2 m3 n1 n2 n3,
  (exists g, (1 <= g <= 3)%nat /\ attr g = None) -> gyre_dir w = Some dir -> importable w (dir ++ "/src/tar/") = true ->
  (0 <= m1 <= l1)%Z -> (0 <= m2 <= l2)%Z -> (0 <= m3 <= l3)%Z ->
  is_file w (gyre_table dir m1 (l1 - m1)) = true -> is_file w (gyre_table dir m2 (l2 - m2)) = true -> is_file w (gyre_table dir m3 (l3 - m3)) = true ->
  lambda_list w attr [l1; l2; l3] [m1; m2; m3] [n1; n2; n3] =
    Ok [table w (gyre_table dir m1 (l1 - m1)) n1; table w (gyre_table dir m2 (l2 - m2)) n2; table w (gyre_table dir m3 (l3 - m3)) n3].
Proof.
  intros w attr dir l1 l2 l3 m1 m2 m3 n1 n2 n3 (g & G & A) D I H1 H2 H3 F1 F2 F3. unfold lambda_list.
  assert (E : mapM (fun g => match attr g with Some v => Ok v | None => Exc AttributeError end) [1; 2; 3]%nat = Exc AttributeError).
  { cbn [mapM]. destruct (attr 1%nat) eqn:E1; [|reflexivity]. destruct (attr 2%nat) eqn:E2; [|reflexivity]. destruct (attr 3%nat) eqn:E3; [|reflexivity].
    assert (g = 1 \/ g = 2 \/ g = 3)%nat as [-> | [-> | ->]] by lia; congruence. }
  rewrite E. unfold gyre_lambdas, set_base_gyre_dir, set_gtf. cbn [String.length Nat.eqb]. rewrite D. cbn [bind]. rewrite I. cbn [bind].
  unfold get_lambda_list. cbn [zip3 mapM]. rewrite (C148_table_of_a_mode w dir l1 m1), (C148_table_of_a_mode w dir l2 m2), (C148_table_of_a_mode w dir l3 m3), F1, F2, F3 by assumption. reflexivity.
Qed.
Print Assumptions C149_from_tables.

(** without GYRE_DIR this is a KeyError, without the module or one of the files the program ends; finding:
    so it does whenever a mode of the triad is retrograde *)
Theorem C149_failures : forall w attr l m nu, attr 1%nat = None ->
  (gyre_dir w = None -> lambda_list w attr l m nu = Exc KeyError) /\
  (forall dir, gyre_dir w = Some dir -> importable w (dir ++ "/src/tar/") = false -> lambda_list w attr l m nu = Exc SystemExit) /\
  (forall dir, gyre_dir w = Some dir -> proper_names dir (is_file w) -> List.length l = List.length m -> List.length m = List.length nu ->
     (exists x, In x m /\ (x < 0)%Z) -> lambda_list w attr l m nu = Exc SystemExit).
Proof.
  intros w attr l m nu A. unfold lambda_list. cbn [mapM]. rewrite A. cbn [bind]. unfold gyre_lambdas, set_base_gyre_dir, set_gtf. cbn [String.length Nat.eqb].
  split; [intros ->; reflexivity|]. split.
  - intros dir -> I. cbn [bind]. rewrite I. reflexivity.
  - intros dir -> P L1 L2 (x & X & N). cbn [bind]. destruct (importable w (dir ++ "/src/tar/")); [|reflexivity]. cbn [bind]. unfold get_lambda_list.
    revert l nu L1 L2. induction m as [|y m IH]; intros l nu L1 L2; [destruct X|]. destruct l as [|d l]; [discriminate|]. destruct nu as [|n nu]; [discriminate|].
    cbn [zip3 mapM]. destruct X as [-> |X].
    + rewrite (C148_negative_orders_never_found w dir d x n) by auto. reflexivity.
    + rewrite (IH X l nu) by (cbn in *; lia). unfold get_lambda, retrieve_name_gyre_file. destruct (is_file w _); reflexivity.
Qed.
Print Assumptions C149_failures.
End L.

(** ** the hypotheses are met: a GYRE directory with the tables of (m, k) = (1, 0), (2, 0), (-1, 0) *)
Definition ex_outside : outside nat nat :=
  {| gyre_dir := Some "/opt/gyre"; is_dir := fun _ => true;
     is_file := fun p => existsb (String.eqb p) ["/opt/gyre/data/tar/tar_fit.m+1.k+0.h5"; "/opt/gyre/data/tar/tar_fit.m+2.k+0.h5"; "/opt/gyre/data/tar/tar_fit.m-1.k+0.h5"];
     importable := String.eqb "/opt/gyre/src/tar/"; table := fun p n => (String.length p + n)%nat |}.
Example C148_case :
  proper_names "/opt/gyre" (is_file ex_outside) /\
  is_file ex_outside (gyre_table "/opt/gyre" (-1) 0) = true /\ get_lambda ex_outside "/opt/gyre" 1 (-1) 5%nat = Exc SystemExit /\
  lambda_list ex_outside (fun _ => None) [2; 1; 1]%Z [2; 1; 1]%Z [7; 8; 9]%nat = Ok [44; 45; 46]%nat.
Proof.
  split; [|split; [reflexivity|split; reflexivity]]. intros rest H. cbn [is_file ex_outside existsb] in H.
  apply orb_prop in H. destruct H as [H|H]; [exists 1%Z, 0%Z; apply String.eqb_eq, H|]. apply orb_prop in H. destruct H as [H|H]; [exists 2%Z, 0%Z; apply String.eqb_eq, H|].
  apply orb_prop in H. destruct H as [H|H]; [exists (-1)%Z, 0%Z; apply String.eqb_eq, H|discriminate].
Qed.
