(** * Proofs on the figures with coupling coefficient profiles. *)
From Coq Require Import Reals List Bool Arith String Lia Lra.
From Verif Require Import Base Tar_Model Tar_Spec Pfig_Model Pfig_Spec.
Import ListNotations.
Local Open Scope nat_scope.

(** ** the adjusted profile is linear in the profile *)
Lemma cumsum_add f : forall (l : list (nat * nat)) (g : profile) a b,
  cumsum (a + b)%R (map (contribution (fun k => (f k + g k)%R)) l) =
  map (fun p => (fst p + snd p)%R) (combine (cumsum a (map (contribution f) l)) (cumsum b (map (contribution g) l))).
Proof.
  induction l as [|z l IH]; intros g a b; [reflexivity|]. cbn [map cumsum combine fst snd]. 
  replace (a + b + contribution (fun k => f k + g k) z)%R with ((a + contribution f z) + (b + contribution g z))%R by (unfold contribution; lra).
  f_equal. apply IH.
Qed.
Lemma cumsum_len : forall l a, List.length (cumsum a l) = List.length l.
Proof. induction l as [|x l IH]; intros a; [reflexivity|]. cbn. f_equal. apply IH. Qed.
Lemma nth_sum : forall (s t : list R) i, List.length s = List.length t ->
  nth i (map (fun p => (fst p + snd p)%R) (combine s t)) 0%R = (nth i s 0 + nth i t 0)%R.
Proof.
  induction s as [|x s IH]; intros [|y t] i H; try discriminate.
  - cbn. destruct i; lra.
  - destruct i as [|i]; cbn [combine map nth fst snd]; [reflexivity|]. apply IH. cbn in H. lia.
Qed.
Lemma fill_invalid_add n f g s t : List.length s = List.length t -> forall ms (zs : list (nat * nat)) i a b c,
  (forall k, c k = (a k + b k)%R) -> forall k,
  fill_invalid n (map (fun p => (fst p + snd p)%R) (combine s t)) i (combine ms (map (fun x => (f (fst x) + g (fst x))%R) zs)) c k =
  (fill_invalid n s i (combine ms (map (fun x : nat * nat => f (fst x)) zs)) a k +
   fill_invalid n t i (combine ms (map (fun x : nat * nat => g (fst x)) zs)) b k)%R.
Proof.
  intros L. induction ms as [|m ms IH]; intros zs i a b c H k; [apply H|]. destruct zs as [|z zs]; [apply H|]. cbn [map combine fill_invalid].
  apply IH. intros j. unfold assign. destruct (in_mask n m j); [|apply H]. destruct i as [|i]; [reflexivity|]. rewrite (nth_sum s t i L). lra.
Qed.
Lemma fill_valid_add n (f g : profile) : forall ms s t a b c, List.length s = List.length t ->
  (forall k, c k = (a k + b k)%R) -> forall k,
  fill_valid n (fun k => (f k + g k)%R) (combine (map (fun p => (fst p + snd p)%R) (combine s t)) ms) c k =
  (fill_valid n f (combine s ms) a k + fill_valid n g (combine t ms) b k)%R.
Proof.
  intros ms s. revert ms. induction s as [|x s IH]; intros ms [|y t] a b c L H k; try discriminate; [apply H|].
  destruct ms as [|m ms]; [apply H|]. cbn [combine map fill_valid fst snd]. apply IH; [cbn in L; lia|].
  intros j. unfold assign. destruct (in_mask n m j); [lra|apply H].
Qed.
Lemma adj_add n z f g k : adj_profile (adjust n (fun k => (f k + g k)%R) z) k = (adj_profile (adjust n f z) k + adj_profile (adjust n g z) k)%R.
Proof.
  cbn [adjust adj_profile]. destruct (z_fully z); [lra|].
  replace (cumsum 0 (map (contribution (fun k0 => (f k0 + g k0)%R)) (z_indices z)))
    with (map (fun p => (fst p + snd p)%R) (combine (cumsum 0 (map (contribution f) (z_indices z))) (cumsum 0 (map (contribution g) (z_indices z)))))
    by (rewrite <- cumsum_add; f_equal; lra).
  apply fill_valid_add; [rewrite !cumsum_len, !map_length; reflexivity|]. intros j.
  apply fill_invalid_add; [rewrite !cumsum_len, !map_length; reflexivity|]. intros; lra.
Qed.
(** the adjusted profile depends on the values of the profile only *)
Lemma contribution_ext f g : (forall k, f k = g k) -> forall z, contribution f z = contribution g z.
Proof. intros H z. unfold contribution. rewrite !H. reflexivity. Qed.
Lemma fill_valid_ext n f g : (forall k, f k = g k) -> forall ms a b, (forall k, a k = b k) -> forall k, fill_valid n f ms a k = fill_valid n g ms b k.
Proof.
  intros H. induction ms as [|[c m] ms IH]; intros a b E k; [apply E|]. cbn [fill_valid]. apply IH. intros j. unfold assign.
  destruct (in_mask n m j); [rewrite H; reflexivity|apply E].
Qed.
Lemma adj_ext n z f g : (forall k, f k = g k) -> forall k, adj_profile (adjust n f z) k = adj_profile (adjust n g z) k.
Proof.
  intros H k. cbn [adjust adj_profile]. destruct (z_fully z); [reflexivity|].
  rewrite (map_ext _ _ (contribution_ext f g H)). rewrite (map_ext (fun x : nat * nat => f (fst x)) (fun x => g (fst x)) (fun x => H (fst x))).
  apply fill_valid_ext; [exact H|reflexivity].
Qed.
Lemma fill_invalid_zero n s : (forall i, nth i s 0%R = 0%R) -> forall ms (zs : list (nat * nat)) i a, (forall k, a k = 0%R) -> forall k,
  fill_invalid n s i (combine ms (map (fun _ => 0%R) zs)) a k = 0%R.
Proof.
  intros S0. induction ms as [|m ms IH]; intros zs i a H k; [apply H|]. destruct zs as [|z zs]; [apply H|]. cbn [map combine fill_invalid].
  apply IH. intros j. unfold assign. destruct (in_mask n m j); [|apply H]. destruct i as [|i]; [reflexivity|]. rewrite S0. lra.
Qed.
Lemma fill_valid_zero n : forall ms s a, (forall i, nth i s 0%R = 0%R) -> (forall k, a k = 0%R) -> forall k,
  fill_valid n (fun _ => 0%R) (combine s ms) a k = 0%R.
Proof.
  intros ms s. revert ms. induction s as [|x s IH]; intros ms a S0 H k; [apply H|]. destruct ms as [|m ms]; [apply H|].
  cbn [combine fill_valid]. apply IH; [intros i; apply (S0 (S i))|]. intros j. unfold assign. destruct (in_mask n m j); [|apply H].
  pose proof (S0 0) as E. cbn in E. rewrite E. lra.
Qed.
Lemma adj_zero n z k : adj_profile (adjust n (fun _ => 0%R) z) k = 0%R.
Proof.
  cbn [adjust adj_profile]. destruct (z_fully z); [reflexivity|].
  assert (C : forall l a, a = 0%R -> forall i, nth i (cumsum a (map (contribution (fun _ => 0%R)) l)) 0%R = 0%R).
  { induction l as [|x l IH]; intros a A i; [destruct i; reflexivity|]. cbn [map cumsum].
    assert (Z : contribution (fun _ => 0%R) x = 0%R) by (unfold contribution; lra). rewrite Z, A.
    destruct i as [|i]; cbn [nth]; [lra|]. apply IH. lra. }
  apply fill_valid_zero; [apply C; reflexivity|]. intros j. apply fill_invalid_zero; [apply C; reflexivity|reflexivity].
Qed.
Lemma adj_sum n z : forall ys k, adj_profile (adjust n (sum_at ys) z) k = sum_at (map (fun y => adj_profile (adjust n y z)) ys) k.
Proof.
  induction ys as [|y ys IH]; intros k; [apply adj_zero|]. 
  change (sum_at (map (fun y => adj_profile (adjust n y z)) (y :: ys)) k)
    with (adj_profile (adjust n y z) k + sum_at (map (fun y => adj_profile (adjust n y z)) ys) k)%R.
  rewrite <- IH, <- adj_add. apply adj_ext. reflexivity.
Qed.

(** ** labelled curves *)
Lemma labelled_all : forall ys es, List.length ys = List.length es ->
  map fst (labelled ys (Some es)) = ys /\ map snd (labelled ys (Some es)) = map Some es.
Proof.
  unfold labelled. induction ys as [|y ys IH]; intros [|e es] L; try discriminate; [split; reflexivity|].
  cbn [combine map fst snd]. destruct (IH es ltac:(cbn in L; lia)) as [A B]. split; f_equal; assumption.
Qed.
Lemma labelled_none ys : map fst (labelled ys None) = ys.
Proof. cbn. rewrite map_map. cbn. apply map_id. Qed.
Lemma labelled_fst ys es : map fst (labelled ys (Some es)) = firstn (List.length es) ys.
Proof. unfold labelled. revert es. induction ys as [|y ys IH]; intros [|e es]; try reflexivity. cbn. f_equal. apply IH. Qed.

(** ** colours *)
Lemma cycle_ok pal i skip : pal <> [] -> exists c, custom_color_cycle i pal skip = Ok (c, (i + skip + 1) mod List.length pal) /\ nth_error pal ((i + skip) mod List.length pal) = Some c.
Proof.
  intros N. unfold custom_color_cycle. assert (L : List.length pal <> 0) by (destruct pal; [contradiction|discriminate]).
  apply Nat.eqb_neq in L. rewrite L. apply Nat.eqb_neq in L.
  destruct (nth_error pal ((i + skip) mod List.length pal)) as [c|] eqn:E; [exists c; split; [|reflexivity]; reflexivity|].
  apply nth_error_None in E. pose proof (Nat.mod_upper_bound (i + skip) _ L). lia.
Qed.
(** the place, in the endless repetition, at which the i-th curve starts to look for its colour *)
Definition start_place (i : nat) : nat := colour_place i - skipped i.
Lemma start_next i : start_place (S i) = S (colour_place i).
Proof. unfold start_place, skipped. destruct i as [|[|[|[|i]]]]; cbn; lia. Qed.
Lemma start_plus i : start_place i + skipped i = colour_place i.
Proof. unfold start_place, skipped. destruct i as [|[|[|[|i]]]]; cbn; lia. Qed.
Lemma cycle_curves_ok pal : pal <> [] -> forall l i idx, idx = start_place i mod List.length pal ->
  exists cs, cycle_curves pal i idx l = Ok cs /\ map c_y cs = map fst l /\ map c_label cs = map snd l /\
    forall j, j < List.length l -> exists c, nth_error (map c_color cs) j = Some (Some c) /\ nth_error pal (colour_place (i + j) mod List.length pal) = Some c.
Proof.
  intros N. assert (L : List.length pal <> 0) by (destruct pal; [contradiction|discriminate]).
  induction l as [|[y lab] l IH]; intros i idx E.
  - exists []. cbn. split; [reflexivity|]. split; [reflexivity|]. split; [reflexivity|]. intros j J. lia.
  - destruct (cycle_ok pal idx (skipped i) N) as (c & C & P).
    assert (M : forall m, (idx + m) mod List.length pal = (start_place i + m) mod List.length pal) by (intros m; rewrite E; apply Nat.add_mod_idemp_l; exact L).
    destruct (IH (S i) ((idx + skipped i + 1) mod List.length pal)) as (cs & CS & Y & Lb & Cl).
    { rewrite <- Nat.add_assoc, M, Nat.add_assoc, start_plus, start_next. f_equal. lia. }
    cbn [cycle_curves]. rewrite C. cbn [bind fst snd]. rewrite CS. cbn [bind]. eexists. split; [reflexivity|]. cbn [map fst snd c_y c_label c_color].
    split; [f_equal; exact Y|]. split; [f_equal; exact Lb|]. intros [|j] J.
    + exists c. split; [reflexivity|]. rewrite Nat.add_0_r, <- start_plus, <- M. exact P.
    + cbn [nth_error]. replace (i + S j) with (S i + j) by lia. apply Cl. cbn in J. lia.
Qed.
Lemma cycle_curves_empty y l i idx : cycle_curves [] i idx (y :: l) = Exc ZeroDivisionError.
Proof. destruct y. reflexivity. Qed.
Lemma colour_place_lt i j : i < j -> colour_place i < colour_place j.
Proof. intros H. destruct i as [|[|[|[|i]]]], j as [|[|[|[|j]]]]; cbn; lia. Qed.
Lemma colour_place_ge i : i <= colour_place i.
Proof. destruct i as [|[|[|[|i]]]]; cbn; lia. Qed.
