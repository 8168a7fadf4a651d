(** * Proofs: np.interp *)
From Coq Require Import List ZArith Lia Reals Lra String Bool.
From Coquelicot Require Import Complex.
From Verif Require Import Base Load_Model Grid_Model Grid_Spec.
Import ListNotations.
Local Open Scope R_scope.

Lemma interp_from_spec : forall xp fp x x0 f0, List.length xp = List.length fp -> x0 <= x ->
  let r := interp_from x x0 f0 (combine xp fp) in
  (nth (List.length xp) (x0 :: xp) 0 <= x /\ r = nth (List.length xp) (f0 :: fp) 0) \/
  (exists i, (i < List.length xp)%nat /\ nth i (x0 :: xp) 0 <= x < nth (S i) (x0 :: xp) 0 /\
     r = nth i (f0 :: fp) 0 + (nth (S i) (f0 :: fp) 0 - nth i (f0 :: fp) 0) * ((x - nth i (x0 :: xp) 0) / (nth (S i) (x0 :: xp) 0 - nth i (x0 :: xp) 0))).
Proof.
  induction xp as [|x1 xp IH]; intros fp x x0 f0 HL Hx.
  - destruct fp; [|discriminate]. left. simpl. auto.
  - destruct fp as [|f1 fp]; [discriminate|]. simpl in HL. injection HL as HL.
    cbn [combine interp_from]. destruct (Rlt_dec x x1) as [H|H].
    + right. exists 0%nat. cbn. split; [lia|]. split; [lra|]. unfold Rdiv. ring.
    + destruct (IH fp x x1 f1 HL ltac:(lra)) as [[A B]|(i & A & B & D)].
      * left. cbn [List.length]. split; [exact A|exact B].
      * right. exists (S i). split; [cbn; lia|]. split; [exact B|exact D].
Qed.

Lemma interp1_spec xp fp x : List.length xp = List.length fp -> (0 < List.length xp)%nat ->
  lin_interp xp fp x (interp1 (combine xp fp) x).
Proof.
  intros HL H0. destruct xp as [|x0 xp]; [simpl in H0; lia|]. destruct fp as [|f0 fp]; [discriminate|].
  simpl in HL. injection HL as HL. unfold lin_interp, interp1. cbn [combine]. destruct (Rlt_dec x x0) as [H|H].
  - left. simpl. auto.
  - right. cbn [List.length]. replace (S (List.length xp) - 1)%nat with (List.length xp) by lia.
    destruct (interp_from_spec xp fp x x0 f0 HL ltac:(lra)) as [D|(i & A & B & D)]; [left; exact D|right; exists i; repeat split; try tauto; lia].
Qed.

Lemma interp_list_spec x xp fp r : interp_list x xp fp = Ok r <->
  ((0 < List.length xp)%nat /\ List.length xp = List.length fp /\ r = map (interp1 (combine xp fp)) x).
Proof.
  unfold interp_list. destruct (Nat.ltb_spec 0 (List.length xp)); destruct (Nat.eqb_spec (List.length xp) (List.length fp)); cbn;
    split; intros; try discriminate; try lia.
  - injection H0 as <-. auto.
  - destruct H0 as (_ & _ & ->). reflexivity.
Qed.

Lemma incr_nondecr l : increasing l -> nondecreasing l.
Proof. intros H i j L. left. apply H, L. Qed.

Lemma nondecr_le l i j : nondecreasing l -> (i <= j)%nat -> (j < List.length l)%nat -> nth i l 0 <= nth j l 0.
Proof. intros H L1 L2. destruct (Nat.eq_dec i j) as [->|N]; [lra|]. apply H. lia. Qed.

(** on non-decreasing sample points the relation is a function *)
Lemma lin_interp_unique xp fp t r r' : nondecreasing xp -> lin_interp xp fp t r -> lin_interp xp fp t r' -> r = r'.
Proof.
  intros N. unfold lin_interp. set (n := List.length xp).
  assert (Hn : forall i j, (i <= j)%nat -> (j < n)%nat -> nth i xp 0 <= nth j xp 0) by (intros; apply nondecr_le; auto).
  intros [[A1 B1]|[[A1 B1]|(i & I1 & I2 & I3)]] [[A2 B2]|[[A2 B2]|(j & J1 & J2 & J3)]]; subst; try reflexivity.
  - exfalso. destruct (Nat.eq_dec n 0) as [E|E].
    + replace (n - 1)%nat with 0%nat in A2 by lia. lra.
    + specialize (Hn 0%nat (n - 1)%nat ltac:(lia) ltac:(lia)). lra.
  - exfalso. specialize (Hn 0%nat j ltac:(lia) ltac:(lia)). lra.
  - exfalso. destruct (Nat.eq_dec n 0) as [E|E].
    + replace (n - 1)%nat with 0%nat in A1 by lia. lra.
    + specialize (Hn 0%nat (n - 1)%nat ltac:(lia) ltac:(lia)). lra.
  - exfalso. specialize (Hn (S j) (n - 1)%nat ltac:(lia) ltac:(lia)). lra.
  - exfalso. specialize (Hn 0%nat i ltac:(lia) ltac:(lia)). lra.
  - exfalso. specialize (Hn (S i) (n - 1)%nat ltac:(lia) ltac:(lia)). lra.
  - assert (i = j) as ->; [|reflexivity]. destruct (Nat.lt_trichotomy i j) as [H|[H|H]]; [|exact H|].
    + specialize (Hn (S i) j ltac:(lia) ltac:(lia)). lra.
    + specialize (Hn (S j) i ltac:(lia) ltac:(lia)). lra.
Qed.

(** at the last sample point with a given abscissa the interpolant is the sample *)
Lemma interp_at_sample xp fp k : List.length xp = List.length fp -> nondecreasing xp -> (k < List.length xp)%nat ->
  ((S k < List.length xp)%nat -> nth k xp 0 < nth (S k) xp 0) ->
  interp1 (combine xp fp) (nth k xp 0) = nth k fp 0.
Proof.
  intros HL N Hk Hs. apply (lin_interp_unique xp fp (nth k xp 0)); [exact N|apply interp1_spec; [exact HL|lia]|].
  unfold lin_interp. destruct (Nat.eq_dec (S k) (List.length xp)) as [E|E].
  - right; left. replace (List.length xp - 1)%nat with k by lia. split; [lra|reflexivity].
  - right; right. exists k. split; [lia|]. split; [specialize (Hs ltac:(lia)); lra|]. unfold Rdiv. ring.
Qed.

Lemma list_ext {A} (l1 l2 : list A) d : List.length l1 = List.length l2 ->
  (forall i, (i < List.length l1)%nat -> nth i l1 d = nth i l2 d) -> l1 = l2.
Proof. intros. eapply nth_ext; eassumption. Qed.

Lemma nth_map0 {A B} (f : A -> B) l d d' i : (i < List.length l)%nat -> nth i (map f l) d' = f (nth i l d).
Proof. intros H. rewrite nth_indep with (d' := f d) by (rewrite map_length; exact H). apply map_nth. Qed.

Lemma interp_own_grid xp fp : List.length xp = List.length fp -> (0 < List.length xp)%nat -> increasing xp -> interp_list xp xp fp = Ok fp.
Proof.
  intros HL H0 I. apply interp_list_spec. split; [exact H0|]. split; [exact HL|].
  apply (list_ext _ _ 0); [rewrite map_length; lia|]. intros i Hi. rewrite (nth_map0 _ _ 0) by lia.
  symmetry. apply interp_at_sample; [exact HL|apply incr_nondecr, I|lia|]. intros. apply I. lia.
Qed.

Lemma lin_interp_bounds xp fp t r lo hi : List.length xp = List.length fp -> (0 < List.length xp)%nat ->
  (forall v, In v fp -> lo <= v <= hi) -> lin_interp xp fp t r -> lo <= r <= hi.
Proof.
  intros HL H0 B. assert (Bn : forall i, (i < List.length xp)%nat -> lo <= nth i fp 0 <= hi) by (intros; apply B, nth_In; lia).
  intros [[_ ->]|[[_ ->]|(i & I1 & I2 & ->)]]; [apply Bn; lia|apply Bn; lia|].
  pose proof (Bn i ltac:(lia)) as B1. pose proof (Bn (S i) ltac:(lia)) as B2.
  set (w := (t - nth i xp 0) / (nth (S i) xp 0 - nth i xp 0)).
  assert (Hw : 0 <= w <= 1).
  { unfold w. split; [apply Rmult_le_pos; [lra|left; apply Rinv_0_lt_compat; lra]|].
    apply Rmult_le_reg_r with (nth (S i) xp 0 - nth i xp 0); [lra|]. unfold Rdiv. rewrite Rmult_assoc, Rinv_l by lra. lra. }
  nra.
Qed.

Lemma lin_interp_affine xp a b t : (0 < List.length xp)%nat -> nth 0 xp 0 <= t <= nth (List.length xp - 1) xp 0 ->
  lin_interp xp (map (fun x => a * x + b) xp) t (a * t + b).
Proof.
  intros H0 Ht. unfold lin_interp.
  assert (E : forall i, (i < List.length xp)%nat -> nth i (map (fun x => a * x + b) xp) 0 = a * nth i xp 0 + b)
    by (intros; rewrite (nth_map0 (fun x => a * x + b) xp 0) by assumption; reflexivity).
  destruct (Req_dec t (nth (List.length xp - 1) xp 0)) as [->|Ne].
  - right; left. rewrite E by lia. split; [lra|reflexivity].
  - right; right.
    (* the first i whose successor exceeds t *)
    assert (K : forall n, (n < List.length xp)%nat -> t < nth n xp 0 -> exists i, (S i <= n)%nat /\ nth i xp 0 <= t < nth (S i) xp 0).
    { induction n as [|n IHn]; intros Hn Hlt; [lra|]. destruct (Rle_dec (nth n xp 0) t) as [L|L].
      - exists n. split; [lia|lra].
      - destruct (IHn ltac:(lia) ltac:(lra)) as (i & I1 & I2). exists i. split; [lia|exact I2]. }
    destruct (K (List.length xp - 1)%nat ltac:(lia) ltac:(lra)) as (i & I1 & I2). exists i. split; [lia|]. split; [exact I2|].
    rewrite !E by lia. field. lra.
Qed.

(** ** complex and compound arrays *)
Definition resample (xs xp : list R) (v : gval) : gval :=
  match v with
  | VArr a => VArr (map (interp1 (combine xp a)) xs)
  | VCpx a | VComp a => VCpx (combine (map (interp1 (combine xp (map fst a))) xs) (map (interp1 (combine xp (map snd a))) xs))
  | _ => v
  end.
Lemma interp_entry_ok xs xp v s : samples v = Some s -> List.length s = List.length xp -> (0 < List.length xp)%nat ->
  interp_entry (VArr xs) (VArr xp) v = Ok (resample xs xp v).
Proof.
  intros Hs HL H0. unfold interp_entry, np_interp. destruct v; try discriminate; cbn [samples] in Hs; injection Hs as <-; cbn [resample].
  - rewrite map_length in HL. unfold interp_list. rewrite (proj2 (Nat.ltb_lt 0 _)) by exact H0. rewrite (proj2 (Nat.eqb_eq _ _)) by lia. reflexivity.
  - unfold interp_list. rewrite !map_length, (proj2 (Nat.ltb_lt 0 _)) by exact H0. rewrite (proj2 (Nat.eqb_eq _ _)) by exact (eq_sym HL). reflexivity.
  - unfold interp_list. rewrite !map_length, (proj2 (Nat.ltb_lt 0 _)) by exact H0. rewrite (proj2 (Nat.eqb_eq _ _)) by exact (eq_sym HL). reflexivity.
Qed.
Lemma lin_interp_zero xp t : (0 < List.length xp)%nat -> nondecreasing xp -> forall fp, List.length fp = List.length xp -> (forall v, In v fp -> v = 0) -> lin_interp xp fp t 0.
Proof.
  intros H0 N fp HL Z. replace 0 with (interp1 (combine xp fp) t) at 1; [apply interp1_spec; lia|].
  pose proof (interp1_spec xp fp t ltac:(lia) H0) as S.
  assert (0 <= interp1 (combine xp fp) t <= 0); [|lra].
  eapply lin_interp_bounds; [| |intros v Hv; rewrite (Z v Hv); lra|exact S]; lia.
Qed.
Lemma resample_ok xs xp v s : samples v = Some s -> List.length s = List.length xp -> (0 < List.length xp)%nat -> nondecreasing xp ->
  exists w, samples (resample xs xp v) = Some w /\ resampled xs xp v w.
Proof.
  intros Hs HL H0 N. destruct v; try discriminate; cbn [samples] in Hs; injection Hs as <-; cbn [resample samples]; eexists; (split; [reflexivity|]);
    eexists; (split; [reflexivity|]); (split; [exact HL|]).
  - rewrite map_length in HL. split; [rewrite !map_length; reflexivity|]. intros j Hj. rewrite (nth_map0 RtoC _ 0) by (rewrite map_length; exact Hj).
    rewrite (nth_map0 _ _ 0) by exact Hj. cbn [fst snd RtoC]. rewrite !map_map. cbn [fst snd RtoC]. rewrite map_id. split.
    + apply interp1_spec; lia.
    + apply lin_interp_zero; try assumption; [rewrite map_length; lia|]. intros v Hv. apply in_map_iff in Hv. destruct Hv as (? & <- & _). reflexivity.
  - split; [unfold C; rewrite combine_length, !map_length; apply Nat.min_id|]. intros j Hj.
    unfold RtoC, C. rewrite combine_nth by (rewrite !map_length; reflexivity). cbn [fst snd].
    rewrite !(nth_map0 _ _ 0) by exact Hj. split; apply interp1_spec; rewrite ?map_length; first [exact (eq_sym HL)|exact H0].
  - split; [unfold C; rewrite combine_length, !map_length; apply Nat.min_id|]. intros j Hj.
    unfold RtoC, C. rewrite combine_nth by (rewrite !map_length; reflexivity). cbn [fst snd].
    rewrite !(nth_map0 _ _ 0) by exact Hj. split; apply interp1_spec; rewrite ?map_length; first [exact (eq_sym HL)|exact H0].
Qed.
Lemma resample_own xp v s : samples v = Some s -> List.length s = List.length xp -> (0 < List.length xp)%nat -> increasing xp ->
  samples (resample xp xp v) = Some s.
Proof.
  intros Hs HL H0 I.
  assert (K : forall fp, List.length xp = List.length fp -> map (interp1 (combine xp fp)) xp = fp).
  { intros fp E. pose proof (interp_own_grid xp fp E H0 I) as Q. apply interp_list_spec in Q. symmetry. apply Q. }
  destruct v; try discriminate; cbn [samples] in Hs; injection Hs as <-; cbn [resample samples].
  - rewrite map_length in HL. rewrite K by lia. reflexivity.
  - rewrite !K by (rewrite map_length; exact (eq_sym HL)). f_equal. clear. induction a as [|[p q] a IH]; [reflexivity|]. cbn. f_equal. exact IH.
  - rewrite !K by (rewrite map_length; exact (eq_sym HL)). f_equal. clear. induction a as [|[p q] a IH]; [reflexivity|]. cbn. f_equal. exact IH.
Qed.
