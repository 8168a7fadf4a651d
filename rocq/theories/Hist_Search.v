(** * Proofs about the jackknife search: likelihood values, first maximum, agreement of implementations. *)
From Coq Require Import Reals List ZArith Bool Lia Lra.
From Verif Require Import Base Py Hist_Model Hist_Spec Hist_Proofs.
Import ListNotations.
Local Open Scope R_scope.
Local Open Scope res_scope.

(** ** value of the likelihood *)
Definition bad (x : xr) : Prop := x = NaN \/ x = NInf.
Definition term (alpha D n : R) : xr := xmul n (xlog (xdiv (n + alpha - 1) D)).
Lemma jacky_terms counts bw alpha cf : jacky counts bw alpha cf = xsum (map (term alpha (cf * bw)) counts).
Proof. reflexivity. Qed.
Lemma term_good alpha D n : 0 < D -> 0 < n + alpha - 1 -> term alpha D n = Fin (n * ln ((n + alpha - 1) / D)).
Proof.
  intros HD H. unfold term, xdiv. destruct (Req_EM_T D 0); [lra|]. unfold xlog.
  assert (0 < (n + alpha - 1) / D) by (apply Rdiv_lt_0_compat; assumption). destruct (Rlt_dec 0 ((n + alpha - 1) / D)); [reflexivity|contradiction].
Qed.
Lemma term_bad alpha D n : 0 < D -> 0 <= n -> n + alpha - 1 <= 0 -> bad (term alpha D n).
Proof.
  intros HD Hn H. unfold term, xdiv. destruct (Req_EM_T D 0); [lra|]. unfold xlog.
  assert (Hq : (n + alpha - 1) / D <= 0).
  { apply Rmult_le_reg_r with D; [exact HD|]. unfold Rdiv. rewrite Rmult_assoc, Rinv_l, Rmult_1_r by lra. lra. }
  destruct (Rlt_dec 0 ((n + alpha - 1) / D)); [lra|]. destruct (Req_EM_T _ 0); [|left; reflexivity].
  cbn. destruct (Rlt_dec 0 n); [right; reflexivity|]. destruct (Rlt_dec n 0); [lra|left; reflexivity].
Qed.
Lemma term_nan alpha D n : 0 < D -> 0 < alpha -> (n = 0 \/ 1 <= n) -> n + alpha - 1 <= 0 -> term alpha D n = NaN.
Proof.
  intros HD Ha Hn H. assert (n = 0) by (destruct Hn; [assumption|lra]). subst n.
  destruct (term_bad alpha D 0) as [E|E]; try lra; [exact E|]. unfold term in *. destruct (xlog _) eqn:L; cbn in E; try discriminate.
  - destruct (Rlt_dec 0 0); [lra|]. discriminate.
  - destruct (Rlt_dec 0 0); [lra|]. destruct (Rlt_dec 0 0); [lra|]. discriminate.
Qed.
Lemma jacky_good counts bw alpha cf : 0 < cf * bw -> (forall n, In n counts -> 0 < n + alpha - 1) ->
  jacky counts bw alpha cf = Fin (total (map (fun n => n * ln ((n + alpha - 1) / (cf * bw))) counts)).
Proof.
  intros HD H. rewrite jacky_terms. induction counts as [|n l IH]; [reflexivity|]. cbn [map xsum fold_right total].
  fold (xsum (map (term alpha (cf * bw)) l)). change (fold_right xadd (Fin 0)) with xsum.
  rewrite IH by (intros; apply H; right; assumption). rewrite term_good by (try assumption; apply H; left; reflexivity). reflexivity.
Qed.
Lemma xadd_bad_l x y : bad x -> (bad y \/ exists r, y = Fin r) -> bad (xadd x y).
Proof. intros [->| ->] [[->| ->]|[r ->]]; cbn; unfold bad; auto. Qed.
Lemma xadd_bad_r x y : bad y -> (bad x \/ exists r, x = Fin r) -> bad (xadd x y).
Proof. intros [->| ->] [[->| ->]|[r ->]]; cbn; unfold bad; auto. Qed.
Lemma term_cases alpha D n : 0 < D -> 0 <= n -> bad (term alpha D n) \/ exists r, term alpha D n = Fin r.
Proof.
  intros HD Hn. destruct (Rle_lt_dec (n + alpha - 1) 0) as [L|L]; [left; apply term_bad; assumption|right].
  eexists. apply term_good; assumption.
Qed.
Lemma jacky_cases counts bw alpha cf : 0 < cf * bw -> (forall n, In n counts -> 0 <= n) ->
  (forall n, In n counts -> 0 < n + alpha - 1) \/ bad (jacky counts bw alpha cf).
Proof.
  intros HD H. rewrite jacky_terms.
  assert (G : (bad (xsum (map (term alpha (cf * bw)) counts)) \/ exists r, xsum (map (term alpha (cf * bw)) counts) = Fin r) /\
     ((forall n, In n counts -> 0 < n + alpha - 1) \/ bad (xsum (map (term alpha (cf * bw)) counts)))).
  { induction counts as [|n l IH]; [split; [right; exists 0; reflexivity|left; intros ? []]|].
    cbn [map xsum fold_right]. change (fold_right xadd (Fin 0)) with xsum. set (S := xsum (map (term alpha (cf * bw)) l)) in *.
    destruct IH as [IH1 IH2]; [intros; apply H; right; assumption|].
    assert (Hn : 0 <= n) by (apply H; left; reflexivity).
    pose proof (term_cases alpha (cf * bw) n HD Hn) as T. split.
    - destruct T as [T|[r T]]; [left; apply xadd_bad_l; assumption|].
      destruct IH1 as [B|[s E]]; [left; apply xadd_bad_r; [assumption|right; exists r; exact T]|right; rewrite T, E; eexists; reflexivity].
    - destruct (Rle_lt_dec (n + alpha - 1) 0) as [L|L].
      + right. apply xadd_bad_l; [apply term_bad; assumption|exact IH1].
      + destruct IH2 as [G|B]; [left; intros m [<-|Hm]; [exact L|apply G, Hm]|right; apply xadd_bad_r; assumption]. }
  apply G.
Qed.
Lemma xsum_nan l : In NaN l -> xsum l = NaN.
Proof.
  induction l as [|x l IH]; [intros []|]; intros [->|H]; cbn [xsum fold_right]; change (fold_right xadd (Fin 0)) with xsum; [reflexivity|].
  rewrite (IH H). destruct x; reflexivity.
Qed.
Lemma jacky_nan counts bw alpha cf : 0 < cf * bw -> 0 < alpha -> (forall n, In n counts -> n = 0 \/ 1 <= n) ->
  ~ (forall n, In n counts -> 0 < n + alpha - 1) -> jacky counts bw alpha cf = NaN.
Proof.
  intros HD Ha H N. rewrite jacky_terms. apply xsum_nan.
  assert (G : exists n, In n counts /\ n + alpha - 1 <= 0).
  { clear HD. induction counts as [|n l IH]; [exfalso; apply N; intros ? []|].
    destruct (Rle_lt_dec (n + alpha - 1) 0) as [L|L]; [exists n; split; [left; reflexivity|exact L]|].
    destruct IH as (m & Hm & E); [intros; apply H; right; assumption| |exists m; split; [right; exact Hm|exact E]].
    intros G. apply N. intros m [<-|Hm]; [exact L|apply G, Hm]. }
  destruct G as (n & Hn & L). apply in_map_iff. exists n. split; [|exact Hn]. apply term_nan; [assumption..|apply H, Hn|exact L].
Qed.

(** ** the first maximum *)
Section Pick.
  Context {C I : Type} (score : C -> res (xr * I)) (f : C -> xr) (g : C -> I) (ok : C -> Prop) (val : C -> R).
  Variable combos : list C.
  Hypothesis Hscore : forall c, In c combos -> score c = Ok (f c, g c).
  Hypothesis Hok : forall c, In c combos -> (ok c /\ f c = Fin (val c)) \/ (~ ok c /\ bad (f c)).
  Definition picked (init : option (C * I)) (l : list C) (r : xr * option (C * I)) : Prop :=
    ((forall c, In c l -> ~ ok c) /\ r = (NInf, init)) \/
    exists c, first_best ok val l c /\ r = (Fin (val c), Some (c, g c)).
  Lemma pick_spec init : exists r, pick score combos init = Ok r /\ picked init combos r.
  Proof.
    assert (G : forall l, (forall c, In c l -> In c combos) -> exists r,
      fold_left (fun acc c => st <- acc ; s <- score c ; Ok (if xgt (fst s) (fst st) then (fst s, Some (c, snd s)) else st)) l (Ok (NInf, init)) = Ok r /\ picked init l r).
    { induction l as [|c l IH] using rev_ind; intros Hl.
      - exists (NInf, init). split; [reflexivity|]. left. split; [intros ? []|reflexivity].
      - destruct IH as (r & E & P); [intros; apply Hl, in_or_app; left; assumption|].
        rewrite fold_left_app. cbn [fold_left]. rewrite E. cbn [bind].
        assert (Hc : In c combos) by (apply Hl, in_or_app; right; left; reflexivity).
        rewrite (Hscore c Hc). cbn [bind fst snd]. eexists. split; [reflexivity|].
        destruct (Hok c Hc) as [[O F]|[O F]].
        + rewrite F. destruct P as [[N ->]|(b & B & ->)]; cbn [fst xgt].
          * right. exists c. split; [|reflexivity]. exists (List.length l). split; [rewrite nth_error_app2, Nat.sub_diag by lia; reflexivity|]. split; [exact O|]. split.
            -- intros j d Hj Od. destruct (Nat.lt_ge_cases j (List.length l)) as [L|L].
               ++ rewrite nth_error_app1 in Hj by exact L. exfalso. apply (N d); [apply nth_error_In in Hj; exact Hj|exact Od].
               ++ rewrite nth_error_app2 in Hj by exact L. destruct (j - List.length l)%nat; cbn in Hj; [injection Hj as <-; lra|]. destruct n; discriminate.
            -- intros j d L Hj Od. rewrite nth_error_app1 in Hj by exact L. exfalso. apply (N d); [apply nth_error_In in Hj; exact Hj|exact Od].
          * destruct B as (k & Hk & Ob & M1 & M2). assert (Lk : (k < List.length l)%nat) by (apply nth_error_Some; congruence).
            destruct (Rlt_dec (val b) (val c)) as [L|L].
            -- right. exists c. split; [|reflexivity]. exists (List.length l). split; [rewrite nth_error_app2, Nat.sub_diag by lia; reflexivity|]. split; [exact O|]. split.
               ++ intros j d Hj Od. destruct (Nat.lt_ge_cases j (List.length l)) as [L2|L2].
                  ** rewrite nth_error_app1 in Hj by exact L2. specialize (M1 j d Hj Od). lra.
                  ** rewrite nth_error_app2 in Hj by exact L2. destruct (j - List.length l)%nat; cbn in Hj; [injection Hj as <-; lra|]. destruct n; discriminate.
               ++ intros j d L2 Hj Od. rewrite nth_error_app1 in Hj by exact L2. specialize (M1 j d Hj Od). lra.
            -- right. exists b. split; [|reflexivity]. exists k. split; [rewrite nth_error_app1 by exact Lk; exact Hk|]. split; [exact Ob|]. split.
               ++ intros j d Hj Od. destruct (Nat.lt_ge_cases j (List.length l)) as [L2|L2].
                  ** rewrite nth_error_app1 in Hj by exact L2. apply (M1 j d Hj Od).
                  ** rewrite nth_error_app2 in Hj by exact L2. destruct (j - List.length l)%nat; cbn in Hj; [injection Hj as <-; lra|]. destruct n; discriminate.
               ++ intros j d L2 Hj Od. rewrite nth_error_app1 in Hj by lia. apply (M2 j d L2 Hj Od).
        + replace (xgt (f c) (fst r)) with false by (destruct F as [-> | ->]; [|destruct r as [[| | |] ?]]; reflexivity).
          destruct P as [[N ->]|(b & (k & Hk & Ob & M1 & M2) & ->)].
          * left. split; [|reflexivity]. intros d Hd. apply in_app_or in Hd. destruct Hd as [Hd|[<-|[]]]; [apply N, Hd|exact O].
          * right. exists b. split; [|reflexivity]. assert (Lk : (k < List.length l)%nat) by (apply nth_error_Some; congruence).
            exists k. split; [rewrite nth_error_app1 by exact Lk; exact Hk|]. split; [exact Ob|]. split.
            -- intros j d Hj Od. destruct (Nat.lt_ge_cases j (List.length l)) as [L2|L2].
               ++ rewrite nth_error_app1 in Hj by exact L2. apply (M1 j d Hj Od).
               ++ rewrite nth_error_app2 in Hj by exact L2. destruct (j - List.length l)%nat; cbn in Hj; [injection Hj as <-; contradiction|]. destruct n; discriminate.
            -- intros j d L2 Hj Od. rewrite nth_error_app1 in Hj by lia. apply (M2 j d L2 Hj Od). }
    destruct (G combos (fun c H => H)) as (r & E & P). exists r. split; [exact E|exact P].
  Qed.
  Lemma picked_best init c r : picked init combos r -> first_best ok val combos c -> r = (Fin (val c), Some (c, g c)).
  Proof.
    intros [[N _]|(b & B & ->)] (k & Hk & Oc & M1 & M2); [exfalso; apply (N c); [apply nth_error_In in Hk; exact Hk|exact Oc]|].
    destruct B as (k' & Hk' & Ob & N1 & N2).
    assert (k = k').
    { destruct (Nat.lt_trichotomy k k') as [L|[E|L]]; [|exact E|].
      - specialize (N2 k c L Hk Oc). specialize (M1 k' b Hk' Ob). lra.
      - specialize (M2 k' b L Hk' Ob). specialize (N1 k c Hk Oc). lra. }
    subst k'. rewrite Hk in Hk'. injection Hk' as <-. reflexivity.
  Qed.
End Pick.

(** np.nanargmax over the table *)
Definition clean (x : xr) : xr := if is_nan x then NInf else x.
Lemma argbestx_spec : forall l i bi b, (forall x, In x l -> x <> NaN) -> b <> NaN ->
  let r := argbestx l i bi b in
  (r = bi /\ forall x, In x l -> xgt x b = false) \/
  (exists k x, r = (i + k)%nat /\ nth_error l k = Some x /\ xgt x b = true /\
     (forall j y, nth_error l j = Some y -> xgt y x = false) /\ (forall j y, (j < k)%nat -> nth_error l j = Some y -> xgt x y = true)).
Proof.
  assert (T : forall x y z, xgt x y = true -> xgt z x = true -> xgt z y = true).
  { intros [a| | |] [b| | |] [c| | |]; cbn; try congruence; intros; repeat destruct (Rlt_dec _ _); try congruence; lra. }
  assert (T2 : forall x y z, x <> NaN -> y <> NaN -> z <> NaN -> xgt x y = false -> xgt z y = true -> xgt z x = true).
  { intros [a| | |] [b| | |] [c| | |]; cbn; try congruence; intros; repeat destruct (Rlt_dec _ _); try congruence; lra. }
  assert (T3 : forall x y, xgt x y = true -> xgt y x = false).
  { intros [a| | |] [b| | |]; cbn; try congruence; intros; repeat destruct (Rlt_dec _ _); try congruence; lra. }
  induction l as [|x l IH]; intros i bi b Hl Hb; cbn [argbestx]; [left; split; [reflexivity|intros ? []]|].
  assert (Hx : x <> NaN) by (apply Hl; left; reflexivity). assert (Hl' : forall y, In y l -> y <> NaN) by (intros; apply Hl; right; assumption).
  destruct (xgt x b) eqn:E.
  - right. destruct (IH (S i) i x Hl' Hx) as [[R N]|(k & y & R & Hk & Gt & M1 & M2)]; rewrite R.
    + exists 0%nat, x. split; [lia|]. split; [reflexivity|]. split; [exact E|]. split.
      * intros [|j] y Hj; cbn in Hj; [injection Hj as <-; destruct x as [r0| | |]; cbn; try reflexivity; destruct (Rlt_dec r0 r0); [lra|reflexivity]|].
        apply N. apply nth_error_In in Hj. exact Hj.
      * intros j y L. lia.
    + exists (S k), y. split; [lia|]. split; [exact Hk|]. split; [apply (T x b y E Gt)|]. split.
      * intros [|j] z Hj; cbn in Hj; [injection Hj as <-; apply T3, Gt|apply (M1 j z Hj)].
      * intros [|j] z L Hj; cbn in Hj; [injection Hj as <-; exact Gt|apply (M2 j z); [lia|exact Hj]].
  - destruct (IH (S i) bi b Hl' Hb) as [[R N]|(k & y & R & Hk & Gt & M1 & M2)]; rewrite R.
    + left. split; [reflexivity|]. intros y [<-|Hy]; [exact E|apply N, Hy].
    + right. exists (S k), y. split; [lia|]. split; [exact Hk|]. split; [exact Gt|].
      assert (Hy : y <> NaN) by (apply Hl'; apply nth_error_In in Hk; exact Hk). split.
      * intros [|j] z Hj; cbn in Hj; [injection Hj as <-; apply T3, (T2 x b y); assumption|apply (M1 j z Hj)].
      * intros [|j] z L Hj; cbn in Hj; [injection Hj as <-; apply (T2 x b y); assumption|apply (M2 j z); [lia|exact Hj]].
Qed.
Lemma nanargmax_best {C} (f : C -> xr) (ok : C -> Prop) (val : C -> R) combos c :
  (forall c, In c combos -> (ok c /\ f c = Fin (val c)) \/ (~ ok c /\ bad (f c))) ->
  first_best ok val combos c -> exists k, nanargmax (map f combos) = Ok k /\ nth_error combos k = Some c.
Proof.
  intros Hok (k & Hk & Oc & M1 & M2). unfold nanargmax.
  assert (Hc : In c combos) by (apply nth_error_In in Hk; exact Hk).
  assert (Fc : f c = Fin (val c)) by (destruct (Hok c Hc) as [[_ F]|[N _]]; [exact F|contradiction]).
  assert (forallb is_nan (map f combos) = false).
  { destruct (forallb is_nan (map f combos)) eqn:E; [|reflexivity]. rewrite forallb_forall in E. specialize (E (f c) (in_map f _ _ Hc)). rewrite Fc in E. discriminate. }
  rewrite H. clear H. change (map (fun x => if is_nan x then NInf else x) (map f combos)) with (map clean (map f combos)). rewrite map_map.
  set (r := map (fun x => clean (f x)) combos).
  assert (Hr : forall x, In x r -> x <> NaN). { intros x Hx. apply in_map_iff in Hx. destruct Hx as (d & <- & _). unfold clean. destruct (f d); cbn; discriminate. }
  assert (Er : forall j d, nth_error combos j = Some d -> nth_error r j = Some (clean (f d))). { intros j d Hj. unfold r. rewrite nth_error_map, Hj. reflexivity. }
  assert (Vr : forall j y, nth_error r j = Some y -> exists d, nth_error combos j = Some d /\ y = clean (f d)).
  { intros j y Hj. unfold r in Hj. rewrite nth_error_map in Hj. destruct (nth_error combos j) as [d|]; [|discriminate]. injection Hj as <-. exists d. auto. }
  assert (Hh : hd NInf r <> NaN). { destruct r as [|y r'] eqn:E; [discriminate|]. apply Hr. left. reflexivity. }
  assert (Cf : forall d, In d combos -> (ok d /\ clean (f d) = Fin (val d)) \/ (~ ok d /\ clean (f d) = NInf)).
  { intros d Hd. destruct (Hok d Hd) as [[O F]|[O [F|F]]]; rewrite F; auto. }
  pose proof (Er k c Hk) as Ek. rewrite Fc in Ek. cbn in Ek.
  destruct (argbestx_spec r 0 0 (hd NInf r) Hr Hh) as [[R N]|(k' & y & R & Hk' & Gt & N1 & N2)].
  - exists 0%nat. rewrite R. split; [reflexivity|]. destruct k as [|k]; [exact Hk|]. exfalso.
    destruct combos as [|d0 rest]; [discriminate|]. cbn [r map hd] in *. assert (G := N (Fin (val c)) (nth_error_In r (S k) Ek)). unfold r in G. cbn [map hd] in G.
    destruct (Cf d0 (or_introl eq_refl)) as [[O F]|[O F]]; rewrite F in G; cbn in G; [|discriminate].
    destruct (Rlt_dec (val d0) (val c)); [discriminate|]. specialize (M2 0%nat d0 ltac:(lia) eq_refl O). lra.
  - exists k'. rewrite R. split; [reflexivity|]. destruct (Vr k' y Hk') as (d & Hd & Ey).
    assert (In d combos) by (apply nth_error_In in Hd; exact Hd).
    assert (G := N1 k (Fin (val c)) Ek). destruct (Cf d H) as [[O F]|[O F]]; rewrite Ey, F in *; [|cbn in G; discriminate].
    cbn in G. destruct (Rlt_dec (val d) (val c)) as [L|L]; [discriminate|].
    assert (k = k').
    { destruct (Nat.lt_trichotomy k k') as [L2|[E|L2]]; [|exact E|].
      - specialize (N2 k (Fin (val c)) L2 Ek). cbn in N2. destruct (Rlt_dec (val c) (val d)); [|discriminate]. specialize (M1 k' d Hd O). lra.
      - specialize (M2 k' d L2 Hd O). lra. }
    subst k'. rewrite Hd. rewrite Hk in Hd. symmetry. exact Hd.
Qed.
