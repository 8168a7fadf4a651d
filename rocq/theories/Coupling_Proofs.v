(** * Proofs about the coupling coefficient model. *)
From Coq Require Import Reals List ZArith Bool Lia Lra.
From Coquelicot Require Import Coquelicot.
From Verif Require Import Base Py Coupling_Model Coupling_Spec.
Import ListNotations.
Local Open Scope R_scope.

Lemma tab_ext n f g : (forall i, f i = g i) -> tab n f = tab n g.
Proof. intros H. unfold tab. apply map_ext, H. Qed.

Lemma rterm_beq_refl a : rterm_beq a a = true. Proof. destruct a; reflexivity. Qed.
Lemma aterm_beq_refl a : aterm_beq a a = true. Proof. destruct a; reflexivity. Qed.
Lemma rterm_beq_neq a b : a <> b -> rterm_beq a b = false.
Proof. intros H. destruct (rterm_beq a b) eqn:E; [|reflexivity]. apply internal_rterm_dec_bl in E. contradiction. Qed.
Lemma aterm_beq_neq a b : a <> b -> aterm_beq a b = false.
Proof. intros H. destruct (aterm_beq a b) eqn:E; [|reflexivity]. apply internal_aterm_dec_bl in E. contradiction. Qed.

(** ** The grouping of equal permutations *)
Section Column.
Context {A : Type} (eqb : A -> A -> bool) (dec : forall a b : A, {a = b} + {a <> b}).
Hypothesis eqb_refl : forall a, eqb a a = true.
Hypothesis eqb_neq : forall a b, a <> b -> eqb a b = false.
Context (f : A * A * A -> res R) (g : A * A * A -> R).
Hypothesis fg : forall k, f k = Ok (g k).

Lemma column_ok t : column (triple_eqb eqb) f t = Ok (map g (permutations3 t)).
Proof.
  destruct t as [[a b] c]. unfold column, symmetry_mapping, permutations3. cbn -[triple_eqb].
  destruct (dec a b) as [->|Nab]; [|destruct (dec a c) as [->|Nac]; [|destruct (dec b c) as [->|Nbc]]].
  - destruct (dec b c) as [->|N].
    + repeat (cbn; rewrite ?eqb_refl, ?fg). reflexivity.
    + pose proof (eqb_neq _ _ N) as E1. pose proof (eqb_neq _ _ (not_eq_sym N)) as E2.
      repeat (cbn; rewrite ?eqb_refl, ?E1, ?E2, ?fg). reflexivity.
  - pose proof (eqb_neq _ _ Nab) as E1. pose proof (eqb_neq _ _ (not_eq_sym Nab)) as E2.
    repeat (cbn; rewrite ?eqb_refl, ?E1, ?E2, ?fg). reflexivity.
  - pose proof (eqb_neq _ _ Nab) as E1. pose proof (eqb_neq _ _ (not_eq_sym Nab)) as E2.
    repeat (cbn; rewrite ?eqb_refl, ?E1, ?E2, ?fg). reflexivity.
  - pose proof (eqb_neq _ _ Nab) as E1. pose proof (eqb_neq _ _ (not_eq_sym Nab)) as E2.
    pose proof (eqb_neq _ _ Nac) as E3. pose proof (eqb_neq _ _ (not_eq_sym Nac)) as E4.
    pose proof (eqb_neq _ _ Nbc) as E5. pose proof (eqb_neq _ _ (not_eq_sym Nbc)) as E6.
    repeat (cbn; rewrite ?eqb_refl, ?E1, ?E2, ?E3, ?E4, ?E5, ?E6, ?fg). reflexivity.
Qed.
End Column.

(** ** Radial and angular integrals *)
Lemma rad_int_ok E t w stop : e_complex E = false ->
  rad_int E t w stop = Ok (radial_value E t w stop (1, 2, 3)%nat).
Proof.
  intros H. destruct t as [[a b] c]. unfold rad_int, radint. rewrite H. apply (f_equal (@Ok R)).
  unfold radial_value. unfold tab. f_equal. f_equal. apply map_ext. intros i.
  unfold Re. destruct (e_rad E a 1%nat i * e_rad E b 2%nat i * e_rad E c 3%nat i)%C as [u v].
  cbn. ring.
Qed.

Lemma phi_rule3 a b c : phi_rule [a; b; c] = ((a + b + c =? 0)%Z).
Proof. unfold phi_rule. cbn. reflexivity. Qed.

Lemma angular_pre E : standard E -> exists a, adapt_conj (e_conj E) (e_m E) = Ok a /\ phi_rule a = (signed_m_sum E =? 0)%Z.
Proof.
  intros ((c1 & c2 & c3 & Hc) & (m1 & m2 & m3 & Hm) & _). unfold signed_m_sum. rewrite Hc, Hm. cbn.
  eexists; split; [reflexivity|]. rewrite phi_rule3. unfold conjugator. f_equal.
Qed.

Lemma theta_ok E ds div mul : e_cheby E = false -> e_blow E = false ->
  theta_integral E ds div mul = Ok (regular_theta E (over_sin E div (fun i => if mul then ang_prod E ds i * e_mu E i else ang_prod E ds i))).
Proof.
  intros H H0. unfold theta_integral. rewrite H, H0. apply (f_equal (@Ok R)). unfold regular_theta, tab, over_sin, sin_mu.
  f_equal. apply map_ext. intros i. destruct div; [|reflexivity]. repeat f_equal. ring.
Qed.

Lemma regular_ext E f g : (forall i, f i = g i) -> regular_theta E f = regular_theta E g.
Proof. intros H. unfold regular_theta. f_equal. apply map_ext, H. Qed.

Lemma ang_int_ok E div t : standard E -> ang_int E div t = Ok (angular_value E t div (1, 2, 3)%nat).
Proof.
  intros Hs. destruct t as [[a b] c]. unfold ang_int, angular_integral.
  destruct (angular_pre E Hs) as (l & -> & Hl). cbn [bind]. rewrite Hl. unfold angular_value.
  destruct (signed_m_sum E =? 0)%Z; [|reflexivity]. destruct Hs as (_ & _ & H1 & H2 & _).
  rewrite theta_ok by assumption. cbn [bind]. do 2 f_equal. apply regular_ext. intros i. unfold over_sin, ang_prod. cbn.
  destruct div; [f_equal|]; ring.
Qed.

(** ** Columns *)
Definition rcol E w stop (p : (rterm * rterm * rterm) * R) : list R :=
  map (fun k => snd p * radial_value E k w stop (1, 2, 3)%nat) (permutations3 (fst p)).
Definition acol E (p : (aterm * aterm * aterm) * bool * R) : list R :=
  map (fun k => snd p * angular_value E k (snd (fst p)) (1, 2, 3)%nat) (permutations3 (fst (fst p))).

Lemma py_get_app {A} (pre l : list A) x : py_get (pre ++ x :: l) (Z.of_nat (length pre)) = Ok x.
Proof.
  rewrite (py_get_ok _ _ x) by (rewrite app_length; cbn; lia). rewrite Nat2Z.id, app_nth2 by lia. rewrite Nat.sub_diag. reflexivity.
Qed.

Lemma rad_columns_ok E w stop : e_complex E = false -> forall ts pre fac,
  (length ts <= length fac)%nat ->
  rad_columns E ts (Z.of_nat (length pre)) w (pre ++ fac) stop = Ok (map (rcol E w stop) (combine ts fac)).
Proof.
  intros Hc. induction ts as [|t ts IH]; intros pre fac L; [reflexivity|]. destruct fac as [|f fac]; [cbn in L; lia|].
  cbn [rad_columns combine map].
  rewrite (column_ok rterm_beq rterm_eq_dec rterm_beq_refl rterm_beq_neq _ (fun k => f * radial_value E k w stop (1, 2, 3)%nat)).
  2: { intros k. rewrite py_get_app. cbn [bind]. rewrite rad_int_ok by assumption. reflexivity. }
  cbn [bind]. replace (Z.of_nat (length pre) + 1)%Z with (Z.of_nat (length (pre ++ [f]))) by (rewrite app_length; cbn; lia).
  replace (pre ++ f :: fac) with ((pre ++ [f]) ++ fac) by (rewrite <- app_assoc; reflexivity).
  rewrite IH by (cbn in L; lia). reflexivity.
Qed.

Lemma ang_columns_ok E : standard E -> forall ts pre preD divs fac,
  length pre = length preD -> (length ts <= length divs)%nat -> (length ts <= length fac)%nat ->
  ang_columns E ts (Z.of_nat (length pre)) (preD ++ divs) (pre ++ fac) = Ok (map (acol E) (combine (combine ts divs) fac)).
Proof.
  intros Hc. induction ts as [|t ts IH]; intros pre preD divs fac Lp Ld L; [reflexivity|].
  destruct fac as [|f fac]; [cbn in L; lia|]. destruct divs as [|d divs]; [cbn in Ld; lia|].
  cbn [ang_columns combine map].
  rewrite (column_ok aterm_beq aterm_eq_dec aterm_beq_refl aterm_beq_neq _ (fun k => f * angular_value E k d (1, 2, 3)%nat)).
  2: { intros k. rewrite py_get_app. cbn [bind]. rewrite Lp, py_get_app. cbn [bind]. rewrite ang_int_ok by assumption. reflexivity. }
  cbn [bind]. replace (Z.of_nat (length pre) + 1)%Z with (Z.of_nat (length (pre ++ [f]))) by (rewrite app_length; cbn; lia).
  replace (pre ++ f :: fac) with ((pre ++ [f]) ++ fac) by (rewrite <- app_assoc; reflexivity).
  replace (preD ++ d :: divs) with ((preD ++ [d]) ++ divs) by (rewrite <- app_assoc; reflexivity).
  rewrite IH by (rewrite ?app_length; cbn in *; lia). reflexivity.
Qed.

(** entry j of a permutation column belongs to assignment j *)
Definition perm_assign : list (nat * nat * nat) :=
  [(1, 2, 3); (1, 3, 2); (2, 1, 3); (3, 1, 2); (2, 3, 1); (3, 2, 1)]%nat.

Lemma radial_ext E t w stop s E' t' s' :
  e_integ E = e_integ E' -> e_n E = e_n E' -> e_x E = e_x E' ->
  (forall i, let '(a, b, c) := t in let '(p, q, r) := s in
             let '(a', b', c') := t' in let '(p', q', r') := s' in
     (e_rad E a p i * e_rad E b q i * e_rad E c r i = e_rad E' a' p' i * e_rad E' b' q' i * e_rad E' c' r' i)%C) ->
  radial_value E t w stop s = radial_value E' t' w stop s'.
Proof.
  intros H1 H2 H3 H. destruct t as [[a b] c], s as [[p q] r], t' as [[a' b'] c'], s' as [[p' q'] r'].
  unfold radial_value. rewrite H1, H2, H3. f_equal. f_equal. apply map_ext. intros i. rewrite (H i). reflexivity.
Qed.
Lemma angular_ext E t d s t' s' :
  (forall i, let '(a, b, c) := t in let '(p, q, r) := s in
             let '(a', b', c') := t' in let '(p', q', r') := s' in
     e_ang E a p i * e_ang E b q i * e_ang E c r i = e_ang E a' p' i * e_ang E b' q' i * e_ang E c' r' i) ->
  angular_value E t d s = angular_value E t' d s'.
Proof.
  intros H. destruct t as [[a b] c], s as [[p q] r], t' as [[a' b'] c'], s' as [[p' q'] r'].
  unfold angular_value. destruct (signed_m_sum E =? 0)%Z; [|reflexivity]. f_equal. apply regular_ext. intros i.
  unfold over_sin. rewrite (H i). reflexivity.
Qed.

Ltac each_j j H := do 6 (destruct j as [|j]; [|]); [..| exfalso; lia].

Lemma rcol_nth E w stop p j : (j < 6)%nat ->
  nth j (rcol E w stop p) 0 = snd p * radial_value E (fst p) w stop (nth j perm_assign (0, 0, 0)%nat).
Proof.
  intros H. destruct p as [[[a b] c] f]. unfold rcol, perm_assign. cbn [permutations3 map fst snd].
  do 6 (destruct j as [|j]; [cbn [nth]; f_equal; apply radial_ext; try reflexivity; intros i; cbv beta iota zeta; ring|]). lia.
Qed.
Lemma acol_nth E p j : (j < 6)%nat ->
  nth j (acol E p) 0 = snd p * angular_value E (fst (fst p)) (snd (fst p)) (nth j perm_assign (0, 0, 0)%nat).
Proof.
  intros H. destruct p as [[[[a b] c] d] f]. unfold acol, perm_assign. cbn [permutations3 map fst snd].
  do 6 (destruct j as [|j]; [cbn [nth]; f_equal; apply angular_ext; intros i; cbv beta iota zeta; ring|]). lia.
Qed.

Lemma row_rad E w stop ts fac j : (j < 6)%nat ->
  row_sum (map (rcol E w stop) (combine ts fac)) j = weighted_rad E ts fac w stop (nth j perm_assign (0, 0, 0)%nat).
Proof.
  intros H. unfold row_sum, weighted_rad. rewrite map_map. induction (combine ts fac) as [|p l IH]; [reflexivity|].
  cbn [map rsum fold_right]. rewrite rcol_nth by assumption. f_equal. exact IH.
Qed.
Lemma row_ang E ts ds fac j : (j < 6)%nat ->
  row_sum (map (acol E) (combine (combine ts ds) fac)) j = weighted_ang E ts ds fac (nth j perm_assign (0, 0, 0)%nat).
Proof.
  intros H. unfold row_sum, weighted_ang. rewrite map_map. induction (combine (combine ts ds) fac) as [|p l IH]; [reflexivity|].
  cbn [map rsum fold_right]. rewrite acol_nth by assumption. f_equal. exact IH.
Qed.

Lemma contract_ok E w stop rts rfac ats ds afac :
  contract (map (rcol E w stop) (combine rts rfac)) (map (acol E) (combine (combine ats ds) afac))
  = sum_over assignments (fun s => weighted_rad E rts rfac w stop s * weighted_ang E ats ds afac s).
Proof.
  unfold contract. cbn [seq map rsum fold_right sum_over assignments].
  rewrite !row_rad, !row_ang by lia. cbn [nth perm_assign]. ring.
Qed.

Lemma s_term_ok E rt w at_ afac rfac stop : standard E -> e_self E = false ->
  (length (rad_list rt) <= length rfac)%nat -> (length (ang_list at_) <= length afac)%nat ->
  (length (ang_list at_) <= length (div_list at_))%nat ->
  s_term E rt w at_ afac rfac stop = Ok (S_value E rt w at_ afac rfac stop).
Proof.
  intros Hs Hself Lr La Ld. unfold s_term. rewrite Hself.
  assert (Hc : e_complex E = false) by apply Hs.
  pose proof (rad_columns_ok E w stop Hc (rad_list rt) [] rfac Lr) as HR. cbn [app] in HR.
  pose proof (ang_columns_ok E Hs (ang_list at_) [] [] (div_list at_) afac eq_refl Ld La) as HA. cbn [app] in HA.
  unfold S_value. rewrite <- contract_ok.
  change (Z.of_nat (@length R [])) with 0%Z in *.
  destruct at_, rt; cbn [determiner rad_list ang_list div_list] in *; rewrite ?HA; cbn [bind]; rewrite ?HR; cbn [bind]; rewrite ?HA; reflexivity.
Qed.

(** ** Relabelling *)
Definition comp (s t : nat * nat * nat) : nat * nat * nat :=
  let '(p, q, r) := t in (perm_of s p, perm_of s q, perm_of s r).

Lemma radial_relabel s E t w stop u : radial_value (relabel s E) t w stop u = radial_value E t w stop (comp s u).
Proof. destruct t as [[a b] c], u as [[p q] r]. reflexivity. Qed.
Lemma in_assignments s : In s assignments ->
  s = (1,2,3)%nat \/ s = (1,3,2)%nat \/ s = (2,1,3)%nat \/ s = (2,3,1)%nat \/ s = (3,1,2)%nat \/ s = (3,2,1)%nat.
Proof. cbn. intuition. Qed.
Lemma signed_relabel s E : standard E -> In s assignments -> signed_m_sum (relabel s E) = signed_m_sum E.
Proof.
  intros ((c1 & c2 & c3 & Hc) & (m1 & m2 & m3 & Hm) & _) Hin. unfold signed_m_sum, relabel. cbn. rewrite Hc, Hm.
  apply in_assignments in Hin. decompose [or] Hin; subst; cbn; lia.
Qed.
Lemma angular_relabel s E t d u : standard E -> In s assignments ->
  angular_value (relabel s E) t d u = angular_value E t d (comp s u).
Proof.
  intros H1 H2. destruct t as [[a b] c], u as [[p q] r]. unfold angular_value. rewrite signed_relabel by assumption. reflexivity.
Qed.
Lemma standard_relabel s E : standard E -> standard (relabel s E).
Proof.
  intros ((c1 & c2 & c3 & Hc) & (m1 & m2 & m3 & Hm) & H). destruct s as [[p q] r].
  split; [|split; [|exact H]]; cbn; rewrite ?Hc, ?Hm; do 3 eexists; reflexivity.
Qed.
Lemma weighted_rad_relabel s E ts fac w stop u : weighted_rad (relabel s E) ts fac w stop u = weighted_rad E ts fac w stop (comp s u).
Proof. unfold weighted_rad. induction (combine ts fac) as [|p l IH]; [reflexivity|]. cbn [fold_right]. rewrite IH, radial_relabel. reflexivity. Qed.
Lemma weighted_ang_relabel s E ts ds fac u : standard E -> In s assignments ->
  weighted_ang (relabel s E) ts ds fac u = weighted_ang E ts ds fac (comp s u).
Proof. intros H1 H2. unfold weighted_ang. induction (combine (combine ts ds) fac) as [|p l IH]; [reflexivity|]. cbn [fold_right]. rewrite IH, angular_relabel by assumption. reflexivity. Qed.

Lemma S_relabel s E rt w at_ afac rfac stop : standard E -> In s assignments ->
  S_value (relabel s E) rt w at_ afac rfac stop = S_value E rt w at_ afac rfac stop.
Proof.
  intros H1 H2. unfold S_value. cbn [sum_over assignments fold_right]. rewrite !weighted_rad_relabel, !weighted_ang_relabel by assumption.
  apply in_assignments in H2. decompose [or] H2; subst; cbn [comp perm_of]; ring.
Qed.

Lemma radial_sym E t w stop s : In s assignments -> radial_value E (t, t, t) w stop s = radial_value E (t, t, t) w stop (1, 2, 3)%nat.
Proof.
  intros H. apply radial_ext; try reflexivity. intros i. apply in_assignments in H. decompose [or] H; subst; cbv beta iota zeta; ring.
Qed.
Lemma angular_sym E t d s : In s assignments -> angular_value E (t, t, t) d s = angular_value E (t, t, t) d (1, 2, 3)%nat.
Proof.
  intros H. apply angular_ext. intros i. apply in_assignments in H. decompose [or] H; subst; cbv beta iota zeta; ring.
Qed.
Lemma comp_id s : comp s (1, 2, 3)%nat = s.
Proof. destruct s as [[p q] r]. reflexivity. Qed.

Lemma coupling_rot_relabel s E stop : standard E -> e_self E = false -> In s assignments ->
  coupling_rot (relabel s E) stop = coupling_rot E stop.
Proof.
  intros H1 H2 H3. pose proof (standard_relabel s E H1) as H1'.
  assert (Hself : e_self (relabel s E) = false) by exact H2.
  assert (HS : forall rt w at_ afac rfac,
    (length (rad_list rt) <= length rfac)%nat -> (length (ang_list at_) <= length afac)%nat ->
    (length (ang_list at_) <= length (div_list at_))%nat ->
    s_term (relabel s E) rt w at_ afac rfac stop = s_term E rt w at_ afac rfac stop).
  { intros. rewrite !s_term_ok by assumption. rewrite S_relabel by assumption. reflexivity. }
  assert (HR : forall t w, rad_int (relabel s E) (t, t, t) w stop = rad_int E (t, t, t) w stop).
  { intros. rewrite !rad_int_ok by (apply H1 || apply H1'). rewrite radial_relabel, comp_id, radial_sym by assumption. reflexivity. }
  assert (HA : forall t, ang_int (relabel s E) false (t, t, t) = ang_int E false (t, t, t)).
  { intros. rewrite !ang_int_ok by assumption. rewrite angular_relabel, comp_id, angular_sym by assumption. reflexivity. }
  assert (K1 : kappa_1 (relabel s E) stop = kappa_1 E stop).
  { unfold kappa_1. rewrite !HS by (cbn; lia). reflexivity. }
  assert (K2 : kappa_2 (relabel s E) stop = kappa_2 E stop).
  { unfold kappa_2. rewrite HR, HA. reflexivity. }
  assert (K3 : kappa_3 (relabel s E) stop = kappa_3 E stop).
  { unfold kappa_3. rewrite !HS by (cbn; lia). rewrite !HR, !HA. reflexivity. }
  assert (K4 : kappa_4 (relabel s E) stop = kappa_4 E stop).
  { unfold kappa_4. rewrite !HS by (cbn; lia). rewrite !HR, !HA. reflexivity. }
  unfold coupling_rot. rewrite K1, K2, K3, K4. reflexivity.
Qed.

(** ** Self-coupling *)
Lemma sum_ang_ok E l acc : standard E ->
  sum_ang E l acc = Ok (acc + fold_right (fun p a => angular_value E (fst p) (snd p) (1, 2, 3)%nat + a) 0 l).
Proof.
  intros H. revert acc. induction l as [|[t d] l IH]; intros acc; cbn [sum_ang fold_right fst snd]; [apply (f_equal (@Ok R)); ring|].
  rewrite ang_int_ok by assumption. cbn [bind]. rewrite IH. apply (f_equal (@Ok R)). ring.
Qed.
Lemma sum_rad_ok E l w stop acc : e_complex E = false ->
  sum_rad E l w stop acc = Ok (acc + fold_right (fun t a => radial_value E t w stop (1, 2, 3)%nat + a) 0 l).
Proof.
  intros H. revert acc. induction l as [|t l IH]; intros acc; cbn [sum_rad fold_right]; [apply (f_equal (@Ok R)); ring|].
  rewrite rad_int_ok by assumption. cbn [bind]. rewrite IH. apply (f_equal (@Ok R)). ring.
Qed.
Definition plain_ang E at_ : R :=
  fold_right (fun p a => angular_value E (fst p) (snd p) (1, 2, 3)%nat + a) 0 (combine (ang_list at_) (div_list at_)).
Definition plain_rad E rt w stop : R :=
  fold_right (fun t a => radial_value E t w stop (1, 2, 3)%nat + a) 0 (rad_list rt).

Lemma s_term_self E rt w at_ afac rfac stop : standard E -> e_self E = true ->
  s_term E rt w at_ afac rfac stop = Ok (6 * plain_rad E rt w stop * plain_ang E at_).
Proof.
  intros H1 H2. unfold s_term. rewrite H2.
  assert (HA : (match at_ with AMulti ts ds => sum_ang E (combine ts ds) 0 | ASingle t d => ang_int E d t end)
               = Ok (plain_ang E at_)).
  { destruct at_ as [t d|ts ds]; cbn; [rewrite ang_int_ok by assumption|rewrite sum_ang_ok by assumption];
      apply (f_equal (@Ok R)); unfold plain_ang; cbn; ring. }
  assert (HR : (match rt with RMulti ts => sum_rad E ts w stop 0 | RSingle t => rad_int E t w stop end)
               = Ok (plain_rad E rt w stop)).
  { destruct rt as [t|ts]; cbn; [rewrite rad_int_ok by apply H1|rewrite sum_rad_ok by apply H1];
      apply (f_equal (@Ok R)); unfold plain_rad; cbn; ring. }
  rewrite HA. cbn [bind]. destruct (Req_EM_T (plain_ang E at_) 0) as [->|N]; [apply (f_equal (@Ok R)); ring|].
  rewrite HR. cbn [bind]. apply (f_equal (@Ok R)). ring.
Qed.

Lemma standard_with_self b E : standard E -> standard (with_self b E).
Proof. intros H. exact H. Qed.

Lemma radial_identical E t w stop s : identical_modes E -> In s assignments ->
  radial_value E t w stop s = radial_value E t w stop (1, 2, 3)%nat.
Proof.
  intros [H _] Hs. apply radial_ext; try reflexivity. intros i. destruct t as [[a b] c]. apply in_assignments in Hs.
  decompose [or] Hs; subst; cbv beta iota zeta; rewrite ?(H _ 2%nat), ?(H _ 3%nat) by lia; ring.
Qed.
Lemma angular_identical E t d s : identical_modes E -> In s assignments ->
  angular_value E t d s = angular_value E t d (1, 2, 3)%nat.
Proof.
  intros [_ H] Hs. apply angular_ext. intros i. destruct t as [[a b] c]. apply in_assignments in Hs.
  decompose [or] Hs; subst; cbv beta iota zeta; rewrite ?(H _ 2%nat), ?(H _ 3%nat) by lia; ring.
Qed.
Lemma S_identical E rt w at_ afac rfac stop : identical_modes E ->
  S_value E rt w at_ afac rfac stop
  = 6 * weighted_rad E (rad_list rt) rfac w stop (1, 2, 3)%nat
      * weighted_ang E (ang_list at_) (div_list at_) afac (1, 2, 3)%nat.
Proof.
  intros H.
  assert (HR : forall s, In s assignments -> weighted_rad E (rad_list rt) rfac w stop s = weighted_rad E (rad_list rt) rfac w stop (1, 2, 3)%nat).
  { intros s Hs. unfold weighted_rad. induction (combine (rad_list rt) rfac) as [|p l IH]; [reflexivity|]. cbn [fold_right].
    rewrite IH, radial_identical by assumption. reflexivity. }
  assert (HA : forall s, In s assignments -> weighted_ang E (ang_list at_) (div_list at_) afac s = weighted_ang E (ang_list at_) (div_list at_) afac (1, 2, 3)%nat).
  { intros s Hs. unfold weighted_ang. induction (combine (combine (ang_list at_) (div_list at_)) afac) as [|p l IH]; [reflexivity|]. cbn [fold_right].
    rewrite IH, angular_identical by assumption. reflexivity. }
  unfold S_value. cbn [sum_over assignments fold_right].
  rewrite (HR (1,3,2)%nat), (HR (2,1,3)%nat), (HR (2,3,1)%nat), (HR (3,1,2)%nat), (HR (3,2,1)%nat) by (cbn; tauto).
  rewrite (HA (1,3,2)%nat), (HA (2,1,3)%nat), (HA (2,3,1)%nat), (HA (3,1,2)%nat), (HA (3,2,1)%nat) by (cbn; tauto). ring.
Qed.

(** ** Selection rule *)
Lemma angular_integral_rule E ds c1 c2 c3 m1 m2 m3 div mul :
  angular_integral E ds (Some [m1; m2; m3]) false (ConjTuple [c1; c2; c3]) div mul
  = if ((if c1 then - m1 else m1) + (if c2 then - m2 else m2) + (if c3 then - m3 else m3) =? 0)%Z
    then (t <- theta_integral E ds div mul ; Ok (2 * PI * t))%res else Ok 0.
Proof. unfold angular_integral. cbn [adapt_conj]. cbn. rewrite phi_rule3. unfold conjugator. reflexivity. Qed.

Lemma ang_int_forbidden E div t : standard E -> signed_m_sum E <> 0%Z -> ang_int E div t = Ok 0.
Proof.
  intros Hs Hm. rewrite ang_int_ok by assumption. destruct t as [[a b] c]. unfold angular_value.
  destruct (Z.eqb_spec (signed_m_sum E) 0); [contradiction|reflexivity].
Qed.
Lemma angular_value_forbidden E t d s : signed_m_sum E <> 0%Z -> angular_value E t d s = 0.
Proof.
  intros Hm. destruct t as [[a b] c], s as [[p q] r]. unfold angular_value.
  destruct (Z.eqb_spec (signed_m_sum E) 0); [contradiction|reflexivity].
Qed.
Lemma s_term_forbidden E rt w at_ afac rfac stop : standard E -> signed_m_sum E <> 0%Z ->
  (length (rad_list rt) <= length rfac)%nat -> (length (ang_list at_) <= length afac)%nat ->
  (length (ang_list at_) <= length (div_list at_))%nat ->
  s_term E rt w at_ afac rfac stop = Ok 0.
Proof.
  intros Hs Hm L1 L2 L3. destruct (e_self E) eqn:Es.
  - rewrite s_term_self by assumption. apply (f_equal (@Ok R)).
    replace (plain_ang E at_) with 0; [ring|]. unfold plain_ang. induction (combine (ang_list at_) (div_list at_)) as [|p l IH]; [reflexivity|].
    cbn [fold_right]. rewrite <- IH, angular_value_forbidden by assumption. ring.
  - rewrite s_term_ok by assumption. apply (f_equal (@Ok R)). unfold S_value.
    assert (HA : forall s, weighted_ang E (ang_list at_) (div_list at_) afac s = 0).
    { intros s. unfold weighted_ang. induction (combine (combine (ang_list at_) (div_list at_)) afac) as [|p l IH]; [reflexivity|].
      cbn [fold_right]. rewrite IH, angular_value_forbidden by assumption. ring. }
    cbn [sum_over assignments fold_right]. rewrite !HA. ring.
Qed.
Lemma coupling_forbidden E stop : standard E -> signed_m_sum E <> 0%Z ->
  coupling_rot E stop = Ok {| cc_1 := 0; cc_2 := 0; cc_3 := 0; cc_4 := 0; cc_tot := 0 |}.
Proof.
  intros Hs Hm.
  assert (K1 : kappa_1 E stop = Ok 0).
  { unfold kappa_1. rewrite !s_term_forbidden by (assumption || (cbn; lia)). cbn [bind]. apply (f_equal (@Ok R)). ring. }
  assert (K2 : kappa_2 E stop = Ok 0).
  { unfold kappa_2. rewrite rad_int_ok by apply Hs. cbn [bind]. rewrite ang_int_forbidden by assumption. cbn [bind]. apply (f_equal (@Ok R)). ring. }
  assert (K3 : kappa_3 E stop = Ok 0).
  { unfold kappa_3. rewrite !s_term_forbidden by (assumption || (cbn; lia)). cbn [bind]. rewrite !rad_int_ok by apply Hs. cbn [bind].
    rewrite !ang_int_forbidden by assumption. cbn [bind]. apply (f_equal (@Ok R)). ring. }
  assert (K4 : kappa_4 E stop = Ok 0).
  { unfold kappa_4. rewrite !s_term_forbidden by (assumption || (cbn; lia)). cbn [bind]. rewrite !rad_int_ok by apply Hs. cbn [bind].
    rewrite !ang_int_forbidden by assumption. cbn [bind]. apply (f_equal (@Ok R)). ring. }
  unfold coupling_rot. rewrite K1. cbn [bind]. rewrite K2. cbn [bind]. rewrite K3. cbn [bind]. rewrite K4. cbn [bind].
  apply (f_equal (@Ok cc_result)). f_equal. ring.
Qed.

(** ** Outcome of the whole coefficient *)
Definition ok {A} (r : res A) : Prop := exists a, r = Ok a.
Lemma s_term_total E rt w at_ afac rfac stop : standard E ->
  (length (rad_list rt) <= length rfac)%nat -> (length (ang_list at_) <= length afac)%nat ->
  (length (ang_list at_) <= length (div_list at_))%nat ->
  ok (s_term E rt w at_ afac rfac stop).
Proof.
  intros Hs L1 L2 L3. destruct (e_self E) eqn:Es; [rewrite s_term_self by assumption|rewrite s_term_ok by assumption]; eexists; reflexivity.
Qed.
Ltac step_ok :=
  match goal with
  | Hs : standard ?E |- context [s_term ?E ?rt ?w ?a ?af ?rf ?st] =>
      let v := fresh "v" in let Hv := fresh "Hv" in
      destruct (s_term_total E rt w a af rf st Hs) as [v Hv]; [cbn; lia..|]; rewrite Hv; cbn [bind]; clear Hv
  | Hs : standard ?E |- context [rad_int ?E ?t ?w ?st] => rewrite (rad_int_ok E t w st) by apply Hs; cbn [bind]
  | Hs : standard ?E |- context [ang_int ?E ?d ?t] => rewrite (ang_int_ok E d t) by apply Hs; cbn [bind]
  end.
Lemma coupling_total E stop : standard E -> ok (coupling_rot E stop).
Proof.
  intros Hs. unfold coupling_rot.
  assert (ok (kappa_1 E stop)) as [v1 ->]. { unfold kappa_1. repeat step_ok. eexists; reflexivity. }
  assert (ok (kappa_2 E stop)) as [v2 ->]. { unfold kappa_2. repeat step_ok. eexists; reflexivity. }
  assert (ok (kappa_3 E stop)) as [v3 ->]. { unfold kappa_3. repeat step_ok. eexists; reflexivity. }
  assert (ok (kappa_4 E stop)) as [v4 ->]. { unfold kappa_4. repeat step_ok. eexists; reflexivity. }
  cbn [bind]. eexists; reflexivity.
Qed.

Lemma rad_int_complex E t w stop : e_complex E = true -> rad_int E t w stop = Exc AttributeError.
Proof. intros H. destruct t as [[a b] c]. unfold rad_int, radint. rewrite H. reflexivity. Qed.
Lemma kappa_2_complex E stop : e_complex E = true -> kappa_2 E stop = Exc AttributeError.
Proof. intros H. unfold kappa_2. rewrite rad_int_complex by assumption. reflexivity. Qed.
Lemma coupling_complex E stop : e_complex E = true -> ~ ok (coupling_rot E stop).
Proof.
  intros H [v Hv]. unfold coupling_rot in Hv. destruct (kappa_1 E stop); try discriminate. cbn [bind] in Hv.
  rewrite kappa_2_complex in Hv by assumption. discriminate.
Qed.

(** ** Profile *)
Lemma length_upd {A} (l : list A) i a : length (upd l i a) = length l.
Proof. revert i. induction l as [|h l IH]; intros [|i]; cbn; auto. Qed.
Lemma nth_upd {A} (l : list A) i j a d : (i < length l)%nat -> nth j (upd l i a) d = if Nat.eq_dec i j then a else nth j l d.
Proof.
  revert i j. induction l as [|h l IH]; intros [|i] [|j] H; cbn [length] in H; try lia.
  - reflexivity.
  - reflexivity.
  - reflexivity.
  - cbn [upd nth]. rewrite IH by lia. destruct (Nat.eq_dec i j), (Nat.eq_dec (S i) (S j)); congruence || lia.
Qed.
Definition tot (E : cenv) (stop : nat) : cc_result :=
  match coupling_rot E stop with Ok r => r | _ => {| cc_1 := 0; cc_2 := 0; cc_3 := 0; cc_4 := 0; cc_tot := 0 |} end.
(** the arrays are as long as the grid; entries below [k] other than 0 are the partial coefficients,
    the others still zero *)
Definition prof_inv E (k : nat) (p : cc_profile) : Prop :=
  (length (p_1 p) = e_n E /\ length (p_2 p) = e_n E /\ length (p_3 p) = e_n E /\ length (p_4 p) = e_n E /\ length (p_tot p) = e_n E) /\
  forall j, (j < e_n E)%nat ->
    let r := if ((1 <=? j) && (j <? k))%nat then tot E (j + 1) else {| cc_1 := 0; cc_2 := 0; cc_3 := 0; cc_4 := 0; cc_tot := 0 |} in
    nth j (p_1 p) 0 = cc_1 r /\ nth j (p_2 p) 0 = cc_2 r /\ nth j (p_3 p) 0 = cc_3 r /\ nth j (p_4 p) 0 = cc_4 r /\ nth j (p_tot p) 0 = cc_tot r.
Lemma prof_loop E (Hs : standard E) : forall n i p, (1 <= i)%nat -> (i + n <= e_n E)%nat -> prof_inv E i p ->
  exists q, loopn n (Z.of_nat i + 1) (fun i p => r <- coupling_rot E (Z.to_nat i) ; Ok (store_profile p (Z.to_nat (i - 1)) r))%res p = Ok q
            /\ prof_inv E (i + n) q.
Proof.
  induction n as [|n IH]; intros i p Hi Hn Hp; [exists p; rewrite Nat.add_0_r; split; [reflexivity|assumption]|].
  cbn [loopn]. replace (Z.to_nat (Z.of_nat i + 1)) with (i + 1)%nat by lia.
  destruct (coupling_total E (i + 1) Hs) as [r Hr]. rewrite Hr. cbn [bind].
  replace (Z.to_nat (Z.of_nat i + 1 - 1)) with i by lia.
  replace (Z.of_nat i + 1 + 1)%Z with (Z.of_nat (S i) + 1)%Z by lia.
  replace (i + S n)%nat with (S i + n)%nat by lia.
  apply IH; [lia|lia|]. destruct Hp as ((L1 & L2 & L3 & L4 & L5) & Hp). split; [cbn; rewrite !length_upd; auto|].
  intros j Hj. specialize (Hp j Hj). cbv zeta in *. unfold store_profile. cbn [p_1 p_2 p_3 p_4 p_tot]. rewrite !nth_upd by lia.
  destruct (Nat.eq_dec i j) as [<-|N].
  - assert (((1 <=? i) && (i <? S i))%nat = true) as ->.
    { apply andb_true_intro. split; [apply Nat.leb_le; lia|apply Nat.ltb_lt; lia]. }
    unfold tot. rewrite Hr. auto.
  - replace (j <? S i)%nat with (j <? i)%nat; [exact Hp|]. destruct (Nat.ltb_spec j i), (Nat.ltb_spec j (S i)); lia || reflexivity.
Qed.
Lemma profile_ok E : standard E -> (1 <= e_n E)%nat -> exists q, coupling_profile E = Ok q /\ prof_inv E (e_n E) q.
Proof.
  intros Hs Hn. unfold coupling_profile, for_. replace (Z.to_nat (Z.of_nat (e_n E) + 1 - 2)) with (e_n E - 1)%nat by lia.
  destruct (prof_loop E Hs (e_n E - 1) 1 {| p_1 := repeat 0 (e_n E); p_2 := repeat 0 (e_n E); p_3 := repeat 0 (e_n E); p_4 := repeat 0 (e_n E); p_tot := repeat 0 (e_n E) |}) as (q & Hq & Hi); [lia|lia| |].
  - split; [cbn; rewrite repeat_length; auto|]. intros j Hj. replace ((1 <=? j) && (j <? 1))%nat with false by (destruct j as [|[|j]]; reflexivity).
    cbn. assert (HZ : forall m k, nth k (repeat 0 m) 0 = 0) by (intros m; induction m; intros [|k]; cbn; auto).
    rewrite HZ. auto.
  - exists q. split; [exact Hq|]. replace (1 + (e_n E - 1))%nat with (e_n E) in Hi by lia. exact Hi.
Qed.

(** ** Norms *)
Lemma trad_ok E mode h r : standard E ->
  trad_contrib E mode h r = Ok (volume_value E mode r h h false).
Proof.
  intros Hs. unfold trad_contrib, angular_integral. cbn [bind]. rewrite theta_ok by apply Hs. cbn [bind].
  unfold radint. replace (e_complex E) with false by (symmetry; apply Hs). cbn [bind]. apply (f_equal (@Ok R)). unfold volume_value.
  f_equal.
  - f_equal. apply regular_ext. intros i. unfold over_sin, ang_prod. cbn. ring.
  - unfold tab. rewrite !firstn_all2 by (rewrite map_length, seq_length; lia). f_equal. apply map_ext. intros i.
    unfold pow2C, Re. destruct (e_rad E r mode i * e_rad E r mode i)%C as [u v]. cbn. ring.
Qed.
Lemma classic_ok E mode : standard E ->
  classic_norm E mode = Ok (2 * PI * (volume_value E mode RXZ1 Hr Hr false + volume_value E mode RXZ2c Ht Ht false + volume_value E mode RXZ2c Hp Hp false)).
Proof. intros Hs. unfold classic_norm. rewrite !trad_ok by assumption. cbn [bind]. apply (f_equal (@Ok R)). ring. Qed.
Lemma energy_ok E mode : standard E -> 
  let N := volume_value E mode RXZ1 Hr Hr false + volume_value E mode RXZ2c Ht Ht false + volume_value E mode RXZ2c Hp Hp false in
  let Cor := volume_value E mode RXZ2c Ht Hp true in
  let b := (2 * e_corot E mode * N + 4 * e_surf E * Cor) * (e_normrho E * e_R E ^ 5) in
  b_a_energy E mode = Ok (2 * PI * N, 2 * PI * b, 2 * PI * (e_corot E mode * b)).
Proof.
  intros Hs N Cor b. unfold b_a_energy. rewrite classic_ok by assumption. cbn [bind].
  unfold angular_integral. cbn [bind]. rewrite theta_ok by apply Hs. cbn [bind].
  unfold radint. replace (e_complex E) with false by (symmetry; apply Hs). cbn [bind].
  match goal with |- context [e_integ E false (firstn ?n ?l) ?x * (2 * PI * ?t) * 8] =>
    assert (HC : e_integ E false (firstn n l) x * (2 * PI * t) = Cor) end.
  { unfold Cor, volume_value. rewrite Rmult_comm. f_equal.
    - f_equal. apply regular_ext. intros i. unfold over_sin, ang_prod. cbn. ring.
    - unfold tab. rewrite !firstn_all2 by (rewrite map_length, seq_length; lia). f_equal. apply map_ext. intros i.
      unfold pow2C, Re. destruct (e_rad E RXZ2c mode i * e_rad E RXZ2c mode i)%C as [u v]. cbn. ring. }
  rewrite HC. fold N. apply (f_equal (@Ok (R * R * R))). unfold b. f_equal; [f_equal|]; ring.
Qed.

(** ** Scaling *)
Lemma firstn_map_scale n a f l : firstn n (map (fun i : nat => a * f i) l) = map (Rmult a) (firstn n (map f l)).
Proof. rewrite <- firstn_map, map_map. reflexivity. Qed.
Lemma radial_scale a E t w stop s : homogeneous (e_integ E) -> (2 <= stop)%nat -> (2 <= e_n E)%nat -> In s assignments ->
  radial_value (scale_modes a E) t w stop s = a 1%nat * a 2%nat * a 3%nat * radial_value E t w stop s.
Proof.
  intros H L1 L2 Hs. destruct t as [[f1 f2] f3]. destruct s as [[p q] r]. unfold radial_value. cbn [scale_modes e_integ e_n e_x e_rad].
  rewrite <- H by (rewrite !firstn_length, !map_length, !seq_length; lia). f_equal. rewrite <- firstn_map_scale. f_equal. apply map_ext. intros i.
  assert (Hp : a p * a q * a r = a 1%nat * a 2%nat * a 3%nat).
  { apply in_assignments in Hs. decompose [or] Hs; match goal with HH : (_, _, _) = _ |- _ => injection HH as -> -> ->; ring end. }
  rewrite <- Hp. 
  replace (RtoC (a p) * e_rad E f1 p i * (RtoC (a q) * e_rad E f2 q i) * (RtoC (a r) * e_rad E f3 r i))%C
    with (RtoC (a p * a q * a r) * (e_rad E f1 p i * e_rad E f2 q i * e_rad E f3 r i))%C by (rewrite !RtoC_mult; ring).
  destruct (e_rad E f1 p i * e_rad E f2 q i * e_rad E f3 r i)%C as [u v]. unfold Re. cbn. ring.
Qed.
Lemma angular_scale a E t d s : angular_value (scale_modes a E) t d s = angular_value E t d s.
Proof. reflexivity. Qed.
Lemma s_term_scale a E rt w at_ afac rfac stop : standard E -> homogeneous (e_integ E) -> (2 <= stop)%nat -> (2 <= e_n E)%nat ->
  (length (rad_list rt) <= length rfac)%nat -> (length (ang_list at_) <= length afac)%nat ->
  (length (ang_list at_) <= length (div_list at_))%nat ->
  exists v, s_term E rt w at_ afac rfac stop = Ok v /\ s_term (scale_modes a E) rt w at_ afac rfac stop = Ok (a 1%nat * a 2%nat * a 3%nat * v).
Proof.
  intros Hs Hh HS HN L1 L2 L3. assert (Hs' : standard (scale_modes a E)) by exact Hs. set (c := a 1%nat * a 2%nat * a 3%nat).
  destruct (e_self E) eqn:Es.
  - rewrite !s_term_self by assumption. eexists; split; [reflexivity|]. apply (f_equal (@Ok R)).
    change (plain_ang (scale_modes a E) at_) with (plain_ang E at_).
    replace (plain_rad (scale_modes a E) rt w stop) with (c * plain_rad E rt w stop); [ring|].
    unfold plain_rad. induction (rad_list rt) as [|t l IH]; cbn [fold_right]; [ring|]. rewrite radial_scale by (assumption || (cbn; tauto)).
    rewrite <- IH by (cbn in L1; lia). unfold c. ring.
  - rewrite !s_term_ok by assumption. eexists; split; [reflexivity|]. apply (f_equal (@Ok R)). unfold S_value.
    assert (HW : forall s, In s assignments -> weighted_rad (scale_modes a E) (rad_list rt) rfac w stop s = c * weighted_rad E (rad_list rt) rfac w stop s).
    { intros s Hin. unfold weighted_rad. induction (combine (rad_list rt) rfac) as [|p l IH]; cbn [fold_right]; [ring|].
      rewrite IH, radial_scale by assumption. unfold c. ring. }
    cbn [sum_over assignments fold_right]. rewrite !HW by (cbn; tauto).
    change (weighted_ang (scale_modes a E)) with (weighted_ang E). ring.
Qed.
Ltac step_scale :=
  match goal with
  | Hs : standard ?E, Hh : homogeneous _, HS : (2 <= ?st)%nat, HN : (2 <= e_n _)%nat |- context [s_term (scale_modes ?a ?E) ?rt ?w ?at_ ?af ?rf ?st] =>
      let v := fresh "v" in let H1 := fresh in let H2 := fresh in
      destruct (s_term_scale a E rt w at_ af rf st Hs Hh HS HN) as (v & H1 & H2); [cbn; lia..|];
      rewrite H1, H2; cbn [bind]; clear H1 H2
  end.
Lemma coupling_scale a E stop : standard E -> homogeneous (e_integ E) -> (2 <= stop)%nat -> (2 <= e_n E)%nat ->
  exists r, coupling_rot E stop = Ok r /\ exists r', coupling_rot (scale_modes a E) stop = Ok r' /\
    cc_1 r' = a 1%nat * a 2%nat * a 3%nat * cc_1 r /\ cc_2 r' = a 1%nat * a 2%nat * a 3%nat * cc_2 r /\
    cc_3 r' = a 1%nat * a 2%nat * a 3%nat * cc_3 r /\ cc_4 r' = a 1%nat * a 2%nat * a 3%nat * cc_4 r /\
    cc_tot r' = a 1%nat * a 2%nat * a 3%nat * cc_tot r.
Proof.
  intros Hs Hh HS HN. assert (Hs' : standard (scale_modes a E)) by exact Hs.
  assert (HR : forall t w, rad_int (scale_modes a E) t w stop = Ok (a 1%nat * a 2%nat * a 3%nat * radial_value E t w stop (1,2,3)%nat)).
  { intros. rewrite rad_int_ok by apply Hs. rewrite radial_scale by (assumption || (cbn; tauto)). reflexivity. }
  assert (HA : forall d t, ang_int (scale_modes a E) d t = ang_int E d t) by (intros; rewrite !ang_int_ok by assumption; reflexivity).
  assert (K1 : exists v, kappa_1 E stop = Ok v /\ kappa_1 (scale_modes a E) stop = Ok (a 1%nat * a 2%nat * a 3%nat * v)).
  { unfold kappa_1. cbn [scale_modes e_P e_G1 e_normP e_R].
    destruct (s_term_scale a E (RSingle (RDerXZ1, RDerXZ1, RDiverg)) (fun i => e_P E i * (e_G1 E i - 1)) (ASingle (Hr, Hr, Hr) false) [1] [1] stop Hs Hh HS HN) as (v1 & H1 & H1'); [cbn; lia..|].
    rewrite H1, H1'. cbn [bind]. repeat step_scale. eexists; split; [reflexivity|]. apply (f_equal (@Ok R)). field. }
  assert (K2 : exists v, kappa_2 E stop = Ok v /\ kappa_2 (scale_modes a E) stop = Ok (a 1%nat * a 2%nat * a 3%nat * v)).
  { unfold kappa_2. rewrite HR, HA, rad_int_ok, ang_int_ok by apply Hs. cbn [bind]. eexists; split; [reflexivity|]. apply (f_equal (@Ok R)).
    cbn [scale_modes e_P e_G1 e_normP e_R e_poly e_adder e_rho]. field. }
  assert (K3 : exists v, kappa_3 E stop = Ok v /\ kappa_3 (scale_modes a E) stop = Ok (a 1%nat * a 2%nat * a 3%nat * v)).
  { unfold kappa_3. cbn [scale_modes e_P e_G1 e_normP e_R]. repeat step_scale.
    rewrite !HR, !HA, !rad_int_ok, !ang_int_ok by apply Hs. cbn [bind]. eexists; split; [reflexivity|]. apply (f_equal (@Ok R)). field. }
  assert (K4 : exists v, kappa_4 E stop = Ok v /\ kappa_4 (scale_modes a E) stop = Ok (a 1%nat * a 2%nat * a 3%nat * v)).
  { unfold kappa_4. cbn [scale_modes e_rhon e_x e_g1 e_g2 e_g3 e_normrho e_R]. repeat step_scale.
    rewrite !HR, !HA, !rad_int_ok, !ang_int_ok by apply Hs. cbn [bind]. eexists; split; [reflexivity|]. apply (f_equal (@Ok R)). field. }
  destruct K1 as (v1 & E1 & E1'), K2 as (v2 & E2 & E2'), K3 as (v3 & E3 & E3'), K4 as (v4 & E4 & E4').
  eexists; split; [unfold coupling_rot; rewrite E1, E2, E3, E4; reflexivity|].
  eexists; split; [unfold coupling_rot; rewrite E1', E2', E3', E4'; reflexivity|]. cbn. repeat split; ring.
Qed.
