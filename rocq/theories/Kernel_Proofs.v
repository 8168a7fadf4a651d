(** * Lemmas for C105, C106: kernels of a profile run. *)
From Coq Require Import Reals List ZArith Bool Lia Lra Permutation.
From Coquelicot Require Import Complex.
From Verif Require Import Base Py Coupling_Model Coupling_Spec Coupling_Proofs Energy_Spec Energy_Proofs Kernel_Model Kernel_Spec.
Import ListNotations.
Local Open Scope R_scope.

(** ** Keys of the symmetrised rows *)
Lemma triple_refl {A} (eqb : A -> A -> bool) (t : A * A * A) : (forall a, eqb a a = true) -> triple_eqb eqb t t = true.
Proof. destruct t as [[a b] c]. intros H. cbn. rewrite !H. reflexivity. Qed.
Lemma rterm_true a b : rterm_beq a b = true -> a = b. Proof. apply internal_rterm_dec_bl. Qed.
Lemma aterm_true a b : aterm_beq a b = true -> a = b. Proof. apply internal_aterm_dec_bl. Qed.
Lemma triple_true {A} (eqb : A -> A -> bool) (s t : A * A * A) : (forall a b, eqb a b = true -> a = b) -> triple_eqb eqb s t = true -> s = t.
Proof.
  destruct s as [[a b] c], t as [[a' b'] c']. intros H E. cbn in E. apply andb_prop in E. destruct E as [E E3]. apply andb_prop in E. destruct E as [E1 E2].
  rewrite (H _ _ E1), (H _ _ E2), (H _ _ E3). reflexivity.
Qed.
Lemma append_keys {K} (eqb : K -> K -> bool) k i : forall d, (forall a, eqb a a = true) -> (forall a b, eqb a b = true -> a = b) ->
  (forall x, In x (map fst (dict_append eqb d k i)) <-> x = k \/ In x (map fst d)) /\ (NoDup (map fst d) -> NoDup (map fst (dict_append eqb d k i))).
Proof.
  intros d Hr Ht. induction d as [|[k' l] d [IH1 IH2]]; cbn [dict_append map fst].
  - split; [intros x; cbn; intuition congruence|]. intros _. constructor; [cbn; tauto|constructor].
  - destruct (eqb k k') eqn:E; cbn [map fst].
    + apply Ht in E. subst k'. split; [|tauto]. intros x. cbn. intuition congruence.
    + split.
      * intros x. cbn [In]. rewrite IH1. tauto.
      * intros N. inversion N; subst. constructor; [|apply IH2; assumption]. rewrite IH1. intros [-> | H]; [rewrite Hr in E; discriminate|contradiction].
Qed.
Lemma mapping_keys {K} (eqb : K -> K -> bool) : (forall a, eqb a a = true) -> (forall a b, eqb a b = true -> a = b) -> forall l d i,
  let r := fst (fold_left (fun s tup => (dict_append eqb (fst s) tup (snd s), S (snd s))) l (d, i)) in
  (forall x, In x (map fst r) <-> In x l \/ In x (map fst d)) /\ (NoDup (map fst d) -> NoDup (map fst r)).
Proof.
  intros Hr Ht. induction l as [|k l IH]; intros d i; cbn [fold_left fst snd].
  - cbv zeta. split; [intros x; cbn [In]; tauto|tauto].
  - cbv zeta. specialize (IH (dict_append eqb d k i) (S i)). cbv zeta in IH. destruct IH as [I1 I2]. destruct (append_keys eqb k i d Hr Ht) as [A1 A2].
    split; [intros x; rewrite I1, A1; cbn [In]; intuition congruence|auto].
Qed.
Lemma perm_keys_spec {A} (eqb : A -> A -> bool) (t : A * A * A) : (forall a, eqb a a = true) -> (forall a b, eqb a b = true -> a = b) ->
  NoDup (perm_keys eqb t) /\ forall k, In k (perm_keys eqb t) <-> In k (permutations3 t).
Proof.
  intros Hr Ht. unfold perm_keys, symmetry_mapping.
  destruct (mapping_keys (triple_eqb eqb) (fun a => triple_refl eqb a Hr) (fun a b => triple_true eqb a b Ht) (permutations3 t) [] 0) as [H1 H2].
  split; [apply H2; constructor|]. intros k. rewrite H1. cbn. tauto.
Qed.
Definition as_list {A} (t : A * A * A) : list A := let '(a, b, c) := t in [a; b; c].
Lemma perm3_iff {A} (t k : A * A * A) : In k (permutations3 t) <-> Permutation (as_list t) (as_list k).
Proof.
  destruct t as [[a b] c], k as [[x y] z]. cbn [permutations3 as_list In]. split.
  - intros H. repeat destruct H as [H | H]; try (injection H as <- <- <-); try contradiction.
    + apply Permutation_refl.
    + apply perm_skip, perm_swap.
    + apply perm_swap.
    + change [b; c; a] with ([b; c] ++ [a]). change [a; b; c] with ([a] ++ [b; c]). apply Permutation_app_comm.
    + change [a; b; c] with ([a; b] ++ [c]). change [c; a; b] with ([c] ++ [a; b]). apply Permutation_app_comm.
    + exact (Permutation_rev [a; b; c]).
  - intros P. destruct (Permutation_vs_cons_inv P) as (l1 & l2 & E). 
    assert (C : (x = a /\ Permutation [b; c] [y; z]) \/ (x = b /\ Permutation [a; c] [y; z]) \/ (x = c /\ Permutation [a; b] [y; z])).
    { assert (Permutation (x :: l1 ++ l2) (x :: [y; z])).
      { eapply Permutation_trans; [apply Permutation_middle|]. rewrite <- E. exact P. }
      apply Permutation_cons_inv in H.
      destruct l1 as [|u [|v [|w l1]]]; cbn in E; inversion E; subst; cbn in H; auto. destruct l1; discriminate. }
    destruct C as [[-> Q] | [[-> Q] | [-> Q]]]; apply Permutation_length_2_inv in Q; destruct Q as [Q | Q]; injection Q as -> ->; tauto.
Qed.
Lemma place_in {A} (t : A * A * A) s : In s assignments -> In (place t s) (permutations3 t).
Proof. destruct t as [[a b] c]. intros H. cbn in H. repeat destruct H as [<- | H]; cbn; tauto. Qed.
Lemma row_map {A} (eqb : A -> A -> bool) (g : A * A * A -> nat -> C) keys k : (forall a, eqb a a = true) -> (forall a b, eqb a b = true -> a = b) ->
  In k keys -> row eqb (map (fun key => (key, g key)) keys) k = g k.
Proof.
  intros Hr Ht. induction keys as [|k' l IH]; cbn [map row]; [intros []|]. intros [-> | H].
  - rewrite triple_refl by exact Hr. reflexivity.
  - destruct (triple_eqb eqb k' k) eqn:E; [apply triple_true in E; [|exact Ht]; subst; reflexivity|auto].
Qed.

(** ** Radial rows and radial integrals *)
Lemma rad_product_place E t s i : In s assignments -> rad_product E (place t s) i = rprod E t s i.
Proof. destruct t as [[a b] c]. intros H. cbn in H. repeat destruct H as [<- | H]; try contradiction; unfold rad_product, rprod; cbn [place]; ring. Qed.
Lemma Ix_ext_in E stop F G : (forall i, (i < e_n E)%nat -> F i = G i) -> Ix E stop F = Ix E stop G.
Proof. intros H. unfold Ix. f_equal. f_equal. apply map_ext_in. intros i K. apply in_seq in K. apply H. lia. Qed.
Definition scale_of (K : kenv) (ad : nat -> R) (f : R) (ps : list profile) (i : nat) : R :=
  fold_left (fun v p => v * profile_value K ad p i) ps (f * (e_x (k_E K) i * e_R (k_E K)) ^ 3 / k_energy K).
Lemma Re_mul z a : Re (z * RtoC a)%C = Re z * a. Proof. destruct z; cbn. ring. Qed.
Lemma log_row K ad (sym : bool) t f ps stop s w c : let E := k_E K in good E stop ->
  In s (if sym then assignments else [(1, 2, 3)%nat]) ->
  (forall i, (i < e_n E)%nat -> scale_of K ad f ps i / e_x E i = c * (w i * e_x E i ^ 2)) ->
  log_integral E stop (row rterm_beq (t_rows (radial_kernel_term K ad sym t f ps)) (place t s)) = c * radial_value E t w stop s.
Proof.
  intros E HG HI HW. assert (HA : In s assignments) by (destruct sym; [exact HI|destruct HI as [<- | []]; cbn; tauto]).
  assert (HR : forall i, Re (row rterm_beq (t_rows (radial_kernel_term K ad sym t f ps)) (place t s) i) = Re (rprod E t s i) * scale_of K ad f ps i).
  { intros i. unfold radial_kernel_term. destruct sym; cbn [t_rows].
    - rewrite (row_map rterm_beq (fun key i => RtoC (Re (rad_product (k_E K) key i) * fold_left (fun v p => v * profile_value K ad p i) ps (f * (e_x (k_E K) i * e_R (k_E K)) ^ 3 / k_energy K)))).
      + rewrite rad_product_place by exact HA. reflexivity.
      + apply rterm_beq_refl.
      + apply rterm_true.
      + apply (perm_keys_spec rterm_beq t rterm_beq_refl rterm_true). apply place_in, HA.
    - destruct HI as [<- | []]. replace (place t (1, 2, 3)%nat) with t by (destruct t as [[? ?] ?]; reflexivity).
      cbn [row]. rewrite triple_refl by apply rterm_beq_refl. rewrite Re_mul. destruct t as [[? ?] ?]; reflexivity. }
  rewrite radial_Ix. unfold log_integral.
  change (Ix E stop (fun i => Re (row rterm_beq (t_rows (radial_kernel_term K ad sym t f ps)) (place t s) i) / e_x E i)
          = c * Ix E stop (fun i => Re (rprod E t s i) * (w i * e_x E i ^ 2))).
  rewrite (Ix_ext_in E stop _ (fun i => c * (Re (rprod E t s i) * (w i * e_x E i ^ 2)) + 0 * 0)).
  - rewrite (Ix_lin E stop c 0 _ (fun _ => 0)) by exact HG. ring.
  - intros i Hi. rewrite HR. transitivity (Re (rprod E t s i) * (scale_of K ad f ps i / e_x E i)); [unfold Rdiv; ring|]. rewrite HW by exact Hi. ring.
Qed.

(** ** Sums over a term *)
Definition pval (E : cenv) (pt : partner) (s : nat * nat * nat) : R := sum_over pt (fun '(a, d, w) => w * angular_value E a d s).
Definition SV (E : cenv) (l : list (nat * nat * nat)) t w stop pt : R := sum_over l (fun s => radial_value E t w stop s * pval E pt s).
Lemma sum_over_ext {A} (l : list A) f g : (forall a, In a l -> f a = g a) -> sum_over l f = sum_over l g.
Proof. unfold sum_over. induction l as [|a l IH]; intros H; cbn [fold_right]; [reflexivity|]. rewrite IH by (intros; apply H; right; assumption). rewrite (H a) by (left; reflexivity). reflexivity. Qed.
Lemma sum_over_scal {A} c (l : list A) f : sum_over l (fun a => c * f a) = c * sum_over l f.
Proof. unfold sum_over. induction l as [|a l IH]; cbn [fold_right]; [ring|]. rewrite IH. ring. Qed.
Lemma term_value K ad (sym : bool) t f ps stop pt w c : let E := k_E K in good E stop ->
  (forall i, (i < e_n E)%nat -> scale_of K ad f ps i / e_x E i = c * (w i * e_x E i ^ 2)) ->
  sum_over (if t_sym (radial_kernel_term K ad sym t f ps) then assignments else [(1, 2, 3)%nat]) (fun s =>
    log_integral E stop (row rterm_beq (t_rows (radial_kernel_term K ad sym t f ps)) (place t s)) *
    sum_over pt (fun '(a, d, w) => w * angular_value E a d s))
  = c * SV E (if sym then assignments else [(1, 2, 3)%nat]) t w stop pt.
Proof.
  intros E HG HW. replace (t_sym (radial_kernel_term K ad sym t f ps)) with sym by (destruct sym; reflexivity).
  unfold SV. rewrite <- sum_over_scal. apply sum_over_ext. intros s Hs. unfold E. rewrite (log_row K ad sym t f ps stop s w c HG Hs HW). unfold pval. ring.
Qed.
Lemma SV_S E t w at_ fac stop : S_value E (RSingle t) w at_ fac [1] stop =
  SV E assignments t w stop (map (fun p => (fst (fst p), snd (fst p), snd p)) (combine (combine (ang_list at_) (div_list at_)) fac)).
Proof.
  unfold S_value, SV. apply sum_over_ext. intros s _. cbn [rad_list weighted_rad combine fold_right fst snd].
  unfold pval, weighted_ang, sum_over. induction (combine (combine (ang_list at_) (div_list at_)) fac) as [|[[a d] v] l IH]; cbn [map fold_right fst snd]; [ring|].
  apply (f_equal (fun x => x + (1 * radial_value E t w stop s + 0) * (v * angular_value E a d s))) in IH.
  transitivity ((1 * radial_value E t w stop s + 0) * fold_right (fun p a => snd p * angular_value E (fst (fst p)) (snd (fst p)) s + a) 0 l + (1 * radial_value E t w stop s + 0) * (v * angular_value E a d s)); [ring|].
  rewrite IH. ring.
Qed.
Lemma SV_scal E l t w stop c pt : SV E l t w stop (map (fun '(a, d, v) => (a, d, c * v)) pt) = c * SV E l t w stop pt.
Proof.
  unfold SV. rewrite <- sum_over_scal. apply sum_over_ext. intros s _.
  replace (pval E (map (fun '(a, d, v) => (a, d, c * v)) pt) s) with (c * pval E pt s); [ring|].
  unfold pval, sum_over. induction pt as [|[[a d] v] pt IH]; cbn [map fold_right]; [ring|]. rewrite <- IH. ring.
Qed.
Lemma SV_app E l t w stop p q : SV E l t w stop (p ++ q) = SV E l t w stop p + SV E l t w stop q.
Proof.
  unfold SV. assert (H : forall s, pval E (p ++ q) s = pval E p s + pval E q s).
  { intros s. unfold pval, sum_over. induction p as [|[[a d] v] p IH]; cbn [app fold_right]; [ring|]. rewrite IH. ring. }
  unfold sum_over. induction l as [|s l IH]; cbn [fold_right]; [ring|]. rewrite IH, H. ring.
Qed.
Lemma SV_w E l t w w' w'' a b stop pt : good E stop -> (forall i, (i < e_n E)%nat -> w i * e_x E i ^ 2 = a * (w' i * e_x E i ^ 2) + b * (w'' i * e_x E i ^ 2)) ->
  SV E l t w stop pt = a * SV E l t w' stop pt + b * SV E l t w'' stop pt.
Proof.
  intros HG H. unfold SV, sum_over. induction l as [|s l IH]; cbn [fold_right]; [ring|]. rewrite IH.
  assert (Q : radial_value E t w stop s = a * radial_value E t w' stop s + b * radial_value E t w'' stop s).
  { rewrite !radial_Ix. rewrite <- Ix_lin by exact HG. apply Ix_ext_in. intros i Hi. rewrite (H i Hi). ring. }
  rewrite Q. ring.
Qed.

(** ** The four contributions *)
Lemma from_cons K ad sym t f ps pt stop ts rest w c : let E := k_E K in good E stop ->
  (forall i, (i < e_n E)%nat -> scale_of K ad f ps i / e_x E i = c * (w i * e_x E i ^ 2)) ->
  from_kernels E stop (radial_kernel_term K ad sym t f ps :: ts) ((t, pt) :: rest)
  = c * SV E (if sym then assignments else [(1, 2, 3)%nat]) t w stop pt + from_kernels E stop ts rest.
Proof. intros E HG HW. unfold E. rewrite <- (term_value K ad sym t f ps stop pt w c HG HW). reflexivity. Qed.
Lemma SV_one E t u w stop : SV E [(1, 2, 3)%nat] t w stop [(u, false, 1)] = radial_value E t w stop (1, 2, 3)%nat * angular_value E u false (1, 2, 3)%nat.
Proof. unfold SV, pval, sum_over. cbn [fold_right]. ring. Qed.
Section kappas.
Variables (K : kenv) (ad : nat -> R) (stop : nat).
Let E := k_E K.
Hypotheses (HS : standard E) (HE : e_self E = false) (HG : good E stop) (HC : consistent K).
Let kk := k_energy K.
Let base := e_R E ^ 3 * e_normP E / kk.
Lemma scale_p f ps (g : nat -> R) : (forall i v, fold_left (fun v p => v * profile_value K ad p i) ps v = v * g i) ->
  forall i, (i < e_n E)%nat -> scale_of K ad f (Pressure :: ps) i / e_x E i = (f * base) * ((e_P E i * g i) * e_x E i ^ 2).
Proof.
  intros H i Hi. unfold scale_of. cbn [fold_left]. rewrite H. cbn [profile_value]. destruct HC as (N1 & N2 & N3 & N4 & HP & _ & HX).
  fold E in HP, HX, N1, N2, N4. fold E. rewrite HP. specialize (HX i Hi). unfold base, kk. field. auto.
Qed.
Lemma scale_d f ps (g : nat -> R) : (forall i v, fold_left (fun v p => v * profile_value K ad p i) ps v = v * g i) ->
  forall i, (i < e_n E)%nat -> scale_of K ad f (Density :: ps) i / e_x E i = (f * (e_R E ^ 3 * e_normrho E / kk)) * ((e_rhon E i * g i) * e_x E i ^ 2).
Proof.
  intros H i Hi. unfold scale_of. cbn [fold_left]. rewrite H. cbn [profile_value]. destruct HC as (N1 & N2 & N3 & N4 & _ & HP & HX).
  fold E in HP, HX, N1, N2, N4. fold E. rewrite HP. specialize (HX i Hi). unfold kk. field. auto.
Qed.
Ltac gam := intros; cbn [fold_left profile_value]; fold E; ring.
Ltac step w f := erewrite (from_cons K ad _ _ f _ _ stop _ _ w _ HG); [|first [apply scale_p|apply scale_d]; gam].
Lemma kernels_1 : kappa_1 E stop = Ok (kk / 2 * from_kernels E stop (map (fun '(sym, t, f, ps) => radial_kernel_term K ad sym t f ps) radial_1) partners_1).
Proof.
  unfold kappa_1. rewrite !s_term_ok by (assumption || (cbn; lia)). cbn [bind]. apply (f_equal (@Ok R)).
  rewrite !SV_S. cbn [ang_list div_list combine map fst snd]. unfold radial_1, partners_1. cbn [map]. set (w := fun i => e_P E i * (e_G1 E i - 1)).
  step w (1 / 2). step w (1 / 2). step w 1. step w 1. step w 1. step w (-1).
  cbn [from_kernels combine sum_over fold_right]. 
  assert (Q : SV E assignments (RDiverg, RZ2c, RDerXZ2c) w stop [((Hr, Ht, Ht), false, -1); ((Hr, Hp, Hp), false, 1)]
            = -1 * SV E assignments (RDiverg, RZ2c, RDerXZ2c) w stop [((Hr, Ht, Ht), false, 1); ((Hr, Hp, Hp), false, -1)]).
  { rewrite <- SV_scal. cbn [map]. unfold SV, pval. apply sum_over_ext. intros s _. unfold sum_over. cbn [fold_right]. ring. }
  fold E in Q. fold E. rewrite Q. destruct HC as (N1 & N2 & N3 & N4 & _). unfold base, from_kernels, sum_over. cbn [combine fold_right]. unfold kk. fold E. field. exact N3.
Qed.
Lemma kernels_2 : e_poly E = false -> e_adder E = Some ad -> kappa_2 E stop = Ok (kk / 2 * from_kernels E stop (map (fun '(sym, t, f, ps) => radial_kernel_term K ad sym t f ps) radial_2) partners_2).
Proof.
  intros HP HA. unfold kappa_2. rewrite rad_int_ok by apply HS. cbn [bind]. rewrite ang_int_ok by exact HS. cbn [bind]. apply (f_equal (@Ok R)).
  rewrite HP, HA. unfold radial_2, partners_2. cbn [map].
  step (fun i => e_P E i * (e_G1 E i - 1) ^ 2) 1. step (fun i => e_P E i * (e_rho E i * ad i)) 1. fold E.
  rewrite <- SV_one. rewrite (SV_w E _ _ _ (fun i => e_P E i * (e_G1 E i - 1) ^ 2) (fun i => e_P E i * (e_rho E i * ad i)) 1 1 stop _ HG) by (intros; ring).
  destruct HC as (N1 & N2 & N3 & N4 & _). unfold base, from_kernels, sum_over. cbn [combine fold_right]. unfold kk. field. exact N3.
Qed.
Lemma kernels_3 : kappa_3 E stop = Ok (kk / 2 * from_kernels E stop (map (fun '(sym, t, f, ps) => radial_kernel_term K ad sym t f ps) radial_3) partners_3).
Proof.
  unfold kappa_3. rewrite !s_term_ok by (assumption || (cbn; lia)). cbn [bind]. rewrite !rad_int_ok by apply HS. cbn [bind].
  rewrite !ang_int_ok by exact HS. cbn [bind]. apply (f_equal (@Ok R)).
  rewrite !SV_S. cbn [ang_list div_list combine map fst snd]. unfold radial_3, partners_3. cbn [map].
  assert (W : forall l t pt, SV E l t (fun i => e_P E i * 1) stop pt = SV E l t (e_P E) stop pt).
  { intros l t pt. rewrite (SV_w E l t _ (e_P E) (e_P E) 1 0 stop pt HG) by (intros; ring). ring. }
  step (fun i => e_P E i * 1) (-1). step (fun i => e_P E i * 1) 1. step (fun i => e_P E i * 1) 1. step (fun i => e_P E i * 1) 1.
  step (fun i => e_P E i * 1) 1. step (fun i => e_P E i * 1) (-1). step (fun i => e_P E i * 1) (-2). step (fun i => e_P E i * 1) 1.
  step (fun i => e_P E i * 1) 1. step (fun i => e_P E i * 1) 2. step (fun i => e_P E i * 1) 4. step (fun i => e_P E i * 1) 2. fold E. rewrite !W.
  assert (Q2 : SV E assignments (RDerXZ1, RZ2c, RDerXZ2c) (e_P E) stop [((Hr, Ht, Ht), false, -1); ((Hr, Hp, Hp), false, 1)]
            = -1 * SV E assignments (RDerXZ1, RZ2c, RDerXZ2c) (e_P E) stop [((Hr, Ht, Ht), false, 1); ((Hr, Hp, Hp), false, -1)]).
  { rewrite <- SV_scal. cbn [map]. unfold SV, pval. apply sum_over_ext. intros s _. unfold sum_over. cbn [fold_right]. ring. }
  assert (Q7 : SV E assignments (RZ2c, RZ2c, RZ2c) (e_P E) stop [((DHt, ThPh, DHp), true, -1); ((DHp, ThPh, PhPh), true, -1)]
            = -1 * SV E assignments (RZ2c, RZ2c, RZ2c) (e_P E) stop [((DHt, ThPh, DHp), true, 1); ((DHp, ThPh, PhPh), true, 1)]).
  { rewrite <- SV_scal. cbn [map]. unfold SV, pval. apply sum_over_ext. intros s _. unfold sum_over. cbn [fold_right]. ring. }
  assert (Q6 : SV E assignments (RZ1, RZ2c, RZ2c) (e_P E) stop [((Hr, ThPh, DHp), true, -2); ((Hr, PhPh, PhPh), false, 1); ((Hr, DHt, DHt), false, 1)]
            = -2 * SV E assignments (RZ1, RZ2c, RZ2c) (e_P E) stop [((Hr, ThPh, DHp), true, 1)]
              + SV E assignments (RZ1, RZ2c, RZ2c) (e_P E) stop [((Hr, PhPh, PhPh), false, 1); ((Hr, DHt, DHt), false, 1)]).
  { rewrite <- SV_scal, <- SV_app. cbn [map app]. unfold SV, pval. apply sum_over_ext. intros s _. unfold sum_over. cbn [fold_right]. ring. }
  rewrite Q2, Q6, Q7, !SV_one.
  replace (SV E [(1, 2, 3)%nat] (RZ2c, RZ2c, RZ2c) (e_P E) stop [((PhPh, PhPh, PhPh), false, 1); ((DHt, DHt, DHt), false, 1)])
    with (radial_value E (RZ2c, RZ2c, RZ2c) (e_P E) stop (1, 2, 3)%nat * (angular_value E (PhPh, PhPh, PhPh) false (1, 2, 3)%nat + angular_value E (DHt, DHt, DHt) false (1, 2, 3)%nat))
    by (unfold SV, pval, sum_over; cbn [fold_right]; ring).
  destruct HC as (N1 & N2 & N3 & N4 & _). unfold base, from_kernels, sum_over. cbn [combine fold_right].
  repeat match goal with |- context [SV ?a ?b ?c ?d ?e ?f] => let x := fresh "x" in set (x := SV a b c d e f) end.
  clearbody E. unfold kk. field. exact N3.
Qed.
Lemma kernels_4 : kappa_4 E stop = Ok (- (kk / 2) * from_kernels E stop (map (fun '(sym, t, f, ps) => radial_kernel_term K ad sym t f ps) radial_4) partners_4).
Proof.
  unfold kappa_4. rewrite !s_term_ok by (assumption || (cbn; lia)). cbn [bind]. rewrite !rad_int_ok by apply HS. cbn [bind].
  rewrite !ang_int_ok by exact HS. cbn [bind]. apply (f_equal (@Ok R)).
  rewrite !SV_S. cbn [ang_list div_list combine map fst snd]. unfold radial_4, partners_4. cbn [map].
  step (fun i => e_rhon E i * ((e_x E i * e_R E) * e_g1 E i)) (- (1 / 2)). step (fun i => e_rhon E i * ((e_x E i * e_R E) ^ 2 * e_g2 E i)) (1 / 2).
  step (fun i => e_rhon E i * ((e_x E i * e_R E) ^ 3 * e_g3 E i)) 1. fold E.
  destruct HC as (N1 & N2 & N3 & N4 & _ & _ & HX). fold E in N4, HX.
  rewrite (SV_w E _ _ _ (fun i => e_rhon E i * ((e_x E i * e_R E) * e_g1 E i)) (fun i => e_rhon E i * ((e_x E i * e_R E) ^ 2 * e_g2 E i)) (- / e_R E ^ 3) (/ e_R E ^ 3) stop _ HG)
    by (intros i Hi; specialize (HX i Hi); field; auto).
  rewrite <- SV_one.
  rewrite (SV_w E _ _ (fun i => e_rhon E i * e_x E i ^ 3 * e_g3 E i) (fun i => e_rhon E i * ((e_x E i * e_R E) ^ 3 * e_g3 E i)) (e_P E) (/ e_R E ^ 3) 0 stop _ HG)
    by (intros i Hi; field; auto).
  unfold from_kernels, sum_over. cbn [combine fold_right].
  repeat match goal with |- context [SV ?a ?b ?c ?d ?e ?f] => let x := fresh "x" in set (x := SV a b c d e f) end. unfold kk. field. auto.
Qed.
End kappas.
