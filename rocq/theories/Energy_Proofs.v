(** * Lemmas for C103, C104: the coupling coefficient as a quadrature of the interaction energy. *)
From Coq Require Import Reals List ZArith Bool Lia Lra.
From Coquelicot Require Import Complex.
From Verif Require Import Base Py Coupling_Model Coupling_Spec Coupling_Proofs Energy_Spec.
Import ListNotations.
Local Open Scope R_scope.

(** ** Linear quadratures *)
Definition good (E : cenv) (stop : nat) : Prop := linear (e_integ E) /\ (2 <= stop)%nat /\ (2 <= e_n E)%nat /\ (2 <= e_nmu E)%nat.
Lemma firstn_combine (h : R * R -> R) (F G : nat -> R) : forall n l,
  map h (combine (firstn n (map F l)) (firstn n (map G l))) = firstn n (map (fun i => h (F i, G i)) l).
Proof. induction n; intros [|x l]; cbn; [reflexivity..|]. rewrite IHn. reflexivity. Qed.
Definition Ix (E : cenv) (stop : nat) (F : nat -> R) : R :=
  e_integ E false (firstn stop (map F (seq 0 (e_n E)))) (firstn stop (map (e_x E) (seq 0 (e_n E)))).
Lemma Ix_lin E stop a c F G : good E stop -> Ix E stop (fun i => a * F i + c * G i) = a * Ix E stop F + c * Ix E stop G.
Proof.
  intros (L & H1 & H2 & _). unfold Ix. rewrite <- L by (rewrite !firstn_length, !map_length, ?seq_length; lia).
  rewrite firstn_combine. reflexivity.
Qed.
Lemma Im_lin E stop a c F G : good E stop -> regular_theta E (fun i => a * F i + c * G i) = a * regular_theta E F + c * regular_theta E G.
Proof.
  intros (L & H1 & _ & H2). unfold regular_theta. rewrite <- L by (rewrite !map_length, ?seq_length; lia). f_equal.
  induction (seq 0 (e_nmu E)) as [|x l IH]; cbn; [reflexivity|]. rewrite IH. reflexivity.
Qed.
Lemma Ix_ext E stop F G : (forall i, F i = G i) -> Ix E stop F = Ix E stop G.
Proof. intros H. unfold Ix. rewrite (map_ext _ _ H). reflexivity. Qed.
Lemma quad_def E stop F : quad E stop F = 2 * PI * regular_theta E (fun k => Ix E stop (fun i => F i k)).
Proof. reflexivity. Qed.
Lemma quad_ext_in E stop F G : (forall i k, (k < e_nmu E)%nat -> F i k = G i k) -> quad E stop F = quad E stop G.
Proof.
  intros H. unfold quad. f_equal. f_equal. apply map_ext_in. intros k K. apply in_seq in K. f_equal. f_equal. apply map_ext. intros i. apply H. lia.
Qed.
Lemma quad_ext E stop F G : (forall i k, F i k = G i k) -> quad E stop F = quad E stop G.
Proof. intros H. apply quad_ext_in. auto. Qed.
Lemma quad_lin E stop a c F G : good E stop -> quad E stop (fun i k => a * F i k + c * G i k) = a * quad E stop F + c * quad E stop G.
Proof.
  intros H. rewrite !quad_def. rewrite (regular_ext E _ (fun k => a * Ix E stop (fun i => F i k) + c * Ix E stop (fun i => G i k))).
  - rewrite (Im_lin E stop) by exact H. ring.
  - intros k. apply Ix_lin, H.
Qed.
Lemma quad_zero E stop : good E stop -> quad E stop (fun _ _ => 0) = 0.
Proof. intros H. rewrite (quad_ext _ _ _ (fun _ _ => 0 * 0 + 0 * 0)) by (intros; ring). rewrite (quad_lin E stop 0 0 (fun _ _ => 0) (fun _ _ => 0)) by exact H. ring. Qed.
Lemma quad_comb E stop (l : list (R * (nat -> nat -> R))) : good E stop ->
  quad E stop (fun i k => fold_right (fun p a => fst p * snd p i k + a) 0 l) = fold_right (fun p a => fst p * quad E stop (snd p) + a) 0 l.
Proof.
  intros H. induction l as [|[c F] l IH]; cbn [fold_right fst snd]; [apply quad_zero, H|]. rewrite <- IH.
  rewrite (quad_ext _ _ _ (fun i k => c * F i k + 1 * fold_right (fun p a => fst p * snd p i k + a) 0 l)) by (intros; ring).
  rewrite quad_lin by exact H. ring.
Qed.
Lemma quad_sep E stop F G : good E stop -> Ix E stop F * (2 * PI * regular_theta E G) = quad E stop (fun i k => F i * G k).
Proof.
  intros H. rewrite quad_def. rewrite (regular_ext E (fun k => Ix E stop (fun i => F i * G k)) (fun k => Ix E stop F * G k + 0 * G k)).
  - rewrite (Im_lin E stop) by exact H. ring.
  - intros k. rewrite (Ix_ext E stop _ (fun i => G k * F i + 0 * F i)) by (intros; ring). rewrite Ix_lin by exact H. ring.
Qed.

(** ** Terms as complex densities *)
Definition rprod (E : cenv) (t : rterm * rterm * rterm) (s : nat * nat * nat) (i : nat) : C :=
  let '(f1, f2, f3) := t in let '(p, q, r) := s in (e_rad E f1 p i * e_rad E f2 q i * e_rad E f3 r i)%C.
Definition aprod (E : cenv) (t : aterm * aterm * aterm) (d : bool) (s : nat * nat * nat) (k : nat) : R :=
  let '(h1, h2, h3) := t in let '(p, q, r) := s in
  over_sin E d (fun j => e_ang E h1 p j * e_ang E h2 q j * e_ang E h3 r j) k.
Definition asum (E : cenv) (ts : list (aterm * aterm * aterm)) (ds : list bool) (fac : list R) s k : R :=
  fold_right (fun p a => snd p * aprod E (fst (fst p)) (snd (fst p)) s k + a) 0 (combine (combine ts ds) fac).
Definition cterm (E : cenv) (t : rterm * rterm * rterm) (at_ : ang_terms) (fac : list R) (i k : nat) : C :=
  fold_right (fun s a => rprod E t s i * RtoC (asum E (ang_list at_) (div_list at_) fac s k) + a)%C 0%C assignments.
Lemma Re_scal z a : Re z * a = Re (z * RtoC a)%C.
Proof. destruct z as [u v]. cbn. ring. Qed.
Lemma radial_Ix E t w stop s : radial_value E t w stop s = Ix E stop (fun i => Re (rprod E t s i) * (w i * e_x E i ^ 2)).
Proof.
  destruct t as [[f1 f2] f3], s as [[p q] r]. unfold radial_value, Ix, rprod. f_equal. f_equal. apply map_ext. intros i. ring.
Qed.
Lemma angular_Im E t d s : signed_m_sum E = 0%Z -> angular_value E t d s = 2 * PI * regular_theta E (aprod E t d s).
Proof. intros H. destruct t as [[f1 f2] f3], s as [[p q] r]. unfold angular_value, aprod. rewrite H. reflexivity. Qed.
Lemma weighted_Im E stop ts ds fac s : good E stop -> signed_m_sum E = 0%Z ->
  weighted_ang E ts ds fac s = 2 * PI * regular_theta E (asum E ts ds fac s).
Proof.
  intros H M. unfold weighted_ang, asum. induction (combine (combine ts ds) fac) as [|[[t d] f] l IH]; cbn [fold_right fst snd].
  - rewrite (regular_ext E _ (fun k => 0 * 0 + 0 * 0)) by (intros; ring). rewrite (Im_lin E stop 0 0 (fun _ => 0) (fun _ => 0) H). ring.
  - rewrite IH, angular_Im by exact M. rewrite (regular_ext E (fun k => f * aprod E t d s k + fold_right (fun p a => snd p * aprod E (fst (fst p)) (snd (fst p)) s k + a) 0 l) (fun k => f * aprod E t d s k + 1 * fold_right (fun p a => snd p * aprod E (fst (fst p)) (snd (fst p)) s k + a) 0 l)) by (intros; ring).
    rewrite (Im_lin E stop) by exact H. ring.
Qed.
Lemma Re_fold {A} (f : A -> C) (l : list A) : Re (fold_right (fun s a => f s + a)%C 0%C l) = fold_right (fun s a => Re (f s) + a) 0 l.
Proof. induction l; cbn [fold_right]; [reflexivity|]. rewrite <- IHl. reflexivity. Qed.
Lemma S_quad E t w at_ fac stop : good E stop -> signed_m_sum E = 0%Z ->
  S_value E (RSingle t) w at_ fac [1] stop = quad E stop (fun i k => w i * e_x E i ^ 2 * Re (cterm E t at_ fac i k)).
Proof.
  intros H M. unfold S_value. cbn [rad_list]. set (A := asum E (ang_list at_) (div_list at_) fac).
  rewrite (quad_ext _ _ _ (fun i k => fold_right (fun p a => fst p * snd p i k + a) 0
     (map (fun s => (1, fun i k => (Re (rprod E t s i) * (w i * e_x E i ^ 2)) * A s k)) assignments))).
  - rewrite quad_comb by exact H. unfold sum_over. generalize assignments. induction l as [|s l IH]; cbn [map fold_right fst snd]; [reflexivity|].
    rewrite IH. f_equal. rewrite (weighted_Im E stop) by assumption. fold (A s). cbn [weighted_rad combine fold_right fst snd]. rewrite radial_Ix.
    rewrite <- (quad_sep E stop (fun i => Re (rprod E t s i) * (w i * e_x E i ^ 2)) (A s)) by exact H. ring.
  - intros i k. unfold cterm. rewrite Re_fold. fold A. generalize assignments. induction l as [|s l IH]; cbn [map fold_right fst snd]; [ring|].
    rewrite <- IH. rewrite <- Re_scal. ring.
Qed.
Lemma R_quad E t u w stop : good E stop -> signed_m_sum E = 0%Z ->
  radial_value E t w stop (1, 2, 3)%nat * angular_value E u false (1, 2, 3)%nat
  = quad E stop (fun i k => w i * e_x E i ^ 2 * Re (rprod E t (1, 2, 3)%nat i * RtoC (aprod E u false (1, 2, 3)%nat k))%C).
Proof.
  intros H M. rewrite radial_Ix, angular_Im, quad_sep by assumption. apply quad_ext. intros i k. rewrite <- Re_scal. ring.
Qed.
