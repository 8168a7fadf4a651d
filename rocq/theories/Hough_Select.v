(** * Hough functions: eigenvalue selection, orientation, normalisation *)
From Coq Require Import Reals List ZArith Bool Lia Lra String Permutation Sorted.
From Verif Require Import Base NumInt_Model NumInt_Spec NumInt_Proofs Hough_Model Hough_Spec Hough_Proofs Hough_Main.
Import ListNotations.
Local Open Scope R_scope.

Lemma keep_spec es l v : In (l, v) (keep es) <-> exists e, In e es /\ ep_im e = 0 /\ ep_re e < 0 /\ l = ep_re e /\ v = ep_vre e.
Proof.
  unfold keep. rewrite in_map_iff. split.
  - intros (e & E & H). injection E as <- <-. apply filter_In in H. destruct H as [H1 H2]. exists e.
    destruct (Req_EM_T (ep_im e) 0); [|discriminate]. destruct (Rlt_dec (ep_re e) 0); [|discriminate]. auto.
  - intros (e & H1 & H2 & H3 & -> & ->). exists e. split; [reflexivity|]. apply filter_In. split; [exact H1|].
    destruct (Req_EM_T (ep_im e) 0); [|contradiction]. destruct (Rlt_dec (ep_re e) 0); [reflexivity|contradiction].
Qed.
Definition le1 (x y : R * vec) : Prop := fst x <= fst y.
Lemma insert_perm x l : Permutation (insert x l) (x :: l).
Proof.
  induction l as [|y t IH]; cbn; [reflexivity|]. destruct (Rle_dec (fst x) (fst y)); [reflexivity|].
  rewrite IH. apply perm_swap.
Qed.
Lemma sort_perm l : Permutation (sort l) l.
Proof. induction l as [|x t IH]; cbn; [constructor|]. unfold sort in *. cbn. rewrite insert_perm, IH. reflexivity. Qed.
Lemma insert_sorted x l : StronglySorted le1 l -> StronglySorted le1 (insert x l).
Proof.
  induction l as [|y t IH]; intros H; cbn; [repeat constructor|]. inversion_clear H as [|? ? H1 H2].
  destruct (Rle_dec (fst x) (fst y)) as [Hle|Hgt].
  - constructor; [constructor; assumption|]. constructor; [exact Hle|]. eapply Forall_impl; [|exact H2]. unfold le1. intros a Ha. lra.
  - constructor; [apply IH; exact H1|]. apply Forall_forall. intros z Hz. apply (Permutation_in _ (insert_perm x t)) in Hz.
    destruct Hz as [<-|Hz]; [unfold le1; lra|]. rewrite Forall_forall in H2. apply H2; exact Hz.
Qed.
Lemma sort_sorted l : StronglySorted le1 (sort l).
Proof. induction l; cbn; [constructor|]. apply insert_sorted. exact IHl. Qed.
Lemma argmin_from_spec est l : forall best, StronglySorted le1 (best :: l) ->
  let r := argmin_from est best l in
  In r (best :: l) /\ forall y, In y (best :: l) -> Rabs (est - fst r) <= Rabs (est - fst y) /\
    (Rabs (est - fst r) = Rabs (est - fst y) -> fst r <= fst y).
Proof.
  induction l as [|y t IH]; intros best HS r; unfold r; cbn [argmin_from].
  - split; [left; reflexivity|]. intros z [<-|[]]. split; [lra|]. intros _. lra.
  - inversion_clear HS as [|? ? HS1 HF]. rewrite Forall_forall in HF. destruct (Rlt_dec _ _) as [Hlt|Hge].
    + destruct (IH y HS1) as [Hin Hmin]. split; [right; exact Hin|]. intros z [<-|Hz]; [|apply Hmin; exact Hz].
      destruct (Hmin y (or_introl eq_refl)) as [Hy _]. split; lra.
    + assert (HS2 : StronglySorted le1 (best :: t)).
      { inversion_clear HS1 as [|? ? Ht _]. constructor; [exact Ht|]. apply Forall_forall. intros z Hz. apply HF. right; exact Hz. }
      destruct (IH best HS2) as [Hin Hmin]. split; [destruct Hin; [left|right; right]; assumption|].
      intros z [<-|[<-|Hz]]; [apply Hmin; left; reflexivity| |apply Hmin; right; exact Hz].
      destruct (Hmin best (or_introl eq_refl)) as [Hb Hb']. assert (Hby : fst best <= fst y) by (apply HF; left; reflexivity).
      split; [lra|]. intros He. assert (fst (argmin_from est best t) <= fst best) by (apply Hb'; lra). lra.
Qed.
Lemma argmin_spec est l r : argmin est (sort l) = Ok r -> In r l /\ forall y, In y l ->
  Rabs (est - fst r) <= Rabs (est - fst y) /\ (Rabs (est - fst r) = Rabs (est - fst y) -> fst r <= fst y).
Proof.
  intros H. pose proof (sort_sorted l) as HS. pose proof (sort_perm l) as HP. destruct (sort l) as [|b t] eqn:E; [discriminate|].
  cbn in H. injection H as <-. destruct (argmin_from_spec est t b HS) as [Hin Hm]. split.
  - apply (Permutation_in _ HP). exact Hin.
  - intros y Hy. apply Hm. apply (Permutation_in _ (Permutation_sym HP)). exact Hy.
Qed.
Lemma argmin_none est l : (forall r, argmin est (sort l) <> Ok r) -> l = [] /\ argmin est (sort l) = Exc ValueError.
Proof.
  intros H. pose proof (sort_perm l) as HP. destruct (sort l) as [|b t].
  - apply Permutation_nil in HP. auto.
  - exfalso. eapply H. reflexivity.
Qed.

(** orientation *)
Lemma max_abs_nonneg h f : 0 <= max_abs h f.
Proof. induction h; cbn; [lra|]. eapply Rle_trans; [exact IHh|apply Rmax_l]. Qed.
Lemma max_abs_le h f i : (i < h)%nat -> Rabs (f i) <= max_abs h f.
Proof.
  induction h; intros H; [lia|]. cbn. destruct (Nat.eq_dec i h) as [->|]; [apply Rmax_r|].
  eapply Rle_trans; [apply IHh; lia|apply Rmax_l].
Qed.
Lemma max_abs_attained h f : (0 < h)%nat -> exists i, (i < h)%nat /\ max_abs h f = Rabs (f i).
Proof.
  induction h as [|n IH]; [lia|]. intros _. cbn. destruct n as [|n].
  - exists 0%nat. split; [lia|]. cbn. apply Rmax_right. apply Rabs_pos.
  - destruct (IH ltac:(lia)) as (i & Hi & E). unfold Rmax. destruct (Rle_dec _ _); [exists (S n); split; [lia|reflexivity]|].
    exists i. split; [lia|]. exact E.
Qed.
Lemma max_abs_scale h f c : max_abs h (fun i => f i * c) = max_abs h f * Rabs c.
Proof.
  induction h; cbn; [ring|]. rewrite IHh, Rabs_mult.
  rewrite (Rmult_comm (max_abs h f)), (Rmult_comm (Rabs (f h))). rewrite RmaxRmult by apply Rabs_pos. apply Rmult_comm.
Qed.
Lemma max_abs_ext h f g : (forall i, (i < h)%nat -> f i = g i) -> max_abs h f = max_abs h g.
Proof. induction h; intros H; cbn; [reflexivity|]. rewrite IHh by (intros; apply H; lia). rewrite H by lia. reflexivity. Qed.
Lemma oriented_scale h v : (exists i, (i < h)%nat /\ v i <> 0) ->
  exists c, c <> 0 /\ (forall i, oriented h v i = v i * c) /\ 0 <= oriented h v (h - 1)%nat /\ max_abs h (oriented h v) = 1.
Proof.
  intros (i & Hi & Hv). assert (HM : 0 < max_abs h v) by (eapply Rlt_le_trans; [apply Rabs_pos_lt; exact Hv|apply max_abs_le; exact Hi]).
  set (sg := if Rlt_dec (v (h - 1)%nat) 0 then -1 else 1).
  assert (Hg : Rabs sg = 1) by (unfold sg; destruct (Rlt_dec _ _); [rewrite Rabs_left|rewrite Rabs_right]; lra).
  assert (HE : forall i, oriented h v i = v i * (sg / max_abs h v)).
  { intros k. unfold oriented, sg. destruct (Rlt_dec _ _).
    - rewrite max_abs_scale. rewrite (Rabs_left (-1)) by lra. field. lra.
    - field. lra. }
  exists (sg / max_abs h v). split; [|split; [exact HE|split]].
  - apply Rmult_integral_contrapositive_currified; [unfold sg; destruct (Rlt_dec _ _); lra|apply Rinv_neq_0_compat; lra].
  - rewrite HE. unfold sg. assert (0 < / max_abs h v) by (apply Rinv_0_lt_compat; exact HM). unfold Rdiv. destruct (Rlt_dec _ _); nra.
  - rewrite (max_abs_ext h _ (fun i => v i * (sg / max_abs h v)) (fun i _ => HE i)). rewrite max_abs_scale.
    unfold Rdiv. rewrite Rabs_mult, Hg. rewrite Rabs_pos_eq by (left; apply Rinv_0_lt_compat; exact HM). field. lra.
Qed.

(** the call *)
Lemma call_inv X eig o o' : hf_call X eig o = Ok o' -> exists est p, estimate o = Ok est /\
  argmin est (sort (keep (eig (colloc_matrix X o)))) = Ok p /\
  o' = {| o_nu := o_nu o; o_l := o_l o; o_m := o_m o; o_h := o_h o; o_lmbd := Some (LFloat est);
        o_adj := o_adj o; o_ins := o_ins o; o_res := Some (results X o (fst p) (snd p)) |}.
Proof.
  unfold hf_call. destruct (estimate o) as [est| |] eqn:E; cbn [bind]; try discriminate.
  destruct (argmin est _) as [p| |] eqn:A; cbn [bind]; try discriminate. intros H. injection H as <-. exists est, p. auto.
Qed.
Lemma eigen_pointwise X o ev v : (forall i, (i < o_h o)%nat -> vsum (o_h o) (fun k => colloc_matrix X o i k * v k) = ev * v i) ->
  forall c i, (i < o_h o)%nat ->
  let f := fun k => v k * c in
  lte_0 (o_nu o) (IZR (o_m o)) (o_h o) i * f i + lte_1 (o_nu o) (o_h o) i * diff1 (o_h o) X f (parity_ o) (pf_ o) i
  + lte_2 (o_nu o) (o_h o) i * diff2 (o_h o) X f (parity_ o) (pf_ o) i = ev * f i.
Proof.
  intros H c i Hi f. pose proof (apply_op_eq (o_h o) X f (lte_0 (o_nu o) (IZR (o_m o)) (o_h o)) (lte_1 (o_nu o) (o_h o))
     (Some (lte_2 (o_nu o) (o_h o))) (parity_ o) (pf_ o) i Hi) as Q. cbv iota in Q. rewrite <- Q. unfold apply_op, mvec.
  change (full_matrix (o_h o) X (lte_0 (o_nu o) (IZR (o_m o)) (o_h o)) (lte_1 (o_nu o) (o_h o)) (Some (lte_2 (o_nu o) (o_h o))) (parity_ o) (pf_ o)) with (colloc_matrix X o).
  unfold f. rewrite (vsum_ext (o_h o) _ (fun k => (colloc_matrix X o i k * v k) * c)) by (intros; ring).
  rewrite vsum_scal_r, H by exact Hi. ring.
Qed.
