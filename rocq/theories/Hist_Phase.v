(** * Proofs about binning phases. *)
From Coq Require Import Reals List ZArith Bool Lia Lra.
From Verif Require Import Base Py Hist_Model Hist_Spec Hist_Proofs Hist_Search Hist_API.
Import ListNotations.
Local Open Scope R_scope.
Local Open Scope res_scope.

Lemma argbest_gt_spec : forall l i bi b (arr : list R), (bi < List.length arr)%nat -> nth bi arr 0 = b ->
  (forall j, (j < List.length l)%nat -> nth (i + j) arr 0 = nth j l 0 /\ (i + j < List.length arr)%nat) ->
  let r := argbest rgt l i bi b in (r < List.length arr)%nat /\ b <= nth r arr 0 /\ forall x, In x l -> x <= nth r arr 0.
Proof.
  induction l as [|x l IH]; intros i bi b arr Hb Eb Hl; cbn [argbest].
  - split; [exact Hb|]. split; [lra|intros ? []].
  - destruct (Hl 0%nat) as [E0 L0]; [cbn; lia|]. rewrite Nat.add_0_r in E0, L0. cbn in E0.
    assert (Hl' : forall j, (j < List.length l)%nat -> nth (S i + j) arr 0 = nth j l 0 /\ (S i + j < List.length arr)%nat).
    { intros j Hj. destruct (Hl (S j)) as [A B]; [cbn; lia|]. replace (S i + j)%nat with (i + S j)%nat by lia. auto. }
    assert (G : (rgt x b = true /\ b < x) \/ (rgt x b = false /\ ~ b < x)) by (unfold rgt; destruct (Rlt_dec b x); auto).
    destruct G as [[-> L]|[-> L]].
    + destruct (IH (S i) i x arr L0 E0 Hl') as (A & B & D). split; [exact A|]. split; [lra|]. intros y [<-|Hy]; [exact B|apply D, Hy].
    + destruct (IH (S i) bi b arr Hb Eb Hl') as (A & B & D). split; [exact A|]. split; [exact B|]. intros y [<-|Hy]; [lra|apply D, Hy].
Qed.
Lemma argmax_spec l : l <> [] -> (argmax l < List.length l)%nat /\ nth (argmax l) l 0 = dmax l.
Proof.
  intros H. destruct l as [|a l]; [congruence|]. unfold argmax. cbn [hd].
  destruct (argbest_gt_spec (a :: l) 0 0 a (a :: l)) as (A & _ & D); [cbn; lia|reflexivity|intros j Hj; split; [reflexivity|exact Hj]|].
  split; [exact A|]. symmetry. apply dmax_eq. split; [apply nth_In, A|exact D].
Qed.

(** any index function with values in [0, nb] hitting nb or nb - 1 *)
Lemma counts_general v lo hi data bw phase nb checks (f : R -> Z) : spread lo hi data -> (2 <= nb)%nat ->
  (forall x, In x data -> bin_index v lo bw phase x = Ok (f x)) ->
  (forall x, In x data -> (0 <= f x <= Z.of_nat nb)%Z) -> (Z.of_nat nb - 1 <= f hi)%Z ->
  histogram_counts v data bw phase nb 0 checks None =
    Ok (map (fun i => INR (List.length (filter (fun x => Z.eqb (clampZ nb (f x)) (Z.of_nat i)) data))) (seq 0 nb)).
Proof.
  intros S Hn Hf Hr Hhi. unfold histogram_counts. destruct (Nat.eqb_spec nb 1); [lia|]. destruct (Nat.eqb_spec nb 0); [lia|].
  destruct (spread_eqs _ _ _ S) as (E1 & _ & _). rewrite E1. rewrite (mapM_ext _ (fun x => Ok (f x))) by exact Hf. rewrite mapM_map. cbn [bind]. rewrite map_map.
  change (map (fun x => if Z.eqb (f x) (Z.of_nat nb) then (Z.of_nat nb - 1)%Z else f x) data) with (map (fun x => clampZ nb (f x)) data).
  assert (Rb : forall b, In b (map (fun x => clampZ nb (f x)) data) -> (0 <= b < Z.of_nat nb)%Z).
  { intros b Hb. apply in_map_iff in Hb. destruct Hb as (x & <- & Hx). specialize (Hr x Hx). unfold clampZ. destruct (Z.eqb_spec (f x) (Z.of_nat nb)); lia. }
  replace (if checks then _ else _) with (Ok (map (fun x => clampZ nb (f x)) data))
    by (destruct checks; [rewrite negative_check_ok; [reflexivity|intros b Hb; apply Rb, Hb]|reflexivity]).
  cbn [bind]. rewrite (bincount_exact _ nb Rb).
  - cbn [bind]. rewrite map_map. apply (f_equal (@Ok (list R))). apply map_ext. intros i. rewrite count_occ_filter. reflexivity.
  - right. apply in_map_iff. exists hi. pose proof S as (_ & [Hin _] & _). split; [|exact Hin]. specialize (Hr hi Hin). unfold clampZ. destruct (Z.eqb_spec (f hi) (Z.of_nat nb)); lia.
Qed.

Section Phase.
  Variables (lo hi : R) (nb : nat) (data : list R) (p : R).
  Hypothesis S : spread lo hi data.
  Hypothesis Hnb : (2 <= nb)%nat.
  Let w := (hi - lo) / INR nb.
  Let bw := compute_bin_width (ptp data) nb.
  Lemma bw_w : bw = w. Proof. unfold bw, compute_bin_width. destruct (spread_eqs _ _ _ S) as (_ & _ & ->). reflexivity. Qed.
  Lemma Hlt : lo < hi. Proof. apply S. Qed.
  Lemma w_posP : 0 < w. Proof. apply w_pos; [apply Hlt|lia]. Qed.
  Lemma q_bounds x : In x data -> 0 <= (x - lo) / w <= INR nb.
  Proof. intros H. apply quot_bounds; [apply Hlt|lia|apply (spread_in _ _ _ _ S H)]. Qed.
  Lemma q_hi : (hi - lo) / w = INR nb.
  Proof. pose proof w_posP. pose proof (w_nb lo hi nb ltac:(lia)) as E. fold w in E. rewrite <- E. field. lra. Qed.
  Lemma x_q x : x = lo + ((x - lo) / w) * w.
  Proof. pose proof w_posP. field. lra. Qed.
  Lemma index_cython x : bin_index Cython lo bw p x = Ok (floorZ ((x - lo) / w - p)).
  Proof. unfold bin_index. rewrite bw_w. pose proof w_posP. destruct (Req_EM_T w 0); [lra|reflexivity]. Qed.
  Lemma index_numexpr x : bin_index Numexpr lo bw p x = Ok (truncZ ((x - lo) / w - p)).
  Proof. unfold bin_index. rewrite bw_w. pose proof w_posP. destruct (Req_EM_T w 0); [lra|reflexivity]. Qed.
  Lemma index_blas x : bin_index Blas lo bw p x = Ok (floorZ ((x - lo) / w + p)).
  Proof. unfold bin_index. rewrite bw_w. pose proof w_posP. destruct (Req_EM_T w 0); [lra|]. apply (f_equal (@Ok Z)). f_equal. unfold Rdiv. ring. Qed.

  (** cython: the minimum gets bin -1 *)
  Lemma cython_phase_fails checks : 0 < p <= 1 ->
    histogram_counts Cython data bw p nb 0 checks None = Exc (if checks then SystemExit else ValueError).
  Proof.
    intros Hp. unfold histogram_counts. destruct (Nat.eqb_spec nb 1); [lia|]. destruct (Nat.eqb_spec nb 0); [lia|].
    destruct (spread_eqs _ _ _ S) as (E1 & E2 & _). rewrite E1. rewrite (mapM_ext _ (fun x => Ok (floorZ ((x - lo) / w - p)))) by (intros; apply index_cython).
    rewrite mapM_map. cbn [bind]. set (top := map _ (map _ data)).
    set (t := fun x => clampZ nb (floorZ ((x - lo) / w - p))).
    assert (Et : top = map t data) by (unfold top; rewrite map_map; reflexivity).
    assert (Hneg : t lo = (-1)%Z).
    { unfold t, clampZ. replace ((lo - lo) / w - p) with (- p) by (unfold Rdiv; ring). rewrite (floorZ_unique (- p) (-1)) by lra.
      destruct (Z.eqb_spec (-1) (Z.of_nat nb)); lia. }
    pose proof S as ([Hlo _] & [Hhi _] & _).
    assert (Hpos : (0 <= t hi)%Z).
    { unfold t, clampZ. rewrite q_hi. assert (1 <= floorZ (INR nb - p))%Z.
      { apply floorZ_ge. assert (INR 2 <= INR nb) by (apply le_INR, Hnb). cbn in H. lra. }
      destruct (Z.eqb_spec (floorZ (INR nb - p)) (Z.of_nat nb)); lia. }
    rewrite Et. destruct checks.
    - replace (negative_check Cython data (map t data)) with (@Exc (list Z) SystemExit); [reflexivity|]. symmetry. unfold negative_check.
      destruct (filter _ _) as [|i [|j r]] eqn:F.
      + exfalso. apply (In_nth _ _ 0) in Hlo. destruct Hlo as (i & Li & Ei).
        assert (In i (filter (fun i => (nth i (map t data) 0 <? 0)%Z) (seq 0 (List.length (map t data))))).
        { apply filter_In. rewrite map_length. split; [apply in_seq; lia|]. rewrite (nth_indep _ 0%Z (t 0)) by (rewrite map_length; exact Li). rewrite map_nth, Ei, Hneg. reflexivity. }
        rewrite F in H. contradiction.
      + destruct (Nat.eqb_spec i (argmax data)) as [E|E]; [|reflexivity]. exfalso.
        assert (In i (filter (fun i => (nth i (map t data) 0 <? 0)%Z) (seq 0 (List.length (map t data))))) by (rewrite F; left; reflexivity).
        apply filter_In in H. destruct H as [_ H]. destruct (argmax_spec data (in_ne _ _ Hlo)) as [La Ea]. rewrite E, (nth_indep _ 0%Z (t 0)), map_nth, Ea, E2 in H by (rewrite map_length; exact La).
        apply Z.ltb_lt in H. lia.
      + reflexivity.
    - cbn [bind]. unfold bincount. replace (existsb _ (map t data)) with true; [reflexivity|]. symmetry. apply existsb_exists. exists (t lo). split; [apply in_map, Hlo|rewrite Hneg; reflexivity].
  Qed.
  Lemma filter_form (f : R -> Z) (P : nat -> R -> Prop) : (forall x i, In x data -> (i < nb)%nat -> (clampZ nb (f x) = Z.of_nat i <-> P i x)) ->
    let c := map (fun i => INR (List.length (filter (fun x => Z.eqb (clampZ nb (f x)) (Z.of_nat i)) data))) (seq 0 nb) in
    List.length c = nb /\ forall i, (i < nb)%nat -> exists k, counted (P i) data k /\ nth i c 0 = INR k.
  Proof.
    intros H c. split; [unfold c; rewrite map_length, seq_length; reflexivity|]. intros i Hi.
    exists (List.length (filter (fun x => Z.eqb (clampZ nb (f x)) (Z.of_nat i)) data)). split.
    - apply filter_counted. intros x Hx. rewrite Z.eqb_eq. apply H; assumption.
    - unfold c. set (g := fun i => INR (List.length (filter (fun x => Z.eqb (clampZ nb (f x)) (Z.of_nat i)) data))).
      rewrite (nth_indep _ 0 (g 0%nat)) by (rewrite map_length, seq_length; lia). rewrite (map_nth g). rewrite seq_nth by lia. reflexivity.
  Qed.
  Definition shifted (s : R) (i : nat) (x : R) : Prop :=
    (i = 0%nat \/ lo + (INR i + s) * w <= x) /\ (Datatypes.S i = nb \/ x < lo + (INR (Datatypes.S i) + s) * w).
  Lemma ge_iff x r : lo + r * w <= x <-> r <= (x - lo) / w.
  Proof.
    pose proof w_posP. split; intros A.
    - apply Rmult_le_reg_r with w; [assumption|]. replace ((x - lo) / w * w) with (x - lo) by (field; lra). lra.
    - rewrite (x_q x). apply Rplus_le_compat_l, Rmult_le_compat_r; lra.
  Qed.
  Lemma lt_iff x r : x < lo + r * w <-> (x - lo) / w < r.
  Proof. pose proof (ge_iff x r) as H. split; intros A; apply Rnot_le_lt; intros B; apply H in B; lra. Qed.
  Lemma numexpr_phase_counts checks : 0 < p < 1 -> exists c,
    histogram_counts Numexpr data bw p nb 0 checks None = Ok c /\ List.length c = nb /\
    forall i, (i < nb)%nat -> exists k, counted (shifted p i) data k /\ nth i c 0 = INR k.
  Proof.
    intros Hp. assert (N2 : 2 <= INR nb) by (apply (le_INR 2), Hnb).
    assert (T : forall x, In x data -> let q := (x - lo) / w in (truncZ (q - p) = 0%Z /\ q - p < 1) \/ (1 <= q - p /\ truncZ (q - p) = floorZ (q - p))).
    { intros x Hx q. destruct (q_bounds x Hx) as [A B]. fold q in A, B. unfold truncZ. destruct (Rle_dec 0 (q - p)) as [L|L].
      - destruct (Rlt_le_dec (q - p) 1) as [L2|L2]; [left; split; [apply floorZ_unique; lra|exact L2]|right; auto].
      - left. split; [|lra]. rewrite (floorZ_unique (- (q - p)) 0) by lra. reflexivity. }
    assert (Rg : forall x, In x data -> (0 <= truncZ ((x - lo) / w - p) < Z.of_nat nb)%Z).
    { intros x Hx. destruct (q_bounds x Hx) as [A B]. destruct (T x Hx) as [[-> _]|[L ->]]; [lia|].
      split; [apply floorZ_nonneg; lra|]. apply floorZ_lt. rewrite <- INR_IZR_INZ. lra. }
    rewrite (counts_general Numexpr lo hi data bw p nb checks (fun x => truncZ ((x - lo) / w - p)) S Hnb (fun x _ => index_numexpr x)).
    - eexists. split; [reflexivity|]. apply filter_form. intros x i Hx Hi. specialize (Rg x Hx). unfold clampZ.
      destruct (Z.eqb_spec (truncZ ((x - lo) / w - p)) (Z.of_nat nb)) as [E|_]; [lia|]. unfold shifted. rewrite ge_iff, lt_iff.
      set (q := (x - lo) / w) in *. destruct (T x Hx) as [[E L]|[L E]]; fold q in E, L; rewrite E in *.
      + split.
        * intros F. assert (i = 0%nat) by lia. subst i. split; [left; reflexivity|right]. cbn. lra.
        * intros [[->|A] _]; [reflexivity|]. destruct i as [|i]; [reflexivity|]. rewrite S_INR in A. pose proof (pos_INR i). lra.
      + pose proof (floorZ_spec (q - p)) as F. destruct (q_bounds x Hx) as [_ Bq]. fold q in Bq. split.
        * intros G. rewrite G, <- INR_IZR_INZ in F. split; [right; lra|]. destruct (Nat.eq_dec (Datatypes.S i) nb); [left; assumption|right]. rewrite S_INR. lra.
        * intros [A B]. apply floorZ_unique. rewrite <- INR_IZR_INZ. split; [destruct A as [->|A]; [cbn; lra|lra]|].
          destruct B as [B|B]; [|rewrite S_INR in B; lra]. assert (INR nb = INR i + 1) by (rewrite <- B, S_INR; reflexivity). lra.
    - intros x Hx. specialize (Rg x Hx). lia.
    - pose proof S as (_ & [Hin _] & _). rewrite q_hi. rewrite truncZ_nonneg by lra. apply floorZ_ge. rewrite minus_IZR, <- INR_IZR_INZ. lra.
  Qed.
  Lemma blas_phase_counts checks : 0 < p < 1 -> exists c,
    histogram_counts Blas data bw p nb 0 checks None = Ok c /\ List.length c = nb /\
    forall i, (i < nb)%nat -> exists k, counted (shifted (- p) i) data k /\ nth i c 0 = INR k.
  Proof.
    intros Hp. assert (N2 : 2 <= INR nb) by (apply (le_INR 2), Hnb).
    assert (Rg : forall x, In x data -> (0 <= floorZ ((x - lo) / w + p) <= Z.of_nat nb)%Z).
    { intros x Hx. destruct (q_bounds x Hx) as [A B]. split; [apply floorZ_nonneg; lra|].
      assert (floorZ ((x - lo) / w + p) < Z.of_nat nb + 1)%Z; [|lia]. apply floorZ_lt. rewrite plus_IZR, <- INR_IZR_INZ. lra. }
    rewrite (counts_general Blas lo hi data bw p nb checks (fun x => floorZ ((x - lo) / w + p)) S Hnb (fun x _ => index_blas x)).
    - eexists. split; [reflexivity|]. apply filter_form. intros x i Hx Hi. specialize (Rg x Hx). unfold shifted. rewrite ge_iff, lt_iff. unfold clampZ.
      destruct (q_bounds x Hx) as [A B]. set (q := (x - lo) / w) in *. pose proof (floorZ_spec (q + p)) as F.
      destruct (Z.eqb_spec (floorZ (q + p)) (Z.of_nat nb)) as [E|E].
      + rewrite E, <- INR_IZR_INZ in F. split.
        * intros G. assert (I : (Datatypes.S i = nb)%nat) by lia. split; [right|left; exact I]. rewrite <- I, S_INR in F. lra.
        * intros [_ [I|G]]; [lia|]. assert (INR nb < INR (Datatypes.S i)) by lra. apply INR_lt in H. lia.
      + split.
        * intros G. rewrite G, <- INR_IZR_INZ in F. rewrite S_INR. split; right; lra.
        * intros [G1 G2]. apply floorZ_unique. rewrite <- INR_IZR_INZ. split; [destruct G1 as [->|G1]; [cbn; lra|lra]|].
          destruct G2 as [I|G2]; [|rewrite S_INR in G2; lra]. assert (Z.of_nat i < Z.of_nat nb)%Z by lia.
          assert (floorZ (q + p) < Z.of_nat nb)%Z by lia. assert (IZR (floorZ (q + p)) + 1 <= IZR (Z.of_nat nb)) by (rewrite <- plus_IZR; apply IZR_le; lia).
          rewrite <- INR_IZR_INZ, <- I, S_INR in H1. lra.
    - exact Rg.
    - rewrite q_hi. apply floorZ_ge. rewrite minus_IZR, <- INR_IZR_INZ. lra.
  Qed.
End Phase.
(** BLAS, phase one: the maximum escapes the clamp and two extra bins appear *)
Lemma blas_phase_one lo hi data nb checks c : spread lo hi data -> (2 <= nb)%nat ->
  histogram_counts Blas data (compute_bin_width (ptp data) nb) 1 nb 0 checks None = Ok c -> List.length c = (nb + 2)%nat.
Proof.
  intros S Hn. unfold histogram_counts. destruct (Nat.eqb_spec nb 1); [lia|]. destruct (Nat.eqb_spec nb 0); [lia|].
  destruct (spread_eqs _ _ _ S) as (E1 & E2 & _). rewrite E1. rewrite (mapM_ext _ (fun x => Ok (floorZ ((x - lo) / ((hi - lo) / INR nb) + 1)))) by (intros; apply index_blas; assumption).
  rewrite mapM_map. cbn [bind]. rewrite map_map. set (t := fun x => clampZ nb (floorZ ((x - lo) / ((hi - lo) / INR nb) + 1))).
  change (map (fun x => if Z.eqb (floorZ ((x - lo) / ((hi - lo) / INR nb) + 1)) (Z.of_nat nb) then (Z.of_nat nb - 1)%Z else floorZ ((x - lo) / ((hi - lo) / INR nb) + 1)) data) with (map t data).
  assert (Rb : forall b, In b (map t data) -> (0 <= b < Z.of_nat (nb + 2))%Z).
  { intros b Hb. apply in_map_iff in Hb. destruct Hb as (x & <- & Hx). destruct (q_bounds lo hi nb data S Hn x Hx) as [A B].
    unfold t, clampZ. set (q := (x - lo) / ((hi - lo) / INR nb)) in *. assert (0 <= floorZ (q + 1))%Z by (apply floorZ_nonneg; lra).
    assert (floorZ (q + 1) < Z.of_nat (nb + 2))%Z by (apply floorZ_lt; rewrite <- INR_IZR_INZ, plus_INR; cbn; lra).
    destruct (Z.eqb_spec (floorZ (q + 1)) (Z.of_nat nb)); lia. }
  replace (if checks then negative_check Blas data (map t data) else Ok (map t data)) with (Ok (map t data))
    by (destruct checks; [rewrite negative_check_ok; [reflexivity|intros b Hb; apply Rb, Hb]|reflexivity]).
  cbn [bind]. rewrite (bincount_exact _ (nb + 2) Rb).
  - cbn [bind]. intros H. injection H as <-. rewrite !map_length, seq_length. reflexivity.
  - right. apply in_map_iff. exists hi. pose proof S as (_ & [Hin _] & _). split; [|exact Hin]. unfold t, clampZ. rewrite (q_hi lo hi nb data S Hn).
    rewrite (floorZ_unique (INR nb + 1) (Z.of_nat nb + 1)) by (rewrite plus_IZR, <- INR_IZR_INZ; lra). destruct (Z.eqb_spec (Z.of_nat nb + 1) (Z.of_nat nb)); lia.
Qed.
