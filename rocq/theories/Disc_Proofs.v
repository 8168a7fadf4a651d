(** * Proofs about limb darkening and disc integrals. *)
From Coq Require Import List ZArith Lia Reals Lra String Bool Permutation.
From Verif Require Import Base NumInt_Model NumInt_Spec NumInt_Proofs Disc_Model Disc_Spec.
Import ListNotations.
Local Open Scope nat_scope.
Local Open Scope res_scope.

Lemma nodup_split {X} (x : X) l1 l2 l3 l4 :
  NoDup (l1 ++ x :: l2) -> l1 ++ x :: l2 = l3 ++ x :: l4 -> l1 = l3 /\ l2 = l4.
Proof.
  revert l3. induction l1 as [|a l1 IH]; intros [|b l3] Hn He; simpl in *.
  - injection He as ->. auto.
  - injection He as -> He. inversion Hn as [|? ? Hx _]; subst. exfalso. apply Hx.
    apply in_or_app. right. left. reflexivity.
  - injection He as -> He. inversion Hn as [|? ? Hx _]; subst. exfalso. apply Hx.
    apply in_or_app. right. left. reflexivity.
  - injection He as -> He. inversion Hn; subst. destruct (IH l3) as [-> ->]; auto.
Qed.

Section Pass.
Context {num : Type} (A : arith num) (d : num).

Section Run.
Variables (n kb rb : nat) (mem : list num) (tr : list mstep).
Hypothesis Hkb : kb + n <= List.length mem.
Hypothesis Hrb : rb + n <= List.length mem.
Hypothesis Hov : disjoint kb rb n \/ kb = rb.
Hypothesis Htr : legal_trace n tr.

Definition inv (done : list mstep) (st : mstate) : Prop :=
  List.length (memory st) = List.length mem /\
  (forall k, k < n -> In (MWrite k) done -> nth (rb + k) (memory st) d = edd A (nth (kb + k) mem d)) /\
  (forall i, (forall k, k < n -> In (MWrite k) done -> i <> rb + k) -> nth i (memory st) d = nth i mem d) /\
  (forall k, In (MRead k) done -> regs st k = nth (kb + k) mem d).

Lemma run_inv todo : forall done st, tr = done ++ todo -> inv done st ->
  exists st', mrun A (Z.of_nat kb) (Z.of_nat rb) todo st = Ok st' /\ inv tr st'.
Proof.
  destruct Htr as (Hnd & Hr & Hw & Hord).
  induction todo as [|s todo IH]; intros done st Heq Hinv.
  - rewrite app_nil_r in Heq. subst done. exists st. split; [reflexivity|exact Hinv].
  - destruct Hinv as (Hl & Hwr & Hun & Hrg).
    assert (Heq' : tr = (done ++ [s]) ++ todo) by (rewrite <- app_assoc; exact Heq).
    destruct s as [k|k]; cbn [mrun mexec].
    + assert (Hk : k < n) by (apply Hr; rewrite Heq; apply in_or_app; right; left; reflexivity).
      assert (Hnw : ~ In (MWrite k) done).
      { destruct (Hord k Hk) as (a & b & c & E). rewrite E in Heq.
        destruct (nodup_split (MRead k) a (b ++ MWrite k :: c) done todo) as [Ea _]; [rewrite <- E; exact Hnd|exact Heq|]. subst done.
        rewrite E in Hnd. intros Hin.
        apply in_split in Hin. destruct Hin as (x & y & ->).
        rewrite <- app_assoc in Hnd. cbn [app] in Hnd.
        apply NoDup_remove_2 in Hnd. apply Hnd.
        rewrite !in_app_iff. cbn [In]. rewrite in_app_iff. cbn [In]. tauto. }
      rewrite (rd_ok (memory st) _ d) by lia. cbn [bind].
      replace (Z.to_nat (Z.of_nat kb + Z.of_nat k)) with (kb + k) by lia.
      apply (IH (done ++ [MRead k])); [exact Heq'|].
      assert (Hval : nth (kb + k) (memory st) d = nth (kb + k) mem d).
      { apply Hun. intros k' Hk' Hin E. destruct Hov as [Hd|Hd]; [|rewrite Hd in *].
        - unfold disjoint in Hd. lia.
        - assert (k' = k) by lia. subst k'. contradiction. }
      repeat split; cbn [memory regs].
      * exact Hl.
      * intros k' Hk' Hin. apply Hwr; [exact Hk'|].
        apply in_app_or in Hin. destruct Hin as [Hin|[Hin|[]]]; [exact Hin|discriminate].
      * intros i Hi. apply Hun. intros k' Hk' Hin. apply Hi; [exact Hk'|]. apply in_or_app. left. exact Hin.
      * intros k' Hin. destruct (Nat.eqb_spec k' k) as [->|Hne]; [exact Hval|].
        apply Hrg. apply in_app_or in Hin. destruct Hin as [Hin|[Hin|[]]]; [exact Hin|congruence].
    + assert (Hk : k < n) by (apply Hw; rewrite Heq; apply in_or_app; right; left; reflexivity).
      assert (Hrd : In (MRead k) done).
      { destruct (Hord k Hk) as (a & b & c & E).
        assert (E' : tr = (a ++ MRead k :: b) ++ MWrite k :: c) by (rewrite <- app_assoc; exact E).
        rewrite E' in Heq.
        destruct (nodup_split (MWrite k) (a ++ MRead k :: b) c done todo) as [Ea _]; [rewrite <- E'; exact Hnd|exact Heq|]. subst done.
        apply in_or_app. right. left. reflexivity. }
      unfold wr. destruct (Z.ltb_spec (Z.of_nat rb + Z.of_nat k) 0); [lia|].
      replace (Z.to_nat (Z.of_nat rb + Z.of_nat k)) with (rb + k) by lia.
      destruct (Nat.ltb_spec (rb + k) (List.length (memory st))); [|lia]. cbn [bind].
      apply (IH (done ++ [MWrite k])); [exact Heq'|].
      assert (Hndk : ~ In (MWrite k) done).
      { rewrite Heq in Hnd. apply NoDup_remove_2 in Hnd. intros Hin. apply Hnd. apply in_or_app. left. exact Hin. }
      repeat split; cbn [memory regs].
      * rewrite upd_length. exact Hl.
      * intros k' Hk' Hin. destruct (Nat.eq_dec k' k) as [->|Hne].
        -- rewrite nth_upd_eq by lia. rewrite (Hrg k Hrd). reflexivity.
        -- rewrite nth_upd_ne by lia. apply Hwr; [exact Hk'|].
           apply in_app_or in Hin. destruct Hin as [Hin|[Hin|[]]]; [exact Hin|congruence].
      * intros i Hi. rewrite nth_upd_ne.
        -- apply Hun. intros k' Hk' Hin. apply Hi; [exact Hk'|]. apply in_or_app. left. exact Hin.
        -- intros E. apply (Hi k Hk); [|symmetry; exact E]. apply in_or_app. right. left. reflexivity.
      * intros k' Hin. apply Hrg. apply in_app_or in Hin. destruct Hin as [Hin|[Hin|[]]]; [exact Hin|discriminate].
Qed.

Lemma pass_char : exists mem', pass A (Z.of_nat kb) (Z.of_nat rb) tr mem = Ok mem' /\
  List.length mem' = List.length mem /\
  (forall k, k < n -> nth (rb + k) mem' d = edd A (nth (kb + k) mem d)) /\
  (forall i, i < rb \/ rb + n <= i -> nth i mem' d = nth i mem d).
Proof.
  destruct (run_inv tr [] (MS mem (fun _ => nofZ A 0)) eq_refl) as (st & E & Hl & Hwr & Hun & _).
  - repeat split; cbn [memory regs]; try reflexivity.
    + intros k _ [].
    + intros k [].
  - exists (memory st). unfold pass. rewrite E. cbn [bind]. repeat split.
    + exact Hl.
    + intros k Hk. apply Hwr; [exact Hk|]. destruct Htr as (_ & _ & Hw & _). apply Hw. exact Hk.
    + intros i Hi. apply Hun. intros; lia.
Qed.
End Run.

(** String table. *)
Lemma ld_index_val t k :
  (forall k z, tlookup t k = Some z -> z = 0%Z) -> snd (ld_index t k) = 0%Z /\
  (forall k' z, tlookup (fst (ld_index t k)) k' = Some z -> z = 0%Z).
Proof.
  intros H. unfold ld_index. destruct (tlookup t k) eqn:E; cbn [fst snd].
  - split; [exact (H k z E)|exact H].
  - split; [reflexivity|]. intros k' z. cbn [tlookup]. destruct (String.eqb k' k); [intros [= <-]; reflexivity|apply H].
Qed.

Lemma ld_after_zero names : forall k z, tlookup (ld_after names) k = Some z -> z = 0%Z.
Proof.
  unfold ld_after. assert (G : forall t, (forall k z, tlookup t k = Some z -> z = 0%Z) ->
    forall k z, tlookup (fold_left (fun t k => fst (ld_index t k)) names t) k = Some z -> z = 0%Z).
  { induction names as [|x names IH]; intros t Ht; [exact Ht|]. cbn [fold_left]. apply IH. apply ld_index_val. exact Ht. }
  apply G. intros k z. cbn. destruct (String.eqb k "eddington"); [intros [= <-]; reflexivity|discriminate].
Qed.

Lemma ld_call_char hist name kap res_ tr1 tr2 mem :
  ld_call A hist name kap res_ tr1 tr2 mem =
  bind (pass A (vbase kap) (vbase res_) tr1 mem) (fun m => pass A (vbase kap) (vbase res_) tr2 m).
Proof.
  unfold ld_call. pose proof (ld_index_val (ld_after hist) name (ld_after_zero hist)) as [E _].
  destruct (ld_index (ld_after hist) name) as [t sel]. cbn [snd] in E. subst sel. reflexivity.
Qed.

(** Full call, disjoint buffers. *)
Lemma ld_disjoint hist name n kb rb s1 s2 l2 mem tr1 tr2 :
  kb + n <= List.length mem -> rb + n <= List.length mem -> disjoint kb rb n ->
  legal_trace n tr1 -> legal_trace n tr2 ->
  exists mem', ld_call A hist name (View (Z.of_nat kb) s1 n) (View (Z.of_nat rb) s2 l2) tr1 tr2 mem = Ok mem' /\
  List.length mem' = List.length mem /\
  (forall k, k < n -> nth (rb + k) mem' d = edd A (nth (kb + k) mem d)) /\
  (forall i, i < rb \/ rb + n <= i -> nth i mem' d = nth i mem d).
Proof.
  intros Hk Hr Hd H1 H2. rewrite ld_call_char. cbn [vbase].
  destruct (pass_char n kb rb mem tr1 Hk Hr (or_introl Hd) H1) as (m1 & E1 & L1 & W1 & U1).
  rewrite E1. cbn [bind].
  destruct (pass_char n kb rb m1 tr2 ltac:(lia) ltac:(lia) (or_introl Hd) H2) as (m2 & E2 & L2 & W2 & U2).
  exists m2. rewrite E2. split; [reflexivity|]. split; [lia|]. split.
  - intros k Hkn. rewrite W2 by exact Hkn. rewrite U1; [reflexivity|]. unfold disjoint in Hd. lia.
  - intros i Hi. rewrite U2, U1 by exact Hi. reflexivity.
Qed.

(** Full call, in place. *)
Lemma ld_alias hist name n kb s1 s2 l2 mem tr1 tr2 :
  kb + n <= List.length mem -> legal_trace n tr1 -> legal_trace n tr2 ->
  exists mem', ld_call A hist name (View (Z.of_nat kb) s1 n) (View (Z.of_nat kb) s2 l2) tr1 tr2 mem = Ok mem' /\
  List.length mem' = List.length mem /\
  (forall k, k < n -> nth (kb + k) mem' d = edd A (edd A (nth (kb + k) mem d))) /\
  (forall i, i < kb \/ kb + n <= i -> nth i mem' d = nth i mem d).
Proof.
  intros Hk H1 H2. rewrite ld_call_char. cbn [vbase].
  destruct (pass_char n kb kb mem tr1 Hk Hk (or_intror eq_refl) H1) as (m1 & E1 & L1 & W1 & U1).
  rewrite E1. cbn [bind].
  destruct (pass_char n kb kb m1 tr2 ltac:(lia) ltac:(lia) (or_intror eq_refl) H2) as (m2 & E2 & L2 & W2 & U2).
  exists m2. rewrite E2. split; [reflexivity|]. split; [lia|]. split.
  - intros k Hkn. rewrite W2, W1 by exact Hkn. reflexivity.
  - intros i Hi. rewrite U2, U1 by exact Hi. reflexivity.
Qed.

Lemma ld_name_irrelevant hist hist' name name' kap res_ tr1 tr2 mem :
  ld_call A hist name kap res_ tr1 tr2 mem = ld_call A hist' name' kap res_ tr1 tr2 mem.
Proof. rewrite !ld_call_char. reflexivity. Qed.
End Pass.

(** The serial schedule is legal. *)
Lemma serial_legal n : legal_trace n (serial_trace n).
Proof.
  unfold serial_trace.
  assert (HinR : forall k m s, In (MRead k) (flat_map (fun k => [MRead k; MWrite k]) (seq s m)) <-> s <= k < s + m).
  { intros k m s. rewrite in_flat_map. split.
    - intros (x & Hx & [H|[H|[]]]); [|discriminate]. injection H as ->. apply in_seq in Hx. lia.
    - intros H. exists k. split; [apply in_seq; lia|left; reflexivity]. }
  assert (HinW : forall k m s, In (MWrite k) (flat_map (fun k => [MRead k; MWrite k]) (seq s m)) <-> s <= k < s + m).
  { intros k m s. rewrite in_flat_map. split.
    - intros (x & Hx & [H|[H|[]]]); [discriminate|]. injection H as ->. apply in_seq in Hx. lia.
    - intros H. exists k. split; [apply in_seq; lia|right; left; reflexivity]. }
  repeat split.
  - generalize 0. induction n as [|n IH]; intros s; cbn [seq flat_map app]; [constructor|].
    constructor; [|constructor; [|apply IH]].
    + intros [H|H]; [discriminate|]. apply HinR in H. lia.
    + intros H. apply HinW in H. lia.
  - intros H. apply HinR in H. lia.
  - intros H. apply HinR. lia.
  - intros H. apply HinW in H. lia.
  - intros H. apply HinW. lia.
  - intros k Hk. exists (flat_map (fun k => [MRead k; MWrite k]) (seq 0 k)), [],
      (flat_map (fun k => [MRead k; MWrite k]) (seq (S k) (n - S k))).
    replace n with (k + S (n - S k)) at 1 by lia.
    rewrite seq_app, flat_map_app. f_equal.
Qed.

(** ** Disc integrals *)
Section DiscP.
Context {num : Type} (O : arith_ord num).
Let A := oar O.
Let d0 := nofZ A 0.

Definition quad : Type := (num * num * num * num)%type.
Definition q1 (q : quad) := let '(m,_,_,_) := q in m.
Definition q2 (q : quad) := let '(_,a,_,_) := q in a.
Definition q3 (q : quad) := let '(_,_,f,_) := q in f.
Definition q4 (q : quad) := let '(_,_,_,s) := q in s.
Definition unz (l : list quad) : disc_data := DD (map q1 l) (map q2 l) (map q3 l) (map q4 l).
Definition kept (l : list quad) : list quad := filter (fun q => in_disc O (q1 q)) l.

Lemma rd_map {X Y} (f : X -> Y) l i : rd (map f l) i = bind (rd l i) (fun x => Ok (f x)).
Proof.
  unfold rd. destruct (i <? 0)%Z; [reflexivity|]. rewrite nth_error_map.
  destruct (nth_error l (Z.to_nat i)); reflexivity.
Qed.

Lemma loopn_snoc {St} k : forall i (body : Z -> St -> res St) s,
  loopn (S k) i body s = bind (loopn k i body s) (body (i + Z.of_nat k)%Z).
Proof.
  induction k as [|k IH]; intros i body s.
  - cbn [loopn bind]. rewrite Z.add_0_r. destruct (body i s); reflexivity.
  - change (loopn (S (S k)) i body s) with (bind (body i s) (loopn (S k) (i + 1)%Z body)).
    change (loopn (S k) i body s) with (bind (body i s) (loopn k (i + 1)%Z body)).
    destruct (body i s) as [s'| |e]; cbn [bind]; try reflexivity.
    rewrite IH. f_equal. f_equal. lia.
Qed.

Lemma adjust_unz l : adjust O (Z.of_nat (List.length l)) (unz l) = Ok (unz (kept l)).
Proof.
  unfold adjust, for_. replace (Z.to_nat (Z.of_nat (List.length l) - 0)) with (List.length l) by lia.
  assert (G : forall k, k <= List.length l ->
    loopn k 0%Z (fun i acc =>
    mu <- rd (d_mu (unz l)) i ;
    if in_disc O mu then
      a <- rd (d_ang (unz l)) i ; f <- rd (d_first (unz l)) i ; s <- rd (d_second (unz l)) i ;
      Ok (DD (d_mu acc ++ [mu]) (d_ang acc ++ [a]) (d_first acc ++ [f]) (d_second acc ++ [s]))
    else Ok acc) (DD [] [] [] []) = Ok (unz (kept (firstn k l)))).
  { induction k as [|k IH]; intros Hk; [reflexivity|].
    rewrite loopn_snoc, IH by lia. cbn [bind].
    rewrite Z.add_0_l. cbn [unz d_mu d_ang d_first d_second]. rewrite !rd_map.
    destruct (nth_error l k) as [q|] eqn:E; [|apply nth_error_None in E; lia].
    assert (Er : rd l (Z.of_nat k) = Ok q).
    { unfold rd. destruct (Z.ltb_spec (Z.of_nat k) 0); [lia|]. rewrite Nat2Z.id, E. reflexivity. }
    rewrite Er. cbn [bind].
    assert (Ef : firstn (S k) l = firstn k l ++ [q]).
    { clear - E. revert k E. induction l as [|x l IH]; intros [|k] E; cbn in *; try discriminate.
      - injection E as ->. reflexivity.
      - f_equal. apply IH. exact E. }
    rewrite Ef. unfold kept. rewrite filter_app. cbn [filter].
    destruct (in_disc O (q1 q)); cbn [app].
    - unfold unz. rewrite !map_app. reflexivity.
    - rewrite app_nil_r. reflexivity. }
  rewrite G by lia. rewrite firstn_all. reflexivity.
Qed.

Lemma fold_fill_perm (g : nat -> res num) (h : nat -> num) n ord v :
  NoDup ord -> (forall j, In j ord -> j < n /\ g j = Ok (h j)) -> List.length v = n ->
  exists v', fold_left (fun v j => v' <- v ; x <- g j ; wr v' (Z.of_nat j) x) ord (Ok v) = Ok v' /\
    List.length v' = n /\
    (forall j, In j ord -> nth j v' d0 = h j) /\ (forall j, ~ In j ord -> nth j v' d0 = nth j v d0).
Proof.
  revert v. induction ord as [|j ord IH]; intros v Hn Hg Hl.
  - exists v. repeat split; auto. intros j [].
  - cbn [fold_left bind]. destruct (Hg j (or_introl eq_refl)) as [Hj Ej]. rewrite Ej. cbn [bind].
    unfold wr at 2. destruct (Z.ltb_spec (Z.of_nat j) 0); [lia|]. rewrite Nat2Z.id.
    destruct (Nat.ltb_spec j (List.length v)); [|lia].
    inversion Hn as [|? ? Hnj Hno]; subst.
    destruct (IH (upd v j (h j))) as (v' & E & L & W & U).
    + exact Hno.
    + intros i Hi. apply Hg. right. exact Hi.
    + apply upd_length.
    + exists v'. rewrite E. split; [reflexivity|]. split; [exact L|]. split.
      * intros i [->|Hi]; [|apply W; exact Hi]. rewrite U by exact Hnj. apply nth_upd_eq. lia.
      * intros i Hi. rewrite U by (intros Hx; apply Hi; right; exact Hx). apply nth_upd_ne.
        intros ->. apply Hi. left. reflexivity.
Qed.

Lemma fill_perm (g : nat -> res num) (h : nat -> num) n ord :
  Permutation ord (seq 0 n) -> (forall j, j < n -> g j = Ok (h j)) ->
  fill O ord n g = Ok (map h (seq 0 n)).
Proof.
  intros HP Hg. unfold fill.
  destruct (fold_fill_perm g h n ord (repeat (nofZ (oar O) 0) n)) as (v' & E & L & W & U).
  - apply (Permutation_NoDup (Permutation_sym HP)). apply seq_NoDup.
  - intros j Hj. assert (j < n) by (apply (Permutation_in _ HP) in Hj; apply in_seq in Hj; lia). split; auto.
  - apply repeat_length.
  - rewrite E. f_equal. apply (nth_ext _ _ d0 (h 0)); [rewrite map_length, seq_length; exact L|].
    intros i Hi. rewrite (map_nth h), seq_nth by lia. apply W.
    apply (Permutation_in _ (Permutation_sym HP)). apply in_seq. lia.
Qed.

Lemma disc_ld_ok lhist name tr1 tr2 mus :
  legal_trace (List.length mus) tr1 -> legal_trace (List.length mus) tr2 ->
  disc_ld O lhist name tr1 tr2 mus = Ok (map (edd A) mus).
Proof.
  intros H1 H2. unfold disc_ld.
  set (n := List.length mus) in *.
  assert (Hlen : List.length (mus ++ repeat (nofZ (oar O) 0) n) = n + n)
    by (rewrite app_length, repeat_length; reflexivity).
  destruct (ld_disjoint (oar O) d0 lhist name n 0 n 1%Z 1%Z n (mus ++ repeat (nofZ (oar O) 0) n) tr1 tr2)
    as (mem' & E & L & W & U); try (unfold disjoint; lia); try assumption.
  change (Z.of_nat 0) with 0%Z in E. rewrite E. cbn [bind]. f_equal.
  apply (nth_ext _ _ d0 (edd A d0)).
  - rewrite skipn_length, map_length. lia.
  - intros i Hi. rewrite skipn_length in Hi. rewrite (map_nth (edd A)).
    assert (Hn : List.length (firstn n mem') = n) by (rewrite firstn_length; lia).
    specialize (W i ltac:(lia)). rewrite <- (firstn_skipn n mem') in W.
    rewrite app_nth2 in W by lia. rewrite Hn in W.
    replace (n + i - n) with i in W by lia. rewrite W. rewrite Nat.add_0_l.
    rewrite app_nth1 by lia. reflexivity.
Qed.

Definition k1 (q : quad) : num :=
  nmul A (nmul A (q1 q) (q2 q)) (edd A (q1 q)).
Definition k2 (q : quad) : num :=
  nmul A (nmul A (nadd A (nmul A (nmul A (nofZ A 2) (q1 q)) (q3 q))
     (nmul A (nsub A (npow O (q1 q) (nofZ A 2)) (nofZ A 1)) (q4 q))) (edd A (q1 q))) (q1 q).

Lemma map_seq_nth {X Y} (f : X -> Y) (l : list X) dx :
  map (fun j => f (nth j l dx)) (seq 0 (List.length l)) = map f l.
Proof.
  apply (nth_ext _ _ (f dx) (f dx)); [rewrite !map_length, seq_length; reflexivity|].
  intros i Hi. rewrite map_length, seq_length in Hi.
  rewrite (nth_indep _ (f dx) (f (nth 0 l dx))) by (rewrite map_length, seq_length; exact Hi).
  rewrite (map_nth (fun j => f (nth j l dx))), seq_nth by exact Hi. rewrite (map_nth f). reflexivity.
Qed.

Definition quads (mus ang first second : list num) : list quad :=
  combine (combine (combine mus ang) first) second.

Lemma unz_quads mus ang first second :
  List.length ang = List.length mus -> List.length first = List.length mus -> List.length second = List.length mus ->
  unz (quads mus ang first second) = DD mus ang first second /\
  List.length (quads mus ang first second) = List.length mus.
Proof.
  intros H1 H2 H3. split.
  - unfold unz, quads. f_equal.
    + revert ang first second H1 H2 H3. induction mus as [|m mus IH]; intros [|a ang] [|f first] [|s second] H1 H2 H3; simpl in *; try lia; try reflexivity. f_equal. apply IH; lia.
    + revert ang first second H1 H2 H3. induction mus as [|m mus IH]; intros [|a ang] [|f first] [|s second] H1 H2 H3; simpl in *; try lia; try reflexivity. f_equal. apply IH; lia.
    + revert ang first second H1 H2 H3. induction mus as [|m mus IH]; intros [|a ang] [|f first] [|s second] H1 H2 H3; simpl in *; try lia; try reflexivity. f_equal. apply IH; lia.
    + revert ang first second H1 H2 H3. induction mus as [|m mus IH]; intros [|a ang] [|f first] [|s second] H1 H2 H3; simpl in *; try lia; try reflexivity. f_equal. apply IH; lia.
  - unfold quads, quad. rewrite !combine_length. lia.
Qed.

Lemma get_integrals_char lhist ihist tr1 tr2 ord1 ord2 mus ang first second ldname method threads par :
  List.length ang = List.length mus -> List.length first = List.length mus -> List.length second = List.length mus ->
  let K := kept (quads mus ang first second) in
  legal_trace (List.length K) tr1 -> legal_trace (List.length K) tr2 ->
  Permutation ord1 (seq 0 (List.length K)) -> Permutation ord2 (seq 0 (List.length K)) ->
  get_integrals O lhist ihist tr1 tr2 ord1 ord2 mus ang first second ldname method threads par =
  bind (integrate A ihist method true (map k1 K) (map q1 K) threads par) (fun r1 =>
  bind (integrate A ihist method true (map k2 K) (map q1 K) threads par) (fun r2 => Ok (r1, r2))).
Proof.
  intros H1 H2 H3 K T1 T2 P1 P2. unfold get_integrals.
  destruct (unz_quads mus ang first second H1 H2 H3) as [E L].
  rewrite <- E, <- L, adjust_unz. cbn [bind]. fold K.
  change (d_mu (unz K)) with (map q1 K). rewrite map_length.
  rewrite disc_ld_ok by (rewrite map_length; assumption). cbn [bind].
  pose (qd := (d0, d0, d0, d0)).
  rewrite (fill_perm (first_integrand O (unz K) (map (edd A) (map q1 K))) (fun j => k1 (nth j K qd))); [|exact P1|].
  2:{ intros j Hj. unfold first_integrand, unz. cbn [d_mu d_ang]. rewrite !rd_map.
      rewrite (rd_ok K _ qd) by lia. cbn [bind]. rewrite Nat2Z.id. reflexivity. }
  cbn [bind]. rewrite map_seq_nth.
  rewrite (fill_perm (second_integrand O (unz K) (map (edd A) (map q1 K))) (fun j => k2 (nth j K qd))); [|exact P2|].
  2:{ intros j Hj. unfold second_integrand, unz. cbn [d_mu d_first d_second]. rewrite !rd_map.
      rewrite (rd_ok K _ qd) by lia. cbn [bind]. rewrite Nat2Z.id. reflexivity. }
  rewrite map_seq_nth. reflexivity.
Qed.

Lemma get_integrals_safe lhist ihist tr1 tr2 ord1 ord2 mus ang first second ldname method threads par :
  List.length ang = List.length mus -> List.length first = List.length mus -> List.length second = List.length mus ->
  let K := kept (quads mus ang first second) in
  legal_trace (List.length K) tr1 -> legal_trace (List.length K) tr2 ->
  Permutation ord1 (seq 0 (List.length K)) -> Permutation ord2 (seq 0 (List.length K)) ->
  (2 <= List.length K -> exists r1 r2,
     integrate A ihist method true (map k1 K) (map q1 K) threads par = Ok r1 /\
     integrate A ihist method true (map k2 K) (map q1 K) threads par = Ok r2 /\
     get_integrals O lhist ihist tr1 tr2 ord1 ord2 mus ang first second ldname method threads par = Ok (r1, r2)) /\
  (List.length K < 2 ->
     get_integrals O lhist ihist tr1 tr2 ord1 ord2 mus ang first second ldname method threads par = UB).
Proof.
  intros H1 H2 H3 K T1 T2 P1 P2. split; intros Hn.
  - assert (B : forall k : quad -> num, exists r, integrate A ihist method true (map k K) (map q1 K) threads par = Ok r).
    { intros k. apply integrate_safe. unfold in_bounds. rewrite !map_length.
      destruct (String.eqb method "simpson" && Nat.odd (List.length K))%bool eqn:E; [|lia].
      apply andb_true_iff in E. destruct E as [_ E]. apply Nat.odd_spec in E. destruct E as [q E]. lia. }
    destruct (B k1) as [r1 E1]. destruct (B k2) as [r2 E2].
    exists r1, r2. split; [exact E1|]. split; [exact E2|].
    rewrite get_integrals_char by assumption. fold K. rewrite E1. cbn [bind]. rewrite E2. reflexivity.
  - rewrite get_integrals_char by assumption. fold K.
    rewrite integrate_unsafe; [reflexivity|]. unfold in_bounds. rewrite !map_length.
    destruct (String.eqb method "simpson" && Nat.odd (List.length K))%bool; lia.
Qed.
End DiscP.

(** ** Exact-arithmetic instance *)
Local Open Scope R_scope.
Lemma in_disc_R m : in_disc RO m = if Rle_dec 0 m then if Rle_dec m 1 then true else false else false.
Proof.
  unfold in_disc. cbn [RO oar nleb]. rewrite !nofZ_RA.
  destruct (Rle_dec 0 m), (Rle_dec m 1); reflexivity.
Qed.

Lemma kept_R mus ang first second :
  kept RO (quads mus ang first second) = keep4 mus ang first second.
Proof.
  unfold kept, keep4, quads. apply filter_ext. intros [[[m a] f] s]. cbn [q1]. apply in_disc_R.
Qed.

Lemma edd_R x : edd RA x = 1 + 3 / 2 * x.
Proof. unfold edd. rewrite nofZ_RA. simpl. lra. Qed.

Lemma k1_R q : k1 RO q = kernel1 q.
Proof. destruct q as [[[m a] f] s]. unfold k1, kernel1. cbn [RO oar q1 q2]. rewrite edd_R. reflexivity. Qed.
Lemma k2_R q : k2 RO q = kernel2 q.
Proof.
  destruct q as [[[m a] f] s]. unfold k2, kernel2. cbn [RO oar npow q1 q3 q4]. rewrite edd_R, !nofZ_RA.
  cbn [RA nmul nadd nsub]. destruct (Req_EM_T 2 2); [|lra]. reflexivity.
Qed.
Lemma q1_R (q : R * R * R * R) : q1 q = mu4 q.
Proof. destruct q as [[[m a] f] s]. reflexivity. Qed.

Lemma disc_R lhist ihist tr1 tr2 ord1 ord2 mus ang first second ldname method threads par :
  List.length ang = List.length mus -> List.length first = List.length mus -> List.length second = List.length mus ->
  let K := keep4 mus ang first second in
  legal_trace (List.length K) tr1 -> legal_trace (List.length K) tr2 ->
  Permutation ord1 (seq 0 (List.length K)) -> Permutation ord2 (seq 0 (List.length K)) ->
  ((2 <= List.length K)%nat -> exists r1 r2,
     integrate RA ihist method true (map kernel1 K) (map mu4 K) threads par = Ok r1 /\
     integrate RA ihist method true (map kernel2 K) (map mu4 K) threads par = Ok r2 /\
     get_integrals RO lhist ihist tr1 tr2 ord1 ord2 mus ang first second ldname method threads par = Ok (r1, r2)) /\
  ((List.length K < 2)%nat ->
     get_integrals RO lhist ihist tr1 tr2 ord1 ord2 mus ang first second ldname method threads par = UB).
Proof.
  intros H1 H2 H3 K T1 T2 P1 P2.
  pose proof (get_integrals_safe RO lhist ihist tr1 tr2 ord1 ord2 mus ang first second ldname method threads par H1 H2 H3) as G.
  cbv zeta in G. rewrite kept_R in G. fold K in G.
  rewrite (map_ext _ _ k1_R), (map_ext _ _ k2_R), (map_ext _ _ q1_R) in G. auto.
Qed.

(** Uniform retained grid: unequal trapezoid as well. *)
Lemma disc_uniform lhist ihist tr1 tr2 ord1 ord2 mus ang first second ldname threads par a h :
  List.length ang = List.length mus -> List.length first = List.length mus -> List.length second = List.length mus ->
  let K := keep4 mus ang first second in
  legal_trace (List.length K) tr1 -> legal_trace (List.length K) tr2 ->
  Permutation ord1 (seq 0 (List.length K)) -> Permutation ord2 (seq 0 (List.length K)) ->
  (2 <= List.length K)%nat -> map mu4 K = uniform a h (List.length K) ->
  get_integrals RO lhist ihist tr1 tr2 ord1 ord2 mus ang first second ldname "trapz" threads par =
   Ok (trapezoid_sum (pt (map mu4 K)) (pt (map kernel1 K)) (List.length K),
       trapezoid_sum (pt (map mu4 K)) (pt (map kernel2 K)) (List.length K)).
Proof.
  intros H1 H2 H3 K T1 T2 P1 P2 Hn Hu.
  destruct (disc_R lhist ihist tr1 tr2 ord1 ord2 mus ang first second ldname "trapz" threads par H1 H2 H3 T1 T2 P1 P2) as [G _].
  destruct (G Hn) as (r1 & r2 & E1 & E2 & E3). fold K in E1, E2. rewrite E3.
  assert (S : forall k : _ -> R, integrate RA ihist "trapz" true (map k K) (map mu4 K) threads par
     = Ok (trapezoid_sum (pt (map mu4 K)) (pt (map k K)) (List.length K))).
  { intros k. pose proof (trapz_uniform_agree ihist ihist (map k K) a h threads par threads par) as U.
    rewrite map_length, <- Hu in U. rewrite U by exact Hn.
    rewrite trapz_composite by (rewrite !map_length; lia). rewrite map_length. reflexivity. }
  rewrite S in E1, E2. injection E1 as <-. injection E2 as <-. reflexivity.
Qed.

(** ** Witnesses *)
Lemma ld_alias_wrong :
  exists mem tr mem', legal_trace 1 tr /\
    ld_call RA [] "eddington" (View 0 1 1) (View 0 1 1) tr tr mem = Ok mem' /\
    nth 0 mem' 0 <> (1 + 3/2 * nth 0 mem 0).
Proof.
  destruct (ld_alias RA 0 [] "eddington" 1 0 1 1 1 [0] (serial_trace 1) (serial_trace 1)) as (m & E & _ & W & _);
    [simpl; lia|apply serial_legal|apply serial_legal|].
  exists [0], (serial_trace 1), m. split; [apply serial_legal|]. split; [exact E|].
  specialize (W 0%nat ltac:(lia)). cbn [Nat.add] in W. rewrite W, !edd_R. simpl. lra.
Qed.

Lemma ld_strides {num} (A : arith num) hist name kap kap' out out' tr1 tr2 mem :
  vbase kap = vbase kap' -> vbase out = vbase out' ->
  ld_call A hist name kap out tr1 tr2 mem = ld_call A hist name kap' out' tr1 tr2 mem.
Proof. intros H1 H2. rewrite !ld_call_char, H1, H2. reflexivity. Qed.

Lemma ld_strided_wrong :
  (exists mem mem',
     ld_call RA [] "eddington" (View 0 2 2) (View 4 1 2) (serial_trace 2) (serial_trace 2) mem = Ok mem' /\
     exists x y, vget mem (View 0 2 2) 1 = Ok x /\ vget mem' (View 4 1 2) 1 = Ok y /\ y <> 1 + 3/2 * x) /\
  (exists mem : list R,
     (exists x, vget mem (View 1 (-1) 2) 1 = Ok x) /\
     ld_call RA [] "eddington" (View 1 (-1) 2) (View 0 1 2) (serial_trace 2) (serial_trace 2) mem = UB).
Proof.
  split.
  - destruct (ld_disjoint RA 0 [] "eddington" 2 0 4 2 1 2 [0;1;2;3;4;5] (serial_trace 2) (serial_trace 2))
      as (m & E & L & W & U); try (simpl; lia); try (unfold disjoint; lia); try apply serial_legal.
    exists [0;1;2;3;4;5], m. split; [exact E|].
    exists 2, (nth 5 m 0). split; [reflexivity|]. split.
    + unfold vget. cbn [vbase vstride]. change (4 + Z.of_nat 1 * 1)%Z with 5%Z.
      rewrite (rd_ok m 5 0); [reflexivity|rewrite L; simpl; lia].
    + specialize (W 1%nat ltac:(lia)). cbn [Nat.add] in W. rewrite W, edd_R. simpl. lra.
  - exists [7;8]. split; [exists 7; reflexivity|].
    rewrite ld_call_char. reflexivity.
Qed.

Lemma disc_nonuniform :
  exists mus ang first second r1 r2,
    let K := keep4 mus ang first second in
    List.length K = 3%nat /\
    get_integrals RO [] [] (serial_trace 3) (serial_trace 3) [0;1;2]%nat [0;1;2]%nat
      mus ang first second "eddington" "trapz" 1 false = Ok (r1, r2) /\
    r1 <> trapezoid_sum (pt (map mu4 K)) (pt (map kernel1 K)) (List.length K).
Proof.
  assert (EK : keep4 [0; 1/4; 1] [0;0;1] [0;0;0] [0;0;0] = [(0,0,0,0); (1/4,0,0,0); (1,1,0,0)]).
  { unfold keep4. cbn [combine filter].
    repeat (match goal with |- context [Rle_dec ?x ?y] => destruct (Rle_dec x y); try lra end). reflexivity. }
  destruct (disc_R [] [] (serial_trace 3) (serial_trace 3) [0;1;2]%nat [0;1;2]%nat [0; 1/4; 1] [0;0;1] [0;0;0] [0;0;0]
     "eddington" "trapz" 1%Z false) as [G _]; try reflexivity;
     try (rewrite EK; apply serial_legal); try (rewrite EK; apply Permutation_refl).
  destruct G as (r1 & r2 & E1 & E2 & E3); [rewrite EK; simpl; lia|].
  exists [0; 1/4; 1], [0;0;1], [0;0;0], [0;0;0], r1, r2. cbv zeta. rewrite EK in *.
  split; [reflexivity|]. split; [exact E3|].
  rewrite integrate_char in E1. cbn [String.eqb Ascii.eqb Bool.eqb] in E1. unfold trapz in E1.
  rewrite trapz_es_R in E1 by (simpl; lia).
  injection E1 as <-. rewrite trapezoid_sum_Rsum.
  cbn [List.length map kernel1 mu4 Rsum Nat.sub]. unfold pt. cbn [nth]. lra.
Qed.
