(** * Proofs: attributes, cuts, array arithmetic *)
From Coq Require Import List ZArith Lia Reals Lra String Ascii Bool.
From Coquelicot Require Import Complex.
From Verif Require Import Base Py NumDeriv_Model Load_Model Load_Proofs Load_Dim Grid_Model Grid_Spec Grid_Interp.
Import ListNotations.
Local Open Scope string_scope.

(** ** names *)
Lemma has_iff k l : has k l = true <-> In k l.
Proof.
  unfold has. rewrite existsb_exists. split.
  - intros (x & H & E). apply String.eqb_eq in E. subst. exact H.
  - intros H. exists k. split; [exact H|apply String.eqb_refl].
Qed.
Lemma has_false k l : has k l = false <-> ~ In k l.
Proof. rewrite <- has_iff. destruct (has k l); split; intros; try discriminate; try tauto. Qed.
Lemma oset_same o k v : oset o k v k = Some v.
Proof. unfold oset. destruct (string_dec k k); [reflexivity|contradiction]. Qed.
Lemma oset_other o k v k' : k' <> k -> oset o k v k' = o k'.
Proof. unfold oset. destruct (string_dec k' k); [contradiction|reflexivity]. Qed.

Lemma app_inj_tail_s (a b t : string) : a ++ t = b ++ t -> a = b.
Proof.
  revert b. induction a as [|c a IH]; intros [|d b] H; cbn in H.
  - reflexivity.
  - exfalso. apply (f_equal String.length) in H. cbn in H.
    assert (K : forall x y, String.length (x ++ y) = (String.length x + String.length y)%nat) by (induction x; cbn; intros; [reflexivity|f_equal; auto]).
    rewrite K in H. lia.
  - exfalso. apply (f_equal String.length) in H. cbn in H.
    assert (K : forall x y, String.length (x ++ y) = (String.length x + String.length y)%nat) by (induction x; cbn; intros; [reflexivity|f_equal; auto]).
    rewrite K in H. lia.
  - injection H as -> H. f_equal. apply IH, H.
Qed.
Lemma las_app a b : list_ascii_of_string (a ++ b) = (list_ascii_of_string a ++ list_ascii_of_string b)%list.
Proof. induction a; cbn; [reflexivity|f_equal; auto]. Qed.
(** s ends in t *)
Definition endsb (t s : string) : bool :=
  match strip (rev (list_ascii_of_string t)) (rev (list_ascii_of_string s)) with Some _ => true | None => false end.
Lemma strip_app w r : strip w (w ++ r)%list = Some r.
Proof. induction w; cbn; [reflexivity|]. rewrite Ascii.eqb_refl. exact IHw. Qed.
Lemma endsb_app a t : endsb t (a ++ t) = true.
Proof. unfold endsb. rewrite las_app, rev_app_distr, strip_app. reflexivity. Qed.
Definition mode_no (i : nat) : string := (match i with 1 => "1" | 2 => "2" | _ => "3" end)%nat.
Lemma mode_attr_eq k i : mode_attr k i = ("_" ++ k) ++ ("_mode_" ++ mode_no i).
Proof. reflexivity. Qed.
Lemma mode_attr_inj k i k' : mode_attr k i = mode_attr k' i -> k = k'.
Proof. rewrite !mode_attr_eq. intros H. apply app_inj_tail_s in H. cbn in H. injection H as H. exact H. Qed.
Lemma mode_attr_ends k i : endsb ("_mode_" ++ mode_no i) (mode_attr k i) = true.
Proof. rewrite mode_attr_eq. apply endsb_app. Qed.
Lemma not_mode s i : endsb ("_mode_" ++ mode_no i) s = false -> forall k, s <> mode_attr k i.
Proof. intros H k ->. rewrite mode_attr_ends in H. discriminate. Qed.
Lemma endsb_last_char t s c d : endsb (t ++ String c "") s = true -> endsb (t ++ String d "") s = true -> c = d.
Proof.
  unfold endsb. rewrite !las_app, !rev_app_distr. cbn. destruct (rev (list_ascii_of_string s)) as [|e l]; [discriminate|].
  destruct (Ascii.eqb_spec c e); [|discriminate]. destruct (Ascii.eqb_spec d e); [|discriminate]. congruence.
Qed.
Lemma mode_attr_other k i k' j : (1 <= i <= 3)%nat -> (1 <= j <= 3)%nat -> i <> j -> mode_attr k i <> mode_attr k' j.
Proof.
  intros Hi Hj N E. pose proof (mode_attr_ends k i) as A. pose proof (mode_attr_ends k' j) as B. rewrite <- E in B.
  destruct i as [|[|[|[|]]]]; destruct j as [|[|[|[|]]]]; try lia; cbn [mode_no] in A, B;
    pose proof (endsb_last_char _ _ _ _ A B); discriminate.
Qed.
Definition prof_attr (k : string) : string := "_" ++ k ++ "_profile".
Lemma prof_attr_ends k : endsb "_profile" (prof_attr k) = true.
Proof. apply (endsb_app ("_" ++ k) "_profile"). Qed.
Lemma prof_attr_inj k k' : prof_attr k = prof_attr k' -> k = k'.
Proof. intros H. apply (app_inj_tail_s ("_" ++ k) ("_" ++ k') "_profile") in H. injection H as H. exact H. Qed.
Lemma not_prof s : endsb "_profile" s = false -> forall k, s <> prof_attr k.
Proof. intros H k ->. rewrite prof_attr_ends in H. discriminate. Qed.
Lemma mode_not_prof k i k' : mode_attr k i <> prof_attr k'.
Proof.
  apply not_prof. rewrite mode_attr_eq. unfold endsb. rewrite las_app, rev_app_distr.
  destruct i as [|[|[|]]]; reflexivity.
Qed.

(** ** extraction *)
Lemma extract_common_other common d : forall o name, (forall a, In a common -> name <> "_" ++ a) -> extract_common common d o name = o name.
Proof.
  unfold extract_common. induction common as [|a l IH]; intros o name H; [reflexivity|]. cbn [fold_left].
  rewrite IH by (intros b Hb; apply H; right; exact Hb). apply oset_other. apply H. left. reflexivity.
Qed.
Lemma extract_common_get common d a : In a common -> forall o,
  extract_common common d o ("_" ++ a) = Some (match dget a d with Some v => v | None => VNone end).
Proof.
  unfold extract_common. induction common as [|b l IH]; intros HI o; [destruct HI|]. cbn [fold_left].
  destruct (in_dec string_dec a l) as [I|I]; [apply IH, I|].
  destruct HI as [->|HI]; [|contradiction].
  assert (forall o name, (forall c, In c l -> name <> "_" ++ c) ->
    fold_left (fun o a => oset o ("_" ++ a) (match dget a d with Some v => v | None => VNone end)) l o name = o name) as K
    by (intros; apply (extract_common_other l d); assumption).
  rewrite K; [apply oset_same|]. intros c Hc E. apply I. cbn in E. injection E as <-. exact Hc.
Qed.
Lemma extract_mode_other common i d : forall o name, (forall k, In k (map fst d) -> name <> mode_attr k i) -> extract_mode common i d o name = o name.
Proof.
  unfold extract_mode. induction d as [|[k v] d IH]; intros o name H; [reflexivity|]. cbn [fold_left fst snd].
  rewrite IH by (intros b Hb; apply H; right; exact Hb). destruct (has k common); [reflexivity|].
  apply oset_other. apply H. left. reflexivity.
Qed.
Lemma extract_mode_get common i d k v : NoDup (map fst d) -> In (k, v) d -> has k common = false -> forall o,
  extract_mode common i d o (mode_attr k i) = Some v.
Proof.
  unfold extract_mode. induction d as [|[k' v'] d IH]; intros HN HI Hc o; [destruct HI|]. cbn [fold_left fst snd].
  cbn [map fst] in HN. inversion HN as [|? ? N1 N2]; subst. destruct HI as [E|HI].
  - injection E as -> ->. rewrite Hc.
    change (extract_mode common i d (oset o (mode_attr k i) v) (mode_attr k i) = Some v).
    rewrite extract_mode_other; [apply oset_same|]. intros b Hb E. apply mode_attr_inj in E. subst. contradiction.
  - apply IH; assumption.
Qed.

(** ** one mode's interpolation *)
Lemma foldM_app {A S} (f : S -> A -> res S) l1 l2 s : foldM f (l1 ++ l2)%list s = (s' <- foldM f l1 s ; foldM f l2 s').
Proof. revert s. induction l1 as [|a l IH]; intros s; [reflexivity|]. cbn. destruct (f s a); cbn; auto. Qed.
Lemma interp_loop i (d0 : gdict) xs xp : dget "x" d0 = Some (VArr xp) -> forall d o,
  (forall k v, In (k, v) d -> has k to_interpolate = true -> exists s, samples v = Some s /\ List.length s = List.length xp) ->
  (0 < List.length xp)%nat -> NoDup (map fst d) ->
  exists o', foldM (fun o kv => if has (fst kv) to_interpolate then
                       xp <- dread d0 "x" ; v <- interp_entry (VArr xs) xp (snd kv) ; Ok (oset o (mode_attr (fst kv) i) v)
                     else Ok o) d o = Ok o' /\
    (forall k v, In (k, v) d -> has k to_interpolate = true -> o' (mode_attr k i) = Some (resample xs xp v)) /\
    (forall name, (forall k, In k (map fst d) -> has k to_interpolate = true -> name <> mode_attr k i) -> o' name = o name).
Proof.
  intros Hx. induction d as [|[k v] d IH]; intros o HS H0 HN.
  - exists o. cbn. split; [reflexivity|]. split; [intros ? ? []|auto].
  - cbn [map fst] in HN. inversion HN as [|? ? N1 N2]; subst.
    assert (HS' : forall k v, In (k, v) d -> has k to_interpolate = true -> exists s, samples v = Some s /\ List.length s = List.length xp)
      by (intros; apply (HS k0); [right|]; assumption).
    cbn [foldM fst snd]. destruct (has k to_interpolate) eqn:Hk.
    + destruct (HS k v (in_eq _ _) Hk) as (s & S1 & S2). unfold dread. rewrite Hx. cbn [bind].
      rewrite (interp_entry_ok xs xp v s S1 S2 H0). cbn [bind].
      destruct (IH (oset o (mode_attr k i) (resample xs xp v)) HS' H0 N2) as (o' & E & A & B).
      exists o'. split; [unfold dread in E; rewrite Hx in E; cbn [bind] in E; exact E|]. split.
      * intros k1 v1 [E1|I1] K1.
        -- injection E1 as <- <-. rewrite B; [apply oset_same|]. intros k2 I2 _ E2. apply mode_attr_inj in E2. subst. contradiction.
        -- apply A; assumption.
      * intros name Hn. rewrite B by (intros k1 I1; apply Hn; right; exact I1). apply oset_other. apply Hn; [left; reflexivity|exact Hk].
    + cbn [bind]. destruct (IH o HS' H0 N2) as (o' & E & A & B). exists o'. split; [exact E|]. split.
      * intros k1 v1 [E1|I1] K1; [injection E1 as <- <-; congruence|apply A; assumption].
      * intros name Hn. apply B. intros k1 I1. apply Hn. right. exact I1.
Qed.
Lemma interpolator_ok i d xs xp o : dget "x" d = Some (VArr xp) ->
  (forall k v, In (k, v) d -> has k to_interpolate = true -> exists s, samples v = Some s /\ List.length s = List.length xp) ->
  (0 < List.length xp)%nat -> NoDup (map fst d) ->
  exists o', interpolator i d (VArr xs) o = Ok o' /\ o' "_x" = Some (VArr xs) /\
    (forall k v, In (k, v) d -> has k to_interpolate = true -> o' (mode_attr k i) = Some (resample xs xp v)) /\
    (forall name, name <> "_x" -> (forall k, In k (map fst d) -> has k to_interpolate = true -> name <> mode_attr k i) -> o' name = o name).
Proof.
  intros Hx HS H0 HN. unfold interpolator. destruct (interp_loop i d xs xp Hx d (oset o "_x" (VArr xs)) HS H0 HN) as (o' & E & A & B).
  exists o'. split; [exact E|]. split; [|split].
  - rewrite B; [apply oset_same|]. intros k _ _. apply not_mode. destruct i as [|[|[|]]]; reflexivity.
  - exact A.
  - intros name N H. rewrite B by exact H. apply oset_other, N.
Qed.

(** ** argmax *)
Lemma argmax_from_le : forall l best at_ i, (forall z, In z l -> (z <= best)%Z) -> argmax_from best at_ i l = at_.
Proof.
  induction l as [|z l IH]; intros best at_ i H; [reflexivity|]. cbn. destruct (Z.ltb_spec best z) as [L|L].
  - specialize (H z (or_introl eq_refl)). lia.
  - apply IH. intros; apply H; right; assumption.
Qed.
Lemma argmax_first z l : (forall y, In y l -> (y <= z)%Z) -> argmax (z :: l) = O.
Proof. intros H. apply argmax_from_le, H. Qed.
Lemma argmax_from_gt : forall l best at_ i, (at_ < i)%nat -> (exists z, In z l /\ (best < z)%Z) ->
  (i <= argmax_from best at_ i l < i + List.length l)%nat /\ (best < nth (argmax_from best at_ i l - i) l 0)%Z.
Proof.
  induction l as [|z l IH]; intros best at_ i Hi (y & HI & Hy); [destruct HI|]. cbn [argmax_from List.length].
  destruct (Z.ltb_spec best z) as [L|L].
  - destruct (existsb (fun t => (z <? t)%Z) l) eqn:E.
    + apply existsb_exists in E. destruct E as (t & T1 & T2). apply Z.ltb_lt in T2.
      destruct (IH z i (S i) ltac:(lia) (ex_intro _ t (conj T1 T2))) as [A B]. split; [lia|].
      replace (argmax_from z i (S i) l - i)%nat with (S (argmax_from z i (S i) l - S i)) by lia. cbn [nth]. lia.
    + rewrite argmax_from_le; [rewrite Nat.sub_diag; cbn; split; [lia|lia]|].
      intros t Ht. destruct (Z.leb_spec t z) as [Q|Q]; [exact Q|]. exfalso. rewrite <- not_true_iff_false in E. apply E.
      apply existsb_exists. exists t. split; [exact Ht|apply Z.ltb_lt; lia].
  - destruct HI as [->|HI]; [lia|]. destruct (IH best at_ (S i) ltac:(lia) (ex_intro _ y (conj HI Hy))) as [A B]. split; [lia|].
    replace (argmax_from best at_ (S i) l - i)%nat with (S (argmax_from best at_ (S i) l - S i)) by lia. cbn [nth]. exact B.
Qed.

(** ** cuts *)
Lemma cut_loop s : forall names o (sl : gval -> gval), NoDup names ->
  (forall c, In c names -> exists v, o c = Some v /\ vslice s v = Ok (sl v)) ->
  exists o', foldM (fun o c => v <- oget o c ; w <- vslice s v ; Ok (oset o c w)) names o = Ok o' /\
    (forall c, o' c = if has c names then option_map sl (o c) else o c).
Proof.
  induction names as [|c names IH]; intros o sl HN H.
  - exists o. split; reflexivity.
  - inversion HN as [|? ? N1 N2]; subst. destruct (H c (or_introl eq_refl)) as (v & Hv & Hs).
    cbn [foldM]. unfold oget. rewrite Hv. cbn [bind]. rewrite Hs. cbn [bind].
    destruct (IH (oset o c (sl v)) sl N2) as (o' & E & A).
    { intros b Hb. rewrite oset_other; [apply H; right; exact Hb|]. intros ->. contradiction. }
    exists o'. split; [exact E|]. intros b. rewrite A. cbn [has existsb]. unfold has. destruct (String.eqb_spec b c) as [->|Ne].
    + cbn [orb]. pose proof (proj2 (has_false c names) N1) as F. unfold has in F. rewrite F, oset_same, Hv. reflexivity.
    + cbn [orb]. rewrite oset_other by exact Ne. reflexivity.
Qed.

(** ** arithmetic on tables *)
Local Open Scope R_scope.
Lemma tab_length {A} n (f : nat -> A) : List.length (tab n f) = n.
Proof. unfold tab. rewrite map_length, seq_length. reflexivity. Qed.
Lemma tab_nth {A} n (f : nat -> A) i d : (i < n)%nat -> nth i (tab n f) d = f i.
Proof. intros H. unfold tab. rewrite (nth_map0 f _ 0%nat) by (rewrite seq_length; exact H). rewrite seq_nth by exact H. reflexivity. Qed.
Lemma tab_ext {A} n (f g : nat -> A) : (forall i, (i < n)%nat -> f i = g i) -> tab n f = tab n g.
Proof. intros H. apply map_ext_in. intros a Ha. apply in_seq in Ha. apply H. lia. Qed.
Lemma tab_of {A} (l : list A) d : l = tab (List.length l) (fun i => nth i l d).
Proof. apply (nth_ext _ _ d d); [rewrite tab_length; reflexivity|]. intros i Hi. rewrite tab_nth by exact Hi. reflexivity. Qed.
Lemma map_tab {A B} (h : A -> B) n f : map h (tab n f) = tab n (fun i => h (f i)).
Proof. unfold tab. rewrite map_map. reflexivity. Qed.
Lemma bcast_tab {A B D} (h : A -> B -> D) n f g : bcast h (tab n f) (tab n g) = Ok (tab n (fun i => h (f i) (g i))).
Proof.
  destruct n as [|[|n]]; [reflexivity|reflexivity|]. unfold bcast.
  rewrite !tab_length, Nat.eqb_refl. remember (S (S n)) as m.
  replace (combine (tab m f) (tab m g)) with (tab m (fun i => (f i, g i))).
  - rewrite map_tab. cbn [fst snd]. rewrite Heqm. reflexivity.
  - clear. unfold tab. induction (seq 0 m); [reflexivity|]. cbn. f_equal. assumption.
Qed.
Lemma bcast_left {A B D} (h : A -> B -> D) a n g : bcast h [a] (tab n g) = Ok (tab n (fun i => h a (g i))).
Proof. cbn [bcast]. rewrite map_tab. reflexivity. Qed.
Lemma bcast_right {A B D} (h : A -> B -> D) b n f : bcast h (tab n f) [b] = Ok (tab n (fun i => h (f i) b)).
Proof.
  rewrite <- (map_tab (fun a => h a b)). destruct n as [|[|n]]; reflexivity.
Qed.
Lemma bcast_mismatch {A B D} (h : A -> B -> D) x y : List.length x <> 1%nat -> List.length y <> 1%nat -> List.length x <> List.length y ->
  bcast h x y = Exc ValueError.
Proof.
  intros H1 H2 H3. unfold bcast. rewrite (proj2 (Nat.eqb_neq _ _) H3).
  destruct x as [|a [|b x]]; destruct y as [|c [|d y]]; cbn in *; try lia; reflexivity.
Qed.
