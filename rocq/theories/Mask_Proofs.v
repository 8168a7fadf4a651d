(** * Proofs about the masks. *)
From Coq Require Import Reals List ZArith Bool Lia Lra Permutation.
From Verif Require Import Base Py Mask_Model Mask_Spec.
Import ListNotations.
Local Open Scope R_scope.

Lemma dleb_spec a b : dleb a b = true <-> a <= b.
Proof. unfold dleb. destruct (Rle_dec a b); split; intros; try discriminate; tauto. Qed.
Lemma dltb_spec a b : dltb a b = true <-> a < b.
Proof. unfold dltb. destruct (Rlt_dec a b); split; intros; try discriminate; tauto. Qed.

(** ** list primitives on arrays that are maps over the table *)
Lemma sel_map {A B} (p : A -> bool) (f : A -> B) (l : list A) : sel (map p l) (map f l) = map f (filter p l).
Proof.
  induction l as [|x l IH]; [reflexivity|]. unfold sel in *. cbn. destruct (p x); cbn; [f_equal|]; exact IH.
Qed.
Lemma sel_map_id {A} (p : A -> bool) (l : list A) : sel (map p l) l = filter p l.
Proof. rewrite <- (map_id l) at 2. rewrite sel_map. apply map_id. Qed.
Lemma put_map {A} (p f : A -> bool) (l : list A) :
  put (map (fun _ => false) (map p l)) (map p l) (map f (filter p l)) = map (fun x => p x && f x) l.
Proof. induction l as [|x l IH]; [reflexivity|]. cbn. destruct (p x); cbn; f_equal; exact IH. Qed.
Lemma put1_map {A B} (p : A -> bool) (f : A -> B) (c : B) (l : list A) :
  put1 (map f l) (map p l) c = map (fun x => if p x then c else f x) l.
Proof. unfold put1. induction l as [|x l IH]; [reflexivity|]. cbn. f_equal. exact IH. Qed.
Lemma band_map {A} (f g : A -> bool) (l : list A) : band (map f l) (map g l) = map (fun x => f x && g x) l.
Proof. unfold band. induction l as [|x l IH]; [reflexivity|]. cbn. f_equal. exact IH. Qed.
Lemma bor_map {A} (f g : A -> bool) (l : list A) : bor (map f l) (map g l) = map (fun x => f x || g x) l.
Proof. unfold bor. induction l as [|x l IH]; [reflexivity|]. cbn. f_equal. exact IH. Qed.
Lemma ins_in x l y : In y (ins x l) <-> y = x \/ In y l.
Proof.
  induction l as [|z l IH]; cbn; [intuition|]. destruct (Z.ltb_spec x z); [cbn; intuition|].
  destruct (Z.eqb_spec x z); [subst; cbn; intuition|]. cbn. rewrite IH. intuition.
Qed.
Lemma np_unique_in l y : In y (np_unique l) <-> In y l.
Proof. induction l as [|x l IH]; [reflexivity|]. cbn. rewrite ins_in, IH. intuition. Qed.
Inductive sorted : list Z -> Prop :=
| s_nil : sorted []
| s_cons x l : (forall y, In y l -> (x < y)%Z) -> sorted l -> sorted (x :: l).
Lemma ins_sorted x l : sorted l -> sorted (ins x l).
Proof.
  induction 1 as [|z l H S IH]; cbn; [constructor; [contradiction|constructor]|].
  destruct (Z.ltb_spec x z); [constructor; [|constructor; assumption]; intros y [<-|Hy]; [lia|specialize (H y Hy); lia]|].
  destruct (Z.eqb_spec x z); [constructor; assumption|]. constructor; [|exact IH].
  intros y Hy. apply ins_in in Hy. destruct Hy as [->|Hy]; [lia|auto].
Qed.
Lemma np_unique_sorted l : sorted (np_unique l).
Proof. induction l; cbn; [constructor|apply ins_sorted; assumption]. Qed.
Lemma sorted_nodup l : sorted l -> NoDup l.
Proof. induction 1 as [|x l H S IH]; constructor; [|exact IH]. intros Hx. specialize (H x Hx). lia. Qed.
Lemma np_unique_nodup l : NoDup (np_unique l).
Proof. apply sorted_nodup, np_unique_sorted. Qed.
Lemma np_isin_one {A} (f : A -> Z) (l : list A) n : np_isin (map f l) [n] = map (fun x => (f x =? n)%Z) l.
Proof. unfold np_isin. rewrite map_map. apply map_ext. intros a. cbn. apply orb_false_r. Qed.

(** ** minima *)
Definition is_least (m : R) (l : list R) : Prop := In m l /\ forall x, In x l -> m <= x.
Lemma fold_min_least t x : is_least (fold_left Rmin t x) (x :: t).
Proof.
  revert x. induction t as [|y t IH]; intros x; cbn [fold_left].
  - split; [left; reflexivity|]. intros z [<-|[]]. lra.
  - destruct (IH (Rmin x y)) as [A B]. split.
    + destruct A as [A|A]; [|right; right; exact A]. rewrite <- A. unfold Rmin. destruct (Rle_dec x y); [left|right; left]; reflexivity.
    + intros z [<-|[<-|Hz]]; [| |apply B; right; exact Hz]; (eapply Rle_trans; [apply B; left; reflexivity|]); [apply Rmin_l|apply Rmin_r].
Qed.
Lemma least_unique m m' l : is_least m l -> is_least m' l -> m = m'.
Proof. intros [A B] [C D]. specialize (B _ C). specialize (D _ A). lra. Qed.
Definition minR (l : list R) : R := match l with [] => 0 | x :: t => fold_left Rmin t x end.
Lemma np_min_ok l : l <> [] -> np_min l = Ok (minR l) /\ is_least (minR l) l.
Proof. destruct l as [|x t]; [congruence|]. intros _. split; [reflexivity|apply fold_min_least]. Qed.

(** ** dictionaries *)
Lemma dget_dset d k v k' : dget (dset d k v) k' = if (k =? k')%Z then Some v else dget d k'.
Proof.
  induction d as [|[a b] d IH]; cbn.
  - reflexivity.
  - destruct (Z.eqb_spec a k) as [->|N]; cbn.
    + destruct (Z.eqb_spec k k'); reflexivity.
    + rewrite IH. destruct (Z.eqb_spec a k') as [->|]; [|reflexivity]. destruct (Z.eqb_spec k k'); [lia|reflexivity].
Qed.
Lemma dget_map f u k : dget (map (fun n => (n, f n)) u) k = if existsb (Z.eqb k) u then Some (f k) else None.
Proof.
  induction u as [|n u IH]; [reflexivity|]. cbn. rewrite Z.eqb_sym. destruct (Z.eqb_spec k n) as [->|]; [reflexivity|exact IH].
Qed.
Lemma existsb_eqb_in k u : existsb (Z.eqb k) u = true <-> In k u.
Proof. rewrite existsb_exists. split; [intros (x & H & E); apply Z.eqb_eq in E; subst; exact H|]. intros H. exists k. split; [exact H|apply Z.eqb_refl]. Qed.
Lemma daughters_map_get (f g : Z -> R) u1 u2 k : NoDup u2 ->
  dget (daughters_map (map (fun n => (n, f n)) u1) (map (fun n => (n, g n)) u2)) k =
  if existsb (Z.eqb k) u1 then (if existsb (Z.eqb k) u2 then Some (Rmin (f k) (g k)) else Some (f k))
  else if existsb (Z.eqb k) u2 then Some (g k) else None.
Proof.
  intros ND. unfold daughters_map. set (m1 := map (fun n => (n, f n)) u1).
  assert (G : forall acc, NoDup u2 -> dget (fold_left (fun acc kv => let '(k, lt_d2) := kv in
    match dget m1 k with Some v => if dltb lt_d2 v then dset acc k lt_d2 else acc | None => dset acc k lt_d2 end) (map (fun n => (n, g n)) u2) acc) k =
    if existsb (Z.eqb k) u2 then match dget m1 k with Some v => if dltb (g k) v then Some (g k) else dget acc k | None => Some (g k) end else dget acc k).
  { clear ND. induction u2 as [|n u2 IH]; intros acc ND; [reflexivity|]. inversion ND as [|? ? Hn ND']; subst. cbn [map fold_left existsb].
    rewrite IH by assumption. destruct (Z.eqb_spec k n) as [->|Ne].
    - cbn [orb]. destruct (existsb (Z.eqb n) u2) eqn:E; [apply existsb_eqb_in in E; contradiction|].
      destruct (dget m1 n); [destruct (dltb (g n) r); [rewrite dget_dset, Z.eqb_refl; reflexivity|reflexivity]|rewrite dget_dset, Z.eqb_refl; reflexivity].
    - cbn [orb]. destruct (existsb (Z.eqb k) u2) eqn:E.
      + destruct (dget m1 k); [|reflexivity]. destruct (dltb (g k) r); [reflexivity|].
        destruct (dget m1 n); [destruct (dltb (g n) r0); [|reflexivity]|]; rewrite dget_dset; destruct (Z.eqb_spec n k); try lia; reflexivity.
      + destruct (dget m1 n); [destruct (dltb (g n) r); [|reflexivity]|]; rewrite dget_dset; destruct (Z.eqb_spec n k); try lia; reflexivity. }
  rewrite G by assumption. unfold m1. rewrite dget_map.
  destruct (existsb (Z.eqb k) u1), (existsb (Z.eqb k) u2); try reflexivity.
  unfold dltb, Rmin. destruct (Rlt_dec (g k) (f k)), (Rle_dec (f k) (g k)); try reflexivity; try lra.
Qed.

(** ** the table of valued triads *)
Definition valuedb (r : row) : bool := negb (isnan (thresh r)).
Definition thrv (r : row) : R := match thresh r with Some t => t | None => 0 end.
Definition vrows (d : list row) : list row := filter valuedb d.
Lemma put_vrows f d : put (map (fun _ => false) (map valuedb d)) (map valuedb d) (map f (vrows d)) = map (fun r => valuedb r && f r) d.
Proof. apply put_map. Qed.
Lemma put_vrows' f d : put (map (fun _ : row => false) d) (map valuedb d) (map f (vrows d)) = map (fun r => valuedb r && f r) d.
Proof. rewrite <- put_vrows, map_map. reflexivity. Qed.
Lemma vrows_in d r : In r (vrows d) <-> In r d /\ exists t, thresh r = Some t.
Proof.
  unfold vrows. rewrite filter_In. unfold valuedb. split; intros [A B]; (split; [exact A|]).
  - destruct (thresh r); [eauto|discriminate].
  - destruct B as [t ->]. reflexivity.
Qed.
Lemma flat_thr g : (forall r, In r g -> exists t, thresh r = Some t) ->
  flat_map (fun r => match thresh r with Some t => [t] | None => [] end) g = map thrv g.
Proof.
  induction g as [|r g IH]; intros H; [reflexivity|]. cbn. destruct (H r (or_introl eq_refl)) as [t Et]. unfold thrv at 1. rewrite Et. cbn. f_equal. apply IH. intros. apply H. right. assumption.
Qed.

(** minimum threshold over the valued triads whose radial order at position idx is n *)
Definition group (g : list row) (idx : nat) (n : Z) : list row := filter (fun r => (col idx (rad_ord r) =? n)%Z) g.
Definition gmin (g : list row) (idx : nat) (n : Z) : R := minR (map thrv (group g idx n)).
Lemma group_in g idx n r : In r (group g idx n) <-> In r g /\ col idx (rad_ord r) = n.
Proof. unfold group. rewrite filter_In, Z.eqb_eq. reflexivity. Qed.
Definition uniq (g : list row) (idx : nat) : list Z := np_unique (map (fun r => col idx (rad_ord r)) g).
Lemma uniq_in g idx n : In n (uniq g idx) <-> exists r, In r g /\ col idx (rad_ord r) = n.
Proof. unfold uniq. rewrite np_unique_in, in_map_iff. split; intros (r & A & B); exists r; auto. Qed.
Lemma group_nonempty g idx n : In n (uniq g idx) -> map thrv (group g idx n) <> [].
Proof.
  intros H. apply uniq_in in H. destruct H as (r & Hr & E). intros C. assert (In r (group g idx n)) by (apply group_in; auto).
  apply map_eq_nil in C. rewrite C in H. contradiction.
Qed.
Lemma gmin_least g idx n : In n (uniq g idx) -> is_least (gmin g idx n) (map thrv (group g idx n)).
Proof. intros H. apply np_min_ok. apply group_nonempty. exact H. Qed.

Lemma lowest_map_ok g idx :
  lowest_thresh_amp_map (map rad_ord g) (map thrv g) idx = Ok (map (fun n => (n, gmin g idx n)) (uniq g idx), uniq g idx).
Proof.
  unfold lowest_thresh_amp_map. rewrite map_map. fold (uniq g idx).
  rewrite (mapM_ok _ (fun n => (n, gmin g idx n))); [reflexivity|].
  intros n Hn. rewrite np_isin_one, sel_map. fold (group g idx n).
  destruct (np_min_ok _ (group_nonempty g idx n Hn)) as [-> _]. reflexivity.
Qed.

Lemma setcol_setcol {A} idx (t : A * A * A) v w : setcol idx (setcol idx t v) w = setcol idx t w.
Proof. destruct t as [[a b] c]. destruct idx as [|[|?]]; reflexivity. Qed.

Lemma get_lowest_ok g idx m h u (val : Z -> R) :
  (forall n, In n u -> dget m n = Some (val n)) ->
  get_lowest_thresh_surfs (map rad_ord g) u m (map h g) idx =
  Ok (map (fun r => if existsb (Z.eqb (col idx (rad_ord r))) u then setcol idx (h r) (Some (val (col idx (rad_ord r)))) else h r) g).
Proof.
  unfold get_lowest_thresh_surfs. revert h. induction u as [|n u IH]; intros h H.
  - cbn. f_equal. 
  - cbn [fold_left]. unfold dgetM at 2. rewrite (H n (or_introl eq_refl)). cbn [bind].
    rewrite map_map, np_isin_one.
    assert (E : map (fun p : bool * (option R * option R * option R) => if fst p then setcol idx (snd p) (Some (val n)) else snd p)
       (combine (map (fun x => (col idx (rad_ord x) =? n)%Z) g) (map h g)) =
       map (fun r => if (col idx (rad_ord r) =? n)%Z then setcol idx (h r) (Some (val n)) else h r) g).
    { clear. induction g as [|r g IH]; [reflexivity|]. cbn. f_equal. exact IH. }
    rewrite E. rewrite map_map in IH. rewrite IH by (intros; apply H; right; assumption).
    f_equal. apply map_ext. intros r. cbn [existsb].
    destruct (Z.eqb_spec (col idx (rad_ord r)) n) as [->|]; cbn [orb]; [|reflexivity].
    destruct (existsb (Z.eqb n) u); [apply setcol_setcol|reflexivity].
Qed.
Lemma existsb_uniq g idx r : In r g -> existsb (Z.eqb (col idx (rad_ord r))) (uniq g idx) = true.
Proof. intros H. apply existsb_eqb_in, uniq_in. eauto. Qed.

(** minimum over the triads having n as one of their daughters *)
Definition dval (g : list row) (n : Z) : R :=
  if existsb (Z.eqb n) (uniq g 1) then (if existsb (Z.eqb n) (uniq g 2) then Rmin (gmin g 1 n) (gmin g 2 n) else gmin g 1 n) else gmin g 2 n.
Lemma dval_get g n : In n (uniq g 1) \/ In n (uniq g 2) ->
  dget (daughters_map (map (fun n => (n, gmin g 1 n)) (uniq g 1)) (map (fun n => (n, gmin g 2 n)) (uniq g 2))) n = Some (dval g n).
Proof.
  intros H. rewrite daughters_map_get by apply np_unique_nodup. unfold dval.
  destruct (existsb (Z.eqb n) (uniq g 1)) eqn:E1; destruct (existsb (Z.eqb n) (uniq g 2)) eqn:E2; try reflexivity.
  rewrite <- !existsb_eqb_in in H. rewrite E1, E2 in H. destruct H; discriminate.
Qed.
Definition same_lowest (g : list row) (r : row) : bool :=
  dleb (Rabs (gmin g 0 (col 0 (rad_ord r)) - dval g (col 1 (rad_ord r)))) (/ 10 ^ 14) &&
  dleb (Rabs (gmin g 0 (col 0 (rad_ord r)) - dval g (col 2 (rad_ord r)))) (/ 10 ^ 14).

(** lowest thresholds in terms of the whole table *)
Lemma gmin_parent d r : In r (vrows d) -> lowest_threshold d (has_parent (parent r)) (gmin (vrows d) 0 (parent r)).
Proof.
  intros H. assert (U : In (parent r) (uniq (vrows d) 0)) by (apply uniq_in; exists r; auto).
  destruct (gmin_least _ _ _ U) as [A B]. split.
  - apply in_map_iff in A. destruct A as (x & Ex & Hx). apply group_in in Hx. destruct Hx as [Hx P]. apply vrows_in in Hx.
    destruct Hx as (Hx & t & Et). exists x. split; [exact Hx|]. split; [exact P|]. rewrite <- Ex. unfold thrv. rewrite Et. reflexivity.
  - intros x t Hx P Et. apply B. apply in_map_iff. exists x. split; [unfold thrv; rewrite Et; reflexivity|]. apply group_in. split; [apply vrows_in; eauto|exact P].
Qed.
Lemma dval_daughter d n : (exists r, In r (vrows d) /\ has_daughter n r) -> lowest_threshold d (has_daughter n) (dval (vrows d) n).
Proof.
  set (g := vrows d). intros (r0 & H0 & P0).
  assert (L : forall idx, (idx = 1 \/ idx = 2)%nat -> In n (uniq g idx) -> (exists r, In r d /\ has_daughter n r /\ thresh r = Some (gmin g idx n)) /\
            forall r t, In r d -> col idx (rad_ord r) = n -> thresh r = Some t -> gmin g idx n <= t).
  { intros idx I U. destruct (gmin_least _ _ _ U) as [A B]. split.
    - apply in_map_iff in A. destruct A as (x & Ex & Hx). apply group_in in Hx. destruct Hx as [Hx P]. apply vrows_in in Hx.
      destruct Hx as (Hx & t & Et). exists x. split; [exact Hx|]. split; [destruct I as [-> | ->]; [left|right]; exact P|]. rewrite <- Ex. unfold thrv. rewrite Et. reflexivity.
    - intros x t Hx P Et. apply B. apply in_map_iff. exists x. split; [unfold thrv; rewrite Et; reflexivity|]. apply group_in. split; [apply vrows_in; eauto|exact P]. }
  assert (N : forall idx r t, ~ In n (uniq g idx) -> In r d -> thresh r = Some t -> col idx (rad_ord r) <> n).
  { intros idx r t U Hr Et C. apply U. apply uniq_in. exists r. split; [apply vrows_in; eauto|exact C]. }
  unfold dval. destruct (existsb (Z.eqb n) (uniq g 1)) eqn:E1; destruct (existsb (Z.eqb n) (uniq g 2)) eqn:E2.
  - apply existsb_eqb_in in E1, E2. destruct (L 1%nat (or_introl eq_refl) E1) as [A1 B1]. destruct (L 2%nat (or_intror eq_refl) E2) as [A2 B2]. split.
    + unfold Rmin. destruct (Rle_dec _ _); assumption.
    + intros r t Hr [P|P] Et; (eapply Rle_trans; [|first [apply (B1 r t); assumption|apply (B2 r t); assumption]]); [apply Rmin_l|apply Rmin_r].
  - apply existsb_eqb_in in E1. assert (E2' : ~ In n (uniq g 2)) by (rewrite <- existsb_eqb_in; congruence).
    destruct (L 1%nat (or_introl eq_refl) E1) as [A1 B1]. split; [exact A1|]. intros r t Hr [P|P] Et; [eapply B1; eassumption|]. exfalso. eapply (N 2%nat); eassumption.
  - apply existsb_eqb_in in E2. assert (E1' : ~ In n (uniq g 1)) by (rewrite <- existsb_eqb_in; congruence).
    destruct (L 2%nat (or_intror eq_refl) E2) as [A1 B1]. split; [exact A1|]. intros r t Hr [P|P] Et; [|eapply B1; eassumption]. exfalso. eapply (N 1%nat); eassumption.
  - exfalso. apply vrows_in in H0 as V. destruct V as (Hd & t & Et).
    assert (E1' : ~ In n (uniq g 1)) by (rewrite <- existsb_eqb_in; congruence). assert (E2' : ~ In n (uniq g 2)) by (rewrite <- existsb_eqb_in; congruence).
    destruct P0 as [P|P]; [eapply (N 1%nat)|eapply (N 2%nat)]; eassumption.
Qed.
Lemma lowest_unique d P m m' : lowest_threshold d P m -> lowest_threshold d P m' -> m = m'.
Proof. intros [(r & A & B & C) D] [(r' & A' & B' & C') D']. specialize (D _ _ A' B' C'). specialize (D' _ _ A B C). lra. Qed.
Lemma same_lowest_spec d r : In r (vrows d) -> (same_lowest (vrows d) r = true <-> modes_agree d r).
Proof.
  intros H. unfold same_lowest. rewrite andb_true_iff, !dleb_spec. unfold modes_agree.
  pose proof (gmin_parent d r H) as P.
  assert (D1 : lowest_threshold d (has_daughter (daughter1 r)) (dval (vrows d) (daughter1 r))) by (apply dval_daughter; exists r; split; [exact H|left; reflexivity]).
  assert (D2 : lowest_threshold d (has_daughter (daughter2 r)) (dval (vrows d) (daughter2 r))) by (apply dval_daughter; exists r; split; [exact H|right; reflexivity]).
  split.
  - intros [A B]. exists (gmin (vrows d) 0 (parent r)), (dval (vrows d) (daughter1 r)), (dval (vrows d) (daughter2 r)). auto.
  - intros (p & d1 & d2 & P' & D1' & D2' & A & B).
    rewrite (lowest_unique _ _ _ _ P' P) in A, B. rewrite (lowest_unique _ _ _ _ D1' D1) in A. rewrite (lowest_unique _ _ _ _ D2' D2) in B. auto.
Qed.

(** ** the comparison with the second-lowest threshold *)
Definition eqv (r : row) : option R := omul (col 0 (surf r)) (Some (10 ^ 6)).
Definition verdict (part : list R -> list nat) (g : list row) (n : Z) : bool :=
  let G := group g 0 n in
  match part (map thrv G) with
  | i :: j :: _ => oltb (nth i (map eqv G) None) (Some (nth j (map thrv G) 0))
  | _ => false
  end.
Definition crowded (g : list row) (n : Z) : bool := (2 <=? List.length (group g 0 n))%nat.

Definition cstep part g n_parents eq_amps (acc : res (list bool)) (n_p : Z) : res (list bool) :=
  (ma <- acc ;
      let mask_parent := map (fun n => Z.eqb n n_p) n_parents in
      let eqs := sel mask_parent eq_amps in
      let ths := sel mask_parent (map thrv g) in
      arg_part <- np_argpartition1 part ths ;
      i1 <- py_get arg_part 1 ;
      second_lowest <- py_get ths (Z.of_nat i1) ;
      i0 <- py_get arg_part 0 ;
      eq_amp <- py_get eqs (Z.of_nat i0) ;
      Ok (put1 ma mask_parent (oltb eq_amp (Some second_lowest))))%res.
Lemma cstep_exc part g np ea e u : fold_left (cstep part g np ea) u (Exc e) = Exc e.
Proof. induction u; [reflexivity|]. cbn. exact IHu. Qed.
Lemma perm_bounds l n i : Permutation l (seq 0 n) -> In i l -> (i < n)%nat.
Proof. intros P H. apply (Permutation_in _ P) in H. apply in_seq in H. lia. Qed.

Lemma cstep_ok part g n h : valid_argpartition part ->
  cstep part g (map (fun r => col 0 (rad_ord r)) g) (map eqv g) (Ok (map h g)) n =
  if crowded g n then Ok (map (fun r => if (col 0 (rad_ord r) =? n)%Z then verdict part g n else h r) g) else Exc ValueError.
Proof.
  intros V. unfold cstep. cbn [bind]. rewrite map_map, !sel_map. fold (group g 0 n). unfold np_argpartition1, crowded. rewrite map_length.
  destruct (Nat.ltb_spec (List.length (group g 0 n)) 2) as [L|L]; [cbn [bind]; destruct (Nat.leb_spec 2 (List.length (group g 0 n))); [lia|reflexivity]|].
  destruct (Nat.leb_spec 2 (List.length (group g 0 n))); [|lia]. cbn [bind].
  destruct (V (map thrv (group g 0 n))) as (i & j & rest & E & P & _ & _); [rewrite map_length; lia|].
  rewrite map_length in P. rewrite E in P.
  assert (Bi : (i < List.length (group g 0 n))%nat) by (eapply perm_bounds; [exact P|left; reflexivity]).
  assert (Bj : (j < List.length (group g 0 n))%nat) by (eapply perm_bounds; [exact P|right; left; reflexivity]).
  rewrite E. change (py_get (i :: j :: rest) 1) with (Ok j). change (py_get (i :: j :: rest) 0) with (Ok i). cbn [bind].
  rewrite (py_get_ok _ _ 0) by (rewrite map_length; lia). cbn [bind]. rewrite (py_get_ok _ _ None) by (rewrite map_length; lia). cbn [bind].
  rewrite !Nat2Z.id, put1_map. unfold verdict. rewrite E. reflexivity.
Qed.
Lemma cfold part g u : valid_argpartition part -> forall h,
  fold_left (cstep part g (map (fun r => col 0 (rad_ord r)) g) (map eqv g)) u (Ok (map h g)) =
  if forallb (crowded g) u then Ok (map (fun r => if existsb (Z.eqb (col 0 (rad_ord r))) u then verdict part g (col 0 (rad_ord r)) else h r) g) else Exc ValueError.
Proof.
  intros V. induction u as [|n u IH]; intros h; [reflexivity|]. cbn [fold_left forallb]. rewrite cstep_ok by exact V.
  destruct (crowded g n); cbn [andb]; [|apply cstep_exc]. rewrite IH. destruct (forallb (crowded g) u); [|reflexivity].
  f_equal. apply map_ext. intros r. cbn [existsb]. destruct (Z.eqb_spec (col 0 (rad_ord r)) n) as [->|]; cbn [orb]; [|reflexivity].
  destruct (existsb (Z.eqb n) u); reflexivity.
Qed.

Lemma compare_ok part d : valid_argpartition part ->
  compare_second_lowest part (map valuedb d) (uniq (vrows d) 0) d =
  if forallb (crowded (vrows d)) (uniq (vrows d) 0) then Ok (map (fun r => valuedb r && verdict part (vrows d) (parent r)) d) else Exc ValueError.
Proof.
  intros V. unfold compare_second_lowest. rewrite sel_map_id. fold (vrows d).
  rewrite flat_thr by (intros r Hr; apply vrows_in in Hr; apply Hr). rewrite map_map.
  change (fun r : row => omul (col 0 (surf r)) (Some (10 ^ 6))) with eqv.
  match goal with |- context [fold_left ?f ?u ?a] => change (fold_left f u a) with (fold_left (cstep part (vrows d) (map (fun r => col 0 (rad_ord r)) (vrows d)) (map eqv (vrows d))) u a) end.
  rewrite cfold by exact V. destruct (forallb _ _); [|reflexivity]. cbn [bind]. rewrite put_vrows.
  f_equal. apply map_ext_in. intros r Hr. destruct (valuedb r) eqn:E; [|reflexivity]. cbn [andb].
  rewrite existsb_uniq; [reflexivity|]. apply filter_In. auto.
Qed.

Theorem isolation_ok part d : valid_argpartition part ->
  isolation_mask_lowest_thresh_amp part d =
  if forallb (crowded (vrows d)) (uniq (vrows d) 0)
  then Ok (map (fun r => valuedb r && same_lowest (vrows d) r && verdict part (vrows d) (parent r)) d) else Exc ValueError.
Proof.
  intros V. unfold isolation_mask_lowest_thresh_amp. change (fun r : row => negb (isnan (thresh r))) with valuedb.
  rewrite sel_map_id. fold (vrows d). rewrite flat_thr by (intros r Hr; apply vrows_in in Hr; apply Hr).
  rewrite !lowest_map_ok. cbn [bind fst snd]. rewrite map_map.
  rewrite (get_lowest_ok (vrows d) 0 _ (fun _ => (None, None, None)) _ (gmin (vrows d) 0)) by (intros n Hn; rewrite dget_map; apply existsb_eqb_in in Hn; rewrite Hn; reflexivity).
  cbn [bind]. rewrite (get_lowest_ok (vrows d) 1 _ _ _ (dval (vrows d))) by (intros n Hn; apply dval_get; auto).
  cbn [bind]. rewrite (get_lowest_ok (vrows d) 2 _ _ _ (dval (vrows d))) by (intros n Hn; apply dval_get; auto).
  cbn [bind]. rewrite compare_ok by exact V. destruct (forallb _ _); [|reflexivity]. cbn [bind].
  unfold isolation_mask_of. rewrite !map_map, band_map.
  match goal with |- context [map ?F (vrows d)] => rewrite (map_ext_in F (same_lowest (vrows d)) (vrows d)) end.
  - rewrite put_vrows', band_map. f_equal. apply map_ext. intros r. destruct (valuedb r); [|reflexivity]. cbn [andb]. reflexivity.
  - intros r Hr. rewrite !existsb_uniq by exact Hr. destruct (rad_ord r) as [[n0 n1] n2] eqn:Er. unfold same_lowest. rewrite Er. reflexivity.
Qed.

(** ** relation between positions in a group and rows of the table *)
Lemma filter_nth {A} (p : A -> bool) (l : list A) k x : nth_error (filter p l) k = Some x ->
  exists i, nth_error l i = Some x /\ p x = true /\ List.length (filter p (firstn i l)) = k.
Proof.
  revert k. induction l as [|y l IH]; intros k H; [destruct k; discriminate|]. cbn in H. destruct (p y) eqn:E.
  - destruct k as [|k]; [injection H as <-; exists 0%nat; cbn; auto|]. cbn in H. destruct (IH k H) as (i & X1 & X2 & X3). exists (S i). cbn. rewrite E. cbn. auto.
  - destruct (IH k H) as (i & X1 & X2 & X3). exists (S i). cbn. rewrite E. auto.
Qed.
Lemma filter_nth_inv {A} (p : A -> bool) (l : list A) i x : nth_error l i = Some x -> p x = true ->
  nth_error (filter p l) (List.length (filter p (firstn i l))) = Some x.
Proof.
  revert i. induction l as [|y l IH]; intros i H P; [destruct i; discriminate|]. destruct i as [|i].
  - injection H as ->. cbn. rewrite P. reflexivity.
  - cbn in H. cbn. destruct (p y); cbn; apply IH; assumption.
Qed.
Lemma filter_pos_inj {A} (p : A -> bool) (l : list A) i j x y : nth_error l i = Some x -> nth_error l j = Some y -> p x = true -> p y = true ->
  List.length (filter p (firstn i l)) = List.length (filter p (firstn j l)) -> i = j.
Proof.
  revert i j. induction l as [|z l IH]; intros i j Hi Hj Px Py E; [destruct i; discriminate|].
  destruct i as [|i], j as [|j]; [reflexivity| | |].
  - injection Hi as ->. cbn in E. rewrite Px in E. cbn in E. discriminate.
  - injection Hj as ->. cbn in E. rewrite Py in E. cbn in E. discriminate.
  - cbn in *. f_equal. destruct (p z); cbn in E; [injection E as E|]; apply (IH i j Hi Hj Px Py E).
Qed.
Definition ingroup (n : Z) (r : row) : bool := valuedb r && (col 0 (rad_ord r) =? n)%Z.
Lemma group_filter d n : group (vrows d) 0 n = filter (ingroup n) d.
Proof. unfold group, vrows, ingroup. induction d as [|r d IH]; [reflexivity|]. cbn. destruct (valuedb r); cbn; [destruct (_ =? _)%Z; [f_equal|]|]; exact IH. Qed.
Lemma ingroup_spec n r : ingroup n r = true <-> parent r = n /\ exists t, thresh r = Some t.
Proof. unfold ingroup, valuedb, parent. rewrite andb_true_iff, Z.eqb_eq. destruct (thresh r); cbn; split; intros [A B]; split; try assumption; eauto; try discriminate. destruct B; discriminate. Qed.

Lemma nth_map_some {A B} (f : A -> B) (l : list A) k x dd : nth_error l k = Some x -> nth k (map f l) dd = f x.
Proof. intros H. apply nth_error_nth. rewrite nth_error_map, H. reflexivity. Qed.
Lemma verdict_spec part d n : valid_argpartition part -> crowded (vrows d) n = true ->
  exists i j, two_lowest d n i j /\ (verdict part (vrows d) n = true <-> equilibrium_below d i j).
Proof.
  intros V C. unfold crowded in C. apply Nat.leb_le in C. rewrite group_filter in C.
  destruct (V (map thrv (filter (ingroup n) d))) as (i & j & rest & E & P & L1 & L2); [rewrite map_length; exact C|].
  rewrite map_length in P, L2. rewrite E in P.
  assert (Bi : (i < List.length (filter (ingroup n) d))%nat) by (eapply perm_bounds; [exact P|left; reflexivity]).
  assert (Bj : (j < List.length (filter (ingroup n) d))%nat) by (eapply perm_bounds; [exact P|right; left; reflexivity]).
  assert (N : i <> j). { assert (D : NoDup (i :: j :: rest)) by (eapply Permutation_NoDup; [apply Permutation_sym, P|apply seq_NoDup]). inversion D as [|? ? H1]. intros ->. apply H1. left. reflexivity. }
  destruct (nth_error (filter (ingroup n) d) i) as [a|] eqn:Ea; [|apply nth_error_None in Ea; lia].
  destruct (nth_error (filter (ingroup n) d) j) as [b|] eqn:Eb; [|apply nth_error_None in Eb; lia].
  destruct (filter_nth _ _ _ _ Ea) as (ia & Ha & Pa & Ka). destruct (filter_nth _ _ _ _ Eb) as (jb & Hb & Pb & Kb).
  apply ingroup_spec in Pa as Qa. apply ingroup_spec in Pb as Qb. destruct Qa as (A1 & ta & A2). destruct Qb as (B1 & tb & B2).
  rewrite (nth_map_some _ _ _ _ 0 Ea), (nth_map_some _ _ _ _ 0 Eb) in L1. unfold thrv in L1. rewrite A2, B2 in L1.
  exists ia, jb. split; [split|].
  - intros ->. congruence.
  - exists a, b, ta, tb. repeat split; try assumption.
    intros k c tc Hc Nk Pc Tc. assert (Gc : ingroup n c = true) by (apply ingroup_spec; eauto).
    pose proof (filter_nth_inv _ _ _ _ Hc Gc) as Fc.
    assert (Kc : List.length (filter (ingroup n) (firstn k d)) <> i). { intros K. apply Nk. eapply filter_pos_inj; try eassumption. congruence. }
    assert (L : nth j (map thrv (filter (ingroup n) d)) 0 <= nth (List.length (filter (ingroup n) (firstn k d))) (map thrv (filter (ingroup n) d)) 0).
    { apply L2; [|exact Kc]. apply nth_error_Some. rewrite Fc. discriminate. }
    rewrite (nth_map_some _ _ _ _ 0 Eb), (nth_map_some _ _ _ _ 0 Fc) in L. unfold thrv in L. rewrite B2, Tc in L. exact L.
  - unfold verdict. rewrite group_filter, E. rewrite (nth_map_some _ _ _ _ None Ea), (nth_map_some _ _ _ _ 0 Eb).
    unfold eqv, thrv. rewrite B2. unfold equilibrium_below. cbn [col]. split.
    + destruct (fst (fst (surf a))) as [s|] eqn:Es; [|discriminate]. cbn. rewrite dltb_spec. intros H. exists a, b, s, tb. auto.
    + intros (a' & b' & s & tb' & X1 & X2 & X3 & X4 & X5). rewrite Ha in X1. injection X1 as <-. rewrite Hb in X2. injection X2 as <-.
      rewrite X3. cbn. rewrite dltb_spec. rewrite B2 in X4. injection X4 as ->. exact X5.
Qed.
Lemma two_lowest_crowded d n i j : two_lowest d n i j -> crowded (vrows d) n = true.
Proof.
  intros (N & a & b & ta & tb & Ha & Hb & Pa & Pb & Ta & Tb & _ & _). unfold crowded. apply Nat.leb_le. rewrite group_filter.
  assert (Ga : ingroup n a = true) by (apply ingroup_spec; eauto). assert (Gb : ingroup n b = true) by (apply ingroup_spec; eauto).
  pose proof (filter_nth_inv _ _ _ _ Ha Ga) as Fa. pose proof (filter_nth_inv _ _ _ _ Hb Gb) as Fb.
  assert (K : List.length (filter (ingroup n) (firstn i d)) <> List.length (filter (ingroup n) (firstn j d))) by (intros K; apply N; eapply filter_pos_inj; eassumption).
  assert (La : (List.length (filter (ingroup n) (firstn i d)) < List.length (filter (ingroup n) d))%nat) by (apply nth_error_Some; rewrite Fa; discriminate).
  assert (Lb : (List.length (filter (ingroup n) (firstn j d)) < List.length (filter (ingroup n) d))%nat) by (apply nth_error_Some; rewrite Fb; discriminate).
  lia.
Qed.
(** two different rows of a group *)
Lemma crowded_spec d n : crowded (vrows d) n = true <->
  exists i j a b, i <> j /\ nth_error d i = Some a /\ nth_error d j = Some b /\ parent a = n /\ parent b = n /\ (exists t, thresh a = Some t) /\ (exists t, thresh b = Some t).
Proof.
  unfold crowded. rewrite Nat.leb_le, group_filter. split.
  - intros C. destruct (nth_error (filter (ingroup n) d) 0) as [a|] eqn:Ea; [|apply nth_error_None in Ea; lia].
    destruct (nth_error (filter (ingroup n) d) 1) as [b|] eqn:Eb; [|apply nth_error_None in Eb; lia].
    destruct (filter_nth _ _ _ _ Ea) as (ia & Ha & Pa & Ka). destruct (filter_nth _ _ _ _ Eb) as (jb & Hb & Pb & Kb).
    apply ingroup_spec in Pa, Pb. exists ia, jb, a, b. destruct Pa, Pb. repeat split; try assumption. intros ->. congruence.
  - intros (i & j & a & b & N & Ha & Hb & Pa & Pb & Ta & Tb).
    assert (Ga : ingroup n a = true) by (apply ingroup_spec; eauto). assert (Gb : ingroup n b = true) by (apply ingroup_spec; eauto).
    pose proof (filter_nth_inv _ _ _ _ Ha Ga) as Fa. pose proof (filter_nth_inv _ _ _ _ Hb Gb) as Fb.
    assert (K : List.length (filter (ingroup n) (firstn i d)) <> List.length (filter (ingroup n) (firstn j d))) by (intros K; apply N; eapply filter_pos_inj; eassumption).
    assert (La : (List.length (filter (ingroup n) (firstn i d)) < List.length (filter (ingroup n) d))%nat) by (apply nth_error_Some; rewrite Fa; discriminate).
    assert (Lb : (List.length (filter (ingroup n) (firstn j d)) < List.length (filter (ingroup n) d))%nat) by (apply nth_error_Some; rewrite Fb; discriminate).
    lia.
Qed.
