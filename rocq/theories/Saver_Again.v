(** * Saving again into a file that already holds results. *)
From Coq Require Import Reals List String Ascii ZArith Bool Lia Lra.
From Verif Require Import Base Py Stab_Model PreCheck_Model Saver_Model Saver_Spec Saver_Proofs Saver_Unpack.
Import ListNotations.
Local Open Scope string_scope.

Lemma create_some f p a q n : obj f q = Some n -> q <> p -> obj (fst (create_dataset f p a)) q = Some n.
Proof.
  intros H N. unfold create_dataset. destruct (_ || _); [exact H|]. cbn. rewrite path_eqb_neq by exact N. apply with_groups_keep, H.
Qed.
Lemma create_some' f p a q n : obj f q = Some n -> obj (fst (create_dataset f p a)) q = Some n.
Proof.
  intros H. unfold create_dataset. destruct (exists_ f p) eqn:E; [exact H|]. cbn [orb]. destruct (existsb _ _); [exact H|]. cbn.
  destruct (path_eqb q p) eqn:P; [|apply with_groups_keep, H]. apply path_eqb_spec in P. subst q. unfold exists_ in E. rewrite H in E. discriminate.
Qed.
(** groups never disappear *)
Lemma run_op_grp m f o q : obj f q = Some Grp -> obj (fst (run_op m f o)) q = Some Grp.
Proof.
  intros H. destruct o as [g n v|g n v]; cbn [run_op].
  - destruct (g =? ""); [exact H|]. unfold require_group. destruct (is_dset f _); [exact H|]. destruct (existsb _ _); [exact H|]. apply with_groups_keep, H.
  - cbv zeta. set (p := split_path (g ++ "/" ++ n)). destruct (exists_ f p); [|apply create_some', H]. destruct m; try exact H.
    unfold overwrite_dataset. destruct (obj f p) as [[|old]|] eqn:B; try exact H.
    assert (N : q <> p) by congruence.
    assert (D : obj (fst (create_dataset (del_dataset f p) p v)) q = Some Grp) by (apply create_some; [cbn; rewrite path_eqb_neq by exact N; exact H|exact N]).
    destruct (dtype_eqb _ _); [|exact D]. destruct (setitem_all_cases old v) as [(a & E)|E]; rewrite E; [|exact D]. cbn. rewrite path_eqb_neq by exact N. exact H.
Qed.
Lemma run_ops_grp m l : forall f q, obj f q = Some Grp -> obj (fst (run_ops m f l)) q = Some Grp.
Proof.
  induction l as [|o l IH]; intros f q H; [exact H|]. cbn [run_ops]. pose proof (run_op_grp m f o q H) as K. destruct (run_op m f o) as [f' [u| |e]]; try exact K. apply IH, K.
Qed.
(** an action in a file where nothing is in the way makes its groups *)
Lemma run_op_groups m f o ds gs l f' : only f ds gs -> clear_way ds gs (o :: l) = true -> run_op m f o = (f', Ok tt) ->
  forall q, In q (groups o) -> obj f' q = Some Grp.
Proof.
  intros O C R q I. destruct o as [g n v|g n v]; cbn [clear_way dpath] in C.
  - apply andb_true_iff in C. destruct C as [C _]. apply negb_true_iff in C. cbn [run_op groups] in *.
    destruct (g =? ""); [contradiction|]. pose proof (not_dset_only f ds gs _ O C) as D. unfold require_group in R. cbn [existsb] in D. apply orb_false_iff in D. destruct D as [D1 D2].
    rewrite D1, D2 in R. inversion R; subst. cbn [obj set_attr]. unfold with_groups. destruct (obj f q) as [[|a]|] eqn:B; [reflexivity| |].
    + exfalso. assert (X : is_dset f q = false). { destruct I as [<-|I]; [exact D1|]. destruct (is_dset f q) eqn:Y; [|reflexivity]. rewrite <- D2. symmetry. apply existsb_exists. exists q. auto. }
      unfold is_dset in X. rewrite B in X. discriminate.
    + assert (X : existsb (path_eqb q) (split_path g :: proper_prefixes (split_path g)) = true) by (apply existsb_path, I). rewrite X. reflexivity.
  - set (p := split_path (g ++ "/" ++ n)) in *. apply andb_true_iff in C. destruct C as [C _]. apply andb_true_iff in C. destruct C as [C1 C2].
    apply negb_true_iff in C2. pose proof (not_dset_only f ds gs _ O C2) as D. cbn [groups] in I. fold p in I.
    assert (E : exists_ f p = false).
    { apply negb_true_iff in C1. unfold exists_. destruct (obj f p) as [[|a]|] eqn:B; [| |reflexivity]; exfalso;
        (assert (X : existsb (path_eqb p) (ds ++ gs)%list = true) by (apply existsb_path, in_or_app; first [right; apply (proj2 (O p)); exact B|left; apply (proj1 (O p) a); exact B]));
        congruence. }
    cbn [run_op] in R. cbv zeta in R. fold p in R. rewrite E in R. unfold create_dataset in R. rewrite E, D in R. cbn [orb] in R. inversion R; subst. cbn [obj].
    rewrite path_eqb_neq by (apply proper_prefixes_neq, I). unfold with_groups. destruct (obj f q) as [[|a]|] eqn:B; [reflexivity| |].
    + exfalso. assert (X : existsb (is_dset f) (proper_prefixes p) = true) by (apply existsb_exists; exists q; split; [exact I|unfold is_dset; rewrite B; reflexivity]). congruence.
    + assert (X : existsb (path_eqb q) (proper_prefixes p) = true) by (apply existsb_path, I). rewrite X. reflexivity.
Qed.
Lemma run_ops_groups m l : forall f ds gs, only f ds gs -> clear_way ds gs l = true ->
  forall o q, In o l -> In q (groups o) -> obj (fst (run_ops m f l)) q = Some Grp.
Proof.
  induction l as [|o l IH]; intros f ds gs O C o' q I J; [contradiction|].
  destruct (run_op_clear m f o ds gs l O C) as (f1 & R & O1 & _). cbn [run_ops]. rewrite R. destruct I as [->|I].
  - apply run_ops_grp. apply (run_op_groups m f o' ds gs l f1 O C R q J).
  - apply (IH f1 _ _ O1 (clear_way_tail _ _ _ _ C) o' q I J).
Qed.

(** ** a file that already has all the groups and datasets of a save *)
Definition ready (f : file) (l : list op) : Prop :=
  forall o, In o l -> (forall p, dpath o = Some p -> exists a, obj f p = Some (Dset a)) /\ (forall q, In q (groups o) -> obj f q = Some Grp).
Lemma ready_after_new m l : forall f ds gs, only f ds gs -> clear_way ds gs l = true -> ready (fst (run_ops m f l)) l.
Proof.
  intros f ds gs O C o I. destruct (run_ops_clear m l f ds gs O C) as (f' & R & D & _). split.
  - intros p E. destruct o as [|g n v]; [discriminate|]. cbn in E. inversion E; subst. exists v. rewrite R. apply D, I.
  - intros q J. apply (run_ops_groups m l f ds gs O C o q I J).
Qed.
Lemma run_op_ready m f o l : ready f (o :: l) -> exists f', run_op m f o = (f', Ok tt) /\ ready f' (o :: l).
Proof.
  intros H. destruct (H o (or_introl eq_refl)) as [HD HG].
  assert (K : exists f', run_op m f o = (f', Ok tt) /\ forall q a, obj f q = Some (Dset a) -> exists b, obj f' q = Some (Dset b)).
  { destruct o as [g n v|g n v]; cbn [run_op].
    - destruct (g =? "") eqn:G; [eexists; split; [reflexivity|intros q a E; exists a; exact E]|]. unfold groups in HG. rewrite G in HG.
      assert (D1 : is_dset f (split_path g) = false) by (unfold is_dset; rewrite HG by (left; reflexivity); reflexivity).
      assert (D2 : existsb (is_dset f) (proper_prefixes (split_path g)) = false).
      { destruct (existsb _ _) eqn:E; [|reflexivity]. apply existsb_exists in E. destruct E as (q & I & D). unfold is_dset in D. rewrite HG in D by (right; exact I). discriminate. }
      unfold require_group. rewrite D1, D2. eexists. split; [reflexivity|]. intros q a E. exists a. apply with_groups_keep, E.
    - cbv zeta. set (p := split_path (g ++ "/" ++ n)) in *. destruct (HD p eq_refl) as (old & B). unfold exists_. rewrite B.
      destruct m; try (eexists; split; [reflexivity|intros q a E; exists a; exact E]).
      unfold overwrite_dataset. rewrite B.
      assert (D : exists f', create_dataset (del_dataset f p) p v = (f', Ok tt) /\ forall q a, obj f q = Some (Dset a) -> exists b, obj f' q = Some (Dset b)).
      { unfold create_dataset, exists_. cbn [obj del_dataset]. rewrite path_eqb_refl.
        assert (D2 : existsb (is_dset (del_dataset f p)) (proper_prefixes p) = false).
        { destruct (existsb _ _) eqn:E; [|reflexivity]. apply existsb_exists in E. destruct E as (q & I & D). unfold is_dset in D. cbn in D.
          rewrite path_eqb_neq in D by (apply proper_prefixes_neq, I). rewrite HG in D by exact I. discriminate. }
        rewrite D2. cbn [orb]. eexists. split; [reflexivity|]. intros q a E. cbn. destruct (path_eqb q p) eqn:P; [exists v; reflexivity|].
        exists a. apply with_groups_keep. cbn. rewrite P. exact E. }
      destruct (dtype_eqb _ _); [|exact D]. destruct (setitem_all_cases old v) as [(b & E)|E]; rewrite E; [|exact D].
      eexists. split; [reflexivity|]. intros q a F. cbn. destruct (path_eqb q p); [exists b; reflexivity|exists a; exact F]. }
  destruct K as (f' & R & K). exists f'. split; [exact R|]. intros o' I. destruct (H o' I) as [HD' HG']. split.
  - intros p E. destruct (HD' p E) as (a & B). apply (K p a B).
  - intros q J. pose proof (run_op_grp m f o q (HG' q J)) as X. rewrite R in X. exact X.
Qed.
Lemma run_ops_ready m l : forall f, ready f l -> exists f', run_ops m f l = (f', Ok tt).
Proof.
  induction l as [|o l IH]; intros f H; [eexists; reflexivity|]. destruct (run_op_ready m f o l H) as (f1 & R & H1). cbn [run_ops]. rewrite R.
  apply IH. intros o' I. apply H1. right. exact I.
Qed.
Lemma clear_way_once l1 : forall ds gs o p l2, clear_way ds gs (l1 ++ o :: l2)%list = true -> dpath o = Some p -> ~ writes l1 p /\ ~ writes l2 p.
Proof.
  induction l1 as [|o1 l1 IH]; intros ds gs o p l2 C D; cbn [List.app] in C; pose proof (clear_way_tail _ _ _ _ C) as T.
  - split; [intros (? & [] & _)|]. rewrite D in T. apply (clear_way_fresh _ _ _ p T). left. reflexivity.
  - destruct (IH _ _ o p l2 T D) as [A B]. split; [|exact B]. intros (o' & [->|I] & E); [|apply A; exists o'; auto].
    rewrite E in T. apply (clear_way_fresh _ _ _ p T (or_introl eq_refl)). exists o. split; [apply in_or_app; right; left; reflexivity|exact D].
Qed.
(** the dataset of an action after a second save *)
Lemma run_again m f l g n v p old : ready f l -> clear_way [] [[]] l = true -> In (SetData g n v) l -> p = split_path (g ++ "/" ++ n) ->
  obj f p = Some (Dset old) ->
  exists f', run_ops m f l = (f', Ok tt) /\ obj f' p = Some (Dset match m with RPlus => merged old v | _ => old end).
Proof.
  intros H C I P B. destruct (run_ops_ready m l f H) as (f' & R). exists f'. split; [exact R|].
  apply in_split in I. destruct I as (l1 & l2 & E). subst l. assert (Dp : dpath (SetData g n v) = Some p) by (rewrite P; reflexivity). destruct (clear_way_once _ _ _ _ p _ C Dp) as [N1 N2].
  pose proof (run_ops_once m f l1 g n v l2 p P N1 N2) as K. rewrite R in K. cbn [fst] in K. rewrite K, B; [reflexivity|intros X; exfalso; congruence|reflexivity].
Qed.

(** what a reader sees after in-place assignment between columns of triads *)
Lemma col_merged x ts1 ts2 : List.length ts1 = List.length ts2 -> same_array (merged (col x ts1) (col x ts2)) (col x ts2).
Proof. intros L. apply merged_same_shape; destruct x; cbn; congruence. Qed.
Definition width (x : content) : nat := match x with Scalars _ _ => 1 | Rows _ w _ => w end.
Lemma col_size x ts : size (col x ts) = (List.length ts * width x)%nat.
Proof. destruct x; unfold size; cbn; lia. Qed.
Lemma col_merged_other x ts1 ts2 : ts1 <> [] -> width x <> 0%nat -> List.length ts1 <> List.length ts2 -> List.length ts2 <> 1%nat ->
  merged (col x ts1) (col x ts2) = col x ts2.
Proof.
  intros N W L O. apply merged_new. right. rewrite col_size. split.
  - destruct ts1; [contradiction|]. cbn [List.length]. destruct (width x); [contradiction|]. lia.
  - apply Nat.eqb_neq in O. assert (Q : (List.length ts2 =? List.length ts1)%nat = false) by (apply Nat.eqb_neq; congruence).
    destruct x; cbn; rewrite O, Q; cbn; [reflexivity|]. rewrite andb_false_r. reflexivity.
Qed.
Lemma nth_repeat' {A} (a d : A) n i : (i < n)%nat -> nth i (repeat a n) d = a.
Proof. revert i. induction n as [|n IH]; intros [|i] H; cbn; try lia; [reflexivity|apply IH; lia]. Qed.
Lemma map_repeat {A B} (f : A -> B) a n : map f (repeat a n) = repeat (f a) n.
Proof. induction n; cbn; congruence. Qed.
Lemma col_merged_one x ts1 t : ts1 <> [] -> width x <> 0%nat -> same_array (merged (col x ts1) (col x [t])) (col x (repeat t (List.length ts1))).
Proof.
  intros N W. destruct x as [dt g|dt w g].
  - destruct (merged_repeats (col (Scalars dt g) ts1) (col (Scalars dt g) [t]) (List.length ts1) []) as (A & B & C); try reflexivity.
    { rewrite col_size. destruct ts1; [contradiction|]. cbn. lia. }
    split; [rewrite A; reflexivity|]. rewrite B. cbn [shape col]. rewrite repeat_length. split; [reflexivity|]. intros idx V. inversion V as [|i k idx' k' L V']; subst. inversion V'; subst.
    rewrite C by exact V. cbn. rewrite map_repeat, nth_repeat' by exact L. reflexivity.
  - destruct (merged_repeats (col (Rows dt w g) ts1) (col (Rows dt w g) [t]) (List.length ts1) [w]) as (A & B & C); try reflexivity.
    { rewrite col_size. destruct ts1; [contradiction|]. cbn [List.length width] in *. destruct w; [contradiction|]. lia. }
    split; [rewrite A; reflexivity|]. rewrite B. cbn [shape col]. rewrite repeat_length. split; [reflexivity|]. intros idx V. inversion V as [|i k idx' k' L V']; subst.
    inversion V' as [|j k2 idx2 k2' L2 V2]; subst. inversion V2; subst. rewrite C by exact V. cbn. rewrite map_repeat, nth_repeat' by exact L. reflexivity.
Qed.

(** ** broadcasting *)
Lemma fits_nth : forall src dst, fits src dst = true <->
  forall i, (i < List.length src)%nat -> nth i src 1%nat = 1%nat \/ ((i < List.length dst)%nat /\ nth i src 1%nat = nth i dst 1%nat).
Proof.
  induction src as [|s src IH]; intros dst; [split; [intros _ i H; cbn in H; lia|reflexivity]|]. destruct dst as [|d dst]; cbn [fits]; rewrite andb_true_iff, IH.
  - rewrite Nat.eqb_eq. split.
    + intros [A B] [|i] H; cbn [nth List.length] in *; [auto|]. destruct (B i ltac:(lia)) as [E|[E _]]; [auto|lia].
    + intros H. split; [destruct (H 0%nat ltac:(cbn; lia)) as [E|[E _]]; [exact E|cbn in E; lia]|]. intros i L. destruct (H (S i) ltac:(cbn; lia)) as [E|[E _]]; [auto|cbn in E; lia].
  - rewrite orb_true_iff, !Nat.eqb_eq. split.
    + intros [A B] [|i] H; cbn in *; [destruct A; [auto|right; split; [lia|assumption]]|]. destruct (B i ltac:(lia)) as [E|[E F]]; [auto|right; split; [lia|exact F]].
    + intros H. split; [destruct (H 0%nat ltac:(cbn; lia)) as [E|[E F]]; auto|]. intros i L. destruct (H (S i) ltac:(cbn; lia)) as [E|[E F]]; [auto|right; cbn in *; split; [lia|exact F]].
Qed.
Lemma fits_broadcasts src dst : fits (rev src) (rev dst) = true <-> broadcasts src dst.
Proof. rewrite fits_nth, !rev_length. reflexivity. Qed.

(** ** attributes: the last assignment of a save wins *)
Fixpoint last_attr (l : list op) (q : path) (k : string) : option aval :=
  match l with
  | [] => None
  | o :: l' => match last_attr l' q k with
               | Some v => Some v
               | None => match o with SetAttr g n v => if path_eqb (split_path g) q && (n =? k) then Some v else None | _ => None end
               end
  end.
Lemma last_attr_none l q k : last_attr l q k = None -> forall o, In o l -> attr_key o <> Some (q, k).
Proof.
  induction l as [|o l IH]; [contradiction|]. cbn. destruct (last_attr l q k); [discriminate|]. intros H o' [<-|I]; [|apply IH; auto].
  destruct o as [g n v|]; [|discriminate]. intros E. inversion E; subst. rewrite path_eqb_refl, String.eqb_refl in H. discriminate.
Qed.
Lemma last_attr_split l q k v : last_attr l q k = Some v ->
  (exists l1 g n l2, l = l1 ++ SetAttr g n v :: l2 /\ split_path g = q /\ n = k /\ forall o, In o l2 -> attr_key o <> Some (q, k))%list.
Proof.
  induction l as [|o l IH]; [discriminate|]. cbn. destruct (last_attr l q k) as [w|] eqn:E.
  - intros H. inversion H; subst. destruct (IH eq_refl) as (l1 & g & n & l2 & A & B). exists (o :: l1), g, n, l2. split; [cbn; congruence|exact B].
  - destruct o as [g n w|]; [|discriminate]. destruct (path_eqb (split_path g) q) eqn:P; [|discriminate]. destruct (String.eqb_spec n k) as [N|]; [|discriminate].
    cbn. intros H. inversion H; subst. exists [], g, k, l. split; [reflexivity|]. split; [apply path_eqb_spec, P|]. split; [reflexivity|]. apply last_attr_none, E.
Qed.
Lemma run_ops_attr m l : forall f f' q k, run_ops m f l = (f', Ok tt) -> obj f q = Some Grp ->
  attr f' q k = match last_attr l q k with Some v => Some v | None => attr f q k end.
Proof.
  induction l as [|o l IH]; intros f f' q k R G; [inversion R; reflexivity|]. cbn [run_ops] in R. destruct (run_op m f o) as [f1 [u| |e]] eqn:E; try (inversion R; fail).
  pose proof (run_op_grp m f o q G) as G1. rewrite E in G1. cbn [fst] in G1. rewrite (IH f1 f' q k R G1). cbn [last_attr]. destruct (last_attr l q k); [reflexivity|].
  destruct (match o with SetAttr g n v => if path_eqb (split_path g) q && (n =? k) then Some v else None | _ => None end) as [w|] eqn:K.
  - destruct o as [g n v|]; [|discriminate]. destruct (path_eqb (split_path g) q) eqn:P; [|discriminate]. destruct (String.eqb_spec n k) as [N|]; [|discriminate].
    cbn in K. inversion K; subst. apply path_eqb_spec in P. subst q. cbn [run_op] in E. destruct (g =? "") eqn:Z.
    + apply String.eqb_eq in Z. subst g. inversion E; subst. cbn. rewrite String.eqb_refl. reflexivity.
    + destruct (require_group f (split_path g)) as [f2 [u2| |e2]]; inversion E; subst. cbn. rewrite path_eqb_refl, String.eqb_refl. reflexivity.
  - pose proof (run_op_attr_frame m f o q k) as F. rewrite E in F. apply F; [|rewrite G; discriminate].
    destruct o as [g n v|]; [|discriminate]. cbn. intros X. inversion X; subst. rewrite path_eqb_refl, String.eqb_refl in K. discriminate.
Qed.

(** without read-write mode every dataset comes from the old file or from an action *)
Lemma run_ops_source m l : m <> RPlus -> forall f p a, obj (fst (run_ops m f l)) p = Some (Dset a) ->
  obj f p = Some (Dset a) \/ exists g n, In (SetData g n a) l /\ p = split_path (g ++ "/" ++ n).
Proof.
  intros M. induction l as [|o l IH]; intros f p a H; [left; exact H|]. cbn [run_ops] in H.
  assert (K : obj (fst (run_op m f o)) p = Some (Dset a) -> obj f p = Some (Dset a) \/ exists g n, In (SetData g n a) (o :: l) /\ p = split_path (g ++ "/" ++ n)).
  { destruct o as [g n v|g n v]; cbn [run_op].
    - destruct (g =? ""); [auto|]. unfold require_group. destruct (is_dset f _); [auto|]. destruct (existsb (is_dset f) _); [auto|]. cbn. unfold with_groups.
      destruct (obj f p); [auto|]. match goal with |- context [if ?b then _ else _] => destruct b end; discriminate.
    - cbv zeta. set (q := split_path (g ++ "/" ++ n)). destruct (exists_ f q); [destruct m; auto; contradiction|]. unfold create_dataset. destruct (_ || _); [auto|]. cbn.
      destruct (path_eqb p q) eqn:P.
      + intros E. inversion E; subst. right. exists g, n. split; [left; reflexivity|apply path_eqb_spec, P].
      + unfold with_groups. destruct (obj f p); [auto|]. destruct (existsb _ _); discriminate. }
  destruct (run_op m f o) as [f1 [u| |e]]; try (apply K; exact H).
  destruct (IH f1 p a H) as [B|(g & n & I & E)]; [apply K, B|]. right. exists g, n. split; [right; exact I|exact E].
Qed.
