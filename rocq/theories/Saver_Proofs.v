(** * Proofs about stored results. *)
From Coq Require Import Reals List String Ascii ZArith Bool Lia.
From Verif Require Import Base Py Stab_Model PreCheck_Model Saver_Model Saver_Spec.
Import ListNotations.
Local Open Scope string_scope.

Lemma path_eqb_spec p q : path_eqb p q = true <-> p = q.
Proof. unfold path_eqb. destruct (list_eq_dec string_dec p q); split; congruence. Qed.
Lemma path_eqb_refl p : path_eqb p p = true.
Proof. apply path_eqb_spec. reflexivity. Qed.
Lemma path_eqb_neq p q : p <> q -> path_eqb p q = false.
Proof. intros H. destruct (path_eqb p q) eqn:E; [|reflexivity]. apply path_eqb_spec in E. contradiction. Qed.
Lemma proper_prefixes_neq p q : In q (proper_prefixes p) -> q <> p.
Proof.
  revert q. induction p as [|x p IH]; cbn; [contradiction|]. intros q [<-|H]; [discriminate|].
  apply in_map_iff in H. destruct H as (r & <- & H). intros E. injection E as E. apply (IH r H E).
Qed.
Lemma existsb_path ps q : existsb (path_eqb q) ps = true <-> In q ps.
Proof.
  rewrite existsb_exists. split.
  - intros (x & H & E). apply path_eqb_spec in E. subst. exact H.
  - intros H. exists q. split; [exact H|apply path_eqb_refl].
Qed.
Lemma dtype_eqb_spec a b : dtype_eqb a b = true <-> a = b.
Proof. destruct a, b; cbn; split; congruence. Qed.

(** ** one storage action *)
Lemma with_groups_keep f ps q n : obj f q = Some n -> with_groups f ps q = Some n.
Proof. unfold with_groups. intros ->. reflexivity. Qed.
Lemma with_groups_none f ps q : obj f q = None -> with_groups f ps q = None \/ with_groups f ps q = Some Grp.
Proof. unfold with_groups. intros ->. destruct (existsb _ ps); auto. Qed.

(** objects at other paths are kept; where nothing was, at most a group appears *)
Definition kept (f f' : file) (q : path) : Prop :=
  obj f' q = obj f q \/ (obj f q = None /\ obj f' q = Some Grp).
Lemma kept_refl f q : kept f f q. Proof. left. reflexivity. Qed.
Lemma kept_trans f g h q : kept f g q -> kept g h q -> kept f h q.
Proof. unfold kept. intros [A|[A B]] [C|[C D]]; [left; congruence|right; split; congruence|right; split; congruence|congruence]. Qed.
Lemma with_groups_kept f ps q : with_groups f ps q = obj f q \/ (obj f q = None /\ with_groups f ps q = Some Grp).
Proof. unfold with_groups. destruct (obj f q); [left; reflexivity|]. destruct (existsb _ ps); auto. Qed.
Lemma create_kept f p a q : q <> p -> kept f (fst (create_dataset f p a)) q.
Proof.
  intros H. unfold create_dataset. destruct (_ || _); [apply kept_refl|]. unfold kept. cbn. rewrite path_eqb_neq by exact H. apply with_groups_kept.
Qed.
Lemma del_kept f p q : q <> p -> kept f (del_dataset f p) q.
Proof. intros H. left. cbn. rewrite path_eqb_neq by exact H. reflexivity. Qed.
Lemma put_kept f p a q : q <> p -> kept f (put_dataset f p a) q.
Proof. intros H. left. cbn. rewrite path_eqb_neq by exact H. reflexivity. Qed.
Lemma overwrite_kept f p a q : q <> p -> kept f (fst (overwrite_dataset f p a)) q.
Proof.
  intros H. unfold overwrite_dataset. destruct (obj f p) as [[|old]|]; try apply kept_refl.
  assert (K : kept f (fst (create_dataset (del_dataset f p) p a)) q)
    by (eapply kept_trans; [apply (del_kept f p q H)|apply create_kept, H]).
  destruct (dtype_eqb _ _); [|exact K]. destruct (setitem_all old a) as [b| |[]]; first [exact K|apply kept_refl|cbn [fst]; apply put_kept, H].
Qed.
Lemma run_op_kept m f o q : dpath o <> Some q -> kept f (fst (run_op m f o)) q.
Proof.
  intros H. destruct o as [g n v|g n v]; cbn [run_op].
  - destruct (g =? ""); [left; reflexivity|]. unfold require_group. destruct (is_dset f _); [apply kept_refl|]. destruct (existsb _ _); [apply kept_refl|].
    unfold kept. cbn. apply with_groups_kept.
  - assert (N : q <> split_path (g ++ "/" ++ n)) by (intros ->; apply H; reflexivity).
    cbv zeta. destruct (exists_ f _).
    + destruct m; try apply kept_refl. apply overwrite_kept, N.
    + apply create_kept, N.
Qed.
Lemma run_ops_kept m l : forall f q, ~ writes l q -> kept f (fst (run_ops m f l)) q.
Proof.
  induction l as [|o l IH]; intros f q H; [apply kept_refl|]. cbn [run_ops].
  destruct (run_op m f o) as [f' r] eqn:E.
  assert (K : kept f f' q).
  { replace f' with (fst (run_op m f o)) by (rewrite E; reflexivity). apply run_op_kept. intros D. apply H. exists o. split; [left; reflexivity|exact D]. }
  destruct r; cbn [fst]; try exact K. eapply kept_trans; [exact K|]. apply IH. intros (o' & I & D). apply H. exists o'. split; [right; exact I|exact D].
Qed.
Lemma kept_dset f f' q a : kept f f' q -> obj f q = Some (Dset a) -> obj f' q = Some (Dset a).
Proof. unfold kept. intros [A|[A B]] C; congruence. Qed.
Lemma kept_no_dset f f' q : kept f f' q -> no_dataset f q -> no_dataset f' q.
Proof. unfold kept, no_dataset. intros [A|[A B]] C a D; [apply (C a)|]; congruence. Qed.

Lemma create_ok f p a f' r : create_dataset f p a = (f', r) -> r = Ok tt -> obj f' p = Some (Dset a) /\ obj f p = None.
Proof.
  unfold create_dataset. destruct (exists_ f p || _) eqn:E; intros H; inversion H; subst; intros K; [discriminate|]. split.
  - cbn. rewrite path_eqb_refl. reflexivity.
  - apply orb_false_iff in E. destruct E as [E _]. unfold exists_ in E. destruct (obj f p); congruence.
Qed.
(** what an action leaves at its own path *)
Definition merged (old v : arr) : arr :=
  if dtype_eqb (adt old) (adt v) then match setitem_all old v with Ok a => a | _ => v end else v.
Lemma setitem_all_cases old v : (exists a, setitem_all old v = Ok a) \/ setitem_all old v = Exc TypeError.
Proof. unfold setitem_all. destruct (_ =? 0)%nat; [left; eauto|]. destruct (fits _ _); [left; eauto|right; reflexivity]. Qed.
Definition after_op (m : mode) (cur : option node) (v : arr) : option node :=
  match cur with
  | None => Some (Dset v)
  | Some Grp => Some Grp
  | Some (Dset old) => Some (Dset match m with RPlus => merged old v | _ => old end)
  end.
Lemma run_op_at m f g n v f' r p : p = split_path (g ++ "/" ++ n) -> run_op m f (SetData g n v) = (f', r) -> r = Ok tt ->
  obj f' p = after_op m (obj f p) v.
Proof.
  intros Hp H R. subst p. set (p := split_path (g ++ "/" ++ n)) in *. cbn [run_op] in H. cbv zeta in H. fold p in H. destruct (exists_ f p) eqn:E.
  - unfold exists_ in E. destruct (obj f p) as [nd|] eqn:O; [|discriminate].
    destruct m; try (inversion H; subst; rewrite O; destruct nd; reflexivity).
    unfold overwrite_dataset in H. rewrite O in H. destruct nd as [|old].
    + inversion H; subst. rewrite O. reflexivity.
    + cbn [after_op]. unfold merged. destruct (dtype_eqb _ _).
      * destruct (setitem_all_cases old v) as [(a & S)|S]; rewrite S in *.
        -- inversion H; subst. cbn. rewrite path_eqb_refl. reflexivity.
        -- apply create_ok in H; [|exact R]. apply H.
      * apply create_ok in H; [|exact R]. apply H.
  - unfold exists_ in E. destruct (obj f p) eqn:O; [discriminate|]. apply create_ok in H; [|exact R]. apply H.
Qed.

(** paths that are neither written nor made a group keep their content *)
Lemma with_groups_same f ps q : ~ In q ps -> with_groups f ps q = obj f q.
Proof.
  intros H. unfold with_groups. destruct (obj f q); [reflexivity|]. destruct (existsb _ ps) eqn:E; [|reflexivity].
  apply existsb_path in E. contradiction.
Qed.
Lemma create_same f p a q : q <> p -> ~ In q (proper_prefixes p) -> obj (fst (create_dataset f p a)) q = obj f q.
Proof.
  intros H I. unfold create_dataset. destruct (_ || _); [reflexivity|]. cbn. rewrite path_eqb_neq by exact H. apply with_groups_same, I.
Qed.
Lemma overwrite_same f p a q : q <> p -> ~ In q (proper_prefixes p) -> obj (fst (overwrite_dataset f p a)) q = obj f q.
Proof.
  intros H I. unfold overwrite_dataset. destruct (obj f p) as [[|old]|]; try reflexivity.
  assert (K : obj (fst (create_dataset (del_dataset f p) p a)) q = obj f q)
    by (rewrite create_same by assumption; cbn; rewrite path_eqb_neq by exact H; reflexivity).
  destruct (dtype_eqb _ _); [|exact K]. destruct (setitem_all old a) as [b| |[]]; first [exact K|reflexivity|cbn; rewrite path_eqb_neq by exact H; reflexivity].
Qed.
Lemma run_op_same m f o q : dpath o <> Some q -> ~ In q (groups o) -> obj (fst (run_op m f o)) q = obj f q.
Proof.
  intros H I. destruct o as [g n v|g n v]; cbn [run_op].
  - unfold groups in I. destruct (g =? ""); [reflexivity|]. unfold require_group. destruct (is_dset f _); [reflexivity|]. destruct (existsb _ _); [reflexivity|].
    cbn. apply with_groups_same, I.
  - assert (N : q <> split_path (g ++ "/" ++ n)) by (intros ->; apply H; reflexivity).
    cbv zeta. destruct (exists_ f _).
    + destruct m; try reflexivity. apply overwrite_same; assumption.
    + apply create_same; assumption.
Qed.
Lemma run_ops_same m l : forall f q, ~ writes l q -> ~ makes_group l q -> obj (fst (run_ops m f l)) q = obj f q.
Proof.
  induction l as [|o l IH]; intros f q H I; [reflexivity|]. cbn [run_ops].
  destruct (run_op m f o) as [f' r] eqn:E.
  assert (K : obj f' q = obj f q).
  { replace f' with (fst (run_op m f o)) by (rewrite E; reflexivity). apply run_op_same.
    - intros D. apply H. exists o. split; [left; reflexivity|exact D].
    - intros D. apply I. exists o. split; [left; reflexivity|exact D]. }
  destruct r; cbn [fst]; try exact K. rewrite IH; [exact K| |].
  - intros (o' & A & D). apply H. exists o'. split; [right; exact A|exact D].
  - intros (o' & A & D). apply I. exists o'. split; [right; exact A|exact D].
Qed.

(** ** a whole save in which a path is written exactly once *)
Definition ops_ok (x : file * res unit) : Prop := snd x = Ok tt.
Lemma run_ops_app m l1 l2 f : ops_ok (run_ops m f (l1 ++ l2)%list) ->
  ops_ok (run_ops m f l1) /\ run_ops m f (l1 ++ l2)%list = run_ops m (fst (run_ops m f l1)) l2.
Proof.
  revert f. induction l1 as [|o l1 IH]; intros f H; [split; [reflexivity|reflexivity]|]. cbn [run_ops List.app] in *.
  destruct (run_op m f o) as [f' [u| |e]]; unfold ops_ok in *; cbn [snd] in H; try discriminate. apply IH, H.
Qed.
Lemma after_op_some m c v : exists nd, after_op m c v = Some nd.
Proof. unfold after_op. destruct c as [[|]|]; eauto. Qed.
Lemma run_ops_once m f pre g n v post p :
  p = split_path (g ++ "/" ++ n) -> ~ writes pre p -> ~ writes post p -> (obj f p = None -> ~ makes_group pre p) ->
  ops_ok (run_ops m f (pre ++ SetData g n v :: post)%list) ->
  obj (fst (run_ops m f (pre ++ SetData g n v :: post)%list)) p = after_op m (obj f p) v.
Proof.
  intros Hp N1 N2 G H. destruct (run_ops_app m pre _ f H) as [H1 E]. rewrite E in *. clear E.
  assert (K1 : obj (fst (run_ops m f pre)) p = obj f p).
  { destruct (run_ops_kept m pre f p N1) as [K|[K K']]; [exact K|]. apply run_ops_same; [exact N1|apply G, K]. }
  set (f1 := fst (run_ops m f pre)) in *.
  cbn [run_ops] in *. destruct (run_op m f1 (SetData g n v)) as [f2 r] eqn:E2. destruct r as [u| |e]; unfold ops_ok in H; cbn [snd] in H; try discriminate.
  assert (A : obj f2 p = after_op m (obj f1 p) v) by (destruct u; eapply run_op_at; eauto).
  rewrite K1 in A. destruct (run_ops_kept m post f2 p N2) as [K2|[K2 K2']]; [congruence|].
  destruct (after_op_some m (obj f p) v) as [nd E]. congruence.
Qed.

(** ** assignment in place: what a reader sees *)
Lemma valid_length sh idx : valid sh idx -> List.length idx = List.length sh.
Proof. unfold valid. intros H. induction H; cbn; congruence. Qed.
Lemma project_same : forall sh idx, Forall2 lt idx sh -> project sh idx = idx.
Proof.
  induction sh as [|s sh IH]; intros idx H; inversion H; subst; [reflexivity|]. cbn. rewrite IH by assumption.
  destruct (Nat.eqb_spec s 1); [|reflexivity]. f_equal. lia.
Qed.
Lemma Forall2_rev {A B} (P : A -> B -> Prop) l1 l2 : Forall2 P l1 l2 -> Forall2 P (rev l1) (rev l2).
Proof. induction 1; [constructor|]. cbn. apply Forall2_app; [assumption|]. constructor; [assumption|constructor]. Qed.
Lemma valid_size sh idx : valid sh idx -> (fold_right Nat.mul 1 sh)%nat <> 0%nat.
Proof. unfold valid. intros H. induction H; cbn; [discriminate|]. intros E. apply Nat.mul_eq_0 in E. destruct E; [lia|contradiction]. Qed.
Lemma fits_refl l : fits l l = true.
Proof. induction l as [|s l IH]; [reflexivity|]. cbn. rewrite Nat.eqb_refl, IH, orb_true_r. reflexivity. Qed.
Lemma merged_same_shape old v : shape old = shape v -> adt old = adt v -> same_array (merged old v) v.
Proof.
  intros S D. unfold merged. destruct (dtype_eqb _ _) eqn:E; [|split; [|split]; auto].
  unfold setitem_all. destruct (_ =? 0)%nat eqn:Z.
  - split; [exact D|]. split; [exact S|]. intros idx V. apply valid_size in V. apply Nat.eqb_eq in Z. contradiction.
  - rewrite <- S, fits_refl. split; [exact D|]. split; [exact S|]. cbn [shape at_]. intros idx V.
    rewrite project_same by (apply Forall2_rev, V). rewrite rev_involutive. reflexivity.
Qed.
Lemma merged_new old v : (adt old <> adt v \/ (size old <> 0%nat /\ fits (rev (shape v)) (rev (shape old)) = false)) -> merged old v = v.
Proof.
  intros H. unfold merged. destruct (dtype_eqb _ _) eqn:E; [|reflexivity]. apply dtype_eqb_spec in E. destruct H as [H|[H F]]; [contradiction|].
  unfold setitem_all, prod. unfold size in H. apply Nat.eqb_neq in H. rewrite H, F. reflexivity.
Qed.
Lemma project_app a b c d : List.length a = List.length b -> project (a ++ c)%list (b ++ d)%list = (project a b ++ project c d)%list.
Proof. revert b. induction a as [|x a IH]; intros [|y b] H; try discriminate; [reflexivity|]. cbn. rewrite IH by (cbn in H; congruence). reflexivity. Qed.
Lemma fits_app a b c d : List.length a = List.length b -> fits (a ++ c)%list (b ++ d)%list = fits a b && fits c d.
Proof.
  revert b. induction a as [|x a IH]; intros [|y b] H; try discriminate; [reflexivity|]. cbn. rewrite IH by (cbn in H; congruence). apply andb_assoc.
Qed.
Lemma merged_repeats old v n s : shape old = n :: s -> shape v = 1%nat :: s -> adt old = adt v -> size old <> 0%nat ->
  adt (merged old v) = adt old /\ shape (merged old v) = n :: s /\ forall i idx, valid (n :: s) (i :: idx) -> at_ (merged old v) (i :: idx) = at_ v (0%nat :: idx).
Proof.
  intros So Sv D Z. unfold merged. assert (E : dtype_eqb (adt old) (adt v) = true) by (apply dtype_eqb_spec; exact D). rewrite E.
  unfold setitem_all, prod. unfold size in Z. apply Nat.eqb_neq in Z. rewrite Z, Sv, So. cbn [rev]. rewrite fits_app by reflexivity. rewrite fits_refl. cbn [fits andb Nat.eqb orb adt shape at_].
  split; [reflexivity|]. split; [reflexivity|]. intros i idx V. inversion V; subst. cbn [rev].
  match goal with H : Forall2 lt idx s |- _ => pose proof H as W end.
  rewrite project_app by (rewrite !rev_length; symmetry; apply (valid_length s idx W)).
  cbn [project Nat.eqb]. rewrite rev_app_distr. cbn [rev List.app]. rewrite project_same by (apply Forall2_rev, W). rewrite rev_involutive. reflexivity.
Qed.
Lemma merged_empty old v : size old = 0%nat -> adt old = adt v -> merged old v = old.
Proof.
  intros Z D. unfold merged. assert (E : dtype_eqb (adt old) (adt v) = true) by (apply dtype_eqb_spec; exact D). rewrite E.
  unfold setitem_all, prod. unfold size in Z. rewrite Z. reflexivity.
Qed.

(** ** a save into a file in which nothing is in the way *)
Fixpoint clear_way (ds gs : list path) (l : list op) : bool :=
  match l with
  | [] => true
  | o :: l' =>
      match dpath o with
      | Some p => negb (existsb (path_eqb p) (ds ++ gs)%list) && negb (existsb (fun q => existsb (path_eqb q) ds) (proper_prefixes p))
                  && clear_way (p :: ds) (groups o ++ gs)%list l'
      | None => negb (existsb (fun q => existsb (path_eqb q) ds) (groups o)) && clear_way ds (groups o ++ gs)%list l'
      end
  end.
Definition only (f : file) (ds gs : list path) : Prop :=
  forall q, (forall a, obj f q = Some (Dset a) -> In q ds) /\ (obj f q = Some Grp -> In q gs).
Lemma not_dset_only f ds gs ps : only f ds gs -> existsb (fun q => existsb (path_eqb q) ds) ps = false -> existsb (is_dset f) ps = false.
Proof.
  intros O H. destruct (existsb (is_dset f) ps) eqn:E; [|reflexivity]. apply existsb_exists in E. destruct E as (q & I & D).
  assert (C : existsb (fun q => existsb (path_eqb q) ds) ps = true).
  { apply existsb_exists. exists q. split; [exact I|]. apply existsb_path. unfold is_dset in D. destruct (obj f q) as [[|a]|] eqn:B; try discriminate. apply (proj1 (O q) a B). }
  congruence.
Qed.
Lemma with_groups_only f ps ds gs : only f ds gs -> forall q, (forall a, with_groups f ps q = Some (Dset a) -> In q ds) /\ (with_groups f ps q = Some Grp -> In q (ps ++ gs)%list).
Proof.
  intros O q. unfold with_groups. destruct (obj f q) as [nd|] eqn:E.
  - split; [intros a H; apply (proj1 (O q) a); congruence|]. intros H. apply in_or_app. right. apply (proj2 (O q)). congruence.
  - destruct (existsb _ ps) eqn:X; split; try discriminate. intros _. apply in_or_app. left. apply existsb_path. exact X.
Qed.
Lemma run_op_clear m f o ds gs l : only f ds gs -> clear_way ds gs (o :: l) = true ->
  exists f', run_op m f o = (f', Ok tt) /\
    only f' (match dpath o with Some p => p :: ds | None => ds end) (groups o ++ gs)%list /\
    match o with SetData g n v => obj f' (split_path (g ++ "/" ++ n)) = Some (Dset v) | SetAttr g n v => attr f' (split_path g) n = Some v end /\
    (forall q k, (forall g n v, o = SetAttr g n v -> (q, k) <> (split_path g, n)) -> attr f' q k = attr f q k).
Proof.
  intros O C. destruct o as [g n v|g n v]; cbn [clear_way dpath] in C.
  - apply andb_true_iff in C. destruct C as [C _]. apply negb_true_iff in C. cbn [run_op groups dpath].
    unfold groups in C. destruct (g =? "") eqn:G.
    + apply String.eqb_eq in G. subst g. eexists. split; [reflexivity|]. split; [exact O|]. split.
      * cbn. rewrite String.eqb_refl. reflexivity.
      * intros q k N. cbn. destruct (path_eqb q []) eqn:P; [|reflexivity]. destruct (String.eqb_spec k n) as [->|]; [|reflexivity].
        exfalso. apply path_eqb_spec in P. subst q. apply (N "" n v eq_refl). reflexivity.
    + pose proof (not_dset_only f ds gs _ O C) as D. cbn [existsb] in D. apply orb_false_iff in D. destruct D as [D1 D2].
      unfold require_group. rewrite D1, D2. eexists. split; [reflexivity|]. split.
      * intros q. cbn [obj set_attr]. apply with_groups_only. exact O.
      * split.
        -- cbn. rewrite path_eqb_refl, String.eqb_refl. reflexivity.
        -- intros q k N. cbn. destruct (path_eqb q (split_path g)) eqn:P; [|reflexivity]. destruct (String.eqb_spec k n) as [->|]; [|reflexivity].
           exfalso. apply path_eqb_spec in P. subst q. apply (N g n v eq_refl). reflexivity.
  - set (p := split_path (g ++ "/" ++ n)) in *. apply andb_true_iff in C. destruct C as [C _]. apply andb_true_iff in C. destruct C as [C1 C2].
    apply negb_true_iff in C1. apply negb_true_iff in C2. pose proof (not_dset_only f ds gs _ O C2) as D.
    assert (E : exists_ f p = false).
    { unfold exists_. destruct (obj f p) as [[|a]|] eqn:B; [| |reflexivity]; exfalso;
        (assert (X : existsb (path_eqb p) (ds ++ gs)%list = true) by (apply existsb_path, in_or_app; first [right; apply (proj2 (O p)); exact B|left; apply (proj1 (O p) a); exact B]));
        congruence. }
    cbn [run_op]. cbv zeta. fold p. rewrite E. unfold create_dataset. rewrite E, D. cbn [orb]. eexists. split; [reflexivity|]. split.
    + intros q. cbn [obj dpath groups]. fold p. destruct (path_eqb q p) eqn:P.
      * apply path_eqb_spec in P. subst q. split; [intros; left; reflexivity|discriminate].
      * destruct (with_groups_only f (proper_prefixes p) ds gs O q) as [W1 W2]. split; [intros a H; right; apply (W1 a H)|exact W2].
    + split.
      * cbn. rewrite path_eqb_refl. reflexivity.
      * intros q k _. reflexivity.
Qed.
Lemma clear_way_tail ds gs o l : clear_way ds gs (o :: l) = true ->
  clear_way (match dpath o with Some p => p :: ds | None => ds end) (groups o ++ gs)%list l = true.
Proof. cbn. destruct (dpath o); intros H; apply andb_true_iff in H; apply H. Qed.
Lemma clear_way_fresh l : forall ds gs p, clear_way ds gs l = true -> In p ds -> ~ writes l p.
Proof.
  induction l as [|o l IH]; intros ds gs p C I (o' & J & D); [contradiction|]. destruct J as [->|J].
  - cbn in C. rewrite D in C. apply andb_true_iff in C. destruct C as [C _]. apply andb_true_iff in C. destruct C as [C _]. apply negb_true_iff in C.
    assert (X : existsb (path_eqb p) (ds ++ gs)%list = true) by (apply existsb_path, in_or_app; left; exact I). congruence.
  - apply (IH _ _ p (clear_way_tail _ _ _ _ C)); [destruct (dpath o); [right|]; exact I|exists o'; auto].
Qed.
Definition attr_key (o : op) : option (path * string) := match o with SetAttr g n _ => Some (split_path g, n) | _ => None end.
Lemma run_op_attr_frame m f o q k : attr_key o <> Some (q, k) -> (forall a, obj f q <> Some (Dset a)) -> attr (fst (run_op m f o)) q k = attr f q k.
Proof.
  intros H G. destruct o as [g n v|g n v]; cbn [run_op attr_key] in *.
  - assert (X : path_eqb q (split_path g) && (k =? n) = false).
    { destruct (path_eqb q (split_path g)) eqn:P; [|reflexivity]. destruct (String.eqb_spec k n) as [->|]; [|reflexivity]. apply path_eqb_spec in P. subst q. contradiction. }
    destruct (g =? "") eqn:E.
    + apply String.eqb_eq in E. subst g. cbn in *. change (split_path "") with (@nil string) in X. rewrite X. reflexivity.
    + unfold require_group. destruct (is_dset f _); [reflexivity|]. destruct (existsb _ _); [reflexivity|]. cbn. rewrite X. reflexivity.
  - cbv zeta. set (p := split_path (g ++ "/" ++ n)).
    assert (K : forall f0, attr (fst (create_dataset f0 p v)) q k = attr f0 q k) by (intros f0; unfold create_dataset; destruct (_ || _); reflexivity).
    destruct (exists_ f p); [|apply K]. destruct m; try reflexivity. unfold overwrite_dataset. destruct (obj f p) as [[|old]|] eqn:B; try reflexivity.
    assert (L : attr (fst (create_dataset (del_dataset f p) p v)) q k = attr f q k).
    { rewrite K. cbn. destruct (path_eqb q p) eqn:P; [|reflexivity]. apply path_eqb_spec in P. subst q. exfalso. apply (G old B). }
    destruct (dtype_eqb _ _); [|exact L]. destruct (setitem_all old v) as [b| |[]]; first [exact L|reflexivity].
Qed.
(** everything asked for is in the file *)
Lemma run_ops_clear m l : forall f ds gs, only f ds gs -> clear_way ds gs l = true ->
  exists f', run_ops m f l = (f', Ok tt) /\
    (forall g n v, In (SetData g n v) l -> obj f' (split_path (g ++ "/" ++ n)) = Some (Dset v)) /\
    (forall q k v, (exists l1 g n l2, l = l1 ++ SetAttr g n v :: l2 /\ split_path g = q /\ n = k /\ forall o, In o l2 -> attr_key o <> Some (q, k))%list ->
       attr f' q k = Some v) /\
    (forall q k, (forall o, In o l -> attr_key o <> Some (q, k)) -> attr f' q k = attr f q k).
Proof.
  induction l as [|o l IH]; intros f ds gs O C.
  - exists f. split; [reflexivity|]. split; [contradiction|]. split; [|reflexivity]. intros q k v (l1 & g & n & l2 & E & _). destruct l1; discriminate.
  - destruct (run_op_clear m f o ds gs l O C) as (f1 & R & O1 & A & B). pose proof (clear_way_tail _ _ _ _ C) as C1.
    destruct (IH f1 _ _ O1 C1) as (f' & R' & D & T & U). exists f'. split; [cbn [run_ops]; rewrite R; exact R'|].
    assert (F : forall q k, attr_key o <> Some (q, k) -> attr f1 q k = attr f q k).
    { intros q k N. apply B. intros g n v E X. subst o. apply N. cbn. congruence. }
    split; [|split].
    + intros g n v [->|I]; [|apply D, I].
      pose proof (run_ops_kept m l f1 (split_path (g ++ "/" ++ n))) as K. rewrite R' in K. cbn [fst] in K.
      apply (kept_dset f1 f'); [apply K|exact A]. apply (clear_way_fresh l _ _ _ C1). cbn. left. reflexivity.
    + intros q k v (l1 & g & n & l2 & E & Q & N & L). destruct l1 as [|o1 l1]; cbn in E; inversion E; subst.
      * rewrite U by exact L. exact A.
      * apply T. exists l1, g, k, l2. auto.
    + intros q k N. rewrite U by (intros; apply N; right; assumption). apply F, N. left. reflexivity.
Qed.
Lemma only_empty : only empty_file [] [[]].
Proof. intros q. cbn. destruct q; split; try discriminate. intros _. left. reflexivity. Qed.
