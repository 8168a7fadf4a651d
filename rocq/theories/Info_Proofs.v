(** * Lemmas about the reader of the custom-style information file. *)
From Coq Require Import List ZArith NArith Ascii String Bool Lia.
From Verif Require Import Base Inlist_Model Inlist_Spec Inlist_Proofs Info_Model Info_Spec.
Import ListNotations.
Local Open Scope char_scope.

(** ** characters *)
Definition vword (c : ascii) : bool := std_word c || in_chars (str ",.()") c.
Definition vwhite (c : ascii) : bool := in_chars [" "; "009"; "013"; "010"] c.
Definition vcomm (c : ascii) : bool := Ascii.eqb c "#".
Definition cword (c : ascii) : bool := std_word c || in_chars (str "# /") c.
Definition cwhite (c : ascii) : bool := Ascii.eqb c "010".
Definition ccomm (_ : ascii) : bool := false.
Definition std_b (c : ascii) : bool :=
  let n := N_of_ascii c in ((48 <=? n) && (n <=? 57) || (65 <=? n) && (n <=? 90) || (97 <=? n) && (n <=? 122))%N.
Lemma std_b_spec c : std_b c = true <-> letter_or_digit c.
Proof. unfold std_b, letter_or_digit. cbv zeta. rewrite !orb_true_iff, !andb_true_iff, !N.leb_le. tauto. Qed.
Lemma one_of_b codes c : one_of codes c -> existsb (N.eqb (N_of_ascii c)) codes = true.
Proof. intros I. apply existsb_exists. exists (N_of_ascii c). split; [exact I|apply N.eqb_refl]. Qed.
Definition wordc_b (c : ascii) : bool := std_b c || existsb (N.eqb (N_of_ascii c)) [95; 44; 46; 40; 41]%N.
Lemma wordc_facts c : wordc c -> vword c = true /\ vwhite c = false /\ vcomm c = false /\ quote c = false /\ cwhite c = false /\ Ascii.eqb c "#" = false.
Proof.
  intros H. assert (B : wordc_b c = true).
  { unfold wordc_b. destruct H as [H|H]; [apply std_b_spec in H; rewrite H; reflexivity|apply one_of_b in H; rewrite H; apply orb_true_r]. }
  revert B. clear H. destruct c as [[|] [|] [|] [|] [|] [|] [|] [|]]; vm_compute; intros B; try discriminate B; repeat split.
Qed.
Lemma quotation_facts q : quotation q -> quote q = true /\ vword q = false /\ vwhite q = false /\ vcomm q = false /\ cword q = false /\ cwhite q = false /\ Ascii.eqb q "#" = false.
Proof. intros H. apply quote_spec in H. unfold quote in H. apply orb_true_iff in H. rewrite !Ascii.eqb_eq in H. destruct H as [-> | ->]; repeat split. Qed.
Lemma hash_spec c : hash c <-> c = "#".
Proof. unfold hash. split; [intros H; apply (f_equal ascii_of_N) in H; rewrite ascii_N_embedding in H; exact H|intros ->; reflexivity]. Qed.

(** ** the lexer *)
Section Lex.
  Variables wordchar white comm : ascii -> bool.
  Notation lx := (glex wordchar white comm).
  Definition emit (t : text) (r : list text * bool) : list text * bool := (t :: fst r, snd r).
  Lemma g_blank b s : (forall c, In c b -> white c = true) -> lx Space (b ++ s) = lx Space s.
  Proof. induction b as [|c b IH]; intros H; [reflexivity|]. cbn [app glex]. rewrite (H c (or_introl eq_refl)). apply IH. intros x Hx. apply H. right. exact Hx. Qed.
  Lemma g_word acc w s : (forall c, In c w -> white c = false /\ comm c = false /\ (wordchar c || quote c) = true) -> lx (Word acc) (w ++ s) = lx (Word (acc ++ w)) s.
  Proof.
    revert acc. induction w as [|c w IH]; intros acc H; [rewrite app_nil_r; reflexivity|]. cbn [app glex].
    destruct (H c (or_introl eq_refl)) as (-> & -> & ->).
    rewrite IH by (intros x Hx; apply H; right; exact Hx). rewrite <- app_assoc. reflexivity.
  Qed.
  Lemma g_start c s : white c = false -> comm c = false -> wordchar c = true -> lx Space (c :: s) = lx (Word [c]) s.
  Proof. intros A B D. cbn [glex]. rewrite A, B, D. reflexivity. Qed.
  Lemma g_quoted q acc body s : ~ In q body -> lx (Quoted q acc) (body ++ q :: s) = emit (acc ++ body ++ [q]) (lx Space s).
  Proof.
    revert acc. induction body as [|c body IH]; intros acc H.
    - cbn [app]. cbn [glex]. rewrite Ascii.eqb_refl. reflexivity.
    - cbn [app glex]. destruct (Ascii.eqb_spec c q) as [->|_]; [exfalso; apply H; left; reflexivity|].
      rewrite IH by (intros X; apply H; right; exact X). rewrite <- app_assoc. reflexivity.
  Qed.
  Lemma g_quote q body s : quote q = true -> wordchar q = false -> white q = false -> comm q = false -> ~ In q body ->
    lx Space (quoted_text q body ++ s) = emit (quoted_text q body) (lx Space s).
  Proof.
    intros Q W B C N. unfold quoted_text. cbn [app]. rewrite <- app_assoc. cbn [app glex]. rewrite B, C, W, Q. rewrite g_quoted by exact N. reflexivity.
  Qed.
  Lemma g_other c s : white c = false -> comm c = false -> wordchar c = false -> quote c = false -> lx Space (c :: s) = emit [c] (lx Space s).
  Proof. intros A B D E. cbn [glex]. rewrite A, B, D, E. reflexivity. Qed.
  Lemma g_word_other acc c s : white c = false -> comm c = false -> wordchar c = false -> quote c = false -> lx (Word acc) (c :: s) = emit acc (emit [c] (lx Space s)).
  Proof. intros A B D E. cbn [glex]. rewrite A, B, D, E. reflexivity. Qed.
  Lemma g_comment t s : (forall c, In c t -> c <> newline) -> lx (Comment None) (t ++ newline :: s) = lx Space s.
  Proof.
    induction t as [|c t IH]; intros H; [reflexivity|].
    assert (E : Ascii.eqb c newline = false) by (apply Ascii.eqb_neq, H; left; reflexivity).
    cbn [app glex]. rewrite E. apply IH. intros x Hx. apply H. right. exact Hx.
  Qed.
  Lemma g_comment_end t : (forall c, In c t -> c <> newline) -> lx (Comment None) t = ([], false).
  Proof.
    induction t as [|c t IH]; intros H; [reflexivity|].
    assert (E : Ascii.eqb c newline = false) by (apply Ascii.eqb_neq, H; left; reflexivity).
    cbn [glex]. rewrite E. apply IH. intros x Hx. apply H. right. exact Hx.
  Qed.
  Hypothesis white_nl : white newline = true.
  Lemma g_follows f s : follows f s -> lx Space f = lx Space s.
  Proof. destruct 1; cbn [glex]; rewrite ?white_nl; reflexivity. Qed.
  Lemma g_word_follows acc f s : follows f s -> lx (Word acc) f = emit acc (lx Space s).
  Proof. destruct 1; cbn [glex]; rewrite ?white_nl; cbn [glex]; rewrite ?white_nl; reflexivity. Qed.
  (** lines; [keep]: the tokens of interest *)
  Variable keep : text -> bool.
  Definition line_lexes (line : text) (toks : list text) : Prop :=
    (forall c, In c line -> c <> newline) /\
    forall f s, follows f s -> exists ts, filter keep ts = toks /\ lx Space (line ++ f) = (ts ++ fst (lx Space s), snd (lx Space s)).
  Lemma g_one line toks rest : line_lexes line toks -> exists ts, filter keep ts = toks /\
    lx Space (joined_lines (line ++ newline :: rest)) = (ts ++ fst (lx Space (joined_lines rest)), snd (lx Space (joined_lines rest))).
  Proof.
    intros [N H]. rewrite joined_app by exact N. cbn [joined_lines]. rewrite Ascii.eqb_refl. destruct rest as [|x rest].
    - destruct (H [newline] []) as (ts & E & R); [constructor|]. exists ts. split; assumption.
    - destruct (H (newline :: newline :: joined_lines (x :: rest)) (joined_lines (x :: rest))) as (ts & E & R); [constructor|]. exists ts. split; assumption.
  Qed.
  Fixpoint lines_text (ls : list text) : text := match ls with [] => [] | l :: t => l ++ newline :: lines_text t end.
  Lemma g_lines ls tss rest : Forall2 line_lexes ls tss -> exists ts, filter keep ts = List.concat tss /\
    lx Space (joined_lines (lines_text ls ++ rest)) = (ts ++ fst (lx Space (joined_lines rest)), snd (lx Space (joined_lines rest))).
  Proof.
    induction 1 as [|l ts ls tss H F IH]; [exists []; split; [reflexivity|]; cbn [lines_text List.concat app]; apply surjective_pairing|].
    cbn [lines_text List.concat]. rewrite <- app_assoc. cbn [app]. destruct (g_one l ts (lines_text ls ++ rest) H) as (t1 & E1 & R1).
    destruct IH as (t2 & E2 & R2). exists (t1 ++ t2). split; [rewrite filter_app, E1, E2; reflexivity|].
    rewrite R1, R2. cbn [fst snd]. rewrite app_assoc. reflexivity.
  Qed.
  Lemma g_end line toks : line_lexes line toks -> exists ts, filter keep ts = toks /\ lx Space (joined_lines line) = (ts, false).
  Proof.
    intros [N H]. replace (joined_lines line) with (line ++ []).
    - destruct (H [] []) as (ts & E & R); [constructor|]. exists ts. split; [exact E|]. rewrite R. cbn [glex fst snd]. rewrite app_nil_r. reflexivity.
    - rewrite app_nil_r. symmetry. rewrite <- (app_nil_r line) at 1. rewrite joined_app by exact N. cbn. apply app_nil_r.
  Qed.
End Lex.
Lemma value_lexer_is : value_lexer = glex vword vwhite vcomm.
Proof. reflexivity. Qed.
Lemma comment_lexer_is : comment_lexer = glex cword cwhite ccomm.
Proof. reflexivity. Qed.

(** ** the lines of a file *)
Lemma blanks_n n : forall c, In c (repeat " " n) -> c = " ".
Proof. intros c H. apply repeat_spec in H. exact H. Qed.
Lemma blank_no_nl n : forall c, In c (repeat " " n) -> c <> newline.
Proof. intros c H. apply blanks_n in H. subst. discriminate. Qed.
(** blanks at the end of a line, for the comment lexer *)
Definition blank_toks (n : nat) : list text := match n with O => [] | S _ => [repeat " " n] end.
Lemma c_blanks n f s : follows f s -> comment_lexer Space (repeat " " n ++ f) = (blank_toks n ++ fst (comment_lexer Space s), snd (comment_lexer Space s)).
Proof.
  intros F. rewrite comment_lexer_is. destruct n as [|n].
  - cbn [repeat app blank_toks]. rewrite (g_follows _ _ _ eq_refl f s F). apply surjective_pairing.
  - cbn [repeat app]. rewrite g_start by reflexivity. rewrite g_word.
    2:{ intros c H. apply blanks_n in H. subst. repeat split. }
    rewrite (g_word_follows _ _ _ eq_refl _ f s F). reflexivity.
Qed.
Lemma v_blanks n f s : follows f s -> value_lexer Space (repeat " " n ++ f) = value_lexer Space s.
Proof.
  intros F. rewrite value_lexer_is. rewrite g_blank by (intros c H; apply blanks_n in H; subst; reflexivity).
  apply (g_follows _ _ _ eq_refl f s F).
Qed.
Lemma v_word_blanks acc n f s : follows f s -> value_lexer (Word acc) (repeat " " n ++ f) = emit acc (value_lexer Space s).
Proof.
  intros F. destruct n as [|n].
  - rewrite value_lexer_is. apply (g_word_follows _ _ _ eq_refl _ f s F).
  - cbn [repeat app]. change (value_lexer (Word acc) (" " :: repeat " " n ++ f)) with (emit acc (value_lexer Space (repeat " " n ++ f))).
    rewrite (v_blanks n f s F). reflexivity.
Qed.
Definition nohash (t : text) : Prop := ~ In "#" t.
Lemma nohash_b t : nohash t -> containsb ["#"] t = false.
Proof. intros H. destruct (containsb ["#"] t) eqn:E; [|reflexivity]. apply containsb_one in E. contradiction. Qed.

Definition hashed : text -> bool := containsb ["#"].
Definition every : text -> bool := fun _ => true.
Notation lexes_c := (line_lexes cword cwhite ccomm hashed).
Notation lexes_v := (line_lexes vword vwhite vcomm every).
Lemma filter_every l : filter every l = l.
Proof. induction l as [|x l IH]; [reflexivity|]. cbn. rewrite IH. reflexivity. Qed.
Lemma filter_nohash l : Forall nohash l -> filter hashed l = [].
Proof. induction 1 as [|x l H _ IH]; [reflexivity|]. cbn [filter]. unfold hashed at 1. rewrite (nohash_b x H). exact IH. Qed.

(** names *)
Lemma means_chars c k : means c k -> forall x, In x (str c) -> cword x = true /\ cwhite x = false /\ quote x = false.
Proof. intros M. destruct M; cbn; intros x H; repeat (destruct H as [<- | H]; [repeat split|]); destruct H. Qed.
Lemma means_convert c k : means c k <-> convert (str c) = Ok k.
Proof.
  split; [destruct 1; reflexivity|]. unfold convert. destruct (find _ _) as [p|] eqn:E; [|discriminate]. intros H. injection H as <-.
  apply find_some in E. destruct E as [I E]. unfold text_eqb in E. destruct (list_eq_dec _ _ _) as [E'|]; [|discriminate]. clear E.
  unfold str in E'. apply (f_equal string_of_list_ascii) in E'. rewrite !string_of_list_ascii_of_string in E'. subst c.
  cbn in I. repeat (destruct I as [<- | I]; [constructor|]). destruct I.
Qed.
Lemma convert_known t k : convert t = Ok k -> exists c, means c k /\ t = str c.
Proof.
  intros H. exists (string_of_list_ascii t). unfold str. rewrite list_ascii_of_string_of_list_ascii. split; [|reflexivity].
  apply means_convert. unfold str. rewrite list_ascii_of_string_of_list_ascii. exact H.
Qed.
Lemma convert_cases t : (exists k, convert t = Ok k) \/ convert t = Exc SystemExit.
Proof. unfold convert. destruct (find _ _) as [p|]; [left; eauto|right; reflexivity]. Qed.
Lemma named_c c k : means c k -> lexes_c (entry_text (Named c)) [("#" :: " " :: str c)].
Proof.
  intros M. split.
  - intros x H ->. cbn in H. destruct H as [H | [H | H]]; try discriminate H. apply (means_chars c k M) in H. destruct H as (_ & H & _). discriminate H.
  - intros f s F. cbn [entry_text app]. change (list_ascii_of_string c) with (str c). rewrite g_start by reflexivity.
    change (" " :: str c ++ f) with ((" " :: str c) ++ f). rewrite g_word.
    2:{ intros x [<- | H]; [repeat split|]. apply (means_chars c k M) in H. destruct H as (A & B & _). rewrite A. repeat split. exact B. }
    rewrite (g_word_follows _ _ _ eq_refl _ f s F). exists ["#" :: " " :: str c]. split; reflexivity.
Qed.
Lemma named_v c k : means c k -> lexes_v (entry_text (Named c)) [].
Proof.
  intros M. assert (N : forall x, In x (" " :: str c) -> x <> newline).
  { intros x [<- | H]; [discriminate|]. intros ->. apply (means_chars c k M) in H. destruct H as (_ & H & _). discriminate H. }
  split.
  - intros x [<- | H]; [discriminate|]. apply N. exact H.
  - intros f s F. cbn [entry_text app]. change (glex vword vwhite vcomm Space ("#" :: " " :: list_ascii_of_string c ++ f)) with (glex vword vwhite vcomm (Comment None) ((" " :: str c) ++ f)).
    exists []. split; [reflexivity|]. destruct F.
    + rewrite app_nil_r, g_comment_end by exact N. reflexivity.
    + rewrite g_comment by exact N. reflexivity.
    + rewrite g_comment by exact N. cbn [app]. change (glex vword vwhite vcomm Space (newline :: s)) with (glex vword vwhite vcomm Space s). apply surjective_pairing.
Qed.
(** nothing *)
Lemma blank_toks_nohash n : Forall nohash (blank_toks n).
Proof. destruct n; [constructor|]. constructor; [|constructor]. intros J. apply blanks_n in J. discriminate J. Qed.
Lemma nothing_c n : lexes_c (entry_text (Nothing n)) [].
Proof. split; [apply blank_no_nl|]. intros f s F. exists (blank_toks n). split; [apply filter_nohash, blank_toks_nohash|]. apply (c_blanks n f s F). Qed.
Lemma nothing_v n : lexes_v (entry_text (Nothing n)) [].
Proof. split; [apply blank_no_nl|]. intros f s F. exists []. split; [reflexivity|]. cbn [app entry_text]. change (glex vword vwhite vcomm) with value_lexer. rewrite (v_blanks n f s F). apply surjective_pairing. Qed.

(** values *)
Definition tuple_text (items : list (ascii * text)) : text := commas (map (fun i => quoted_text (fst i) (snd i)) items).
Lemma tuple_in items : (forall q w, In (q, w) items -> quotation q /\ forall x, In x w -> wordc x) ->
  forall x, In x (tuple_text items) -> quotation x \/ wordc x.
Proof.
  unfold tuple_text. induction items as [|[q w] items IH]; intros H x I; [destruct I|].
  destruct (H q w (or_introl eq_refl)) as [Q W].
  assert (ONE : In x (quoted_text q w) -> quotation x \/ wordc x).
  { unfold quoted_text. intros [<- | J]; [left; exact Q|]. apply in_app_or in J. destruct J as [J | [<- | []]]; [right; exact (W x J)|left; exact Q]. }
  cbn [map commas] in I. destruct items as [|i items]; [apply ONE; exact I|].
  cbn [map] in I. apply in_app_or in I. destruct I as [I | [<- | I]]; [apply ONE; exact I| |].
  - right. right. cbn. auto.
  - apply IH; [|exact I]. intros q' w' J. apply H. right. exact J.
Qed.
(** the comment lexer inside a tuple: the quoted items and the signs between them *)
Lemma tuple_c items s : (forall q w, In (q, w) items -> quotation q /\ forall x, In x w -> wordc x) ->
  exists toks, Forall nohash toks /\ comment_lexer Space (tuple_text items ++ s) = (toks ++ fst (comment_lexer Space s), snd (comment_lexer Space s)).
Proof.
  unfold tuple_text. induction items as [|[q w] items IH]; intros H.
  - exists []. split; [constructor|]. apply surjective_pairing.
  - destruct (H q w (or_introl eq_refl)) as [Q W]. destruct (quotation_facts q Q) as (Q1 & Q2 & Q3 & Q4 & Q5 & Q6 & Q7).
    assert (NQ : ~ In q w). { intros J. apply W in J. destruct (wordc_facts q J) as (_ & _ & _ & X & _). congruence. }
    assert (NH : nohash (quoted_text q w)).
    { intros [E | J]; [rewrite E in Q7; discriminate Q7|]. apply in_app_or in J. destruct J as [J | [E | []]].
      - apply W in J. destruct (wordc_facts _ J) as (_ & _ & _ & _ & _ & X). discriminate X.
      - rewrite E in Q7. discriminate Q7. }
    cbn [map commas]. destruct items as [|i items].
    + exists [quoted_text q w]. split; [constructor; [exact NH|constructor]|]. cbn [map fst snd]. rewrite comment_lexer_is, g_quote by assumption || reflexivity. reflexivity.
    + destruct IH as (toks & T & E). { intros q' w' J. apply H. right. exact J. }
      exists (quoted_text q w :: [","] :: toks). split.
      { constructor; [exact NH|]. constructor; [|exact T]. intros [X | []]. discriminate X. }
      cbn [map] in *. cbn [fst snd]. rewrite <- app_assoc. cbn [app]. rewrite comment_lexer_is in *. rewrite g_quote by assumption || reflexivity.
      rewrite g_other by reflexivity. rewrite E. reflexivity.
Qed.
(** the comment lexer on a plain word *)
Lemma plain_c w : (forall x, In x w -> wordc x) -> forall acc f s n, nohash acc -> follows f s ->
  (exists toks, Forall nohash toks /\ comment_lexer Space (w ++ repeat " " n ++ f) = (toks ++ fst (comment_lexer Space s), snd (comment_lexer Space s))) /\
  (exists toks, Forall nohash toks /\ comment_lexer (Word acc) (w ++ repeat " " n ++ f) = (toks ++ fst (comment_lexer Space s), snd (comment_lexer Space s))).
Proof.
  induction w as [|c w IH]; intros W acc f s n A F.
  - split.
    + exists (blank_toks n). split; [|apply (c_blanks n f s F)]. destruct n; [constructor|]. constructor; [|constructor].
      intros J. apply blanks_n in J. discriminate J.
    + cbn [app]. exists [acc ++ repeat " " n]. split.
      * constructor; [|constructor]. intros J. apply in_app_or in J. destruct J as [J | J]; [exact (A J)|]. apply blanks_n in J. discriminate J.
      * rewrite comment_lexer_is, g_word. 2:{ intros x J. apply blanks_n in J. subst. repeat split. }
        rewrite (g_word_follows _ _ _ eq_refl _ f s F). reflexivity.
  - destruct (wordc_facts c (W c (or_introl eq_refl))) as (C1 & C2 & C3 & C4 & C5 & C6).
    assert (NH : nohash [c]). { intros [E | []]. subst c. discriminate C6. }
    assert (NA : nohash (acc ++ [c])). { intros J. apply in_app_or in J. destruct J as [J | J]; [exact (A J)|exact (NH J)]. }
    assert (W' : forall x, In x w -> wordc x) by (intros x J; apply W; right; exact J).
    destruct (IH W' [c] f s n NH F) as [(t1 & T1 & E1) (t2 & T2 & E2)].
    destruct (IH W' (acc ++ [c]) f s n NA F) as [_ (t3 & T3 & E3)].
    cbn [app]. destruct (cword c) eqn:CW.
    + split.
      * exists t2. split; [exact T2|]. rewrite <- E2. rewrite comment_lexer_is. apply g_start; assumption || reflexivity.
      * exists t3. split; [exact T3|]. rewrite <- E3. rewrite comment_lexer_is. cbn [glex]. rewrite C5, CW. reflexivity.
    + split.
      * exists ([c] :: t1). split; [constructor; assumption|]. rewrite comment_lexer_is in *. rewrite g_other by assumption || reflexivity. rewrite E1. reflexivity.
      * exists (acc :: [c] :: t1). split; [repeat constructor; assumption|]. rewrite comment_lexer_is in *. rewrite g_word_other by assumption || reflexivity. rewrite E1. reflexivity.
Qed.
Lemma value_no_nl v : value_text v -> forall c, In c v -> c <> newline.
Proof.
  intros V c I ->. destruct V as [q body Q B|items H|c w W].
  - destruct I as [E | J]; [rewrite E in Q; apply quote_spec in Q; discriminate Q|]. apply in_app_or in J. destruct J as [J | [E | []]].
    + destruct (B _ J) as (_ & _ & N). apply N. reflexivity.
    + rewrite E in Q; apply quote_spec in Q; discriminate Q.
  - destruct I as [E | J]; [discriminate E|]. apply in_app_or in J. destruct J as [J | [E | []]]; [|discriminate E].
    destruct (tuple_in items H _ J) as [Q|W]; [apply quote_spec in Q; discriminate Q|]. destruct (wordc_facts _ W) as (_ & _ & _ & _ & X & _). discriminate X.
  - destruct (wordc_facts _ (W _ I)) as (_ & _ & _ & _ & X & _). discriminate X.
Qed.
Lemma valued_v v n : value_text v -> lexes_v (entry_text (Valued v n)) [v].
Proof.
  intros V. split.
  - intros x I. cbn in I. apply in_app_or in I. destruct I as [I|I]; [exact (value_no_nl v V x I)|exact (blank_no_nl n x I)].
  - intros f s F. exists [v]. split; [reflexivity|]. cbn [entry_text]. rewrite <- app_assoc. change (glex vword vwhite vcomm) with value_lexer.
    destruct V as [q body Q B|items H|c w W].
    + destruct (quotation_facts q Q) as (Q1 & Q2 & Q3 & Q4 & _). rewrite value_lexer_is, g_quote; try assumption.
      2:{ intros J. destruct (B q J) as [X _]. congruence. }
      change (glex vword vwhite vcomm) with value_lexer. rewrite (v_blanks n f s F). reflexivity.
    + cbn [app]. rewrite value_lexer_is, g_start by reflexivity.
      rewrite g_word.
      2:{ intros x J. apply in_app_or in J. destruct J as [J | [<- | []]]; [|repeat split].
          destruct (tuple_in items H x J) as [Q|W].
          - destruct (quotation_facts x Q) as (Q1 & Q2 & Q3 & Q4 & _). rewrite Q1, Q3, Q4. repeat split. apply orb_true_r.
          - destruct (wordc_facts x W) as (W1 & W2 & W3 & _). rewrite W1, W2, W3. repeat split. }
      change (glex vword vwhite vcomm) with value_lexer. rewrite (v_word_blanks _ n f s F). reflexivity.
    + cbn [app]. destruct (wordc_facts c (W c (or_introl eq_refl))) as (C1 & C2 & C3 & _). rewrite value_lexer_is, g_start by assumption.
      rewrite g_word. 2:{ intros x J. destruct (wordc_facts x (W x (or_intror J))) as (W1 & W2 & W3 & _). rewrite W1, W2, W3. repeat split. }
      change (glex vword vwhite vcomm) with value_lexer. rewrite (v_word_blanks _ n f s F). reflexivity.
Qed.
Lemma valued_c v n : value_text v -> lexes_c (entry_text (Valued v n)) [].
Proof.
  intros V. split.
  { intros x I. cbn in I. apply in_app_or in I. destruct I as [I|I]; [exact (value_no_nl v V x I)|exact (blank_no_nl n x I)]. }
  assert (BT := blank_toks_nohash n).
  assert (G : forall f s, follows f s -> exists toks, Forall nohash toks /\ comment_lexer Space (entry_text (Valued v n) ++ f) = (toks ++ fst (comment_lexer Space s), snd (comment_lexer Space s))).
  { intros f s F. cbn [entry_text]. rewrite <- app_assoc. destruct V as [q body Q B|items H|c w W].
    - destruct (quotation_facts q Q) as (Q1 & Q2 & Q3 & Q4 & Q5 & Q6 & Q7). exists (quoted_text q body :: blank_toks n). split.
      + constructor; [|exact BT]. intros [E | J]; [rewrite E in Q7; discriminate Q7|]. apply in_app_or in J. destruct J as [J | [E | []]]; [|rewrite E in Q7; discriminate Q7].
        destruct (B _ J) as (_ & X & _). apply X. reflexivity.
      + rewrite comment_lexer_is, g_quote; try assumption; [|reflexivity|intros J; destruct (B q J) as [X _]; congruence].
        change (glex cword cwhite ccomm) with comment_lexer. rewrite (c_blanks n f s F). reflexivity.
    - cbn [app]. rewrite <- app_assoc. destruct (tuple_c items ([")"] ++ repeat " " n ++ f) H) as (toks & T & E).
      exists (["("] :: toks ++ [")"] :: blank_toks n). split.
      + constructor; [intros [X | []]; discriminate X|]. apply Forall_app. split; [exact T|]. constructor; [intros [X | []]; discriminate X|exact BT].
      + rewrite comment_lexer_is in *. rewrite g_other by reflexivity. unfold tuple_text in E. rewrite E. cbn [app]. rewrite g_other by reflexivity.
        change (glex cword cwhite ccomm) with comment_lexer. rewrite (c_blanks n f s F). unfold emit. cbn [fst snd app]. rewrite <- app_assoc. reflexivity.
    - destruct (plain_c (c :: w) W [] f s n) as [X _]; [intros []|exact F|]. exact X. }
  intros f s F. destruct (G f s F) as (toks & T & E). exists toks. split; [apply filter_nohash; exact T|exact E].
Qed.
