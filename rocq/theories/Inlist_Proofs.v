(** * Proofs about the custom-format inlist reader. *)
From Coq Require Import ZArith NArith Ascii String Bool Lia Decimal DecimalString DecimalZ List.
From Verif Require Import Base Inlist_Model Inlist_Spec.
Import ListNotations.
Local Open Scope char_scope.

(** ** characters *)
Definition plainb (c : ascii) : bool :=
  let n := N_of_ascii c in
  ((48 <=? n) && (n <=? 57) || (65 <=? n) && (n <=? 90) || (97 <=? n) && (n <=? 122) || existsb (N.eqb n) [95; 46; 45; 91; 93; 44; 40; 41])%N.
Lemma wordchar_plainb c : wordchar c = plainb c.
Proof. destruct c as [[|] [|] [|] [|] [|] [|] [|] [|]]; vm_compute; reflexivity. Qed.
Lemma plainb_spec c : plainb c = true <-> plain c.
Proof.
  unfold plainb, plain, letter_or_digit, one_of. cbv zeta. rewrite !orb_true_iff, !andb_true_iff, !N.leb_le.
  assert (E : existsb (N.eqb (N_of_ascii c)) [95; 46; 45; 91; 93; 44; 40; 41]%N = true <-> In (N_of_ascii c) [95; 46; 45; 91; 93; 44; 40; 41]%N).
  { rewrite existsb_exists. split; [intros (x & I & X); apply N.eqb_eq in X; subst; exact I|intros I; exists (N_of_ascii c); split; [exact I|apply N.eqb_refl]]. }
  rewrite E. tauto.
Qed.
Lemma wordchar_spec c : wordchar c = true <-> plain c.
Proof. rewrite wordchar_plainb. apply plainb_spec. Qed.
Lemma quote_spec c : quote c = true <-> quotation c.
Proof.
  unfold quotation, one_of. split.
  - unfold quote. rewrite orb_true_iff, !Ascii.eqb_eq. intros [-> | ->]; cbn; auto.
  - intros [H|[H|[]]]; apply (f_equal ascii_of_N) in H; rewrite ascii_N_embedding in H; subst c; reflexivity.
Qed.
Lemma newline_spec c : is_nl c <-> c = newline.
Proof. unfold is_nl. split; [intros H; apply (f_equal ascii_of_N) in H; rewrite ascii_N_embedding in H; exact H|intros ->; reflexivity]. Qed.
Lemma whitespace_spec c : whitespace c = true <-> blank c \/ c = newline.
Proof.
  unfold blank, one_of. split.
  - unfold whitespace, in_chars. cbn [existsb]. rewrite !orb_true_iff, !Ascii.eqb_eq. intros [-> |[-> |[-> |[-> |F]]]]; try discriminate; cbn; auto.
  - intros [[H|[H|[H|[]]]]| ->]; try (apply (f_equal ascii_of_N) in H; rewrite ascii_N_embedding in H; subst c); reflexivity.
Qed.
(** every plain character or quotation mark is neither white space nor the comment sign *)
Lemma class_disjoint c : (wordchar c = true \/ quote c = true) -> whitespace c = false /\ Ascii.eqb c "%" = false.
Proof.
  destruct c as [[|] [|] [|] [|] [|] [|] [|] [|]]; vm_compute; intros [H|H]; try discriminate; auto.
Qed.
Lemma quote_not_word c : quote c = true -> wordchar c = false.
Proof. unfold quote. rewrite orb_true_iff, !Ascii.eqb_eq. intros [-> | ->]; reflexivity. Qed.

(** ** substrings *)
Lemma prefixb_spec p s : prefixb p s = true <-> exists b, s = p ++ b.
Proof.
  revert s. induction p as [|a p IH]; intros s; cbn.
  - split; [eauto|reflexivity].
  - destruct s as [|b s]; [split; [discriminate|intros (x & X); discriminate]|]. rewrite andb_true_iff, Ascii.eqb_eq, IH. split.
    + intros (-> & x & ->). eauto.
    + intros (x & X). injection X as -> ->. eauto.
Qed.
Lemma containsb_spec p s : containsb p s = true <-> occurs p s.
Proof.
  unfold occurs. induction s as [|c s IH]; cbn [containsb].
  - rewrite orb_false_r, prefixb_spec. split; [intros (b & E); exists [], b; exact E|]. intros ([|x a] & b & E); [exists b; exact E|discriminate].
  - rewrite orb_true_iff, prefixb_spec, IH. split.
    + intros [(b & E)|(a & b & ->)]; [exists [], b; exact E|exists (c :: a), b; reflexivity].
    + intros ([|x a] & b & E); [left; exists b; exact E|]. right. injection E as -> ->. eauto.
Qed.
Lemma containsb_chars p s : containsb p s = true -> forall c, In c p -> In c s.
Proof. rewrite containsb_spec. intros (a & b & ->) c Hc. rewrite !in_app_iff. auto. Qed.
Lemma containsb_one c s : containsb [c] s = true <-> In c s.
Proof.
  split; [intros H; apply (containsb_chars _ _ H); left; reflexivity|]. intros H. apply containsb_spec.
  apply in_split in H. destruct H as (a & b & ->). exists a, b. reflexivity.
Qed.
Lemma containsb_absent p s c : In c p -> ~ In c s -> containsb p s = false.
Proof. intros Hp Hs. apply not_true_iff_false. intros H. apply Hs, (containsb_chars _ _ H), Hp. Qed.

(** ** the lexer on the pieces of a line *)
Definition emit (t : text) (r : list text * bool) := (t :: fst r, snd r).
Lemma lex_blank b s : (forall c, In c b -> whitespace c = true) -> lex Space (b ++ s) = lex Space s.
Proof. induction b as [|c b IH]; intros H; [reflexivity|]. cbn [app lex]. rewrite (H c (or_introl eq_refl)). apply IH. intros x Hx. apply H. right. exact Hx. Qed.
Lemma lex_word acc w s : (forall c, In c w -> wordchar c = true \/ quote c = true) -> lex (Word acc) (w ++ s) = lex (Word (acc ++ w)) s.
Proof.
  revert acc. induction w as [|c w IH]; intros acc H; [rewrite app_nil_r; reflexivity|]. cbn [app lex].
  destruct (class_disjoint c (H c (or_introl eq_refl))) as [-> ->].
  replace (wordchar c || quote c) with true by (symmetry; apply orb_true_iff; exact (H c (or_introl eq_refl))).
  rewrite IH by (intros x Hx; apply H; right; exact Hx). rewrite <- app_assoc. reflexivity.
Qed.
Lemma lex_quoted q acc body s : ~ In q body -> lex (Quoted q acc) (body ++ q :: s) = emit (acc ++ body ++ [q]) (lex Space s).
Proof.
  revert acc. induction body as [|c body IH]; intros acc H.
  - cbn [app]. cbn [lex]. rewrite Ascii.eqb_refl. reflexivity.
  - cbn [app lex]. destruct (Ascii.eqb_spec c q) as [->|_]; [exfalso; apply H; left; reflexivity|].
    rewrite IH by (intros X; apply H; right; exact X). rewrite <- app_assoc. reflexivity.
Qed.
Definition resume (w : option text) : mode := match w with None => Space | Some acc => Word acc end.
Lemma lex_comment w t s : (forall c, In c t -> c <> newline) -> lex (Comment w) (t ++ newline :: s) = lex (resume w) s.
Proof.
  induction t as [|c t IH]; intros H.
  - destruct w; reflexivity.
  - assert (E : Ascii.eqb c newline = false) by (apply Ascii.eqb_neq, H; left; reflexivity).
    destruct w; cbn [app lex]; rewrite E; apply IH; intros x Hx; apply H; right; exact Hx.
Qed.
Lemma lex_comment_end w t : (forall c, In c t -> c <> newline) -> lex (Comment w) t = lex (resume w) [].
Proof.
  induction t as [|c t IH]; intros H; [destruct w; reflexivity|].
  assert (E : Ascii.eqb c newline = false) by (apply Ascii.eqb_neq, H; left; reflexivity).
  destruct w; cbn [lex]; rewrite E; apply IH; intros x Hx; apply H; right; exact Hx.
Qed.
(** what may follow the body of a line: nothing, or a newline followed by nothing or by another newline *)
Inductive follows : text -> text -> Prop :=
| end_of_file : follows [] []
| last_newline : follows [newline] []
| two_newlines : forall s, follows (newline :: newline :: s) s.
Lemma lex_follows f s : follows f s -> lex Space f = lex Space s.
Proof. destruct 1; reflexivity. Qed.
Lemma lex_word_follows acc f s : follows f s -> lex (Word acc) f = emit acc (lex Space s).
Proof. destruct 1; reflexivity. Qed.
Lemma resume_follows w f s : follows f s ->
  lex (Comment w) f = match w with None => lex Space s | Some acc => emit acc (lex Space s) end.
Proof. destruct 1; destruct w; reflexivity. Qed.

Lemma comment_newline c : comment_ok c -> match c with None => True | Some t => forall x, In x t -> x <> newline end.
Proof. destruct c as [t|]; [|auto]. cbn. intros H x Hx E. apply (H x Hx), newline_spec, E. Qed.
Lemma lex_tail_space c f s : comment_ok c -> follows f s -> lex Space (comment_text c ++ f) = lex Space s.
Proof.
  intros H F. apply comment_newline in H. destruct c as [t|]; [|exact (lex_follows f s F)]. cbn [comment_text app]. change (lex Space ("%" :: t ++ f)) with (lex (Comment None) (t ++ f)).
  destruct F.
  - rewrite app_nil_r, (lex_comment_end None) by exact H. reflexivity.
  - rewrite lex_comment by exact H. reflexivity.
  - rewrite lex_comment by exact H. reflexivity.
Qed.
Lemma lex_tail_word acc c f s : comment_ok c -> follows f s -> lex (Word acc) (comment_text c ++ f) = emit acc (lex Space s).
Proof.
  intros H F. apply comment_newline in H. destruct c as [t|]; [|exact (lex_word_follows acc f s F)]. cbn [comment_text app]. change (lex (Word acc) ("%" :: t ++ f)) with (lex (Comment (Some acc)) (t ++ f)).
  destruct F.
  - rewrite app_nil_r, (lex_comment_end (Some acc)) by exact H. reflexivity.
  - rewrite lex_comment by exact H. reflexivity.
  - rewrite lex_comment by exact H. reflexivity.
Qed.
Lemma blanks_ws b : blanks b -> forall c, In c b -> whitespace c = true.
Proof. intros H c Hc. apply whitespace_spec. left. apply H, Hc. Qed.
Lemma lex_value v b c f s : written v -> blanks b -> comment_ok c -> follows f s ->
  lex Space (v ++ b ++ comment_text c ++ f) = emit v (lex Space s).
Proof.
  intros W B C F. destruct W as [x w Hx Hw|q body Hq Hb].
  - assert (X : wordchar x = true) by (apply wordchar_spec; exact Hx). cbn [app lex]. destruct (class_disjoint x (or_introl X)) as [-> ->]. rewrite X.
    rewrite lex_word by (intros y Hy; destruct (Hw y Hy) as [P|Q]; [left; apply wordchar_spec, P|right; apply quote_spec, Q]). cbn [app].
    destruct b as [|y b].
    + cbn [app]. apply lex_tail_word; assumption.
    + cbn [app lex]. rewrite (blanks_ws _ B y (or_introl eq_refl)). rewrite lex_blank by (intros z Hz; apply (blanks_ws _ B); right; exact Hz).
      rewrite (lex_tail_space c f s C F). reflexivity.
  - assert (Q : quote q = true) by (apply quote_spec; exact Hq). cbn [app lex]. destruct (class_disjoint q (or_intror Q)) as [-> ->].
    rewrite (quote_not_word q Q), Q. rewrite <- app_assoc. cbn [app]. rewrite lex_quoted by (intros I; exact (proj1 (Hb q I) eq_refl)).
    rewrite lex_blank by (apply blanks_ws, B). rewrite (lex_tail_space c f s C F). reflexivity.
Qed.
Definition tokens (l : line) : list text := match l with Empty _ _ => [] | Assign a => [keyword a; ["="]; written_value a] end.
Lemma lex_line l f s : line_ok l -> follows f s -> lex Space (line_text l ++ f) = (tokens l ++ fst (lex Space s), snd (lex Space s)).
Proof.
  intros H F. destruct l as [b c|a].
  - destruct H as [B C]. cbn [line_text tokens app]. rewrite <- app_assoc, lex_blank by (apply blanks_ws, B). rewrite (lex_tail_space c f s C F). destruct (lex Space s); reflexivity.
  - destruct a as [ind k g1 g2 v tr c]. cbn in H. destruct H as (I & K0 & K & G1 & G2 & V & T & C). cbn [line_text indent keyword before_eq after_eq written_value trailing comment tokens].
    rewrite <- !app_assoc, lex_blank by (apply blanks_ws, I). destruct k as [|x k]; [contradiction|].
    assert (X : wordchar x = true) by (apply wordchar_spec, K; left; reflexivity). cbn [app lex]. destruct (class_disjoint x (or_introl X)) as [-> ->]. rewrite X.
    rewrite lex_word by (intros y Hy; left; apply wordchar_spec, K; right; exact Hy). cbn [app].
    assert (E : lex (Word (x :: k)) (g1 ++ "=" :: g2 ++ v ++ tr ++ comment_text c ++ f) = emit (x :: k) (emit ["="] (lex Space (g2 ++ v ++ tr ++ comment_text c ++ f)))).
    { destruct g1 as [|y g1]; [reflexivity|]. cbn [app lex]. rewrite (blanks_ws _ G1 y (or_introl eq_refl)). rewrite lex_blank by (intros z Hz; apply (blanks_ws _ G1); right; exact Hz). reflexivity. }
    rewrite E, lex_blank by (apply blanks_ws, G2). rewrite (lex_value v tr c f s V T C F). unfold emit. cbn. reflexivity.
Qed.
(** ** whole files *)
Lemma written_no_newline v : written v -> forall c, In c v -> c <> newline.
Proof.
  intros [x w Hx Hw|q body Hq Hb] c Hc E; subst c.
  - assert (P : plain newline \/ quotation newline) by (destruct Hc as [->|Hc]; [left; exact Hx|exact (Hw _ Hc)]).
    rewrite <- wordchar_spec, <- quote_spec in P. destruct P; discriminate.
  - destruct Hc as [->|Hc]; [apply quote_spec in Hq; discriminate|]. apply in_app_iff in Hc. destruct Hc as [Hc|[->|[]]]; [|apply quote_spec in Hq; discriminate].
    apply (proj2 (Hb _ Hc)). reflexivity.
Qed.
Lemma line_no_newline l : line_ok l -> forall c, In c (line_text l) -> c <> newline.
Proof.
  assert (BB : forall b, blanks b -> forall c, In c b -> c <> newline) by (intros b B c Hc ->; destruct (B _ Hc) as [X|[X|[X|[]]]]; discriminate).
  assert (CC : forall x, comment_ok x -> forall c, In c (comment_text x) -> c <> newline).
  { intros x C c Hc ->. apply comment_newline in C. destruct x as [t|]; [|destruct Hc]. destruct Hc as [Hc|Hc]; [discriminate|]. exact (C _ Hc eq_refl). }
  destruct l as [b c|a]; cbn [line_ok line_text].
  - intros [B C] x Hx. apply in_app_iff in Hx. destruct Hx as [Hx|Hx]; [exact (BB b B x Hx)|exact (CC c C x Hx)].
  - intros (I & K0 & K & G1 & G2 & V & T & C) x Hx. rewrite !in_app_iff in Hx. destruct Hx as [Hx|[Hx|[Hx|[Hx|[Hx|[Hx|[Hx|Hx]]]]]]].
    + exact (BB _ I x Hx).
    + intros ->. specialize (K _ Hx). apply wordchar_spec in K. discriminate.
    + exact (BB _ G1 x Hx).
    + destruct Hx as [<-|[]]. discriminate.
    + exact (BB _ G2 x Hx).
    + exact (written_no_newline _ V x Hx).
    + exact (BB _ T x Hx).
    + exact (CC _ C x Hx).
Qed.
Lemma joined_app b s : (forall c, In c b -> c <> newline) -> joined_lines (b ++ s) = b ++ joined_lines s.
Proof.
  induction b as [|c b IH]; intros H; [reflexivity|]. cbn [app joined_lines].
  assert (E : Ascii.eqb c newline = false) by (apply Ascii.eqb_neq, H; left; reflexivity). rewrite E, IH; [reflexivity|]. intros x Hx. apply H. right. exact Hx.
Qed.
Lemma lex_file ls nl : (forall l, In l ls -> line_ok l) -> lex Space (joined_lines (file_text ls nl)) = (concat (map tokens ls), false).
Proof.
  induction ls as [|l ls IH]; intros H; [reflexivity|].
  assert (Hl : line_ok l) by (apply H; left; reflexivity). assert (N := line_no_newline l Hl).
  destruct ls as [|l' ls].
  - cbn [file_text map concat]. rewrite joined_app by exact N. rewrite (lex_line l _ [] Hl) by (destruct nl; constructor). reflexivity.
  - specialize (IH (fun x Hx => H x (or_intror Hx))). set (rest := file_text (l' :: ls) nl) in *.
    change (file_text (l :: l' :: ls) nl) with (line_text l ++ newline :: rest). rewrite joined_app by exact N.
    clearbody rest. destruct rest as [|x rest'].
    + cbn [joined_lines]. rewrite Ascii.eqb_refl. rewrite (lex_line l _ [] Hl) by constructor. cbn [joined_lines lex] in IH. cbn [lex fst snd]. rewrite app_nil_r.
      cbn [map concat] in *. injection IH as IH'. rewrite <- IH', app_nil_r. reflexivity.
    + assert (J : joined_lines (newline :: x :: rest') = newline :: newline :: joined_lines (x :: rest')) by (cbn [joined_lines]; rewrite Ascii.eqb_refl; reflexivity).
      rewrite J, (lex_line l _ (joined_lines (x :: rest')) Hl) by constructor. rewrite IH. reflexivity.
Qed.
