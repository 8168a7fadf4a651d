(** * C160-C162: the custom-style information file.
    [lev] is Python's ast.literal_eval (any function from texts to values or exceptions). *)
From Coq Require Import List ZArith NArith Ascii String Bool Lia Permutation.
From Verif Require Import Base Inlist_Model Inlist_Spec Inlist_Proofs Info_Model Info_Spec Info_Proofs.
Import ListNotations.
Local Open Scope char_scope.

(** ** the two lexers on a file *)
Lemma Forall2_length {A B} (R : A -> B -> Prop) l m : Forall2 R l m -> List.length l = List.length m.
Proof. induction 1; cbn; congruence. Qed.
Definition entry_names (e : entry) : list text := match e with Named c => ["#" :: " " :: str c] | _ => [] end.
Definition entry_values (e : entry) : list text := match e with Valued v _ => [v] | _ => [] end.
Lemma entry_c e : entry_ok e -> lexes_c (entry_text e) (entry_names e).
Proof. destruct e as [c|v n|n]; intros H; [destruct H as [k M]; exact (named_c c k M)|exact (valued_c v n H)|apply nothing_c]. Qed.
Lemma entry_v e : entry_ok e -> lexes_v (entry_text e) (entry_values e).
Proof. destruct e as [c|v n|n]; intros H; [destruct H as [k M]; exact (named_v c k M)|exact (valued_v v n H)|apply nothing_v]. Qed.
Lemma info_lines es : info_text es true = lines_text (map entry_text es).
Proof.
  induction es as [|e es IH]; [reflexivity|]. destruct es as [|e' es]; [reflexivity|].
  change (info_text (e :: e' :: es) true) with (entry_text e ++ newline :: info_text (e' :: es) true). rewrite IH. reflexivity.
Qed.
Lemma info_last es e : info_text (es ++ [e]) false = lines_text (map entry_text es) ++ entry_text e.
Proof.
  induction es as [|x es IH]; [cbn; apply app_nil_r|]. cbn [app map lines_text]. rewrite <- app_assoc. cbn [app]. rewrite <- IH.
  destruct es; reflexivity.
Qed.
Lemma all_lines (lx : text -> list text -> Prop) (f : entry -> list text) es : (forall e, entry_ok e -> lx (entry_text e) (f e)) -> Forall entry_ok es ->
  Forall2 lx (map entry_text es) (map f es).
Proof. intros H. induction 1; cbn; constructor; auto. Qed.
Lemma file_c es nl : Forall entry_ok es -> exists ts, filter hashed ts = List.concat (map entry_names es) /\ comment_lexer Space (joined_lines (info_text es nl)) = (ts, false).
Proof.
  intros F. rewrite comment_lexer_is. destruct nl.
  - rewrite info_lines. rewrite <- (app_nil_r (lines_text _)).
    destruct (g_lines _ _ _ hashed _ _ [] (all_lines _ _ es entry_c F)) as (ts & E & R). exists ts. split; [exact E|]. rewrite R. cbn. rewrite app_nil_r. reflexivity.
  - destruct (rev es) as [|e r] eqn:Er.
    + apply (f_equal (@rev _)) in Er. rewrite rev_involutive in Er. subst es. exists []. split; reflexivity.
    + apply (f_equal (@rev _)) in Er. rewrite rev_involutive in Er. cbn in Er. set (es' := rev r) in *. clearbody es'. subst es.
      apply Forall_app in F. destruct F as [F Fe]. inversion Fe as [|? ? He _]; subst. rewrite info_last.
      destruct (g_lines _ _ _ hashed _ _ (entry_text e) (all_lines _ _ es' entry_c F)) as (ts & E & R).
      destruct (g_end _ _ _ hashed _ _ (entry_c e He)) as (t2 & E2 & R2). exists (ts ++ t2). split.
      * rewrite filter_app, E, E2, map_app, concat_app. cbn. rewrite app_nil_r. reflexivity.
      * rewrite R, R2. reflexivity.
Qed.
Lemma file_v es nl : Forall entry_ok es -> value_lexer Space (joined_lines (info_text es nl)) = (List.concat (map entry_values es), false).
Proof.
  intros F. rewrite value_lexer_is. destruct nl.
  - rewrite info_lines. rewrite <- (app_nil_r (lines_text _)).
    destruct (g_lines _ _ _ every _ _ [] (all_lines _ _ es entry_v F)) as (ts & E & R). rewrite filter_every in E. rewrite R. cbn. rewrite app_nil_r, E. reflexivity.
  - destruct (rev es) as [|e r] eqn:Er.
    + apply (f_equal (@rev _)) in Er. rewrite rev_involutive in Er. subst es. reflexivity.
    + apply (f_equal (@rev _)) in Er. rewrite rev_involutive in Er. cbn in Er. set (es' := rev r) in *. clearbody es'. subst es.
      apply Forall_app in F. destruct F as [F Fe]. inversion Fe as [|? ? He _]; subst. rewrite info_last.
      destruct (g_lines _ _ _ every _ _ (entry_text e) (all_lines _ _ es' entry_v F)) as (ts & E & R). rewrite filter_every in E.
      destruct (g_end _ _ _ every _ _ (entry_v e He)) as (t2 & E2 & R2). rewrite filter_every in E2.
      rewrite R, R2. cbn [fst snd]. rewrite E, E2, map_app, concat_app. cbn. rewrite app_nil_r. reflexivity.
Qed.
(** ** the names *)
Lemma names_filter toks b : names_of toks b = names_of (filter hashed toks) b.
Proof.
  induction toks as [|x t IH]; [reflexivity|]. cbn [names_of filter]. unfold hashed at 1. destruct (containsb ["#"] x) eqn:E; [|exact IH].
  cbn [names_of]. rewrite E, IH. reflexivity.
Qed.
Lemma names_app a b nc ns : names_of a false = Ok ns -> names_of (a ++ b) nc = (ns' <- names_of b nc ; Ok (ns ++ ns'))%res.
Proof.
  revert ns. induction a as [|x a IH]; intros ns H; cbn [names_of app] in *.
  - injection H as <-. destruct (names_of b nc); reflexivity.
  - destruct (containsb ["#"] x); [|exact (IH ns H)]. destruct (convert _) as [n| |]; try discriminate H. cbn [bind] in *.
    destruct (names_of a false) as [m| |]; try discriminate H. cbn [bind] in H. injection H as <-. rewrite (IH m eq_refl).
    destruct (names_of b nc); reflexivity.
Qed.
Lemma entries_names es keys : Forall2 means (comments es) keys -> names_of (List.concat (map entry_names es)) false = Ok keys.
Proof.
  revert keys. induction es as [|e es IH]; intros keys H; [inversion H; reflexivity|].
  destruct e as [c|v n|n]; cbn [map List.concat entry_names app comments flat_map] in *; try (apply IH; exact H).
  inversion H as [|? k ? ks M T]; subst. cbn [names_of]. change (containsb ["#"] ("#" :: " " :: str c)) with true. cbv iota.
  cbn [skipn]. apply means_convert in M. rewrite M. cbn [bind]. rewrite (IH ks T). reflexivity.
Qed.
Lemma values_are es : List.concat (map entry_values es) = written_values es.
Proof. unfold written_values. rewrite flat_map_concat_map. reflexivity. Qed.

(** ** storing *)
Section Eval.
Context {L : Type} (lev : text -> res L).
Notation parse := (parse_custom_info_files lev).
Lemma iget_iset (d : @info L) k v k' : iget (iset d k v) k' = if String.eqb k' k then Some v else iget d k'.
Proof.
  induction d as [|[j w] d IH]; cbn.
  - reflexivity.
  - destruct (String.eqb k j) eqn:E; cbn.
    + apply String.eqb_eq in E. subst j. destruct (String.eqb k' k); reflexivity.
    + rewrite IH. destruct (String.eqb k' j) eqn:F; [|reflexivity]. destruct (String.eqb k' k) eqn:G; [|reflexivity].
      apply String.eqb_eq in F, G. subst. rewrite String.eqb_refl in E. discriminate.
Qed.
Lemma latest_cons k v (st : list (string * L)) b k' : latest ((k, v) :: st) b k' = latest st (if String.eqb k' k then Some v else b) k'.
Proof.
  unfold latest. cbn [rev]. 
  assert (G : forall (f : string * L -> bool) a c, find f (a ++ [c]) = match find f a with Some p => Some p | None => if f c then Some c else None end).
  { intros f a c. induction a as [|x a IH]; cbn; [reflexivity|]. destruct (f x); [reflexivity|exact IH]. }
  rewrite G. destruct (find _ (rev st)) as [p|]; [reflexivity|]. cbn [fst]. destruct (String.eqb k' k); reflexivity.
Qed.
(** the loop over the first values *)
Lemma zip_prefix : forall ts (vals : list L) keys rest d, Forall2 (fun t v => lev t = Ok v) ts vals -> (List.length ts <= List.length keys)%nat ->
  exists d', zip_loop lev (ts ++ rest) false keys d = zip_loop lev rest false (skipn (List.length ts) keys) d' /\
    forall k, iget d' k = latest (combine keys vals) (iget d k) k.
Proof.
  intros ts vals keys rest d F. revert keys d. induction F as [|t v ts vals E F IH]; intros keys d Ln.
  - exists d. split; [reflexivity|]. intros k. destruct keys; reflexivity.
  - destruct keys as [|k0 keys]; [cbn in Ln; lia|]. cbn [app zip_loop skipn List.length combine]. rewrite E.
    destruct (IH keys (iset d k0 v)) as (d' & R & G); [cbn in Ln; lia|]. exists d'. split; [exact R|]. intros k. rewrite G, latest_cons, iget_iset. reflexivity.
Qed.
Lemma parse_file es nl d arg keys : Forall entry_ok es -> Forall2 means (comments es) keys ->
  parse (info_text es nl) d arg =
  let r := zip_loop lev (written_values es) false keys d in
  match snd r with Exc NameError | Exc TypeError => (fst r, Ok tt) | _ => r end.
Proof.
  intros F M. unfold parse_custom_info_files, parse_body. destruct (file_c es nl F) as (ts & E & R). rewrite R. cbn [fst snd].
  rewrite names_filter, E, (entries_names es keys M). rewrite (file_v es nl F). cbn [fst snd]. rewrite values_are. reflexivity.
Qed.

(** ** C160: the i-th value of the file goes to the i-th named comment, wherever both stand *)
Theorem C160_by_position : forall es nl d arg keys vals, Forall entry_ok es -> Forall2 means (comments es) keys ->
  Forall2 (fun t v => lev t = Ok v) (firstn (List.length keys) (written_values es)) vals ->
  exists d', parse (info_text es nl) d arg = (d', Ok tt) /\ forall k, iget d' k = latest (combine keys vals) (iget d k) k.
Proof.
  intros es nl d arg keys vals F M E. rewrite (parse_file es nl d arg keys F M).
  destruct (zip_prefix _ vals keys (skipn (List.length keys) (written_values es)) d E) as (d' & R & G).
  { rewrite firstn_length. lia. }
  rewrite firstn_skipn in R. exists d'. split; [|exact G]. cbv zeta. unfold text in *. rewrite R. clear R.
  assert (X : zip_loop lev (skipn (List.length keys) (written_values es)) false (skipn (List.length (firstn (List.length keys) (written_values es))) keys) d' = (d', Ok tt)).
  { destruct (skipn (List.length keys) (written_values es)) as [|t ts] eqn:S; [reflexivity|]. cbn [zip_loop].
    assert (Ln : (List.length keys < List.length (written_values es))%nat).
    { destruct (Nat.lt_ge_cases (List.length keys) (List.length (written_values es))) as [A|A]; [exact A|]. rewrite skipn_all2 in S by exact A. discriminate S. }
    rewrite firstn_length_le by lia. rewrite skipn_all. reflexivity. }
  unfold text in *. rewrite X. reflexivity.
Qed.
(** a file of comments, each followed by its value, with blank lines anywhere between *)
Definition paired (es : list entry) (cvs : list (string * text)) : Prop := comments es = map fst cvs /\ written_values es = map snd cvs.
Theorem C160_comment_and_value : forall es nl d arg cvs, Forall entry_ok es -> paired es cvs -> NoDup (map fst cvs) ->
  (forall c t, In (c, t) cvs -> exists v, lev t = Ok v) ->
  exists d', parse (info_text es nl) d arg = (d', Ok tt) /\
    (forall c t k v, In (c, t) cvs -> means c k -> lev t = Ok v -> iget d' k = Some v) /\
    (forall k, (forall c, In c (map fst cvs) -> ~ means c k) -> iget d' k = iget d k).
Proof.
  intros es nl d arg cvs F [Pc Pv] ND EV.
  assert (K : exists keys, Forall2 means (comments es) keys).
  { clear - F. induction F as [|e es He F [ks IH]]; [exists []; constructor|]. destruct e as [c|v n|n]; [|exists ks; exact IH|exists ks; exact IH].
    destruct He as [k Hk]. exists (k :: ks). constructor; assumption. }
  destruct K as [keys M]. assert (LK : List.length keys = List.length cvs).
  { apply Forall2_length in M. rewrite Pc, map_length in M. lia. }
  assert (V : exists vals, Forall2 (fun t v => lev t = Ok v) (written_values es) vals).
  { rewrite Pv. clear - EV. induction cvs as [|[c t] cvs IH]; [exists []; constructor|]. destruct IH as [vs H]. { intros c' t' I. apply (EV c' t'). right. exact I. }
    destruct (EV c t (or_introl eq_refl)) as [v Hv]. exists (v :: vs). constructor; assumption. }
  destruct V as [vals V].
  destruct (C160_by_position es nl d arg keys vals F M) as (d' & R & G).
  { rewrite firstn_all2; [exact V|]. rewrite Pv, map_length. lia. }
  exists d'. split; [exact R|].
  assert (INJ : forall c c' k, means c k -> means c' k -> c = c').
  { intros c c' k A B. destruct A; inversion B; reflexivity. }
  assert (FUN : forall c k k', means c k -> means c k' -> k = k').
  { intros c k k' A B. destruct A; inversion B; reflexivity. }
  rewrite Pc in M. rewrite Pv in V. clear - M V G ND INJ FUN. split.
  - intros c t k v I Mk Ev. rewrite G. clear G. generalize (iget d k) as b. revert keys vals M V ND I. induction cvs as [|[c0 t0] cvs IH]; intros keys vals M V ND I b; [destruct I|].
    cbn [map fst snd] in M, V. inversion M as [|? k0 ? ks M0 MT]; inversion V as [|? v0 ? vs V0 VT]; subst. cbn [combine]. rewrite latest_cons.
    inversion ND as [|? ? N0 ND']; subst. destruct I as [I|I].
    + injection I as -> ->. assert (k0 = k) by (apply (FUN c); assumption). subst k0. rewrite String.eqb_refl. assert (v0 = v) by congruence. subst v0.
      unfold latest. destruct (find _ (rev (combine ks vs))) as [[kk vv]|] eqn:Fi; [|reflexivity]. exfalso. apply find_some in Fi. destruct Fi as [J E]. cbn in E. apply String.eqb_eq in E. subst kk.
      apply in_rev in J. apply in_combine_l in J. apply N0. clear - J MT INJ Mk.
      revert MT J. generalize (map fst cvs) as cs. induction ks as [|k0 ks IH]; intros cs H J; [destruct J|]. inversion H as [|c1 ? cs1 ? H1 HT]; subst. destruct J as [-> | J]; [left; exact (INJ c1 c k H1 Mk)|right; exact (IH _ HT J)].
    + apply (IH ks vs MT VT ND' I).
  - intros k NK. rewrite G. unfold latest. destruct (find _ (rev (combine keys vals))) as [[kk vv]|] eqn:Fi; [|reflexivity]. exfalso. apply find_some in Fi. destruct Fi as [J E]. cbn in E. apply String.eqb_eq in E. subst kk.
    apply in_rev in J. apply in_combine_l in J. clear - J M NK.
    revert M NK J. generalize (map fst cvs) as cs. induction keys as [|k0 ks IH]; intros cs H NK J; [destruct J|]. inversion H as [|c1 ? cs1 ? H1 HT]; subst. destruct J as [-> | J]; [exact (NK c1 (or_introl eq_refl) H1)|].
    apply (IH _ HT); [|exact J]. intros c I. apply NK. right. exact I.
Qed.
(** a comment without its value shifts every later value to the comment before *)
Theorem C160_missing_value_shifts : forall es nl d arg c0 k0 cvs0 cvs c1 t1 v1, Forall entry_ok es ->
  comments es = map fst cvs0 ++ c0 :: map fst ((c1, t1) :: cvs) -> written_values es = map snd cvs0 ++ map snd ((c1, t1) :: cvs) ->
  NoDup (comments es) -> (forall c t, In (c, t) (cvs0 ++ (c1, t1) :: cvs) -> exists v, lev t = Ok v) ->
  means c0 k0 -> lev t1 = Ok v1 -> exists d', parse (info_text es nl) d arg = (d', Ok tt) /\ iget d' k0 = Some v1.
Proof.
  intros es nl d arg c0 k0 cvs0 cvs c1 t1 v1 F Pc Pv ND EV M0 E1.
  set (pairs := cvs0 ++ combine (c0 :: map fst ((c1, t1) :: cvs)) (map snd ((c1, t1) :: cvs))).
  assert (K : exists keys, Forall2 means (comments es) keys).
  { clear - F. induction F as [|e es He F [ks IH]]; [exists []; constructor|]. destruct e as [c|v n|n]; [|exists ks; exact IH|exists ks; exact IH].
    destruct He as [k Hk]. exists (k :: ks). constructor; assumption. }
  destruct K as [keys M].
  assert (V : exists vals, Forall2 (fun t v => lev t = Ok v) (written_values es) vals).
  { rewrite Pv, <- map_app. clear - EV. revert EV. generalize (cvs0 ++ (c1, t1) :: cvs) as l. intros l EV. induction l as [|[c t] l IH]; [exists []; constructor|]. destruct IH as [vs H]. { intros c' t' I. apply (EV c' t'). right. exact I. }
    destruct (EV c t (or_introl eq_refl)) as [v Hv]. exists (v :: vs). constructor; assumption. }
  destruct V as [vals V].
  destruct (C160_by_position es nl d arg keys vals F M) as (d' & R & G).
  { rewrite firstn_all2; [exact V|]. apply Forall2_length in M. rewrite Pc in M. rewrite Pv. rewrite !app_length in *. cbn [List.length] in M. rewrite !map_length in *. cbn [List.length] in *. lia. }
  exists d'. split; [exact R|]. rewrite G.
  assert (INJ : forall c c' k, means c k -> means c' k -> c = c').
  { intros c c' k A B. destruct A; inversion B; reflexivity. }
  assert (FUN : forall c k k', means c k -> means c k' -> k = k').
  { intros c k k' A B. destruct A; inversion B; reflexivity. }
  rewrite Pc in M, ND. rewrite Pv in V.
  apply Forall2_app_inv_l in M. destruct M as (ka & kb & Ma & Mb & ->). apply Forall2_app_inv_l in V. destruct V as (va & vb & Va & Vb & ->).
  cbn [map fst snd] in Mb, Vb. inversion Mb as [|? k0' ? ks M0' MT]; subst. assert (k0' = k0) by (apply (FUN c0); assumption). subst k0'.
  inversion Vb as [|? v1' ? vs V1 VT]; subst. assert (v1' = v1) by congruence. subst v1'.
  assert (LA : List.length ka = List.length va). { apply Forall2_length in Ma, Va. rewrite map_length in *. lia. }
  assert (CA : forall (b : option L) k, latest (combine (ka ++ k0 :: ks) (va ++ v1 :: vs)) b k = latest ((k0, v1) :: combine ks vs) (latest (combine ka va) b k) k).
  { clear - LA. revert va LA. induction ka as [|x ka IH]; intros [|y va] LA b k; try discriminate LA; [reflexivity|]. cbn [app combine]. rewrite !latest_cons with (st := combine (ka ++ k0 :: ks) (va ++ v1 :: vs)). rewrite IH by (cbn in LA; lia).
    rewrite (latest_cons x y (combine ka va)). reflexivity. }
  rewrite CA, latest_cons, String.eqb_refl. unfold latest at 1. destruct (find _ (rev (combine ks vs))) as [[kk vv]|] eqn:Fi; [|reflexivity]. exfalso. apply find_some in Fi. destruct Fi as [J E]. cbn in E. apply String.eqb_eq in E. subst kk.
  apply in_rev in J. apply in_combine_l in J.
  apply NoDup_remove_2 in ND. apply ND. apply in_or_app. right. change (In c0 (c1 :: map fst cvs)). clear - J MT INJ M0.
  revert MT J. generalize (c1 :: map fst cvs) as cs. induction ks as [|q ks IH]; intros cs H J; [destruct J|]. inversion H as [|c2 ? cs1 ? H1 HT]; subst. destruct J as [-> | J]; [left; exact (INJ c2 c0 k0 H1 M0)|right; exact (IH _ HT J)].
Qed.

(** ** C161: what ends the run before anything is stored *)
Lemma prefix_names before rest : Forall entry_ok before -> exists ts ns, names_of ts false = Ok ns /\
  comment_lexer Space (joined_lines (info_text before true ++ rest)) = (ts ++ fst (comment_lexer Space (joined_lines rest)), snd (comment_lexer Space (joined_lines rest))).
Proof.
  intros F. rewrite info_lines, comment_lexer_is. destruct (g_lines _ _ _ hashed _ _ rest (all_lines _ _ before entry_c F)) as (ts & E & R).
  assert (K : exists keys, Forall2 means (comments before) keys).
  { clear - F. induction F as [|e es He F [ks IH]]; [exists []; constructor|]. destruct e as [c|v n|n]; [|exists ks; exact IH|exists ks; exact IH].
    destruct He as [k Hk]. exists (k :: ks). constructor; assumption. }
  destruct K as [keys M]. exists ts, keys. split; [|exact R]. rewrite names_filter, E. apply entries_names. exact M.
Qed.
(** a comment that is not one of the known ones, with anything after it *)
Definition comment_char (c : ascii) : Prop := letter_or_digit c \/ one_of [95; 35; 32; 47]%N c.   (* _ # blank / *)
Definition ends_comment (rest : text) : Prop := match rest with [] => True | c :: _ => ~ comment_char c /\ ~ quotation c end.
Lemma comment_char_facts c : comment_char c <-> cword c = true.
Proof.
  split.
  - intros H. assert (B : (std_b c || existsb (N.eqb (N_of_ascii c)) [95; 35; 32; 47]%N) = true).
    { destruct H as [H|H]; [apply std_b_spec in H; rewrite H; reflexivity|apply one_of_b in H; rewrite H; apply orb_true_r]. }
    revert B. clear H. destruct c as [[|] [|] [|] [|] [|] [|] [|] [|]]; vm_compute; intros B; congruence.
  - intros H. assert (B : (std_b c || existsb (N.eqb (N_of_ascii c)) [95; 35; 32; 47]%N) = true).
    { revert H. destruct c as [[|] [|] [|] [|] [|] [|] [|] [|]]; vm_compute; intros B; congruence. }
    apply orb_true_iff in B. destruct B as [B|B]; [left; apply std_b_spec; exact B|right]. apply existsb_exists in B. destruct B as (x & I & E). apply N.eqb_eq in E. unfold one_of. rewrite E. exact I.
Qed.
Lemma exit_token ts ns x rest nc d arg content : names_of ts false = Ok ns -> comment_lexer Space (joined_lines content) = (ts ++ x :: rest, nc) ->
  In "#" x -> convert (skipn 2 x) = Exc SystemExit -> parse content d arg = (d, Exc SystemExit).
Proof.
  intros N R H C. unfold parse_custom_info_files, parse_body. rewrite R. cbn [fst snd]. rewrite (names_app ts (x :: rest) nc ns N). cbn [names_of].
  assert (E : containsb ["#"] x = true) by (apply containsb_one; exact H). rewrite E, C. reflexivity.
Qed.
Theorem C161_unknown_comment_exits : forall before w rest d arg, Forall entry_ok before -> (forall x, In x w -> comment_char x) -> ends_comment rest ->
  (forall x c k, means c k -> w <> x :: list_ascii_of_string c) ->
  parse (info_text before true ++ "#" :: w ++ rest) d arg = (d, Exc SystemExit).
Proof.
  intros before w rest d arg F W EN UN. destruct (prefix_names before ("#" :: w ++ rest) F) as (ts & ns & N & R).
  assert (NL : forall c, In c ("#" :: w) -> c <> newline).
  { intros c [<- | I]; [discriminate|]. intros ->. apply W in I. apply comment_char_facts in I. discriminate I. }
  assert (T : exists more nc, comment_lexer Space (joined_lines ("#" :: w ++ rest)) = (("#" :: w) :: more, nc)).
  { change ("#" :: w ++ rest) with (("#" :: w) ++ rest). rewrite joined_app by exact NL. rewrite comment_lexer_is. cbn [app]. rewrite g_start by reflexivity.
    rewrite g_word.
    2:{ intros c I. apply W in I. apply comment_char_facts in I. rewrite I. split; [|split; reflexivity]. clear - I. destruct (cwhite c) eqn:E; [|reflexivity]. unfold cwhite in E. apply Ascii.eqb_eq in E. subst. discriminate I. }
    destruct rest as [|c rest]; [eexists; eexists; reflexivity|]. destruct EN as [E1 E2].
    cbn [joined_lines]. destruct (Ascii.eqb c newline) eqn:En.
    - destruct rest as [|y rest']; cbn [glex]; unfold cwhite; change newline with "010" in En; rewrite ?En; eexists; eexists; reflexivity.
    - cbn [glex]. unfold cwhite. change newline with "010" in En. rewrite En. unfold ccomm.
      assert (X : (cword c || quote c) = false).
      { apply orb_false_iff. split; [destruct (cword c) eqn:X; [exfalso; apply E1, comment_char_facts; exact X|reflexivity]|destruct (quote c) eqn:X; [exfalso; apply E2, quote_spec; exact X|reflexivity]]. }
      rewrite X. eexists; eexists; reflexivity. }
  destruct T as (more & nc & T). rewrite T in R. cbn [fst snd] in R.
  apply (exit_token ts ns ("#" :: w) more nc); [exact N|exact R|left; reflexivity|].
  cbn [skipn]. destruct w as [|x w]; [reflexivity|]. cbn [skipn]. destruct (convert_cases w) as [[k K]|K]; [|exact K]. exfalso.
  apply convert_known in K. destruct K as (c & M & ->). apply (UN x c k M). reflexivity.
Qed.
(** a quoted value that contains the comment sign *)
Theorem C161_comment_sign_in_value_exits : forall before q body rest d arg, Forall entry_ok before -> quotation q ->
  (forall x, In x body -> x <> q /\ ~ is_nl x) -> (exists x, In x body /\ hash x) ->
  parse (info_text before true ++ quoted_text q body ++ rest) d arg = (d, Exc SystemExit).
Proof.
  intros before q body rest d arg F Q B (h & Ih & Hh). apply hash_spec in Hh. subst h. destruct (quotation_facts q Q) as (Q1 & Q2 & Q3 & Q4 & Q5 & Q6 & Q7).
  destruct (prefix_names before (quoted_text q body ++ rest) F) as (ts & ns & N & R).
  assert (NL : forall c, In c (quoted_text q body) -> c <> newline).
  { intros c I ->. unfold quoted_text in I. destruct I as [E | I]; [rewrite E in Q6; discriminate Q6|]. apply in_app_or in I. destruct I as [I | [E | []]]; [|rewrite E in Q6; discriminate Q6].
    destruct (B _ I) as [_ X]. apply X. reflexivity. }
  assert (T : exists more nc, comment_lexer Space (joined_lines (quoted_text q body ++ rest)) = (quoted_text q body :: more, nc)).
  { rewrite joined_app by exact NL. rewrite comment_lexer_is, g_quote; try assumption; [eexists; eexists; reflexivity|reflexivity|]. intros I. destruct (B q I) as [X _]. congruence. }
  destruct T as (more & nc & T). rewrite T in R. cbn [fst snd] in R.
  apply (exit_token ts ns (quoted_text q body) more nc); [exact N|exact R|right; apply in_or_app; left; exact Ih|].
  unfold quoted_text. destruct body as [|x body]; [destruct Ih|]. cbn [app skipn].
  destruct (convert_cases (body ++ [q])) as [[k K]|K]; [|exact K]. exfalso. apply convert_known in K. destruct K as (c & M & E).
  assert (I : In q (str c)) by (rewrite <- E; apply in_or_app; right; left; reflexivity). destruct (means_chars c k M q I) as (_ & _ & X). congruence.
Qed.

(** ** C162: a value that cannot be evaluated: the values before it stay stored *)
Theorem C162_failing_value : forall es nl d arg keys vals ts t rest e, Forall entry_ok es -> Forall2 means (comments es) keys ->
  written_values es = ts ++ t :: rest -> Forall2 (fun t v => lev t = Ok v) ts vals -> (List.length ts < List.length keys)%nat -> lev t = Exc e ->
  exists d', (forall k, iget d' k = latest (combine keys vals) (iget d k) k) /\
    parse (info_text es nl) d arg =
      (d', match e with
           | SyntaxError => Exc SystemExit            (* announced, the run ends *)
           | NameError | TypeError => Ok tt           (* only logged: the run goes on without the other values *)
           | e => Exc e
           end).
Proof.
  intros es nl d arg keys vals ts t rest e F M W V Ln E. rewrite (parse_file es nl d arg keys F M), W.
  destruct (zip_prefix ts vals keys (t :: rest) d V) as (d' & R & G); [unfold text in *; lia|]. exists d'. split; [exact G|]. cbv zeta. unfold text in *. rewrite R.
  destruct (skipn (List.length ts) keys) as [|k0 ks] eqn:S.
  { apply (f_equal (@List.length _)) in S. rewrite skipn_length in S. cbn in S. unfold text in *. lia. }
  cbn [zip_loop]. rewrite E. destruct e; reflexivity.
Qed.
End Eval.
(** a tuple written with a blank after the comma is cut into pieces: for every evaluator that calls the first piece
    a syntax error the run ends *)
Definition spaced_tuple (a b : text) : text := str "('" ++ a ++ str "', '" ++ b ++ str "')".
Theorem C162_blank_in_tuple : forall {L} (lev : text -> res L) c k a b d arg, means c k -> (forall x, In x (a ++ b) -> letter_or_digit x) ->
  lev (str "('" ++ a ++ str "',") = Exc SyntaxError ->
  parse_custom_info_files lev ("#" :: " " :: str c ++ newline :: spaced_tuple a b ++ [newline]) d arg = (d, Exc SystemExit).
Proof.
  intros L lev c k a b d arg M H E.
  assert (HA : forall x, In x a -> wordc x) by (intros x I; left; apply H, in_or_app; left; exact I).
  assert (HB : forall x, In x b -> wordc x) by (intros x I; left; apply H, in_or_app; right; exact I).
  assert (CW : forall w, (forall x, In x w -> letter_or_digit x) -> forall x, In x w -> cwhite x = false /\ ccomm x = false /\ (cword x || quote x) = true).
  { intros w Hw x I. specialize (Hw x I). assert (CC : comment_char x) by (left; exact Hw). apply comment_char_facts in CC. rewrite CC. split; [|split; reflexivity].
    destruct (wordc_facts x (or_introl Hw)) as (_ & _ & _ & _ & X & _). exact X. }
  assert (NQ : forall w, (forall x, In x w -> wordc x) -> ~ In "'" w).
  { intros w Hw I. destruct (wordc_facts _ (Hw _ I)) as (_ & _ & _ & X & _). discriminate X. }
  assert (NLT : forall x, In x (spaced_tuple a b) -> x <> newline).
  { unfold spaced_tuple. intros x I ->. repeat (apply in_app_or in I; destruct I as [I|I]); cbn in I;
      try (repeat (destruct I as [I|I]; [discriminate I|]); destruct I).
    - destruct (wordc_facts _ (HA _ I)) as (_ & _ & _ & _ & X & _). discriminate X.
    - destruct (wordc_facts _ (HB _ I)) as (_ & _ & _ & _ & X & _). discriminate X. }
  change ("#" :: " " :: str c ++ newline :: spaced_tuple a b ++ [newline]) with ((entry_text (Named c)) ++ newline :: spaced_tuple a b ++ [newline]).
  assert (JT : joined_lines (spaced_tuple a b ++ [newline]) = spaced_tuple a b ++ [newline]) by (rewrite joined_app by exact NLT; reflexivity).
  destruct (g_one _ _ _ hashed _ _ (spaced_tuple a b ++ [newline]) (named_c c k M)) as (t1 & E1 & R1).
  destruct (g_one _ _ _ every _ _ (spaced_tuple a b ++ [newline]) (named_v c k M)) as (t2 & E2 & R2). rewrite filter_every in E2. subst t2.
  rewrite JT in R1, R2. unfold parse_custom_info_files, parse_body. rewrite comment_lexer_is, value_lexer_is, R1, R2. cbn [fst snd app].
  (* the comment lexer on the tuple *)
  assert (CT : exists ts, Forall nohash ts /\ glex cword cwhite ccomm Space (spaced_tuple a b ++ [newline]) = (ts, false)).
  { unfold spaced_tuple. rewrite <- !app_assoc. change (str "('" ++ a ++ str "', '" ++ b ++ str "')" ++ [newline]) with ("(" :: ("'" :: a ++ "'" :: ("," :: " " :: "'" :: b ++ ["'"; ")"; newline]))).
    rewrite g_other by reflexivity.
    replace ("'" :: a ++ "'" :: ("," :: " " :: "'" :: b ++ ["'"; ")"; newline])) with (quoted_text "'" a ++ ("," :: " " :: "'" :: b ++ ["'"; ")"; newline])) by (unfold quoted_text; cbn [app]; rewrite <- app_assoc; reflexivity).
    rewrite g_quote by (reflexivity || apply NQ; exact HA). rewrite g_other by reflexivity. rewrite g_start by reflexivity.
    replace ("'" :: b ++ ["'"; ")"; newline]) with (("'" :: b ++ ["'"]) ++ [")"; newline]) by (cbn [app]; rewrite <- app_assoc; reflexivity).
    rewrite g_word.
    2:{ intros x [<- | I]; [repeat split|]. apply in_app_or in I. destruct I as [I | [<- | []]]; [|repeat split]. apply (CW b); [|exact I]. intros y Hy. apply H, in_or_app. right. exact Hy. }
    rewrite g_word_other by reflexivity. unfold emit. cbn [glex fst snd]. eexists. split; [|reflexivity].
    assert (NHw : forall w, (forall x, In x w -> wordc x) -> nohash w).
    { intros w Hw I. destruct (wordc_facts _ (Hw _ I)) as (_ & _ & _ & _ & _ & X). discriminate X. }
    repeat constructor.
    - intros [X | []]; discriminate X.
    - intros [X | I]; [discriminate X|]. apply in_app_or in I. destruct I as [I | [X | []]]; [exact (NHw a HA I)|discriminate X].
    - intros [X | []]; discriminate X.
    - intros I. cbn in I. destruct I as [X | [X | I]]; try discriminate X. apply in_app_or in I. destruct I as [I | [X | []]]; [exact (NHw b HB I)|discriminate X].
    - intros [X | []]; discriminate X. }
  destruct CT as (ts & TN & CT). rewrite CT. cbn [fst snd]. rewrite names_filter, filter_app, E1, (filter_nohash ts TN), app_nil_r.
  cbn [names_of]. change (containsb ["#"] ("#" :: " " :: str c)) with true. cbv iota. cbn [skipn]. apply means_convert in M. rewrite M. cbn [bind].
  (* the value lexer *)
  assert (VT : exists more nc, glex vword vwhite vcomm Space (spaced_tuple a b ++ [newline]) = ((str "('" ++ a ++ str "',") :: more, nc)).
  { unfold spaced_tuple. rewrite <- !app_assoc. change (str "('" ++ a ++ str "', '" ++ b ++ str "')" ++ [newline]) with ("(" :: ("'" :: a ++ "'" :: ("," :: " " :: "'" :: b ++ ["'"; ")"; newline]))).
    rewrite g_start by reflexivity.
    replace ("'" :: a ++ "'" :: ("," :: " " :: "'" :: b ++ ["'"; ")"; newline])) with (("'" :: a ++ ["'"; ","]) ++ (" " :: "'" :: b ++ ["'"; ")"; newline])) by (cbn [app]; rewrite <- app_assoc; reflexivity).
    rewrite g_word.
    2:{ intros x [<- | I]; [repeat split|]. apply in_app_or in I. destruct I as [I | [<- | [<- | []]]]; [|repeat split|repeat split]. destruct (wordc_facts x (HA x I)) as (W1 & W2 & W3 & _). rewrite W1, W2, W3. repeat split. }
    eexists; eexists. cbn [glex]. change (vwhite " ") with true. cbv iota. reflexivity. }
  destruct VT as (more & nc & VT). rewrite VT. cbn [fst snd zip_loop]. rewrite E. reflexivity.
Qed.

(** concrete files *)
Definition ex_file : list entry :=
  [ Nothing 0; Named "MESA base folder/directory"; Valued (str "'/data/star-1/'") 2; Nothing 3;
    Named "MESA default profile substrings"; Valued (str "('a.prof','b_2')") 0; Named "MESA default suffix"; Valued (str "1.5") 0 ].
Lemma lod x : std_b x = true -> letter_or_digit x. Proof. apply std_b_spec. Qed.
Lemma wc x : wordc_b x = true -> wordc x.
Proof.
  unfold wordc_b. intros B. apply orb_true_iff in B. destruct B as [B|B]; [left; apply std_b_spec; exact B|right].
  apply existsb_exists in B. destruct B as (y & I & E). apply N.eqb_eq in E. unfold one_of. rewrite E. exact I.
Qed.
Theorem C160_hypotheses_met : Forall entry_ok ex_file /\
  paired ex_file [ ("MESA base folder/directory"%string, str "'/data/star-1/'"); ("MESA default profile substrings"%string, str "('a.prof','b_2')"); ("MESA default suffix"%string, str "1.5") ] /\
  (exists d', parse_custom_info_files (fun t => Ok t) (info_text ex_file false) [] None = (d', Ok tt) /\ iget d' "mesa_suffix" = Some (str "1.5")).
Proof.
  split; [|split; [split; reflexivity|]].
  - unfold ex_file. apply Forall_cons; [exact Logic.I|]. apply Forall_cons; [|apply Forall_cons; [|apply Forall_cons; [exact Logic.I|apply Forall_cons; [|apply Forall_cons; [|apply Forall_cons; [|apply Forall_cons; [|apply Forall_nil]]]]]]]; cbn [entry_ok].
    + eexists; constructor.
    + apply (v_quoted "'" (str "/data/star-1/")); [cbn; auto|]. intros x H. cbn in H.
      repeat (destruct H as [<- | H]; [split; [discriminate|split; intros X; vm_compute in X; discriminate X]|]). destruct H.
    + eexists; constructor.
    + apply (v_tuple [("'", str "a.prof"); ("'", str "b_2")]). intros q w [[= <- <-] | [[= <- <-] | []]]; (split; [cbn; auto|]); intros x H; apply wc; cbn in H; repeat (destruct H as [<- | H]; [reflexivity|]); destruct H.
    + eexists; constructor.
    + apply (v_plain "1" (str ".5")). intros x H. apply wc. cbn in H. repeat (destruct H as [<- | H]; [reflexivity|]). destruct H.
  - eexists. split; vm_compute; reflexivity.
Qed.
Theorem C161_hypotheses_met : (forall x, In x (str " my folder") -> comment_char x) /\ (forall x c k, means c k -> str " my folder" <> x :: list_ascii_of_string c) /\
  ends_comment (newline :: str "'a'") /\ (exists x, In x (str "a#b") /\ hash x).
Proof.
  split; [|split; [|split]].
  - intros x H. apply comment_char_facts. cbn in H. repeat (destruct H as [<- | H]; [reflexivity|]). destruct H.
  - intros x c k M E. destruct M; discriminate E.
  - split; [intros X; apply comment_char_facts in X; discriminate X|intros X; apply quote_spec in X; discriminate X].
  - exists "#". split; [cbn; auto|reflexivity].
Qed.
Theorem C162_hypotheses_met : exists d', parse_custom_info_files (fun t => if text_eqb t (str "('a',") then Exc SyntaxError else Ok t)
   (info_text [Named "MESA default suffix"; Valued (str "'.dat'") 0; Named "MESA default profile substrings"] true ++ str "('a', 'b')") [] None = (d', Exc SystemExit) /\
   iget d' "mesa_suffix" = Some (str "'.dat'").
Proof. eexists. split; vm_compute; reflexivity. Qed.
