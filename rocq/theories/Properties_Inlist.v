(** * Properties C58, C59: the custom-format inlist reader.
    [literal_eval] is Python's ast.literal_eval (any function to values or exceptions), [fs] the file
    system.  Files of the documented form are described in Inlist_Spec. *)
From Coq Require Import ZArith NArith Ascii String Bool Lia Decimal DecimalString DecimalZ List.
From Verif Require Import Base Inlist_Model Inlist_Spec Inlist_Proofs.
Import ListNotations.
Local Open Scope char_scope.

Section WithEval.
Context {L : Type} (literal_eval : text -> res L).
Notation typer := (typer literal_eval).
Notation value := (@value L).
Notation dict := (@dict L).
Notation dget := (@Inlist_Model.dget L).
Notation dset := (@Inlist_Model.dset L).

(** ** dictionaries *)
Lemma text_eqb_spec a b : text_eqb a b = true <-> a = b.
Proof. unfold text_eqb. destruct (list_eq_dec ascii_dec a b); split; congruence. Qed.
Lemma text_eqb_refl a : text_eqb a a = true.
Proof. apply text_eqb_spec. reflexivity. Qed.
Lemma dget_dset d k v k' : dget (dset d k v) k' = if text_eqb k' k then Some v else dget d k'.
Proof.
  induction d as [|[j w] d IH]; cbn.
  - destruct (text_eqb k' k); reflexivity.
  - destruct (text_eqb k j) eqn:E.
    + apply text_eqb_spec in E. subst j. cbn. destruct (text_eqb k' k); reflexivity.
    + cbn. rewrite IH. destruct (text_eqb k' j) eqn:F; [|reflexivity]. destruct (text_eqb k' k) eqn:G; [|reflexivity].
      apply text_eqb_spec in F, G. subst. rewrite text_eqb_refl in E. discriminate.
Qed.
(** ** processing the tokens of whole lines *)
Definition assigns (ls : list line) : list (text * text) := flat_map (fun l => match l with Empty _ _ => [] | Assign a => [(keyword a, written_value a)] end) ls.
Fixpoint store (d : dict) (kvs : list (text * text)) : res dict :=
  match kvs with [] => Ok d | (k, v) :: r => (x <- typer v ; store (dset d k x) r)%res end.
Lemma assign_lines ls d : assign literal_eval (concat (map tokens ls)) false d = store d (assigns ls).
Proof.
  revert d. induction ls as [|l ls IH]; intros d; [reflexivity|]. destruct l as [b c|a]; [exact (IH d)|].
  cbn. destruct (typer (written_value a)) as [x| |e]; [exact (IH _)|reflexivity|reflexivity].
Qed.
Lemma store_app d a b : store d (a ++ b) = (d' <- store d a ; store d' b)%res.
Proof. revert d. induction a as [|[k v] a IH]; intros d; [reflexivity|]. cbn. destruct (typer v); [apply IH|reflexivity|reflexivity]. Qed.
Lemma assigns_app a b : assigns (a ++ b) = assigns a ++ assigns b.
Proof. apply flat_map_app. Qed.
Lemma store_get kvs : forall d d', store d kvs = Ok d' -> forall k,
  ((forall v, ~ In (k, v) kvs) -> dget d' k = dget d k) /\
  (forall a v b, kvs = a ++ (k, v) :: b -> (forall w, ~ In (k, w) b) -> exists x, typer v = Ok x /\ dget d' k = Some x).
Proof.
  induction kvs as [|[k0 v0] kvs IH]; intros d d' H k.
  - injection H as <-. split; [reflexivity|]. intros [|? ?] v b E; discriminate.
  - cbn in H. destruct (typer v0) as [x0| |] eqn:T; try discriminate. cbn in H. destruct (IH _ _ H k) as [A B]. split.
    + intros N. rewrite A by (intros v Hv; exact (N v (or_intror Hv))). rewrite dget_dset. destruct (text_eqb k k0) eqn:E; [|reflexivity].
      apply text_eqb_spec in E. subst. exfalso. exact (N v0 (or_introl eq_refl)).
    + intros [|p a] v b E N.
      * inversion E; subst. exists x0. split; [exact T|]. rewrite A by (intros w Hw; exact (N w Hw)). rewrite dget_dset, text_eqb_refl. reflexivity.
      * inversion E; subst. exact (B a v b eq_refl N).
Qed.
Lemma assigns_in ls k v : In (k, v) (assigns ls) <-> exists a, In (Assign a) ls /\ keyword a = k /\ written_value a = v.
Proof.
  unfold assigns. rewrite in_flat_map. split.
  - intros ([b c|a] & I & H); [destruct H|]. destruct H as [H|[]]. injection H as <- <-. eauto.
  - intros (a & I & <- & <-). exists (Assign a). split; [exact I|left; reflexivity].
Qed.
Lemma store_ok d kvs : (forall k v, In (k, v) kvs -> exists x, typer v = Ok x) -> exists d', store d kvs = Ok d'.
Proof.
  revert d. induction kvs as [|[k v] kvs IH]; intros d H; [exists d; reflexivity|]. cbn. destruct (H k v (or_introl eq_refl)) as [x ->]. cbn. apply IH. intros k' v' I. exact (H k' v' (or_intror I)).
Qed.

(** ** the name of the defaults file *)
Definition no_char (c : ascii) (s : text) : Prop := ~ In c s.
Lemma run_all s : (forall c, In c s -> c <> newline) -> run s = List.length s.
Proof.
  induction s as [|c s IH]; intros H; [reflexivity|]. cbn. assert (E : Ascii.eqb c newline = false) by (apply Ascii.eqb_neq, H; left; reflexivity). rewrite E, IH; [reflexivity|]. intros x Hx. apply H. right. exact Hx.
Qed.
(** greedy search: the longest prefix after which the rest matches *)
Lemma star_spec it p s n caps : it = Cap \/ it = Any -> (n <= run s)%nat -> rx_match p (skipn n s) = Some caps ->
  (forall m, (n < m <= run s)%nat -> rx_match p (skipn m s) = None) ->
  rx_match (it :: p) s = Some (match it with Cap => firstn n s :: caps | _ => caps end).
Proof.
  intros Hit Hn E U. set (go := fix go n := match rx_match p (skipn n s) with Some caps => Some (match it with Cap => firstn n s :: caps | _ => caps end) | None => match n with O => None | S n' => go n' end end).
  assert (G : forall m, (n <= m <= run s)%nat -> go m = Some (match it with Cap => firstn n s :: caps | _ => caps end)).
  { induction m as [|m IH]; intros Hm.
    - assert (n = 0)%nat by lia. subst n. cbn [go]. rewrite E. reflexivity.
    - destruct (Nat.eq_dec n (S m)) as [->|Ne]; [unfold go; rewrite E; reflexivity|]. cbn [go]. rewrite U by lia. apply IH. lia. }
  destruct Hit as [-> | ->]; exact (G (run s) (conj Hn (le_n _))).
Qed.
Lemma star_none it p s : it = Cap \/ it = Any -> (forall m, (m <= run s)%nat -> rx_match p (skipn m s) = None) -> rx_match (it :: p) s = None.
Proof.
  intros Hit U. set (go := fix go n := match rx_match p (skipn n s) with Some caps => Some (match it with Cap => firstn n s :: caps | _ => caps end) | None => match n with O => None | S n' => go n' end end).
  assert (G : forall m, (m <= run s)%nat -> go m = None).
  { induction m as [|m IH]; intros Hm; unfold go; rewrite U by lia; [reflexivity|]. apply IH. lia. }
  destruct Hit as [-> | ->]; exact (G (run s) (le_n _)).
Qed.
Lemma in_skipn {A} (x : A) n l : In x (skipn n l) -> In x l.
Proof. intros H. rewrite <- (firstn_skipn n l). apply in_app_iff. right. exact H. Qed.
Lemma lit_none c p s : ~ In c s -> rx_match (Lit c :: p) s = None.
Proof. intros H. destruct s as [|a s]; [reflexivity|]. cbn. destruct (Ascii.eqb_spec a c) as [->|_]; [exfalso; apply H; left; reflexivity|reflexivity]. Qed.
Lemma any_any c p s : ~ In c s -> rx_match (Any :: Lit c :: p) s = None.
Proof. intros H. apply star_none; [right; reflexivity|]. intros m _. apply lit_none. intros X. apply H, (in_skipn _ _ _ X). Qed.
Lemma skipn_len {A} (a b : list A) : skipn (List.length a) (a ++ b) = b.
Proof. rewrite skipn_app, skipn_all, Nat.sub_diag. reflexivity. Qed.
Lemma firstn_len {A} (a b : list A) : firstn (List.length a) (a ++ b) = a.
Proof. rewrite firstn_app, firstn_all, Nat.sub_diag. cbn. apply app_nil_r. Qed.
(** beyond a prefix [a] and one separator, what is left of [a ++ c :: b] is a tail of b *)
Lemma skipn_beyond {A} (a : list A) c b m : (List.length a < m)%nat -> skipn m (a ++ c :: b) = skipn (m - S (List.length a)) b.
Proof. intros H. rewrite skipn_app, skipn_all2 by lia. cbn [app]. replace (m - List.length a)%nat with (S (m - S (List.length a))) by lia. reflexivity. Qed.
Lemma skipn_in_tail {A} (b : list A) m x : In x (skipn m b) -> In x b.
Proof. apply in_skipn. Qed.
Lemma defaults_of_path p dir name ext : no_char "/" dir -> no_char "/" name -> no_char "/" ext -> no_char "." ext ->
  (forall c, In c (p ++ dir ++ name ++ ext) -> c <> newline) ->
  defaults_path (p ++ "/" :: dir ++ "/" :: name ++ "." :: ext) = Ok (p ++ str "/defaults/" ++ name ++ str ".defaults").
Proof.
  intros D N X Y NL. unfold defaults_path, regex_defaults.
  assert (nl : forall a, (forall c, In c a -> In c (p ++ dir ++ name ++ ext) \/ c = "/" \/ c = ".") -> run a = List.length a).
  { intros a H. apply run_all. intros c Hc ->. destruct (H _ Hc) as [I|[I|I]]; [exact (NL _ I eq_refl)|discriminate|discriminate]. }
  assert (R3 : rx_match [Cap; Lit "."; Any] (name ++ "." :: ext) = Some [name]).
  { rewrite (star_spec Cap [Lit "."; Any] (name ++ "." :: ext) (List.length name) []); [rewrite firstn_len; reflexivity|auto| | |].
    - rewrite nl; [rewrite app_length; cbn; lia|]. intros c Hc. rewrite !in_app_iff in *. cbn in Hc. intuition.
    - rewrite skipn_len. cbn. destruct (run ext); reflexivity.
    - intros m Hm. rewrite skipn_beyond by lia. apply lit_none. intros I. apply Y, (in_skipn _ _ _ I). }
  assert (R2 : rx_match [Any; Lit "/"; Cap; Lit "."; Any] (dir ++ "/" :: name ++ "." :: ext) = Some [name]).
  { rewrite (star_spec Any [Lit "/"; Cap; Lit "."; Any] (dir ++ "/" :: name ++ "." :: ext) (List.length dir) [name]); [reflexivity|auto| | |].
    - rewrite nl; [rewrite app_length; lia|]. intros c Hc. rewrite !in_app_iff in *. cbn in Hc. rewrite in_app_iff in Hc. cbn in Hc. intuition.
    - rewrite skipn_len. exact R3.
    - intros m Hm. rewrite skipn_beyond by lia. apply lit_none. intros I. apply in_skipn, in_app_iff in I. destruct I as [I|[I|I]]; [exact (N I)|discriminate|exact (X I)]. }
  rewrite (star_spec Cap [Lit "/"; Any; Lit "/"; Cap; Lit "."; Any] (p ++ "/" :: dir ++ "/" :: name ++ "." :: ext) (List.length p) [name]); [rewrite firstn_len; reflexivity|auto| | |].
  - rewrite nl; [rewrite app_length; lia|]. intros c Hc. rewrite !in_app_iff in *. cbn in Hc. rewrite !in_app_iff in Hc. cbn in Hc. rewrite !in_app_iff in Hc. cbn in Hc. intuition.
  - rewrite skipn_len. exact R2.
  - intros m Hm. rewrite skipn_beyond by lia. set (t := skipn _ _).
    assert (T : (exists k, t = skipn k (name ++ "." :: ext)) \/ exists d', t = d' ++ "/" :: name ++ "." :: ext /\ ~ In "/" d').
    { unfold t. set (k := (m - S (List.length p))%nat). destruct (Nat.le_gt_cases k (List.length dir)) as [Hk|Hk].
      - right. exists (skipn k dir). split; [rewrite skipn_app; replace (k - List.length dir)%nat with 0%nat by lia; reflexivity|]. intros I. exact (D (in_skipn _ _ _ I)).
      - left. rewrite skipn_beyond by lia. eauto. }
    destruct T as [[k ->]|(d' & -> & Hd)].
    + apply lit_none. intros I. apply in_skipn, in_app_iff in I. destruct I as [I|[I|I]]; [exact (N I)|discriminate|exact (X I)].
    + destruct d' as [|y d'].
      * cbn [app rx_match]. rewrite Ascii.eqb_refl. apply (any_any "/" [Cap; Lit "."; Any]). intros I. apply in_app_iff in I. destruct I as [I|[I|I]]; [exact (N I)|discriminate|exact (X I)].
      * cbn [app rx_match]. destruct (Ascii.eqb_spec y "/") as [->|_]; [exfalso; apply Hd; left; reflexivity|reflexivity].
Qed.
(** ** C58: overriding defaults *)
(** reading a file of the documented form stores the typed values line by line, later lines winning *)
Variable fs : text -> option text.
Lemma parse_file path d ls nl : fs path = Some (file_text ls nl) -> (forall l, In l ls -> line_ok l) ->
  parse_inlist literal_eval fs path d =
  match store (match d with None => [] | Some d => d end) (assigns ls) with
  | Ok d' => Ok (Some d') | Exc NameError | Exc TypeError => Ok None | Exc e => Exc e | UB => UB end.
Proof. intros E H. unfold parse_inlist. rewrite E, lex_file by exact H. cbn [fst snd]. rewrite assign_lines. reflexivity. Qed.

(** P/D/N.S is a user inlist, P/defaults/N.defaults its defaults file.  If every value of both files can be
    typed, a dictionary is returned; a key has the value of its last assignment in the user inlist; a key
    not assigned there has the value of its last assignment in the defaults; other keys are absent. *)
Theorem C58_user_values_override_defaults : forall p dir name ext user defs nlu nld,
  no_char "/" dir -> no_char "/" name -> no_char "/" ext -> no_char "." ext -> (forall c, In c (p ++ dir ++ name ++ ext) -> c <> newline) ->
  let path := p ++ "/" :: dir ++ "/" :: name ++ "." :: ext in
  fs path = Some (file_text user nlu) -> fs (p ++ str "/defaults/" ++ name ++ str ".defaults") = Some (file_text defs nld) ->
  (forall l, In l user \/ In l defs -> line_ok l) ->
  (forall a, In (Assign a) user \/ In (Assign a) defs -> exists x, typer (written_value a) = Ok x) ->
  exists d, get_inlist_values literal_eval fs path = Ok (Some d) /\ forall k,
    (forall v, last_assigned user k v -> exists x, typer v = Ok x /\ dget d k = Some x) /\
    (never_assigned user k -> forall v, last_assigned defs k v -> exists x, typer v = Ok x /\ dget d k = Some x) /\
    (never_assigned user k -> never_assigned defs k -> dget d k = None).
Proof.
  intros p dir name ext user defs nlu nld D N X Y NL path Fu Fd LO T. unfold get_inlist_values, get_default_inlist_values.
  unfold path. rewrite defaults_of_path by assumption. fold path. cbn [bind].
  rewrite (parse_file _ None defs nld Fd) by (intros l Hl; apply LO; auto).
  destruct (store_ok [] (assigns defs)) as [d0 E0]. { intros k v I. apply assigns_in in I. destruct I as (a & I & _ & <-). apply T. auto. }
  destruct (store_ok d0 (assigns user)) as [d1 E1]. { intros k v I. apply assigns_in in I. destruct I as (a & I & _ & <-). apply T. auto. }
  rewrite E0. cbn [bind]. rewrite (parse_file _ (Some d0) user nlu Fu) by (intros l Hl; apply LO; auto). rewrite E1.
  exists d1. split; [reflexivity|].
  assert (Last : forall ls k v, last_assigned ls k v -> exists a b, assigns ls = a ++ (k, v) :: b /\ forall w, ~ In (k, w) b).
  { intros ls k v (b & a & c & -> & Ek & Ev & Hn). exists (assigns b), (assigns c). split; [rewrite assigns_app; cbn; rewrite Ek, Ev; reflexivity|].
    intros w I. apply assigns_in in I. destruct I as (a' & I & K & _). exact (Hn a' I K). }
  assert (Never : forall ls k, never_assigned ls k -> forall v, ~ In (k, v) (assigns ls)).
  { intros ls k Hn v I. apply assigns_in in I. destruct I as (a' & I & K & _). exact (Hn a' I K). }
  intros k. destruct (store_get _ _ _ E1 k) as [A1 B1]. destruct (store_get _ _ _ E0 k) as [A0 B0]. repeat split.
  - intros v Hv. destruct (Last _ _ _ Hv) as (a & b & Eq & Hn). exact (B1 a v b Eq Hn).
  - intros Hn v Hv. rewrite A1 by (apply Never, Hn). destruct (Last _ _ _ Hv) as (a & b & Eq & Hb). exact (B0 a v b Eq Hb).
  - intros Hn Hd. rewrite A1 by (apply Never, Hn). rewrite A0 by (apply Never, Hd). reflexivity.
Qed.
(** the first value that cannot be typed, in the defaults or (if all defaults can) in the user inlist,
    makes the call raise; nothing is returned *)
Lemma store_fail d a k v b e : (forall k' v', In (k', v') a -> exists x, typer v' = Ok x) -> typer v = Exc e -> store d (a ++ (k, v) :: b) = Exc e.
Proof. intros H E. rewrite store_app. destruct (store_ok d a H) as [d' ->]. cbn. rewrite E. reflexivity. Qed.
Theorem C58_bad_value_raises : forall p dir name ext user defs nlu nld before a after e,
  no_char "/" dir -> no_char "/" name -> no_char "/" ext -> no_char "." ext -> (forall c, In c (p ++ dir ++ name ++ ext) -> c <> newline) ->
  let path := p ++ "/" :: dir ++ "/" :: name ++ "." :: ext in
  fs path = Some (file_text user nlu) -> fs (p ++ str "/defaults/" ++ name ++ str ".defaults") = Some (file_text defs nld) ->
  (forall l, In l user \/ In l defs -> line_ok l) -> e = ValueError \/ e = SyntaxError ->
  defs ++ user = before ++ Assign a :: after -> typer (written_value a) = Exc e ->
  (forall b, In (Assign b) before -> exists x, typer (written_value b) = Ok x) ->
  get_inlist_values literal_eval fs path = Exc e.
Proof.
  intros p dir name ext user defs nlu nld before a after e D N X Y NL path Fu Fd LO He Eq Ta Tb. unfold get_inlist_values, get_default_inlist_values.
  unfold path. rewrite defaults_of_path by assumption. fold path. cbn [bind].
  rewrite (parse_file _ None defs nld Fd) by (intros l Hl; apply LO; auto).
  assert (F : forall d, store d (assigns (defs ++ user)) = Exc e).
  { intros d. rewrite Eq, assigns_app. apply store_fail; [|exact Ta]. intros k v I. apply assigns_in in I. destruct I as (b & I & _ & <-). apply Tb, I. }
  specialize (F []). rewrite assigns_app, store_app in F. destruct (store [] (assigns defs)) as [d0| |e0]; cbn [bind] in F |- *.
  - rewrite (parse_file _ (Some d0) user nlu Fu) by (intros l Hl; apply LO; auto). rewrite F. destruct He as [-> | ->]; reflexivity.
  - discriminate.
  - injection F as ->. destruct He as [-> | ->]; reflexivity.
Qed.
(** a missing defaults file is an error, however complete the user inlist *)
Theorem C58_defaults_file_required : forall p dir name ext,
  no_char "/" dir -> no_char "/" name -> no_char "/" ext -> no_char "." ext -> (forall c, In c (p ++ dir ++ name ++ ext) -> c <> newline) ->
  fs (p ++ str "/defaults/" ++ name ++ str ".defaults") = None ->
  get_inlist_values literal_eval fs (p ++ "/" :: dir ++ "/" :: name ++ "." :: ext) = Exc FileNotFoundError.
Proof.
  intros p dir name ext D N X Y NL F. unfold get_inlist_values, get_default_inlist_values. rewrite defaults_of_path by assumption. cbn [bind]. unfold parse_inlist. rewrite F. reflexivity.
Qed.
End WithEval.

(** ** C59: types of the values *)
Section Types.
Context {L : Type} (literal_eval : text -> res L).
Notation typer := (Inlist_Model.typer literal_eval).
Notation value := (@value L).

Lemma no_quotes s : (forall x, In x s -> ~ quotation x) -> string_check s = false.
Proof.
  intros H. unfold string_check. apply orb_false_iff. split; apply not_true_iff_false; rewrite containsb_one; intros I; apply (H _ I); apply quote_spec; reflexivity.
Qed.
Lemma any_in_false vals s c : (forall v, In v vals -> In c (str v)) -> ~ In c s -> any_in vals s = false.
Proof.
  intros H N. unfold any_in. apply not_true_iff_false. rewrite existsb_exists. intros (v & Hv & X). exact (N (containsb_chars _ _ X c (H v Hv))).
Qed.
Lemma all_in_false vals s c v : In v vals -> In c (str v) -> ~ In c s -> all_in vals s = false.
Proof. intros Hv Hc N. unfold all_in. apply not_true_iff_false. rewrite forallb_forall. intros X. exact (N (containsb_chars _ _ (X v Hv) c Hc)). Qed.
Lemma any_in_spec vals s : any_in vals s = true <-> exists v, In v vals /\ occurs (str v) s.
Proof. unfold any_in. rewrite existsb_exists. split; intros (v & I & X); exists v; (split; [exact I|]); apply containsb_spec; exact X. Qed.
Lemma one_spec (a b : string) s : all_in [a; b] s = true <-> occurs (str a) s /\ occurs (str b) s.
Proof. unfold all_in. cbn [forallb]. rewrite !andb_true_iff, !containsb_spec. tauto. Qed.
Lemma occurs_one c s : occurs [c] s <-> In c s.
Proof. rewrite <- containsb_spec. apply containsb_one. Qed.
Lemma list_check_spec s : list_check s = true <-> In "[" s /\ In "]" s.
Proof. unfold list_check. rewrite one_spec. unfold str. cbn [list_ascii_of_string]. rewrite !occurs_one. tauto. Qed.
Lemma tuple_check_spec s : tuple_check s = true <-> In "(" s /\ In ")" s.
Proof. unfold tuple_check. rewrite one_spec. unfold str. cbn [list_ascii_of_string]. rewrite !occurs_one. tauto. Qed.
Lemma float_check_spec s : float_check s = true <-> In "." s.
Proof. unfold float_check, all_in. cbn [forallb]. rewrite andb_true_r. apply containsb_one. Qed.
Lemma none_check_spec s : none_check s = true <-> occurs (str "None") s.
Proof. unfold none_check, all_in. cbn [forallb]. rewrite andb_true_r. apply containsb_spec. Qed.
Lemma Forall_false (b : bool) : ~ b = true -> b = false. Proof. destruct b; [intros H; exfalso; apply H; reflexivity|reflexivity]. Qed.

(** digits *)
Definition digit_char (c : ascii) : Prop := (48 <= N_of_ascii c <= 57)%N.
Lemma is_digit_spec c : is_digit c = true <-> digit_char c.
Proof. unfold is_digit, digit, digit_char. cbv zeta. destruct (_ && _) eqn:E; [apply andb_true_iff in E; rewrite !N.leb_le in E; tauto|]. split; [discriminate|]. intros [A B]. apply N.leb_le in A, B. rewrite A, B in E. discriminate. Qed.
Lemma uint_digits d : forall c, In c (str (NilEmpty.string_of_uint d)) -> digit_char c.
Proof.
  unfold str. induction d; cbn; intros c H; try contradiction; destruct H as [<-|H]; try (unfold digit_char; cbn; lia); apply IHd; exact H.
Qed.
Lemma int_digits_pos d : forall p, int_digits (Zpos p) true (str (NilEmpty.string_of_uint d)) = Some (Zpos (Pos.of_uint_acc d p)).
Proof.
  unfold str. induction d; intros p; [reflexivity|..]; cbn [NilEmpty.string_of_uint list_ascii_of_string int_digits]; cbn [digit]; 
  match goal with |- context [digit ?c] => let x := eval vm_compute in (digit c) in change (digit c) with x end; cbn [Pos.of_uint_acc];
  match goal with |- int_digits ?z _ _ = Some (Zpos (Pos.of_uint_acc _ ?q)) => replace z with (Zpos q) by lia end; apply IHd.
Qed.
Lemma int_digits_zero d : forall b, d <> Nil \/ b = true -> int_digits 0 b (str (NilEmpty.string_of_uint d)) = Some (Z.of_uint d).
Proof.
  unfold str. induction d; intros b H; try (destruct H as [H|H]; [contradiction|subst b; reflexivity]);
  cbn [NilEmpty.string_of_uint list_ascii_of_string int_digits];
  match goal with |- context [digit ?c] => let x := eval vm_compute in (digit c) in change (digit c) with x end; cbn [Z.mul Z.add].
  - rewrite (IHd true (or_intror eq_refl)). reflexivity.
  - exact (int_digits_pos d 1).
  - exact (int_digits_pos d 2).
  - exact (int_digits_pos d 3).
  - exact (int_digits_pos d 4).
  - exact (int_digits_pos d 5).
  - exact (int_digits_pos d 6).
  - exact (int_digits_pos d 7).
  - exact (int_digits_pos d 8).
  - exact (int_digits_pos d 9).
Qed.
Lemma nilzero_digits d : forall c, In c (str (NilZero.string_of_uint d)) -> digit_char c.
Proof. destruct d; cbn [NilZero.string_of_uint]; try (apply uint_digits). intros c [<-|[]]. unfold digit_char. cbn. lia. Qed.
Lemma nilzero_value d : int_digits 0 false (str (NilZero.string_of_uint d)) = Some (Z.of_uint d).
Proof. destruct d; cbn [NilZero.string_of_uint]; try (apply int_digits_zero; left; discriminate). reflexivity. Qed.
Lemma nilzero_cons d : exists c s, str (NilZero.string_of_uint d) = c :: s /\ digit_char c.
Proof.
  destruct (str (NilZero.string_of_uint d)) as [|c s] eqn:E; [destruct d; discriminate|]. exists c, s. split; [reflexivity|]. apply (nilzero_digits d). rewrite E. left. reflexivity.
Qed.
Lemma py_int_decimal z : py_int (decimal z) = Some z.
Proof.
  unfold decimal. rewrite <- (DecimalZ.of_to z) at 2. destruct (Z.to_int z) as [d|d]; cbn [NilZero.string_of_int Z.of_int].
  - fold (str (NilZero.string_of_uint d)). pose proof (nilzero_value d) as V. destruct (nilzero_cons d) as (c & s & E & Hc). rewrite E in *. unfold py_int.
    destruct (Ascii.eqb_spec c "-") as [->|_]; [unfold digit_char in Hc; cbn in Hc; lia|]. destruct (Ascii.eqb_spec c "+") as [->|_]; [unfold digit_char in Hc; cbn in Hc; lia|]. exact V.
  - cbn [list_ascii_of_string py_int]. rewrite Ascii.eqb_refl. fold (str (NilZero.string_of_uint d)). rewrite nilzero_value. reflexivity.
Qed.
Lemma decimal_chars z c : In c (decimal z) -> digit_char c \/ c = "-".
Proof.
  unfold decimal. destruct (Z.to_int z) as [d|d]; cbn [NilZero.string_of_int list_ascii_of_string]; intros H.
  - left. exact (nilzero_digits d c H).
  - destruct H as [<-|H]; [right; reflexivity|left; exact (nilzero_digits d c H)].
Qed.
(** values made of digits and dashes only (so without any special sign) reach int() unless they have the
    exponent form *)
Lemma typer_plain s : (forall c, In c s -> ~ quotation c /\ c <> "[" /\ c <> "(" /\ c <> "." /\ c <> "e" /\ c <> "E") ->
  typer s = if float_regex s then lit literal_eval s else match py_int s with Some z => Ok (VInt z) | None => Exc ValueError end.
Proof.
  intros H. assert (Q : string_check s = false) by (apply no_quotes; intros x Hx; apply H, Hx).
  assert (N : forall x, (x = "[" \/ x = "(" \/ x = "." \/ x = "e" \/ x = "E") -> ~ In x s).
  { intros x Hx I. destruct (H x I) as (_ & A & B & C & D & E). destruct Hx as [X|[X|[X|[X|X]]]]; contradiction. }
  assert (BB : forall vals, (forall v, In v vals -> In "e" (str v) \/ In "E" (str v)) -> any_in vals s = false).
  { intros vals V. unfold any_in. apply Forall_false. rewrite existsb_exists. intros (v & Hv & X). destruct (V v Hv) as [Y|Y]; refine (N _ _ (containsb_chars _ _ X _ Y)); auto. }
  unfold Inlist_Model.typer, bool_check, none_check. rewrite Q.
  rewrite BB by (intros v [<-|[<-|[<-|[<-|[]]]]]; cbn; auto 10).
  rewrite (all_in_false ["None"%string] s "e" "None") by (try apply N; cbn; auto).
  replace (list_check s) with false by (symmetry; apply Forall_false; rewrite list_check_spec; intros [X _]; exact (N "[" (or_introl eq_refl) X)).
  replace (tuple_check s) with false by (symmetry; apply Forall_false; rewrite tuple_check_spec; intros [X _]; exact (N "(" (or_intror (or_introl eq_refl)) X)).
  replace (float_check s) with false by (symmetry; apply Forall_false; rewrite float_check_spec; apply N; auto). reflexivity.
Qed.
Lemma digit_or_dash c : digit_char c \/ c = "-" -> ~ quotation c /\ c <> "[" /\ c <> "(" /\ c <> "." /\ c <> "e" /\ c <> "E".
Proof.
  intros H. unfold digit_char in H. unfold quotation, one_of. cbn [In]. repeat split; try (intros ->; destruct H as [H|H]; [cbn in H; lia|discriminate]).
  intros [X|[X|[]]]; destruct H as [H| ->]; try (cbn in *; lia); discriminate.
Qed.
Lemma skip_digits_app s t : (forall c, In c s -> is_digit c = true) -> skip is_digit (s ++ t) = skip is_digit t.
Proof. induction s as [|c s IH]; intros H; [reflexivity|]. cbn. rewrite (H c (or_introl eq_refl)). apply IH. intros x Hx. apply H. right. exact Hx. Qed.
Lemma float_regex_no_e s : ~ In "e" s -> ~ In "E" s -> float_regex s = false.
Proof.
  intros A B. unfold float_regex. apply Forall_false. rewrite andb_true_iff. intros [_ X]. destruct (skip is_digit s) as [|c r] eqn:E; [discriminate|].
  assert (I : In c s). { assert (G : forall l, In c (skip is_digit l) -> In c l) by (induction l as [|y l IH]; cbn; [auto|]; destruct (is_digit y); [right; auto|auto]). apply G. rewrite E. left. reflexivity. }
  rewrite andb_true_iff, orb_true_iff, !Ascii.eqb_eq in X. destruct X as [[-> | ->] _]; contradiction.
Qed.

(** every integer in decimal notation *)
Theorem C59_integers : forall z, typer (decimal z) = Ok (VInt z).
Proof.
  intros z. rewrite typer_plain by (intros c Hc; apply digit_or_dash, (decimal_chars z), Hc).
  rewrite float_regex_no_e by (intros I; destruct (decimal_chars z _ I) as [H|H]; [unfold digit_char in H; cbn in H; lia|discriminate]).
  rewrite py_int_decimal. reflexivity.
Qed.
(** quoted strings are returned without their quotation marks, whatever they contain (True, None, numbers,
    parentheses, ...), unless they contain both square brackets *)
Lemma lstrip_id c s : match s with [] => True | a :: _ => a <> c end -> lstrip c s = s.
Proof. destruct s as [|a s]; [reflexivity|]. cbn. intros H. destruct (Ascii.eqb_spec a c); [contradiction|reflexivity]. Qed.
Lemma lstrip_absent c s : ~ In c s -> lstrip c s = s.
Proof. intros H. apply lstrip_id. destruct s as [|a s]; [exact I|]. intros ->. apply H. left. reflexivity. Qed.
Lemma strip_absent c s : ~ In c s -> strip c s = s.
Proof. intros H. unfold strip. rewrite (lstrip_absent c s H), lstrip_absent, rev_involutive; [reflexivity|]. intros I. apply H, in_rev, I. Qed.
Lemma strip_ends c s : ~ In c s -> strip c (c :: s ++ [c]) = s.
Proof.
  intros H. unfold strip. cbn [lstrip]. rewrite Ascii.eqb_refl. destruct s as [|a s].
  - cbn [app lstrip]. rewrite Ascii.eqb_refl. reflexivity.
  - change ((a :: s) ++ [c]) with (a :: (s ++ [c])). rewrite (lstrip_id c (a :: (s ++ [c]))) by (intros E; apply H; left; exact E). change (a :: (s ++ [c])) with ((a :: s) ++ [c]). rewrite rev_app_distr. cbn [rev app lstrip]. rewrite Ascii.eqb_refl.
    change (rev s ++ [a]) with (rev (a :: s)). rewrite lstrip_absent by (intros I; apply in_rev in I; exact (H I)). apply rev_involutive.
Qed.
Lemma strip_other c q s : c <> q -> strip c (q :: s ++ [q]) = q :: s ++ [q].
Proof.
  intros H. unfold strip. rewrite (lstrip_id c (q :: s ++ [q])) by (intros E; apply H; symmetry; exact E). replace (rev (q :: s ++ [q])) with (q :: rev (q :: s)) by (cbn [rev]; rewrite rev_app_distr; reflexivity).
  rewrite (lstrip_id c (q :: rev (q :: s))) by (intros E; apply H; symmetry; exact E). cbn [rev]. rewrite rev_app_distr, rev_involutive. reflexivity.
Qed.
Definition unquoted_text (s : text) : Prop := forall x, In x s -> ~ quotation x.
Lemma unquoted_absent s : unquoted_text s -> ~ In squote s /\ ~ In dquote s.
Proof. intros H. split; intros I; apply (H _ I); apply quote_spec; reflexivity. Qed.
Theorem C59_quoted_strings : forall q s, quotation q -> unquoted_text s -> ~ (In "[" s /\ In "]" s) -> typer (q :: s ++ [q]) = Ok (VStr s).
Proof.
  intros q s Hq Hs NB. destruct (unquoted_absent s Hs) as [A B].
  assert (E : q = squote \/ q = dquote) by (apply quote_spec in Hq; unfold quote in Hq; rewrite orb_true_iff, !Ascii.eqb_eq in Hq; exact Hq).
  unfold Inlist_Model.typer.
  assert (C : string_check (q :: s ++ [q]) = true) by (unfold string_check; destruct E as [-> | ->]; apply orb_true_iff; [left|right]; apply containsb_one; left; reflexivity).
  rewrite C. replace (list_check (q :: s ++ [q])) with false.
  - destruct E as [-> | ->].
    + rewrite strip_other by discriminate. rewrite strip_ends by exact A. reflexivity.
    + rewrite strip_ends by exact B. rewrite strip_absent by exact A. reflexivity.
  - symmetry. apply Forall_false. rewrite list_check_spec. intros [X Y]. apply NB. split.
    + destruct X as [X|X]; [destruct E; subst; discriminate|]. apply in_app_iff in X. destruct X as [X|[X|[]]]; [exact X|destruct E; subst; discriminate].
    + destruct Y as [Y|Y]; [destruct E; subst; discriminate|]. apply in_app_iff in Y. destruct Y as [Y|[Y|[]]]; [exact Y|destruct E; subst; discriminate].
Qed.
(** finding: single quotes directly inside double quotes are lost *)
Theorem C59_inner_quotes_are_lost : forall s, unquoted_text s -> ~ (In "[" s /\ In "]" s) ->
  typer (dquote :: squote :: s ++ [squote; dquote]) = Ok (VStr s).
Proof.
  intros s Hs NB. destruct (unquoted_absent s Hs) as [A B]. unfold Inlist_Model.typer.
  assert (C : string_check (dquote :: squote :: s ++ [squote; dquote]) = true) by (unfold string_check; apply orb_true_iff; left; apply containsb_one; right; left; reflexivity).
  rewrite C. replace (list_check _) with false.
  - replace (dquote :: squote :: s ++ [squote; dquote]) with (dquote :: (squote :: s ++ [squote]) ++ [dquote]) by (cbn [app]; rewrite <- app_assoc; reflexivity).
    rewrite strip_ends, strip_ends; [reflexivity|exact A|]. intros [X|X]; [discriminate|]. apply in_app_iff in X. destruct X as [X|[X|[]]]; [exact (B X)|discriminate].
  - symmetry. apply Forall_false. rewrite list_check_spec. intros [X Y]. apply NB. cbn [In] in X, Y. rewrite in_app_iff in X, Y. cbn [In] in X, Y.
    split; [destruct X as [X|[X|[X|[X|[X|[]]]]]]|destruct Y as [Y|[Y|[Y|[Y|[Y|[]]]]]]]; try discriminate; assumption.
Qed.
(** the words: unquoted texts containing False/FALSE are False, else those containing True/TRUE are True,
    else those containing None are None -- also inside lists and tuples *)
Definition mentions (ws : list string) (s : text) : Prop := exists w, In w ws /\ occurs (str w) s.
Definition false_words := ["False"; "FALSE"]%string.
Definition true_words := ["True"; "TRUE"]%string.
Lemma bool_check_spec s : bool_check s = true <-> mentions false_words s \/ mentions true_words s.
Proof.
  unfold bool_check. rewrite any_in_spec. unfold mentions, false_words, true_words. split.
  - intros (v & [<-|[<-|[<-|[<-|[]]]]] & X); [left|left|right|right]; eexists; (split; [|exact X]); cbn; auto.
  - intros [(v & [<-|[<-|[]]] & X)|(v & [<-|[<-|[]]] & X)]; eexists; (split; [|exact X]); cbn; auto.
Qed.
Theorem C59_words : forall s, unquoted_text s ->
  (mentions false_words s -> typer s = Ok (VBool false)) /\
  (mentions true_words s -> ~ mentions false_words s -> typer s = Ok (VBool true)) /\
  (occurs (str "None") s -> ~ mentions false_words s -> ~ mentions true_words s -> typer s = Ok VNone).
Proof.
  intros s H. unfold Inlist_Model.typer. rewrite (no_quotes s H).
  assert (F : bool_false_check s = true <-> mentions false_words s) by (unfold bool_false_check; apply any_in_spec). repeat split.
  - intros M. rewrite (proj2 (bool_check_spec s)) by (left; exact M). rewrite (proj2 F M). reflexivity.
  - intros M N. rewrite (proj2 (bool_check_spec s)) by (right; exact M). replace (bool_false_check s) with false by (symmetry; apply Forall_false; rewrite F; exact N). reflexivity.
  - intros M N N'. replace (bool_check s) with false by (symmetry; apply Forall_false; rewrite bool_check_spec; intros [X|X]; contradiction). rewrite (proj2 (none_check_spec s) M). reflexivity.
Qed.
(** finding: a list (or tuple) of booleans collapses to a single boolean, one with None to None *)
Theorem C59_boolean_lists_collapse : forall a b, unquoted_text a -> unquoted_text b ->
  typer ("[" :: a ++ str "False" ++ b ++ ["]"]) = Ok (VBool false) /\
  (~ mentions false_words ("[" :: a ++ str "True" ++ b ++ ["]"]) -> typer ("[" :: a ++ str "True" ++ b ++ ["]"]) = Ok (VBool true)).
Proof.
  intros a b A B. assert (U : forall w, In w (false_words ++ true_words) -> unquoted_text ("[" :: a ++ str w ++ b ++ ["]"])).
  { intros w Hw x Hx. destruct Hx as [<-|Hx]; [intros [X|[X|[]]]; discriminate|]. rewrite !in_app_iff in Hx. destruct Hx as [Hx|[Hx|[Hx|[<-|[]]]]]; [exact (A x Hx)| |exact (B x Hx)|intros [X|[X|[]]]; discriminate].
    rewrite <- quote_spec. cbn in Hw. destruct Hw as [<-|[<-|[<-|[<-|[]]]]]; cbn in Hx; repeat (destruct Hx as [<-|Hx]; [vm_compute; discriminate|]); destruct Hx. }
  assert (O : forall w, occurs (str w) ("[" :: a ++ str w ++ b ++ ["]"])) by (intros w; exists ("[" :: a), (b ++ ["]"]); reflexivity).
  split.
  - apply (C59_words _ (U "False"%string ltac:(cbn; auto))). exists "False"%string. split; [left; reflexivity|apply O].
  - intros N. apply (C59_words _ (U "True"%string ltac:(cbn; auto))); [|exact N]. exists "True"%string. split; [left; reflexivity|apply O].
Qed.
(** lists, tuples and decimal numbers are handed to literal_eval unchanged *)
Definition wordless (s : text) : Prop := unquoted_text s /\ ~ mentions false_words s /\ ~ mentions true_words s /\ ~ occurs (str "None") s.
Lemma typer_wordless s : wordless s -> typer s = if list_check s then lit literal_eval s else if tuple_check s then lit literal_eval s
  else if float_check s || float_regex s then lit literal_eval s else match py_int s with Some z => Ok (VInt z) | None => Exc ValueError end.
Proof.
  intros (U & F & T & N). unfold Inlist_Model.typer. rewrite (no_quotes s U).
  replace (bool_check s) with false by (symmetry; apply Forall_false; rewrite bool_check_spec; intros [X|X]; contradiction).
  replace (none_check s) with false by (symmetry; apply Forall_false; rewrite none_check_spec; exact N). reflexivity.
Qed.
Theorem C59_literals : forall s, wordless s -> (In "[" s /\ In "]" s) \/ (In "(" s /\ In ")" s) \/ In "." s ->
  typer s = (l <- literal_eval s ; Ok (VLit l))%res.
Proof.
  intros s W H. rewrite (typer_wordless s W). destruct (list_check s) eqn:A; [reflexivity|]. destruct (tuple_check s) eqn:B; [reflexivity|]. destruct (float_check s) eqn:C; [reflexivity|].
  exfalso. destruct H as [H|[H|H]].
  - apply list_check_spec in H. congruence.
  - apply tuple_check_spec in H. congruence.
  - apply float_check_spec in H. congruence.
Qed.
(** exponents without decimal point: a positive number is handed to literal_eval, a negative one raises *)
Definition digits (s : text) : Prop := s <> [] /\ forall c, In c s -> digit_char c.
Definition dashes (s : text) : Prop := forall c, In c s -> c = "-".
Lemma digits_is s : digits s -> forall c, In c s -> is_digit c = true.
Proof. intros [_ H] c Hc. apply is_digit_spec, H, Hc. Qed.
Lemma exponent_wordless (sign : text) e a m b : dashes sign -> e = "e" \/ e = "E" -> digits a -> dashes m -> digits b -> wordless (sign ++ a ++ e :: m ++ b) /\
  ~ In "[" (sign ++ a ++ e :: m ++ b) /\ ~ In "(" (sign ++ a ++ e :: m ++ b) /\ ~ In "." (sign ++ a ++ e :: m ++ b).
Proof.
  intros S E A M B. set (s := sign ++ a ++ e :: m ++ b).
  assert (C : forall c, In c s -> digit_char c \/ c = "-" \/ c = e).
  { intros c Hc. unfold s in Hc. rewrite !in_app_iff in Hc. destruct Hc as [Hc|[Hc|[Hc|Hc]]]; [right; left; exact (S c Hc)|left; exact (proj2 A c Hc)|right; right; symmetry; exact Hc|].
    apply in_app_iff in Hc. destruct Hc as [Hc|Hc]; [right; left; exact (M c Hc)|left; exact (proj2 B c Hc)]. }
  assert (NI : forall c, (57 < N_of_ascii c)%N -> c <> "e" -> c <> "E" -> ~ In c s).
  { intros c Lc X Y I. destruct (C c I) as [H|[H|H]]; [unfold digit_char in H; lia|subst; cbn in Lc; lia|]. destruct E; subst; contradiction. }
  assert (NI' : forall c, (N_of_ascii c < 48)%N -> c <> "-" -> ~ In c s).
  { intros c Lc X I. destruct (C c I) as [H|[H|H]]; [unfold digit_char in H; lia|contradiction|]. destruct E; subst; cbn in Lc; lia. }
  split; [split; [|split; [|split]]|split; [|split]].
  - intros x Hx Q. destruct Q as [Q|[Q|[]]]; exact (NI' x ltac:(rewrite <- Q; reflexivity) ltac:(intros ->; discriminate) Hx).
  - intros (w & Hw & O). apply containsb_spec in O. destruct Hw as [<-|[<-|[]]]; refine (NI "F" _ _ _ (containsb_chars _ _ O "F" _)); try discriminate; try reflexivity; left; reflexivity.
  - intros (w & Hw & O). apply containsb_spec in O. destruct Hw as [<-|[<-|[]]]; refine (NI "T" _ _ _ (containsb_chars _ _ O "T" _)); try discriminate; try reflexivity; left; reflexivity.
  - intros O. apply containsb_spec in O. refine (NI "N" _ _ _ (containsb_chars _ _ O "N" _)); try discriminate; try reflexivity; left; reflexivity.
  - apply NI; try discriminate; reflexivity.
  - apply NI'; try discriminate; reflexivity.
  - apply NI'; try discriminate; reflexivity.
Qed.
Lemma typer_exponent sign e a m b : dashes sign -> e = "e" \/ e = "E" -> digits a -> dashes m -> digits b ->
  let s := sign ++ a ++ e :: m ++ b in typer s = if float_regex s then lit literal_eval s else match py_int s with Some z => Ok (VInt z) | None => Exc ValueError end.
Proof.
  intros S E A M B s. destruct (exponent_wordless sign e a m b S E A M B) as (W & X & Y & Z). fold s in W, X, Y, Z. rewrite (typer_wordless s W).
  replace (list_check s) with false by (symmetry; apply Forall_false; rewrite list_check_spec; intros [I _]; exact (X I)).
  replace (tuple_check s) with false by (symmetry; apply Forall_false; rewrite tuple_check_spec; intros [I _]; exact (Y I)).
  replace (float_check s) with false by (symmetry; apply Forall_false; rewrite float_check_spec; exact Z). reflexivity.
Qed.
Theorem C59_exponents : forall e a m b, e = "e" \/ e = "E" -> digits a -> dashes m -> digits b ->
  typer (a ++ e :: m ++ b) = (l <- literal_eval (a ++ e :: m ++ b) ; Ok (VLit l))%res /\
  typer ("-" :: a ++ e :: m ++ b) = Exc ValueError.
Proof.
  intros e a m b E A M B. split.
  - pose proof (typer_exponent [] e a m b ltac:(intros c []) E A M B) as T. cbn [app] in T. rewrite T.
    replace (float_regex (a ++ e :: m ++ b)) with true; [reflexivity|]. symmetry. unfold float_regex. apply andb_true_iff. split.
    + destruct A as [A0 A]. destruct a as [|c a]; [contradiction|]. cbn. apply is_digit_spec, A. left. reflexivity.
    + rewrite skip_digits_app by (apply digits_is, A). assert (NE : is_digit e = false) by (destruct E as [-> | ->]; reflexivity). cbn [skip]. rewrite NE.
      apply andb_true_iff. split; [destruct E as [-> | ->]; reflexivity|].
      assert (S : forall l, dashes l -> skip (fun c => Ascii.eqb c "-") (l ++ b) = b).
      { induction l as [|c l IH]; intros H; cbn [app skip].
        - destruct B as [B0 B]. destruct b as [|c b]; [contradiction|]. cbn. destruct (Ascii.eqb_spec c "-") as [->|_]; [|reflexivity]. specialize (B _ (or_introl eq_refl)). unfold digit_char in B. cbn in B. lia.
        - rewrite (H c (or_introl eq_refl)), Ascii.eqb_refl. apply IH. intros x Hx. apply H. right. exact Hx. }
      rewrite (S m M). destruct B as [B0 B]. destruct b as [|c b]; [contradiction|]. cbn. apply is_digit_spec, B. left. reflexivity.
  - pose proof (typer_exponent ["-"] e a m b ltac:(intros c [<-|[]]; reflexivity) E A M B) as T. cbn [app] in T. rewrite T.
    replace (float_regex ("-" :: a ++ e :: m ++ b)) with false by reflexivity. cbn [py_int]. rewrite Ascii.eqb_refl.
    assert (G : forall l acc af, (forall c, In c l -> digit_char c) -> int_digits acc af (l ++ e :: m ++ b) = None).
    { induction l as [|c l IH]; intros acc af H; cbn [app int_digits].
      - destruct E as [-> | ->]; reflexivity.
      - assert (D : is_digit c = true) by (apply is_digit_spec, H; left; reflexivity). unfold is_digit in D. destruct (digit c) as [d|]; [|discriminate]. apply IH. intros x Hx. apply H. right. exact Hx. }
    rewrite G by (intros c Hc; apply (proj2 A), Hc). reflexivity.
Qed.
(** finding: unquoted words are errors *)
Lemma int_needs_digit c s : is_digit c = false -> c <> "-" -> c <> "+" -> c <> "_" -> py_int (c :: s) = None.
Proof.
  intros D A B C. unfold py_int. rewrite (proj2 (Ascii.eqb_neq c "-") A), (proj2 (Ascii.eqb_neq c "+") B). cbn [int_digits]. unfold is_digit in D. destruct (digit c); [discriminate|]. rewrite (proj2 (Ascii.eqb_neq c "_") C). reflexivity.
Qed.
Theorem C59_bare_words_raise : forall c s, letter_or_digit c -> ~ digit_char c -> wordless (c :: s) ->
  ~ In "." (c :: s) -> ~ In "[" (c :: s) -> ~ In "(" (c :: s) -> typer (c :: s) = Exc ValueError.
Proof.
  intros c s Hc Nd W X Y Z. rewrite (typer_wordless _ W).
  replace (list_check (c :: s)) with false by (symmetry; apply Forall_false; rewrite list_check_spec; intros [I _]; exact (Y I)).
  replace (tuple_check (c :: s)) with false by (symmetry; apply Forall_false; rewrite tuple_check_spec; intros [I _]; exact (Z I)).
  replace (float_check (c :: s)) with false by (symmetry; apply Forall_false; rewrite float_check_spec; exact X).
  assert (D : is_digit c = false) by (apply Forall_false; rewrite is_digit_spec; exact Nd).
  unfold float_regex. cbn [starts]. rewrite D. cbn [andb orb].
  rewrite int_needs_digit; [reflexivity|exact D| | |]; intros ->; unfold letter_or_digit in Hc; cbn in Hc; lia.
Qed.
(** ** findings about whole files *)
Variable fs : text -> option text.
Definition key_ok (k : text) : Prop := k <> [] /\ forall c, In c k -> plain c.
Lemma plain_not_newline k : (forall c, In c k -> plain c) -> forall c, In c k -> c <> newline.
Proof. intros H c Hc ->. specialize (H _ Hc). apply wordchar_spec in H. discriminate. Qed.
Lemma lex_key k s : key_ok k -> lex Space (k ++ str " = " ++ s) = emit k (emit ["="] (lex Space s)).
Proof.
  intros [K0 K]. destruct k as [|x k]; [contradiction|]. assert (X : wordchar x = true) by (apply wordchar_spec, K; left; reflexivity).
  cbn [app lex]. destruct (class_disjoint x (or_introl X)) as [-> ->]. rewrite X. rewrite lex_word by (intros y Hy; left; apply wordchar_spec, K; right; exact Hy). reflexivity.
Qed.
Lemma lex_plain_then w c s : w <> [] -> (forall x, In x w -> plain x) -> wordchar c = false -> quote c = false -> Ascii.eqb c "%" = false ->
  exists r, lex Space (w ++ c :: s) = emit w r.
Proof.
  intros W0 W C Q P. destruct w as [|x w]; [contradiction|]. assert (X : wordchar x = true) by (apply wordchar_spec, W; left; reflexivity).
  cbn [app lex]. destruct (class_disjoint x (or_introl X)) as [-> ->]. rewrite X. rewrite lex_word by (intros y Hy; left; apply wordchar_spec, W; right; exact Hy). cbn [app lex].
  rewrite P, C, Q. cbn [orb]. destruct (whitespace c); eexists; reflexivity.
Qed.
Lemma cut_value_raises path d k w c rest : fs path = Some (k ++ str " = " ++ w ++ c :: rest) -> key_ok k -> w <> [] -> (forall x, In x w -> plain x) ->
  wordchar c = false -> quote c = false -> Ascii.eqb c "%" = false -> typer w = Exc ValueError -> parse_inlist literal_eval fs path d = Exc ValueError.
Proof.
  intros F K W0 W C Q P T. unfold parse_inlist. rewrite F.
  assert (J : exists rest', joined_lines (k ++ str " = " ++ w ++ c :: rest) = k ++ str " = " ++ w ++ c :: rest').
  { rewrite joined_app by (apply plain_not_newline, K). rewrite joined_app by (intros x [<-|[<-|[<-|[]]]]; discriminate). rewrite joined_app by (apply plain_not_newline, W).
    cbn [joined_lines]. destruct (Ascii.eqb_spec c newline) as [->|_]; [|eexists; reflexivity]. destruct rest; eexists; reflexivity. }
  destruct J as [rest' ->]. rewrite lex_key by exact K. destruct (lex_plain_then w c rest' W0 W C Q P) as [r ->]. cbn [emit fst snd assign].
  cbn. rewrite T. reflexivity.
Qed.
(** finding: an explicit plus sign in an exponent makes reading the file fail *)
Theorem C59_plus_in_exponent_raises : forall path d k a rest, key_ok k -> digits a ->
  fs path = Some (k ++ str " = " ++ a ++ "e" :: "+" :: rest) -> parse_inlist literal_eval fs path d = Exc ValueError.
Proof.
  intros path d k a rest K A F. apply (cut_value_raises path d k (a ++ ["e"]) "+" rest); try reflexivity; try exact K.
  - rewrite F, <- app_assoc. reflexivity.
  - destruct a; discriminate.
  - intros x Hx. apply in_app_iff in Hx. left. destruct Hx as [Hx|[<-|[]]]; [|unfold letter_or_digit; cbn; lia]. pose proof (proj2 A x Hx) as H. unfold digit_char in H. unfold letter_or_digit. cbv zeta. lia.
  - assert (C : forall c, In c (a ++ ["e"]) -> digit_char c \/ c = "e") by (intros c Hc; apply in_app_iff in Hc; destruct Hc as [Hc|[<-|[]]]; [left; exact (proj2 A c Hc)|right; reflexivity]).
    assert (NI : forall c, ~ digit_char c -> c <> "e" -> ~ In c (a ++ ["e"])) by (intros c X Y I; destruct (C c I); contradiction).
    assert (W : wordless (a ++ ["e"])).
    { split; [|split; [|split]].
      - intros x Hx Q. unfold quotation, one_of in Q. cbn [In] in Q. refine (NI x _ _ Hx); [unfold digit_char; intros D; destruct Q as [Q|[Q|[]]]; lia|intros ->; destruct Q as [Q|[Q|[]]]; discriminate].
      - intros (w & Hw & O). apply containsb_spec in O. destruct Hw as [<-|[<-|[]]]; refine (NI "F" _ _ (containsb_chars _ _ O "F" _)); try discriminate; try (unfold digit_char; cbn; lia); left; reflexivity.
      - intros (w & Hw & O). apply containsb_spec in O. destruct Hw as [<-|[<-|[]]]; refine (NI "T" _ _ (containsb_chars _ _ O "T" _)); try discriminate; try (unfold digit_char; cbn; lia); left; reflexivity.
      - intros O. apply containsb_spec in O. refine (NI "N" _ _ (containsb_chars _ _ O "N" _)); try discriminate; try (unfold digit_char; cbn; lia); left; reflexivity. }
    rewrite (typer_wordless _ W).
    replace (list_check (a ++ ["e"])) with false by (symmetry; apply Forall_false; rewrite list_check_spec; intros [I _]; refine (NI _ _ _ I); [unfold digit_char; cbn; lia|discriminate]).
    replace (tuple_check (a ++ ["e"])) with false by (symmetry; apply Forall_false; rewrite tuple_check_spec; intros [I _]; refine (NI _ _ _ I); [unfold digit_char; cbn; lia|discriminate]).
    replace (float_check (a ++ ["e"])) with false by (symmetry; apply Forall_false; rewrite float_check_spec; apply NI; [unfold digit_char; cbn; lia|discriminate]).
    assert (R : float_regex (a ++ ["e"]) = false) by (unfold float_regex; rewrite skip_digits_app by (apply digits_is, A); cbn; apply andb_false_r). rewrite R. cbn [orb].
    assert (G : forall l acc af, (forall c, In c l -> digit_char c) -> int_digits acc af (l ++ ["e"]) = None).
    { induction l as [|c l IH]; intros acc af H; cbn [app int_digits]; [reflexivity|]. assert (D : is_digit c = true) by (apply is_digit_spec, H; left; reflexivity). unfold is_digit in D. destruct (digit c) as [z|]; [|discriminate]. apply IH. intros x Hx. apply H. right. exact Hx. }
    assert (PI : py_int (a ++ ["e"]) = None).
    { pose proof (G a 0%Z false (proj2 A)) as Ga. destruct A as [A0 A]. destruct a as [|c a]; [contradiction|]. assert (H := A c (or_introl eq_refl)). unfold digit_char in H. cbn [app] in Ga |- *. unfold py_int.
      destruct (Ascii.eqb_spec c "-") as [->|_]; [cbn in H; lia|]. destruct (Ascii.eqb_spec c "+") as [->|_]; [cbn in H; lia|]. exact Ga. }
    rewrite PI. reflexivity.
Qed.
(** finding: a blank inside a list of integers makes reading the file fail *)
Theorem C59_blank_in_list_raises : forall path d k z rest, key_ok k ->
  fs path = Some (k ++ str " = [" ++ decimal z ++ str ", " ++ rest) -> parse_inlist literal_eval fs path d = Exc ValueError.
Proof.
  intros path d k z rest K F. apply (cut_value_raises path d k ("[" :: decimal z ++ [","]) " " rest); try reflexivity; try exact K.
  - rewrite F. f_equal. f_equal. cbn [str list_ascii_of_string app]. rewrite <- app_assoc. reflexivity.
  - discriminate.
  - intros x [<-|Hx]; [right; unfold one_of; cbn; auto 10|]. apply in_app_iff in Hx. destruct Hx as [Hx|[<-|[]]]; [|right; unfold one_of; cbn; auto 10].
    destruct (decimal_chars z x Hx) as [H| ->]; [left; unfold digit_char in H; unfold letter_or_digit; cbv zeta; lia|right; unfold one_of; cbn; auto 10].
  - set (w := "[" :: decimal z ++ [","]).
    assert (C : forall c, In c w -> digit_char c \/ c = "-" \/ c = "[" \/ c = ",").
    { intros c [<-|Hc]; [auto|]. apply in_app_iff in Hc. destruct Hc as [Hc|[<-|[]]]; [|auto]. destruct (decimal_chars z c Hc); auto. }
    assert (NI : forall c, ~ digit_char c -> c <> "-" -> c <> "[" -> c <> "," -> ~ In c w) by (intros c A B D E I; destruct (C c I) as [H|[H|[H|H]]]; contradiction).
    assert (W : wordless w).
    { split; [|split; [|split]].
      - intros x Hx Q. unfold quotation, one_of in Q. cbn [In] in Q. refine (NI x _ _ _ _ Hx); [unfold digit_char; intros D; destruct Q as [Q|[Q|[]]]; lia|..]; intros ->; destruct Q as [Q|[Q|[]]]; discriminate.
      - intros (v & Hv & O). apply containsb_spec in O. destruct Hv as [<-|[<-|[]]]; refine (NI "F" _ _ _ _ (containsb_chars _ _ O "F" _)); try discriminate; try (unfold digit_char; cbn; lia); left; reflexivity.
      - intros (v & Hv & O). apply containsb_spec in O. destruct Hv as [<-|[<-|[]]]; refine (NI "T" _ _ _ _ (containsb_chars _ _ O "T" _)); try discriminate; try (unfold digit_char; cbn; lia); left; reflexivity.
      - intros O. apply containsb_spec in O. refine (NI "N" _ _ _ _ (containsb_chars _ _ O "N" _)); try discriminate; try (unfold digit_char; cbn; lia); left; reflexivity. }
    rewrite (typer_wordless _ W).
    replace (list_check w) with false by (symmetry; apply Forall_false; rewrite list_check_spec; intros [_ I]; refine (NI _ _ _ _ _ I); try discriminate; unfold digit_char; cbn; lia).
    replace (tuple_check w) with false by (symmetry; apply Forall_false; rewrite tuple_check_spec; intros [I _]; refine (NI _ _ _ _ _ I); try discriminate; unfold digit_char; cbn; lia).
    replace (float_check w) with false by (symmetry; apply Forall_false; rewrite float_check_spec; apply NI; try discriminate; unfold digit_char; cbn; lia).
    reflexivity.
Qed.
(** finding: a quoted string that spans several lines comes back with every line break doubled *)
Definition breaks_doubled (s : text) : text := flat_map (fun c => if Ascii.eqb c newline then [newline; newline] else [c]) s.
Theorem C59_line_breaks_in_strings_double : forall path k q s, key_ok k -> quotation q -> unquoted_text s -> ~ (In "[" s /\ In "]" s) ->
  fs path = Some (k ++ str " = " ++ q :: s ++ [q]) -> parse_inlist literal_eval fs path None = Ok (Some [(k, VStr (breaks_doubled s))]).
Proof.
  intros path k q s K Hq Hs NB F. unfold parse_inlist. rewrite F.
  assert (Qn : Ascii.eqb q newline = false) by (apply quote_spec in Hq; destruct (Ascii.eqb_spec q newline) as [->|_]; [discriminate|reflexivity]).
  assert (J : joined_lines (q :: s ++ [q]) = q :: breaks_doubled s ++ [q]).
  { cbn [joined_lines]. rewrite Qn. f_equal. clear -Qn. induction s as [|c s IH]; cbn [app joined_lines breaks_doubled flat_map]; [rewrite Qn; reflexivity|].
    fold (breaks_doubled s). destruct (Ascii.eqb_spec c newline) as [->|_].
    - destruct (s ++ [q]) as [|x r] eqn:E; [destruct s; discriminate|]. rewrite IH. reflexivity.
    - rewrite IH. reflexivity. }
  rewrite joined_app by (apply plain_not_newline, K). rewrite joined_app by (intros x [<-|[<-|[<-|[]]]]; discriminate). rewrite J, lex_key by exact K.
  assert (M : forall x, In x (breaks_doubled s) -> In x s).
  { intros x Hx. apply in_flat_map in Hx. destruct Hx as (c & Hc & Hx). destruct (Ascii.eqb_spec c newline) as [->|_]; [destruct Hx as [<-|[<-|[]]]; exact Hc|destruct Hx as [<-|[]]; exact Hc]. }
  assert (Q : quote q = true) by (apply quote_spec; exact Hq). cbn [lex]. destruct (class_disjoint q (or_intror Q)) as [-> ->]. rewrite (quote_not_word q Q), Q.
  rewrite lex_quoted by (intros X; exact (Hs q (M q X) Hq)). cbn [lex emit fst snd app assign].
  rewrite C59_quoted_strings; [reflexivity|exact Hq|intros x Hx; exact (Hs x (M x Hx))|]. intros [A B]. apply NB. split; apply M; assumption.
Qed.
End Types.

(** the hypotheses of the C58 and C59 theorems are met by ordinary files: a user inlist with a comment, a tab,
    an override, a repeated keyword, and a defaults file *)
Definition ex_path := str "run/user/solve.in".
Definition ex_user := [Empty [] (Some (str " the parent"));
  Assign (Assignment (str " ") (str "nmodes") (str " ") (str " ") (str "3") [] None);
  Assign (Assignment [] (str "verbose") (str " ") ["009"%char] (str "True") (str " ") (Some (str " comment")));
  Assign (Assignment [] (str "nmodes") [] [] (str "-12") [] None)].
Definition ex_defs := [Assign (Assignment [] (str "nmodes") (str " ") (str " ") (str "1") [] None);
  Assign (Assignment [] (str "base_dir") (str " ") (str " ") (squote :: str "a dir (x)" ++ [squote]) [] None)].
Definition ex_fs (q : text) : option text :=
  if text_eqb q ex_path then Some (file_text ex_user true)
  else if text_eqb q (str "run/defaults/solve.defaults") then Some (file_text ex_defs false) else None.
Definition ex_eval (s : text) : res text := Ok s.
Lemma ex_lines_ok : forall l, In l ex_user \/ In l ex_defs -> line_ok l.
Proof.
  assert (P : forall s, forallb wordchar s = true -> forall x, In x s -> plain x) by (intros s H x Hx; apply wordchar_spec; exact (proj1 (forallb_forall _ _) H x Hx)).
  intros l H. cbn in H. destruct H as [[<-|[<-|[<-|[<-|[]]]]]|[<-|[<-|[]]]]; cbn [line_ok indent keyword before_eq after_eq written_value trailing comment comment_ok].
  - split; [intros x []|]. intros x Hx E. cbn in Hx. repeat (destruct Hx as [<-|Hx]; [discriminate|]). destruct Hx.
  - repeat split; try discriminate; try (apply P; reflexivity); try (intros x Hx; cbn in Hx; repeat (destruct Hx as [<-|Hx]; [left; reflexivity|]); destruct Hx).
    apply unquoted; [apply (P (str "3")); [reflexivity|left; reflexivity]|intros x []].
  - repeat split; try discriminate; try (apply P; reflexivity); try (intros x Hx; cbn in Hx; repeat (destruct Hx as [<-|Hx]; [cbn; auto|]); destruct Hx).
    + apply unquoted; [apply (P (str "True")); [reflexivity|left; reflexivity]|]. intros x Hx. left. apply (P (str "rue")); [reflexivity|exact Hx].
    + intros x Hx E. cbn in Hx. repeat (destruct Hx as [<-|Hx]; [discriminate|]). destruct Hx.
  - repeat split; try discriminate; try (apply P; reflexivity); try (intros x []).
    apply unquoted; [apply (P (str "-12")); [reflexivity|left; reflexivity]|]. intros x Hx. left. apply (P (str "12")); [reflexivity|exact Hx].
  - repeat split; try discriminate; try (apply P; reflexivity); try (intros x Hx; cbn in Hx; repeat (destruct Hx as [<-|Hx]; [left; reflexivity|]); destruct Hx).
    apply unquoted; [apply (P (str "1")); [reflexivity|left; reflexivity]|intros x []].
  - repeat split; try discriminate; try (apply P; reflexivity); try (intros x Hx; cbn in Hx; repeat (destruct Hx as [<-|Hx]; [left; reflexivity|]); destruct Hx).
    apply (quoted squote (str "a dir (x)")); [left; reflexivity|]. intros x Hx. cbn in Hx. repeat (destruct Hx as [<-|Hx]; [split; [discriminate|intros E; discriminate]|]); destruct Hx.
Qed.
Example C58_example :
  get_inlist_values ex_eval ex_fs ex_path = Ok (Some [(str "nmodes", VInt (-12)); (str "base_dir", VStr (str "a dir (x)")); (str "verbose", VBool true)]).
Proof. vm_compute. reflexivity. Qed.
Example C58_example_from_theorem : exists d, get_inlist_values ex_eval ex_fs ex_path = Ok (Some d) /\
  dget d (str "nmodes") = Some (VInt (-12)).
Proof.
  destruct (C58_user_values_override_defaults ex_eval ex_fs (str "run") (str "user") (str "solve") (str "in") ex_user ex_defs true false) as (d & D & H).
  all: try (vm_compute; reflexivity).
  all: try (unfold no_char; intros Hx; cbn in Hx; repeat (destruct Hx as [Hx|Hx]; [discriminate Hx|]); destruct Hx; fail).
  all: try (intros x Hx; cbn in Hx; repeat (destruct Hx as [<-|Hx]; [discriminate|]); destruct Hx; fail).
  all: try exact ex_lines_ok.
  - intros a [Ha|Ha]; cbn in Ha; repeat (destruct Ha as [Ha|Ha]; [try discriminate; injection Ha as <-; eexists; vm_compute; reflexivity|]); destruct Ha.
  - exists d. split; [exact D|]. destruct (H (str "nmodes")) as (A & _). destruct (A (str "-12")) as (x & X & Y).
    + exists (firstn 3 ex_user), (Assignment [] (str "nmodes") [] [] (str "-12") [] None), []. repeat split. intros b [].
    + rewrite Y. vm_compute in X. injection X as <-. reflexivity.
Qed.
Example C59_example : map (Inlist_Model.typer ex_eval) [str "-120"; squote :: str "True" ++ [squote]; str "1.5"; str "(1,2)"; str "1e-5"; str "-1e-5"; str "[True,False]"; str "solve"]
  = [Ok (VInt (-120)); Ok (VStr (str "True")); Ok (VLit (str "1.5")); Ok (VLit (str "(1,2)")); Ok (VLit (str "1e-5")); Exc ValueError; Ok (VBool false); Exc ValueError].
Proof. vm_compute. reflexivity. Qed.
