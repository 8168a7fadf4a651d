(** * Lemmas on the loader model: the backtracking matcher, directories, reading. *)
From Coq Require Import List ZArith Lia Reals String Ascii Bool Permutation.
From Verif Require Import Base Py Load_Model Load_Spec.
Import ListNotations.
Local Open Scope list_scope.

(** ** The matcher *)
Lemma hd_error_app {A} (l1 l2 : list A) : hd_error (l1 ++ l2) = match hd_error l1 with Some x => Some x | None => hd_error l2 end.
Proof. destruct l1; reflexivity. Qed.
Lemma hd_error_None {A} (l : list A) : hd_error l = None <-> l = [].
Proof. destruct l; cbn; split; congruence. Qed.
Lemma flat_map_map {A B D} (f : B -> list D) (g : A -> B) l : flat_map f (map g l) = flat_map (fun x => f (g x)) l.
Proof. induction l as [|x l IH]; cbn; [reflexivity|]. rewrite IH. reflexivity. Qed.
Lemma flat_map_nil {A B} (f : A -> list B) l : (forall x, In x l -> f x = []) -> flat_map f l = [].
Proof. induction l as [|x l IH]; intros H; [reflexivity|]. cbn. rewrite H by (left; reflexivity). rewrite IH by (intros; apply H; right; assumption). reflexivity. Qed.
Lemma greedy_in p s a b : In (a, b) (greedy p s) -> s = a ++ b /\ forallb p a = true.
Proof.
  revert a b. induction s as [|c s IH]; intros a b H; cbn in H.
  - destruct H as [H|[]]. injection H as <- <-. split; reflexivity.
  - destruct (p c) eqn:Pc.
    + apply in_app_or in H. destruct H as [H|[H|[]]].
      * apply in_map_iff in H. destruct H as ((a0 & b0) & E & I). cbn in E. injection E as <- <-. destruct (IH _ _ I) as [-> F]. split; [reflexivity|]. cbn. rewrite Pc. exact F.
      * injection H as <- <-. split; reflexivity.
    + destruct H as [H|[]]. injection H as <- <-. split; reflexivity.
Qed.
(** a greedy star takes the longest prefix after which the rest of the pattern succeeds *)
Lemma star_first {D} p (k : text -> list D) s x :
  hd_error (flat_map (fun ab => k (snd ab)) (greedy p s)) = Some x <->
  exists a b, s = a ++ b /\ forallb p a = true /\ hd_error (k b) = Some x /\
    forall a' b', s = a' ++ b' -> forallb p a' = true -> k b' <> [] -> (List.length a' <= List.length a)%nat.
Proof.
  revert x. induction s as [|c s IH]; intros x.
  - cbn. rewrite app_nil_r. split.
    + intros H. exists [], []. repeat split; try assumption. intros a' b' E _ _. symmetry in E. apply app_eq_nil in E. destruct E as [-> _]. cbn. lia.
    + intros (a & b & E & _ & H & _). symmetry in E. apply app_eq_nil in E. destruct E as [-> ->]. exact H.
  - cbn [greedy]. destruct (p c) eqn:Pc.
    + rewrite flat_map_app, flat_map_map, hd_error_app. cbn [fst snd flat_map]. rewrite app_nil_r. match goal with |- match ?u with _ => _ end = _ <-> _ => change u with (hd_error (flat_map (fun ab => k (snd ab)) (greedy p s))) end.
      destruct (hd_error (flat_map (fun ab => k (snd ab)) (greedy p s))) as [y|] eqn:E; cbv beta iota.
      * destruct (proj1 (IH y) eq_refl) as (a & b & S & F & K & M). split.
        -- intros H. injection H as <-. exists (c :: a), b. split; [cbn; rewrite S; reflexivity|]. split; [cbn; rewrite Pc; exact F|]. split; [exact K|].
           intros [|c' a'] b' S' F' K'; cbn; [lia|]. cbn in S', F'. injection S' as -> S'. apply andb_prop in F'. pose proof (M a' b' S' (proj2 F') K'). lia.
        -- intros (a2 & b2 & S2 & F2 & K2 & M2). destruct a2 as [|c2 a2].
           ++ exfalso. cbn in S2. subst b2. assert (L : (List.length (c :: a) <= 0)%nat).
              { apply (M2 (c :: a) b); [cbn; rewrite S; reflexivity|cbn; rewrite Pc; exact F|]. intros Z. rewrite Z in K. discriminate. } cbn in L. lia.
           ++ cbn in S2, F2. injection S2 as -> S2. apply andb_prop in F2. pose proof (M a2 b2 S2 (proj2 F2)) as L1.
              assert (L1' : (List.length a2 <= List.length a)%nat) by (apply L1; intros Z; rewrite Z in K2; discriminate).
              assert (L2 : (List.length (c2 :: a) <= List.length (c2 :: a2))%nat).
              { apply (M2 (c2 :: a) b); [cbn; rewrite S; reflexivity|cbn; rewrite Pc; exact F|]. intros Z. rewrite Z in K. discriminate. }
              cbn in L2. assert (EL : List.length a = List.length a2) by lia.
              rewrite S in S2. assert (a = a2 /\ b = b2) as [-> ->].
              { clear - S2 EL. revert a2 S2 EL. induction a as [|z a IHa]; intros [|z2 a2] S2 EL; cbn in *; try lia; [split; [reflexivity|exact S2]|].
                injection S2 as -> S2. destruct (IHa a2 S2) as [-> ->]; [lia|]. split; reflexivity. }
              rewrite K in K2. exact K2.
      * split.
        -- intros H. exists [], (c :: s). split; [reflexivity|]. split; [reflexivity|]. split; [exact H|]. intros a' b' S' F' K'.
           destruct a' as [|c' a']; [cbn; lia|]. exfalso. cbn in S', F'. injection S' as -> S'. apply andb_prop in F'.
           apply hd_error_None in E. destruct (k b') as [|y ys] eqn:Kb; [congruence|].
           assert (I : In (a', b') (greedy p s)).
           { clear - S' F'. destruct F' as [_ F']. revert a' b' S' F'. induction s as [|d s IHs]; intros a' b' S' F'.
             - destruct a'; [|discriminate]. cbn in S'. subst. left. reflexivity.
             - destruct a' as [|e a']; cbn [greedy].
               + cbn in S'. subst b'. destruct (p d); [apply in_or_app; right; left; reflexivity|left; reflexivity].
               + cbn in S', F'. injection S' as -> S'. apply andb_prop in F'. rewrite (proj1 F'). apply in_or_app. left. apply in_map_iff. exists (a', b'). split; [reflexivity|]. apply IHs; [exact S'|apply F']. }
           assert (Z : In y (flat_map (fun ab => k (snd ab)) (greedy p s))) by (apply in_flat_map; exists (a', b'); split; [exact I|cbn; rewrite Kb; left; reflexivity]).
           rewrite E in Z. destruct Z.
        -- intros (a2 & b2 & S2 & F2 & K2 & M2). destruct a2 as [|c2 a2]; [cbn in S2; subst b2; exact K2|]. exfalso. cbn in S2, F2. injection S2 as -> S2. apply andb_prop in F2.
           assert (X : exists y, hd_error (flat_map (fun ab => k (snd ab)) (greedy p s)) = Some y).
           { destruct (flat_map (fun ab => k (snd ab)) (greedy p s)) as [|y ys] eqn:Z; [|exists y; reflexivity]. exfalso.
             assert (I : In (a2, b2) (greedy p s)).
             { clear - S2 F2. destruct F2 as [_ F']. rename S2 into S'. revert a2 b2 S' F'. induction s as [|d s IHs]; intros a' b' S' F'.
               - destruct a'; [|discriminate]. cbn in S'. subst. left. reflexivity.
               - destruct a' as [|e a']; cbn [greedy].
                 + cbn in S'. subst b'. destruct (p d); [apply in_or_app; right; left; reflexivity|left; reflexivity].
                 + cbn in S', F'. injection S' as -> S'. apply andb_prop in F'. rewrite (proj1 F'). apply in_or_app. left. apply in_map_iff. exists (a', b'). split; [reflexivity|]. apply IHs; [exact S'|apply F']. }
             destruct (k b2) as [|w ws] eqn:Kb; [discriminate|].
             assert (W : In w (flat_map (fun ab => k (snd ab)) (greedy p s))) by (apply in_flat_map; exists (a2, b2); split; [exact I|cbn; rewrite Kb; left; reflexivity]).
             rewrite Z in W. destruct W. }
           destruct X as [y X]. rewrite X in E. discriminate.
    + cbn [flat_map fst snd]. rewrite app_nil_r. split.
      * intros H. exists [], (c :: s). split; [reflexivity|]. split; [reflexivity|]. split; [exact H|]. intros [|c' a'] b' S' F' _; [cbn; lia|].
        cbn in S', F'. injection S' as -> S'. rewrite Pc in F'. discriminate.
      * intros (a & b & S & F & K & _). destruct a as [|c' a]; [cbn in S; subst; exact K|]. cbn in S, F. injection S as -> S. rewrite Pc in F. discriminate.
Qed.
Lemma greedy_head p s : exists a b, hd_error (greedy p s) = Some (a, b) /\ s = a ++ b /\ forallb p a = true /\ match b with c :: _ => p c = false | [] => True end.
Proof.
  induction s as [|c s (a & b & H & S & F & N)]; [exists [], []; repeat split|]. cbn [greedy]. destruct (p c) eqn:Pc.
  - exists (c :: a), b. rewrite hd_error_app. destruct (greedy p s) as [|x xs]; [discriminate|]. cbn in *. injection H as ->. cbn. rewrite Pc, S. repeat split; assumption.
  - exists [], (c :: s). repeat split. exact Pc.
Qed.
Lemma rmatch_dotstar s : exists gs, rmatch [IStar dot] s = [] :: gs.
Proof.
  cbn. destruct (greedy_head dot s) as (a & b & H & _). destruct (greedy dot s) as [|x xs]; [discriminate|]. cbn. eexists. reflexivity.
Qed.
(** digits, then anything: fails unless the text starts with a digit, else the first success captures all the digits *)
Lemma rmatch_number s : match s with c :: _ => digit c = true | [] => False end ->
  exists ds post, hd_error (rmatch [IPlus digit true; IStar dot] s) = Some [ds] /\ s = ds ++ post /\ number ds /\ ~ starts_digit post.
Proof.
  intros D. destruct (greedy_head digit s) as (a & b & H & S & F & N). assert (NE : a <> []).
  { intros ->. cbn in S. subst b. destruct s as [|c s]; [destruct D|]. rewrite N in D. discriminate. }
  exists a, b. split; [|split; [exact S|split; [split; [exact NE|exact F]|]]].
  - cbn [rmatch splits]. destruct (greedy digit s) as [|x xs]; [discriminate|]. cbn in H. injection H as ->. cbn [filter fst]. destruct a as [|c a]; [congruence|].
    cbn [flat_map fst snd]. destruct (rmatch_dotstar b) as [gs G]. match goal with |- context [flat_map ?f (greedy dot b)] => change (flat_map f (greedy dot b)) with (rmatch [IStar dot] b) end. rewrite G. reflexivity.
  - destruct b as [|c b]; [intros []|]. cbn. rewrite N. discriminate.
Qed.
Lemma rmatch_number_none s : ~ starts_digit s -> rmatch [IPlus digit true; IStar dot] s = [].
Proof.
  intros D. cbn [rmatch splits]. destruct s as [|c s]; [reflexivity|]. cbn [greedy]. cbn in D. destruct (digit c); [exfalso; apply D; reflexivity|]. reflexivity.
Qed.
Lemma no_newline_dot s : no_newline s -> forallb dot s = true.
Proof.
  intros H. apply forallb_forall. intros c I. unfold dot. destruct (Ascii.eqb_spec c "010"); [subst; contradiction|reflexivity].
Qed.
Lemma no_newline_app a b : no_newline (a ++ b) <-> no_newline a /\ no_newline b.
Proof. unfold no_newline. rewrite in_app_iff. tauto. Qed.

(** literal tags *)
Fixpoint lits (t : text) : list item := match t with [] => [] | c :: t' => lit c :: lits t' end.
Lemma rmatch_lits t pat s : rmatch (lits t ++ pat) s = match strip t s with Some r => rmatch pat r | None => [] end.
Proof.
  revert s. induction t as [|c t IH]; intros s; [destruct s; reflexivity|]. cbn [lits app rmatch]. destruct s as [|d s]; [reflexivity|]. cbn [strip]. unfold lit. cbn [splits].
  destruct (Ascii.eqb c d); [|reflexivity]. cbn [flat_map fst snd captured]. rewrite app_nil_r, IH. cbn. apply map_id.
Qed.
Lemma strip_some w s r : strip w s = Some r <-> s = w ++ r.
Proof.
  revert s. induction w as [|c w IH]; intros s.
  - destruct s; cbn; split; congruence.
  - destruct s as [|d s]; cbn; [split; discriminate|]. destruct (Ascii.eqb_spec c d) as [->|N]; [rewrite IH; split; congruence|]. split; [discriminate|]. intros E. injection E as -> _. congruence.
Qed.
Definition pat_tag (t : text) : list item := IStar dot :: lits t ++ [IPlus digit true; IStar dot].
Lemma pat_l_eq : pat_l = pat_tag ["l"%char]. Proof. reflexivity. Qed.
Lemma pat_n_eq : pat_n = pat_tag ["n"%char; "+"%char]. Proof. reflexivity. Qed.
Lemma re_match_star pat s x : re_match (IStar dot :: pat) s = Some x <->
  exists a b, s = a ++ b /\ forallb dot a = true /\ hd_error (rmatch pat b) = Some x /\
    forall a' b', s = a' ++ b' -> forallb dot a' = true -> rmatch pat b' <> [] -> (List.length a' <= List.length a)%nat.
Proof.
  unfold re_match. cbn [rmatch splits captured]. rewrite <- star_first. apply eq_iff_eq_true || idtac.
  match goal with |- hd_error ?u = _ <-> hd_error ?v = _ => replace u with v; [tauto|] end.
  apply flat_map_ext. intros ab. symmetry. apply map_id.
Qed.
Lemma tag_rest t s : match strip t s with
  | Some r => (starts_digit r -> exists ds post, hd_error (rmatch (lits t ++ [IPlus digit true; IStar dot]) s) = Some [ds] /\ s = t ++ ds ++ post /\ number ds /\ ~ starts_digit post) /\
              (~ starts_digit r -> rmatch (lits t ++ [IPlus digit true; IStar dot]) s = [])
  | None => rmatch (lits t ++ [IPlus digit true; IStar dot]) s = []
  end.
Proof.
  rewrite rmatch_lits. destruct (strip t s) as [r|] eqn:E; [|reflexivity]. apply strip_some in E. split.
  - intros D. destruct (rmatch_number r D) as (ds & post & H & -> & N & P). exists ds, post. rewrite H. repeat split; try apply N; [exact E|exact P].
  - intros D. apply rmatch_number_none, D.
Qed.
Lemma digit_dec_starts s : starts_digit s \/ ~ starts_digit s.
Proof. destruct s as [|c s]; cbn; [tauto|]. destruct (digit c); [left; reflexivity|right; discriminate]. Qed.
Lemma re_tag t s v : no_newline s -> (exists ds rest, re_match (pat_tag t) s = Some (ds :: rest) /\ int_of ds = v) <-> last_number t s v.
Proof.
  intros NN. split.
  - intros (ds & rest & H & V). apply re_match_star in H. destruct H as (a & b & S & F & K & M).
    pose proof (tag_rest t b) as T. destruct (strip t b) as [r|] eqn:E; [|rewrite T in K; discriminate]. destruct T as [T1 T2].
    destruct (digit_dec_starts r) as [D|D]; [|rewrite (T2 D) in K; discriminate]. destruct (T1 D) as (ds' & post & K' & B & N & P). rewrite K' in K. injection K as <- <-.
    exists a, ds', post. split; [rewrite S, B; reflexivity|]. split; [apply N|]. split; [apply N|]. split; [exact P|]. split; [symmetry; exact V|].
    intros pre' post' S' D'. apply (M pre' (t ++ post') S').
    + apply no_newline_dot. rewrite S' in NN. apply no_newline_app in NN. apply NN.
    + pose proof (tag_rest t (t ++ post')) as T. rewrite (proj2 (strip_some t (t ++ post') post') eq_refl) in T. destruct (proj1 T D') as (d1 & p1 & Kd & _). intros Z. rewrite Z in Kd. discriminate.
  - intros (pre & ds & post & S & NE & F & P & V & M).
    assert (SD : starts_digit (ds ++ post)) by (destruct ds as [|c ds]; [congruence|]; cbn in *; apply andb_prop in F; apply F).
    assert (X : exists x, re_match (pat_tag t) s = Some x /\ True).
    { pose proof (tag_rest t (t ++ ds ++ post)) as T. rewrite (proj2 (strip_some t (t ++ ds ++ post) _) eq_refl) in T. destruct (proj1 T SD) as (d1 & p1 & Kd & B & N1 & P1).
      exists [d1]. split; [|exact I]. apply re_match_star. exists pre, (t ++ ds ++ post). split; [exact S|]. split; [apply no_newline_dot; rewrite S in NN; apply no_newline_app in NN; apply NN|].
      split; [exact Kd|]. intros a' b' S' F' K'. pose proof (tag_rest t b') as T'. destruct (strip t b') as [r|] eqn:E; [|contradiction]. apply strip_some in E. subst b'.
      destruct (digit_dec_starts r) as [D|D]; [|exfalso; apply K', (proj2 T' D)]. apply (M a' r S' D). }
    destruct X as (x & X & _). pose proof X as X0. apply re_match_star in X. destruct X as (a & b & S2 & F2 & K & M2).
    pose proof (tag_rest t b) as T. destruct (strip t b) as [r|] eqn:E; [|rewrite T in K; discriminate]. destruct T as [T1 T2].
    destruct (digit_dec_starts r) as [D|D]; [|rewrite (T2 D) in K; discriminate]. destruct (T1 D) as (d1 & p1 & K1 & B & N1 & P1). rewrite K1 in K. injection K as <-.
    exists d1, []. split; [exact X0|]. apply strip_some in E.
    (* the two decompositions coincide *)
    assert (L1 : (List.length a <= List.length pre)%nat) by (apply (M a r); [rewrite S2, E; reflexivity|exact D]).
    assert (L2 : (List.length pre <= List.length a)%nat).
    { apply (M2 pre (t ++ ds ++ post) S); [apply no_newline_dot; rewrite S in NN; apply no_newline_app in NN; apply NN|].
      pose proof (tag_rest t (t ++ ds ++ post)) as T. rewrite (proj2 (strip_some t (t ++ ds ++ post) _) eq_refl) in T. destruct (proj1 T SD) as (d3 & p3 & Kd & _). intros Z. rewrite Z in Kd. discriminate. }
    assert (EL : List.length a = List.length pre) by lia. rewrite S2, B in S.
    assert (APP : forall (u1 u2 v1 v2 : text), List.length u1 = List.length u2 -> u1 ++ v1 = u2 ++ v2 -> u1 = u2 /\ v1 = v2).
    { clear. induction u1 as [|z u1 IH]; intros [|z2 u2] v1 v2 L Q; cbn in *; try lia; [split; [reflexivity|exact Q]|]. injection Q as -> Q. destruct (IH u2 v1 v2 ltac:(lia) Q) as [-> ->]. split; reflexivity. }
    destruct (APP _ _ _ _ EL S) as [_ S3]. apply app_inv_head in S3.
    assert (MAX : forall x1 y1 x2 y2, forallb digit x1 = true -> forallb digit x2 = true -> ~ starts_digit y1 -> ~ starts_digit y2 -> x1 ++ y1 = x2 ++ y2 -> x1 = x2).
    { clear. induction x1 as [|c x1 IH]; intros y1 [|d x2] y2 F1 F2 N1 N2 Q; cbn in *; [reflexivity| | |].
      - exfalso. apply N1. rewrite Q. cbn. apply andb_prop in F2. apply F2.
      - exfalso. apply N2. rewrite <- Q. cbn. apply andb_prop in F1. apply F1.
      - injection Q as -> Q. apply andb_prop in F1, F2. f_equal. apply (IH y1 x2 y2); [apply F1|apply F2|assumption|assumption|exact Q]. }
    rewrite (MAX d1 p1 ds post (proj2 N1) F P1 P S3). symmetry. exact V.
Qed.

Lemma app_split (u1 u2 v1 v2 : text) : List.length u1 = List.length u2 -> u1 ++ v1 = u2 ++ v2 -> u1 = u2 /\ v1 = v2.
Proof.
  revert u2. induction u1 as [|z u1 IH]; intros [|z2 u2] L Q; cbn in *; try lia; [split; [reflexivity|exact Q]|]. injection Q as -> Q. destruct (IH u2 ltac:(lia) Q) as [-> ->]. split; reflexivity.
Qed.
Lemma digits_max x1 y1 x2 y2 : forallb digit x1 = true -> forallb digit x2 = true -> ~ starts_digit y1 -> ~ starts_digit y2 -> x1 ++ y1 = x2 ++ y2 -> x1 = x2.
Proof.
  revert x2. induction x1 as [|c x1 IH]; intros [|d x2] F1 F2 N1 N2 Q; cbn in *; [reflexivity| | |].
  - exfalso. apply N1. rewrite Q. cbn. apply andb_prop in F2. apply F2.
  - exfalso. apply N2. rewrite <- Q. cbn. apply andb_prop in F1. apply F1.
  - injection Q as -> Q. apply andb_prop in F1, F2. f_equal. apply (IH x2); [apply F1|apply F2|assumption|assumption|exact Q].
Qed.
(** the azimuthal pattern *)
Definition m_rest : list item := [lit "m"; ISet sign_class true; IPlus digit true; IStar dot].
Lemma sign_class_in c : sign_class c = true <-> In c ["+"; "|"; "-"]%char.
Proof.
  unfold sign_class. rewrite !orb_true_iff, !Ascii.eqb_eq. cbn. intuition congruence.
Qed.
Lemma rmatch_set p cap pat s : rmatch (ISet p cap :: pat) s = match s with c :: r => if p c then map (fun gs => if cap then [c] :: gs else gs) (rmatch pat r) else [] | [] => [] end.
Proof. destruct s as [|c r]; [reflexivity|]. cbn [rmatch splits]. destruct (p c); [|reflexivity]. cbn [flat_map fst snd captured]. apply app_nil_r. Qed.
Lemma m_rest_eq s : rmatch m_rest s = match s with "m"%char :: c :: r => if sign_class c then map (fun gs => [c] :: gs) (rmatch [IPlus digit true; IStar dot] r) else [] | _ => [] end.
Proof.
  unfold m_rest, lit. rewrite rmatch_set. destruct s as [|c0 s]; [reflexivity|]. destruct (Ascii.eqb_spec "m" c0) as [<-|N].
  - rewrite map_id, rmatch_set. destruct s; reflexivity.
  - destruct c0 as [[] [] [] [] [] [] [] []]; try reflexivity. congruence.
Qed.
Lemma m_rest_ok c ds0 : sign_class c = true -> starts_digit ds0 ->
  exists ds post, hd_error (rmatch m_rest ("m"%char :: c :: ds0)) = Some [[c]; ds] /\ ds0 = ds ++ post /\ number ds /\ ~ starts_digit post.
Proof.
  intros S D. destruct (rmatch_number ds0 D) as (ds & post & H & E & N & P). exists ds, post. split; [|tauto].
  rewrite m_rest_eq, S. destruct (rmatch [IPlus digit true; IStar dot] ds0) as [|x xs]; [discriminate|]. cbn in H. injection H as ->. reflexivity.
Qed.
Lemma m_rest_inv b : rmatch m_rest b <> [] -> exists c r, b = "m"%char :: c :: r /\ sign_class c = true /\ starts_digit r.
Proof.
  intros H. unfold m_rest, lit in H. rewrite rmatch_set in H. destruct b as [|c0 b]; [congruence|]. destruct (Ascii.eqb_spec "m" c0) as [<-|]; [|congruence].
  rewrite map_id, rmatch_set in H. destruct b as [|c b]; [congruence|]. destruct (sign_class c) eqn:S; [|congruence]. exists c, b. split; [reflexivity|]. split; [exact S|].
  destruct (digit_dec_starts b) as [D|D]; [exact D|]. exfalso. apply H. rewrite (rmatch_number_none b D). reflexivity.
Qed.
Lemma re_m s v : no_newline s ->
  (exists sg ds rest, re_match pat_m s = Some (sg :: ds :: rest) /\ v = (if list_eq_dec ascii_dec sg ["+"%char] then int_of ds else (-1) * int_of ds)%Z) <-> last_signed s v.
Proof.
  intros NN. change pat_m with (IStar dot :: m_rest). split.
  - intros (sg & ds & rest & H & V). apply re_match_star in H. destruct H as (a & b & S & F & K & M).
    destruct (m_rest_inv b) as (c & r & B & SC & D); [intros Z; rewrite Z in K; discriminate|]. subst b.
    destruct (m_rest_ok c r SC D) as (ds' & post & K' & E & N & P). rewrite K' in K. injection K as <- <- <-.
    exists a, c, ds', post. split; [rewrite S, E; reflexivity|]. split; [apply sign_class_in, SC|]. split; [apply N|]. split; [apply N|]. split; [exact P|]. split.
    + rewrite V. destruct (list_eq_dec ascii_dec [c] ["+"%char]) as [Q|Q]; destruct (Ascii.eqb_spec c "+") as [Q'|Q']; try congruence; lia.
    + intros pre' sg' post' S' I' D'. apply (M pre' ("m"%char :: sg' :: post') S').
      * apply no_newline_dot. rewrite S' in NN. apply no_newline_app in NN. apply NN.
      * apply sign_class_in in I'. destruct (m_rest_ok sg' post' I' D') as (d1 & p1 & Kd & _). intros Z. rewrite Z in Kd. discriminate.
  - intros (pre & sg & ds & post & S & I & NE & F & P & V & M). apply sign_class_in in I.
    assert (SD : starts_digit (ds ++ post)) by (destruct ds as [|c ds]; [congruence|]; cbn in *; apply andb_prop in F; apply F).
    destruct (m_rest_ok sg (ds ++ post) I SD) as (d1 & p1 & Kd & E & N1 & P1). rewrite (digits_max ds post d1 p1 F (proj2 N1) P P1 E) in V.
    exists [sg], d1, []. split.
    + apply re_match_star. exists pre, ("m"%char :: sg :: ds ++ post). split; [exact S|]. split; [apply no_newline_dot; rewrite S in NN; apply no_newline_app in NN; apply NN|].
      split; [exact Kd|]. intros a' b' S' F' K'. destruct (m_rest_inv b' K') as (c & r & -> & SC & D). apply (M a' c r S'); [apply sign_class_in, SC|exact D].
    + rewrite V. destruct (list_eq_dec ascii_dec [sg] ["+"%char]) as [Q|Q]; destruct (Ascii.eqb_spec sg "+") as [Q'|Q']; try congruence; lia.
Qed.
(** substrings *)
Lemma contains_occurs w s : contains w s = true <-> occurs w s.
Proof.
  induction s as [|c s IH]; cbn [contains].
  - destruct (strip w []) as [r|] eqn:E.
    + split; [intros _|reflexivity]. apply strip_some in E. exists [], r. exact E.
    + split; [discriminate|]. intros (a & b & H). symmetry in H. apply app_eq_nil in H. destruct H as [_ H]. symmetry in H. apply strip_some in H. congruence.
  - destruct (strip w (c :: s)) as [r|] eqn:E.
    + split; [intros _|reflexivity]. apply strip_some in E. exists [], r. exact E.
    + rewrite IH. split.
      * intros (a & b & H). exists (c :: a), b. rewrite H. reflexivity.
      * intros (a & b & H). destruct a as [|c' a]; [cbn in H; apply strip_some in H; congruence|]. cbn in H. injection H as _ H. exists a, b. exact H.
Qed.
Lemma is_in_occurs w name : is_in w name = true <-> occurs (txt w) (txt name).
Proof. apply contains_occurs. Qed.
(** the mode word *)
Lemma re_word w s : no_newline s -> ((exists x, re_match [IStar dot; IAlt [w] true; IStar dot] s = Some x) <-> occurs w s) /\
  forall x, re_match [IStar dot; IAlt [w] true; IStar dot] s = Some x -> x = [w].
Proof.
  intros NN. assert (R : forall b, match strip w b with Some r => hd_error (rmatch [IAlt [w] true; IStar dot] b) = Some [w] | None => rmatch [IAlt [w] true; IStar dot] b = [] end).
  { intros b. cbn [rmatch splits flat_map]. destruct (strip w b) as [r|]; [|reflexivity]. cbn [app flat_map fst snd captured].
    match goal with |- context [flat_map ?f (greedy dot r)] => change (flat_map f (greedy dot r)) with (rmatch [IStar dot] r) end.
    destruct (rmatch_dotstar r) as [gs G]. rewrite G. reflexivity. }
  split.
  - split.
    + intros [x H]. apply re_match_star in H. destruct H as (a & b & S & F & K & M). specialize (R b). destruct (strip w b) as [r|] eqn:E; [|rewrite R in K; discriminate].
      apply strip_some in E. exists a, r. rewrite S, E. reflexivity.
    + intros (a & b & S).
      assert (Z : rmatch (IStar dot :: [IAlt [w] true; IStar dot]) s <> []).
      { intros Z. assert (I : In (a, w ++ b) (greedy dot s)).
        { assert (Fd : forallb dot a = true) by (apply no_newline_dot; rewrite S in NN; apply no_newline_app in NN; apply NN).
          clear - S Fd. remember (w ++ b) as u. clear Hequ. revert a S Fd. induction s as [|d s IHs]; intros a S Fd.
          - destruct a; [|discriminate]. cbn in S. subst. left. reflexivity.
          - destruct a as [|e a]; cbn [greedy].
            + cbn in S. subst u. destruct (dot d); [apply in_or_app; right; left; reflexivity|left; reflexivity].
            + cbn in S, Fd. injection S as -> S. apply andb_prop in Fd. rewrite (proj1 Fd). apply in_or_app. left. apply in_map_iff. exists (a, u). split; [reflexivity|]. apply IHs; [exact S|apply Fd]. }
        specialize (R (w ++ b)). rewrite (proj2 (strip_some w (w ++ b) b) eq_refl) in R.
        destruct (rmatch [IAlt [w] true; IStar dot] (w ++ b)) as [|y ys] eqn:Y; [discriminate|].
        assert (W : In y (rmatch (IStar dot :: [IAlt [w] true; IStar dot]) s)).
        { change (In y (flat_map (fun ab : text * text => map (fun gs : list text => gs) (rmatch [IAlt [w] true; IStar dot] (snd ab))) (greedy dot s))).
          apply in_flat_map. exists (a, w ++ b). split; [exact I|]. rewrite map_id. cbn [snd]. rewrite Y. left. reflexivity. }
        rewrite Z in W. destruct W. }
      unfold re_match. destruct (rmatch [IStar dot; IAlt [w] true; IStar dot] s) as [|y ys]; [congruence|]. exists y. reflexivity.
  - intros x H. apply re_match_star in H. destruct H as (a & b & S & F & K & M). specialize (R b). destruct (strip w b) as [r|]; [|rewrite R in K; discriminate]. rewrite R in K. injection K as <-. reflexivity.
Qed.

(** ** Selection *)
Lemma last_number_fun t s v w : no_newline s -> last_number t s v -> last_number t s w -> v = w.
Proof.
  intros NN A B. apply (re_tag t s v NN) in A. apply (re_tag t s w NN) in B. destruct A as (d & r & H & V), B as (d' & r' & H' & V'). rewrite H in H'. injection H' as <- <-. congruence.
Qed.
Lemma last_signed_fun s v w : no_newline s -> last_signed s v -> last_signed s w -> v = w.
Proof.
  intros NN A B. apply (re_m s v NN) in A. apply (re_m s w NN) in B. destruct A as (g & d & r & H & V), B as (g' & d' & r' & H' & V'). rewrite H in H'. injection H' as <- <- <-. congruence.
Qed.
Lemma cond_tag (t : text) (name : string) (v : Z) : no_newline (txt name) ->
  match re_match (pat_tag t) (txt name) with Some (ds :: _) => (int_of ds =? v)%Z | _ => false end = true <-> last_number t (txt name) v.
Proof.
  intros NN. destruct (re_match (pat_tag t) (txt name)) as [[|ds rest]|] eqn:E.
  - split; [discriminate|]. intros H. apply (re_tag t _ v NN) in H. destruct H as (d & r & H & _). rewrite E in H. discriminate.
  - rewrite Z.eqb_eq. split.
    + intros H. apply (re_tag t _ v NN). exists ds, rest. auto.
    + intros H. apply (re_tag t _ v NN) in H. destruct H as (d & r & H & V). rewrite E in H. injection H as <- <-. exact V.
  - split; [discriminate|]. intros H. apply (re_tag t _ v NN) in H. destruct H as (d & r & H & _). rewrite E in H. discriminate.
Qed.
Lemma all_conds_bools bs : all_conds (map Ok bs) = Ok (forallb (fun b => b) bs).
Proof. induction bs as [|b bs IH]; [reflexivity|]. cbn. destruct b; [exact IH|reflexivity]. Qed.
Lemma subselect_ok q sub name i g g_modes : no_newline (txt name) -> well_formed_search q sub g_modes -> (i < List.length (s_l q))%nat ->
  exists b, subselect_mode q sub name (Z.of_nat i + 1) g = Ok b /\ (b = true <-> names_mode q sub g i name).
Proof.
  intros NN (Lm & Ln & Lg & Ls) I. unfold subselect_mode. replace (Z.of_nat i + 1 - 1)%Z with (Z.of_nat i) by lia.
  assert (G : forall l : list Z, (i < List.length l)%nat -> py_get l (Z.of_nat i) = Ok (nth i l 0%Z)).
  { intros l L. rewrite (py_get_ok l (Z.of_nat i) 0%Z) by lia. rewrite Nat2Z.id. reflexivity. }
  set (bl := match re_match (pat_tag ["l"%char]) (txt name) with Some (ds :: _) => (int_of ds =? nth i (s_l q) 0)%Z | _ => false end).
  set (bn := match re_match (pat_tag ["n"%char; "+"%char]) (txt name) with Some (ds :: _) => (int_of ds =? nth i (s_n q) 0)%Z | _ => false end).
  assert (Cl : cond_l q name (Z.of_nat i) = Ok bl).
  { unfold cond_l, bl. rewrite pat_l_eq. destruct (re_match (pat_tag ["l"%char]) (txt name)) as [[|ds rest]|]; [reflexivity| |reflexivity]. rewrite G by lia. reflexivity. }
  assert (Cn : cond_n q name (Z.of_nat i) = Ok bn).
  { unfold cond_n, bn. rewrite pat_n_eq. destruct (re_match (pat_tag ["n"%char; "+"%char]) (txt name)) as [[|ds rest]|]; [reflexivity| |reflexivity]. rewrite G by lia. reflexivity. }
  assert (Cm : exists bm, cond_m q name (Z.of_nat i) = Ok bm /\ (bm = true <-> last_signed (txt name) (nth i (s_m q) 0%Z))).
  { unfold cond_m. destruct (re_match pat_m (txt name)) as [[|sg [|ds rest]]|] eqn:E.
    - exists false. split; [reflexivity|]. split; [discriminate|]. intros H. apply (re_m _ _ NN) in H. destruct H as (a & b & c & H & _). rewrite E in H. discriminate.
    - exists false. split; [reflexivity|]. split; [discriminate|]. intros H. apply (re_m _ _ NN) in H. destruct H as (a & b & c & H & _). rewrite E in H. discriminate.
    - rewrite G by lia. cbn [bind]. eexists. split; [reflexivity|]. split.
      + intros H. apply (re_m _ _ NN). exists sg, ds, rest. split; [exact E|]. destruct (list_eq_dec _ _ _); apply Z.eqb_eq in H; symmetry; exact H.
      + intros H. apply (re_m _ _ NN) in H. destruct H as (a & b & c & H & V). rewrite E in H. injection H as <- <- <-. destruct (list_eq_dec _ _ _); apply Z.eqb_eq; symmetry; exact V.
    - exists false. split; [reflexivity|]. split; [discriminate|]. intros H. apply (re_m _ _ NN) in H. destruct H as (a & b & c & H & _). rewrite E in H. discriminate. }
  assert (Cg : exists bg, cond_mode name g = Ok bg /\ (bg = true <-> occurs (txt (if g then "g_mode" else "p_mode")) (txt name))).
  { unfold cond_mode, pat_mode. destruct (re_word (mode_word g) (txt name) NN) as [W1 W2]. change (txt (if g then "g_mode"%string else "p_mode"%string)) with (mode_word g).
    destruct (re_match [IStar dot; IAlt [mode_word g] true; IStar dot] (txt name)) as [x|] eqn:E.
    - rewrite (W2 x eq_refl). destruct (list_eq_dec ascii_dec (mode_word g) (mode_word g)) as [_|N]; [|congruence]. exists true. split; [reflexivity|]. split; [|reflexivity]. intros _. apply W1. exists x. reflexivity.
    - exists false. split; [reflexivity|]. split; [discriminate|]. intros H. apply W1 in H. destruct H as [x H]. discriminate. }
  destruct Cm as (bm & Cm & Mm), Cg as (bg & Cg & Mg). rewrite Cl, Cm, Cn, Cg.
  change [Ok bl; Ok bm; Ok bn; Ok bg] with (map (@Ok bool) [bl; bm; bn; bg]). rewrite all_conds_bools.
  assert (R : forallb (fun b => b) [bl; bm; bn; bg] = true <-> last_number ["l"%char] (txt name) (nth i (s_l q) 0%Z) /\ last_signed (txt name) (nth i (s_m q) 0%Z) /\
     last_number ["n"%char; "+"%char] (txt name) (nth i (s_n q) 0%Z) /\ occurs (txt (if g then "g_mode" else "p_mode")) (txt name)).
  { cbn [forallb]. rewrite !andb_true_iff. unfold bl, bn. rewrite (cond_tag _ _ _ NN), (cond_tag _ _ _ NN), Mm, Mg. tauto. }
  unfold names_mode. destruct sub as [|s|l|l]; cbn [substrings_ok].
  - eexists. split; [reflexivity|]. rewrite R. clear. tauto.
  - destruct (is_in s name) eqn:E.
    + eexists. split; [reflexivity|]. rewrite R. apply is_in_occurs in E. tauto.
    + exists false. split; [reflexivity|]. split; [discriminate|]. intros [H _]. apply is_in_occurs in H. congruence.
  - destruct (nth_error l i) as [s|] eqn:N; [|apply nth_error_None in N; lia].
    assert (P : py_get l (Z.of_nat i) = Ok s). { rewrite (py_get_ok l (Z.of_nat i) s) by lia. rewrite Nat2Z.id. f_equal. apply nth_error_nth, N. }
    rewrite P. cbn [bind]. destruct (is_in s name) eqn:E.
    + eexists. split; [reflexivity|]. rewrite R. apply is_in_occurs in E. split; [intros H; split; [exists s; auto|exact H]|tauto].
    + exists false. split; [reflexivity|]. split; [discriminate|]. intros [(s' & Q & H) _]. injection Q as <-. apply is_in_occurs in H. congruence.
  - destruct (forallb (fun s => is_in s name) l) eqn:E.
    + eexists. split; [reflexivity|]. rewrite R. rewrite forallb_forall in E. split; [intros H; split; [intros s I'; apply is_in_occurs, E, I'|exact H]|tauto].
    + exists false. split; [reflexivity|]. split; [discriminate|]. intros [H _]. assert (X : forallb (fun s => is_in s name) l = true) by (apply forallb_forall; intros s I'; apply is_in_occurs, H, I'). congruence.
Qed.
(** conventional names *)
Definition clean (Q : text -> Prop) (s : text) : Prop := forall a b, s = a ++ b -> ~ Q b.
Definition tag_l (b : text) : Prop := exists r, b = "l"%char :: r /\ starts_digit r.
Definition tag_m (b : text) : Prop := exists c r, b = "m"%char :: c :: r /\ In c ["+"; "|"; "-"]%char /\ starts_digit r.
Definition tag_n (b : text) : Prop := exists r, b = "n"%char :: "+"%char :: r /\ starts_digit r.
Lemma tags b : tag_l b \/ tag_m b \/ tag_n b -> number_tag b.
Proof. intros [(r & -> & H)|[(c & r & -> & I & H)|(r & -> & H)]]; cbn [number_tag]; [exact H|split; [exact I|exact H]|exact H]. Qed.
Lemma neutral_clean s (Q : text -> Prop) : (forall b, Q b -> tag_l b \/ tag_m b \/ tag_n b) -> neutral s -> clean Q s.
Proof. intros H [_ N] a b E Qb. exact (N a b E (tags b (H b Qb))). Qed.
Lemma clean_cons (Q : text -> Prop) c s : ~ Q (c :: s) -> clean Q s -> clean Q (c :: s).
Proof. intros N C [|a0 a] b E; [cbn in E; subst b; exact N|]. cbn in E. injection E as _ E. exact (C a b E). Qed.
Lemma clean_app (Q : text -> Prop) x y : (forall x1 x2, x = x1 ++ x2 -> x2 <> [] -> Q (x2 ++ y) -> Q x2) -> clean Q x -> clean Q y -> clean Q (x ++ y).
Proof.
  induction x as [|c x IH]; intros H Cx Cy; [exact Cy|]. cbn [app]. apply clean_cons.
  - intros X. apply (Cx [] (c :: x) eq_refl). apply (H [] (c :: x) eq_refl); [discriminate|exact X].
  - apply IH; [|intros a b E; apply (Cx (c :: a) b); cbn; rewrite E; reflexivity|exact Cy]. intros x1 x2 E. apply (H (c :: x1) x2). cbn. rewrite E. reflexivity.
Qed.
Definition blunt (y : text) : Prop := match y with c :: _ => digit c = false /\ ~ In c ["+"; "|"; "-"]%char | [] => False end.
Lemma blunt_tag Q x y : Q = tag_l \/ Q = tag_m \/ Q = tag_n -> blunt y -> x <> [] -> Q (x ++ y) -> Q x.
Proof.
  intros HQ B X H. destruct y as [|c y]; [destruct B|]. destruct B as [B1 B2].
  destruct HQ as [-> |[-> | ->]].
  - destruct H as (r & E & S). destruct x as [|x0 x]; [congruence|]. cbn in E. injection E as -> E. exists x. split; [reflexivity|]. subst r. destruct x; [cbn in S; congruence|exact S].
  - destruct H as (s & r & E & I & S). destruct x as [|x0 x]; [congruence|]. cbn in E. injection E as -> E. destruct x as [|x1 x]; [cbn in E; injection E as -> _; contradiction|].
    cbn in E. injection E as -> E. exists s, x. split; [reflexivity|]. split; [exact I|]. subst r. destruct x; [cbn in S; congruence|exact S].
  - destruct H as (r & E & S). destruct x as [|x0 x]; [congruence|]. cbn in E. injection E as -> E. destruct x as [|x1 x]; [cbn in E; injection E as -> _; exfalso; apply B2; left; reflexivity|].
    cbn in E. injection E as -> E. exists x. split; [reflexivity|]. subst r. destruct x; [cbn in S; congruence|exact S].
Qed.
Lemma clean_digits Q ds y : Q = tag_l \/ Q = tag_m \/ Q = tag_n -> forallb digit ds = true -> clean Q y -> clean Q (ds ++ y).
Proof.
  intros HQ. induction ds as [|c ds IH]; intros F C; [exact C|]. cbn in F. apply andb_prop in F. cbn [app]. apply clean_cons; [|apply IH; [apply F|exact C]]. destruct F as [F _].
  destruct HQ as [-> |[-> | ->]]; [intros (r & E & _)|intros (s & r & E & _)|intros (r & E & _)]; injection E as -> _; discriminate.
Qed.
Lemma neutral_app Q s y : Q = tag_l \/ Q = tag_m \/ Q = tag_n -> neutral s -> blunt y -> clean Q y -> clean Q (s ++ y).
Proof.
  intros HQ N B C. apply clean_app; [intros x1 x2 _ X; apply blunt_tag; assumption| |exact C].
  apply neutral_clean; [|exact N]. intros b H. destruct HQ as [-> |[-> | ->]]; tauto.
Qed.
Lemma last_place (Q : text -> Prop) (pre : text) c rest (pre' : text) b : clean Q rest -> Q b -> pre ++ c :: rest = pre' ++ b -> (List.length pre' <= List.length pre)%nat.
Proof.
  intros C HQ E. destruct (le_lt_dec (List.length pre') (List.length pre)) as [L|L]; [exact L|]. exfalso.
  assert (X : exists a, rest = a ++ b).
  { clear C HQ. revert pre' L E. induction pre as [|z pre IH]; intros pre' L E.
    - destruct pre' as [|z' pre']; [cbn in L; lia|]. cbn in E. injection E as _ E. exists pre'. exact E.
    - destruct pre' as [|z' pre']; [cbn in L; lia|]. cbn in E, L. injection E as _ E. apply (IH pre'); [lia|exact E]. }
  destruct X as [a X]. exact (C a b X HQ).
Qed.
Lemma not_start_app a b : ~ starts_digit a -> ~ starts_digit b -> ~ starts_digit (a ++ b).
Proof. destruct a; [intros _ H; exact H|]. intros H _. exact H. Qed.
Section Conventional.
  Variables (stem dl s1 : text) (sg : ascii) (dm s2 dn ext : text).
  Hypotheses (Nl : number dl) (Nm : number dm) (Nn : number dn) (S1 : neutral s1) (S2 : neutral s2) (Sx : neutral ext) (Sg : In sg ["+"; "|"; "-"]%char).
  Let s := conventional stem dl s1 sg dm s2 dn ext.
  Lemma tail_n Q : Q = tag_l \/ Q = tag_m \/ Q = tag_n -> clean Q (dn ++ ext).
  Proof. intros HQ. apply clean_digits; [exact HQ|apply Nn|]. apply neutral_clean; [|exact Sx]. intros b H. destruct HQ as [-> |[-> | ->]]; tauto. Qed.
  Lemma tail_m Q : Q = tag_l \/ Q = tag_m -> clean Q (dm ++ s2 ++ "n"%char :: "+"%char :: dn ++ ext).
  Proof.
    intros HQ. assert (HQ' : Q = tag_l \/ Q = tag_m \/ Q = tag_n) by tauto. apply clean_digits; [exact HQ'|apply Nm|]. apply neutral_app; [exact HQ'|exact S2|split; [reflexivity|intros [X|[X|[X|[]]]]; discriminate]|].
    apply clean_cons; [|apply clean_cons; [|apply tail_n, HQ']].
    - destruct HQ as [-> | ->]; [intros (r & E & _)|intros (c & r & E & _)]; discriminate.
    - destruct HQ as [-> | ->]; [intros (r & E & _)|intros (c & r & E & _)]; discriminate.
  Qed.
  Lemma tail_l : clean tag_l (dl ++ s1 ++ "m"%char :: sg :: dm ++ s2 ++ "n"%char :: "+"%char :: dn ++ ext).
  Proof.
    apply clean_digits; [tauto|apply Nl|]. apply neutral_app; [tauto|exact S1|split; [reflexivity|intros [X|[X|[X|[]]]]; discriminate]|].
    apply clean_cons; [intros (r & E & _); discriminate|]. apply clean_cons; [intros (r & E & _); injection E as E _; rewrite E in Sg; destruct Sg as [X|[X|[X|[]]]]; discriminate|]. apply tail_m. left. reflexivity.
  Qed.
  Lemma conv_l : last_number ["l"%char] s (int_of dl).
  Proof.
    exists stem, dl, (s1 ++ "m"%char :: sg :: dm ++ s2 ++ "n"%char :: "+"%char :: dn ++ ext). split; [reflexivity|]. split; [apply Nl|]. split; [apply Nl|].
    split; [apply not_start_app; [apply S1|cbn; discriminate]|]. split; [reflexivity|]. intros pre' post' E D. unfold s, conventional in E. cbn [app] in E.
    refine (last_place tag_l stem "l"%char _ pre' _ tail_l _ E). exists post'. auto.
  Qed.
  Lemma conv_m : last_signed s (signed_value sg dm).
  Proof.
    exists (stem ++ "l"%char :: dl ++ s1), sg, dm, (s2 ++ "n"%char :: "+"%char :: dn ++ ext).
    assert (E0 : s = (stem ++ "l"%char :: dl ++ s1) ++ "m"%char :: sg :: dm ++ s2 ++ "n"%char :: "+"%char :: dn ++ ext)
      by (unfold s, conventional; rewrite <- !app_assoc; cbn [app]; rewrite <- !app_assoc; reflexivity).
    split; [exact E0|]. split; [exact Sg|]. split; [apply Nm|]. split; [apply Nm|].
    split; [apply not_start_app; [apply S2|cbn; discriminate]|]. split; [reflexivity|]. intros pre' sg' post' E G D. rewrite E0 in E. refine (last_place tag_m _ "m"%char _ pre' _ _ _ E); [|exists sg', post'; auto].
    apply clean_cons; [intros (c & r & Q & _); injection Q as Q _; rewrite Q in Sg; destruct Sg as [X|[X|[X|[]]]]; discriminate|]. apply tail_m. right. reflexivity.
  Qed.
  Lemma conv_n : last_number ["n"%char; "+"%char] s (int_of dn).
  Proof.
    exists (stem ++ "l"%char :: dl ++ s1 ++ "m"%char :: sg :: dm ++ s2), dn, ext.
    assert (E0 : s = (stem ++ "l"%char :: dl ++ s1 ++ "m"%char :: sg :: dm ++ s2) ++ "n"%char :: "+"%char :: dn ++ ext)
      by (unfold s, conventional; repeat (rewrite <- !app_assoc; cbn [app]); reflexivity).
    split; [exact E0|]. split; [apply Nn|]. split; [apply Nn|]. split; [apply Sx|]. split; [reflexivity|]. intros pre' post' E D. rewrite E0 in E. refine (last_place tag_n _ "n"%char _ pre' _ _ _ E); [|exists post'; auto].
    apply clean_cons; [intros (r & Q & _); discriminate|]. apply tail_n. tauto.
  Qed.
End Conventional.
(** ** Reading *)
Lemma dget_dset {V} (d : dict V) k v k' : dget k' (dset d k v) = if string_dec k' k then Some v else dget k' d.
Proof.
  induction d as [|[k0 v0] d IH]; cbn [dset dget].
  - destruct (string_dec k' k); reflexivity.
  - destruct (string_dec k k0) as [->|N]; cbn [dget].
    + destruct (string_dec k' k0); reflexivity.
    + destruct (string_dec k' k0) as [->|N']; [destruct (string_dec k0 k); congruence|]. exact IH.
Qed.
Lemma dset_keys {V} (d : dict V) k v : NoDup (map fst d) -> NoDup (map fst (dset d k v)).
Proof.
  assert (K : forall x, In x (map fst (dset d k v)) -> x = k \/ In x (map fst d)).
  { induction d as [|[k0 v0] d IH]; intros x I; cbn in I.
    - destruct I as [<-|[]]. left. reflexivity.
    - destruct (string_dec k k0) as [->|N]; cbn in I; [right; exact I|]. destruct I as [<-|I]; [right; left; reflexivity|]. destruct (IH x I); [left|right; right]; assumption. }
  revert K. induction d as [|[k0 v0] d IH]; intros K ND; cbn [dset map fst].
  - constructor; [intros []|constructor].
  - destruct (string_dec k k0) as [->|N]; [exact ND|]. cbn [map fst] in *. inversion ND as [|a b Nin ND']; subst. constructor.
    + intros I. assert (H : forall x, In x (map fst (dset d k v)) -> x = k \/ In x (map fst d)).
      { clear. induction d as [|[k1 v1] d IH]; intros x I; cbn in I.
        - destruct I as [<-|[]]. left. reflexivity.
        - destruct (string_dec k k1) as [->|N]; cbn in I; [right; exact I|]. destruct I as [<-|I]; [right; left; reflexivity|]. destruct (IH x I); [left|right; right]; assumption. }
      destruct (H _ I) as [Q|Q]; [congruence|contradiction].
    + apply IH; [|exact ND']. clear. intros x I. revert x I. induction d as [|[k1 v1] d IH]; intros x I; cbn in I.
      * destruct I as [<-|[]]. left. reflexivity.
      * destruct (string_dec k k1) as [->|N]; cbn in I; [right; exact I|]. destruct I as [<-|I]; [right; left; reflexivity|]. destruct (IH x I); [left|right; right]; assumption.
Qed.
Lemma read_attrs_spec {V} attrs (c : content V) : NoDup (map fst (read_attrs attrs c)) /\
  forall k, dget k (read_attrs attrs c) = if in_dec string_dec k attrs then stored c k else None.
Proof.
  unfold read_attrs. match goal with |- context [fold_left ?f attrs []] => set (F := f) end.
  assert (Fk : forall d k0 k, dget k (F d k0) = if string_dec k k0 then match stored c k0 with Some v => Some v | None => dget k d end else dget k d).
  { intros d k0 k. unfold F, stored. destruct (dget k0 (c_main c)); [apply dget_dset|]. destruct (dget k0 (c_extra c)); [apply dget_dset|]. destruct (string_dec k k0); reflexivity. }
  assert (Fn : forall d k0, NoDup (map fst d) -> NoDup (map fst (F d k0))).
  { intros d k0 N. unfold F. destruct (dget k0 (c_main c)); [apply dset_keys, N|]. destruct (dget k0 (c_extra c)); [apply dset_keys, N|exact N]. }
  assert (G : forall l d, NoDup (map fst d) -> NoDup (map fst (fold_left F l d)) /\
     forall k, dget k (fold_left F l d) = if in_dec string_dec k l then match stored c k with Some v => Some v | None => dget k d end else dget k d).
  { induction l as [|k0 l IH]; intros d N; [split; [exact N|reflexivity]|]. cbn [fold_left]. destruct (IH (F d k0) (Fn d k0 N)) as [N' H]. split; [exact N'|]. intros k. rewrite H, Fk.
    destruct (in_dec string_dec k (k0 :: l)) as [I|I]; destruct (in_dec string_dec k l) as [I'|I']; cbn in I.
    - destruct (stored c k) eqn:S; [reflexivity|]. destruct (string_dec k k0) as [->|]; [|reflexivity]. rewrite S. reflexivity.
    - destruct I as [->|I]; [|contradiction]. destruct (string_dec k k) as [_|]; [reflexivity|congruence].
    - exfalso. apply I. right. exact I'.
    - destruct (string_dec k k0) as [->|]; [exfalso; apply I; left; reflexivity|reflexivity]. }
  destruct (G attrs [] ltac:(constructor)) as [N H]. split; [exact N|]. intros k. rewrite H. destruct (in_dec string_dec k attrs); [|reflexivity]. destruct (stored c k); reflexivity.
Qed.
Lemma append_assoc_s (a b c : string) : ((a ++ b) ++ c = a ++ (b ++ c))%string.
Proof. induction a as [|x a IH]; cbn; [reflexivity|]. rewrite IH. reflexivity. Qed.
Lemma after_last_dot_spec name suf : after_last_dot name = Some suf <-> exists stem, name = (stem ++ "." ++ suf)%string /\ ~ In "."%char (txt suf).
Proof.
  assert (NoneIff : forall s, after_last_dot s = None <-> ~ In "."%char (txt s)).
  { induction s as [|c s IH]; cbn [after_last_dot]; [split; [intros _ []|reflexivity]|]. cbn [txt list_ascii_of_string In]. fold (txt s). destruct (after_last_dot s) as [r|] eqn:E.
    - split; [discriminate|]. intros H. exfalso. assert (X : ~ In "."%char (txt s)) by tauto. apply IH in X. discriminate.
    - destruct (Ascii.eqb_spec c ".") as [->|N]; [split; [discriminate|intros H; exfalso; apply H; left; reflexivity]|]. split; [|reflexivity]. intros _ [Q|Q]; [congruence|]. revert Q. apply IH. reflexivity. }
  revert suf. induction name as [|c s IH]; intros suf; cbn [after_last_dot].
  - split; [discriminate|]. intros (stem & E & _). destruct stem; discriminate.
  - destruct (after_last_dot s) as [r|] eqn:E.
    + destruct (proj1 (IH r) eq_refl) as (stem & S & N). split.
      * intros H. injection H as <-. exists (String c stem). split; [cbn; rewrite S; reflexivity|exact N].
      * intros (stem' & S' & N'). destruct stem' as [|c' stem'].
        -- cbn in S'. injection S' as -> ->. exfalso. apply NoneIff in N'. rewrite E in N'. discriminate.
        -- cbn in S'. injection S' as -> S'. apply IH. exists stem'. split; [exact S'|exact N'].
    + destruct (Ascii.eqb_spec c ".") as [->|N].
      * split.
        -- intros H. injection H as <-. exists EmptyString. split; [reflexivity|]. apply NoneIff, E.
        -- intros (stem' & S' & N'). destruct stem' as [|c' stem']; [cbn in S'; injection S' as ->; reflexivity|]. cbn in S'. injection S' as _ S'. exfalso.
           assert (X : None = Some suf) by (apply IH; exists stem'; split; [exact S'|exact N']). discriminate.
      * split; [discriminate|]. intros (stem' & S' & N'). destruct stem' as [|c' stem']; [cbn in S'; injection S' as -> _; congruence|]. cbn in S'. injection S' as _ S'.
        assert (X : None = Some suf) by (apply IH; exists stem'; split; [exact S'|exact N']). discriminate.
Qed.
Definition read_entry {V} (attrs : list string) (e : entry V) : res (dict V) := (s <- suffix_finder (e_name e) ; read_file attrs (e_content e) s)%res.
Lemma read_entry_ok {V} attrs (e : entry V) : readable (e_name e) -> exists d, read_entry attrs e = Ok d /\ read_from attrs e d.
Proof.
  intros (stem & suf & E & N & I). unfold read_entry, suffix_finder. assert (A : after_last_dot (e_name e) = Some suf) by (apply after_last_dot_spec; exists stem; auto).
  assert (T : text_file (e_name e) <-> upper suf = "TXT"%string).
  { split; [|intros U; exists stem, suf; auto]. intros (st & sf & E' & N' & U). assert (A' : after_last_dot (e_name e) = Some sf) by (apply after_last_dot_spec; exists st; auto). rewrite A in A'. injection A' as <-. exact U. }
  rewrite A. cbn [bind]. unfold read_file. destruct (read_attrs_spec attrs (e_content e)) as [ND G].
  assert (RF : upper suf <> "TXT"%string -> read_from attrs e (read_attrs attrs (e_content e))) by (intros U; split; [exact ND|split; [intros X; apply T in X; contradiction|intros _; exact G]]).
  destruct (string_dec (upper suf) "H5") as [U|U3]; [eexists; split; [reflexivity|apply RF; rewrite U; discriminate]|].
  destruct (string_dec (upper suf) "HDF5") as [U|U4]; [eexists; split; [reflexivity|apply RF; rewrite U; discriminate]|].
  destruct (string_dec (upper suf) "TXT") as [U|U1].
  { eexists. split; [reflexivity|]. split; [constructor|]. split; [reflexivity|]. intros X. exfalso. apply X, T, U. }
  destruct (string_dec (upper suf) "DAT") as [U|U2]; [eexists; split; [reflexivity|apply RF, U1]|]. cbn in I. intuition congruence.
Qed.
Lemma data_file_reader_eq {V} attrs sel (b : entry V -> bool) (dir : list (entry V)) : (forall e, In e dir -> e_file e = true -> sel (e_name e) = Ok (b e)) ->
  data_file_reader attrs sel dir = mapM (read_entry attrs) (filter (fun e => e_file e && b e) dir).
Proof.
  induction dir as [|e dir IH]; intros H; [reflexivity|]. cbn [data_file_reader filter]. specialize (IH (fun e' I => H e' (or_intror I))). pose proof (H e (or_introl eq_refl)) as He.
  destruct (e_file e); cbn [bind andb]; [|exact IH]. rewrite He by reflexivity. cbn [bind]. destruct (b e); [|exact IH]. cbn [mapM]. unfold read_entry at 1. rewrite IH.
  destruct (suffix_finder (e_name e)); cbn [bind]; [|reflexivity|reflexivity]. destruct (read_file attrs (e_content e) a); reflexivity.
Qed.
Lemma the_only_filter {A} (P : A -> Prop) (b : A -> bool) l x : (forall y, In y l -> (b y = true <-> P y)) -> (the_only P l x <-> filter b l = [x]).
Proof.
  intros H. split.
  - intros (l1 & l2 & -> & Px & N). rewrite filter_app. cbn [filter]. rewrite (proj2 (H x ltac:(apply in_or_app; right; left; reflexivity)) Px).
    assert (Z : forall k, (forall y, In y k -> In y (l1 ++ x :: l2) /\ ~ P y) -> filter b k = []).
    { induction k as [|y k IH]; intros Hk; [reflexivity|]. cbn. destruct (b y) eqn:By; [exfalso|apply IH; intros; apply Hk; right; assumption].
      destruct (Hk y (or_introl eq_refl)) as [I Np]. apply Np. apply H; assumption. }
    rewrite (Z l1), (Z l2); [reflexivity| |].
    + intros y I. split; [apply in_or_app; right; right; exact I|apply N, in_or_app; right; exact I].
    + intros y I. split; [apply in_or_app; left; exact I|apply N, in_or_app; left; exact I].
  - revert x. induction l as [|y l IH]; intros x E; [discriminate|]. cbn in E. pose proof (H y (or_introl eq_refl)) as Hy.
    assert (Hl : forall z, In z l -> (b z = true <-> P z)) by (intros z I; apply H; right; exact I). destruct (b y) eqn:By.
    + injection E as -> E. exists [], l. split; [reflexivity|]. split; [apply Hy; reflexivity|]. cbn. intros z I Pz. apply Hl in Pz; [|exact I].
      assert (X : In z (filter b l)) by (apply filter_In; split; assumption). rewrite E in X. destruct X.
    + destruct (IH Hl x E) as (l1 & l2 & -> & Px & N). exists (y :: l1), l2. split; [reflexivity|]. split; [exact Px|]. cbn. intros z [<-|I]; [intros Pz; apply Hy in Pz; discriminate|apply N, I].
Qed.
(** what the loader does once every selected file is readable *)
Definition mode_bools {V} (q : search) (sub : substr) (g_modes : list bool) (i : nat) (e : entry V) : bool :=
  match subselect_mode q sub (e_name e) (Z.of_nat i + 1) (nth i g_modes true) with Ok b => b | _ => false end.
Definition chosen {V} q sub g_modes i (es : list (entry V)) : list (entry V) := filter (fun e => e_file e && mode_bools q sub g_modes i e) es.
Definition rd_or {V} attrs (e : entry V) : dict V := match read_entry attrs e with Ok d => d | _ => [] end.
Section Modes.
  Context {V : Type}.
  Variables (attrs : list string) (q : search) (sub : substr) (g_modes : list bool) (es : list (entry V)).
  Hypothesis WF : well_formed_search q sub g_modes.
  Hypothesis NN : forall e, In e es -> e_file e = true -> no_newline (txt (e_name e)).
  Let P (i : nat) (e : entry V) := e_file e = true /\ names_mode q sub (nth i g_modes true) i (e_name e).
  Hypothesis RD : forall i e, (i < List.length (s_l q))%nat -> In e es -> P i e -> readable (e_name e).
  Lemma bools_spec i e : (i < List.length (s_l q))%nat -> In e es -> (e_file e && mode_bools q sub g_modes i e = true <-> P i e).
  Proof.
    intros I Ie. unfold P. destruct (e_file e) eqn:F; cbn [andb]; [|split; [discriminate|intros [H _]; discriminate]].
    destruct (subselect_ok q sub (e_name e) i (nth i g_modes true) g_modes (NN e Ie F) WF I) as (b & E & B). unfold mode_bools. rewrite E. rewrite B. tauto.
  Qed.
  Lemma load_modes_eq fs dir : scandir fs dir = Ok es ->
    load_modes fs dir attrs q sub g_modes =
    (let per := map (fun i => map (rd_or attrs) (chosen q sub g_modes i es)) (seq 0 (List.length (s_l q))) in
     let kept := flat_map (fun ds => match ds with [d] => [d] | _ => [] end) per in
     if (List.length kept =? List.length (s_l q))%nat then Ok kept else Exc SystemExit).
  Proof.
    intros SC. unfold load_modes. erewrite mapM_ok; [reflexivity|]. intros i I. apply in_seq in I. destruct WF as (_ & _ & Lg & _).
    rewrite (py_get_ok g_modes (Z.of_nat i) true) by lia. rewrite Nat2Z.id. cbn [bind]. rewrite SC. cbn [bind].
    rewrite (data_file_reader_eq attrs _ (mode_bools q sub g_modes i)).
    - apply mapM_ok. intros e Ie. apply filter_In in Ie. destruct Ie as [Ie B]. apply (bools_spec i e ltac:(lia) Ie) in B.
      destruct (read_entry_ok attrs e (RD i e ltac:(lia) Ie B)) as (d & E & _). unfold rd_or. rewrite E. reflexivity.
    - intros e Ie F. destruct (subselect_ok q sub (e_name e) i (nth i g_modes true) g_modes (NN e Ie F) WF ltac:(lia)) as (b & E & B). unfold mode_bools. rewrite E. reflexivity.
  Qed.
End Modes.
Lemma kept_all {A B} (f : A -> list B) l : (forall x, In x l -> exists y, f x = [y]) ->
  List.length (flat_map (fun ds => match ds with [d] => [d] | _ => [] end) (map f l)) = List.length l /\
  forall i x y, nth_error l i = Some x -> f x = [y] -> nth_error (flat_map (fun ds => match ds with [d] => [d] | _ => [] end) (map f l)) i = Some y.
Proof.
  induction l as [|x l IH]; intros H; [split; [reflexivity|intros [|i]; discriminate]|]. destruct (H x (or_introl eq_refl)) as [y Y]. cbn [map flat_map]. rewrite Y.
  destruct (IH (fun z I => H z (or_intror I))) as [L N]. split; [cbn; rewrite L; reflexivity|]. intros [|i] x' y' E F; cbn in *; [injection E as <-; congruence|apply (N i x' y' E F)].
Qed.
Lemma kept_less {A B} (f : A -> list B) l x : In x l -> (forall y, f x <> [y]) ->
  (List.length (flat_map (fun ds => match ds with [d] => [d] | _ => [] end) (map f l)) < List.length l)%nat.
Proof.
  assert (LE : forall l, (List.length (flat_map (fun ds => match ds with [d] => [d] | _ => [] end) (map f l)) <= List.length l)%nat).
  { clear. induction l as [|x l IH]; [cbn; lia|]. cbn [map flat_map]. rewrite app_length. destruct (f x) as [|y [|y' ys]]; cbn; lia. }
  induction l as [|z l IH]; intros I N; [destruct I|]. cbn [map flat_map]. rewrite app_length. destruct I as [->|I].
  - specialize (LE l). destruct (f x) as [|y [|y' ys]] eqn:E; [cbn; lia|exfalso; apply (N y); reflexivity|cbn; lia].
  - specialize (IH I N). destruct (f z) as [|y [|y' ys]]; cbn; lia.
Qed.
Lemma chosen_only {V} q sub g_modes i (es : list (entry V)) e : well_formed_search q sub g_modes -> (forall e, In e es -> e_file e = true -> no_newline (txt (e_name e))) ->
  (i < List.length (s_l q))%nat -> (the_only (fun e => e_file e = true /\ names_mode q sub (nth i g_modes true) i (e_name e)) es e <-> chosen q sub g_modes i es = [e]).
Proof. intros WF NN I. apply the_only_filter. intros y Iy. exact (bools_spec q sub g_modes es WF NN i y I Iy). Qed.
Lemma filter_perm {A} (b : A -> bool) l l' : Permutation l l' -> Permutation (filter b l) (filter b l').
Proof.
  induction 1 as [|x l l' P IH|x y l|l1 l2 l3 P1 IH1 P2 IH2]; cbn; [constructor|destruct (b x); [constructor|]; exact IH|destruct (b x), (b y); try apply perm_swap; reflexivity|eapply perm_trans; [exact IH1|exact IH2]].
Qed.
Lemma single_perm {A B} (f : A -> B) l l' : Permutation l l' -> (match map f l with [d] => [d] | _ => [] end : list B) = match map f l' with [d] => [d] | _ => [] end.
Proof.
  intros P. pose proof (Permutation_length P) as L. destruct l as [|x [|x1 l]], l' as [|y [|y1 l']]; cbn in L; try discriminate; [reflexivity| |reflexivity].
  apply Permutation_length_1 in P. subst. reflexivity.
Qed.
Lemma flat_map_ext' {A B} (f g : A -> list B) l : (forall x, In x l -> f x = g x) -> flat_map f l = flat_map g l.
Proof. induction l as [|x l IH]; intros H; [reflexivity|]. cbn. rewrite H by (left; reflexivity). rewrite IH by (intros; apply H; right; assumption). reflexivity. Qed.
Lemma greedy_iff p s a b : In (a, b) (greedy p s) <-> s = a ++ b /\ forallb p a = true.
Proof.
  split; [apply greedy_in|]. intros [S F]. revert a S F. induction s as [|d s IH]; intros a S F.
  - destruct a; [|discriminate]. cbn in S. subst b. left. reflexivity.
  - destruct a as [|e a]; cbn [greedy].
    + cbn in S. subst b. destruct (p d); [apply in_or_app; right; left; reflexivity|left; reflexivity].
    + cbn in S, F. injection S as -> S. apply andb_prop in F. rewrite (proj1 F). apply in_or_app. left. apply in_map_iff. exists (a, b). split; [reflexivity|]. apply IH; [exact S|apply F].
Qed.
Lemma plus_iff p s a b : In (a, b) (splits (IPlus p false) s) <-> s = a ++ b /\ a <> [] /\ forallb p a = true.
Proof.
  cbn [splits]. rewrite filter_In, greedy_iff. cbn [fst]. destruct a; split; intros H; try (destruct H as [_ H]; discriminate).
  - destruct H as (_ & H & _). congruence.
  - destruct H as [[H1 H2] _]. split; [exact H1|]. split; [discriminate|exact H2].
  - destruct H as (H1 & _ & H2). auto.
Qed.
Lemma rmatch_in it pat s gs : In gs (rmatch (it :: pat) s) <-> exists a b gs', In (a, b) (splits it s) /\ In gs' (rmatch pat b) /\ gs = if captured it then a :: gs' else gs'.
Proof.
  cbn [rmatch]. rewrite in_flat_map. split.
  - intros ([a b] & I & M). apply in_map_iff in M. destruct M as (gs' & <- & I'). exists a, b, gs'. auto.
  - intros (a & b & gs' & I & I' & ->). exists (a, b). split; [exact I|]. apply in_map_iff. exists gs'. auto.
Qed.
Lemma alt_iff ws cap s a b : In (a, b) (splits (IAlt ws cap) s) <-> In a ws /\ s = a ++ b.
Proof.
  cbn [splits]. rewrite in_flat_map. split.
  - intros (w & I & M). destruct (strip w s) as [r|] eqn:E; [|destruct M]. destruct M as [M|[]]. injection M as <- <-. split; [exact I|]. apply strip_some, E.
  - intros [I S]. exists a. split; [exact I|]. apply strip_some in S. rewrite S. left. reflexivity.
Qed.
Lemma re_match_some pat s : (exists x, re_match pat s = Some x) <-> exists x, In x (rmatch pat s).
Proof. unfold re_match. destruct (rmatch pat s) as [|y ys]; cbn; split; intros [x H]; [discriminate|destruct H|exists y; left; reflexivity|exists y; reflexivity]. Qed.
Lemma re_match_in pat s x : re_match pat s = Some x -> In x (rmatch pat s).
Proof. unfold re_match. destruct (rmatch pat s); cbn; [discriminate|]. intros H. injection H as ->. left. reflexivity. Qed.
Lemma suffix_in suffix s gs : no_newline s -> (In gs (rmatch (pat_suffix suffix) s) <-> gs = [txt suffix] /\ exists a b, s = a ++ "."%char :: txt suffix ++ b /\ a <> []).
Proof.
  intros NN. unfold pat_suffix. rewrite rmatch_in. split.
  - intros (a & b & gs' & I & M & ->). apply plus_iff in I. destruct I as (-> & A & _). apply rmatch_in in M. destruct M as (a1 & b1 & gs1 & I1 & M1 & ->).
    apply rmatch_in in M1. destruct M1 as (a2 & b2 & gs2 & I2 & M2 & ->). apply alt_iff in I2. destruct I2 as [[<-|[]] ->]. destruct M2 as [<-|[]]. split; [reflexivity|].
    exists a, b2. split; [|exact A]. f_equal. unfold lit in I1. cbn [splits] in I1. destruct b as [|c b]; [destruct I1|]. destruct (Ascii.eqb_spec "."%char c) as [<-|]; [|destruct I1]. destruct I1 as [I1|[]]. injection I1 as _ ->. reflexivity.
  - intros (-> & a & b & -> & A). exists a, ("."%char :: txt suffix ++ b), [txt suffix]. split; [|split; [|reflexivity]].
    + apply plus_iff. split; [reflexivity|]. split; [exact A|]. apply no_newline_dot. apply no_newline_app in NN. apply NN.
    + apply rmatch_in. exists ["."%char], (txt suffix ++ b), [txt suffix]. split; [left; reflexivity|]. split; [|reflexivity].
      apply rmatch_in. exists (txt suffix), b, []. split; [apply alt_iff; split; [left; reflexivity|reflexivity]|]. split; [left; reflexivity|reflexivity].
Qed.
Lemma suffix_cond suffix name : no_newline (txt name) -> (cond_generic suffix true (pat_suffix suffix) name = true <-> exists a b, txt name = a ++ "."%char :: txt suffix ++ b /\ a <> []).
Proof.
  intros NN. unfold cond_generic. destruct (re_match (pat_suffix suffix) (txt name)) as [x|] eqn:E.
  - apply re_match_in in E. apply (suffix_in suffix _ _ NN) in E. destruct E as [-> E]. cbn [andb]. destruct (list_eq_dec ascii_dec (txt suffix) (txt suffix)); [|congruence]. tauto.
  - split; [discriminate|]. intros H. assert (X : exists x, re_match (pat_suffix suffix) (txt name) = Some x) by (apply re_match_some; exists [txt suffix]; apply (suffix_in suffix _ _ NN); auto).
    destruct X as [x X]. congruence.
Qed.
Lemma not_gyre_cond name : no_newline (txt name) -> (cond_generic "gyre" false pat_not_gyre name = true <->
  ~ exists a w b, txt name = a ++ txt w ++ b /\ a <> [] /\ In w ["gyre"; "GYRE"]%string).
Proof.
  intros NN. assert (X : (exists x, In x (rmatch pat_not_gyre (txt name))) <-> exists a w b, txt name = a ++ txt w ++ b /\ a <> [] /\ In w ["gyre"; "GYRE"]%string).
  { unfold pat_not_gyre. split.
    - intros [x I]. apply rmatch_in in I. destruct I as (a & b & gs' & I & M & _). apply plus_iff in I. destruct I as (E & A & _). apply rmatch_in in M. destruct M as (w & b1 & gs1 & I1 & _ & _).
      apply alt_iff in I1. destruct I1 as [I1 ->]. destruct I1 as [<-|[<-|[]]]; [exists a, "gyre"%string, b1|exists a, "GYRE"%string, b1]; (split; [exact E|]; split; [exact A|cbn; tauto]).
    - intros (a & w & b & E & A & I). destruct (rmatch_dotstar b) as [gs G]. exists (txt w :: []). apply rmatch_in. exists a, (txt w ++ b), [txt w]. split; [|split; [|reflexivity]].
      + apply plus_iff. split; [exact E|]. split; [exact A|]. apply no_newline_dot. rewrite E in NN. apply no_newline_app in NN. apply NN.
      + apply rmatch_in. exists (txt w), b, []. split; [apply alt_iff; split; [destruct I as [<-|[<-|[]]]; [left|right; left]; reflexivity|reflexivity]|]. split; [rewrite G; left; reflexivity|reflexivity]. }
  rewrite <- X. clear X. rewrite <- re_match_some. unfold cond_generic. destruct (re_match pat_not_gyre (txt name)) as [[|w r]|]; cbn; (split; [intros H|intros H]); try discriminate; try reflexivity.
  - exfalso. apply H. eexists. reflexivity.
  - exfalso. apply H. eexists. reflexivity.
  - intros [x Q]. discriminate.
Qed.
