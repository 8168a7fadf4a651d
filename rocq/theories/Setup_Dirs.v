(** * Lemmas on the information folders and the directories of a run. *)
From Coq Require Import List ZArith QArith Ascii String Bool Lia.
From Verif Require Import Base Py Inlist_Model Parser_Model Parser_Spec Parser_Proofs Setup_Model Setup_Spec.
From Verif Require Load_Model.
Import ListNotations.
Local Open Scope string_scope.

Lemma item_inv k v w : item k v = Ok w -> exists t, v = VTab t /\ has t k w.
Proof. destruct v; cbn [item]; try discriminate. destruct (tget t k) eqn:E; [|discriminate]. intros X. injection X as ->. exists t. split; [reflexivity|apply tget_has, E]. Qed.
Lemma item_path k v w : item k v = Ok w -> forall ks x, at_path w ks x -> at_path v (k :: ks) x.
Proof. intros E ks x A. destruct (item_inv _ _ _ E) as (t & -> & H). exact (below _ _ _ _ _ H A). Qed.
Lemma path_item v k ks w : at_path v (k :: ks) w -> exists x, item k v = Ok x /\ at_path x ks w.
Proof. intros A. inversion A as [|t k' ks' v' x H B]; subst. exists x. split; [|exact B]. cbn [item]. apply tget_has in H. rewrite H. reflexivity. Qed.
Lemma path_step v k ks w x : at_path v (k :: ks) w -> item k v = Ok x -> at_path x ks w.
Proof. intros A E. destruct (path_item _ _ _ _ A) as (y & E' & B). rewrite E in E'. injection E' as ->. exact B. Qed.
Lemma path_end v w : at_path v [] w -> v = w.
Proof. intros A. inversion A. reflexivity. Qed.
Definition lookup_error (e : exn) : Prop := e = KeyError \/ e = TypeError.
Definition found {A} (r : res A) : Prop := (exists x, r = Ok x) \/ exists e, r = Exc e /\ lookup_error e.
Lemma item_found k v : found (item k v).
Proof.
  destruct v; cbn [item]; try (right; exists TypeError; split; [reflexivity|right; reflexivity]). destruct (tget t k); [left; eexists; reflexivity|right; exists KeyError; split; [reflexivity|left; reflexivity]].
Qed.
Lemma found_bind {A B} (r : res A) (f : A -> res B) : found r -> (forall x, found (f x)) -> found (bind r f).
Proof. intros [(x & ->)|(e & -> & He)] H; [exact (H x)|right; exists e; split; [reflexivity|exact He]]. Qed.
Lemma chars_map s : chars s = map (fun c => VStr (String c "")) (list_ascii_of_string s).
Proof. induction s as [|c s IH]; [reflexivity|]. cbn. rewrite IH. reflexivity. Qed.
Lemma to_tuple_spec v w : to_tuple v = Ok w <-> as_tuple v w.
Proof.
  split.
  - destruct v; cbn [to_tuple]; try discriminate; intros E; injection E as <-; try constructor; [rewrite chars_map; constructor|rewrite <- (map_map fst (fun k => VStr k)); constructor].
  - intros A. destruct A; cbn [to_tuple]; [reflexivity|reflexivity|rewrite chars_map; reflexivity|rewrite map_map; reflexivity].
Qed.
Lemma maybe_tuple_found s k f : found (maybe_tuple s k f).
Proof.
  unfold maybe_tuple. apply found_bind; [apply item_found|]. intros x. apply found_bind; [apply item_found|]. intros v. destruct (truthy x); [|left; eexists; reflexivity].
  destruct v; cbn [to_tuple]; try (left; eexists; reflexivity); right; exists TypeError; (split; [reflexivity|right; reflexivity]).
Qed.
Lemma maybe_tuple_inv s k f v : maybe_tuple s k f = Ok v ->
  exists w x, at_path s [k] w /\ at_path s [f] x /\ if truthy x then as_tuple w v else v = w.
Proof.
  unfold maybe_tuple. destruct (item f s) as [x| |] eqn:Ef; try discriminate. cbn [bind]. destruct (item k s) as [w| |] eqn:Ek; try discriminate. cbn [bind]. intros E.
  exists w, x. split; [exact (item_path _ _ _ Ek [] w (here w))|]. split; [exact (item_path _ _ _ Ef [] x (here x))|]. destruct (truthy x); [apply to_tuple_spec, E|injection E as ->; reflexivity].
Qed.
Lemma maybe_tuple_ok s k f w x v : at_path s [k] w -> at_path s [f] x -> (if truthy x then as_tuple w v else v = w) -> maybe_tuple s k f = Ok v.
Proof.
  intros A B C. unfold maybe_tuple. destruct (path_item _ _ _ _ B) as (x' & E & P). apply path_end in P. subst x'. rewrite E. cbn [bind].
  destruct (path_item _ _ _ _ A) as (w' & E' & P). apply path_end in P. subst w'. rewrite E'. cbn [bind]. destruct (truthy x); [apply to_tuple_spec, C|subst; reflexivity].
Qed.
Lemma parse_found t : found (parse_toml_info_file t).
Proof. unfold parse_toml_info_file. repeat (apply found_bind; [first [apply item_found | apply maybe_tuple_found]|intros ?]). left. eexists. reflexivity. Qed.

Ltac invert_binds H :=
  repeat match type of H with
  | bind ?r _ = Ok _ => let E := fresh "E" in let x := fresh "x" in destruct r as [x| |] eqn:E; [cbn [bind] in H|discriminate H|discriminate H]
  end.
Lemma parse_sound toml t : parse_toml_info_file toml = Ok t -> map fst t = map fst folder_table /\
  forall k pos sw, In (k, (pos, sw)) folder_table -> exists v, has t k v /\ folder_value (VTab toml) pos sw v.
Proof.
  unfold parse_toml_info_file. intros H. invert_binds H. injection H as <-. split; [reflexivity|].
  intros k pos sw I. cbn [In folder_table] in I.
  repeat match goal with Hm : maybe_tuple _ _ _ = Ok _ |- _ => apply maybe_tuple_inv in Hm; destruct Hm as (? & ? & ? & ? & ?) end.
  repeat (destruct I as [I|I]; [injection I as <- <- <-; eexists; (split; [apply tget_has; reflexivity|]);
    unfold folder_value; cbn [undot Ascii.eqb Bool.eqb];
    eexists; (split; [repeat first [eassumption | eapply item_path; [eassumption|] | apply here]|]);
    first [reflexivity | eexists; (split; [repeat first [eassumption | eapply item_path; [eassumption|] | apply here]|]); eassumption]|]).
  destruct I.
Qed.
Lemma parse_complete toml : (forall k pos sw, In (k, (pos, sw)) folder_table -> exists v, folder_value (VTab toml) pos sw v) -> exists t, parse_toml_info_file toml = Ok t.
Proof.
  intros H. destruct (parse_found toml) as [X|(e & X & He)]; [exact X|]. exfalso.
  assert (P : forall k pos sw, In (k, (pos, sw)) folder_table -> exists w v, at_path (VTab toml) (undot pos) w /\ match sw with None => True | Some s => exists f, at_path (VTab toml) (undot s) f /\ if truthy f then as_tuple w v else v = w end).
  { intros k pos sw I. destruct (H k pos sw I) as (v & w & W & S). exists w, v. split; [exact W|]. destruct sw; [exact S|exact Logic.I]. }
  pose proof (fun k pos sw => P k pos sw) as Q. clear P H.
  Ltac row Q k :=
    let R := fresh "R" in let w := fresh "w" in let v := fresh "v" in let S := fresh "S" in let f := fresh "f" in let F := fresh "F" in let U := fresh "U" in
    destruct (Q k _ _ ltac:(cbn [folder_table In]; repeat first [left; reflexivity | right])) as (w & v & R & S); cbn [undot Ascii.eqb Bool.eqb] in R;
    try (destruct S as (f & F & U); cbn [undot Ascii.eqb Bool.eqb] in F).
  row Q "base_dir". row Q "mesa_output_dir". row Q "mesa_profile_substrings". row Q "mesa_suffix". row Q "gyre_base_dir". row Q "gyre_output_dir". row Q "gyre_detail_substring". row Q "gyre_summary_substring".
  row Q "poly_base_dir". row Q "poly_struct_dir". row Q "poly_struct_substrings". row Q "poly_struct_suffix". row Q "poly_mode_base_dir". row Q "poly_mode_dir". row Q "poly_mode_substrings". row Q "poly_summary_substring".
  clear Q. revert X. unfold parse_toml_info_file.
  Ltac step k v :=
    let x := fresh "x" in let E := fresh "E" in let P := fresh "P" in
    match goal with A : at_path v (k :: _) _ |- _ => destruct (path_item _ _ _ _ A) as (x & E & P); clear P end;
    repeat match goal with A : at_path v (k :: _) _ |- _ => apply (fun a => path_step _ _ _ _ _ a E) in A end;
    rewrite ?E; cbn [bind].
  repeat first [ match goal with |- bind (item ?k ?v) _ = _ -> _ => step k v end
               | match goal with A : at_path ?s [?k] ?w, B : at_path ?s [?f] ?x, C : (if truthy ?x then as_tuple ?w ?v else ?v = ?w) |- bind (maybe_tuple ?s ?k ?f) _ = _ -> _ => rewrite (maybe_tuple_ok s k f w x v A B C); cbn [bind] end ].
  intros X. discriminate X.
Qed.
