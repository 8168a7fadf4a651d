(** * Lemmas about argument binding and about the tables read from the inlist. *)
From Coq Require Import List ZArith String Bool Lia.
From Verif Require Import Base Py Inlist_Model Parser_Model Parser_Spec Parser_Proofs Setup_Model Run_Model Run_Spec.
From Verif Require Properties_Parser.
Import ListNotations.
Local Open Scope string_scope.

Lemma setting_unique d pos v w : setting d pos v -> setting d pos w -> v = w.
Proof.
  intros A B. apply (Properties_Parser.setting_lookup _ _ _ (Properties_Parser.undot_cons pos)) in A.
  apply (Properties_Parser.setting_lookup _ _ _ (Properties_Parser.undot_cons pos)) in B. congruence.
Qed.

(** ** keys of the tables *)
Lemma tset_fresh t k v : ~ In k (map fst t) -> tset t k v = (t ++ [(k, v)])%list.
Proof.
  induction t as [|[k' v'] t IH]; [reflexivity|]. cbn [map fst tset]. intros N. destruct (String.eqb_spec k k') as [->|D]; [exfalso; apply N; left; reflexivity|].
  rewrite IH; [reflexivity|]. intros X. apply N. right. exact X.
Qed.
Lemma loop3_keys d : forall l acc t, NoDup (map fst acc ++ map fst l) -> loop3 d (triples l) acc = (t, Ok tt) -> map fst t = (map fst acc ++ map fst l)%list.
Proof.
  induction l as [|[k p] l IH]; intros acc t N E.
  - cbn in E. injection E as <-. cbn. rewrite app_nil_r. reflexivity.
  - cbn [triples map loop3 put3 fst snd] in E. destruct (get_ha d (IPath p)) as [v| |]; cbn [bind] in E; try discriminate.
    assert (K : ~ In k (map fst acc)). { intros X. cbn [map fst] in N. apply NoDup_remove_2 in N. apply N, in_app_iff. left. exact X. }
    rewrite tset_fresh in E by exact K. apply IH in E.
    + rewrite E, map_app, <- app_assoc. reflexivity.
    + rewrite map_app, <- app_assoc. exact N.
Qed.
Lemma loop2_keys d : forall l acc t, NoDup (map fst acc ++ map fst l) -> loop2 d (pairs l) acc = Ok t -> map fst t = (map fst acc ++ map fst l)%list.
Proof.
  induction l as [|[k p] l IH]; intros acc t N E.
  - cbn in E. injection E as <-. cbn. rewrite app_nil_r. reflexivity.
  - cbn [pairs map loop2 put2 fst snd] in E. destruct (get_ha d (IPath p)) as [v| |]; cbn [bind] in E; try discriminate.
    assert (K : ~ In k (map fst acc)). { intros X. cbn [map fst] in N. apply NoDup_remove_2 in N. apply N, in_app_iff. left. exact X. }
    rewrite tset_fresh in E by exact K. apply IH in E.
    + rewrite E, map_app, <- app_assoc. reflexivity.
    + rewrite map_app, <- app_assoc. exact N.
Qed.
Lemma triples_keys d l t : l <> [] -> NoDup (map fst l) -> read_in_to_dict d (triples l) = Ok t -> map fst t = map fst l.
Proof.
  intros NE N E. unfold read_in_to_dict in E. destruct (loop3 d (triples l) []) as [acc [u| |x]] eqn:L; [| discriminate |].
  - injection E as <-. destruct u. apply (loop3_keys d l [] acc N L).
  - destruct l as [|[k p] l]; [contradiction|]. destruct x; try discriminate.
Qed.
Lemma pairs_keys d l t : NoDup (map fst l) -> read_in_to_dict d (pairs l) = Ok t -> map fst t = map fst l.
Proof.
  intros N E. unfold read_in_to_dict in E. destruct l as [|[k p] l]; [cbn in E; injection E as <-; reflexivity|]. cbn [pairs map loop3 put3] in E.
  apply (loop2_keys d _ [] t N E).
Qed.
Definition nodupb (l : list string) : bool := if list_eq_dec string_dec (nodup string_dec l) l then true else false.
Lemma nodupb_spec l : nodupb l = true -> NoDup l.
Proof. unfold nodupb. destruct (list_eq_dec string_dec (nodup string_dec l) l) as [E|]; [|discriminate]. intros _. rewrite <- E. apply NoDup_nodup. Qed.

(** the tables of a settings record have exactly the documented keys, in this order *)
Definition shaped (s : settings) : Prop :=
  map fst (save_info s) = map fst doc_save /\ map fst (mode_info s) = map fst doc_mode_info /\ map fst (poly_select s) = map fst doc_poly_select /\
  map fst (mode_selection s) = (map fst doc_mode_selection ++ ["mode_l"; "mode_m"])%list /\
  map fst (mode_computation s) = ["adiabatic"; "use_complex"; "use_symbolic_profiles"; "use_brunt_def"; "use_rotating_formalism"; "terms_cc_conj"; "polytrope_comp"; "analytic_polytrope"] /\
  map fst (comp s) = map fst doc_comp /\ map fst (poly_model s) = map fst doc_poly_model /\ map fst (a_i s) = map fst doc_angular /\
  map fst (cc_profile_selection s) = (map fst doc_selection ++ ["mode_l"; "mode_m"])%list /\ map fst (cc_profile_plot s) = map fst doc_plot.
Lemma tset_keys_fresh t k v ks : map fst t = ks -> known ks k = false -> map fst (tset t k v) = (ks ++ [k])%list.
Proof.
  intros E K. rewrite tset_fresh; [rewrite map_app, E; reflexivity|]. rewrite E. intros X. unfold known in K.
  assert (Y : existsb (String.eqb k) ks = true). { apply existsb_exists. exists k. split; [exact X|apply String.eqb_refl]. } congruence.
Qed.
Lemma read_toml_shaped d s : read_toml_args d = Ok s -> shaped s.
Proof.
  unfold read_toml_args. destruct (convert_toml_input_list_to_tuple d) as [d'| |]; cbn [bind]; try discriminate.
  Ltac rd L := match goal with |- bind ?x _ = _ -> _ => let t := fresh "t" in let E := fresh "E" in destruct x as [t| |] eqn:E; cbn [bind]; try discriminate; try (apply L in E; [|]) end.
  destruct (read_in_to_dict d' mode_info_spec) as [t1| |] eqn:E1; cbn [bind]; try discriminate.
  destruct (read_in_to_dict d' mode_poly_spec) as [t2| |] eqn:E2; cbn [bind]; try discriminate.
  destruct (read_in_to_dict d' mode_selection_spec) as [t3| |] eqn:E3; cbn [bind]; try discriminate.
  destruct (read_in_to_list d' l_spec) as [ls| |] eqn:El; cbn [bind]; try discriminate.
  destruct (read_in_to_list d' m_spec) as [ms| |] eqn:Em; cbn [bind]; try discriminate.
  destruct (read_in_to_dict d' mode_computation_spec) as [t4| |] eqn:E4; cbn [bind]; try discriminate.
  destruct (read_in_to_dict d' computation_spec) as [t5| |] eqn:E5; cbn [bind]; try discriminate.
  destruct (read_in_to_dict d' save_spec) as [t6| |] eqn:E6; cbn [bind]; try discriminate.
  destruct (read_in_to_dict d' poly_model_spec) as [t7| |] eqn:E7; cbn [bind]; try discriminate.
  destruct (read_in_to_dict d' ang_integ_spec) as [t8| |] eqn:E8; cbn [bind]; try discriminate.
  destruct (read_in_to_dict d' cc_selection_spec) as [t9| |] eqn:E9; cbn [bind]; try discriminate.
  destruct (read_in_to_dict d' cc_plot_spec) as [t10| |] eqn:E10; cbn [bind]; try discriminate.
  destruct (read_in_to_list d' rest_spec) as [[|r1 [|r2 [|r3 [|r4 [|]]]]]| |]; cbn [bind]; try discriminate. intros E. injection E as <-.
  unfold shaped. cbn [save_info mode_info poly_select mode_selection mode_computation comp poly_model a_i cc_profile_selection cc_profile_plot].
  apply triples_keys in E1; [|discriminate|apply nodupb_spec; vm_compute; reflexivity].
  apply triples_keys in E2; [|discriminate|apply nodupb_spec; vm_compute; reflexivity].
  apply pairs_keys in E3; [|apply nodupb_spec; vm_compute; reflexivity].
  apply triples_keys in E4; [|discriminate|apply nodupb_spec; vm_compute; reflexivity].
  apply triples_keys in E5; [|discriminate|apply nodupb_spec; vm_compute; reflexivity].
  apply triples_keys in E6; [|discriminate|apply nodupb_spec; vm_compute; reflexivity].
  apply triples_keys in E7; [|discriminate|apply nodupb_spec; vm_compute; reflexivity].
  apply triples_keys in E8; [|discriminate|apply nodupb_spec; vm_compute; reflexivity].
  apply triples_keys in E9; [|discriminate|apply nodupb_spec; vm_compute; reflexivity].
  apply triples_keys in E10; [|discriminate|apply nodupb_spec; vm_compute; reflexivity].
  repeat (split; [first [assumption
    | rewrite (tset_keys_fresh _ "mode_m" _ (map fst doc_mode_selection ++ ["mode_l"])%list); [reflexivity|apply tset_keys_fresh; [exact E3|reflexivity]|reflexivity]
    | rewrite (tset_keys_fresh _ "mode_m" _ (map fst doc_selection ++ ["mode_l"])%list); [reflexivity|apply tset_keys_fresh; [exact E9|reflexivity]|reflexivity]]|]).
  exact E10.
Qed.
(** a table with known keys is the list of these keys with some values *)
Ltac concrete t H := repeat (let k := fresh "k" in let v := fresh "v" in destruct t as [|[k v] t]; cbn [map fst app] in H; [try discriminate H|try discriminate H; injection H as -> H]); try (destruct t; [clear H|discriminate H]).
