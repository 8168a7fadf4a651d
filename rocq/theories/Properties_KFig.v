(** * Kernel figures of a profile run: C156-C159. *)
From Coq Require Import Reals List ZArith Bool String Ascii Lia Lra.
From Coquelicot Require Import Complex.
From Verif Require Import Base Py Saver_Model Freq_Model Coupling_Model Coupling_Proofs Kernel_Model Kernel_Spec Kernel_Proofs Properties_Kernel KFig_Model KFig_Spec KFig_Proofs.
Import ListNotations.
Local Open Scope string_scope.
Local Open Scope list_scope.
Local Open Scope res_scope.

Lemma app_a a b c : (a +++ b) +++ c = a +++ (b +++ c).
Proof. induction a; cbn; congruence. Qed.
Lemma app_e a : a +++ "" = a.
Proof. induction a; cbn; congruence. Qed.
Lemma app_len a b : String.length (a +++ b) = (String.length a + String.length b)%nat.
Proof. induction a; cbn; congruence. Qed.
Lemma app_inj_l a b c : a +++ b = a +++ c -> b = c.
Proof. induction a; cbn; [tauto|]. intros H. apply IHa. congruence. Qed.
Lemma app_inj_r a b c : a +++ c = b +++ c -> a = b.
Proof.
  revert b. induction a as [|x a IH]; intros [|y b] H; try reflexivity.
  - apply (f_equal String.length) in H. rewrite !app_len in H. cbn in H. lia.
  - apply (f_equal String.length) in H. rewrite !app_len in H. cbn in H. lia.
  - cbn in H. injection H as -> H. f_equal. apply IH. exact H.
Qed.

(** ** C158: the figure functions, for any kernels and any number of panels per figure *)
Lemma radial_fig_ok number tar c : (1 <= c)%Z -> radial_kernel_fig number tar c = Ok (map (new_panel number (0%R, 1%R) "r / R" "k" true tar) (seq 0 (Z.to_nat c))).
Proof. intros H. unfold radial_kernel_fig, kernel_fig. rewrite (grid_row c H). reflexivity. Qed.
Lemma angular_fig_ok number c : (1 <= c)%Z -> angular_kernel_fig number c = Ok (map (new_panel number ((-1)%R, 1%R) "$\mu$" "k\,\mu" false None) (seq 0 (Z.to_nat c))).
Proof. intros H. unfold angular_kernel_fig, kernel_fig. rewrite (grid_row c H). reflexivity. Qed.

(** one panel for each kernel, in order, through the figures in order; brackets around the legend texts;
    too many kernels: IndexError and nothing is saved *)
Theorem C158_radial_panels : forall n x number terms cols path part tar scale, Forall legend_fits terms -> Forall (fun c => (1 <= c)%Z) cols ->
  let out := radial_figures n x number terms cols path part tar scale false in
  ((total cols < List.length terms)%nat -> out = Exc IndexError) /\
  ((List.length terms <= total cols)%nat -> exists fs, out = Ok fs /\ List.length fs = List.length cols /\
     forall f c, nth_error cols f = Some c ->
       exists g, nth_error fs f = Some (path +++ "/cc_contribution_" +++ str_of_Z number +++ "_radial_kernels_nr_" +++ str_of_Z (Z.of_nat f + 1) +++ part +++ ".png", g) /\
         List.length g = Z.to_nat c /\
         forall q, (q < Z.to_nat c)%nat -> exists p, nth_error g q = Some p /\ radial_frame (str_of_Z number) tar (q =? 0)%nat p /\
           match nth_error terms (total (firstn f cols) + q) with
           | Some d => term_lines n x "[" "]" d (p_lines p) /\ p_title p = Some (d_title d +++ scale)
           | None => p_lines p = [] /\ p_title p = None
           end).
Proof.
  intros n x number terms cols path part tar scale F C out. unfold out, radial_figures.
  rewrite (all_figs_ok _ _ cols (fun c => radial_fig_ok number tar c) C). cbn [bind]. cbv zeta. split; intros L.
  - rewrite multiple_general; [reflexivity|exact F|exact L].
  - destruct (multiple_fits n x (fun _ => true) (fun d => Some (d_title d +++ scale)) (new_panel number (0%R, 1%R) "r / R" "k" true tar) terms cols path number "radial" part F L)
      as (axes' & E & Ln & N). rewrite E. cbn [bind]. eexists. split; [reflexivity|]. split; [exact Ln|].
    intros f c Hc. destruct (N f c Hc) as (g & G & Lg & Nq). exists g. split; [exact G|]. split; [exact Lg|].
    intros q Hq. eexists. split; [apply (Nq q Hq)|]. destruct (nth_error terms _) as [d|] eqn:Ed.
    + split; [repeat split|]. split; [|reflexivity].
      apply (lines_of_spec n x true d). rewrite Forall_forall in F. apply F. apply nth_error_In in Ed. exact Ed.
    + split; [repeat split|]. split; reflexivity.
Qed.
Theorem C158_angular_panels : forall n x number terms cols path part, Forall legend_fits terms -> Forall (fun c => (1 <= c)%Z) cols ->
  let out := angular_figures n x number terms cols path part false in
  ((total cols < List.length terms)%nat -> out = Exc IndexError) /\
  ((List.length terms <= total cols)%nat -> exists fs, out = Ok fs /\ List.length fs = List.length cols /\
     forall f c, nth_error cols f = Some c ->
       exists g, nth_error fs f = Some (path +++ "/cc_contribution_" +++ str_of_Z number +++ "_angular_kernels_nr_" +++ str_of_Z (Z.of_nat f + 1) +++ part +++ ".png", g) /\
         List.length g = Z.to_nat c /\
         forall q, (q < Z.to_nat c)%nat -> exists p, nth_error g q = Some p /\ angular_frame (str_of_Z number) (q =? 0)%nat p /\ p_title p = None /\
           match nth_error terms (total (firstn f cols) + q) with
           | Some d => term_lines n x (if d_sym d then "" else "[") (if d_sym d then "" else "]") d (p_lines p)
           | None => p_lines p = []
           end).
Proof.
  intros n x number terms cols path part F C out. unfold out, angular_figures.
  rewrite (all_figs_ok _ _ cols (fun c => angular_fig_ok number c) C). cbn [bind]. cbv zeta. split; intros L.
  - rewrite multiple_general; [reflexivity|exact F|exact L].
  - destruct (multiple_fits n x (fun d => negb (d_sym d)) (fun _ => None) (new_panel number ((-1)%R, 1%R) "$\mu$" "k\,\mu" false None) terms cols path number "angular" part F L)
      as (axes' & E & Ln & N). rewrite E. cbn [bind]. eexists. split; [reflexivity|]. split; [exact Ln|].
    intros f c Hc. destruct (N f c Hc) as (g & G & Lg & Nq). exists g. split; [exact G|]. split; [exact Lg|].
    intros q Hq. eexists. split; [apply (Nq q Hq)|]. destruct (nth_error terms _) as [d|] eqn:Ed.
    + split; [repeat split|]. split; [reflexivity|].
      replace (if d_sym d then "" else "[") with (if negb (d_sym d) then "[" else "") by (destruct (d_sym d); reflexivity).
      replace (if d_sym d then "" else "]") with (if negb (d_sym d) then "]" else "") by (destruct (d_sym d); reflexivity).
      apply (lines_of_spec n x (negb (d_sym d)) d). rewrite Forall_forall in F. apply F. apply nth_error_In in Ed. exact Ed.
    + split; [repeat split|]. split; reflexivity.
Qed.
(** the other layout: every kernel on the first panel of the first figure, the only one that is saved *)
Theorem C158_radial_single : forall n x number terms c cols path part tar scale (first : kdraw -> string),
  (forall d, In d terms -> nth_error (d_legend d) 0 = Some (first d)) -> (1 <= c)%Z -> Forall (fun c => (1 <= c)%Z) cols ->
  exists p rest, radial_figures n x number terms (c :: cols) path part tar scale true =
      Ok [(path +++ "/cc_contribution_" +++ str_of_Z number +++ "_radial_kernels" +++ part +++ ".png", p :: rest)] /\
    List.length (p :: rest) = Z.to_nat c /\ radial_frame (str_of_Z number) tar true p /\ p_title p = None /\ (forall q, In q rest -> p_lines q = []) /\
    p_lines p = flat_map (fun d => map (fun y => {| l_label := d_title d +++ "$\,\,$[" +++ first d +++ "]" +++ scale; l_n := n; l_x := x; l_y := y |}) (d_rows d)) terms.
Proof.
  intros n x number terms c cols path part tar scale first HF C Cs. unfold radial_figures.
  rewrite (all_figs_ok _ _ (c :: cols) (fun c => radial_fig_ok number tar c)) by (constructor; assumption). cbn [bind]. cbv zeta.
  rewrite sizes_of. cbn [map]. cbn [List.concat]. destruct (Z.to_nat c) as [|k] eqn:Ec; [lia|]. cbn [seq map List.app].
  rewrite (draw_single_ok n x _ (fun d => d_title d +++ "$\,\,$[" +++ first d +++ "]" +++ scale)).
  2:{ intros d Hd. specialize (HF d Hd). unfold radial_single_label. destruct (d_legend d); [discriminate HF|]. injection HF as ->. reflexivity. }
  cbn [bind map regroup firstn skipn]. eexists. eexists. split; [reflexivity|]. split.
  { cbn. rewrite firstn_length, app_length, map_length, seq_length. lia. }
  split; [repeat split|]. split; [reflexivity|]. split; [|reflexivity].
  intros q Hq. rewrite firstn_app, map_length, seq_length, Nat.sub_diag in Hq. cbn [firstn] in Hq. rewrite app_nil_r in Hq.
  rewrite firstn_all2 in Hq by (rewrite map_length, seq_length; lia). apply in_map_iff in Hq. destruct Hq as (i & <- & _). reflexivity.
Qed.
Theorem C158_angular_single : forall n x number terms c cols path part (text : kdraw -> string),
  (forall d, In d terms -> angular_single_label d = Ok (text d)) -> (1 <= c)%Z -> Forall (fun c => (1 <= c)%Z) cols ->
  exists p rest, angular_figures n x number terms (c :: cols) path part true =
      Ok [(path +++ "/cc_contribution_" +++ str_of_Z number +++ "_radial_kernels" +++ part +++ ".png", p :: rest)] /\
    List.length (p :: rest) = Z.to_nat c /\ angular_frame (str_of_Z number) true p /\ p_title p = None /\ (forall q, In q rest -> p_lines q = []) /\
    p_lines p = flat_map (fun d => map (fun y => {| l_label := text d; l_n := n; l_x := x; l_y := y |}) (d_rows d)) terms.
Proof.
  intros n x number terms c cols path part text HF C Cs. unfold angular_figures.
  rewrite (all_figs_ok _ _ (c :: cols) (fun c => angular_fig_ok number c)) by (constructor; assumption). cbn [bind]. cbv zeta.
  rewrite sizes_of. cbn [map]. cbn [List.concat]. destruct (Z.to_nat c) as [|k] eqn:Ec; [lia|]. cbn [seq map List.app].
  rewrite (draw_single_ok n x _ text _ HF).
  cbn [bind map regroup firstn skipn]. eexists. eexists. split; [reflexivity|]. split.
  { cbn. rewrite firstn_length, app_length, map_length, seq_length. lia. }
  split; [repeat split|]. split; [reflexivity|]. split; [|reflexivity].
  intros q Hq. rewrite firstn_app, map_length, seq_length, Nat.sub_diag in Hq. cbn [firstn] in Hq. rewrite app_nil_r in Hq.
  rewrite firstn_all2 in Hq by (rewrite map_length, seq_length; lia). apply in_map_iff in Hq. destruct Hq as (i & <- & _). reflexivity.
Qed.

(** ** C159: the legend of a line tells which function of which mode is shown *)
(** the legend of the single angular figure goes through repr() and an escape decoding: for TeX texts
    without quotes, nothing is lost; symmetrised kernels would get their brackets twice *)
Definition tex_text (s : string) : Prop := exists u, s = "$" +++ u +++ "$" /\ has quote u = false /\
  forall c, has c u = true -> (32 <= nat_of_ascii c <= 126)%nat.
Lemma has_app c a b : has c (a +++ b) = has c a || has c b.
Proof. induction a; cbn; [reflexivity|]. rewrite IHa, orb_assoc. reflexivity. Qed.
Lemma escape_app q a b : escape q (a +++ b) = escape q a +++ escape q b.
Proof. induction a as [|c a IH]; cbn; [reflexivity|]. rewrite IH. destruct ((c =? backslash) || (c =? q))%char; reflexivity. Qed.
Lemma escape_noquote u : has quote u = false -> has quote (escape quote u) = false.
Proof.
  induction u as [|c u IH]; cbn; [reflexivity|]. intros H. apply orb_false_iff in H. destruct H as [A B]. rewrite A, orb_false_r.
  destruct (c =? backslash)%char eqn:E; cbn; rewrite (IH B), A; reflexivity.
Qed.
Lemma repl1_skip s t : has quote s = false -> replace2 quote "$" "$" (s +++ t) = s +++ replace2 quote "$" "$" t.
Proof.
  induction s as [|c s IH]; [reflexivity|]. cbn [has]. intros H. apply orb_false_iff in H. destruct H as [A B].
  change (String c s +++ t) with (String c (s +++ t)). cbn [replace2]. rewrite A. cbn [andb].
  destruct (s +++ t) as [|d u] eqn:E.
  - destruct s; [|discriminate E]. cbn in E. subst t. reflexivity.
  - rewrite (IH B). reflexivity.
Qed.
Lemma repl2_skip s c t : has quote s = false -> (c =? quote)%char = false ->
  replace2 "$" quote "$" (s +++ String c t) = s +++ replace2 "$" quote "$" (String c t).
Proof.
  induction s as [|d s IH]; [reflexivity|]. cbn [has]. intros H Hc. apply orb_false_iff in H. destruct H as [A B].
  change (String d s +++ String c t) with (String d (s +++ String c t)). cbn [replace2].
  destruct (s +++ String c t) as [|e u] eqn:E; [destruct s; discriminate E|].
  assert (Q : (e =? quote)%char = false).
  { destruct s as [|e' s']; cbn in E; injection E as <- _; [exact Hc|]. cbn in B. apply orb_false_iff in B. apply B. }
  rewrite Q, andb_false_r, (IH B Hc). reflexivity.
Qed.
Lemma repl2_dollar s t : has quote s = false -> replace2 "$" quote "$" (s +++ "$'" +++ t) = s +++ "$" +++ replace2 "$" quote "$" t.
Proof.
  intros H. induction s as [|c s IH]; [reflexivity|]. cbn [has] in H. apply orb_false_iff in H. destruct H as [A B].
  change (String c s +++ "$'" +++ t) with (String c (s +++ "$'" +++ t)). cbn [replace2].
  destruct (s +++ "$'" +++ t) as [|e u] eqn:E; [destruct s; discriminate E|].
  assert (Q : (e =? quote)%char = false).
  { destruct s as [|e' s']; cbn in E; injection E as <- _; [reflexivity|]. cbn in B. apply orb_false_iff in B. apply B. }
  rewrite Q, andb_false_r, (IH B). reflexivity.
Qed.
Lemma unescape_escape s t : has quote s = false -> unescape (escape quote s +++ t) = (v <- unescape t ; Ok (s +++ v)).
Proof.
  induction s as [|c s IH]; cbn [has]; intros H; [cbn; destruct (unescape t); reflexivity|]. apply orb_false_iff in H. destruct H as [A B].
  cbn [escape]. rewrite A, orb_false_r. destruct (c =? backslash)%char eqn:E.
  - change (String backslash (String c (escape quote s)) +++ t) with (String backslash (String c (escape quote s +++ t))).
    cbn [unescape]. change ((backslash =? backslash)%char) with true. cbv iota. rewrite (IH B), E. cbn [orb].
    destruct (unescape t); reflexivity.
  - change (String c (escape quote s) +++ t) with (String c (escape quote s +++ t)). cbn [unescape]. rewrite E, (IH B).
    destruct (unescape t); reflexivity.
Qed.
Lemma unescape_cons c t : (c =? backslash)%char = false -> unescape (String c t) = (v <- unescape t ; Ok (String c v)).
Proof. intros E. cbn [unescape]. rewrite E. reflexivity. Qed.
Lemma tex_repr s : tex_text s -> exists u, s = "$" +++ u +++ "$" /\ has quote u = false /\ py_repr s = "'$" +++ escape quote u +++ "$'".
Proof.
  intros (u & -> & Q & _). exists u. split; [reflexivity|]. split; [exact Q|]. unfold py_repr.
  rewrite !has_app, Q. cbn [has orb andb]. change (("$" =? quote)%char) with false. cbn [orb andb]. rewrite !escape_app. cbn. f_equal. f_equal. rewrite app_a. reflexivity.
Qed.
Lemma single_text l tail c : Forall tex_text l -> l <> [] -> (c =? quote)%char = false -> (c =? "$")%char = false -> has quote tail = false ->
  unescape (replace2 "$" quote "$" (replace2 quote "$" "$" (join ", " (map py_repr l) +++ String c tail))) =
  (v <- unescape (String c tail) ; Ok (join ", " l +++ v)).
Proof.
  intros F NE Hc Hd Ht. induction F as [|s l Fs F IH]; [contradiction|].
  destruct (tex_repr s Fs) as (u & -> & Q & R). pose proof (escape_noquote u Q) as Q'.
  assert (P : forall t, replace2 quote "$" "$" ("'$" +++ escape quote u +++ "$'" +++ t) = ("$" +++ escape quote u) +++ "$" +++ replace2 quote "$" "$" ("'" +++ t)).
  { intros t. change ("'$" +++ escape quote u +++ "$'" +++ t) with (String quote (String "$" (escape quote u +++ "$" +++ ("'" +++ t)))).
    cbn [replace2]. change ((quote =? quote)%char) with true. change (("$" =? "$")%char) with true. cbn [andb].
    rewrite (repl1_skip _ _ Q'). rewrite (repl1_skip "$" ("'" +++ t) eq_refl). reflexivity. }
  assert (QE : has quote ("$" +++ escape quote u) = false) by exact Q'.
  destruct l as [|s' l'].
  - cbn [map join]. rewrite R, !app_a, P. 
    assert (P1 : replace2 quote "$" "$" ("'" +++ String c tail) = "'" +++ String c tail).
    { change ("'" +++ String c tail) with (String quote (String c tail)). cbn [replace2]. rewrite Hd, andb_false_r. f_equal.
      pose proof (repl1_skip (String c tail) "" ) as X. cbn [has] in X. rewrite Hc, Ht in X. specialize (X eq_refl). rewrite !app_e in X. exact X. }
    rewrite P1. change ("$" +++ ("'" +++ String c tail)) with ("$'" +++ String c tail). rewrite (repl2_dollar _ _ QE).
    assert (P2 : replace2 "$" quote "$" (String c tail) = String c tail).
    { cbn [replace2]. destruct tail as [|d t]; [reflexivity|]. rewrite Hd. cbn [andb]. f_equal.
      clear - Ht. revert d Ht. induction t as [|e t IH]; intros d H; [reflexivity|]. cbn [has] in H. apply orb_false_iff in H. destruct H as [_ H].
      cbn [replace2]. pose proof H as H0. apply orb_false_iff in H0. destruct H0 as [H0 _]. rewrite H0, andb_false_r. f_equal. apply IH. exact H. }
    rewrite P2. rewrite <- !app_a.
    change ("$" +++ escape quote u) with (escape quote ("$" +++ u)). change ((escape quote ("$" +++ u) +++ "$") +++ String c tail) with ((escape quote ("$" +++ u) +++ escape quote "$") +++ String c tail).
    rewrite <- escape_app. rewrite unescape_escape by (rewrite !has_app, Q; reflexivity). rewrite !app_a. reflexivity.
  - assert (NE' : s' :: l' <> []) by discriminate. specialize (IH NE').
    set (w := join ", " (map py_repr (s' :: l')) +++ String c tail) in *.
    change (join ", " (map py_repr (("$" +++ u +++ "$") :: s' :: l')) +++ String c tail) with
      ((py_repr ("$" +++ u +++ "$") +++ ", " +++ join ", " (map py_repr (s' :: l'))) +++ String c tail).
    rewrite R, !app_a. fold w. rewrite P.
    assert (P1 : replace2 quote "$" "$" ("'" +++ ", " +++ w) = "'" +++ ", " +++ replace2 quote "$" "$" w).
    { change ("'" +++ ", " +++ w) with (String quote (", " +++ w)). 
      change (replace2 quote "$" "$" (String quote (", " +++ w))) with (String quote (replace2 quote "$" "$" (", " +++ w))).
      rewrite (repl1_skip ", " w eq_refl). reflexivity. }
    rewrite P1. change ("$" +++ "'" +++ ", " +++ replace2 quote "$" "$" w) with ("$'" +++ ", " +++ replace2 quote "$" "$" w).
    rewrite (repl2_dollar _ _ QE).
    assert (P2 : replace2 "$" quote "$" (", " +++ replace2 quote "$" "$" w) = ", " +++ replace2 "$" quote "$" (replace2 quote "$" "$" w)).
    { destruct (replace2 quote "$" "$" w) as [|d t]; [reflexivity|]. 
      change (", " +++ String d t) with (String "," (String " " (String d t))). cbn [replace2]. 
      change (("," =? "$")%char) with false. change ((" " =? "$")%char) with false. cbn [andb]. reflexivity. }
    rewrite P2. change (join ", " (("$" +++ u +++ "$") :: s' :: l')) with (("$" +++ u +++ "$") +++ ", " +++ join ", " (s' :: l')).
    assert (G : forall y, ("$" +++ escape quote u) +++ "$" +++ y = escape quote ("$" +++ u +++ "$") +++ y).
    { intros y. rewrite !escape_app, !app_a. reflexivity. }
    rewrite G, unescape_escape by (rewrite !has_app, Q; reflexivity).
    match goal with |- context [unescape (", " +++ ?y)] => change (", " +++ y) with (String "," (String " " y)) end.
    rewrite (unescape_cons "," _ eq_refl), (unescape_cons " " _ eq_refl). rewrite IH. destruct (unescape (String c tail)); cbn [bind]; [|reflexivity..].
    f_equal. rewrite !app_a. reflexivity.
Qed.
Theorem C159_single_legend : forall d, Forall tex_text (d_legend d) -> d_legend d <> [] ->
  angular_single_label d = Ok (if d_sym d then "[[" +++ join ", " (d_legend d) +++ "]]" else "[" +++ join ", " (d_legend d) +++ "]").
Proof.
  intros d F NE. unfold angular_single_label, str_of_list. destruct (d_sym d).
  - change ("[" +++ ("[" +++ join ", " (map py_repr (d_legend d)) +++ "]") +++ "]") with ("[[" +++ (join ", " (map py_repr (d_legend d)) +++ "]") +++ "]").
    rewrite (app_a _ "]" "]"). change ("]" +++ "]") with (String "]" "]").
    set (w := join ", " (map py_repr (d_legend d)) +++ String "]" "]"). rewrite (repl1_skip "[[" w eq_refl).
    assert (X : replace2 "$" quote "$" ("[[" +++ replace2 quote "$" "$" w) = "[[" +++ replace2 "$" quote "$" (replace2 quote "$" "$" w)).
    { destruct (replace2 quote "$" "$" w) as [|e t]; reflexivity. }
    rewrite X. change ("[[" +++ replace2 "$" quote "$" (replace2 quote "$" "$" w)) with (String "[" (String "[" (replace2 "$" quote "$" (replace2 quote "$" "$" w)))).
    rewrite !(unescape_cons "[" _ eq_refl). unfold w. rewrite single_text by (try assumption; try reflexivity; tauto). reflexivity.
  - set (w := join ", " (map py_repr (d_legend d)) +++ "]"). rewrite (repl1_skip "[" w eq_refl).
    assert (X : replace2 "$" quote "$" ("[" +++ replace2 quote "$" "$" w) = "[" +++ replace2 "$" quote "$" (replace2 quote "$" "$" w)).
    { destruct (replace2 quote "$" "$" w) as [|e t]; reflexivity. }
    rewrite X. change ("[" +++ replace2 "$" quote "$" (replace2 quote "$" "$" w)) with (String "[" (replace2 "$" quote "$" (replace2 quote "$" "$" w))).
    rewrite !(unescape_cons "[" _ eq_refl). unfold w. rewrite single_text by (try assumption; try reflexivity; tauto). reflexivity.
Qed.
(** the text of a product determines the function of each mode *)
Lemma tex_rad_sep a b s t : shown_rad a -> shown_rad b -> tex_rad a +++ ", " +++ s = tex_rad b +++ ", " +++ t -> a = b /\ s = t.
Proof. intros [A1 A2] [B1 B2] H. destruct a, b; try congruence; cbn in H; try discriminate H; (split; [reflexivity|]); congruence. Qed.
Lemma tex_rad_end a b s : shown_rad a -> shown_rad b -> tex_rad a +++ s = tex_rad b +++ s -> a = b.
Proof. intros [A1 A2] [B1 B2] H. apply app_inj_r in H. destruct a, b; try congruence; cbn in H; discriminate H. Qed.
Definition shown_rad_mode (a : rterm) : Prop := shown_rad a /\ a <> RDerXZ2c.
Lemma tex_rad_mode_sep a b m s t : shown_rad_mode a -> shown_rad_mode b -> tex_rad_mode a m +++ s = tex_rad_mode b m +++ t -> a = b /\ (a = b -> s = t).
Proof.
  intros [[A1 A2] A3] [[B1 B2] B3] H. split.
  - destruct a, b; try congruence; cbn in H; discriminate H.
  - intros ->. apply app_inj_l in H. exact H.
Qed.
Lemma tex_ang_sep a b s t : tex_ang a +++ ", " +++ s = tex_ang b +++ ", " +++ t -> a = b /\ s = t.
Proof. intros H. destruct a, b; cbn in H; try discriminate H; (split; [reflexivity|]); congruence. Qed.
Lemma tex_ang_end a b s : tex_ang a +++ s = tex_ang b +++ s -> a = b.
Proof. intros H. apply app_inj_r in H. destruct a, b; cbn in H; try discriminate H; reflexivity. Qed.
Lemma tex_ang_mode_sep a b m s t : tex_ang_mode a m +++ s = tex_ang_mode b m +++ t -> a = b /\ s = t.
Proof.
  intros H. assert (E : a = b) by (destruct a, b; cbn in H; try discriminate H; reflexivity). subst b. split; [reflexivity|]. apply app_inj_l in H. exact H.
Qed.
Definition all3 {A} (P : A -> Prop) (t : A * A * A) : Prop := let '(a, b, c) := t in P a /\ P b /\ P c.
Theorem C159_radial_label_identifies : forall (sym : bool) t u, all3 (if sym then shown_rad else shown_rad_mode) t -> all3 (if sym then shown_rad else shown_rad_mode) u ->
  radial_label sym t = radial_label sym u -> t = u.
Proof.
  intros sym [[a b] c] [[a' b'] c'] (Pa & Pb & Pc) (Qa & Qb & Qc) H. unfold radial_label in H. apply app_inj_l in H. apply app_inj_r in H.
  unfold product_text in H. destruct sym.
  - apply (tex_rad_sep a a' _ _ Pa Qa) in H. destruct H as [-> H]. apply (tex_rad_sep b b' _ _ Pb Qb) in H. destruct H as [-> H].
    rewrite <- (app_e (tex_rad c)), <- (app_e (tex_rad c')) in H. apply (tex_rad_end c c' _ Pc Qc) in H. rewrite H. reflexivity.
  - destruct (tex_rad_mode_sep a a' _ _ _ Pa Qa H) as [-> H1]. specialize (H1 eq_refl). apply app_inj_l in H1.
    destruct (tex_rad_mode_sep b b' _ _ _ Pb Qb H1) as [-> H2]. specialize (H2 eq_refl). apply app_inj_l in H2.
    rewrite <- (app_e (tex_rad_mode c "C")), <- (app_e (tex_rad_mode c' "C")) in H2.
    destruct (tex_rad_mode_sep c c' _ _ _ Pc Qc H2) as [-> _]. reflexivity.
Qed.
Theorem C159_angular_label_identifies : forall (div : bool) pre (sym : bool) t u, angular_label div pre sym t = angular_label div pre sym u -> t = u.
Proof.
  intros div pre sym [[a b] c] [[a' b'] c'] H. unfold angular_label in H.
  assert (E : product_text sym tex_ang tex_ang_mode (a, b, c) = product_text sym tex_ang tex_ang_mode (a', b', c')).
  { destruct sym, div; repeat (apply app_inj_l in H); try (apply app_inj_r in H; repeat apply app_inj_l in H; try apply app_inj_r in H).
    all: try exact H. }
  clear H. unfold product_text in E. destruct sym.
  - apply tex_ang_sep in E. destruct E as [-> E]. apply tex_ang_sep in E. destruct E as [-> E].
    rewrite <- (app_e (tex_ang c)), <- (app_e (tex_ang c')) in E. apply tex_ang_end in E. rewrite E. reflexivity.
  - apply tex_ang_mode_sep in E. destruct E as [-> E]. apply app_inj_l in E. apply tex_ang_mode_sep in E. destruct E as [-> E]. apply app_inj_l in E.
    rewrite <- (app_e (tex_ang_mode c "C")), <- (app_e (tex_ang_mode c' "C")) in E. apply tex_ang_mode_sep in E. destruct E as [-> _]. reflexivity.
Qed.

(** ** C156, C157: the kernel figures of a profile run *)
(** legends and rows of the entries of the kernel dictionaries *)
Lemma rlab a : plot_label rad_members (rname a) = tex_rad a. Proof. destruct a; reflexivity. Qed.
Lemma rlab_mode a m : plot_label_specific rad_specific (rname a) m = tex_rad_mode a m. Proof. destruct a; reflexivity. Qed.
Lemma alab a : plot_label ang_members (aname a) = tex_ang a. Proof. destruct a; reflexivity. Qed.
Lemma alab_mode a m : plot_label_specific ang_specific (aname a) m = tex_ang_mode a m. Proof. destruct a; reflexivity. Qed.
Lemma plab p : plot_label rad_members (pname p) = tex_profile p. Proof. destruct p; reflexivity. Qed.
Lemma rad_strings (t : kterm rterm) : (t_sym t = false -> exists r, t_rows t = [r]) ->
  legend_strings rname rad_members rad_specific t = map (fun r => product_text (t_sym t) tex_rad tex_rad_mode (fst r)) (t_rows t).
Proof.
  intros H. unfold legend_strings. destruct (t_sym t).
  - apply map_ext. intros [[[a b] c] f]. cbn. rewrite !rlab. reflexivity.
  - destruct (H eq_refl) as [[[[a b] c] f] ->]. cbn [map fst names3 combine snd]. rewrite !rlab_mode. reflexivity.
Qed.
Lemma ang_strings (t : kterm aterm) : (t_sym t = false -> exists r, t_rows t = [r]) ->
  legend_strings aname ang_members ang_specific t = map (fun r => product_text (t_sym t) tex_ang tex_ang_mode (fst r)) (t_rows t).
Proof.
  intros H. unfold legend_strings. destruct (t_sym t).
  - apply map_ext. intros [[[a b] c] f]. cbn. rewrite !alab. reflexivity.
  - destruct (H eq_refl) as [[[[a b] c] f] ->]. cbn [map fst names3 combine snd]. rewrite !alab_mode. reflexivity.
Qed.
Lemma spaced_join l : join "\," l = spaced l.
Proof. induction l as [|a [|b l] IH]; try reflexivity. change (join "\," (a :: b :: l)) with (a +++ "\," +++ join "\," (b :: l)). rewrite IH. reflexivity. Qed.
Lemma perm_keys_ne {A} (eqb : A -> A -> bool) (t : A * A * A) : (forall a, eqb a a = true) -> (forall a b, eqb a b = true -> a = b) -> perm_keys eqb t <> [].
Proof.
  intros R T E. destruct (perm_keys_spec eqb t R T) as [_ M]. rewrite E in M. destruct t as [[a b] c]. apply (proj2 (M (a, b, c))). left. reflexivity.
Qed.
Lemma radial_term_shape K ad sym t f ps : let k := radial_kernel_term K ad sym t f ps in
  t_rows k <> [] /\ t_sym k = sym /\ (t_sym k = false -> exists r, t_rows k = [r]).
Proof.
  unfold radial_kernel_term. destruct sym; cbn.
  - split; [|split; [reflexivity|discriminate]]. pose proof (perm_keys_ne rterm_beq t rterm_beq_refl rterm_true). destruct (perm_keys rterm_beq t); [contradiction|discriminate].
  - split; [discriminate|]. split; [reflexivity|]. intros _. eexists. reflexivity.
Qed.
Lemma angular_term_shape E sym t d f : let k := a_term (angular_kernel_term E sym t d f) in
  t_rows k <> [] /\ t_sym k = sym /\ (t_sym k = false -> exists r, t_rows k = [r]).
Proof.
  unfold angular_kernel_term. destruct sym; cbn.
  - split; [|split; [reflexivity|discriminate]]. pose proof (perm_keys_ne aterm_beq t aterm_beq_refl aterm_true). destruct (perm_keys aterm_beq t); [contradiction|discriminate].
  - split; [discriminate|]. split; [reflexivity|]. intros _. eexists. reflexivity.
Qed.
(** an entry with one legend text per row *)
Lemma entry_fits {A} (rows : list ((A * A * A) * (nat -> C))) (lab : A * A * A -> string) d : rows <> [] ->
  d_legend d = map (fun r => lab (fst r)) rows -> d_rows d = map (fun r i => Re (snd r i)) rows -> legend_fits d.
Proof. intros N L R. unfold legend_fits. rewrite L, R, !map_length. split; [destruct rows; [contradiction|discriminate]|reflexivity]. Qed.
Lemma entry_shows {A} (rows : list ((A * A * A) * (nat -> C))) (lab : A * A * A -> string) d n x pre post ls (label : A * A * A -> string) :
  d_legend d = map (fun r => lab (fst r)) rows -> d_rows d = map (fun r i => Re (snd r i)) rows -> (forall k, label k = pre +++ lab k +++ post) ->
  term_lines n x pre post d ls -> shows label n x rows ls.
Proof.
  intros L R H [Len T]. split. { rewrite Len, R, map_length. reflexivity. }
  intros i key f Hi. assert (Hr : nth_error (d_rows d) i = Some (fun k => Re (f k))). { rewrite R. erewrite map_nth_error by exact Hi. reflexivity. }
  destruct (T i _ Hr) as (l & s & Hl & Hs & ->). eexists. split; [exact Hl|]. cbn [l_label l_n l_x l_y]. rewrite H.
  assert (s = lab key); [|subst; repeat split].
  rewrite L, map_length in Hs. destruct (Nat.ltb_spec 1 (List.length rows)) as [B|B].
  - erewrite map_nth_error in Hs by exact Hi. injection Hs as <-. reflexivity.
  - assert (i = 0%nat) as ->. { assert (i < List.length rows)%nat by (apply nth_error_Some; congruence). lia. }
    erewrite map_nth_error in Hs by exact Hi. injection Hs as <-. reflexivity.
Qed.
Lemma radial_entry_legend K ad sym t f ps : let k := radial_kernel_term K ad sym t f ps in
  d_legend (radial_entry k ps) = map (fun r => (fun key => "$" +++ product_text sym tex_rad tex_rad_mode key +++ "$") (fst r)) (t_rows k).
Proof.
  intros k. destruct (radial_term_shape K ad sym t f ps) as (N & S & O). fold k in N, S, O. unfold radial_entry. cbn [d_legend].
  rewrite (rad_strings k O), map_map, S. reflexivity.
Qed.
Lemma radial_entry_fits K ad sym t f ps : legend_fits (radial_entry (radial_kernel_term K ad sym t f ps) ps).
Proof. apply (entry_fits (t_rows (radial_kernel_term K ad sym t f ps)) (fun key => "$" +++ product_text sym tex_rad tex_rad_mode key +++ "$")); [apply (radial_term_shape K ad sym t f ps)|apply radial_entry_legend|reflexivity]. Qed.
Lemma radial_entry_shows K ad sym t f ps n x ls : let k := radial_kernel_term K ad sym t f ps in
  term_lines n x "[" "]" (radial_entry k ps) ls -> shows (radial_label (t_sym k)) n x (t_rows k) ls.
Proof.
  intros k T. destruct (radial_term_shape K ad sym t f ps) as (_ & S & _). fold k in S. rewrite S.
  apply (entry_shows (t_rows k) (fun key => "$" +++ product_text sym tex_rad tex_rad_mode key +++ "$") (radial_entry k ps) n x "[" "]"); [apply radial_entry_legend|reflexivity| |exact T]. intros key. cbn beta. unfold radial_label. rewrite !app_a. reflexivity.
Qed.
Lemma radial_entry_title K ad sym t f ps : d_title (radial_entry (radial_kernel_term K ad sym t f ps) ps) +++ energy_scale = radial_title ps.
Proof.
  unfold radial_entry, radial_title. cbn [d_title]. rewrite spaced_join. rewrite (map_ext _ _ plab). rewrite !app_a. reflexivity.
Qed.

Lemma close_1 : is_close 1 1 = true.
Proof. unfold is_close. destruct (Rle_dec _ _) as [|H]; [reflexivity|]. exfalso. apply H. rewrite Rminus_eq_0, Rabs_R0. pose proof (Rmax_l (Rabs 1) (Rabs 1)). pose proof (Rabs_pos 1). lra. Qed.
Lemma close_m1 : is_close (-1) (-1) = true.
Proof. unfold is_close. destruct (Rle_dec _ _) as [|H]; [reflexivity|]. exfalso. apply H. rewrite Rminus_eq_0, Rabs_R0. pose proof (Rmax_l (Rabs (-1)) (Rabs (-1))). pose proof (Rabs_pos (-1)). lra. Qed.
Lemma not_close a b : (Rabs a <= 2)%R -> (Rabs b <= 2)%R -> (1 <= Rabs (a - b))%R -> is_close a b = false.
Proof.
  intros A B H. unfold is_close. destruct (Rle_dec _ _) as [L|]; [|reflexivity]. exfalso.
  assert (Rmax (Rabs a) (Rabs b) <= 2)%R by (apply Rmax_lub; lra). lra.
Qed.
Lemma abs_n a : (0 <= a)%R -> Rabs (- a) = a. Proof. intros. rewrite Rabs_Ropp. apply Rabs_right. lra. Qed.
Lemma abs1 : Rabs 1 = 1%R. Proof. apply Rabs_right; lra. Qed.
Lemma absm1 : Rabs (-1) = 1%R. Proof. apply (abs_n 1); lra. Qed.
Lemma absm2 : Rabs (-2) = 2%R. Proof. apply (abs_n 2); lra. Qed.
(** the factors of the angular kernels *)
Definition known_factor (div : bool) (f : R) : Prop := f = 1%R \/ f = (-1)%R \/ (f = (-2)%R /\ div = true).
Lemma individual_text ftext div f s sym : known_factor div f -> exists pre, factor_text ftext f pre /\
  individual_label ftext false div f s sym =
    (let inner := if sym then "[" +++ s +++ "]" else s in
     if div then "$\dfrac{" +++ pre +++ inner +++ "}{\sqrt{1 - \mu^2}}$" else "$" +++ pre +++ inner +++ "$").
Proof.
  assert (N : is_close (-1) 1 = false).
  { apply not_close; rewrite ?abs1, ?absm1; try lra. replace (-1 - 1)%R with (-2)%R by ring. rewrite absm2. lra. }
  assert (N2 : is_close (-2) 1 = false).
  { apply not_close; rewrite ?abs1, ?absm2; try lra. replace (-2 - 1)%R with (- (3))%R by ring. rewrite abs_n; lra. }
  assert (N3 : is_close (-2) (-1) = false).
  { apply not_close; rewrite ?absm1, ?absm2; try lra. replace (-2 - -1)%R with (-1)%R by ring. rewrite absm1. lra. }
  intros [-> | [-> | [-> ->]]].
  - exists "". split; [left; split; reflexivity|]. unfold individual_label. rewrite close_1. destruct div; reflexivity.
  - exists "-\,". split; [right; left; split; reflexivity|]. unfold individual_label. rewrite N, close_m1. destruct div; reflexivity.
  - exists (ftext (-2)%R +++ "\,"). split; [right; right; split; [lra|split; [lra|reflexivity]]|]. unfold individual_label. rewrite N2, N3. rewrite !app_a. reflexivity.
Qed.
Lemma angular_entry_legend ftext E sym t d f : known_factor d f -> let e := angular_kernel_term E sym t d f in
  exists pre, factor_text ftext f pre /\
  d_legend (angular_entry ftext e) = map (fun r => (fun key =>
     let inner := if sym then "[" +++ product_text sym tex_ang tex_ang_mode key +++ "]" else product_text sym tex_ang tex_ang_mode key in
     if d then "$\dfrac{" +++ pre +++ inner +++ "}{\sqrt{1 - \mu^2}}$" else "$" +++ pre +++ inner +++ "$") (fst r)) (t_rows (a_term e)).
Proof.
  intros KF e. destruct (angular_term_shape E sym t d f) as (N & S & O). fold e in N, S, O.
  destruct (individual_text ftext d f "" true KF) as (pre & P & _). exists pre. split; [exact P|].
  unfold angular_entry. cbn [d_legend]. rewrite (ang_strings _ O), map_map, S. apply map_ext. intros r.
  change (a_mu e) with false. change (a_div e) with d. change (a_factor e) with f.
  destruct (individual_text ftext d f (product_text sym tex_ang tex_ang_mode (fst r)) sym KF) as (pre' & P' & ->).
  assert (pre' = pre) as ->; [|reflexivity].
  destruct P as [[A ->] | [[A ->] | (A & B & ->)]], P' as [[A' ->] | [[A' ->] | (A' & B' & ->)]]; try reflexivity; exfalso; try congruence; lra.
Qed.
Lemma angular_entry_fits ftext E sym t d f : known_factor d f -> legend_fits (angular_entry ftext (angular_kernel_term E sym t d f)).
Proof.
  intros KF. destruct (angular_entry_legend ftext E sym t d f KF) as (pre & _ & L).
  apply (entry_fits (t_rows (a_term (angular_kernel_term E sym t d f))) (fun key => let inner := if sym then "[" +++ product_text sym tex_ang tex_ang_mode key +++ "]" else product_text sym tex_ang tex_ang_mode key in
     if d then "$\dfrac{" +++ pre +++ inner +++ "}{\sqrt{1 - \mu^2}}$" else "$" +++ pre +++ inner +++ "$")); [apply (angular_term_shape E sym t d f)|exact L|reflexivity].
Qed.
Lemma angular_entry_shows ftext E sym t d f n x ls : known_factor d f -> let e := angular_kernel_term E sym t d f in
  let dd := angular_entry ftext e in
  term_lines n x (if d_sym dd then "" else "[") (if d_sym dd then "" else "]") dd ls ->
  exists pre, factor_text ftext (a_factor e) pre /\ shows (angular_label (a_div e) pre (t_sym (a_term e))) n x (t_rows (a_term e)) ls.
Proof.
  intros KF e dd T. destruct (angular_entry_legend ftext E sym t d f KF) as (pre & P & L). fold e in L. exists pre. split; [exact P|].
  destruct (angular_term_shape E sym t d f) as (_ & S & _). fold e in S. rewrite S.
  assert (SD : d_sym dd = sym) by exact S. rewrite SD in T. change (a_div e) with d.
  apply (entry_shows (t_rows (a_term e)) (fun key => let inner := if sym then "[" +++ product_text sym tex_ang tex_ang_mode key +++ "]" else product_text sym tex_ang tex_ang_mode key in
     if d then "$\dfrac{" +++ pre +++ inner +++ "}{\sqrt{1 - \mu^2}}$" else "$" +++ pre +++ inner +++ "$") dd n x (if sym then "" else "[") (if sym then "" else "]")); [exact L|reflexivity| |exact T]. intros key. cbn beta. unfold angular_label. destruct sym; cbn [String.append]; [rewrite app_e|]; destruct d; reflexivity.
Qed.

Lemma list_by_nth {A} (l : list A) k g : List.length l = k -> (forall i, (i < k)%nat -> nth_error l i = Some (g i)) -> l = map g (seq 0 k).
Proof.
  revert k g. induction l as [|a l IH]; intros k g L H; cbn in L; subst k; [reflexivity|]. cbn [List.length seq map]. f_equal.
  - specialize (H 0%nat ltac:(cbn; lia)). cbn in H. congruence.
  - rewrite <- seq_shift, map_map. apply IH; [reflexivity|]. intros i Hi. specialize (H (S i) ltac:(cbn; lia)). exact H.
Qed.
Lemma total_repeat c k : total (repeat c k) = (k * Z.to_nat c)%nat.
Proof. induction k; cbn; [reflexivity|]. unfold total in IHk. rewrite IHk. reflexivity. Qed.
Lemma firstn_repeat {A} (a : A) f k : (f <= k)%nat -> firstn f (repeat a k) = repeat a f.
Proof. revert f. induction k; intros [|f] H; cbn; try reflexivity; [lia|]. rewrite IHk by lia. reflexivity. Qed.
Lemma nth_repeat_some {A} (a : A) k f : (f < k)%nat -> nth_error (repeat a k) f = Some a.
Proof. revert f. induction k; intros [|f] H; cbn; try lia; [reflexivity|]. apply IHk. lia. Qed.
Lemma repeat_pos c k : (1 <= c)%Z -> Forall (fun c => (1 <= c)%Z) (repeat c k).
Proof. intros H. induction k; cbn; constructor; assumption. Qed.
Lemma lines_ne n x pre post d ls : d_rows d <> [] -> term_lines n x pre post d ls -> ls <> [].
Proof. intros N [L _] ->. destruct (d_rows d); [contradiction|discriminate]. Qed.

Section Run.
Context (ftext : R -> string) (K : kenv) (tar : list bool) (path part : string).
Let E := k_E K.
Definition mka (q : bool * (aterm * aterm * aterm) * bool * R) : aterm_entry := let '(sym, t, d, f) := q in angular_kernel_term E sym t d f.
Definition known (q : bool * (aterm * aterm * aterm) * bool * R) : Prop := let '(sym, t, d, f) := q in known_factor d f.
Lemma angular_part nr tb c k : Forall known tb -> (1 <= c)%nat -> List.length tb = (c * k)%nat ->
  exists fs, angular_figures (e_nmu E) (e_mu E) nr (map (angular_entry ftext) (map mka tb)) (repeat (Z.of_nat c) k) (path +++ "/angular_kernels") part false = Ok fs /\
    map fst fs = map (multiple_name (path +++ "/angular_kernels") nr "angular" part) (seq 0 k) /\
    (forall j e, nth_error (map mka tb) j = Some e ->
       exists g p, nth_error fs (j / c) = Some (multiple_name (path +++ "/angular_kernels") nr "angular" part (j / c), g) /\ List.length g = c /\
         nth_error g (j mod c) = Some p /\ angular_frame (str_of_Z nr) (j mod c =? 0)%nat p /\ p_title p = None /\
         exists pre, factor_text ftext (a_factor e) pre /\ shows (angular_label (a_div e) pre (t_sym (a_term e))) (e_nmu E) (e_mu E) (t_rows (a_term e)) (p_lines p)) /\
    (forall name g, In (name, g) fs -> g <> [] /\ forall p, In p g -> p_lines p <> []).
Proof.
  intros KF C L. set (cz := Z.of_nat c). assert (CZ : (1 <= cz)%Z) by lia. assert (CN : Z.to_nat cz = c) by lia.
  assert (F : Forall legend_fits (map (angular_entry ftext) (map mka tb))).
  { rewrite Forall_forall in *. intros d Hd. rewrite map_map in Hd. apply in_map_iff in Hd. destruct Hd as ([[[sym t] dv] f] & <- & Hq).
    apply angular_entry_fits. exact (KF _ Hq). }
  destruct (C158_angular_panels (e_nmu E) (e_mu E) nr _ (repeat cz k) (path +++ "/angular_kernels") part F (repeat_pos cz k CZ)) as [_ H].
  destruct H as (fs & EQ & Ln & N). { rewrite !map_length, total_repeat, L, CN. lia. }
  rewrite repeat_length in Ln. exists fs. split; [exact EQ|]. split; [|split].
  - apply list_by_nth; [rewrite map_length; exact Ln|]. intros i Hi. destruct (N i cz (nth_repeat_some cz k i Hi)) as (g & G & _).
    erewrite map_nth_error by exact G. unfold multiple_name. rewrite !app_a. reflexivity.
  - intros j e He. assert (J : (j < c * k)%nat). { rewrite <- L. rewrite <- (map_length mka tb). apply nth_error_Some. congruence. }
    assert (Q : (j / c < k)%nat) by (apply Nat.div_lt_upper_bound; lia). assert (M : (j mod c < c)%nat) by (apply Nat.mod_upper_bound; lia).
    destruct (N (j / c)%nat cz (nth_repeat_some cz k _ Q)) as (g & G & Lg & Nq). rewrite CN in *.
    destruct (Nq (j mod c)%nat M) as (p & P & Fr & Ti & T). rewrite (firstn_repeat cz (j / c) k) in T by lia. rewrite total_repeat, CN in T.
    replace (j / c * c + j mod c)%nat with j in T by (rewrite Nat.mul_comm; apply Nat.div_mod; lia).
    erewrite map_nth_error in T by exact He. exists g, p. split; [rewrite G; unfold multiple_name; rewrite !app_a; reflexivity|].
    split; [exact Lg|]. split; [exact P|]. split; [exact Fr|]. split; [exact Ti|].
    apply nth_error_In in He. apply in_map_iff in He. destruct He as ([[[sym t] dv] f] & <- & Hq). rewrite Forall_forall in KF. specialize (KF _ Hq).
    apply (angular_entry_shows ftext E sym t dv f _ _ _ KF T).
  - intros name g Hg. unfold file in *. apply In_nth_error in Hg. destruct Hg as (f & Hf). assert (Q : (f < k)%nat) by (rewrite <- Ln; apply nth_error_Some; congruence).
    destruct (N f cz (nth_repeat_some cz k f Q)) as (g' & G & Lg & Nq). rewrite Hf in G. injection G as _ <-.
    split; [intros ->; cbn in Lg; lia|]. intros p Hp. apply In_nth_error in Hp. destruct Hp as (q & Hq). assert (M : (q < c)%nat) by (rewrite <- CN, <- Lg; apply nth_error_Some; congruence).
    rewrite CN in Nq. destruct (Nq q M) as (p' & P & _ & _ & T). rewrite Hq in P. injection P as <-.
    rewrite (firstn_repeat cz f k) in T by lia. rewrite total_repeat, CN in T.
    destruct (nth_error (map (angular_entry ftext) (map mka tb)) (f * c + q)) as [d|] eqn:Ed.
    + apply lines_ne in T; [exact T|]. apply nth_error_In in Ed. rewrite map_map in Ed. apply in_map_iff in Ed. destruct Ed as ([[[sym t] dv] f'] & <- & _).
      unfold angular_entry. cbn [d_rows]. pose proof (proj1 (angular_term_shape E sym t dv f')) as NE. unfold mka. destruct (t_rows (a_term (angular_kernel_term E sym t dv f'))); [contradiction|discriminate].
    + apply nth_error_None in Ed. rewrite !map_length, L in Ed. nia.
Qed.

Context (ad : nat -> R).
Definition mkr (q : bool * (rterm * rterm * rterm) * R * list profile) : kterm rterm := let '(sym, t, f, ps) := q in radial_kernel_term K ad sym t f ps.
Definition mkd (q : bool * (rterm * rterm * rterm) * R * list profile) : kdraw := let '(sym, t, f, ps) := q in radial_entry (radial_kernel_term K ad sym t f ps) ps.
Lemma radial_part nr tb c k : (1 <= c)%nat -> List.length tb = (c * k)%nat ->
  exists fs, radial_figures (e_n E) (e_x E) nr (map mkd tb) (repeat (Z.of_nat c) k) (path +++ "/radial_kernels") part (Some tar) energy_scale false = Ok fs /\
    map fst fs = map (multiple_name (path +++ "/radial_kernels") nr "radial" part) (seq 0 k) /\
    (forall j q, nth_error tb j = Some q ->
       exists g p, nth_error fs (j / c) = Some (multiple_name (path +++ "/radial_kernels") nr "radial" part (j / c), g) /\ List.length g = c /\
         nth_error g (j mod c) = Some p /\ radial_frame (str_of_Z nr) (Some tar) (j mod c =? 0)%nat p /\ p_title p = Some (radial_title (snd q)) /\
         shows (radial_label (t_sym (mkr q))) (e_n E) (e_x E) (t_rows (mkr q)) (p_lines p)) /\
    (forall name g, In (name, g) fs -> g <> [] /\ forall p, In p g -> p_lines p <> []).
Proof.
  intros C L. set (cz := Z.of_nat c). assert (CZ : (1 <= cz)%Z) by lia. assert (CN : Z.to_nat cz = c) by lia.
  assert (F : Forall legend_fits (map mkd tb)).
  { rewrite Forall_forall in *. intros d Hd. apply in_map_iff in Hd. destruct Hd as ([[[sym t] dv] f] & <- & Hq). apply radial_entry_fits. }
  destruct (C158_radial_panels (e_n E) (e_x E) nr _ (repeat cz k) (path +++ "/radial_kernels") part (Some tar) energy_scale F (repeat_pos cz k CZ)) as [_ H].
  destruct H as (fs & EQ & Ln & N). { rewrite !map_length, total_repeat, L, CN. lia. }
  rewrite repeat_length in Ln. exists fs. split; [exact EQ|]. split; [|split].
  - apply list_by_nth; [rewrite map_length; exact Ln|]. intros i Hi. destruct (N i cz (nth_repeat_some cz k i Hi)) as (g & G & _).
    erewrite map_nth_error by exact G. unfold multiple_name. rewrite !app_a. reflexivity.
  - intros j e He. assert (J : (j < c * k)%nat). { rewrite <- L. apply nth_error_Some. congruence. }
    assert (Q : (j / c < k)%nat) by (apply Nat.div_lt_upper_bound; lia). assert (M : (j mod c < c)%nat) by (apply Nat.mod_upper_bound; lia).
    destruct (N (j / c)%nat cz (nth_repeat_some cz k _ Q)) as (g & G & Lg & Nq). rewrite CN in *.
    destruct (Nq (j mod c)%nat M) as (p & P & Fr & T). rewrite (firstn_repeat cz (j / c) k) in T by lia. rewrite total_repeat, CN in T.
    replace (j / c * c + j mod c)%nat with j in T by (rewrite Nat.mul_comm; apply Nat.div_mod; lia).
    erewrite map_nth_error in T by exact He. destruct T as [T Ti]. exists g, p. split; [rewrite G; unfold multiple_name; rewrite !app_a; reflexivity|].
    split; [exact Lg|]. split; [exact P|]. split; [exact Fr|]. destruct e as [[[sym t] f] ps]. unfold mkd in Ti, T. rewrite radial_entry_title in Ti. split; [exact Ti|].
    apply radial_entry_shows in T. exact T.
  - intros name g Hg. unfold file in *. apply In_nth_error in Hg. destruct Hg as (f & Hf). assert (Q : (f < k)%nat) by (rewrite <- Ln; apply nth_error_Some; congruence).
    destruct (N f cz (nth_repeat_some cz k f Q)) as (g' & G & Lg & Nq). rewrite Hf in G. injection G as _ <-.
    split; [intros ->; cbn in Lg; lia|]. intros p Hp. apply In_nth_error in Hp. destruct Hp as (q & Hq). assert (M : (q < c)%nat) by (rewrite <- CN, <- Lg; apply nth_error_Some; congruence).
    rewrite CN in Nq. destruct (Nq q M) as (p' & P & _ & T). rewrite Hq in P. injection P as <-.
    rewrite (firstn_repeat cz f k) in T by lia. rewrite total_repeat, CN in T.
    destruct (nth_error (map mkd tb) (f * c + q)) as [d|] eqn:Ed.
    + destruct T as [T _]. apply lines_ne in T; [exact T|]. apply nth_error_In in Ed. apply in_map_iff in Ed. destruct Ed as ([[[sym t] f'] ps] & <- & _).
      unfold mkd, radial_entry. cbn [d_rows]. pose proof (proj1 (radial_term_shape K ad sym t f' ps)) as NE. destruct (t_rows (radial_kernel_term K ad sym t f' ps)); [contradiction|discriminate].
    + apply nth_error_None in Ed. rewrite !map_length, L in Ed. nia.
Qed.

(** the second contribution: one panel *)
Lemma tex_pre_text pre u : has quote pre = false -> (forall c, has c pre = true -> (32 <= nat_of_ascii c <= 126)%nat) -> has quote u = false ->
  (forall c, has c u = true -> (32 <= nat_of_ascii c <= 126)%nat) -> tex_text ("$" +++ pre +++ u +++ "$").
Proof.
  intros A B C D. exists (pre +++ u). rewrite app_a. split; [reflexivity|]. rewrite has_app, A, C. split; [reflexivity|].
  intros c H. rewrite has_app in H. apply orb_true_iff in H. destruct H; auto.
Qed.
Definition angular_2_text : string := "[$\left(H_r\right)_{A}, \left(H_r\right)_{B}, \left(H_r\right)_{C}$]".
Lemma angular_single_part : exists p,
  angular_figures (e_nmu E) (e_mu E) 2 (map (angular_entry ftext) (map mka angular_2)) [1%Z] (path +++ "/angular_kernels") part true =
    Ok [(path +++ "/angular_kernels/cc_contribution_2_radial_kernels" +++ part +++ ".png", [p])] /\
  angular_frame "2" true p /\ p_title p = None /\
  exists l, p_lines p = [l] /\ l_label l = angular_2_text /\ l_n l = e_nmu E /\ forall k, l_x l k = e_mu E k /\ l_y l k = ang_product E (Hr, Hr, Hr) k.
Proof.
  set (d := angular_entry ftext (mka (false, (Hr, Hr, Hr), false, 1%R))).
  assert (LG : d_legend d = ["$\left(H_r\right)_{A}, \left(H_r\right)_{B}, \left(H_r\right)_{C}$"]).
  { destruct (angular_entry_legend ftext E false (Hr, Hr, Hr) false 1%R (or_introl eq_refl)) as (pre & P & L). unfold d, mka. rewrite L.
    assert (pre = "") as ->. { destruct P as [[_ P] | [[P _] | (P & _)]]; [exact P|exfalso; lra|congruence]. } reflexivity. }
  assert (LB : angular_single_label d = Ok angular_2_text).
  { rewrite C159_single_legend; [rewrite LG; reflexivity| |rewrite LG; discriminate]. rewrite LG. constructor; [|constructor].
    exists "\left(H_r\right)_{A}, \left(H_r\right)_{B}, \left(H_r\right)_{C}". split; [reflexivity|]. split; [reflexivity|].
    intros c H. cbn [has] in H. repeat (apply orb_true_iff in H; destruct H as [H|H]); try discriminate H; apply Ascii.eqb_eq in H; subst c; cbn; lia. }
  destruct (C158_angular_single (e_nmu E) (e_mu E) 2 [d] 1 [] (path +++ "/angular_kernels") part (fun _ => angular_2_text)) as (p & rest & EQ & L & Fr & Ti & _ & Li).
  { intros d' [<- | []]. exact LB. } { lia. } { constructor. }
  cbn in L. assert (rest = []) as -> by (destruct rest; [reflexivity|discriminate L]).
  exists p. split.
  { change (map (angular_entry ftext) (map mka angular_2)) with [d]. rewrite EQ. rewrite app_a. reflexivity. }
  split; [exact Fr|]. split; [exact Ti|].
  cbn in Li. eexists. split; [exact Li|]. split; [reflexivity|]. split; [reflexivity|]. intros k. split; reflexivity.
Qed.
Lemma radial_single_part : exists p,
  radial_figures (e_n E) (e_x E) 2 (map mkd radial_2) [1%Z] (path +++ "/radial_kernels") part (Some tar) energy_scale true =
    Ok [(path +++ "/radial_kernels/cc_contribution_2_radial_kernels" +++ part +++ ".png", [p])] /\
  radial_frame "2" (Some tar) true p /\ p_title p = None /\
  exists l1 l2, p_lines p = [l1; l2] /\
    (forall l ps, In (l, ps) [(l1, [Pressure; GamMinSq]); (l2, [Pressure; DerGam])] ->
       l_label l = "$" +++ spaced (map tex_profile ps) +++ "$$\,\,$" +++ radial_label false (RDiverg, RDiverg, RDiverg) +++ energy_scale /\ l_n l = e_n E /\
       forall k, l_x l k = e_x E k /\ l_y l k = Re (match t_rows (radial_kernel_term K ad false (RDiverg, RDiverg, RDiverg) 1 ps) with (_, f) :: _ => f k | [] => RtoC 0 end)).
Proof.
  destruct (C158_radial_single (e_n E) (e_x E) 2 (map mkd radial_2) 1 [] (path +++ "/radial_kernels") part (Some tar) energy_scale
    (fun _ => "$" +++ product_text false tex_rad tex_rad_mode (RDiverg, RDiverg, RDiverg) +++ "$")) as (p & rest & EQ & L & Fr & Ti & _ & Li).
  { intros d [<- | [<- | []]]; reflexivity. } { lia. } { constructor. }
  cbn [List.length] in L. assert (rest = []) as -> by (destruct rest; [reflexivity|discriminate L]).
  exists p. split; [rewrite EQ, app_a; reflexivity|]. split; [exact Fr|]. split; [exact Ti|].
  eexists. eexists. split; [exact Li|]. intros l ps [[= <- <-] | [[= <- <-] | []]]; (split; [|split; [reflexivity|intros k; split; reflexivity]]); reflexivity.
Qed.
End Run.

Lemma known_tables : Forall known angular_1 /\ Forall known angular_3 /\ Forall known angular_4.
Proof.
  split; [|split]; repeat (constructor; [first [left; reflexivity | right; left; reflexivity | right; right; split; reflexivity]|]); constructor.
Qed.
Lemma angular_dict_ok ftext K nr tb : angular_table nr = Some tb -> angular_dict ftext (k_E K) nr = Ok (map (angular_entry ftext) (map (mka K) tb)).
Proof. intros H. unfold angular_dict, angular_kernels. rewrite H. reflexivity. Qed.
Lemma radial_dict_ok K nr tb ad : radial_table nr = Some tb -> e_adder (k_E K) = Some ad -> radial_dict K nr = Ok (map (mkd K ad) tb).
Proof. intros H A. unfold radial_dict. rewrite H, A. reflexivity. Qed.

Lemma sb_ok {A B} (a : A) (k : A -> saving B) : sbind (quiet (Ok a)) k = k a.
Proof. unfold sbind, quiet. cbn [fst snd List.app]. symmetry. apply surjective_pairing. Qed.
Lemma sb_exc {A B} e (k : A -> saving B) : sbind (quiet (Exc e)) k = ([], Exc e).
Proof. reflexivity. Qed.
Lemma sb_save {B} fs (k : unit -> saving B) : sbind (save (Ok fs)) k = (fs ++ fst (k tt), snd (k tt)).
Proof. reflexivity. Qed.
Lemma save_ok fs : save (Ok fs) = (fs, Ok tt).
Proof. reflexivity. Qed.
(** what the run saves, contribution by contribution *)
Lemma run_parts ftext K tar path part : let E := k_E K in
  exists a1 a2 a3 a4, 
    angular_figures (e_nmu E) (e_mu E) 1 (map (angular_entry ftext) (map (mka K) angular_1)) [2; 2; 2; 2; 2]%Z (path +++ "/angular_kernels") part false = Ok a1 /\
    angular_figures (e_nmu E) (e_mu E) 2 (map (angular_entry ftext) (map (mka K) angular_2)) [1%Z] (path +++ "/angular_kernels") part true = Ok a2 /\
    angular_figures (e_nmu E) (e_mu E) 3 (map (angular_entry ftext) (map (mka K) angular_3)) [3; 3; 3; 3; 3; 3; 3; 3]%Z (path +++ "/angular_kernels") part false = Ok a3 /\
    angular_figures (e_nmu E) (e_mu E) 4 (map (angular_entry ftext) (map (mka K) angular_4)) [3]%Z (path +++ "/angular_kernels") part false = Ok a4 /\
    match e_adder E with
    | None => view_kernels ftext K tar path part = (a1 ++ a2 ++ a3 ++ a4, Exc AttributeError)
    | Some ad => exists r1 r2 r3 r4,
        radial_figures (e_n E) (e_x E) 1 (map (mkd K ad) radial_1) [3; 3]%Z (path +++ "/radial_kernels") part (Some tar) energy_scale false = Ok r1 /\
        radial_figures (e_n E) (e_x E) 2 (map (mkd K ad) radial_2) [1%Z] (path +++ "/radial_kernels") part (Some tar) energy_scale true = Ok r2 /\
        radial_figures (e_n E) (e_x E) 3 (map (mkd K ad) radial_3) [3; 3; 3; 3]%Z (path +++ "/radial_kernels") part (Some tar) energy_scale false = Ok r3 /\
        radial_figures (e_n E) (e_x E) 4 (map (mkd K ad) radial_4) [3]%Z (path +++ "/radial_kernels") part (Some tar) energy_scale false = Ok r4 /\
        view_kernels ftext K tar path part = (a1 ++ a2 ++ a3 ++ a4 ++ r1 ++ r2 ++ r3 ++ r4, Ok tt)
    end.
Proof.
  intros E. destruct known_tables as (K1 & K3 & K4).
  destruct (angular_part ftext K path part 1 angular_1 2 5 K1 ltac:(lia) eq_refl) as (a1 & A1 & _).
  destruct (angular_single_part ftext K path part) as (p2 & A2 & _).
  destruct (angular_part ftext K path part 3 angular_3 3 8 K3 ltac:(lia) eq_refl) as (a3 & A3 & _).
  destruct (angular_part ftext K path part 4 angular_4 3 1 K4 ltac:(lia) eq_refl) as (a4 & A4 & _).
  pose proof (angular_dict_ok ftext K 1 angular_1 eq_refl) as D1. pose proof (angular_dict_ok ftext K 2 angular_2 eq_refl) as D2.
  pose proof (angular_dict_ok ftext K 3 angular_3 eq_refl) as D3. pose proof (angular_dict_ok ftext K 4 angular_4 eq_refl) as D4.
  fold E in A1, A2, A3, A4, D1, D2, D3, D4. change (repeat (Z.of_nat 2) 5) with [2; 2; 2; 2; 2]%Z in A1. change (repeat (Z.of_nat 3) 8) with [3; 3; 3; 3; 3; 3; 3; 3]%Z in A3.
  change (repeat (Z.of_nat 3) 1) with [3]%Z in A4.
  exists a1. eexists. exists a3, a4. split; [exact A1|]. split; [exact A2|]. split; [exact A3|]. split; [exact A4|].
  destruct (e_adder E) as [ad|] eqn:AD.
  - destruct (radial_part K tar path part ad 1 radial_1 3 2 ltac:(lia) eq_refl) as (r1 & R1 & _).
    destruct (radial_single_part K tar path part ad) as (q2 & R2 & _).
    destruct (radial_part K tar path part ad 3 radial_3 3 4 ltac:(lia) eq_refl) as (r3 & R3 & _).
    destruct (radial_part K tar path part ad 4 radial_4 3 1 ltac:(lia) eq_refl) as (r4 & R4 & _).
    fold E in R1, R2, R3, R4. change (repeat (Z.of_nat 3) 2) with [3; 3]%Z in R1. change (repeat (Z.of_nat 3) 4) with [3; 3; 3; 3]%Z in R3. change (repeat (Z.of_nat 3) 1) with [3]%Z in R4.
    exists r1. eexists. exists r3, r4. split; [exact R1|]. split; [exact R2|]. split; [exact R3|]. split; [exact R4|].
    unfold view_kernels. cbv zeta. fold E.
    rewrite D1, sb_ok, D2, sb_ok, D3, sb_ok, D4, sb_ok, A1, sb_save, A2, sb_save, A3, sb_save, A4, sb_save.
    rewrite (radial_dict_ok K 1 radial_1 ad eq_refl AD), sb_ok, (radial_dict_ok K 2 radial_2 ad eq_refl AD), sb_ok, (radial_dict_ok K 3 radial_3 ad eq_refl AD), sb_ok, (radial_dict_ok K 4 radial_4 ad eq_refl AD), sb_ok.
    rewrite R1, sb_save, R2, sb_save, R3, sb_save, R4, save_ok. cbn [fst snd]. reflexivity.
  - assert (RD : radial_dict K 1 = Exc AttributeError) by (unfold radial_dict; fold E; rewrite AD; reflexivity).
    unfold view_kernels. cbv zeta. fold E.
    rewrite D1, sb_ok, D2, sb_ok, D3, sb_ok, D4, sb_ok, A1, sb_save, A2, sb_save, A3, sb_save, A4, sb_save.
    rewrite RD, sb_exc. cbn [fst snd]. rewrite app_nil_r. reflexivity.
Qed.

Definition mids : list string :=
  map (fun s => "/angular_kernels/cc_contribution_" +++ s)
    [ "1_angular_kernels_nr_1"; "1_angular_kernels_nr_2"; "1_angular_kernels_nr_3"; "1_angular_kernels_nr_4"; "1_angular_kernels_nr_5";
      "2_radial_kernels"; "3_angular_kernels_nr_1"; "3_angular_kernels_nr_2"; "3_angular_kernels_nr_3"; "3_angular_kernels_nr_4";
      "3_angular_kernels_nr_5"; "3_angular_kernels_nr_6"; "3_angular_kernels_nr_7"; "3_angular_kernels_nr_8"; "4_angular_kernels_nr_1" ] ++
  map (fun s => "/radial_kernels/cc_contribution_" +++ s)
    [ "1_radial_kernels_nr_1"; "1_radial_kernels_nr_2"; "2_radial_kernels";
      "3_radial_kernels_nr_1"; "3_radial_kernels_nr_2"; "3_radial_kernels_nr_3"; "3_radial_kernels_nr_4"; "4_radial_kernels_nr_1" ].
Lemma expected_mids path part : expected_names path part = map (fun m => path +++ m +++ (part +++ ".png")) mids.
Proof. unfold expected_names, mids. rewrite map_app, !map_map. f_equal; apply map_ext; intros s; rewrite !app_a; reflexivity. Qed.
Lemma expected_nodup path part : NoDup (expected_names path part).
Proof.
  rewrite expected_mids. assert (N : NoDup mids).
  { unfold mids. repeat constructor; cbn; intros H; repeat (destruct H as [H|H]; [discriminate H|]); exact H. }
  induction N as [|m l NI N IH]; cbn [map]; constructor; [|exact IH].
  intros H. apply in_map_iff in H. destruct H as (m' & H & I). apply NI. apply app_inj_l in H. apply app_inj_r in H. subst m'. exact I.
Qed.
(** a run with both sets of kernels saves 23 figures under 23 different names, none with an empty panel *)
Theorem C156_files : forall ftext K ad tar path part, e_adder (k_E K) = Some ad ->
  exists fs, view_kernels ftext K tar path part = (fs, Ok tt) /\ map fst fs = expected_names path part /\ NoDup (map fst fs) /\
    (forall name g, In (name, g) fs -> g <> []) /\ (forall name g p, In (name, g) fs -> In p g -> p_lines p <> []).
Proof.
  intros ftext K ad tar path part AD. destruct (run_parts ftext K tar path part) as (a1 & a2 & a3 & a4 & A1 & A2 & A3 & A4 & H). cbn zeta in H. rewrite AD in H.
  destruct H as (r1 & r2 & r3 & r4 & R1 & R2 & R3 & R4 & V). eexists. split; [exact V|].
  destruct known_tables as (K1 & K3 & K4).
  destruct (angular_part ftext K path part 1 angular_1 2 5 K1 ltac:(lia) eq_refl) as (a1' & A1' & N1 & _ & E1). change (repeat (Z.of_nat 2) 5) with [2; 2; 2; 2; 2]%Z in A1'. rewrite A1' in A1. injection A1 as ->.
  destruct (angular_single_part ftext K path part) as (p2 & A2' & _ & _ & l2 & L2 & _). rewrite A2' in A2. injection A2 as <-.
  destruct (angular_part ftext K path part 3 angular_3 3 8 K3 ltac:(lia) eq_refl) as (a3' & A3' & N3 & _ & E3). change (repeat (Z.of_nat 3) 8) with [3; 3; 3; 3; 3; 3; 3; 3]%Z in A3'. rewrite A3' in A3. injection A3 as ->.
  destruct (angular_part ftext K path part 4 angular_4 3 1 K4 ltac:(lia) eq_refl) as (a4' & A4' & N4 & _ & E4). change (repeat (Z.of_nat 3) 1) with [3]%Z in A4'. rewrite A4' in A4. injection A4 as ->.
  destruct (radial_part K tar path part ad 1 radial_1 3 2 ltac:(lia) eq_refl) as (r1' & R1' & M1 & _ & F1). change (repeat (Z.of_nat 3) 2) with [3; 3]%Z in R1'. rewrite R1' in R1. injection R1 as ->.
  destruct (radial_single_part K tar path part ad) as (q2 & R2' & _ & _ & m1 & m2 & M2 & _). rewrite R2' in R2. injection R2 as <-.
  destruct (radial_part K tar path part ad 3 radial_3 3 4 ltac:(lia) eq_refl) as (r3' & R3' & M3 & _ & F3). change (repeat (Z.of_nat 3) 4) with [3; 3; 3; 3]%Z in R3'. rewrite R3' in R3. injection R3 as ->.
  destruct (radial_part K tar path part ad 4 radial_4 3 1 ltac:(lia) eq_refl) as (r4' & R4' & M4 & _ & F4). change (repeat (Z.of_nat 3) 1) with [3]%Z in R4'. rewrite R4' in R4. injection R4 as ->.
  match goal with |- map fst ?l = _ /\ _ => assert (NM : map fst l = expected_names path part) end.
  { unfold file in *. rewrite !map_app, N1, N3, N4, M1, M3, M4. cbn [map fst seq List.app]. unfold multiple_name, expected_names. cbn [map List.app]. rewrite !app_a. reflexivity. }
  split; [exact NM|]. split; [rewrite NM; apply expected_nodup|].
  assert (ALL : forall name g, In (name, g) (a1 ++ [(path +++ "/angular_kernels/cc_contribution_2_radial_kernels" +++ part +++ ".png", [p2])] ++ a3 ++ a4 ++
      r1 ++ [(path +++ "/radial_kernels/cc_contribution_2_radial_kernels" +++ part +++ ".png", [q2])] ++ r3 ++ r4) -> g <> [] /\ forall p, In p g -> p_lines p <> []).
  { intros name g I. repeat rewrite in_app_iff in I.
    destruct I as [I | [[[= <- <-] | []] | [I | [I | [I | [[[= <- <-] | []] | [I | I]]]]]]].
    - apply (E1 name g I).
    - split; [discriminate|]. intros p [<- | []]. rewrite L2. discriminate.
    - apply (E3 name g I).
    - apply (E4 name g I).
    - apply (F1 name g I).
    - split; [discriminate|]. intros p [<- | []]. rewrite M2. discriminate.
    - apply (F3 name g I).
    - apply (F4 name g I). }
  split; [intros name g I; apply (ALL name g I)|intros name g p I; apply (ALL name g I)].
Qed.
(** without the adiabatic derivative profile (a polytrope) the run fails after the 15 angular figures *)
Theorem C156_without_derivative_profile : forall ftext K tar path part, e_adder (k_E K) = None ->
  exists fs, view_kernels ftext K tar path part = (fs, Exc AttributeError) /\ map fst fs = firstn 15 (expected_names path part).
Proof.
  intros ftext K tar path part AD. destruct (run_parts ftext K tar path part) as (a1 & a2 & a3 & a4 & A1 & A2 & A3 & A4 & V). cbn zeta in V. rewrite AD in V.
  eexists. split; [exact V|].
  destruct known_tables as (K1 & K3 & K4).
  destruct (angular_part ftext K path part 1 angular_1 2 5 K1 ltac:(lia) eq_refl) as (a1' & A1' & N1 & _ & E1). change (repeat (Z.of_nat 2) 5) with [2; 2; 2; 2; 2]%Z in A1'. rewrite A1' in A1. injection A1 as ->.
  destruct (angular_single_part ftext K path part) as (p2 & A2' & _ & _ & l2 & L2 & _). rewrite A2' in A2. injection A2 as <-.
  destruct (angular_part ftext K path part 3 angular_3 3 8 K3 ltac:(lia) eq_refl) as (a3' & A3' & N3 & _ & E3). change (repeat (Z.of_nat 3) 8) with [3; 3; 3; 3; 3; 3; 3; 3]%Z in A3'. rewrite A3' in A3. injection A3 as ->.
  destruct (angular_part ftext K path part 4 angular_4 3 1 K4 ltac:(lia) eq_refl) as (a4' & A4' & N4 & _ & E4). change (repeat (Z.of_nat 3) 1) with [3]%Z in A4'. rewrite A4' in A4. injection A4 as ->.
  unfold file in *. rewrite !map_app, N1, N3, N4. cbn [map fst seq List.app]. unfold multiple_name, expected_names. cbn [map List.app firstn]. rewrite !app_a. reflexivity.
Qed.

(** every angular kernel of the contributions 1, 3 and 4: its panel, with one line for each of its rows, labelled
    by the functions of the modes 1, 2, 3 and by the factors that the kernel stands for (C106: the row that is
    drawn is the plain product) *)
Theorem C157_angular_panels : forall ftext K tar path part fs out nr l j e, view_kernels ftext K tar path part = (fs, out) ->
  In nr [1; 3; 4]%Z -> angular_kernels (k_E K) nr = Some l -> nth_error l j = Some e ->
  let c := angular_columns nr in let E := k_E K in
  exists g p pre, In (path +++ "/angular_kernels/cc_contribution_" +++ str_of_Z nr +++ "_angular_kernels_nr_" +++ str_of_Z (Z.of_nat (j / c) + 1) +++ part +++ ".png", g) fs /\
    List.length g = c /\ nth_error g (j mod c) = Some p /\ angular_frame (str_of_Z nr) (j mod c =? 0)%nat p /\ p_title p = None /\
    factor_text ftext (a_factor e) pre /\ shows (angular_label (a_div e) pre (t_sym (a_term e))) (e_nmu E) (e_mu E) (t_rows (a_term e)) (p_lines p).
Proof.
  intros ftext K tar path part fs out nr l j e V IN AK He c E. destruct (run_parts ftext K tar path part) as (a1 & a2 & a3 & a4 & A1 & A2 & A3 & A4 & H). cbn zeta in H.
  assert (SUB : forall x, In x (a1 ++ a3 ++ a4) -> In x fs).
  { intros x X. destruct (e_adder (k_E K)); [destruct H as (r1 & r2 & r3 & r4 & _ & _ & _ & _ & H)|]; rewrite H in V; injection V as <- _;
      repeat rewrite in_app_iff in *; tauto. }
  clear H V. destruct known_tables as (K1 & K3 & K4).
  assert (GEN : forall tb k a, Forall known tb -> (1 <= c)%nat -> List.length tb = (c * k)%nat -> angular_table nr = Some tb -> (forall x, In x a -> In x fs) ->
     angular_figures (e_nmu E) (e_mu E) nr (map (angular_entry ftext) (map (mka K) tb)) (repeat (Z.of_nat c) k) (path +++ "/angular_kernels") part false = Ok a ->
     exists g p pre, In (path +++ "/angular_kernels/cc_contribution_" +++ str_of_Z nr +++ "_angular_kernels_nr_" +++ str_of_Z (Z.of_nat (j / c) + 1) +++ part +++ ".png", g) fs /\
    List.length g = c /\ nth_error g (j mod c) = Some p /\ angular_frame (str_of_Z nr) (j mod c =? 0)%nat p /\ p_title p = None /\
    factor_text ftext (a_factor e) pre /\ shows (angular_label (a_div e) pre (t_sym (a_term e))) (e_nmu E) (e_mu E) (t_rows (a_term e)) (p_lines p)).
  { intros tb k a KF C L T S A. unfold angular_kernels in AK. rewrite T in AK. injection AK as <-.
    destruct (angular_part ftext K path part nr tb c k KF C L) as (a' & A' & _ & P & _). fold E in A'. rewrite A' in A. injection A as ->.
    destruct (P j e He) as (g & p & G & Lg & Np & Fr & Ti & pre & Pr & Sh). exists g, p, pre. split.
    { apply S. apply nth_error_In in G. unfold multiple_name in G. rewrite app_a in G. exact G. }
    repeat (split; [assumption|]). assumption. }
  destruct IN as [<- | [<- | [<- | []]]]; [apply (GEN angular_1 5%nat a1)|apply (GEN angular_3 8%nat a3)|apply (GEN angular_4 1%nat a4)];
    try assumption; try reflexivity; try (unfold c; cbn; lia); intros x X; apply SUB; repeat rewrite in_app_iff; tauto.
Qed.
(** every radial kernel of the contributions 1, 3 and 4 *)
Theorem C157_radial_panels : forall ftext K tar path part fs out nr l j t, view_kernels ftext K tar path part = (fs, out) ->
  In nr [1; 3; 4]%Z -> radial_kernels K nr = Ok (Some l) -> nth_error l j = Some t -> let E := k_E K in
  exists g p, In (path +++ "/radial_kernels/cc_contribution_" +++ str_of_Z nr +++ "_radial_kernels_nr_" +++ str_of_Z (Z.of_nat (j / 3) + 1) +++ part +++ ".png", g) fs /\
    List.length g = 3%nat /\ nth_error g (j mod 3) = Some p /\ radial_frame (str_of_Z nr) (Some tar) (j mod 3 =? 0)%nat p /\
    p_title p = Some (radial_title (multipliers nr j)) /\ shows (radial_label (t_sym t)) (e_n E) (e_x E) (t_rows t) (p_lines p).
Proof.
  intros ftext K tar path part fs out nr l j t V IN RK Ht E. destruct (run_parts ftext K tar path part) as (a1 & a2 & a3 & a4 & A1 & A2 & A3 & A4 & H). cbn zeta in H.
  unfold radial_kernels in RK. fold E in RK, H. destruct (e_adder E) as [ad|] eqn:AD; [|discriminate RK].
  destruct H as (r1 & r2 & r3 & r4 & R1 & R2 & R3 & R4 & H). rewrite H in V. injection V as V _.
  assert (SUB : forall x, In x (r1 ++ r3 ++ r4) -> In x fs). { intros x X. rewrite <- V. repeat rewrite in_app_iff in *. tauto. }
  clear V H.
  assert (GEN : forall tb k a, List.length tb = (3 * k)%nat -> radial_table nr = Some tb -> (forall x, In x a -> In x fs) ->
     (forall j q, nth_error tb j = Some q -> multipliers nr j = snd q) ->
     radial_figures (e_n E) (e_x E) nr (map (mkd K ad) tb) (repeat (Z.of_nat 3) k) (path +++ "/radial_kernels") part (Some tar) energy_scale false = Ok a ->
  exists g p, In (path +++ "/radial_kernels/cc_contribution_" +++ str_of_Z nr +++ "_radial_kernels_nr_" +++ str_of_Z (Z.of_nat (j / 3) + 1) +++ part +++ ".png", g) fs /\
    List.length g = 3%nat /\ nth_error g (j mod 3) = Some p /\ radial_frame (str_of_Z nr) (Some tar) (j mod 3 =? 0)%nat p /\
    p_title p = Some (radial_title (multipliers nr j)) /\ shows (radial_label (t_sym t)) (e_n E) (e_x E) (t_rows t) (p_lines p)).
  { intros tb k a L T S M A. rewrite T in RK. injection RK as <-.
    destruct (radial_part K tar path part ad nr tb 3 k ltac:(lia) L) as (a' & A' & _ & P & _). fold E in A'. rewrite A' in A. injection A as ->.
    change (nth_error (map (mkr K ad) tb) j = Some t) in Ht. destruct (nth_error tb j) as [q|] eqn:Eq.
    2:{ apply nth_error_None in Eq. assert (nth_error (map (mkr K ad) tb) j = None) by (apply nth_error_None; rewrite map_length; exact Eq). congruence. }
    erewrite map_nth_error in Ht by exact Eq. injection Ht as <-.
    destruct (P j q Eq) as (g & p & G & Lg & Np & Fr & Ti & Sh). exists g, p. split.
    { apply S. apply nth_error_In in G. unfold multiple_name in G. rewrite app_a in G. exact G. }
    split; [exact Lg|]. split; [exact Np|]. split; [exact Fr|]. split; [rewrite (M j q Eq); exact Ti|]. exact Sh. }
  destruct IN as [<- | [<- | [<- | []]]]; [apply (GEN radial_1 2%nat r1)|apply (GEN radial_3 4%nat r3)|apply (GEN radial_4 1%nat r4)];
    try assumption; try reflexivity; try (intros x X; apply SUB; repeat rewrite in_app_iff; tauto).
  all: intros j' q Hq; cbn in Hq; repeat (destruct j' as [|j']; [injection Hq as <-; reflexivity|cbn in Hq]); destruct j'; discriminate Hq.
Qed.
(** the second contribution: one figure with one panel for each set of kernels; the angular one is saved under the
    name of a radial one, in the directory of the angular kernels *)
Theorem C157_second_contribution : forall ftext K tar path part fs out, view_kernels ftext K tar path part = (fs, out) -> let E := k_E K in
  (exists p l, In (path +++ "/angular_kernels/cc_contribution_2_radial_kernels" +++ part +++ ".png", [p]) fs /\ angular_frame "2" true p /\
     p_lines p = [l] /\ l_label l = "[$" +++ product_text false tex_ang tex_ang_mode (Hr, Hr, Hr) +++ "$]" /\ l_n l = e_nmu E /\
     forall k, l_x l k = e_mu E k /\ l_y l k = (e_ang E Hr 1 k * e_ang E Hr 2 k * e_ang E Hr 3 k)%R) /\
  (forall ad, e_adder E = Some ad -> exists p l1 l2, In (path +++ "/radial_kernels/cc_contribution_2_radial_kernels" +++ part +++ ".png", [p]) fs /\
     radial_frame "2" (Some tar) true p /\ p_lines p = [l1; l2] /\
     forall l ps, In (l, ps) [(l1, multipliers 2 0); (l2, multipliers 2 1)] ->
       l_label l = "$" +++ spaced (map tex_profile ps) +++ "$$\,\,$" +++ radial_label false (RDiverg, RDiverg, RDiverg) +++ "$\,\left(\dfrac{{r^3}}{{\epsilon}}\right)$" /\
       l_n l = e_n E /\ forall k, l_x l k = e_x E k /\
         l_y l k = Re (rad_product E (RDiverg, RDiverg, RDiverg) k * RtoC (fold_left (fun v p => v * profile_value K ad p k)%R ps (1 * (e_x E k * e_R E) ^ 3 / k_energy K)%R))%C).
Proof.
  intros ftext K tar path part fs out V E. destruct (run_parts ftext K tar path part) as (a1 & a2 & a3 & a4 & A1 & A2 & A3 & A4 & H). cbn zeta in H.
  destruct (angular_single_part ftext K path part) as (p2 & A2' & Fr & _ & l & L & LL & Ln & LK). rewrite A2' in A2. injection A2 as <-. split.
  - exists p2, l. split.
    { destruct (e_adder (k_E K)); [destruct H as (r1 & r2 & r3 & r4 & _ & _ & _ & _ & H)|]; rewrite H in V; injection V as <- _;
      repeat (rewrite in_app_iff || (cbn [List.app In])); tauto. }
    split; [exact Fr|]. split; [exact L|]. split; [exact LL|]. split; [exact Ln|]. exact LK.
  - intros ad AD. unfold E in AD. rewrite AD in H. destruct H as (r1 & r2 & r3 & r4 & _ & R2 & _ & _ & H). rewrite H in V. injection V as <- _.
    destruct (radial_single_part K tar path part ad) as (q2 & R2' & Fq & _ & m1 & m2 & M & MM). rewrite R2' in R2. injection R2 as <-.
    exists q2, m1, m2. split; [repeat (rewrite in_app_iff || (cbn [List.app In])); tauto|]. split; [exact Fq|]. split; [exact M|].
    intros l' ps I. destruct (MM l' ps I) as (Q1 & Q2 & Q3). split; [exact Q1|]. split; [exact Q2|]. intros k. destruct (Q3 k) as [Qx Qy]. split; [exact Qx|]. rewrite Qy. reflexivity.
Qed.

(** concrete instances *)
Theorem C156_hypotheses_met : exists ad, e_adder (k_E kex) = Some ad.
Proof. eexists. reflexivity. Qed.
Theorem C157_hypotheses_met : exists l t e la, radial_kernels kex 4 = Ok (Some l) /\ nth_error l 2 = Some t /\ t_sym t = false /\
  angular_kernels (k_E kex) 1 = Some la /\ nth_error la 3 = Some e /\ List.length (t_rows (a_term e)) = 6%nat /\ a_div e = true /\
  radial_label false (RZ1, RZ1, RZ1) = "[$(z_{1})_{A}, (z_{1})_{B}, (z_{1})_{C}$]" /\
  angular_label true "-2.0\," true (ThPh, DHp, Hr) = "$\dfrac{-2.0\,[H_\phi^\theta, \partial\,H_\phi, H_r]}{\sqrt{1 - \mu^2}}$".
Proof. do 4 eexists. repeat (split; [reflexivity|]). reflexivity. Qed.
Theorem C158_hypotheses_met : let d := {| d_legend := ["$a$"; "$b$"]; d_title := "t"; d_rows := [(fun _ => 1%R); (fun _ => 2%R)]; d_sym := true |} in
  Forall legend_fits [d; d; d] /\ Forall (fun c => (1 <= c)%Z) [2; 2]%Z /\ (List.length [d; d; d] <= total [2; 2]%Z)%nat /\ (total [1; 1]%Z < List.length [d; d; d])%nat.
Proof. cbv zeta. split; [|split; [repeat constructor; lia|split; cbn; lia]]. repeat constructor; try discriminate. Qed.
Theorem C159_hypotheses_met : Forall tex_text ["$\left(H_r\right)_{A}$"; "$\partial$"] /\
  angular_single_label {| d_legend := ["$\left(H_r\right)_{A}$"; "$\partial$"]; d_title := ""; d_rows := []; d_sym := false |} = Ok "[$\left(H_r\right)_{A}$, $\partial$]".
Proof.
  split; [|reflexivity]. constructor; [|constructor; [|constructor]].
  - exists "\left(H_r\right)_{A}". split; [reflexivity|]. split; [reflexivity|].
    intros c H. cbn [has] in H. repeat (apply orb_true_iff in H; destruct H as [H|H]); try discriminate H; apply Ascii.eqb_eq in H; subst c; cbn; lia.
  - exists "\partial". split; [reflexivity|]. split; [reflexivity|].
    intros c H. cbn [has] in H. repeat (apply orb_true_iff in H; destruct H as [H|H]); try discriminate H; apply Ascii.eqb_eq in H; subst c; cbn; lia.
Qed.
