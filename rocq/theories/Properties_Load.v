(** * Properties C109 - C115: which files the model loader picks, and what it hands over. *)
From Coq Require Import List ZArith Lia Reals Lra String Ascii Bool Permutation.
From Coquelicot Require Import Complex.
From Verif Require Import Base Py Load_Model Load_Spec.
From Verif Require Load_Proofs Load_UnitKeys Load_Units Load_Dim.
Import ListNotations.
Local Open Scope string_scope.

(** C109: a file is picked for a mode exactly when its name has the additional substrings and the mode word, and the numbers
    written last after l, m and n+ are the quantum numbers of that mode. *)
Theorem C109_selected_by_name : forall q sub g_modes name i g, no_newline (txt name) -> well_formed_search q sub g_modes -> (i < List.length (s_l q))%nat ->
  exists b, subselect_mode q sub name (Z.of_nat i + 1) g = Ok b /\ (b = true <-> names_mode q sub g i name).
Proof. intros q sub g_modes name i g NN WF I. exact (Load_Proofs.subselect_ok q sub name i g g_modes NN WF I). Qed.
(** for names that follow the convention: any stem, then the quantum numbers, possibly zero-padded *)
Theorem C109_conventional_names : forall q sub g_modes name i g stem dl s1 sg dm s2 dn ext,
  txt name = conventional stem dl s1 sg dm s2 dn ext -> number dl -> number dm -> number dn -> neutral s1 -> neutral s2 -> neutral ext ->
  (sg = "+" \/ sg = "-")%char -> no_newline (txt name) -> well_formed_search q sub g_modes -> (i < List.length (s_l q))%nat ->
  exists b, subselect_mode q sub name (Z.of_nat i + 1) g = Ok b /\
    (b = true <-> substrings_ok sub name i /\ nth i (s_l q) 0%Z = int_of dl /\ nth i (s_m q) 0%Z = signed_value sg dm /\ nth i (s_n q) 0%Z = int_of dn /\
                  occurs (txt (if g : bool then "g_mode" else "p_mode")) (txt name)).
Proof.
  intros q sub g_modes name i g stem dl s1 sg dm s2 dn ext E Nl Nm Nn S1 S2 Sx Sg NN WF I.
  destruct (C109_selected_by_name q sub g_modes name i g NN WF I) as (b & B & H). exists b. split; [exact B|]. rewrite H. unfold names_mode.
  assert (Sg' : In sg ["+"; "|"; "-"]%char) by (destruct Sg as [-> | ->]; cbn; tauto).
  pose proof (Load_Proofs.conv_l stem dl s1 sg dm s2 dn ext Nl Nm Nn S1 S2 Sx Sg') as Cl. pose proof (Load_Proofs.conv_m stem dl s1 sg dm s2 dn ext Nm Nn S2 Sx Sg') as Cm.
  pose proof (Load_Proofs.conv_n stem dl s1 sg dm s2 dn ext Nn Sx) as Cn. rewrite <- E in Cl, Cm, Cn.
  split.
  - intros (A1 & A2 & A3 & A4 & A5). split; [exact A1|]. split; [exact (Load_Proofs.last_number_fun _ _ _ _ NN A2 Cl)|].
    split; [exact (Load_Proofs.last_signed_fun _ _ _ NN A3 Cm)|]. split; [exact (Load_Proofs.last_number_fun _ _ _ _ NN A4 Cn)|exact A5].
  - intros (A1 & A2 & A3 & A4 & A5). rewrite A2, A3, A4. auto.
Qed.
Theorem C109_digits_are_decimal : int_of [] = 0%Z /\ (forall ds c, int_of (ds ++ [c])%list = 10 * int_of ds + (Z.of_nat (nat_of_ascii c) - 48))%Z /\
  (forall ds, int_of ("0"%char :: ds) = int_of ds).
Proof.
  split; [reflexivity|]. split; [|reflexivity]. intros ds c. unfold int_of. rewrite fold_left_app. reflexivity.
Qed.
(** a digit is one of the ten decimal ones *)
Theorem C109_decimal_digits : forall c, digit c = true <-> In c ["0"; "1"; "2"; "3"; "4"; "5"; "6"; "7"; "8"; "9"]%char.
Proof.
  intros c. split.
  - intros H. destruct c as [[] [] [] [] [] [] [] []]; vm_compute in H; try discriminate; cbn; repeat (first [left; reflexivity | right]).
  - intros H. cbn [In] in H. repeat (destruct H as [<-|H]; [reflexivity|]). destruct H.
Qed.
(** hypotheses met: names as written by the runs this package is used on *)
Definition w_search : search := {| s_l := [2; 3]%Z; s_m := [-2; 1]%Z; s_n := [12; 7]%Z |}.
Definition w_name1 := "detail_l2_m-2_n+0012_g_mode.h5".
Definition w_name2 := "detail_l3_m+1_n+7_g_mode_TAR.h5".
Ltac neutral_tac :=
  let H := fresh in
  split; [cbn; first [discriminate | intros H; exact H]|intros a b E; cbn in E;
    repeat (destruct a as [|? a]; cbn in E; [subst b; cbn; let H := fresh in intros H; first [exact H | discriminate | (destruct H as [_ H]; discriminate) | (destruct H as [[H|[H|[H|[]]]] _]; discriminate)] | try discriminate E; try injection E as _ E])].
Example C109_witness : well_formed_search w_search (SStr "detail") [true; true] /\ no_newline (txt w_name1) /\
  txt w_name1 = conventional (txt "detail_") (txt "2") (txt "_") "-" (txt "2") (txt "_") (txt "0012") (txt "_g_mode.h5") /\ number (txt "0012") /\
  neutral (txt "_") /\ neutral (txt "_g_mode.h5") /\
  subselect_mode w_search (SStr "detail") w_name1 1 true = Ok true /\ subselect_mode w_search (SStr "detail") w_name1 2 true = Ok false /\
  subselect_mode w_search (SStr "detail") w_name2 2 true = Ok true.
Proof.
  split; [unfold well_formed_search; cbn; auto|]. split; [intros H; cbn in H; intuition discriminate|]. split; [reflexivity|]. split; [split; [discriminate|reflexivity]|].
  split; [neutral_tac|]. split; [neutral_tac|]. split; [reflexivity|]. split; reflexivity.
Qed.

(** C110: what the name matching does not do. Only radial orders written n+<digits> are recognised, so a file whose name writes
    the radial order with a minus sign, or any other way, is never picked. *)
Theorem C110_negative_radial_orders_never_match : forall q sub g_modes name i g, no_newline (txt name) -> well_formed_search q sub g_modes -> (i < List.length (s_l q))%nat ->
  (forall a b, txt name = (a ++ txt "n+" ++ b)%list -> ~ starts_digit b) -> subselect_mode q sub name (Z.of_nat i + 1) g = Ok false.
Proof.
  intros q sub g_modes name i g NN WF I N. destruct (C109_selected_by_name q sub g_modes name i g NN WF I) as ([|] & B & H); [exfalso|exact B].
  destruct (proj1 H eq_refl) as (_ & _ & _ & (pre & ds & post & E & D & F & _) & _). apply (N pre (ds ++ post)%list).
  - rewrite E. reflexivity.
  - destruct ds as [|c ds]; [congruence|]. cbn in F. apply andb_prop in F. cbn. apply F.
Qed.
(** a radial order asked for as a negative number is never found either *)
Theorem C110_negative_requests_never_match : forall q sub g_modes name i g, no_newline (txt name) -> well_formed_search q sub g_modes -> (i < List.length (s_l q))%nat ->
  (nth i (s_n q) 0 < 0 \/ nth i (s_l q) 0 < 0)%Z -> subselect_mode q sub name (Z.of_nat i + 1) g = Ok false.
Proof.
  intros q sub g_modes name i g NN WF I N. destruct (C109_selected_by_name q sub g_modes name i g NN WF I) as ([|] & B & H); [exfalso|exact B].
  assert (P : forall ds, forallb digit ds = true -> (0 <= int_of ds)%Z).
  { intros ds. induction ds as [|c ds IH] using rev_ind; intros F; [cbn; lia|]. rewrite (proj1 (proj2 C109_digits_are_decimal)). rewrite forallb_app in F. apply andb_prop in F. destruct F as [F G].
    specialize (IH F). cbn in G. unfold digit in G. rewrite andb_true_r in G. apply andb_prop in G. destruct G as [G _]. apply Nat.leb_le in G. lia. }
  destruct (proj1 H eq_refl) as (_ & (p1 & d1 & q1 & _ & _ & F1 & _ & V1 & _) & _ & (p2 & d2 & q2 & _ & _ & F2 & _ & V2 & _) & _).
  rewrite V1, V2 in N. specialize (P d1 F1) as P1. specialize (P d2 F2). lia.
Qed.
(** the degree is whatever follows the last l before a digit, even inside another word: a name that ends in a word such as
    "model7" is taken for degree 7 whatever stands before *)
Theorem C110_last_l_wins : forall q sub g_modes name i g stem ds ext, no_newline (txt name) -> well_formed_search q sub g_modes -> (i < List.length (s_l q))%nat ->
  txt name = (stem ++ "l"%char :: ds ++ ext)%list -> number ds -> neutral ext -> nth i (s_l q) 0%Z <> int_of ds -> subselect_mode q sub name (Z.of_nat i + 1) g = Ok false.
Proof.
  intros q sub g_modes name i g stem ds ext NN WF I E N X D. destruct (C109_selected_by_name q sub g_modes name i g NN WF I) as ([|] & B & H); [exfalso|exact B].
  destruct (proj1 H eq_refl) as (_ & L & _). apply D. refine (Load_Proofs.last_number_fun ["l"%char] (txt name) _ _ NN L _).
  exists stem, ds, ext. split; [exact E|]. split; [apply N|]. split; [apply N|]. split; [apply X|]. split; [reflexivity|]. intros pre' post' E' S'. rewrite E in E'.
  refine (Load_Proofs.last_place Load_Proofs.tag_l _ "l"%char _ pre' _ _ _ E'); [|exists post'; auto]. apply Load_Proofs.clean_digits; [tauto|apply N|].
  apply Load_Proofs.neutral_clean; [tauto|exact X].
Qed.
(** the character | is accepted as a sign, and read as minus *)
Theorem C110_bar_is_minus : forall q sub g_modes name i g stem dl s1 dm s2 dn ext,
  txt name = conventional stem dl s1 "|" dm s2 dn ext -> number dl -> number dm -> number dn -> neutral s1 -> neutral s2 -> neutral ext ->
  no_newline (txt name) -> well_formed_search q sub g_modes -> (i < List.length (s_l q))%nat ->
  subselect_mode q sub name (Z.of_nat i + 1) g = Ok true -> nth i (s_m q) 0%Z = (- int_of dm)%Z.
Proof.
  intros q sub g_modes name i g stem dl s1 dm s2 dn ext E Nl Nm Nn S1 S2 Sx NN WF I T.
  destruct (C109_selected_by_name q sub g_modes name i g NN WF I) as (b & B & H). rewrite T in B. injection B as <-. destruct (proj1 H eq_refl) as (_ & _ & M & _).
  pose proof (Load_Proofs.conv_m stem dl s1 "|" dm s2 dn ext Nm Nn S2 Sx ltac:(cbn; tauto)) as Cm. rewrite <- E in Cm. exact (Load_Proofs.last_signed_fun _ _ _ NN M Cm).
Qed.
Example C110_witness :
  (forall a b, txt "detail_l2_m-2_n-12_g_mode.h5" = (a ++ txt "n+" ++ b)%list -> ~ starts_digit b) /\
  subselect_mode w_search SNone "detail_l2_m-2_n-12_g_mode.h5" 1 true = Ok false /\
  subselect_mode w_search SNone "detail_l2_m-2_n+12_g_mode_model7.h5" 1 true = Ok false /\
  subselect_mode {| s_l := [7]; s_m := [-2]; s_n := [12] |}%Z SNone "detail_l2_m-2_n+12_g_mode_model7.h5" 1 true = Ok true /\
  subselect_mode w_search SNone "detail_l2_m|2_n+12_g_mode.h5" 1 true = Ok true /\ neutral (txt ".h5").
Proof.
  split. { intros a b E. do 40 (destruct a as [|? a]; cbn in E; [discriminate E|try discriminate E; injection E as _ E]). }
  repeat (split; [reflexivity|]). neutral_tac.
Qed.

(** C111: with exactly one matching file per mode the loader returns one set of data per mode, in the order of the modes, read
    from those files; if for some mode no file or several files match, it exits. *)
Theorem C111_one_file_per_mode : forall V (fs : fsys V) dir attrs q sub g_modes es,
  fs (match dir with Some p => p | None => "." end) = Some es -> well_formed_search q sub g_modes ->
  (forall e, In e es -> e_file e = true -> no_newline (txt (e_name e))) ->
  let asked i e := e_file e = true /\ names_mode q sub (nth i g_modes true) i (e_name e) in
  (forall i e, (i < List.length (s_l q))%nat -> In e es -> asked i e -> readable (e_name e)) ->
  ((forall i, (i < List.length (s_l q))%nat -> exists e, the_only (asked i) es e) ->
     exists ds, load_modes fs dir attrs q sub g_modes = Ok ds /\ List.length ds = List.length (s_l q) /\
       forall i e, (i < List.length (s_l q))%nat -> the_only (asked i) es e -> exists d, nth_error ds i = Some d /\ read_from attrs e d) /\
  ((exists i, (i < List.length (s_l q))%nat /\ ~ exists e, the_only (asked i) es e) -> load_modes fs dir attrs q sub g_modes = Exc SystemExit).
Proof.
  intros V fs dir attrs q sub g_modes es FS WF NN asked RD.
  assert (SC : scandir fs dir = Ok es) by (unfold scandir; rewrite FS; reflexivity).
  pose proof (Load_Proofs.load_modes_eq attrs q sub g_modes es WF NN RD fs dir SC) as E. cbv zeta in E.
  assert (ON : forall i e, (i < List.length (s_l q))%nat -> (the_only (asked i) es e <-> Load_Proofs.chosen q sub g_modes i es = [e])) by (intros i e I; exact (Load_Proofs.chosen_only q sub g_modes i es e WF NN I)).
  split.
  - intros H. destruct (Load_Proofs.kept_all (fun i => map (Load_Proofs.rd_or attrs) (Load_Proofs.chosen q sub g_modes i es)) (seq 0 (List.length (s_l q)))) as [L N].
    { intros i I. apply in_seq in I. destruct (H i ltac:(lia)) as [e T]. apply ON in T; [|lia]. exists (Load_Proofs.rd_or attrs e). rewrite T. reflexivity. }
    rewrite seq_length in L. rewrite L, Nat.eqb_refl in E. eexists. split; [exact E|]. split; [exact L|]. intros i e I T. pose proof T as T'. apply ON in T'; [|exact I].
    exists (Load_Proofs.rd_or attrs e). split; [apply (N i i); [rewrite nth_error_nth' with (d := 0%nat) by (rewrite seq_length; exact I); rewrite seq_nth by exact I; reflexivity|rewrite T'; reflexivity]|].
    destruct T as (l1 & l2 & Es & A & _). destruct (Load_Proofs.read_entry_ok attrs e) as (d & Rd & Rf); [apply (RD i e I); [rewrite Es; apply in_or_app; right; left; reflexivity|exact A]|].
    unfold Load_Proofs.rd_or. rewrite Rd. exact Rf.
  - intros (i & I & N). pose proof (Load_Proofs.kept_less (fun i => map (Load_Proofs.rd_or attrs) (Load_Proofs.chosen q sub g_modes i es)) (seq 0 (List.length (s_l q))) i) as L.
    rewrite seq_length in L. specialize (L ltac:(apply in_seq; lia)).
    match type of L with _ -> (?a < ?b)%nat => assert (X : (a < b)%nat) end.
    { apply L. intros y Y. apply N. destruct (Load_Proofs.chosen q sub g_modes i es) as [|e [|e' l]] eqn:C; try discriminate. exists e. apply ON; assumption. }
    rewrite (proj2 (Nat.eqb_neq _ _)) in E by lia. exact E.
Qed.
(** the order in which the operating system lists the directory does not matter *)
Theorem C111_listing_order : forall V (fs fs' : fsys V) dir attrs q sub g_modes es es',
  fs (match dir with Some p => p | None => "." end) = Some es -> fs' (match dir with Some p => p | None => "." end) = Some es' -> Permutation es es' ->
  well_formed_search q sub g_modes -> (forall e, In e es -> e_file e = true -> no_newline (txt (e_name e))) ->
  (forall i e, (i < List.length (s_l q))%nat -> In e es -> e_file e = true -> names_mode q sub (nth i g_modes true) i (e_name e) -> readable (e_name e)) ->
  load_modes fs dir attrs q sub g_modes = load_modes fs' dir attrs q sub g_modes.
Proof.
  intros V fs fs' dir attrs q sub g_modes es es' FS FS' P WF NN RD.
  assert (SC : scandir fs dir = Ok es) by (unfold scandir; rewrite FS; reflexivity). assert (SC' : scandir fs' dir = Ok es') by (unfold scandir; rewrite FS'; reflexivity).
  rewrite (Load_Proofs.load_modes_eq attrs q sub g_modes es WF NN (fun i e I J A => RD i e I J (proj1 A) (proj2 A)) fs dir SC).
  rewrite (Load_Proofs.load_modes_eq attrs q sub g_modes es' WF) with (fs := fs') (dir := dir) (3 := SC').
  - cbv zeta. rewrite !Load_Proofs.flat_map_map.
    erewrite (Load_Proofs.flat_map_ext' _ _ (seq 0 (List.length (s_l q)))); [reflexivity|]. intros i _. apply Load_Proofs.single_perm. unfold Load_Proofs.chosen. apply Load_Proofs.filter_perm, P.
  - intros e I. apply NN. apply Permutation_sym in P. exact (Permutation_in _ P I).
  - intros i e I J A. apply Permutation_sym in P. exact (RD i e I (Permutation_in _ P J) (proj1 A) (proj2 A)).
Qed.
(** a directory left unset is the current directory; one that cannot be listed is an error as soon as a mode is asked for *)
Theorem C111_no_directory : forall V (fs : fsys V) dir attrs q sub g_modes,
  load_modes fs None attrs q sub g_modes = load_modes fs (Some ".") attrs q sub g_modes /\
  (fs dir = None -> s_l q <> [] -> g_modes <> [] -> load_modes fs (Some dir) attrs q sub g_modes = Exc FileNotFoundError).
Proof.
  intros V fs dir attrs q sub g_modes. split; [reflexivity|]. intros F L G. unfold load_modes. destruct (s_l q) as [|l ls]; [congruence|]. destruct g_modes as [|g gs]; [congruence|].
  cbn [List.length seq mapM bind]. unfold py_get at 1. cbn. unfold scandir. rewrite F. reflexivity.
Qed.
Definition w_dir : list (entry Z) :=
  [{| e_name := w_name2; e_file := true; e_content := {| c_main := [("xi_r", 5%Z)]; c_extra := [("M_star", 7%Z); ("xi_r", 0%Z)] |} |};
   {| e_name := "detail_l2_m-2_n+12_g_mode.d"; e_file := false; e_content := {| c_main := []; c_extra := [] |} |};
   {| e_name := w_name1; e_file := true; e_content := {| c_main := [("xi_h", 6%Z); ("unknown", 1%Z)]; c_extra := [] |} |};
   {| e_name := "summary.h5"; e_file := true; e_content := {| c_main := []; c_extra := [] |} |}].
Example C111_witness : exists es, (fun _ => Some w_dir : option (list (entry Z))) "." = Some es /\ (forall e, In e es -> e_file e = true -> no_newline (txt (e_name e)) /\ readable (e_name e)) /\
  (forall i, (i < List.length (s_l w_search))%nat -> exists e, the_only (fun e => e_file e = true /\ names_mode w_search SNone (nth i [true; true] true) i (e_name e)) es e) /\
  load_modes (fun _ => Some es) None ["M_star"; "xi_r"; "xi_h"] w_search SNone [true; true] = Ok [[("xi_h", 6%Z)]; [("M_star", 7%Z); ("xi_r", 5%Z)]].
Proof.
  exists w_dir. split; [reflexivity|].
  assert (N : forall e, In e w_dir -> e_file e = true -> no_newline (txt (e_name e))).
  { intros e I _. unfold no_newline. cbn in I. destruct I as [<-|[<-|[<-|[<-|[]]]]]; cbn; intuition discriminate. }
  split; [|split; [|reflexivity]].
  - intros e I F. split; [apply N; assumption|]. cbn in I. destruct I as [<-|[<-|[<-|[<-|[]]]]]; cbn in F |- *; [|discriminate| |].
    + exists "detail_l3_m+1_n+7_g_mode_TAR", "h5". split; [reflexivity|]. split; [cbn; intuition discriminate|cbn; tauto].
    + exists "detail_l2_m-2_n+0012_g_mode", "h5". split; [reflexivity|]. split; [cbn; intuition discriminate|cbn; tauto].
    + exists "summary", "h5". split; [reflexivity|]. split; [cbn; intuition discriminate|cbn; tauto].
  - intros i I. cbn in I.
    assert (WF : well_formed_search w_search SNone [true; true]) by (unfold well_formed_search; cbn; auto).
    destruct i as [|[|i]]; [| |lia]; eexists; (apply (Load_Proofs.chosen_only w_search SNone [true; true] _ w_dir _ WF N); [cbn; lia|vm_compute; reflexivity]).
Qed.

(** C112: directories left out are looked for below the base directory by a keyword in their lower-cased names, and taken only
    if exactly one directory fits; directories given by the user are kept. *)
Theorem C112_inferred_directories : forall b mesa gyre pm po list_base sub, list_base b = Some sub ->
  exists d, loader_dirs (Some b) mesa gyre pm po list_base true = Ok d /\
    let found key given r :=
      match given with
      | Some p => r = Some p
      | None => (forall n, the_only (fun nb => snd nb = true /\ occurs (txt key) (txt (lower (fst nb)))) sub (n, true) -> r = Some (path_join b n)) /\
                ((forall n, ~ the_only (fun nb => snd nb = true /\ occurs (txt key) (txt (lower (fst nb)))) sub (n, true)) -> r = None)
      end in
    found "mesa" mesa (d_mesa d) /\ found "gyre" gyre (d_gyre d) /\ found "polytrope_model" pm (d_poly_model d) /\ found "polytrope_oscillation" po (d_poly_osc d).
Proof.
  intros b mesa gyre pm po list_base sub LB.
  assert (K : forall key given, match given with
      | Some p => infer_one b key sub given = Some p
      | None => (forall n, the_only (fun nb => snd nb = true /\ occurs (txt key) (txt (lower (fst nb)))) sub (n, true) -> infer_one b key sub given = Some (path_join b n)) /\
                ((forall n, ~ the_only (fun nb => snd nb = true /\ occurs (txt key) (txt (lower (fst nb)))) sub (n, true)) -> infer_one b key sub given = None)
      end).
  { intros key [p|]; [reflexivity|]. cbn [infer_one]. unfold possible.
    assert (TO : forall x, the_only (fun nb => snd nb = true /\ occurs (txt key) (txt (lower (fst nb)))) sub x <-> filter (fun nb => snd nb && is_in key (lower (fst nb))) sub = [x]).
    { intros x. apply Load_Proofs.the_only_filter. intros y _. rewrite andb_true_iff, Load_Proofs.is_in_occurs. reflexivity. }
    split.
    - intros n T. apply TO in T. rewrite T. reflexivity.
    - intros N. destruct (filter (fun nb => snd nb && is_in key (lower (fst nb))) sub) as [|[n d] [|y l]] eqn:F; [reflexivity| |reflexivity]. exfalso.
      assert (D : d = true). { assert (I : In (n, d) (filter (fun nb => snd nb && is_in key (lower (fst nb))) sub)) by (rewrite F; left; reflexivity). apply filter_In in I. destruct I as [_ I]. cbn in I. destruct d; [reflexivity|discriminate]. }
      subst d. apply (N n), TO, eq_refl. }
  unfold loader_dirs, infer_dirs, initialize_dirs. destruct (missing _) eqn:M; cbn [andb].
  - rewrite LB. eexists. split; [reflexivity|]. cbn [d_mesa d_gyre d_poly_model d_poly_osc].
    assert (ID : forall g : option string, init_dir_path (Some b) g false = g) by (intros [|]; reflexivity). rewrite !ID.
    split; [apply (K "mesa" mesa)|]. split; [apply (K "gyre" gyre)|]. split; [apply (K "polytrope_model" pm)|apply (K "polytrope_oscillation" po)].
  - eexists. split; [reflexivity|]. unfold missing in M. cbn in M. destruct mesa, gyre, pm, po; cbn in M; try discriminate. cbn. auto.
Qed.
(** a directory given together with a base directory is not taken relative to it (its documentation says it is) *)
Theorem C112_given_directories_not_joined : forall b mesa gyre pm po list_base infer d, loader_dirs (Some b) mesa gyre pm po list_base infer = Ok d ->
  (forall p, mesa = Some p -> d_mesa d = Some p) /\ (forall p, gyre = Some p -> d_gyre d = Some p) /\
  (forall p, pm = Some p -> d_poly_model d = Some p) /\ (forall p, po = Some p -> d_poly_osc d = Some p).
Proof.
  intros b mesa gyre pm po list_base infer d H. unfold loader_dirs, infer_dirs, initialize_dirs in H.
  assert (ID : forall g : option string, init_dir_path (Some b) g false = g) by (intros [|]; reflexivity). rewrite !ID in H.
  destruct (infer && missing _); [destruct (list_base b); [|discriminate]|]; injection H as <-; cbn; (split; [|split; [|split]]); intros p ->; reflexivity.
Qed.
(** without a base directory a given directory gets the text None in front, so the directory named is never the one searched;
    and leaving any directory to be inferred is an exit *)
Theorem C112_no_base_directory : forall mesa gyre pm po list_base d,
  (loader_dirs None mesa gyre pm po list_base false = Ok d -> (forall p, mesa = Some p -> d_mesa d = Some ("None" ++ p) /\ d_mesa d <> Some p) /\ (forall p, gyre = Some p -> d_gyre d = Some ("None" ++ p) /\ d_gyre d <> Some p) /\
     (forall p, pm = Some p -> d_poly_model d = Some ("None" ++ p)) /\ (forall p, po = Some p -> d_poly_osc d = Some ("None" ++ p))) /\
  (mesa = None \/ gyre = None \/ pm = None \/ po = None -> loader_dirs None mesa gyre pm po list_base true = Exc SystemExit).
Proof.
  intros mesa gyre pm po list_base d. split.
  - intros H. injection H as <-. cbn.
    assert (NE : forall p, Some ("None" ++ p)%string <> Some p). { intros p X. injection X as X. apply (f_equal String.length) in X. cbn in X. clear -X. change (4 + String.length p = String.length p)%nat in X. lia. }
    (split; [|split; [|split]]); intros p ->; cbn [init_dir_path]; try (split; [reflexivity|apply NE]); reflexivity.
  - intros N. unfold loader_dirs, infer_dirs. assert (M : missing (initialize_dirs None mesa gyre pm po) = true).
    { unfold missing, initialize_dirs. cbn. destruct mesa, gyre, pm, po; try reflexivity. intuition discriminate. }
    rewrite M. reflexivity.
Qed.
Example C112_witness :
  loader_dirs (Some "/base/") None None (Some "pm") None (fun _ => Some [("MESA_out", true); ("gyre_a", true); ("gyre_b", true); ("mesa.txt", false)]) true =
  Ok {| d_mesa := Some "/base/MESA_out"; d_gyre := None; d_poly_model := Some "pm"; d_poly_osc := None |}.
Proof. reflexivity. Qed.

(** C115: a structure file is picked when, after at least one character, a dot and the file type occur in its name (not only at
    its end), and - for stellar evolution profiles - gyre or GYRE does not occur after the first character. *)
Theorem C115_structure_name : forall suffix name, no_newline (txt name) ->
  let typed := exists a b, txt name = (a ++ "."%char :: txt suffix ++ b)%list /\ a <> [] in
  (poly_conds suffix name = true <-> typed) /\
  (mesa_conds suffix name = true <-> typed /\ ~ exists a w b, txt name = (a ++ txt w ++ b)%list /\ a <> [] /\ In w ["gyre"; "GYRE"]).
Proof.
  intros suffix name NN typed. split; [exact (Load_Proofs.suffix_cond suffix name NN)|]. unfold mesa_conds. rewrite andb_true_iff, (Load_Proofs.suffix_cond suffix name NN), (Load_Proofs.not_gyre_cond name NN). reflexivity.
Qed.
(** exactly one such file, with all additional substrings in its name and at least one known quantity in it, is read; anything
    else is an exit: no file, several files, a text file, a file without known quantities *)
Theorem C115_one_structure_file : forall V (fs : fsys V) dir attrs conds words (as_tuple : bool) es,
  fs (match dir with Some p => p | None => "." end) = Some es ->
  let sub := if as_tuple then STuple words else SList words in
  let asked e := e_file e = true /\ conds (e_name e) = true /\ forall w, In w words -> occurs (txt w) (txt (e_name e)) in
  (forall e, In e es -> asked e -> readable (e_name e)) ->
  (forall e, the_only asked es e -> ~ text_file (e_name e) -> (exists k, In k attrs /\ stored (e_content e) k <> None) ->
     exists d, load_structure fs dir attrs conds sub = Ok d /\ read_from attrs e d) /\
  (forall e, the_only asked es e -> text_file (e_name e) \/ (forall k, In k attrs -> stored (e_content e) k = None) -> load_structure fs dir attrs conds sub = Exc SystemExit) /\
  ((forall e, ~ the_only asked es e) -> load_structure fs dir attrs conds sub = Exc SystemExit) /\
  load_structure fs dir attrs conds (if words then SNone else sub) = load_structure fs dir attrs conds sub.
Proof.
  intros V fs dir attrs conds words as_tuple es FS sub asked RD.
  set (bb := fun e : entry V => forallb (fun s => is_in s (e_name e)) words && conds (e_name e)).
  assert (SEL : forall name, subselect_structure conds sub name = Ok (forallb (fun s => is_in s name) words && conds name)).
  { intros name. unfold sub. destruct as_tuple; cbn [subselect_structure]; destruct (forallb _ _); reflexivity. }
  assert (B : forall e, In e es -> (e_file e && bb e = true <-> asked e)).
  { intros e _. unfold bb, asked. rewrite !andb_true_iff, forallb_forall. split.
    - intros (A1 & A2 & A3). split; [exact A1|]. split; [exact A3|]. intros w I. apply Load_Proofs.is_in_occurs, A2, I.
    - intros (A1 & A2 & A3). split; [exact A1|]. split; [|exact A2]. intros w I. apply Load_Proofs.is_in_occurs, A3, I. }
  assert (TO : forall e, the_only asked es e <-> filter (fun e => e_file e && bb e) es = [e]) by (intros e; apply Load_Proofs.the_only_filter; exact B).
  assert (EQ : data_file_reader attrs (subselect_structure conds sub) es = mapM (Load_Proofs.read_entry attrs) (filter (fun e => e_file e && bb e) es)).
  { apply Load_Proofs.data_file_reader_eq. intros e _ _. apply SEL. }
  assert (RE : exists ds, mapM (Load_Proofs.read_entry attrs) (filter (fun e => e_file e && bb e) es) = Ok ds /\ List.length ds = List.length (filter (fun e => e_file e && bb e) es)).
  { exists (map (Load_Proofs.rd_or attrs) (filter (fun e => e_file e && bb e) es)). split; [|apply map_length]. apply mapM_ok. intros e I. apply filter_In in I. destruct I as [I H]. apply (B e I) in H.
    destruct (Load_Proofs.read_entry_ok attrs e (RD e I H)) as (d & E & _). unfold Load_Proofs.rd_or. rewrite E. reflexivity. }
  assert (ONE : forall e, the_only asked es e -> exists d, data_file_reader attrs (subselect_structure conds sub) es = Ok [d] /\ read_from attrs e d).
  { intros e T. assert (A : In e es /\ asked e) by (destruct T as (l1 & l2 & -> & A & _); split; [apply in_or_app; right; left; reflexivity|exact A]).
    destruct (Load_Proofs.read_entry_ok attrs e (RD e (proj1 A) (proj2 A))) as (d & E & R). exists d. split; [|exact R]. apply TO in T. rewrite EQ, T. cbn [mapM]. rewrite E. reflexivity. }
  unfold load_structure, scandir. rewrite FS. cbn [bind]. split; [|split; [|split]].
  - intros e T NT (k & Ik & Sk). destruct (ONE e T) as (d & E & R). rewrite E. cbn [bind]. exists d. split; [|exact R]. destruct d as [|kv d]; [exfalso|reflexivity].
    destruct R as (_ & _ & G). specialize (G NT k). destruct (in_dec string_dec k attrs); [|contradiction]. cbn in G. congruence.
  - intros e T H. destruct (ONE e T) as (d & E & R). rewrite E. cbn [bind]. destruct d as [|[k v] d]; [reflexivity|exfalso]. destruct R as (_ & R1 & R2).
    destruct H as [H|H]; [specialize (R1 H); discriminate|].
    assert (NT : ~ text_file (e_name e)) by (intros X; specialize (R1 X); discriminate).
    specialize (R2 NT k). cbn in R2. destruct (string_dec k k) as [_|]; [|congruence]. destruct (in_dec string_dec k attrs) as [I|I]; [rewrite (H k I) in R2; discriminate|discriminate].
  - intros N. rewrite EQ. destruct RE as (ds & -> & L). cbn [bind]. destruct ds as [|d [|d' ds]]; [reflexivity|exfalso|reflexivity]. cbn in L.
    destruct (filter (fun e => e_file e && bb e) es) as [|e [|e' l]] eqn:F; try discriminate. apply (N e), TO, eq_refl.
  - destruct words as [|w ws]; [|reflexivity]. unfold sub. destruct as_tuple; reflexivity.
Qed.
(** an additional substring given as plain text is refused as soon as a file is met, although for the oscillation files it is accepted *)
Theorem C115_plain_substring_refused : forall V (fs : fsys V) dir attrs conds w es,
  fs (match dir with Some p => p | None => "." end) = Some es -> (exists e, In e es /\ e_file e = true) ->
  load_structure fs dir attrs conds (SStr w) = Exc NotImplementedError.
Proof.
  intros V fs dir attrs conds w es FS (e & I & F). unfold load_structure, scandir. rewrite FS. cbn [bind].
  assert (E : data_file_reader attrs (subselect_structure conds (SStr w)) es = Exc NotImplementedError); [|rewrite E; reflexivity]. clear FS.
  induction es as [|e0 es IH]; [destruct I|]. cbn [data_file_reader]. destruct (e_file e0) eqn:F0; [reflexivity|]. cbn [bind]. apply IH. destruct I as [<-|I]; [congruence|exact I].
Qed.
Definition w_struct (n : string) : entry Z := {| e_name := n; e_file := true; e_content := {| c_main := [("rho", 3%Z)]; c_extra := [] |} |}.
Example C115_witness :
  (mesa_conds "h5" "profile8.h5" = true /\ mesa_conds "h5" "profile8.h5.old" = true /\ mesa_conds "h5" "profile8_gyre.h5" = false /\ mesa_conds "h5" "gyre_in.h5" = true /\ mesa_conds "h5" ".h5" = false) /\
  the_only (fun e => e_file e = true /\ mesa_conds "h5" (e_name e) = true /\ forall w, In w ["file8"] -> occurs (txt w) (txt (e_name e))) [w_struct "profile7.h5"; w_struct "profile8.h5"] (w_struct "profile8.h5") /\
  load_structure (fun _ => Some [w_struct "profile7.h5"; w_struct "profile8.h5"]) (Some "d") ["rho"; "P"] (mesa_conds "h5") (STuple ["file8"]) = Ok [("rho", 3%Z)].
Proof.
  split; [repeat split; reflexivity|]. split; [|reflexivity]. exists [w_struct "profile7.h5"], []. split; [reflexivity|]. split.
  - split; [reflexivity|]. split; [reflexivity|]. intros w [<-|[]]. exists (txt "pro"), (txt ".h5"). reflexivity.
  - intros y [<-|[]] (_ & _ & H). specialize (H "file8" (or_introl eq_refl)). apply Load_Proofs.is_in_occurs in H. vm_compute in H. discriminate.
Qed.

(** C113: asking for SI instead of CGS multiplies every quantity the loader returns - the constant of gravity, the structure
    arrays and all dimensional perturbations - by the SI value of its CGS unit, and changes nothing else, errors included. *)
Theorem C113_si_is_rescaled_cgs : forall g_cgs g_si d, g_cgs = (1000 * g_si)%R -> (forall k v, In (k, v) d -> In k gyre_detail_attrs) ->
  (forall k v, In (k, v) d -> In k ["M_star"; "R_star"; "L_star"; "M_r"; "P"; "rho"] -> exists l, v = VReal l) ->
  finish_detail g_cgs g_si "SI" d =
  match finish_detail g_cgs g_si "CGS" d with
  | Ok r => Ok (map (fun kv => (fst kv, vscale (si_per_cgs (fst kv)) (snd kv))) r)
  | Exc e => Exc e
  | UB => UB
  end.
Proof. intros g_cgs g_si d G A U. exact (Load_Units.finish_si g_cgs g_si d G A U). Qed.
(** with any other spelling of SI nothing is converted, but the SI value of the constant of gravity is used with CGS data *)
Theorem C113_other_spellings : forall g_cgs g_si u d, u <> "SI" -> finish_detail g_cgs g_si u d =
  finish_detail (if string_dec (lower u) "si" then g_si else g_cgs) g_si "CGS" d.
Proof.
  intros g_cgs g_si u d N. unfold finish_detail. rewrite (Load_Units.unit_conversion_other u d N), Load_Units.unit_conversion_other by discriminate. cbn [bind]. unfold g_value.
  change (lower "CGS") with "cgs". destruct (string_dec "cgs" "si"); [discriminate|]. reflexivity.
Qed.
(** C114: under every name with a unit the loader keeps the stored value and adds, under that name with _dim appended, the value in
    physical units, point by point; (re, im) pairs become complex numbers; labels are left alone; other quantities keep their value. *)
Theorem C114_dimensional_quantities : forall s g_si d, detail_data s d ->
  exists r, finish_detail (sc_G s) g_si "CGS" d = Ok r /\ dget "G" r = Some (VReal [sc_G s]) /\
  forall k v, dget k d = Some v ->
    (In k labels -> dget k r = Some v) /\
    (~ In k labels -> match unit_of s k with
                      | Some U => dget k r = Some v /\ dget (k ++ "_dim") r = Some (in_units U v)
                      | None => dget k r = Some (in_units (fun _ => 1%R) v)
                      end).
Proof. exact Load_Dim.finish_ok. Qed.
(** a quantity that needs a scale the file does not hold makes the load fail *)
Theorem C114_missing_scale : forall g_cgs g_si u d k need, In (k, need) [("xi_r", "R_star"); ("xi_h", "R_star"); ("eul_phi", "M_star"); ("eul_P", "P"); ("lag_rho", "rho"); ("Omega_rot", "R_star"); ("E", "M_star"); ("H", "R_star"); ("lag_L", "L_star")] ->
  dget k d <> None -> dget need d = None -> ~ exists r, finish_detail g_cgs g_si u d = Ok r.
Proof.
  intros g_cgs g_si u d k need I Hk Hn (r & E). unfold finish_detail in E.
  destruct (unit_conversion u d) as [d'| |] eqn:C; [|discriminate|discriminate]. cbn [bind] in E.
  assert (K : forall x, dget x d = None <-> dget x d' = None).
  { clear - C. revert d' C. induction d as [|[k0 v0] d IH]; intros d' C x; cbn [unit_conversion] in C; [injection C as <-; reflexivity|].
    destruct (conversion u k0 v0) as [v1| |]; [|discriminate|discriminate]. cbn [bind] in C. destruct (unit_conversion u d) as [d1| |]; [|discriminate|discriminate]. injection C as <-.
    cbn. destruct (string_dec x k0); [split; discriminate|]. apply IH, eq_refl. }
  set (D := dset d' "G" (VReal [g_value g_cgs g_si u])) in *.
  assert (HD : forall x, x <> "G" -> dget x D = dget x d') by (intros x N; unfold D; rewrite Load_Proofs.dget_dset; destruct (string_dec x "G"); [contradiction|reflexivity]).
  assert (Nn : need <> "G") by (cbn in I; intuition congruence). assert (Nk : k <> "G") by (cbn in I; intuition congruence).
  assert (En : dget need D = None) by (rewrite HD by exact Nn; apply K, Hn).
  assert (Ik : exists v, In (k, v) D). { destruct (dget k D) as [v|] eqn:Q; [exists v; apply Load_Dim.dget_in, Q|]. rewrite HD in Q by exact Nk. apply K in Q. contradiction. }
  destruct Ik as [v Ik]. unfold dimensionalize in E. destruct (mapM (dim_entry dim_gyre D) D) as [new| |] eqn:M; [|discriminate|discriminate].
  assert (X : exists o, dim_entry dim_gyre D (k, v) = Ok o).
  { clear - M Ik. revert new M. generalize D at 1 3. induction D as [|kv D0 IH]; intros D1 new M; [destruct Ik|]. cbn [mapM] in M. destruct (dim_entry dim_gyre D1 kv) as [o| |] eqn:Eo; [|discriminate|discriminate]. cbn [bind] in M.
    destruct (mapM (dim_entry dim_gyre D1) D0) as [os| |] eqn:M'; [|discriminate|discriminate]. destruct Ik as [->|Ik]; [exists o; exact Eo|exact (IH Ik D1 os M')]. }
  destruct X as [o X]. unfold dim_entry in X.
  assert (Y : forall f, dc_factor dim_gyre (upper k) = Some f -> Load_UnitKeys.inb k (dc_avoid dim_gyre) = false -> (forall x, f D <> Ok x) -> False).
  { intros f Ef Av Nx. rewrite Load_UnitKeys.dec_false in X by exact Av. rewrite Ef in X. destruct (f D) as [x| |]; [exact (Nx x eq_refl)|discriminate|discriminate]. }
  assert (Z : forall n (c : list R -> res (list R)) x, dget n D = None -> bind (real_entry D n) c <> Ok x) by (intros n c x Q; unfold real_entry; rewrite Q; discriminate).
  assert (Z1 : forall (a : res (list R)) (c : list R -> res (list R)) x, (forall y, c y <> Ok x) -> bind a c <> Ok x) by (intros [y| |] c x Q; [apply Q|discriminate|discriminate]).
  cbn [In] in I. repeat (destruct I as [I|I]; [injection I as <- <-; refine (Y _ eq_refl eq_refl _); intros x;
    first [ exact (Z _ _ x En) | (unfold get_r, get_P, get_rho, get_L, real_entry; rewrite En; discriminate) | (do 3 (apply Z1; intros ?); exact (Z _ _ x En)) | (apply Z1; intros ?; exact (Z _ _ x En)) ]|]).
  destruct I.
Qed.
Definition w_scales : scales := {| sc_G := 7; sc_M := 2; sc_R := 10; sc_L := 5; sc_P := [3; 4]; sc_rho := [1; 2]; sc_T := [8; 9] |}%R.
Definition w_detail : dict val :=
  [("xi_r", VReIm [(1, 2); (3, 0)]%R); ("eul_P", VReIm [(1, 1); (2, -1)]%R); ("omega", VReIm [(4, 0)]%R); ("l", VReal [2%R]); ("freq_units", VStr "NONE"); ("x", VReal [0; 1]%R);
   ("M_star", VReal [2%R]); ("R_star", VReal [10%R]); ("L_star", VReal [5%R]); ("P", VReal [3; 4]%R); ("rho", VReal [1; 2]%R); ("T", VReal [8; 9]%R)].
Example C114_witness : detail_data w_scales w_detail /\
  (exists U, unit_of w_scales "xi_r" = Some U /\ U 0%nat = 10%R) /\ (exists U, unit_of w_scales "eul_P" = Some U /\ U 1%nat = 4%R).
Proof.
  assert (inD : forall k l, Load_UnitKeys.inb k l = true -> In k l) by (intros k l; apply Load_UnitKeys.inb_iff).
  split; [|split].
  - split; [|split].
    + cbn. repeat (constructor; [cbn; intuition discriminate|]). constructor.
    + intros k v I. cbn [w_detail In] in I. repeat (destruct I as [E|I]; [injection E as <- <-; apply inD; vm_compute; reflexivity|]). destruct I.
    + repeat (split; [reflexivity|]). intros k v I NL. cbn [w_detail In] in I.
      repeat (destruct I as [E|I]; [injection E as <- <-; first [exfalso; apply NL, inD; vm_compute; reflexivity | (first [rewrite Load_UnitKeys.dec_true by (vm_compute; reflexivity)|rewrite Load_UnitKeys.dec_false by (vm_compute; reflexivity)]; eexists; first [split; [reflexivity|intros J; first [reflexivity|apply Load_UnitKeys.inb_iff in J; vm_compute in J; discriminate J]] | reflexivity])]|]). destruct I.
  - exists (fun _ => 10%R). rewrite Load_Dim.unit_eq. split; reflexivity.
  - exists (fun i => nth i [3; 4]%R 0%R). rewrite Load_Dim.unit_eq. split; reflexivity.
Qed.
Example C113_witness : (forall k v, In (k, v) w_detail -> In k ["M_star"; "R_star"; "L_star"; "M_r"; "P"; "rho"] -> exists l, v = VReal l) /\
  si_per_cgs "eul_phi_dim" = (/ 10000)%R /\ (exists U, unit_of w_scales "eul_phi" = Some U /\ U 0%nat = (7 * 2 / 10)%R).
Proof.
  split; [|split].
  - intros k v I J. cbn [w_detail In] in I. repeat (destruct I as [E|I]; [injection E as <- <-; first [eexists; reflexivity | exfalso; apply Load_UnitKeys.inb_iff in J; vm_compute in J; discriminate J]|]). destruct I.
  - Load_UnitKeys.si. reflexivity.
  - exists (fun _ => 7 * 2 / 10)%R. rewrite Load_Dim.unit_eq. split; reflexivity.
Qed.
