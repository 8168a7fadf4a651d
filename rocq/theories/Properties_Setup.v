(** * C131-C133: names of the result files to load, information folders, directories a run reads. *)
From Coq Require Import List ZArith QArith Ascii String Bool Lia.
From Verif Require Import Base Py Inlist_Model Parser_Model Parser_Spec Parser_Proofs Properties_Parser Setup_Model Setup_Spec Setup_Dirs.
From Verif Require Saver_Model Saver_Spec Saver_Names Properties_Saver Load_Model.
Import ListNotations.
Local Open Scope string_scope.

(** ** C131: names of the files to load *)
(** the loading dictionary holds the requests, column by column *)
Definition holds_requests (repr : val -> string) (d : table) (std : bool) (base out : string) (rs : list request) : Prop :=
  has d "base_dir" (VStr base) /\ has d "output_dir" (VStr out) /\ has d "use_standard_format" (VBool std) /\
  has d "base_file_names" (VArr (map name_cell rs)) /\ has d "specification_names" (VArr (map spec_cell rs)) /\ has d "file_suffix" (VArr (map suffix_cell rs)) /\
  has d "meridional_degrees" (VArr (map (fun r => triple_cell (r_k r)) rs)) /\ has d "azimuthal_orders" (VArr (map (fun r => triple_cell (r_m r)) rs)) /\
  (std = true -> has d "masses" (VArr (map r_mass rs)) /\ has d "Xcs" (VArr (map r_xc rs)) /\ has d "triple_pairs" (VArr (map (fun r => pairs_cell (r_pairs r)) rs))).
(** the texts of Xc around its decimal point *)
Definition xc_parts (repr : val -> string) (r : request) (xi xf : string) : Prop :=
  py_str repr (r_xc r) = xi ++ "." ++ xf /\ Saver_Spec.no_dot xi /\ Saver_Spec.no_dot xf.
(** the path, or the list of paths, of one request *)
Definition path_of (repr : val -> string) (std : bool) (base out : string) (r : request) (p : paths) : Prop :=
  exists extra, (if std then exists xi xf, xc_parts repr r xi xf /\ extra = standard_text (py_str repr (r_mass r)) xi xf (r_pairs r) else extra = "") /\
    match r_files r, p with
    | Single n s x, One t => t = path_text base out n s extra (quantum_text (r_k r) (r_m r)) x
    | Several ns ss xs, Many ts =>
        List.length ts = Nat.min (List.length ns) (Nat.min (List.length ss) (List.length xs)) /\
        forall i n s x, nth_error ns i = Some n -> nth_error ss i = Some s -> nth_error xs i = Some x ->
          nth_error ts i = Some (path_text base out n s extra (quantum_text (r_k r) (r_m r)) x)
    | _, _ => False
    end.

Lemma item_has d k v : has d k v -> item k (VTab d) = Ok v.
Proof. intros H. cbn [item]. apply tget_has in H. rewrite H. reflexivity. Qed.
Lemma raw_col {A} (f : A -> val) d i k rs r : has d k (VArr (map f rs)) -> nth_error rs i = Some r -> raw d i k = Ok (f r).
Proof. intros H N. unfold raw. rewrite (item_has _ _ _ H). cbn [bind at_index]. rewrite (map_nth_error f i rs N). reflexivity. Qed.
Lemma raw_col_none {A} (f : A -> val) d i k (rs : list A) : has d k (VArr (map f rs)) -> nth_error rs i = None -> raw d i k = Exc IndexError.
Proof. intros H N. unfold raw. rewrite (item_has _ _ _ H). cbn [bind at_index]. apply nth_error_None in N. replace (nth_error (map f rs) i) with (@None val); [reflexivity|]. symmetry. apply nth_error_None. rewrite map_length. exact N. Qed.
Lemma strings_map l : strings (map VStr l) = Some l.
Proof. induction l as [|s l IH]; [reflexivity|]. cbn [map strings]. rewrite IH. reflexivity. Qed.
Lemma split_dot_nodot w : Saver_Spec.no_dot w -> split_dot w = [w].
Proof.
  unfold Saver_Spec.no_dot. induction w as [|c w IH]; [reflexivity|]. cbn [list_ascii_of_string existsb split_dot]. intros H. apply orb_false_iff in H. destruct H as [A B].
  destruct (Ascii.eqb_spec c ".") as [->|N]; [discriminate|]. rewrite (IH B). reflexivity.
Qed.
Lemma split_dot_two a b : Saver_Spec.no_dot a -> Saver_Spec.no_dot b -> split_dot (a ++ "." ++ b) = [a; b].
Proof.
  unfold Saver_Spec.no_dot. intros A B. induction a as [|c a IH].
  - cbn [append split_dot]. change (Ascii.eqb "." ".") with true. cbv iota. rewrite split_dot_nodot by exact B. reflexivity.
  - cbn [list_ascii_of_string existsb] in A. apply orb_false_iff in A. destruct A as [A1 A2]. cbn [append split_dot]. destruct (Ascii.eqb_spec c ".") as [->|N]; [discriminate|].
    cbn [append] in IH. rewrite (IH A2). reflexivity.
Qed.
Lemma split_dot_inv : forall s a b, split_dot s = [a; b] -> s = a ++ "." ++ b /\ Saver_Spec.no_dot a /\ Saver_Spec.no_dot b.
Proof.
  assert (One1 : forall s w, split_dot s = [w] -> s = w /\ Saver_Spec.no_dot w).
  { induction s as [|c s IH]; intros w E; [injection E as <-; split; reflexivity|]. cbn [split_dot] in E. destruct (Ascii.eqb_spec c ".") as [->|N].
    - destruct (split_dot s) eqn:Q; [|discriminate]. destruct s as [|c' s]; [discriminate|]. cbn in Q. destruct (Ascii.eqb c' "."); [discriminate|]. destruct (split_dot s); discriminate.
    - destruct (split_dot s) as [|w' [|? ?]] eqn:Q; [|injection E as <-|discriminate].
      + exfalso. clear -Q. destruct s as [|c' s]; [discriminate|]. cbn in Q. destruct (Ascii.eqb c' "."); [discriminate|]. destruct (split_dot s); discriminate.
      + destruct (IH _ eq_refl) as [-> D]. split; [reflexivity|]. unfold Saver_Spec.no_dot in *. cbn [list_ascii_of_string existsb]. rewrite D. destruct (Ascii.eqb_spec "." c); [subst; contradiction|reflexivity]. }
  induction s as [|c s IH]; intros a b E; [discriminate|]. cbn [split_dot] in E. destruct (Ascii.eqb_spec c ".") as [->|N].
  - injection E as <- E. destruct (One1 _ _ E) as [-> D]. split; [reflexivity|]. split; [reflexivity|exact D].
  - destruct (split_dot s) as [|w' ws] eqn:Q; [discriminate|]. injection E as <- E. subst ws. destruct (IH _ _ eq_refl) as (E2 & D1 & D2). rewrite E2. split; [reflexivity|]. split; [|exact D2].
    unfold Saver_Spec.no_dot in *. cbn [list_ascii_of_string existsb]. rewrite D1. destruct (Ascii.eqb_spec "." c); [subst; contradiction|reflexivity].
Qed.
Lemma zip3_spec : forall a b c, List.length (zip3 a b c) = Nat.min (List.length a) (Nat.min (List.length b) (List.length c)) /\
  forall i x y z, nth_error a i = Some x -> nth_error b i = Some y -> nth_error c i = Some z -> nth_error (zip3 a b c) i = Some (x, y, z).
Proof.
  induction a as [|a0 a IH]; intros [|b0 b] [|c0 c]; cbn [zip3 List.length]; (split; [try reflexivity; try (rewrite Nat.min_0_r; reflexivity)|]).
  all: try (intros [|i] x y z E1 E2 E3; discriminate).
  - rewrite (proj1 (IH b c)). reflexivity.
  - intros [|i] x y z E1 E2 E3; cbn in *; [congruence|]. apply (proj2 (IH b c)); assumption.
Qed.
Lemma order_ok repr d i pre key (rs : list request) (f : request -> Z * Z * Z) r : has d key (VArr (map (fun r => triple_cell (f r)) rs)) -> nth_error rs i = Some r ->
  order_string repr d i pre key = Ok (let '(a, b, c) := f r in pre ++ "_" ++ dec a ++ "_" ++ dec b ++ "_" ++ dec c).
Proof.
  intros H N. unfold order_string. rewrite (raw_col (fun r => triple_cell (f r)) d i key rs r H N). cbn [bind]. unfold triple_cell. destruct (f r) as [[a b] c]. reflexivity.
Qed.
Lemma radial_ok repr d i (rs : list request) r : has d "triple_pairs" (VArr (map (fun r => pairs_cell (r_pairs r)) rs)) -> nth_error rs i = Some r ->
  radial_order_string repr d i = Ok (let '(a, b, c) := r_pairs r in "d" ++ dec (fst a) ++ "_" ++ dec (snd a) ++ "_d" ++ dec (fst b) ++ "_" ++ dec (snd b) ++ "_p" ++ dec (fst c) ++ "_" ++ dec (snd c)).
Proof.
  intros H N. unfold radial_order_string. rewrite (raw_col (fun r => pairs_cell (r_pairs r)) d i _ rs r H N). cbn [bind]. unfold pairs_cell. destruct (r_pairs r) as [[a b] c]. reflexivity.
Qed.
Lemma spec_text_eq s : (if String.eqb s "" then "" else "_" ++ s) = spec_text s.
Proof. destruct s; reflexivity. Qed.
(** every path is assembled from the request as stated; with a standard format Xc must contain exactly one decimal point *)
Lemma load_file_name_ok repr d std base out rs i r : holds_requests repr d std base out rs -> nth_error rs i = Some r -> sensible r ->
  (std = true -> exists xi xf, xc_parts repr r xi xf) -> exists p, load_file_name repr d i = Ok p /\ path_of repr std base out r p.
Proof.
  intros (B & O & U & N & S & F & K & M & T) E Se X. unfold load_file_name. rewrite (item_has _ _ _ B). cbn [bind]. rewrite (item_has _ _ _ O). cbn [bind]. rewrite (item_has _ _ _ U). cbn [bind].
  rewrite (raw_col name_cell d i _ rs r N E). cbn [bind]. rewrite (raw_col spec_cell d i _ rs r S E). cbn [bind].
  rewrite (order_ok repr d i "k" _ rs r_k r K E). cbn [bind]. rewrite (order_ok repr d i "m" _ rs r_m r M E). cbn [bind]. rewrite (raw_col suffix_cell d i _ rs r F E). cbn [bind truthy].
  assert (Q : exists extra, (if std then exists xi xf, xc_parts repr r xi xf /\ extra = standard_text (py_str repr (r_mass r)) xi xf (r_pairs r) else extra = "") /\
    (if std then m <- raw d i "masses" ; x <- split_xc repr d i ; rr <- radial_order_string repr d i ; Ok ("_M" ++ py_str repr m ++ "_Xc" ++ x ++ "_" ++ rr) else Ok "")%res = Ok extra).
  { destruct std; [|exists ""; split; reflexivity]. destruct (T eq_refl) as (T1 & T2 & T3). destruct (X eq_refl) as (xi & xf & P). exists (standard_text (py_str repr (r_mass r)) xi xf (r_pairs r)).
    split; [exists xi, xf; split; [exact P|reflexivity]|]. rewrite (raw_col r_mass d i _ rs r T1 E). cbn [bind]. unfold split_xc. rewrite (raw_col r_xc d i _ rs r T2 E). cbn [bind].
    destruct P as (P1 & P2 & P3). rewrite P1, (split_dot_two xi xf P2 P3). cbn [bind]. rewrite (radial_ok repr d i rs r T3 E). cbn [bind]. unfold standard_text. destruct (r_pairs r) as [[a b] c].
    rewrite !Saver_Names.sapp_assoc. reflexivity. }
  destruct Q as (extra & Qs & Qe). rewrite Qe. cbn [bind]. cbv zeta. unfold name_cell, spec_cell, suffix_cell, sensible in *. unfold path_of.
  assert (G : forall n s x, generic_name extra (let '(a, b, c) := r_k r in "k" ++ "_" ++ dec a ++ "_" ++ dec b ++ "_" ++ dec c) (let '(a, b, c) := r_m r in "m" ++ "_" ++ dec a ++ "_" ++ dec b ++ "_" ++ dec c) n s x
     = n ++ spec_text s ++ extra ++ quantum_text (r_k r) (r_m r) ++ "." ++ x).
  { intros n s x. unfold generic_name. rewrite spec_text_eq. unfold quantum_text. destruct (r_k r) as [[k1 k2] k3]. destruct (r_m r) as [[m1 m2] m3]. repeat (progress (cbn [append]; rewrite ?Saver_Names.sapp_assoc)). reflexivity. }
  destruct (r_files r) as [n s x|ns ss xs].
  - eexists. split; [reflexivity|]. exists extra. split; [exact Qs|]. unfold path_text. rewrite G. reflexivity.
  - destruct Se as (S1 & S2 & S3). rewrite !strings_map. destruct ns as [|n0 ns]; [contradiction|]. destruct ss as [|s0 ss]; [contradiction|]. destruct xs as [|x0 xs]; [contradiction|].
    eexists. split; [reflexivity|]. exists extra. split; [exact Qs|]. rewrite map_length. destruct (zip3_spec (n0 :: ns) (s0 :: ss) (x0 :: xs)) as [Z1 Z2]. split; [exact Z1|].
    intros j n s x E1 E2 E3. rewrite (map_nth_error _ _ _ (Z2 j n s x E1 E2 E3)). cbv beta iota. unfold path_text. rewrite G. reflexivity.
Qed.
Lemma load_file_name_end repr d std base out rs i : holds_requests repr d std base out rs -> (List.length rs <= i)%nat -> load_file_name repr d i = Exc IndexError.
Proof.
  intros (B & O & U & N & _) L. unfold load_file_name. rewrite (item_has _ _ _ B). cbn [bind]. rewrite (item_has _ _ _ O). cbn [bind]. rewrite (item_has _ _ _ U). cbn [bind].
  rewrite (raw_col_none name_cell d i _ rs N) by (apply nth_error_None; exact L). reflexivity.
Qed.
Lemma mapM_seq {A} (f : nat -> res A) (P : nat -> A -> Prop) : forall n k, (forall i, (k <= i < k + n)%nat -> exists a, f i = Ok a /\ P i a) ->
  exists l, mapM f (seq k n) = Ok l /\ List.length l = n /\ forall j, (j < n)%nat -> exists a, nth_error l j = Some a /\ P (k + j)%nat a.
Proof.
  induction n as [|n IH]; intros k H; [exists []; split; [reflexivity|split; [reflexivity|intros j L; lia]]|].
  cbn [seq mapM]. destruct (H k ltac:(lia)) as (a & -> & Pa). cbn [bind]. destruct (IH (S k)) as (l & -> & L & Q). { intros i Hi. apply H. lia. }
  cbn [bind]. exists (a :: l). split; [reflexivity|]. split; [cbn; lia|]. intros [|j] Lj; [exists a; split; [reflexivity|rewrite Nat.add_0_r; exact Pa]|].
  destruct (Q j ltac:(lia)) as (b & B1 & B2). exists b. split; [exact B1|]. replace (k + S j)%nat with (S k + j)%nat by lia. exact B2.
Qed.
Lemma generate_paths : forall repr d std base out rs n, holds_requests repr d std base out rs -> has d "nr_files" (VInt n) ->
  (forall r, In r rs -> sensible r /\ (std = true -> exists xi xf, xc_parts repr r xi xf)) ->
  ((n <= Z.of_nat (List.length rs))%Z ->
     exists ps, generate_load_file_path_list repr d = Ok ps /\ List.length ps = Z.to_nat n /\
       forall i r, nth_error rs i = Some r -> (Z.of_nat i < n)%Z -> exists p, nth_error ps i = Some p /\ path_of repr std base out r p) /\
  ((Z.of_nat (List.length rs) < n)%Z -> generate_load_file_path_list repr d = Exc IndexError).
Proof.
  intros repr d std base out rs n H Hn Ok1. unfold generate_load_file_path_list. rewrite (item_has _ _ _ Hn). cbn [bind py_range].
  assert (St : forall i, (i < List.length rs)%nat -> exists p, load_file_name repr d i = Ok p /\ exists r, nth_error rs i = Some r /\ path_of repr std base out r p).
  { intros i L. destruct (nth_error rs i) as [r|] eqn:E; [|apply nth_error_None in E; lia]. destruct (Ok1 r (nth_error_In _ _ E)) as [Se X].
    destruct (load_file_name_ok repr d std base out rs i r H E Se X) as (p & P1 & P2). exists p. split; [exact P1|]. exists r. auto. }
  split; intros L.
  - destruct (mapM_seq (load_file_name repr d) (fun i p => exists r, nth_error rs i = Some r /\ path_of repr std base out r p) (Z.to_nat n) 0) as (ps & -> & Lp & Q).
    { intros i Hi. apply St. lia. }
    exists ps. split; [reflexivity|]. split; [exact Lp|]. intros i r E Li. destruct (Q i ltac:(lia)) as (p & P1 & r' & P2 & P3). exists p. split; [exact P1|]. cbn in P2. rewrite E in P2. injection P2 as <-. exact P3.
  - replace (seq 0 (Z.to_nat n)) with (seq 0 (List.length rs) ++ List.length rs :: seq (S (List.length rs)) (Z.to_nat n - List.length rs - 1))%list.
    + rewrite (mapM_first_exn _ _ _ _ IndexError); [reflexivity| |exact (load_file_name_end _ _ _ _ _ _ _ H (le_n _))].
      intros i Hi. apply in_seq in Hi. destruct (St i ltac:(lia)) as (p & P & _). exists p. exact P.
    + replace (Z.to_nat n) with (List.length rs + S (Z.to_nat n - List.length rs - 1))%nat at 2 by lia. rewrite seq_app. reflexivity.
Qed.

(** what the inlist says under [plotting.load]: the same columns; the switch is use_custom_name *)
Definition inlist_requests (repr : val -> string) (inlist : table) (std : bool) (base out : string) (rs : list request) (n : Z) : Prop :=
  exists t, at_path (VTab inlist) ["plotting"; "load"] (VTab t) /\ has t "use_custom_name" (VBool (negb std)) /\ has t "nr_files" (VInt n) /\
  has t "base_dir" (VStr base) /\ has t "output_dir" (VStr out) /\
  has t "base_file_names" (VArr (map name_cell rs)) /\ has t "specification_names" (VArr (map spec_cell rs)) /\ has t "file_suffix" (VArr (map suffix_cell rs)) /\
  has t "meridional_degrees" (VArr (map (fun r => triple_cell (r_k r)) rs)) /\ has t "azimuthal_orders" (VArr (map (fun r => triple_cell (r_m r)) rs)) /\
  (std = true -> has t "masses" (VArr (map r_mass rs)) /\ has t "Xcs" (VArr (map r_xc rs)) /\ has t "triple_pairs" (VArr (map (fun r => pairs_cell (r_pairs r)) rs))).
Definition load_key (k : string) : string := if String.eqb k "use_standard_format" then "use_custom_name" else k.
Definition load_keys := ["base_file_names"; "specification_names"; "masses"; "Xcs"; "triple_pairs"; "meridional_degrees"; "azimuthal_orders"; "file_suffix"; "nr_files"; "output_dir"; "base_dir"; "use_standard_format"].
Lemma load_spec_eq : load_spec = map (fun k => E3 k (IPath ["plotting"; "load"; load_key k]) (String.eqb k "use_standard_format")) load_keys.
Proof. reflexivity. Qed.
(** the value the scripts see for a key of the load table *)
Definition seen (t : table) (k : string) : val := match tget t k with Some v => adjust_val v | None => VNone end.
Lemma tget_adjust t k : tget (adjust_for_none t) k = option_map adjust_val (tget t k).
Proof. induction t as [|[k' v] t IH]; [reflexivity|]. cbn [adjust_for_none map tget fst snd]. destruct (String.eqb k k'); [reflexivity|exact IH]. Qed.
Lemma at_load inlist t : at_path (VTab inlist) ["plotting"; "load"] (VTab t) -> t <> [] -> at_path (VTab (adjust_for_none inlist)) ["plotting"; "load"] (VTab (adjust_for_none t)).
Proof. intros A N. rewrite <- (adjust_tab t N). apply (at_adjust _ _ _ A inlist eq_refl). discriminate. Qed.
Lemma load_dict inlist t : at_path (VTab inlist) ["plotting"; "load"] (VTab t) -> t <> [] ->
  exists d, read_in_to_dict (VTab (adjust_for_none inlist)) load_spec = Ok d /\
    forall k, In k load_keys -> has d k (if String.eqb k "use_standard_format" then VBool (negb (truthy (seen t (load_key k)))) else seen t (load_key k)).
Proof.
  intros A N. pose proof (at_load _ _ A N) as B.
  assert (G : forall k, get_ha (VTab (adjust_for_none inlist)) (IPath ["plotting"; "load"; k]) = Ok (seen t k)).
  { intros k. rewrite get_ha_path. change ["plotting"; "load"; k] with (["plotting"; "load"] ++ k :: [])%list. rewrite (lookup_through _ _ _ k [] B), lookup_tab, tget_adjust. unfold seen. destruct (tget t k); reflexivity. }
  destruct (C89_settings_dictionary (VTab (adjust_for_none inlist)) load_spec) as (d & D1 & D2 & D3).
  - intros e He. rewrite load_spec_eq in He. apply in_map_iff in He. destruct He as (k & <- & _). cbn [eindex]. eexists. apply G.
  - left. intros e He. rewrite load_spec_eq in He. apply in_map_iff in He. destruct He as (k & <- & _). exact I.
  - exists d. split; [exact D1|]. intros k Hk.
    assert (ND : NoDup load_keys) by (repeat constructor; cbn; intuition discriminate).
    destruct (in_split _ _ Hk) as (l1 & l2 & E).
    pose proof load_spec_eq as LE. rewrite E, map_app in LE. cbn [map] in LE.
    destruct (D3 _ _ _ LE) as (v & V1 & V2).
    + rewrite map_map. cbn [ekey]. rewrite map_id. rewrite E in ND. apply NoDup_remove_2 in ND. intros X. apply ND. apply in_or_app. right. exact X.
    + cbn [eindex] in V1. rewrite G in V1. injection V1 as <-. cbn [ekey asked enegate] in V2. destruct (String.eqb k "use_standard_format"); exact V2.
Qed.
Lemma seen_has t k v : has t k v -> ~ is_table v -> seen t k = v.
Proof. intros H T. apply tget_has in H. unfold seen. rewrite H. destruct v; try reflexivity. exfalso. apply T. eexists. reflexivity. Qed.
(** The first nr_files requests of the inlist become paths, in order; later requests are silently ignored, and asking for more
    files than there are entries raises IndexError. *)
Theorem C131_paths : forall repr inlist std base out rs n, inlist_requests repr inlist std base out rs n ->
  (forall r, In r rs -> sensible r /\ (std = true -> exists xi xf, xc_parts repr r xi xf)) ->
  ((n <= Z.of_nat (List.length rs))%Z ->
     exists ps, paths_of_inlist repr inlist = Ok ps /\ List.length ps = Z.to_nat n /\
       forall i r, nth_error rs i = Some r -> (Z.of_nat i < n)%Z -> exists p, nth_error ps i = Some p /\ path_of repr std base out r p) /\
  ((Z.of_nat (List.length rs) < n)%Z -> paths_of_inlist repr inlist = Exc IndexError).
Proof.
  intros repr inlist std base out rs n (t & A & C & Nr & B & O & N & S & F & K & M & T) Ok1.
  assert (NE : t <> []). { intros ->. destruct C as (a & b & E & _). destruct a; discriminate. }
  destruct (load_dict inlist t A NE) as (d & D & H). unfold paths_of_inlist. rewrite D. cbn [bind].
  assert (G : forall k v, In k load_keys -> String.eqb k "use_standard_format" = false -> has t k v -> ~ is_table v -> has d k v).
  { intros k v Ik Ek Hk Tk. pose proof (H k Ik) as X. rewrite Ek in X. unfold load_key in X. rewrite Ek, (seen_has _ _ _ Hk Tk) in X. exact X. }
  assert (NT : forall x, is_table x -> forall l, x <> VArr l) by (intros x (y & ->) l E; discriminate).
  apply generate_paths; [|apply G; [cbn; tauto|reflexivity|exact Nr|intros (y & Y); discriminate]|exact Ok1].
  unfold holds_requests.
  assert (U : has d "use_standard_format" (VBool std)).
  { pose proof (H "use_standard_format" ltac:(cbn; tauto)) as X. cbn [String.eqb Ascii.eqb] in X. change (String.eqb "use_standard_format" "use_standard_format") with true in X. cbv iota in X.
    change (load_key "use_standard_format") with "use_custom_name" in X. rewrite (seen_has _ _ _ C) in X by (intros (y & Y); discriminate). cbn [truthy] in X. rewrite negb_involutive in X. exact X. }
  repeat (split; [solve [exact U | apply G; [cbn; tauto|reflexivity|assumption|intros (y & Y); discriminate]]|]).
  intros E. destruct (T E) as (T1 & T2 & T3). repeat split; (apply G; [cbn; tauto|reflexivity|assumption|intros (y & Y); discriminate]).
Qed.
(** quantum numbers as the saver writes them *)
Lemma quantum_text_saver a b c d e f : quantum_text (a, b, c) (d, e, f) = Saver_Model.qnr_string [a; b; c] [d; e; f].
Proof. unfold quantum_text, Saver_Model.qnr_string. cbn [map Saver_Model.join append]. unfold dec. repeat (progress (cbn [append]; rewrite ?Saver_Names.sapp_assoc)). reflexivity. Qed.
(** With custom names, the directory "hdf5_output", no specification and suffix "h5", what is loaded is exactly the file a
    solve run with the same base directory, name and quantum numbers has written. *)
Theorem C131_loads_what_was_saved : forall repr base extra name fmt a b c d e f mass xc pairs p,
  Saver_Model.lower fmt = "hdf5" -> Saver_Spec.word name -> forallb Saver_Model.is_word (list_ascii_of_string extra) = true ->
  path_of repr false base "hdf5_output" {| r_files := Single (extra ++ name) "" "h5"; r_k := (a, b, c); r_m := (d, e, f); r_mass := mass; r_xc := xc; r_pairs := pairs |} p ->
  exists s, p = One s /\ Saver_Model.save_file base "" extra name fmt [a; b; c] [d; e; f] = Ok s.
Proof.
  intros repr base extra name fmt a b c d e f mass xc pairs p F W X (ex & -> & P). cbn [r_files r_k r_m] in P. destruct p as [s|l]; [|contradiction]. exists s. split; [reflexivity|].
  rewrite (Properties_Saver.C99_suffix_inserted base "" extra name fmt _ _ F W eq_refl X). f_equal. subst s. unfold path_text. cbn [spec_text]. rewrite quantum_text_saver.
  change (String.eqb "" "") with true. cbv iota. repeat (progress (cbn [append]; rewrite ?Saver_Names.sapp_assoc)). reflexivity.
Qed.
(** ... so that the plotting inlist that names a saved run by base name and quantum numbers gets exactly the path of the saved file. *)
Theorem C131_saved_then_loaded : forall repr inlist base rs n ps i extra name fmt a b c d e f r,
  inlist_requests repr inlist false base "hdf5_output" rs n -> (forall r', In r' rs -> sensible r') -> paths_of_inlist repr inlist = Ok ps ->
  nth_error rs i = Some r -> (Z.of_nat i < n)%Z -> r_files r = Single (extra ++ name) "" "h5" -> r_k r = (a, b, c) -> r_m r = (d, e, f) ->
  Saver_Model.lower fmt = "hdf5" -> Saver_Spec.word name -> forallb Saver_Model.is_word (list_ascii_of_string extra) = true ->
  exists s, nth_error ps i = Some (One s) /\ Saver_Model.save_file base "" extra name fmt [a; b; c] [d; e; f] = Ok s.
Proof.
  intros repr inlist base rs n ps i extra name fmt a b c d e f r Q Se P Ri Hi Fr Kr Mr Fm W X.
  destruct (C131_paths repr inlist false base "hdf5_output" rs n Q) as [H1 H2].
  { intros r' I. split; [apply Se; exact I|discriminate]. }
  destruct (Z_le_gt_dec n (Z.of_nat (List.length rs))) as [L|G].
  - destruct (H1 L) as (ps' & P' & _ & N). rewrite P in P'. injection P' as <-. destruct (N i r Ri Hi) as (p & Np & Pp).
    destruct r as [rf rk rm ma xc pr]. cbn [r_files r_k r_m] in Fr, Kr, Mr. subst rf rk rm.
    destruct (C131_loads_what_was_saved repr base extra name fmt a b c d e f ma xc pr p Fm W X Pp) as (s & -> & Sv). exists s. split; assumption.
  - rewrite H2 in P by lia. discriminate.
Qed.
(** Finding: a run saved under a name with another character than letters, digits, underscores (and no dots in the directory)
    is never found again by its name: the saver leaves out the quantum numbers, the loader always adds them. *)
Theorem C131_hyphenated_runs_are_not_found : forall repr base w ch t k m mass xc pairs p q,
  Saver_Spec.no_dot base -> forallb Saver_Model.is_word (list_ascii_of_string w) = true -> Saver_Model.is_word ch = false -> ch <> "."%char ->
  Saver_Spec.no_slash (w ++ String ch t) ->
  path_of repr false base "hdf5_output" {| r_files := Single (w ++ String ch t) "" "h5"; r_k := k; r_m := m; r_mass := mass; r_xc := xc; r_pairs := pairs |} p ->
  Saver_Model.save_name base "" "" (w ++ String ch t) "hdf5" = Ok q -> p <> One (Saver_Model.adjust_file_path (Saver_Model.qnr_string [fst (fst k); snd (fst k); snd k] [fst (fst m); snd (fst m); snd m]) q).
Proof.
  intros repr base w ch t [[a b] c] [[d e] f] mass xc pairs p q ND W C N S (ex & -> & P) Q E. cbn [r_files r_k r_m] in P. subst p. cbn [fst snd] in P.
  unfold Saver_Model.save_name in Q. cbn [Saver_Model.obtain_save_directory] in Q.
  rewrite (proj1 (Properties_Saver.C98_formats base "hdf5") eq_refl) in Q. cbn [bind fst snd Saver_Model.slash_subdir append] in Q. injection Q as <-.
  assert (Z : (base ++ "/hdf5_output/") ++ (w ++ String ch t) ++ String "." "h5" = (base ++ "/hdf5_output") ++ "/" ++ w ++ String ch (t ++ ".h5")).
  { repeat (progress (cbn [append]; rewrite ?Saver_Names.sapp_assoc)). reflexivity. }
  rewrite Z in P. rewrite Properties_Saver.C99_hyphenated_names_collide in P; [|unfold Saver_Spec.no_dot in *; rewrite Saver_Names.los_app, existsb_app, ND; reflexivity|exact W|exact C|exact N|].
  - unfold path_text in P. cbn [spec_text] in P. repeat (progress (cbn [append] in P; rewrite ?Saver_Names.sapp_assoc in P)).
    apply Saver_Names.append_inj_l in P. injection P as P. apply Saver_Names.append_inj_l in P. injection P as P. apply Saver_Names.append_inj_l in P.
    assert (L := f_equal String.length P). clear -L. 
    cbn [append String.length] in L. assert (LA : forall x y, String.length (x ++ y) = (String.length x + String.length y)%nat) by (induction x; cbn; [reflexivity|intros; rewrite IHx; reflexivity]).
    rewrite ?LA in L. cbn [String.length] in L. lia.
  - unfold Saver_Spec.no_slash in *. rewrite Saver_Names.los_app in *. cbn [list_ascii_of_string] in *. rewrite existsb_app in *. cbn [existsb] in *. rewrite Saver_Names.los_app, existsb_app. cbn [list_ascii_of_string existsb].
    apply orb_false_iff in S. destruct S as [S1 S2]. apply orb_false_iff in S2. destruct S2 as [S2 S3]. rewrite S1, S2, S3. reflexivity.
Qed.
(** values without tables inside *)
Fixpoint plain (v : val) : Prop :=
  match v with
  | VArr l | VTup l => (fix all (l : list val) : Prop := match l with [] => True | x :: l' => plain x /\ all l' end) l
  | VTab _ => False
  | _ => True
  end.
Definition other_error (e : exn) : Prop := e = TypeError \/ e = IndexError \/ e = ValueError.
Definition fails {A} (r : res A) : Prop := exists e, r = Exc e /\ other_error e.
Definition safe {A} (P : A -> Prop) (r : res A) : Prop := (exists x, r = Ok x /\ P x) \/ fails r.
Lemma fails_bind {A B} (P : A -> Prop) (r : res A) (f : A -> res B) : safe P r -> (forall x, P x -> fails (f x)) -> fails (bind r f).
Proof. intros [(x & -> & Px)|(e & -> & He)] H; [exact (H x Px)|exists e; split; [reflexivity|exact He]]. Qed.
Lemma safe_bind {A B} (P : A -> Prop) (Q : B -> Prop) (r : res A) (f : A -> res B) : safe P r -> (forall x, P x -> safe Q (f x)) -> safe Q (bind r f).
Proof. intros [(x & -> & Px)|(e & -> & He)] H; [exact (H x Px)|right; exists e; split; [reflexivity|exact He]]. Qed.
Lemma plain_nth l : plain (VArr l) -> forall i x, nth_error l i = Some x -> plain x.
Proof. cbn. induction l as [|y l IH]; intros H [|i] x E; try discriminate; [injection E as <-; exact (proj1 H)|exact (IH (proj2 H) i x E)]. Qed.
Lemma at_index_plain i v : plain v -> safe plain (at_index i v).
Proof.
  intros P. destruct v; cbn [at_index]; try (right; exists TypeError; split; [reflexivity|left; reflexivity]).
  - destruct (nth_char s i); [left; eexists; split; [reflexivity|exact I]|right; exists IndexError; split; [reflexivity|right; left; reflexivity]].
  - destruct (nth_error l i) eqn:E; [left; eexists; split; [reflexivity|exact (plain_nth l P i v E)]|right; exists IndexError; split; [reflexivity|right; left; reflexivity]].
  - destruct (nth_error l i) eqn:E; [left; eexists; split; [reflexivity|exact (plain_nth l P i v E)]|right; exists IndexError; split; [reflexivity|right; left; reflexivity]].
  - destruct P.
Qed.
(** Finding: the scripts announce an orderly exit for missing loading information, but a setting missing from the inlist is read
    as None, so it ends in a TypeError (or another ordinary exception) instead: the exit is never taken. *)
Theorem C131_missing_settings_raise : forall repr inlist t k, at_path (VTab inlist) ["plotting"; "load"] (VTab t) -> t <> [] -> (forall k' v, has t k' v -> plain v) ->
  In k ["nr_files"; "base_dir"; "output_dir"; "base_file_names"; "specification_names"; "file_suffix"; "meridional_degrees"; "azimuthal_orders"] -> lacks t k ->
  (k <> "nr_files" -> exists n, has t "nr_files" (VInt n) /\ (0 < n)%Z) ->
  exists e, paths_of_inlist repr inlist = Exc e /\ (e = TypeError \/ e = IndexError \/ e = ValueError).
Proof.
  intros repr inlist t k A NE Pl Ik Lk Nr. destruct (load_dict inlist t A NE) as (d & D & H). unfold paths_of_inlist. rewrite D. cbn [bind].
  assert (V : forall k', In k' load_keys -> exists v, has d k' v /\ plain v).
  { intros k' Hk'. eexists. split; [exact (H k' Hk')|]. destruct (String.eqb k' "use_standard_format"); [exact I|]. unfold seen. destruct (tget t (load_key k')) as [v|] eqn:E; [|exact I].
    apply tget_has in E. pose proof (Pl _ _ E) as Pv. destruct v; first [exact Pv | destruct Pv]. }
  assert (Nn : forall k', k' = k -> has d k' VNone).
  { intros k' ->. assert (Hk : In k load_keys) by (cbn in Ik |- *; intuition (subst; tauto)). pose proof (H k Hk) as X.
    assert (E : String.eqb k "use_standard_format" = false) by (cbn in Ik; destruct Ik as [<-|[<-|[<-|[<-|[<-|[<-|[<-|[<-|[]]]]]]]]]; reflexivity).
    rewrite E in X. unfold load_key in X. rewrite E in X. unfold seen in X. apply tget_lacks in Lk. rewrite Lk in X. exact X. }
  assert (TE : other_error TypeError) by (left; reflexivity).
  unfold generate_load_file_path_list. destruct (string_dec k "nr_files") as [->|Nk].
  { rewrite (item_has _ _ _ (Nn _ eq_refl)). exists TypeError. split; [reflexivity|exact TE]. }
  destruct (Nr Nk) as (n & Hn & Pos). assert (Dn : has d "nr_files" (VInt n)).
  { pose proof (H "nr_files" ltac:(cbn; tauto)) as X. cbn in X. unfold seen in X. change (load_key "nr_files") with "nr_files" in X. apply tget_has in Hn. rewrite Hn in X. exact X. }
  rewrite (item_has _ _ _ Dn). cbn [bind py_range]. destruct (Z.to_nat n) as [|n'] eqn:En; [lia|]. cbn [seq mapM].
  assert (F : fails (load_file_name repr d 0)).
  { assert (It : forall k', In k' load_keys -> safe plain (item k' (VTab d))).
    { intros k' Hk'. destruct (V k' Hk') as (v & V1 & V2). left. exists v. split; [exact (item_has _ _ _ V1)|exact V2]. }
    assert (Rw : forall k', In k' load_keys -> safe plain (raw d 0 k')).
    { intros k' Hk'. unfold raw. eapply safe_bind; [exact (It k' Hk')|]. intros v Pv. apply at_index_plain, Pv. }
    assert (RN : forall k', k' = k -> raw d 0 k' = Exc TypeError). { intros k' E. unfold raw. rewrite (item_has _ _ _ (Nn _ E)). reflexivity. }
    assert (Or : forall pre k', In k' load_keys -> safe (fun _ => True) (order_string repr d 0 pre k')).
    { intros pre k' Hk'. unfold order_string. eapply safe_bind; [exact (Rw k' Hk')|]. intros v Pv. cbv beta. eapply safe_bind; [exact (at_index_plain 0 v Pv)|]. intros a _.
      eapply safe_bind; [exact (at_index_plain 1 v Pv)|]. intros b _. eapply safe_bind; [exact (at_index_plain 2 v Pv)|]. intros c _. left. eexists. split; [reflexivity|exact I]. }
    assert (FT : forall A (f : res A), f = Exc TypeError -> fails f) by (intros A0 f ->; exists TypeError; split; [reflexivity|exact TE]).
    unfold load_file_name.
    destruct (string_dec "base_dir" k) as [E|N1]; [rewrite (item_has _ _ _ (Nn _ E)); apply FT; reflexivity|].
    eapply fails_bind; [exact (It "base_dir" ltac:(cbn; tauto))|]. intros vb _. cbv beta. destruct vb; try (apply FT; reflexivity).
    destruct (string_dec "output_dir" k) as [E|N2]; [rewrite (item_has _ _ _ (Nn _ E)); apply FT; reflexivity|].
    eapply fails_bind; [exact (It "output_dir" ltac:(cbn; tauto))|]. intros vo _. cbv beta. destruct vo; try (apply FT; reflexivity).
    eapply fails_bind; [exact (It "use_standard_format" ltac:(cbn; tauto))|]. intros vs _. cbv beta.
    destruct (string_dec "base_file_names" k) as [E|N3]; [rewrite (RN _ E); apply FT; reflexivity|]. eapply fails_bind; [exact (Rw "base_file_names" ltac:(cbn; tauto))|]. intros bn _. cbv beta.
    destruct (string_dec "specification_names" k) as [E|N4]; [rewrite (RN _ E); apply FT; reflexivity|]. eapply fails_bind; [exact (Rw "specification_names" ltac:(cbn; tauto))|]. intros sn _. cbv beta.
    destruct (string_dec "meridional_degrees" k) as [E|N5]; [unfold order_string at 1; rewrite (RN _ E); apply FT; reflexivity|]. eapply fails_bind; [exact (Or "k" "meridional_degrees" ltac:(cbn; tauto))|]. intros ks _. cbv beta.
    destruct (string_dec "azimuthal_orders" k) as [E|N6]; [unfold order_string at 1; rewrite (RN _ E); apply FT; reflexivity|]. eapply fails_bind; [exact (Or "m" "azimuthal_orders" ltac:(cbn; tauto))|]. intros ms _. cbv beta.
    destruct (string_dec "file_suffix" k) as [E|N7]; [rewrite (RN _ E); apply FT; reflexivity|]. exfalso. cbn in Ik. intuition congruence. }
  destruct F as (e & -> & He). cbn [bind]. exists e. split; [|exact He]. destruct He as [-> | [-> | ->]]; reflexivity.
Qed.
(** With the standard format, an Xc whose text has not exactly one decimal point (a whole number, say) raises ValueError. *)
Theorem C131_whole_number_xc : forall repr inlist base out r n, inlist_requests repr inlist true base out [r] n -> (0 < n)%Z ->
  ~ (exists xi xf, xc_parts repr r xi xf) -> paths_of_inlist repr inlist = Exc ValueError.
Proof.
  intros repr inlist base out r n (t & A & C & Nr & B & O & N & S & F & K & M & T) Pos X.
  assert (NE : t <> []). { intros ->. destruct C as (a & b & E & _). destruct a; discriminate. }
  destruct (load_dict inlist t A NE) as (d & D & H). unfold paths_of_inlist. rewrite D. cbn [bind].
  assert (G : forall k v, In k load_keys -> String.eqb k "use_standard_format" = false -> has t k v -> ~ is_table v -> has d k v).
  { intros k v Ik Ek Hk Tk. pose proof (H k Ik) as X'. rewrite Ek in X'. unfold load_key in X'. rewrite Ek, (seen_has _ _ _ Hk Tk) in X'. exact X'. }
  assert (U : has d "use_standard_format" (VBool true)).
  { pose proof (H "use_standard_format" ltac:(cbn; tauto)) as X'. change (String.eqb "use_standard_format" "use_standard_format") with true in X'. cbv iota in X'.
    change (load_key "use_standard_format") with "use_custom_name" in X'. rewrite (seen_has _ _ _ C) in X' by (intros (y & Y); discriminate). exact X'. }
  destruct (T eq_refl) as (T1 & T2 & T3).
  assert (Q : forall k v, In k load_keys -> String.eqb k "use_standard_format" = false -> has t k (VArr v) -> has d k (VArr v)) by (intros; apply G; try assumption; intros (y & Y); discriminate).
  unfold generate_load_file_path_list. rewrite (item_has d "nr_files" (VInt n)) by (apply G; [cbn; tauto|reflexivity|exact Nr|intros (y & Y); discriminate]). cbn [bind py_range].
  destruct (Z.to_nat n) as [|n'] eqn:En; [lia|]. cbn [seq mapM].
  replace (load_file_name repr d 0) with (@Exc paths ValueError); [reflexivity|]. symmetry. unfold load_file_name.
  rewrite (item_has d "base_dir" (VStr base)) by (apply G; [cbn; tauto|reflexivity|exact B|intros (y & Y); discriminate]). cbn [bind].
  rewrite (item_has d "output_dir" (VStr out)) by (apply G; [cbn; tauto|reflexivity|exact O|intros (y & Y); discriminate]). cbn [bind]. rewrite (item_has _ _ _ U). cbn [bind].
  rewrite (raw_col name_cell d 0 "base_file_names" [r] r (Q "base_file_names" _ ltac:(cbn; tauto) eq_refl N) eq_refl). cbn [bind]. rewrite (raw_col spec_cell d 0 "specification_names" [r] r (Q "specification_names" _ ltac:(cbn; tauto) eq_refl S) eq_refl). cbn [bind].
  rewrite (order_ok repr d 0 "k" "meridional_degrees" [r] r_k r (Q "meridional_degrees" _ ltac:(cbn; tauto) eq_refl K) eq_refl). cbn [bind]. rewrite (order_ok repr d 0 "m" "azimuthal_orders" [r] r_m r (Q "azimuthal_orders" _ ltac:(cbn; tauto) eq_refl M) eq_refl). cbn [bind].
  rewrite (raw_col suffix_cell d 0 "file_suffix" [r] r (Q "file_suffix" _ ltac:(cbn; tauto) eq_refl F) eq_refl). cbn [bind truthy].
  rewrite (raw_col r_mass d 0 "masses" [r] r (Q "masses" _ ltac:(cbn; tauto) eq_refl T1) eq_refl). cbn [bind]. unfold split_xc. rewrite (raw_col r_xc d 0 "Xcs" [r] r (Q "Xcs" _ ltac:(cbn; tauto) eq_refl T2) eq_refl). cbn [bind].
  destruct (split_dot (py_str repr (r_xc r))) as [|a [|b [|c l]]] eqn:Sp; try reflexivity. exfalso. apply X. exists a, b. apply split_dot_inv in Sp. exact Sp.
Qed.
(** Two custom-named requests of the same name, specification and suffix share a path only if their quantum numbers agree. *)
Theorem C131_quantum_numbers_distinguish : forall repr base out n s x r r' p, r_files r = Single n s x -> r_files r' = Single n s x ->
  path_of repr false base out r p -> path_of repr false base out r' p -> r_k r = r_k r' /\ r_m r = r_m r'.
Proof.
  intros repr base out n s x r r' p E E' (e1 & -> & P) (e2 & -> & P'). rewrite E in P. rewrite E' in P'. destruct p as [t|]; [|contradiction]. subst t. unfold path_text in P'.
  cbn [append] in P'. do 2 (apply Saver_Names.append_inj_l in P'; injection P' as P'). do 2 apply Saver_Names.append_inj_l in P'.
  apply Saver_Names.append_inj_r in P'. destruct (r_k r) as [[a b] c], (r_m r) as [[d e] f], (r_k r') as [[a' b'] c'], (r_m r') as [[d' e'] f'].
  rewrite !quantum_text_saver in P'. destruct (Saver_Names.qnr_inj [a; b; c] [d; e; f] [a'; b'; c'] [d'; e'; f']) as [X Y]; try discriminate; [exact P'|]. injection X as -> -> ->. injection Y as -> -> ->. split; reflexivity.
Qed.
(** Finding: name and specification are not told apart: ("a_b", "") and ("a", "b") are the same file. *)
Theorem C131_name_and_specification_merge : forall base out a b extra q x, b <> "" -> path_text base out (a ++ "_" ++ b) "" extra q x = path_text base out a b extra q x.
Proof. intros base out a b extra q x N. unfold path_text. destruct b as [|c b]; [contradiction|]. cbn [spec_text append]. rewrite !Saver_Names.sapp_assoc. reflexivity. Qed.
(** examples: an inlist asking for one file and one group of two, the second one with a list that is too long *)
Definition ex_load : table :=
  [("nr_files", VInt 2); ("base_dir", VStr "/data"); ("output_dir", VStr "hdf5_output"); ("use_custom_name", VBool true);
   ("base_file_names", VArr [VStr "star_1"; VArr [VStr "a"; VStr "b"; VStr "c"]]); ("specification_names", VArr [VStr ""; VArr [VStr ""; VStr "x"]]);
   ("meridional_degrees", VArr [VArr [VInt 0; VInt 0; VInt 0]; VArr [VInt 0; VInt 1; VInt 0]]); ("azimuthal_orders", VArr [VArr [VInt (-2); VInt 1; VInt 1]; VArr [VInt 2; VInt 1; VInt 1]]);
   ("file_suffix", VArr [VStr "h5"; VArr [VStr "h5"; VStr "h5"]])].
Definition ex_pairs := ((20, 10), (47, 17), (10, 3))%Z.
Definition ex_requests : list request :=
  [{| r_files := Single "star_1" "" "h5"; r_k := (0, 0, 0)%Z; r_m := (-2, 1, 1)%Z; r_mass := VInt 8; r_xc := VNone; r_pairs := ex_pairs |};
   {| r_files := Several ["a"; "b"; "c"] [""; "x"] ["h5"; "h5"]; r_k := (0, 1, 0)%Z; r_m := (2, 1, 1)%Z; r_mass := VInt 8; r_xc := VNone; r_pairs := ex_pairs |}].
Theorem C131_example : forall repr, inlist_requests repr [("plotting", VTab [("load", VTab ex_load)])] false "/data" "hdf5_output" ex_requests 2 /\ (forall r, In r ex_requests -> sensible r) /\
  paths_of_inlist repr [("plotting", VTab [("load", VTab ex_load)])] =
    Ok [One "/data/hdf5_output/star_1_k_0_0_0_m_-2_1_1.h5"; Many ["/data/hdf5_output/a_k_0_1_0_m_2_1_1.h5"; "/data/hdf5_output/b_x_k_0_1_0_m_2_1_1.h5"]] /\
  paths_of_inlist repr [("plotting", VTab [("load", VTab (("masses", VArr [VInt 8]) :: filter (fun kv => negb (String.eqb (fst kv) "output_dir")) ex_load))])] = Exc TypeError.
Proof.
  intros repr. split; [|split; [|split; reflexivity]].
  - exists ex_load. split; [eapply below; [exists [], []; split; [reflexivity|intros []]|]; eapply below; [exists [], []; split; [reflexivity|intros []]|constructor]|].
    repeat (split; [apply tget_has; reflexivity|]). discriminate.
  - intros r [<-|[<-|[]]]; cbn; [exact I|repeat split; discriminate].
Qed.
(** the standard format: "8" and "0.09" *)
Theorem C131_standard_example : 
  paths_of_inlist (fun v => match v with VFloat _ => "0.09" | _ => "" end) [("plotting", VTab [("load", VTab [("nr_files", VInt 1); ("base_dir", VStr "."); ("output_dir", VStr "out"); ("base_file_names", VArr [VStr "run"]); ("specification_names", VArr [VStr "OP"]);
     ("masses", VArr [VInt 8]); ("Xcs", VArr [VFloat (9 # 100)]); ("triple_pairs", VArr [pairs_cell ex_pairs]); ("meridional_degrees", VArr [VArr [VInt 0; VInt 0; VInt 0]]); ("azimuthal_orders", VArr [VArr [VInt 2; VInt 1; VInt 1]]);
     ("file_suffix", VArr [VStr "h5"])])])] = Ok [One "./out/run_OP_M8_Xc0_09_d20_10_d47_17_p10_3_k_0_0_0_m_2_1_1.h5"].
Proof. reflexivity. Qed.

(** ** C132: information folders *)
(** Every one of the sixteen values is the one written at its position (turned into a tuple if its switch is on); if one of the
    twenty entries is missing (or what should become a tuple cannot), the run ends with KeyError or TypeError: there are no defaults. *)
Theorem C132_folders : forall inlist,
  let d := VTab (adjust_for_none inlist) in
  (forall t, parse_toml_info_file (adjust_for_none inlist) = Ok t ->
     map fst t = map fst folder_table /\ forall k pos sw, In (k, (pos, sw)) folder_table -> exists v, has t k v /\ folder_value d pos sw v) /\
  ((forall k pos sw, In (k, (pos, sw)) folder_table -> exists v, folder_value d pos sw v) <-> exists t, parse_toml_info_file (adjust_for_none inlist) = Ok t) /\
  ((exists t, parse_toml_info_file (adjust_for_none inlist) = Ok t) \/ parse_toml_info_file (adjust_for_none inlist) = Exc KeyError \/ parse_toml_info_file (adjust_for_none inlist) = Exc TypeError).
Proof.
  intros inlist. cbn zeta. split; [intros t; apply parse_sound|]. split.
  - split; [apply parse_complete|]. intros (t & E) k pos sw I. destruct (parse_sound _ _ E) as [_ S]. destruct (S k pos sw I) as (v & _ & V). exists v. exact V.
  - destruct (parse_found (adjust_for_none inlist)) as [X|(e & X & [-> | ->])]; [left; exact X|right; left; exact X|right; right; exact X].
Qed.
(** Finding: with the switch on, a single selection text becomes its letters. *)
Theorem C132_text_becomes_letters : forall s k f t w, has t k (VStr s) -> has t f w -> truthy w = true ->
  maybe_tuple (VTab t) k f = Ok (VTup (map (fun c => VStr (String c "")) (list_ascii_of_string s))).
Proof. intros s k f t w K F T. unfold maybe_tuple. rewrite (item_has _ _ _ F). cbn [bind]. rewrite (item_has _ _ _ K). cbn [bind]. rewrite T. cbn [to_tuple]. rewrite chars_map. reflexivity. Qed.
Definition ex_folders : table :=
  [("information_folders", VTab [
     ("MESA", VTab [("default", VTab [("base_dir", VStr "/mesa/"); ("output_dir", VStr "/mesa/profiles")]); ("selection", VTab [("substrings", VArr [VStr "M8"]); ("substrings_to_tuple", VBool true); ("suffix", VStr "dat")])]);
     ("GYRE", VTab [("default", VTab [("base_dir", VStr "/gyre/"); ("output_dir", VStr "/gyre/out")]); ("selection", VTab [("detail_substrings", VStr "ab"); ("detail_substrings_to_tuple", VBool true); ("summary_substring", VStr "summary")])]);
     ("POLY", VTab [("structure", VTab [("default", VTab [("base_dir", VStr "/poly/"); ("output_dir", VStr "/poly/n3")]); ("selection", VTab [("substrings", VArr [VStr "n_3_0"]); ("substrings_to_tuple", VBool false); ("suffix", VStr "h5")])]);
                    ("modes", VTab [("default", VTab [("base_dir", VStr "/osc/"); ("output_dir", VStr "/osc/n3")]); ("selection", VTab [("detail_substrings", VArr [VStr "detail"]); ("detail_substrings_to_tuple", VBool true); ("summary_substring", VTab [])])])])])].
Theorem C132_example : parse_toml_info_file (adjust_for_none ex_folders) =
  Ok [("base_dir", VStr "/mesa/"); ("mesa_output_dir", VStr "/mesa/profiles"); ("mesa_profile_substrings", VTup [VStr "M8"]); ("mesa_suffix", VStr "dat");
      ("gyre_base_dir", VStr "/gyre/"); ("gyre_output_dir", VStr "/gyre/out"); ("gyre_detail_substring", VTup [VStr "a"; VStr "b"]); ("gyre_summary_substring", VStr "summary");
      ("poly_base_dir", VStr "/poly/"); ("poly_struct_dir", VStr "/poly/n3"); ("poly_struct_substrings", VArr [VStr "n_3_0"]); ("poly_struct_suffix", VStr "h5");
      ("poly_mode_base_dir", VStr "/osc/"); ("poly_mode_dir", VStr "/osc/n3"); ("poly_mode_substrings", VTup [VStr "detail"]); ("poly_summary_substring", VNone)].
Proof. reflexivity. Qed.

(** ** C133: directories a run reads *)
Definition mode_dir (repr : val -> string) (base name default_prefix rot : val) : string :=
  py_str repr base ++ (match name with VNone => py_str repr default_prefix ++ py_str repr rot | _ => py_str repr name end) ++ "/".
Lemma tget_filter k k' d : k <> k' -> tget (filter (fun kv => negb (String.eqb k (fst kv))) d) k' = tget d k'.
Proof.
  intros N. induction d as [|[a v] d IH]; [reflexivity|]. cbn [filter fst tget]. destruct (String.eqb_spec k a) as [->|Na]; cbn [negb].
  - destruct (String.eqb_spec k' a) as [->|]; [contradiction|exact IH].
  - cbn [tget]. rewrite IH. reflexivity.
Qed.
Lemma pops_ok ks : forall d, NoDup ks -> (forall k, In k ks -> tget d k <> None) -> exists d', pops ks d = Ok d' /\ forall k, ~ In k ks -> tget d' k = tget d k.
Proof.
  induction ks as [|k ks IH]; intros d ND H; [exists d; split; [reflexivity|reflexivity]|]. cbn [pops]. unfold pop at 1. destruct (tget d k) as [v|] eqn:E; [|exfalso; exact (H k (or_introl eq_refl) E)]. cbn [bind].
  inversion ND as [|? ? N1 N2]; subst. destruct (IH (filter (fun kv => negb (String.eqb k (fst kv))) d) N2) as (d' & D1 & D2).
  - intros k' Hk'. rewrite tget_filter; [apply H; right; exact Hk'|]. intros ->. contradiction.
  - exists d'. split; [exact D1|]. intros k' Hk'. rewrite D2 by (intros X; apply Hk'; right; exact X). apply tget_filter. intros ->. apply Hk'. left. reflexivity.
Qed.
Section Dirs.
  Context {V : Type}.
  Variable ga ma oa pa : list string.
  Variable lb : string -> option (list (string * bool)).
  Variable repr : val -> string.
  (** the folders of the inlist *)
  Variable inlist f : table.
  Hypothesis parsed : parse_toml_info_file (adjust_for_none inlist) = Ok f.
  Lemma all_present k : In k (map fst folder_table) -> tget f k <> None.
  Proof.
    intros I. destruct (parse_sound _ _ parsed) as [K _]. rewrite <- K in I. intros N. apply tget_lacks in N. contradiction.
  Qed.
  Lemma setup_ok (poly : bool) rot base ad nad : exists f', solver_setup repr poly rot base ad nad f =
      Ok {| ad_dir := mode_dir repr base ad (VStr "output_rot_") rot; nad_dir := if poly then None else Some (mode_dir repr base nad (VStr "output_nad_rot_") rot); info := f' |} /\
      forall k, k <> "gyre_base_dir" -> k <> "gyre_output_dir" -> tget f' k = tget f k.
  Proof.
    unfold solver_setup. destruct (pops_ok ["gyre_base_dir"; "gyre_output_dir"] f) as (f' & P1 & P2).
    - repeat constructor; cbn; intuition discriminate.
    - intros k [<-|[<-|[]]]; apply all_present; cbn; tauto.
    - exists f'. rewrite P1. cbn [bind]. split; [unfold mode_dir; destruct ad, nad; reflexivity|]. intros k N1 N2. apply P2. intros [X|[X|[]]]; congruence.
  Qed.
  (** MESA + GYRE: adiabatic modes from "<base><adiabatic>/", then the structure from the MESA output directory, then non-adiabatic
      modes from "<base><nonadiabatic>/". *)
  Lemma mesa_equation fs rot base ad nad q b m sx vm vg ms gs :
    has f "base_dir" (VStr b) -> has f "mesa_output_dir" (VStr m) -> has f "mesa_suffix" (VStr sx) -> has f "mesa_profile_substrings" vm -> has f "gyre_detail_substring" vg ->
    as_substr vm = Ok ms -> as_substr vg = Ok gs ->
    run_load (V := V) ga ma oa pa fs lb repr false rot base ad nad inlist q =
      (x <- Load_Model.load_modes fs (Some (mode_dir repr base ad (VStr "output_rot_") rot)) ga q gs [true; true; true] ;
       s <- Load_Model.load_structure fs (Some m) ma (Load_Model.mesa_conds sx) ms ;
       y <- Load_Model.load_modes fs (Some (mode_dir repr base nad (VStr "output_nad_rot_") rot)) ga q gs [true; true; true] ; Ok (x, y, s))%res.
  Proof.
    intros Hb Hm Hs Hv Hg Em Eg. unfold run_load. rewrite parsed. cbn [bind]. destruct (setup_ok false rot base ad nad) as (f' & -> & F). cbn [bind load_triad]. unfold load_mesa. cbn [info ad_dir nad_dir].
    destruct (pops_ok ["poly_base_dir"; "poly_struct_dir"; "poly_struct_substrings"; "poly_struct_suffix"; "poly_mode_base_dir"; "poly_mode_dir"; "poly_mode_substrings"; "poly_summary_substring"] f') as (f2 & P1 & P2).
    { repeat constructor; cbn; intuition discriminate. }
    { intros k I. rewrite F; [apply all_present; cbn in I |- *; tauto| |]; intros ->; cbn in I; intuition discriminate. }
    rewrite P1. cbn [bind].
    assert (G : forall k v, has f k v -> k <> "gyre_base_dir" -> k <> "gyre_output_dir" -> ~ In k ["poly_base_dir"; "poly_struct_dir"; "poly_struct_substrings"; "poly_struct_suffix"; "poly_mode_base_dir"; "poly_mode_dir"; "poly_mode_substrings"; "poly_summary_substring"] -> item k (VTab f2) = Ok v).
    { intros k v Hk N1 N2 N3. apply item_has, tget_has. rewrite P2 by exact N3. rewrite F by assumption. apply tget_has, Hk. }
    rewrite (G _ _ Hb), (G _ _ Hm), (G _ _ Hs), (G _ _ Hv), (G _ _ Hg); try discriminate; try (cbn; intuition discriminate).
    cbn [bind as_path as_text]. rewrite Em, Eg. cbn [bind]. unfold Load_Model.loader_dirs, Load_Model.infer_dirs. cbn [andb bind]. unfold Load_Model.initialize_dirs. cbn [Load_Model.d_gyre Load_Model.d_mesa Load_Model.init_dir_path].
    unfold g_modes. reflexivity.
  Qed.
  Lemma poly_equation fs rot base ad nad q b m o sx vm vo ms os :
    has f "base_dir" (VStr b) -> has f "poly_struct_dir" (VStr m) -> has f "poly_mode_dir" (VStr o) -> has f "poly_struct_suffix" (VStr sx) -> has f "poly_struct_substrings" vm -> has f "poly_mode_substrings" vo ->
    as_substr vm = Ok ms -> as_substr vo = Ok os ->
    run_load (V := V) ga ma oa pa fs lb repr true rot base ad nad inlist q =
      (s <- Load_Model.load_structure fs (Some m) pa (Load_Model.poly_conds sx) ms ;
       x <- Load_Model.load_modes fs (Some o) oa q os [true; true; true] ; Ok (x, [], s))%res.
  Proof.
    intros Hb Hm Ho Hs Hv Hw Em Eo. unfold run_load. rewrite parsed. cbn [bind]. destruct (setup_ok true rot base ad nad) as (f' & -> & F). cbn [bind load_triad]. unfold load_poly. cbn [info].
    assert (G : forall k v, has f k v -> k <> "gyre_base_dir" -> k <> "gyre_output_dir" -> item k (VTab f') = Ok v).
    { intros k v Hk N1 N2. apply item_has, tget_has. rewrite F by assumption. apply tget_has, Hk. }
    rewrite (G _ _ Hb), (G _ _ Hm), (G _ _ Ho), (G _ _ Hs), (G _ _ Hv), (G _ _ Hw); try discriminate.
    cbn [bind as_path as_text]. rewrite Em, Eo. cbn [bind]. unfold Load_Model.loader_dirs, Load_Model.infer_dirs. cbn [andb bind]. unfold Load_Model.initialize_dirs. cbn [Load_Model.d_poly_model Load_Model.d_poly_osc Load_Model.init_dir_path].
    unfold g_modes. reflexivity.
  Qed.
End Dirs.
Lemma load_modes_local {V} (fs fs' : Load_Model.fsys V) d attrs q sub g : fs d = fs' d -> Load_Model.load_modes fs (Some d) attrs q sub g = Load_Model.load_modes fs' (Some d) attrs q sub g.
Proof. intros E. unfold Load_Model.load_modes, Load_Model.scandir. rewrite E. reflexivity. Qed.
Lemma load_structure_local {V} (fs fs' : Load_Model.fsys V) d attrs c sub : fs d = fs' d -> Load_Model.load_structure fs (Some d) attrs c sub = Load_Model.load_structure fs' (Some d) attrs c sub.
Proof. intros E. unfold Load_Model.load_structure, Load_Model.scandir. rewrite E. reflexivity. Qed.
(** the texts at the positions that matter *)
Definition folder_is (inlist : table) (k : string) (v : val) : Prop := exists pos sw, In (k, (pos, sw)) folder_table /\ folder_value (VTab (adjust_for_none inlist)) pos sw v.
Lemma folder_value_unique d pos sw v w : folder_value d pos sw v -> folder_value d pos sw w -> v = w.
Proof.
  intros (x & X & S) (y & Y & T). rewrite (at_path_unique _ _ _ _ Y X) in T. destruct sw as [s|]; [|congruence]. destruct S as (a & A & S), T as (b & B & T). rewrite (at_path_unique _ _ _ _ B A) in T.
  destruct (truthy a); [|congruence]. apply to_tuple_spec in S, T. congruence.
Qed.
Lemma folder_has inlist f k v : parse_toml_info_file (adjust_for_none inlist) = Ok f -> folder_is inlist k v -> has f k v.
Proof.
  intros P (pos & sw & I & F). destruct (parse_sound _ _ P) as [_ S]. destruct (S k pos sw I) as (w & H & W). rewrite (folder_value_unique _ _ _ _ _ F W). exact H.
Qed.
(** A MESA+GYRE run takes its adiabatic modes from "<gyre_dir_path><adiabatic specifier>/" (by default "output_rot_<percent>"), its
    non-adiabatic modes from "<gyre_dir_path><nonadiabatic specifier>/" and the structure from the MESA output directory, in this order. *)
Theorem C133_mesa_gyre : forall V ga ma oa pa (fs : Load_Model.fsys V) lb repr inlist rot base ad nad q b m sx vm vg ms gs,
  (exists f, parse_toml_info_file (adjust_for_none inlist) = Ok f) ->
  folder_is inlist "base_dir" (VStr b) -> folder_is inlist "mesa_output_dir" (VStr m) -> folder_is inlist "mesa_suffix" (VStr sx) ->
  folder_is inlist "mesa_profile_substrings" vm -> folder_is inlist "gyre_detail_substring" vg -> as_substr vm = Ok ms -> as_substr vg = Ok gs ->
  run_load ga ma oa pa fs lb repr false rot base ad nad inlist q =
    (x <- Load_Model.load_modes fs (Some (mode_dir repr base ad (VStr "output_rot_") rot)) ga q gs [true; true; true] ;
     s <- Load_Model.load_structure fs (Some m) ma (Load_Model.mesa_conds sx) ms ;
     y <- Load_Model.load_modes fs (Some (mode_dir repr base nad (VStr "output_nad_rot_") rot)) ga q gs [true; true; true] ; Ok (x, y, s))%res.
Proof.
  intros V ga ma oa pa fs lb repr inlist rot base ad nad q b m sx vm vg ms gs (f & P) Hb Hm Hs Hv Hg Em Eg.
  apply (mesa_equation ga ma oa pa lb repr inlist f P fs rot base ad nad q b m sx vm vg ms gs); try assumption; apply (folder_has inlist); assumption.
Qed.
(** A polytrope run takes the structure and the modes from the two POLY output directories. *)
Theorem C133_polytrope : forall V ga ma oa pa (fs : Load_Model.fsys V) lb repr inlist rot base ad nad q b m o sx vm vo ms os,
  (exists f, parse_toml_info_file (adjust_for_none inlist) = Ok f) ->
  folder_is inlist "base_dir" (VStr b) -> folder_is inlist "poly_struct_dir" (VStr m) -> folder_is inlist "poly_mode_dir" (VStr o) -> folder_is inlist "poly_struct_suffix" (VStr sx) ->
  folder_is inlist "poly_struct_substrings" vm -> folder_is inlist "poly_mode_substrings" vo -> as_substr vm = Ok ms -> as_substr vo = Ok os ->
  run_load ga ma oa pa fs lb repr true rot base ad nad inlist q =
    (s <- Load_Model.load_structure fs (Some m) pa (Load_Model.poly_conds sx) ms ; x <- Load_Model.load_modes fs (Some o) oa q os [true; true; true] ; Ok (x, [], s))%res.
Proof.
  intros V ga ma oa pa fs lb repr inlist rot base ad nad q b m o sx vm vo ms os (f & P) Hb Hm Ho Hs Hv Hw Em Eo.
  apply (poly_equation ga ma oa pa lb repr inlist f P fs rot base ad nad q b m o sx vm vo ms os); try assumption; apply (folder_has inlist); assumption.
Qed.
(** Hence nothing outside these directories matters ... *)
Theorem C133_only_these_directories : forall V ga ma oa pa (fs fs' : Load_Model.fsys V) lb lb' repr inlist (poly : bool) rot base ad nad q b m sx vm vg ms gs pm po px wm wo pms pos,
  (exists f, parse_toml_info_file (adjust_for_none inlist) = Ok f) ->
  folder_is inlist "base_dir" (VStr b) -> folder_is inlist "mesa_output_dir" (VStr m) -> folder_is inlist "mesa_suffix" (VStr sx) ->
  folder_is inlist "mesa_profile_substrings" vm -> folder_is inlist "gyre_detail_substring" vg -> as_substr vm = Ok ms -> as_substr vg = Ok gs ->
  folder_is inlist "poly_struct_dir" (VStr pm) -> folder_is inlist "poly_mode_dir" (VStr po) -> folder_is inlist "poly_struct_suffix" (VStr px) ->
  folder_is inlist "poly_struct_substrings" wm -> folder_is inlist "poly_mode_substrings" wo -> as_substr wm = Ok pms -> as_substr wo = Ok pos ->
  agree_on (if poly then [pm; po] else [mode_dir repr base ad (VStr "output_rot_") rot; mode_dir repr base nad (VStr "output_nad_rot_") rot; m]) fs fs' ->
  run_load ga ma oa pa fs lb repr poly rot base ad nad inlist q = run_load ga ma oa pa fs' lb' repr poly rot base ad nad inlist q.
Proof.
  intros V ga ma oa pa fs fs' lb lb' repr inlist poly rot base ad nad q b m sx vm vg ms gs pm po px wm wo pms pos P Hb Hm Hs Hv Hg Em Eg Qm Qo Qs Qv Qw Fm Fo A. destruct poly.
  - rewrite (C133_polytrope V ga ma oa pa fs lb repr inlist rot base ad nad q b pm po px wm wo pms pos), (C133_polytrope V ga ma oa pa fs' lb' repr inlist rot base ad nad q b pm po px wm wo pms pos) by assumption.
    rewrite (load_structure_local fs fs' pm) by (apply A; left; reflexivity). rewrite (load_modes_local fs fs' po) by (apply A; right; left; reflexivity). reflexivity.
  - rewrite (C133_mesa_gyre V ga ma oa pa fs lb repr inlist rot base ad nad q b m sx vm vg ms gs), (C133_mesa_gyre V ga ma oa pa fs' lb' repr inlist rot base ad nad q b m sx vm vg ms gs) by assumption.
    rewrite (load_modes_local fs fs' (mode_dir repr base ad _ _)) by (apply A; left; reflexivity). rewrite (load_structure_local fs fs' m) by (apply A; right; right; left; reflexivity).
    rewrite (load_modes_local fs fs' (mode_dir repr base nad _ _)) by (apply A; right; left; reflexivity). reflexivity.
Qed.
(** ... and (finding) the GYRE folders, the POLY base directories and, for polytropes, the whole POLY_selection / GYRE_selection have no effect,
    although the folders must be present (C132). *)
Theorem C133_settings_without_effect : forall V ga ma oa pa (fs : Load_Model.fsys V) lb repr i1 i2 q b b',
  (exists f, parse_toml_info_file (adjust_for_none i1) = Ok f) -> (exists f, parse_toml_info_file (adjust_for_none i2) = Ok f) ->
  folder_is i1 "base_dir" (VStr b) -> folder_is i2 "base_dir" (VStr b') ->
  (forall rot base ad nad m sx vm vg ms gs, (forall k v, In (k, v) [("mesa_output_dir", VStr m); ("mesa_suffix", VStr sx); ("mesa_profile_substrings", vm); ("gyre_detail_substring", vg)] -> folder_is i1 k v /\ folder_is i2 k v) ->
     as_substr vm = Ok ms -> as_substr vg = Ok gs ->
     run_load ga ma oa pa fs lb repr false rot base ad nad i1 q = run_load ga ma oa pa fs lb repr false rot base ad nad i2 q) /\
  (forall rot base ad nad rot' base' ad' nad' m o sx vm vo ms os,
     (forall k v, In (k, v) [("poly_struct_dir", VStr m); ("poly_mode_dir", VStr o); ("poly_struct_suffix", VStr sx); ("poly_struct_substrings", vm); ("poly_mode_substrings", vo)] -> folder_is i1 k v /\ folder_is i2 k v) ->
     as_substr vm = Ok ms -> as_substr vo = Ok os ->
     run_load ga ma oa pa fs lb repr true rot base ad nad i1 q = run_load ga ma oa pa fs lb repr true rot' base' ad' nad' i2 q).
Proof.
  intros V ga ma oa pa fs lb repr i1 i2 q b b' P1 P2 B1 B2. split.
  - intros rot base ad nad m sx vm vg ms gs H Em Eg.
    rewrite (C133_mesa_gyre V ga ma oa pa fs lb repr i1 rot base ad nad q b m sx vm vg ms gs), (C133_mesa_gyre V ga ma oa pa fs lb repr i2 rot base ad nad q b' m sx vm vg ms gs); try assumption; try reflexivity; apply H; cbn; tauto.
  - intros rot base ad nad rot' base' ad' nad' m o sx vm vo ms os H Em Eo.
    rewrite (C133_polytrope V ga ma oa pa fs lb repr i1 rot base ad nad q b m o sx vm vo ms os), (C133_polytrope V ga ma oa pa fs lb repr i2 rot' base' ad' nad' q b' m o sx vm vo ms os); try assumption; try reflexivity; apply H; cbn; tauto.
Qed.
(** A run that loads anything has all sixteen folder settings. *)
Theorem C133_all_folders_required : forall V ga ma oa pa (fs : Load_Model.fsys V) lb repr inlist poly rot base ad nad q r, run_load ga ma oa pa fs lb repr poly rot base ad nad inlist q = Ok r ->
  forall k pos sw, In (k, (pos, sw)) folder_table -> exists v, folder_value (VTab (adjust_for_none inlist)) pos sw v.
Proof.
  intros V ga ma oa pa fs lb repr inlist poly rot base ad nad q r E. unfold run_load in E. destruct (parse_toml_info_file (adjust_for_none inlist)) as [f| |] eqn:P; try discriminate.
  apply C132_folders. exists f. exact P.
Qed.
(** the example inlist meets the hypotheses, and the directories are joined without separator *)
Theorem C133_example : (forall repr : val -> string, mode_dir repr (VStr "/gyre/models/") (VStr "rot_20") (VStr "output_rot_") (VInt 20) = "/gyre/models/rot_20/" /\
    mode_dir repr (VStr "/gyre/models") VNone (VStr "output_rot_") (VInt 20) = "/gyre/modelsoutput_rot_20/" /\ mode_dir repr VNone VNone (VStr "output_nad_rot_") (VInt 20) = "Noneoutput_nad_rot_20/") /\
  folder_is ex_folders "base_dir" (VStr "/mesa/") /\ folder_is ex_folders "mesa_output_dir" (VStr "/mesa/profiles") /\ folder_is ex_folders "mesa_profile_substrings" (VTup [VStr "M8"]) /\
  as_substr (VTup [VStr "M8"]) = Ok (Load_Model.STuple ["M8"]).
Proof.
  split; [intros repr; repeat split|].
  assert (G : forall k v f pos sw, parse_toml_info_file (adjust_for_none ex_folders) = Ok f -> In (k, (pos, sw)) folder_table -> tget f k = Some v -> folder_is ex_folders k v).
  { intros k v f pos sw P I T. destruct (parse_sound _ _ P) as [_ S]. destruct (S k pos sw I) as (w & W & F). exists pos, sw. split; [exact I|]. apply tget_has in T. rewrite (has_unique _ _ _ _ T W). exact F. }
  repeat split; (eapply G; [exact C132_example|cbn [folder_table In]; repeat first [left; reflexivity | right]|reflexivity]).
Qed.
