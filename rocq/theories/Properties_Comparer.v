(** * Comparison of adiabatic and non-adiabatic computations: C152-C155. *)
From Coq Require Import List ZArith Lia Lra Reals String Ascii Bool.
From Coquelicot Require Import Complex.
From Verif Require Import Base Py Saver_Model Load_Model Load_Spec Load_Proofs Load_Dim Load_UnitKeys Properties_Load Comparer_Model Comparer_Spec.
Import ListNotations.
Local Open Scope string_scope.
Local Open Scope res_scope.

(** ** Auxiliary facts *)
Lemma in_units_one_pair l : in_units (fun _ => 1%R) (VReIm l) = VCx l.
Proof.
  cbn. f_equal. rewrite (map_ext _ (fun i => nth i l (0, 0)%R)) by (intros i; rewrite !Rmult_1_r; destruct (nth i l (0, 0)%R); reflexivity).
  rewrite <- (map_nth_seq (fun z => z) l (0, 0)%R). apply map_id.
Qed.
Lemma in_units_one_real l : in_units (fun _ => 1%R) (VReal l) = VReal l.
Proof.
  cbn. f_equal. rewrite (map_ext _ (fun i => nth i l 0%R)) by (intros i; rewrite !Rmult_1_r; reflexivity).
  rewrite <- (map_nth_seq (fun z => z) l 0%R). apply map_id.
Qed.
(** a loaded dictionary that holds what the file holds *)
Definition shows (r : dict val) (f : mode_file) : Prop :=
  dget "x" r = Some (VReal (mf_x f)) /\ dget "M_r" r = Some (VReal (mf_Mr f)) /\ dget "M_star" r = Some (VReal [mf_M f]) /\
  dget "xi_r" r = Some (VReIm (mf_xr f)) /\ dget "xi_h" r = Some (VReIm (mf_xh f)) /\ dget "l" r = Some (mf_l f) /\ dget "m" r = Some (mf_m f) /\
  dget "n_g" r = Some (mf_n f) /\ dget "freq" r = Some (VCx (mf_freq f)) /\ dget "freq_units" r = Some (VStr (mf_units f)) /\
  dget "freq_frame" r = Some (VStr (mf_frame f)) /\
  List.length (mf_Mr f) = List.length (mf_x f) /\ List.length (mf_xr f) = List.length (mf_x f) /\ List.length (mf_xh f) = List.length (mf_x f).
Lemma inA k l : inb k l = true -> In k l. Proof. apply inb_iff. Qed.
Lemma ninA k l : inb k l = false -> ~ In k l. Proof. intros H J. apply inb_iff in J. congruence. Qed.
Lemma detail_shows s g_si e d f : read_from gyre_detail_attrs e d -> ~ text_file (e_name e) -> detail_file s (e_content e) f ->
  exists r, finish_detail (sc_G s) g_si "CGS" d = Ok r /\ shows r f.
Proof.
  intros (ND & _ & RD) NT (HM & HR & HL & HP & Hrho & HT & L1 & L2 & KIND & EM & Hx & HMr & Hxr & Hxh & Hl & Hm & Hn & Hf & Hu & Hfr & L3 & L4 & L5).
  specialize (RD NT).
  assert (G : forall k v, inb k gyre_detail_attrs = true -> stored (e_content e) k = Some v -> dget k d = Some v).
  { intros k v I E. rewrite RD, dec_true by exact I. exact E. }
  assert (DD : detail_data s d).
  { assert (BK : forall k v, In (k, v) d -> In k gyre_detail_attrs /\ stored (e_content e) k = Some v).
    { intros k v I. pose proof (in_dget k v d ND I) as E. rewrite RD in E. destruct (in_dec string_dec k gyre_detail_attrs) as [J|J]; [split; [exact J|exact E]|discriminate]. }
    split; [exact ND|]. split; [intros k v I; apply (BK k v I)|].
    do 6 (split; [apply G; [reflexivity|assumption]|]). split; [exact L1|]. split; [exact L2|].
    intros k v I NL. destruct (BK k v I) as [A B]. exact (KIND k v A B NL). }
  destruct (C114_dimensional_quantities s g_si d DD) as (r & Fr & _ & H). exists r. split; [exact Fr|].
  assert (LAB : forall k v, inb k gyre_detail_attrs = true -> inb k labels = true -> stored (e_content e) k = Some v -> dget k r = Some v).
  { intros k v I J E. apply (proj1 (H k v (G k v I E))). apply inA, J. }
  assert (REST : forall k v, inb k gyre_detail_attrs = true -> inb k labels = false -> stored (e_content e) k = Some v ->
     match unit_of s k with Some U => dget k r = Some v /\ dget (k ++ "_dim") r = Some (in_units U v) | None => dget k r = Some (in_units (fun _ => 1%R) v) end).
  { intros k v I J E. apply (proj2 (H k v (G k v I E))). apply ninA, J. }
  assert (REAL : forall k l, inb k gyre_detail_attrs = true -> inb k labels = false -> unit_b s k = None -> stored (e_content e) k = Some (VReal l) -> dget k r = Some (VReal l)).
  { intros k l I J U E. specialize (REST k _ I J E). rewrite unit_eq, U in REST. rewrite REST, in_units_one_real. reflexivity. }
  assert (PAIR : forall k v U, inb k gyre_detail_attrs = true -> inb k labels = false -> unit_b s k = Some U -> stored (e_content e) k = Some v -> dget k r = Some v).
  { intros k v U I J E1 E2. specialize (REST k _ I J E2). rewrite unit_eq, E1 in REST. apply REST. }
  unfold shows. rewrite EM.
  split; [apply REAL; [reflexivity|reflexivity|reflexivity|exact Hx]|]. split; [apply REAL; [reflexivity|reflexivity|reflexivity|exact HMr]|].
  split; [apply REAL; [reflexivity|reflexivity|reflexivity|exact HM]|].
  split; [eapply PAIR; [reflexivity|reflexivity|reflexivity|exact Hxr]|]. split; [eapply PAIR; [reflexivity|reflexivity|reflexivity|exact Hxh]|].
  split; [apply LAB; [reflexivity|reflexivity|exact Hl]|]. split; [apply LAB; [reflexivity|reflexivity|exact Hm]|]. split; [apply LAB; [reflexivity|reflexivity|exact Hn]|].
  split; [pose proof (REST "freq" _ eq_refl eq_refl Hf) as Q; rewrite unit_eq in Q; change (unit_b s "freq") with (@None (nat -> R)) in Q; rewrite Q, in_units_one_pair; reflexivity|].
  split; [apply LAB; [reflexivity|reflexivity|exact Hu]|]. split; [apply LAB; [reflexivity|reflexivity|exact Hfr]|]. auto.
Qed.
(** after the mass coordinate is added *)
Lemma with_mass_ok r f : shows r f -> exists r', with_mass r = Ok r' /\ dget "mass" r' = Some (VReal (map (fun m => m / mf_M f)%R (mf_Mr f))) /\ shows r' f.
Proof.
  intros H. pose proof H as (_ & HM & HS & _). unfold with_mass, real_entry. rewrite HM, HS. cbn [bind]. rewrite bcast_one. cbn [bind].
  eexists. split; [reflexivity|]. split; [rewrite dget_dset; reflexivity|].
  unfold shows in *. rewrite !dget_dset. cbn [string_dec]. repeat (match goal with |- context [string_dec ?a ?b] => destruct (string_dec a b) as [?E|?N]; [discriminate E|] end). exact H.
Qed.
Definition ready (r : dict val) (f : mode_file) : Prop := dget "mass" r = Some (VReal (map (fun m => m / mf_M f)%R (mf_Mr f))) /\ shows r f.

Lemma coordinate_ok radius r f : ready r f -> quantity r (if radius : bool then "x" else "mass") None = Ok (coordinate radius f).
Proof. intros [M S]. unfold quantity. destruct radius; [destruct S as (X & _); rewrite X; reflexivity|rewrite M; reflexivity]. Qed.
Lemma displacement_ok (radial re : bool) r f : ready r f -> quantity r (if radial then "xi_r" else "xi_h") (Some re) = Ok (displacement radial re f).
Proof. intros [_ (_ & _ & _ & A & B & _)]. unfold quantity, displacement. destruct radial; [rewrite A|rewrite B]; destruct re; reflexivity. Qed.
Lemma lengths_ok radius (radial re : bool) r f : ready r f -> List.length (coordinate radius f) = List.length (displacement radial re f).
Proof.
  intros [_ (_ & _ & _ & _ & _ & _ & _ & _ & _ & _ & _ & L1 & L2 & L3)]. unfold coordinate, displacement. rewrite map_length.
  destruct radius; destruct radial; rewrite ?map_length; congruence.
Qed.
Lemma freq_unit_label u : unit_label u (freq_unit u).
Proof.
  unfold unit_label, freq_unit. destruct (string_dec u "CYC_PER_DAY") as [->|N1]; [left; cbn; tauto|]. destruct (string_dec u "HZ") as [->|N2]; [left; cbn; tauto|].
  destruct (string_dec u "UHZ") as [->|N3]; [left; cbn; tauto|]. destruct (string_dec u "RAD_PER_SEC") as [->|N4]; [left; cbn; tauto|].
  right. split; [|reflexivity]. cbn. intros [E|[E|[E|[E|[]]]]]; symmetry in E; contradiction.
Qed.
Lemma title_ok ra rn a n : ready ra a -> ready rn n -> exists t, make_title ra rn = Ok t /\ t_l t = mf_l a /\ t_m t = mf_m a /\ t_n t = mf_n a /\
  t_ad t = VCx (mf_freq a) /\ t_nad t = VCx (mf_freq n) /\ unit_label (mf_units a) (t_unit t) /\ t_frame t = lower (mf_frame a).
Proof.
  intros [_ (_ & _ & _ & _ & _ & A1 & A2 & A3 & A4 & A5 & A6 & _)] [_ (_ & _ & _ & _ & _ & _ & _ & _ & B4 & _)].
  unfold make_title, entry_of. rewrite A1, A2, A3, A4, A5, A6, B4. cbn [bind]. eexists. split; [reflexivity|]. cbn.
  repeat (split; [reflexivity|]). split; [apply freq_unit_label|reflexivity].
Qed.
Section Drawn.
Context (c : comparer) (ra rn : dict val) (a n : mode_file) (nr : Z).
Hypothesis Ha : py_get (c_ad c) (nr - 1) = Ok ra.
Hypothesis Hn : py_get (c_nad c) (nr - 1) = Ok rn.
Hypothesis Ra : ready ra a.
Hypothesis Rn : ready rn n.
Lemma figure_ok (radius radial : bool) : exists fig,
  figure_comparison c (if radius then "x" else "mass") (if radial then "xi_r" else "xi_h") None (PMany [Some true; Some false]) (if radius then "r / R$_*$" else "m / M$_*$")
    (YMany (if radial then ["$Re[\xi_R]$"; "$Im[\xi_R]$"] else ["$Re[\xi_H]$"; "$Im[\xi_H]$"])) nr unit_bounds BNone = Ok fig /\ comparison_figure radius radial a n fig.
Proof.
  destruct (title_ok ra rn a n Ra Rn) as (t & T & HT).
  assert (D : forall (re : bool) lab r f, ready r f -> draw (Some lab) (coordinate radius f) (displacement radial re f) =
     Ok {| cv_label := Some lab; cv_x := coordinate radius f; cv_y := displacement radial re f |}).
  { intros re lab r f R. unfold draw. rewrite (lengths_ok radius radial re r f R), Nat.eqb_refl. reflexivity. }
  assert (P1 : forall xl yl, single_plot c (if radius then "x" else "mass") (if radial then "xi_r" else "xi_h") None (Some true) xl (YOne yl) nr unit_bounds BNone true false true =
     Ok {| p_curves := [{| cv_label := Some "adiabatic"; cv_x := coordinate radius a; cv_y := displacement radial true a |};
                        {| cv_label := Some "non-adiabatic"; cv_x := coordinate radius n; cv_y := displacement radial true n |}];
           p_xlabel := None; p_ylabel := Some yl; p_title := Some t; p_legend := true; p_xlim := (Some 0%R, Some 1%R); p_ylim := (None, None) |}).
  { intros xl yl. unfold single_plot. rewrite Ha, Hn. cbn [bind]. rewrite (coordinate_ok radius ra a Ra), (displacement_ok radial true ra a Ra). cbn [bind]. rewrite (D true _ ra a Ra). cbn [bind].
    rewrite (coordinate_ok radius rn n Rn), (displacement_ok radial true rn n Rn). cbn [bind]. rewrite (D true _ rn n Rn). cbn [bind limits unit_bounds].
    rewrite T. reflexivity. }
  assert (P2 : forall xl yl, single_plot c (if radius then "x" else "mass") (if radial then "xi_r" else "xi_h") None (Some false) xl (YOne yl) nr unit_bounds BNone false true false =
     Ok {| p_curves := [{| cv_label := Some "adiabatic"; cv_x := coordinate radius a; cv_y := displacement radial false a |};
                        {| cv_label := Some "non-adiabatic"; cv_x := coordinate radius n; cv_y := displacement radial false n |}];
           p_xlabel := Some xl; p_ylabel := Some yl; p_title := None; p_legend := false; p_xlim := (Some 0%R, Some 1%R); p_ylim := (None, None) |}).
  { intros xl yl. unfold single_plot. rewrite Ha, Hn. cbn [bind]. rewrite (coordinate_ok radius ra a Ra), (displacement_ok radial false ra a Ra). cbn [bind]. rewrite (D false _ ra a Ra). cbn [bind].
    rewrite (coordinate_ok radius rn n Rn), (displacement_ok radial false rn n Rn). cbn [bind]. rewrite (D false _ rn n Rn). reflexivity. }
  exists [ {| p_curves := [{| cv_label := Some "adiabatic"; cv_x := coordinate radius a; cv_y := displacement radial true a |};
                        {| cv_label := Some "non-adiabatic"; cv_x := coordinate radius n; cv_y := displacement radial true n |}];
           p_xlabel := None; p_ylabel := Some (if radial then "$Re[\xi_R]$" else "$Re[\xi_H]$"); p_title := Some t; p_legend := true; p_xlim := (Some 0%R, Some 1%R); p_ylim := (None, None) |};
           {| p_curves := [{| cv_label := Some "adiabatic"; cv_x := coordinate radius a; cv_y := displacement radial false a |};
                        {| cv_label := Some "non-adiabatic"; cv_x := coordinate radius n; cv_y := displacement radial false n |}];
           p_xlabel := Some (if radius then "r / R$_*$" else "m / M$_*$"); p_ylabel := Some (if radial then "$Im[\xi_R]$" else "$Im[\xi_H]$"); p_title := None; p_legend := false; p_xlim := (Some 0%R, Some 1%R); p_ylim := (None, None) |} ].
  split.
  - unfold figure_comparison. destruct radial; rewrite P1, P2; reflexivity.
  - eexists _, _. split; [reflexivity|]. split.
    + split; [reflexivity|]. cbn [p_xlim p_ylim p_ylabel p_xlabel p_legend p_title]. split; [reflexivity|]. split; [reflexivity|]. split; [destruct radial; reflexivity|].
      split; [reflexivity|]. split; [reflexivity|]. exists t. split; [reflexivity|exact HT].
    + split; [reflexivity|]. cbn [p_xlim p_ylim p_ylabel p_xlabel p_legend p_title]. split; [reflexivity|]. split; [reflexivity|]. split; [destruct radial; reflexivity|]. auto.
Qed.
End Drawn.

(** ** What one loader returns *)
Lemma info_get full k : existsb (String.eqb k) comparison_list = true -> dget k (comparison_info full) = dget k full.
Proof.
  intros I. unfold comparison_info. induction full as [|[k' v] full IH]; [reflexivity|]. cbn [filter fst]. destruct (existsb (String.eqb k') comparison_list) eqn:E.
  - cbn [dget]. destruct (string_dec k k'); [reflexivity|exact IH].
  - cbn [dget]. destruct (string_dec k k') as [->|N]; [congruence|exact IH].
Qed.
Lemma mapM_some {A B} (F : A -> res B) (P : nat -> B -> Prop) l : (forall i x, nth_error l i = Some x -> exists y, F x = Ok y /\ P i y) ->
  exists ys, mapM F l = Ok ys /\ List.length ys = List.length l /\ forall i y, nth_error ys i = Some y -> P i y.
Proof.
  revert P. induction l as [|x l IH]; intros P H; [exists []; split; [reflexivity|]; split; [reflexivity|]; intros [|i] y E; discriminate|].
  destruct (H 0%nat x eq_refl) as (y & Ey & Py0). destruct (IH (fun i => P (S i)) (fun i x' E => H (S i) x' E)) as (ys & Eys & Ly & Pys).
  exists (y :: ys). cbn [mapM]. rewrite Ey. cbn [bind]. rewrite Eys. split; [reflexivity|]. split; [cbn; congruence|].
  intros [|i] y' E; cbn in E; [injection E as <-; exact Py0|exact (Pys i y' E)].
Qed.
Section Loaded.
Context (fs : fsys val) (g_cgs g_si : R) (full : info) (s : settings) (q : search).
Hypothesis ST : settings_of full s.
Hypothesis LQ : List.length (s_l q) = 3%nat.
Hypothesis WF : well_formed_search q (st_detail s) [true; true; true].
Lemma loader_parts dir : load_one fs g_cgs g_si (comparison_info full) dir q =
  (raw <- load_modes fs (Some dir) gyre_detail_attrs q (st_detail s) [true; true; true] ;
   details <- mapM (finish_detail g_cgs g_si "CGS") raw ;
   profile <- load_structure fs (Some (st_mesa s)) mesa_attrs (mesa_conds (st_suffix s))
     (match dget "mesa_profile_substrings" full with Some w => w | None => STuple ["profile"; "KIC6352430"] end) ;
   Ok (details, [profile])).
Proof.
  destruct ST as (B & M & X & W & D). unfold load_one, text_arg, sub_arg. rewrite !info_get by reflexivity. rewrite B, M, X, D. reflexivity.
Qed.
Lemma nth3 (g : list bool) i : g = [true; true; true] -> nth i g true = true.
Proof. intros ->. destruct i as [|[|[|[|i]]]]; reflexivity. Qed.
Lemma modes_ok dir es f : fs dir = Some es -> triplet_in es q (st_detail s) g_cgs f ->
  exists raw details, load_modes fs (Some dir) gyre_detail_attrs q (st_detail s) [true; true; true] = Ok raw /\ mapM (finish_detail g_cgs g_si "CGS") raw = Ok details /\
    List.length details = 3%nat /\ forall i d, nth_error details i = Some d -> shows d (f i).
Proof.
  intros FS [NN ONE].
  destruct (C111_one_file_per_mode val fs (Some dir) gyre_detail_attrs q (st_detail s) [true; true; true] es FS WF (fun e I E => proj1 (NN e I E))
     ltac:(cbv beta; intros i e I J (A & B); rewrite (nth3 [true; true; true] i eq_refl) in B; rewrite LQ in I; exact (proj2 (NN e J A) i I B))) as [H _].
  destruct H as (raw & Er & Lr & H).
  { intros i I. rewrite LQ in I. destruct (ONE i I) as (e & O & _). exists e. rewrite (nth3 [true; true; true] i eq_refl). exact O. }
  rewrite LQ in Lr. exists raw.
  destruct (mapM_some (finish_detail g_cgs g_si "CGS") (fun i d => shows d (f i)) raw) as (details & Ed & Ld & Hd).
  { intros i x Ex. assert (I : (i < 3)%nat) by (rewrite <- Lr; apply nth_error_Some; rewrite Ex; discriminate).
    destruct (ONE i I) as (e & O & NT & sc & G & DF). destruct (H i e ltac:(rewrite LQ; exact I) ltac:(rewrite (nth3 [true; true; true] i eq_refl); exact O)) as (d & Nd & RF).
    rewrite Ex in Nd. injection Nd as <-. rewrite <- G. exact (detail_shows sc g_si e x (f i) RF NT DF). }
  exists details. split; [exact Er|]. split; [exact Ed|]. split; [congruence|exact Hd].
Qed.
Lemma profile_ok es e : fs (st_mesa s) = Some es -> profile_in es s e ->
  exists d, load_structure fs (Some (st_mesa s)) mesa_attrs (mesa_conds (st_suffix s))
     (match dget "mesa_profile_substrings" full with Some w => w | None => STuple ["profile"; "KIC6352430"] end) = Ok d /\ read_from mesa_attrs e d.
Proof.
  intros FS (RD & ONE & NT & K). destruct ST as (_ & _ & _ & W & _).
  destruct W as [W|W]; rewrite W; [set (t := true)|set (t := false)];
    destruct (C115_one_structure_file val fs (Some (st_mesa s)) mesa_attrs (mesa_conds (st_suffix s)) (st_words s) t es FS RD) as [H _]; exact (H e ONE NT K).
Qed.
Lemma one_ok dir es f pes e : fs dir = Some es -> triplet_in es q (st_detail s) g_cgs f -> fs (st_mesa s) = Some pes -> profile_in pes s e ->
  exists details p, load_one fs g_cgs g_si (comparison_info full) dir q = Ok (details, [p]) /\ read_from mesa_attrs e p /\ List.length details = 3%nat /\
    forall i d, nth_error details i = Some d -> shows d (f i).
Proof.
  intros F1 T F2 P. destruct (modes_ok dir es f F1 T) as (raw & details & E1 & E2 & L & S). destruct (profile_ok pes e F2 P) as (p & Ep & R).
  exists details, p. rewrite loader_parts, E1. cbn [bind]. rewrite E2. cbn [bind]. rewrite Ep. auto.
Qed.
End Loaded.
Lemma three {A} (l : list A) : List.length l = 3%nat -> exists a b c, l = [a; b; c].
Proof. destruct l as [|a [|b [|c [|d l]]]]; try discriminate. intros _. exists a, b, c. reflexivity. Qed.

(** C152: with one file per mode in the adiabatic and in the non-adiabatic directory, both named after the rotation rate, the
    comparison draws for each mode the radial and the horizontal displacement of both computations, real part above imaginary part. *)
Theorem C152_eigenfunction_figures : forall fs g_cgs g_si full s base percent ad_path nad_path l m combos nr ns es en ep e ad nad radius,
  settings_of full s -> nth_error combos nr = Some ns -> List.length l = 3%nat ->
  let q := {| s_l := l; s_m := m; s_n := ns |} in
  well_formed_search q (st_detail s) [true; true; true] ->
  fs (base ++ name_of ad_path ("output_rot_" ++ str_of_Z percent) ++ "/") = Some es -> triplet_in es q (st_detail s) g_cgs ad ->
  fs (base ++ name_of nad_path ("output_nad_rot_" ++ str_of_Z percent) ++ "/") = Some en -> triplet_in en q (st_detail s) g_cgs nad ->
  fs (st_mesa s) = Some ep -> profile_in ep s e ->
  exists c figs, load_comparer fs g_cgs g_si full (Some base) percent ad_path nad_path l m combos (Z.of_nat nr) = Ok c /\ eigenfunction_figures c radius = Ok figs /\
    comparison_figures radius ad nad figs.
Proof.
  intros fs g_cgs g_si full s base percent ad_path nad_path l m combos nr ns es en ep e ad nad radius ST NS LL q WF F1 T1 F2 T2 F3 PR.
  destruct (one_ok fs g_cgs g_si full s q ST LL WF _ es ad ep e F1 T1 F3 PR) as (d1 & p1 & E1 & _ & L1 & S1).
  destruct (one_ok fs g_cgs g_si full s q ST LL WF _ en nad ep e F2 T2 F3 PR) as (d2 & p2 & E2 & _ & L2 & S2).
  destruct (three d1 L1) as (a0 & a1 & a2 & ->). destruct (three d2 L2) as (b0 & b1 & b2 & ->).
  destruct (with_mass_ok a0 (ad 0%nat) (S1 0%nat _ eq_refl)) as (a0' & Wa0 & Ma0 & Sa0). destruct (with_mass_ok a1 (ad 1%nat) (S1 1%nat _ eq_refl)) as (a1' & Wa1 & Ma1 & Sa1).
  destruct (with_mass_ok a2 (ad 2%nat) (S1 2%nat _ eq_refl)) as (a2' & Wa2 & Ma2 & Sa2). destruct (with_mass_ok b0 (nad 0%nat) (S2 0%nat _ eq_refl)) as (b0' & Wb0 & Mb0 & Sb0).
  destruct (with_mass_ok b1 (nad 1%nat) (S2 1%nat _ eq_refl)) as (b1' & Wb1 & Mb1 & Sb1). destruct (with_mass_ok b2 (nad 2%nat) (S2 2%nat _ eq_refl)) as (b2' & Wb2 & Mb2 & Sb2).
  set (c := {| c_ad := [a0'; a1'; a2']; c_nad := [b0'; b1'; b2']; c_mesa := [p1] |}).
  assert (LC : load_comparer fs g_cgs g_si full (Some base) percent ad_path nad_path l m combos (Z.of_nat nr) = Ok c).
  { unfold load_comparer. assert (B : (nr < List.length combos)%nat) by (apply nth_error_Some; rewrite NS; discriminate).
    rewrite (py_get_ok combos (Z.of_nat nr) []) by lia. rewrite Nat2Z.id, (nth_error_nth combos nr [] NS). cbn [bind]. fold q.
    change (ad_dir (Some base) percent ad_path) with (base ++ name_of ad_path ("output_rot_" ++ str_of_Z percent) ++ "/").
    change (nad_dir (Some base) percent nad_path) with (base ++ name_of nad_path ("output_nad_rot_" ++ str_of_Z percent) ++ "/").
    rewrite E1. cbn [bind]. rewrite E2. cbn [bind fst mass_profiles]. rewrite Wa0, Wb0. cbn [bind]. rewrite Wa1, Wb1. cbn [bind]. rewrite Wa2, Wb2. reflexivity. }
  exists c.
  assert (F : forall (i : nat) ra rn, nth_error [a0'; a1'; a2'] i = Some ra -> nth_error [b0'; b1'; b2'] i = Some rn -> ready ra (ad i) -> ready rn (nad i) -> forall radial : bool, exists fig,
     figure_comparison c (if radius then "x" else "mass") (if radial then "xi_r" else "xi_h") None (PMany [Some true; Some false]) (if radius then "r / R$_*$" else "m / M$_*$")
       (YMany (if radial then ["$Re[\xi_R]$"; "$Im[\xi_R]$"] else ["$Re[\xi_H]$"; "$Im[\xi_H]$"])) (Z.of_nat i + 1) unit_bounds BNone = Ok fig /\ comparison_figure radius radial (ad i) (nad i) fig).
  { intros i ra rn Ea En Ra Rn radial.
    assert (GET : forall (d : list (dict val)) x, nth_error d i = Some x -> py_get d (Z.of_nat i + 1 - 1) = Ok x).
    { intros d x E. assert (i < List.length d)%nat by (apply nth_error_Some; rewrite E; discriminate). rewrite (py_get_ok d _ x) by lia.
      replace (Z.of_nat i + 1 - 1)%Z with (Z.of_nat i) by lia. rewrite Nat2Z.id, (nth_error_nth d i x E). reflexivity. }
    apply (figure_ok c ra rn); [apply GET, Ea|apply GET, En|exact Ra|exact Rn]. }
  destruct (F 0%nat a0' b0' eq_refl eq_refl (conj Ma0 Sa0) (conj Mb0 Sb0) true) as (f0 & Q0 & G0). destruct (F 0%nat a0' b0' eq_refl eq_refl (conj Ma0 Sa0) (conj Mb0 Sb0) false) as (f1 & Q1 & G1).
  destruct (F 1%nat a1' b1' eq_refl eq_refl (conj Ma1 Sa1) (conj Mb1 Sb1) true) as (f2 & Q2 & G2). destruct (F 1%nat a1' b1' eq_refl eq_refl (conj Ma1 Sa1) (conj Mb1 Sb1) false) as (f3 & Q3 & G3).
  destruct (F 2%nat a2' b2' eq_refl eq_refl (conj Ma2 Sa2) (conj Mb2 Sb2) true) as (f4 & Q4 & G4). destruct (F 2%nat a2' b2' eq_refl eq_refl (conj Ma2 Sa2) (conj Mb2 Sb2) false) as (f5 & Q5 & G5).
  exists [f0; f1; f2; f3; f4; f5]. split; [exact LC|]. split.
  - unfold eigenfunction_figures. cbn [mapM]. change (Z.of_nat 0 + 1)%Z with 1%Z in *. change (Z.of_nat 1 + 1)%Z with 2%Z in *. change (Z.of_nat 2 + 1)%Z with 3%Z in *.
    cbv iota in Q0, Q1, Q2, Q3, Q4, Q5. rewrite Q0. cbn [bind]. rewrite Q1. cbn [bind]. rewrite Q2. cbn [bind]. rewrite Q3. cbn [bind]. rewrite Q4. cbn [bind]. rewrite Q5. reflexivity.
  - split; [reflexivity|]. intros i I. destruct i as [|[|[|i]]]; [| | |lia]; cbn [Nat.mul Nat.add nth_error]; eexists _, _; eauto.
Qed.
(** a mode without exactly one file, in either directory, ends the run before anything is drawn *)
Theorem C152_missing_mode : forall fs g_cgs g_si full s base percent ad_path nad_path l m combos nr ns es en ep e f i,
  settings_of full s -> nth_error combos nr = Some ns -> List.length l = 3%nat ->
  let q := {| s_l := l; s_m := m; s_n := ns |} in
  well_formed_search q (st_detail s) [true; true; true] ->
  fs (base ++ name_of ad_path ("output_rot_" ++ str_of_Z percent) ++ "/") = Some es ->
  fs (base ++ name_of nad_path ("output_nad_rot_" ++ str_of_Z percent) ++ "/") = Some en -> fs (st_mesa s) = Some ep -> profile_in ep s e ->
  (forall e, In e es \/ In e en -> e_file e = true -> no_newline (txt (e_name e)) /\ (forall i, (i < 3)%nat -> names_mode q (st_detail s) true i (e_name e) -> readable (e_name e))) ->
  (i < 3)%nat ->
  let lacks dir := ~ exists e, the_only (fun e => e_file e = true /\ names_mode q (st_detail s) true i (e_name e)) dir e in
  lacks es \/ (triplet_in es q (st_detail s) g_cgs f /\ lacks en) ->
  load_comparer fs g_cgs g_si full (Some base) percent ad_path nad_path l m combos (Z.of_nat nr) = Exc SystemExit.
Proof.
  intros fs g_cgs g_si full s base percent ad_path nad_path l m combos nr ns es en ep e f i ST NS LL q WF F1 F2 F3 PR NN I lacks H.
  assert (NO : forall dir d, fs dir = Some d -> (d = es \/ d = en) -> lacks d -> load_one fs g_cgs g_si (comparison_info full) dir q = Exc SystemExit).
  { intros dir d Fd D L. rewrite (loader_parts fs g_cgs g_si full s q ST dir).
    assert (ND : forall e, In e d -> In e es \/ In e en) by (intros x Jx; destruct D as [-> | ->]; auto).
    destruct (C111_one_file_per_mode val fs (Some dir) gyre_detail_attrs q (st_detail s) [true; true; true] d Fd WF (fun e I E => proj1 (NN e (ND e I) E))
      ltac:(cbv beta; intros j x Ij J (A & B); rewrite (nth3 [true; true; true] j eq_refl) in B; change (List.length (s_l q)) with (List.length l) in Ij; rewrite LL in Ij; exact (proj2 (NN x (ND x J) A) j Ij B))) as [_ N].
    rewrite N; [reflexivity|]. exists i. split; [change (List.length (s_l q)) with (List.length l); rewrite LL; exact I|]. rewrite (nth3 [true; true; true] i eq_refl). exact L. }
  unfold load_comparer. assert (B : (nr < List.length combos)%nat) by (apply nth_error_Some; rewrite NS; discriminate).
  rewrite (py_get_ok combos (Z.of_nat nr) []) by lia. rewrite Nat2Z.id, (nth_error_nth combos nr [] NS). cbn [bind]. fold q.
  change (ad_dir (Some base) percent ad_path) with (base ++ name_of ad_path ("output_rot_" ++ str_of_Z percent) ++ "/").
  change (nad_dir (Some base) percent nad_path) with (base ++ name_of nad_path ("output_nad_rot_" ++ str_of_Z percent) ++ "/").
  destruct H as [H|[T H]].
  - rewrite (NO _ es F1 (or_introl eq_refl) H). reflexivity.
  - destruct (one_ok fs g_cgs g_si full s q ST LL WF _ es f ep e F1 T F3 PR) as (d1 & p1 & E1 & _). rewrite E1. cbn [bind]. rewrite (NO _ en F2 (or_intror eq_refl) H). reflexivity.
Qed.
(** without a base directory the two directories are looked for under the name None; the text counts, not the working directory *)
Theorem C152_no_base_directory : forall fs g_cgs g_si full percent ad_path nad_path l m combos nr,
  load_comparer fs g_cgs g_si full None percent ad_path nad_path l m combos nr = load_comparer fs g_cgs g_si full (Some "None") percent ad_path nad_path l m combos nr.
Proof. reflexivity. Qed.
(** settings that are not part of the comparison (such as a GYRE output directory) never reach the loaders *)
Theorem C152_other_settings_ignored : forall fs g_cgs g_si full full' base percent ad_path nad_path l m combos nr,
  (forall k, In k ["base_dir"; "mesa_output_dir"; "mesa_suffix"; "mesa_profile_substrings"; "gyre_detail_substring"] -> dget k full = dget k full') ->
  load_comparer fs g_cgs g_si full base percent ad_path nad_path l m combos nr = load_comparer fs g_cgs g_si full' base percent ad_path nad_path l m combos nr.
Proof.
  intros fs g_cgs g_si full full' base percent ad_path nad_path l m combos nr H.
  assert (E : forall dir q, load_one fs g_cgs g_si (comparison_info full) dir q = load_one fs g_cgs g_si (comparison_info full') dir q).
  { intros dir q. unfold load_one, text_arg, sub_arg. rewrite !info_get by reflexivity. rewrite !H by (cbn; tauto). reflexivity. }
  unfold load_comparer. destruct (py_get combos nr); [|reflexivity|reflexivity]. cbn [bind]. rewrite !E. reflexivity.
Qed.

(** C153: the mass coordinate runs from 0 to 1 with the enclosed mass, whatever the unit of mass *)
Lemma coordinate_of f r : dget "M_r" r = Some (VReal (mf_Mr f)) -> dget "M_star" r = Some (VReal [mf_M f]) ->
  exists r', with_mass r = Ok r' /\ dget "mass" r' = Some (VReal (coordinate false f)).
Proof.
  intros HM HS. unfold with_mass, real_entry. rewrite HM, HS. cbn [bind]. rewrite bcast_one. eexists. split; [reflexivity|]. rewrite dget_dset. reflexivity.
Qed.
Theorem C153_mass_coordinate : forall r ms M, dget "M_r" r = Some (VReal ms) -> dget "M_star" r = Some (VReal [M]) -> (0 < M)%R ->
  exists r' xs, with_mass r = Ok r' /\ dget "mass" r' = Some (VReal xs) /\ List.length xs = List.length ms /\
    (forall i m, nth_error ms i = Some m -> exists x, nth_error xs i = Some x /\ (x * M = m)%R /\
       ((0 <= m <= M)%R -> (0 <= x <= 1)%R) /\ (x = 1%R <-> m = M) /\ (x = 0%R <-> m = 0%R)) /\
    (forall i j mi mj xi xj, nth_error ms i = Some mi -> nth_error ms j = Some mj -> nth_error xs i = Some xi -> nth_error xs j = Some xj -> ((xi < xj)%R <-> (mi < mj)%R)) /\
    (forall k, k <> "mass" -> dget k r' = dget k r) /\
    (forall u r2, (0 < u)%R -> dget "M_r" r2 = Some (VReal (map (Rmult u) ms)) -> dget "M_star" r2 = Some (VReal [u * M]%R) ->
       exists r2', with_mass r2 = Ok r2' /\ dget "mass" r2' = Some (VReal xs)).
Proof.
  intros r ms M HM HS P. exists (dset r "mass" (VReal (map (fun m => m / M)%R ms))), (map (fun m => m / M)%R ms).
  split; [unfold with_mass, real_entry; rewrite HM, HS; cbn [bind]; rewrite bcast_one; reflexivity|]. split; [rewrite dget_dset; reflexivity|]. split; [apply map_length|].
  assert (DM : forall m, (m / M * M = m)%R) by (intros m; field; lra).
  split; [|split; [|split]].
  - intros i m E. exists (m / M)%R. split; [rewrite nth_error_map, E; reflexivity|]. split; [apply DM|]. specialize (DM m). split; [|split].
    + intros [A B]. split; nra.
    + split; [intros Q; rewrite Q in DM; lra|intros ->; field; lra].
    + split; [intros Q; rewrite Q in DM; lra|intros ->; field; lra].
  - intros i j mi mj xi xj Ei Ej Xi Xj. rewrite nth_error_map, Ei in Xi. rewrite nth_error_map, Ej in Xj. cbn in Xi, Xj. injection Xi as <-. injection Xj as <-.
    pose proof (DM mi). pose proof (DM mj). split; intros; nra.
  - intros k N. rewrite dget_dset. destruct (string_dec k "mass"); [contradiction|reflexivity].
  - intros u r2 U H1 H2. unfold with_mass, real_entry. rewrite H1, H2. cbn [bind]. rewrite bcast_one. eexists. split; [reflexivity|]. rewrite dget_dset. cbn [string_dec]. 
    match goal with |- context [string_dec ?a ?b] => destruct (string_dec a b) as [_|N]; [|exfalso; apply N; reflexivity] end. rewrite map_map. do 2 f_equal. apply map_ext. intros a. field. lra.
Qed.

(** C154: the profile figures *)
Lemma fold_max_spec l : forall a, (In (fold_left Rmax l a) (a :: l)) /\ (forall x, In x (a :: l) -> (x <= fold_left Rmax l a)%R).
Proof.
  induction l as [|b l IH]; intros a; cbn [fold_left]; [split; [left; reflexivity|intros x [->|[]]; lra]|].
  destruct (IH (Rmax a b)) as [I M]. split.
  - destruct I as [I|I]; [|right; right; exact I]. rewrite <- I. unfold Rmax. destruct (Rle_dec a b); [right; left|left]; reflexivity.
  - intros x [->|[->|J]].
    + apply Rle_trans with (Rmax x b); [apply Rmax_l|apply M; left; reflexivity].
    + apply Rle_trans with (Rmax a x); [apply Rmax_r|apply M; left; reflexivity].
    + apply M. right. exact J.
Qed.
Lemma py_max_ok l m : maximum l m -> py_max l = Ok m.
Proof.
  intros [I M]. destruct l as [|a l]; [destruct I|]. cbn. f_equal. destruct (fold_max_spec l a) as [J N]. apply Rle_antisym; [apply M, J|apply N, I].
Qed.
Definition column_of (p : dict val) (k : string) (l : list R) : Prop := dget k p = Some (VReal l).
Theorem C154_profile_figures : forall c p rest radius xs top n, c_mesa c = p :: rest ->
  column_of p (if radius : bool then "radius" else "mass") xs -> maximum xs top -> List.length xs = n ->
  forall col, (forall k, In k (needed radius) -> column_of p k (col k) /\ List.length (col k) = n) ->
  exists figs, profile_figures c radius = Ok figs /\ List.length figs = List.length profile_table /\
    forall i yl entries, nth_error profile_table i = Some (yl, entries) -> exists pn, nth_error figs i = Some [pn] /\
      p_ylabel pn = Some yl /\ p_xlabel pn = Some (if radius then "r / R$_*$" else "m / M$_*$") /\ p_xlim pn = (Some 0%R, Some 1%R) /\ p_ylim pn = (None, None) /\
      p_title pn = None /\ (p_legend pn = true <-> exists k lab, In (k, Some lab) entries) /\
      p_curves pn = match entries with
                    | [] => [{| cv_label := None; cv_x := map (fun x => x / top)%R xs; cv_y := map (fun j => nth j (col "hyeq_lhs") 0 - nth j (col "hyeq_rhs") 0)%R (seq 0 n) |}]
                    | _ => map (fun kl => {| cv_label := snd kl; cv_x := map (fun x => x / top)%R xs; cv_y := col (fst kl) |}) entries
                    end.
Proof.
  intros c p rest radius xs top n HC HX MX LX col HCOL.
  assert (GX : normalised (NMax (if radius then "radius" else "mass")) (if radius then "radius" else "mass") p = Ok (map (fun x => x / top)%R xs)).
  { unfold normalised, real_entry. unfold column_of in HX. rewrite HX. cbn [bind]. rewrite (py_max_ok xs top MX). cbn [bind]. apply bcast_one. }
  assert (CV : forall k lab, In k (needed radius) -> profile_curve p (NMax (if radius then "radius" else "mass")) NNone (if radius then "radius" else "mass") k lab =
     Ok {| cv_label := lab; cv_x := map (fun x => x / top)%R xs; cv_y := col k |}).
  { intros k lab I. destruct (HCOL k I) as [E L]. unfold profile_curve. rewrite GX. cbn [bind]. unfold normalised, real_entry. unfold column_of in E. rewrite E. cbn [bind].
    unfold draw. rewrite map_length, LX, L, Nat.eqb_refl. reflexivity. }
  assert (DF : profiles p (QMany ["hyeq_lhs"; "hyeq_rhs"]) LNone NNone (if radius then "radius" else "mass") (NMax (if radius then "radius" else "mass")) true =
     Ok [{| cv_label := None; cv_x := map (fun x => x / top)%R xs; cv_y := map (fun j => nth j (col "hyeq_lhs") 0 - nth j (col "hyeq_rhs") 0)%R (seq 0 n) |}]).
  { destruct (HCOL "hyeq_lhs" ltac:(right; left; reflexivity)) as [E1 L1]. destruct (HCOL "hyeq_rhs" ltac:(right; right; left; reflexivity)) as [E2 L2].
    unfold profiles. rewrite GX. cbn [bind]. change (py_get ["hyeq_lhs"; "hyeq_rhs"] 0) with (Ok "hyeq_lhs"). change (py_get ["hyeq_lhs"; "hyeq_rhs"] 1) with (Ok "hyeq_rhs").
    cbn [bind]. unfold real_entry. unfold column_of in E1, E2. rewrite E1, E2. cbn [bind]. rewrite (bcast_same Rminus (col "hyeq_lhs") (col "hyeq_rhs")) by congruence. cbn [bind].
    rewrite (combine_nth_seq Rminus (col "hyeq_lhs") (col "hyeq_rhs") 0%R) by congruence. rewrite L1. unfold draw. rewrite !map_length, seq_length, LX, Nat.eqb_refl. reflexivity. }
  assert (IN : forall k, inb k (flat_map (fun f => map fst (snd f)) profile_table) = true -> In k (needed radius)) by (intros k I; right; right; right; apply inb_iff, I).
  unfold profile_figures, profile_calls. cbn [mapM]. unfold figure_profile. rewrite HC. change (py_get (p :: rest) 0) with (Ok p). cbn [bind].
  change (limits "left" "right" unit_bounds) with (Ok (Some 0%R, Some 1%R)). change (limits "bottom" "top" BNone) with (@Ok (option R * option R) (None, None)).
  rewrite DF. unfold profiles. cbn [List.length Nat.eqb combine mapM fst snd]. rewrite !CV by (apply IN; reflexivity). cbn [bind].
  eexists. split; [reflexivity|]. split; [reflexivity|].
  intros i yl entries E. unfold profile_table in E.
  do 11 (destruct i as [|i]; [cbn [nth_error] in E; injection E as <- <-; eexists; split; [reflexivity|]; cbn [p_ylabel p_xlabel p_xlim p_ylim p_title p_legend p_curves];
    repeat (split; [reflexivity|]); split; [|reflexivity]; split; [intros Q; first [discriminate Q | eexists _, _; left; reflexivity] | intros (k & lab & Q); cbn in Q; first [reflexivity | exfalso; destruct Q as [Q|[]]; discriminate Q | (exfalso; exact Q)]]|]).
  destruct i; discriminate E.
Qed.
(** one column missing and no set of figures is completed *)
Theorem C154_missing_column : forall c p rest radius k, c_mesa c = p :: rest -> In k (needed radius) -> dget k p = None -> ~ exists figs, profile_figures c radius = Ok figs.
Proof.
  intros c p rest radius k HC I N [figs E].
  assert (B2 : forall {A B} (x : res A) (f : A -> res B) y, bind x f = Ok y -> exists a, x = Ok a /\ f a = Ok y) by (intros A B [a| |] f y H; [exists a; auto|discriminate|discriminate]).
  assert (RE : forall j l, real_entry p j = Ok l -> dget j p <> None) by (intros j l H Q; unfold real_entry in H; rewrite Q in H; discriminate).
  assert (CURVE : forall xq j lab cv, profile_curve p (NMax xq) NNone xq j lab = Ok cv -> dget xq p <> None /\ dget j p <> None).
  { intros xq j lab cv H. unfold profile_curve in H. apply B2 in H. destruct H as (x & Hx & H). apply B2 in H. destruct H as (y & Hy & _). unfold normalised in Hx, Hy.
    apply B2 in Hx. destruct Hx as (a & Ha & _). apply B2 in Hy. destruct Hy as (b & Hb & _). split; eapply RE; eassumption. }
  assert (CALL : forall y lg yl diff, In (y, lg, yl, diff) profile_calls -> exists cs, profiles p y lg NNone (if radius then "radius" else "mass") (NMax (if radius then "radius" else "mass")) diff = Ok cs).
  { intros y lg yl diff J. unfold profile_figures in E. apply mapM_inv in E. destruct E as [L Q]. destruct (In_nth_error _ _ J) as [i Ei].
    destruct (nth_error figs i) as [fg|] eqn:Fi; [|apply nth_error_None in Fi; assert (i < List.length profile_calls)%nat by (apply nth_error_Some; congruence); lia].
    destruct (Q i fg Fi) as (call & Ec & F). rewrite Ei in Ec. injection Ec as <-. unfold figure_profile in F. rewrite HC in F. change (py_get (p :: rest) 0) with (Ok p) in F. cbn [bind] in F.
    apply B2 in F. destruct F as (cs & Hcs & _). exists cs. exact Hcs. }
  assert (MANY : forall xq ss ls cs, profiles p (QMany ss) (LMany ls) NNone xq (NMax xq) false = Ok cs -> List.length ss = List.length ls -> forall j, In j ss -> dget j p <> None).
  { intros xq ss ls cs H Ln j J. unfold profiles in H. rewrite Ln, Nat.eqb_refl in H. apply mapM_inv in H. destruct H as [L Q]. destruct (In_nth_error _ _ J) as [i Ei].
    destruct (nth_error cs i) as [cv|] eqn:Ci. 2:{ apply nth_error_None in Ci. rewrite L, combine_length, <- Ln, Nat.min_id in Ci. assert (i < List.length ss)%nat by (apply nth_error_Some; congruence). lia. }
    destruct (Q i cv Ci) as ([a b] & Ec & F). assert (a = j).
    { clear - Ec Ei. revert ls i Ec Ei. induction ss as [|s ss IH]; intros ls i Ec Ei; [destruct i; discriminate|]. destruct ls as [|l ls]; [destruct i; discriminate|]. destruct i as [|i]; cbn in Ec, Ei; [congruence|exact (IH ls i Ec Ei)]. }
    subst a. apply CURVE in F. apply F. }
  assert (ONE : forall xq s cs, profiles p (QOne s) LNone NNone xq (NMax xq) false = Ok cs -> dget xq p <> None /\ dget s p <> None).
  { intros xq s cs H. unfold profiles in H. apply B2 in H. destruct H as (cv & H & _). exact (CURVE _ _ _ _ H). }
  assert (ALL : dget k p <> None); [|exact (ALL N)].
  assert (P1 : forall y lg yl diff, In (y, lg, yl, diff) profile_calls -> match y, lg with QMany ss, LMany ls => List.length ss = List.length ls /\ diff = false -> In k ss -> dget k p <> None | QOne s, LNone => diff = false -> dget (if radius then "radius" else "mass") p <> None /\ dget s p <> None | _, _ => True end).
  { intros y lg yl diff J. destruct (CALL y lg yl diff J) as [cs H]. destruct y as [s|ss]; destruct lg as [|lab|ls]; try exact Logic.I.
    - intros ->. exact (ONE _ _ _ H).
    - intros [Ln ->] J'. exact (MANY _ _ _ _ H Ln k J'). }
  assert (DF : dget "hyeq_lhs" p <> None /\ dget "hyeq_rhs" p <> None).
  { destruct (CALL (QMany ["hyeq_lhs"; "hyeq_rhs"]) LNone "lhs - rhs" true ltac:(do 4 right; left; reflexivity)) as [cs H]. unfold profiles in H. apply B2 in H. destruct H as (x & _ & H).
    change (py_get ["hyeq_lhs"; "hyeq_rhs"] 0) with (Ok "hyeq_lhs") in H. change (py_get ["hyeq_lhs"; "hyeq_rhs"] 1) with (Ok "hyeq_rhs") in H. cbn [bind] in H.
    apply B2 in H. destruct H as (a & Ha & H). apply B2 in H. destruct H as (b & Hb & _). split; eapply RE; eassumption. }
  unfold needed in I. destruct I as [<-|[<-|[<-|I]]]; [exact (proj1 (P1 (QOne "csound") LNone "c$_{s}$" false ltac:(do 3 right; left; reflexivity) eq_refl))|apply DF|apply DF|].
  assert (Q1 : forall sk, In sk ["lamb_S2"; "csound"; "gamma_1_adDer"; "pressure"; "logRho"; "logT"] -> dget sk p <> None).
  { intros sk J. assert (J' : exists yl, In (QOne sk, LNone, yl, false) profile_calls).
    { cbn in J. repeat (destruct J as [<-|J]; [eexists; unfold profile_calls; repeat (first [left; reflexivity|right])|]). destruct J. }
    destruct J' as [yl J']. exact (proj2 (P1 _ _ _ _ J' eq_refl)). }
  assert (Q2 : forall ss ls yl, In (QMany ss, LMany ls, yl, false) profile_calls -> List.length ss = List.length ls -> In k ss -> dget k p <> None) by (intros ss ls yl J Ln; exact (P1 _ _ _ _ J (conj Ln eq_refl))).
  cbn in I.
  repeat (destruct I as [I|I]; [first [ (rewrite <- I; apply Q1; cbn; tauto)
    | (eapply Q2; [unfold profile_calls; left; reflexivity|reflexivity|rewrite <- I; cbn; tauto])
    | (eapply Q2; [unfold profile_calls; right; left; reflexivity|reflexivity|rewrite <- I; cbn; tauto])
    | (eapply Q2; [unfold profile_calls; do 6 right; left; reflexivity|reflexivity|rewrite <- I; cbn; tauto])
    | (eapply Q2; [unfold profile_calls; do 10 right; left; reflexivity|reflexivity|rewrite <- I; cbn; tauto]) ]|]).
  destruct I.
Qed.
(** the horizontal coordinate of the profile figures: in [0, 1] for a coordinate that is never negative, 1 at its maximum *)
Theorem C154_coordinate_range : forall p k xs top, dget k p = Some (VReal xs) -> maximum xs top -> (0 < top)%R -> exists cs, normalised (NMax k) k p = Ok cs /\
  List.length cs = List.length xs /\ In 1%R cs /\ (forall c, In c cs -> (c <= 1)%R) /\ ((forall x, In x xs -> (0 <= x)%R) -> forall c, In c cs -> (0 <= c)%R).
Proof.
  intros p k xs top E MX P. exists (map (fun x => x / top)%R xs). unfold normalised, real_entry. rewrite E. cbn [bind]. rewrite (py_max_ok xs top MX). cbn [bind].
  split; [apply bcast_one|]. split; [apply map_length|]. destruct MX as [I M]. split; [apply in_map_iff; exists top; split; [field; lra|exact I]|].
  assert (D : forall x, (x / top * top = x)%R) by (intros x; field; lra).
  split; [intros c J; apply in_map_iff in J; destruct J as (x & <- & Jx); specialize (M x Jx); specialize (D x); nra|].
  intros NN c J. apply in_map_iff in J. destruct J as (x & <- & Jx). specialize (NN x Jx). specialize (D x). nra.
Qed.
(** which calls are refused: labels and quantities of different kinds, a list without labels unless a difference is asked for; lists of
    different lengths only leave the panel empty *)
Theorem C154_kinds : forall d ss ls s l yn xq xn diff,
  profiles d (QOne s) (LMany ls) yn xq xn diff = Exc SystemExit /\ profiles d (QMany ss) (LOne l) yn xq xn diff = Exc SystemExit /\
  profiles d (QMany ss) LNone yn xq xn false = Exc SystemExit /\ (List.length ss <> List.length ls -> profiles d (QMany ss) (LMany ls) yn xq xn diff = Ok []).
Proof.
  intros d ss ls s l yn xq xn diff. repeat (split; [reflexivity|]). intros N. cbn. destruct (Nat.eqb_spec (List.length ss) (List.length ls)); [contradiction|reflexivity].
Qed.

(** C155: the contract of a single comparison figure *)
(** two labels and two parts: two panels; any other pair of lists fails, and with other than two labels it is the error message that fails *)
Theorem C155_pairs_of_panels : forall c xq yq xp labels parts xl nr xb yb,
  (forall fig, figure_comparison c xq yq xp (PMany parts) xl (YMany labels) nr xb yb = Ok fig -> List.length labels = 2%nat /\ List.length parts = 2%nat /\ List.length fig = 2%nat) /\
  (List.length labels <> 2%nat -> figure_comparison c xq yq xp (PMany parts) xl (YMany labels) nr xb yb = Exc UnboundLocalError) /\
  (List.length labels = 2%nat -> List.length parts <> 2%nat -> figure_comparison c xq yq xp (PMany parts) xl (YMany labels) nr xb yb = Exc SystemExit).
Proof.
  intros c xq yq xp labels parts xl nr xb yb. unfold figure_comparison.
  destruct labels as [|l0 [|l1 [|l2 labels]]]; (split; [|split]); intros; try discriminate; try reflexivity; try (cbn in *; congruence).
  - destruct parts as [|p0 [|p1 [|p2 parts]]]; try discriminate. destruct (single_plot c xq yq xp p0 xl (YOne l0) nr xb yb true false true); [|discriminate|discriminate]. cbn [bind] in H.
    destruct (single_plot c xq yq xp p1 xl (YOne l1) nr xb yb false true false); [|discriminate|discriminate]. injection H as <-. auto.
  - destruct parts as [|p0 [|p1 [|p2 parts]]]; try reflexivity. cbn in *. congruence.
Qed.
(** a list of labels with a single part draws one panel without label; a list of parts with a single label draws the real part, or the
    imaginary part if the list is empty *)
Theorem C155_mixed_arguments : forall c xq yq xp part parts labels label xl nr xb yb,
  (forall fig, figure_comparison c xq yq xp (POne part) xl (YMany labels) nr xb yb = Ok fig -> exists p, fig = [p] /\ p_ylabel p = None) /\
  figure_comparison c xq yq xp (PMany parts) xl (YOne label) nr xb yb = figure_comparison c xq yq xp (POne (Some (match parts with [] => false | _ => true end))) xl (YOne label) nr xb yb.
Proof.
  intros c xq yq xp part parts labels label xl nr xb yb. split.
  - intros fig H. unfold figure_comparison in H. destruct (single_plot c xq yq xp (part_of (POne part)) xl (YMany labels) nr xb yb true true true) as [p| |] eqn:E; [|discriminate|discriminate].
    injection H as <-. exists p. split; [reflexivity|]. unfold single_plot in E.
    repeat (match type of E with bind ?x _ = _ => destruct x as [?v| |]; [cbn [bind] in E|discriminate|discriminate] end). injection E as <-. reflexivity.
  - unfold figure_comparison. destruct parts; reflexivity.
Qed.
(** modes count from 1; 0 is the last mode; beyond the ends nothing is drawn *)
Theorem C155_mode_numbers : forall c xq yq xp part xl label nr xb yb, List.length (c_ad c) = 3%nat -> List.length (c_nad c) = 3%nat ->
  figure_comparison c xq yq xp part xl label 0 xb yb = figure_comparison c xq yq xp part xl label 3 xb yb /\
  ((3 < nr \/ nr < -2)%Z -> forall fig, figure_comparison c xq yq xp part xl label nr xb yb <> Ok fig).
Proof.
  intros c xq yq xp part xl label nr xb yb L1 L2. destruct (three _ L1) as (a0 & a1 & a2 & E1). destruct (three _ L2) as (b0 & b1 & b2 & E2). split.
  - assert (S : forall p xl yl x y z, single_plot c xq yq xp p xl yl 0 xb yb x y z = single_plot c xq yq xp p xl yl 3 xb yb x y z) by (intros; unfold single_plot; rewrite E1, E2; reflexivity).
    unfold figure_comparison. destruct label as [l|ls]; destruct part as [p|ps]; rewrite ?S; try reflexivity. destruct ls as [|l0 [|l1 [|l2 ls]]]; try reflexivity.
    destruct ps as [|p0 [|p1 [|p2 ps]]]; try reflexivity. rewrite !S. reflexivity.
  - intros N fig. assert (S : forall p xl yl x y z, single_plot c xq yq xp p xl yl nr xb yb x y z = Exc IndexError) by (intros; unfold single_plot; rewrite py_get_exc by lia; reflexivity).
    unfold figure_comparison. destruct label as [l|ls]; destruct part as [p|ps]; rewrite ?S; cbn [bind]; try discriminate. destruct ls as [|l0 [|l1 [|l2 ls]]]; try discriminate.
    destruct ps as [|p0 [|p1 [|p2 ps]]]; try discriminate. rewrite S. discriminate.
Qed.
(** only quantities GYRE stores in units of its own can be asked for by part: those without a unit (y_1 to y_6, omega, lambda, ...) and the
    dimensional versions are complex arrays after loading, and asking for a part of them fails; asked for as they are, the real part is drawn *)
Theorem C155_parts : forall s g_si d k l, detail_data s d -> dget k d = Some (VReIm l) -> ~ In k labels ->
  exists r, finish_detail (sc_G s) g_si "CGS" d = Ok r /\
    forall part : bool,
    match unit_of s k with
    | Some U => quantity r k (Some part) = Ok (map (fun z => if part then fst z else snd z) l) /\ quantity r (k ++ "_dim") (Some part) = Exc IndexError
    | None => quantity r k (Some part) = Exc IndexError /\ quantity r k None = Ok (map fst l)
    end.
Proof.
  intros s g_si d k l DD E NL. destruct (C114_dimensional_quantities s g_si d DD) as (r & Fr & _ & H). exists r. split; [exact Fr|]. intros part. specialize (proj2 (H k _ E) NL) as Q.
  destruct (unit_of s k) as [U|].
  - destruct Q as [Q1 Q2]. unfold quantity. rewrite Q1, Q2. cbn [in_units]. destruct part; split; reflexivity.
  - rewrite in_units_one_pair in Q. unfold quantity. rewrite Q. destruct part; split; reflexivity.
Qed.
(** the unit in the title *)
Theorem C155_frequency_unit : forall u, unit_label u (freq_unit u) /\ (forall r, unit_label u r -> r = freq_unit u).
Proof.
  intros u. split; [apply freq_unit_label|]. intros r H.
  assert (F : forall x, unit_label u x -> forall y, unit_label u y -> x = y).
  { intros x [X|[NX ->]] y [Y|[NY ->]].
    - cbn in X, Y. destruct X as [X|[X|[X|[X|[]]]]]; injection X as <- <-; destruct Y as [Y|[Y|[Y|[Y|[]]]]]; congruence.
    - exfalso. apply NY. apply in_map_iff. exists (u, x). auto.
    - exfalso. apply NX. apply in_map_iff. exists (u, y). auto.
    - reflexivity. }
  exact (F r H _ (freq_unit_label u)).
Qed.

(** ** Cases that meet the hypotheses *)
Definition w_entries (y : R) : dict val :=
  [("M_star", VReal [4%R]); ("R_star", VReal [10%R]); ("L_star", VReal [5%R]); ("P", VReal [3; 4]%R); ("rho", VReal [1; 2]%R); ("T", VReal [8; 9]%R);
   ("x", VReal [0; 1]%R); ("M_r", VReal [0; 4]%R); ("xi_r", VReIm [(y, 2); (3, 0)]%R); ("xi_h", VReIm [(1, y); (0, 1)]%R); ("l", VReal [2%R]); ("m", VReal [0%R]);
   ("n_g", VReal [20%R]); ("freq", VReIm [(y, 0)]%R); ("freq_units", VStr "HZ"); ("freq_frame", VStr "INERTIAL")].
Definition w_mode (y : R) : mode_file := {| mf_x := [0; 1]%R; mf_Mr := [0; 4]%R; mf_M := 4; mf_xr := [(y, 2); (3, 0)]%R; mf_xh := [(1, y); (0, 1)]%R; mf_l := VReal [2%R]; mf_m := VReal [0%R];
   mf_n := VReal [20%R]; mf_freq := [(y, 0)]%R; mf_units := "HZ"; mf_frame := "INERTIAL" |}.
Definition w_sc (g : R) : scales := {| sc_G := g; sc_M := 4; sc_R := 10; sc_L := 5; sc_P := [3; 4]; sc_rho := [1; 2]; sc_T := [8; 9] |}%R.
Definition w_file (name : string) (y : R) : entry val := {| e_name := name; e_file := true; e_content := {| c_main := w_entries y; c_extra := [] |} |}.
Definition w_names : list string := ["detail_l2_m+0_n+20_g_mode.h5"; "detail_l2_m+0_n+22_g_mode.h5"; "detail_l2_m+0_n+25_g_mode.h5"].
Definition w_dir (y : R) : list (entry val) := map (fun n => w_file n y) w_names.
Definition w_profile : entry val := {| e_name := "profile_KIC6352430.dat"; e_file := true; e_content := {| c_main := [("mass", VReal [2; 1]%R); ("radius", VReal [3; 1]%R)]; c_extra := [] |} |}.
Definition w_fs (d : string) : option (list (entry val)) :=
  if string_dec d "/out/output_rot_20/" then Some (w_dir 1) else if string_dec d "/out/output_nad_rot_20/" then Some (w_dir 7) else if string_dec d "/mesa/" then Some [w_profile] else None.
Definition w_info : info := [("base_dir", SStr "/star/"); ("mesa_output_dir", SStr "/mesa/"); ("mesa_profile_substrings", STuple ["profile"; "KIC6352430"]); ("mesa_suffix", SStr "dat");
   ("gyre_detail_substring", SStr "detail"); ("gyre_output_dir", SStr "elsewhere")].
Definition w_settings : settings := {| st_base := "/star/"; st_mesa := "/mesa/"; st_suffix := "dat"; st_words := ["profile"; "KIC6352430"]; st_detail := SStr "detail" |}.
Definition w_q : search := {| s_l := [2; 2; 2]; s_m := [0; 0; 0]; s_n := [20; 22; 25] |}%Z.
Lemma w_content g y : detail_file (w_sc g) {| c_main := w_entries y; c_extra := [] |} (w_mode y).
Proof.
  unfold detail_file. do 8 (split; [reflexivity|]). split; [|repeat split; reflexivity].
  intros k v _ E NL. assert (I : In (k, v) (w_entries y)). { unfold stored in E. cbn [c_main c_extra] in E. destruct (dget k (w_entries y)) as [w|] eqn:D; [injection E as <-; exact (dget_in _ _ _ D)|discriminate]. }
  cbn [w_entries In] in I.
  repeat (destruct I as [I|I]; [injection I as <- <-; first [exfalso; apply NL, inA; vm_compute; reflexivity
    | (first [rewrite dec_true by (vm_compute; reflexivity)|rewrite dec_false by (vm_compute; reflexivity)]; eexists; first [split; [reflexivity|intros J; first [reflexivity|apply inb_iff in J; vm_compute in J; discriminate J]] | reflexivity])]|]). destruct I.
Qed.
Lemma w_no_newline n : In n ("profile_KIC6352430.dat" :: w_names) -> no_newline (txt n).
Proof. intros I. cbn in I. repeat (destruct I as [<-|I]; [intros Q; cbn in Q; intuition discriminate|]). destruct I. Qed.
Lemma w_names_mode i j n : (i < 3)%nat -> nth_error w_names j = Some n -> (names_mode w_q (SStr "detail") true i n <-> i = j).
Proof.
  intros I E. assert (Jn : In n ("profile_KIC6352430.dat" :: w_names)) by (right; exact (nth_error_In _ _ E)).
  destruct (C109_selected_by_name w_q (SStr "detail") [true; true; true] n i true (w_no_newline n Jn) ltac:(repeat split; cbn; lia) I) as (b & B & H). rewrite <- H.
  assert (J : (j < 3)%nat) by (change 3%nat with (List.length w_names); apply nth_error_Some; congruence).
  destruct i as [|[|[|i]]]; [| | |lia]; (destruct j as [|[|[|j]]]; [| | |lia]); cbn in E; injection E as <-; vm_compute in B; injection B as <-; split; intros; first [reflexivity | discriminate].
Qed.
Lemma w_suffix stem suf : ~ In "."%char (txt suf) -> In (upper suf) ["H5"; "HDF5"; "TXT"; "DAT"] -> readable (stem ++ "." ++ suf).
Proof. intros A B. exists stem, suf. auto. Qed.
Lemma w_not_text stem suf : ~ In "."%char (txt suf) -> upper suf <> "TXT" -> ~ text_file (stem ++ "." ++ suf).
Proof.
  intros A B (stem' & suf' & E & A' & B'). assert (suf = suf'); [|subst; contradiction].
  assert (X : after_last_dot (stem ++ "." ++ suf) = Some suf) by (apply after_last_dot_spec; exists stem; auto).
  assert (Y : after_last_dot (stem ++ "." ++ suf) = Some suf') by (apply after_last_dot_spec; exists stem'; auto). congruence.
Qed.
Lemma w_triplet g y : triplet_in (w_dir y) w_q (SStr "detail") g (fun _ => w_mode y).
Proof.
  assert (RD : forall n, In n w_names -> readable n /\ ~ text_file n).
  { intros n I. cbn in I. destruct I as [<-|[<-|[<-|[]]]];
      [change "detail_l2_m+0_n+20_g_mode.h5" with ("detail_l2_m+0_n+20_g_mode" ++ "." ++ "h5")|change "detail_l2_m+0_n+22_g_mode.h5" with ("detail_l2_m+0_n+22_g_mode" ++ "." ++ "h5")|change "detail_l2_m+0_n+25_g_mode.h5" with ("detail_l2_m+0_n+25_g_mode" ++ "." ++ "h5")];
      (split; [apply w_suffix; cbn; intuition discriminate|apply w_not_text; cbn; intuition discriminate]). }
  split.
  - intros e I _. unfold w_dir in I. apply in_map_iff in I. destruct I as (n & <- & I). cbn [e_name w_file]. split; [apply w_no_newline; right; exact I|]. intros _ _ _. apply RD, I.
  - intros i Hi. assert (Ln : (i < List.length w_names)%nat) by exact Hi. destruct (nth_error w_names i) as [n|] eqn:E; [|apply nth_error_None in E; lia].
    exists (w_file n y). destruct (nth_error_split _ _ E) as (l1 & l2 & Sp & L). split; [|split; [exact (proj2 (RD n (nth_error_In _ _ E)))|exists (w_sc g); split; [reflexivity|apply w_content]]].
    exists (map (fun n => w_file n y) l1), (map (fun n => w_file n y) l2). split; [unfold w_dir; rewrite Sp, map_app; reflexivity|]. split; [split; [reflexivity|exact (proj2 (w_names_mode i i n Hi E) eq_refl)]|].
    intros e J. rewrite <- map_app in J. apply in_map_iff in J. destruct J as (n' & <- & J). intros [_ Q]. cbn [e_name w_file] in Q.
    assert (X : exists j, j <> i /\ nth_error w_names j = Some n').
    { rewrite Sp. apply in_app_or in J. destruct J as [J|J]; destruct (In_nth_error _ _ J) as [j Ej].
      - exists j. assert (j < List.length l1)%nat by (apply nth_error_Some; congruence). split; [lia|]. rewrite nth_error_app1 by lia. exact Ej.
      - exists (List.length l1 + S j)%nat. split; [lia|]. rewrite nth_error_app2 by lia. replace (List.length l1 + S j - List.length l1)%nat with (S j) by lia. exact Ej. }
    destruct X as (j & Nj & Ej). apply (w_names_mode i j n' Hi Ej) in Q. congruence.
Qed.
Lemma w_profile_in : profile_in [w_profile] w_settings w_profile.
Proof.
  assert (NN : no_newline (txt (e_name w_profile))) by (apply w_no_newline; left; reflexivity).
  split; [|split; [|split]].
  - intros e [<-|[]] _. change (e_name w_profile) with ("profile_KIC6352430" ++ "." ++ "dat"). apply w_suffix; cbn; intuition discriminate.
  - exists [], []. split; [reflexivity|]. split; [|intros y []]. split; [reflexivity|]. split; [reflexivity|]. intros w [<-|[<-|[]]]; apply is_in_occurs; reflexivity.
  - change (e_name w_profile) with ("profile_KIC6352430" ++ "." ++ "dat"). apply w_not_text; cbn; intuition discriminate.
  - exists "mass". split; [apply inA; reflexivity|discriminate].
Qed.
Example C152_witness : settings_of w_info w_settings /\ well_formed_search w_q (st_detail w_settings) [true; true; true] /\
  (forall g, triplet_in (w_dir 1) w_q (SStr "detail") g (fun _ => w_mode 1) /\ triplet_in (w_dir 7) w_q (SStr "detail") g (fun _ => w_mode 7)) /\ profile_in [w_profile] w_settings w_profile /\
  forall radius, exists c figs, load_comparer w_fs 1 1 w_info (Some "/out/") 20 None None [2; 2; 2]%Z [0; 0; 0]%Z [[1; 1; 1]; [20; 22; 25]]%Z 1 = Ok c /\ eigenfunction_figures c radius = Ok figs /\
    comparison_figures radius (fun _ => w_mode 1) (fun _ => w_mode 7) figs.
Proof.
  assert (ST : settings_of w_info w_settings) by (repeat split; left; reflexivity). assert (WF : well_formed_search w_q (st_detail w_settings) [true; true; true]) by (repeat split; cbn; lia).
  split; [exact ST|]. split; [exact WF|]. split; [intros g; split; apply w_triplet|]. split; [exact w_profile_in|]. intros radius.
  exact (C152_eigenfunction_figures w_fs 1 1 w_info w_settings "/out/" 20 None None [2; 2; 2]%Z [0; 0; 0]%Z [[1; 1; 1]; [20; 22; 25]]%Z 1 [20; 22; 25]%Z (w_dir 1) (w_dir 7) [w_profile] w_profile (fun _ => w_mode 1) (fun _ => w_mode 7) radius ST eq_refl eq_refl WF eq_refl
    (w_triplet 1 1) eq_refl (w_triplet 1 7) eq_refl w_profile_in).
Qed.
Definition w_column (k : string) : list R := if string_dec k "radius" then [3; 1]%R else if string_dec k "mass" then [2; 1]%R else [5; 6]%R.
Definition w_mesa : dict val := map (fun k => (k, VReal (w_column k))) mesa_attrs.
Example C154_witness : exists figs, profile_figures {| c_ad := []; c_nad := []; c_mesa := [w_mesa] |} true = Ok figs /\ List.length figs = 11%nat.
Proof.
  assert (G : forall k, inb k mesa_attrs = true -> column_of w_mesa k (w_column k)).
  { intros k I. apply inb_iff in I. unfold column_of, w_mesa. induction mesa_attrs as [|a l IH]; [destruct I|]. cbn [map dget]. destruct (string_dec k a) as [->|N]; [reflexivity|]. apply IH. destruct I as [->|I]; [contradiction|exact I]. }
  destruct (C154_profile_figures {| c_ad := []; c_nad := []; c_mesa := [w_mesa] |} w_mesa [] true [3; 1]%R 3%R 2%nat eq_refl) with (col := w_column) as (figs & E & L & _).
  - exact (G "radius" eq_refl).
  - split; [left; reflexivity|]. intros x [<-|[<-|[]]]; lra.
  - reflexivity.
  - intros k I. split; [apply G; cbn in I; repeat (destruct I as [<-|I]; [reflexivity|]); destruct I|]. unfold w_column. destruct (string_dec k "radius"); [reflexivity|]. destruct (string_dec k "mass"); reflexivity.
  - exists figs. split; [exact E|exact L].
Qed.
Example C155_witness : detail_data w_scales w_detail /\ dget "omega" w_detail = Some (VReIm [(4, 0)]%R) /\ unit_of w_scales "omega" = None /\ ~ In "omega" labels.
Proof. split; [exact (proj1 C114_witness)|]. split; [reflexivity|]. split; [rewrite unit_eq; reflexivity|apply ninA; reflexivity]. Qed.
