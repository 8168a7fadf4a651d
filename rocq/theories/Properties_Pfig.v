(** * Theorems on the figures with coupling coefficient profiles: C182, C183. *)
From Coq Require Import Reals List Bool Arith String Lia Lra.
From Verif Require Import Base Tar_Model Tar_Spec Pfig_Model Pfig_Spec Pfig_Proofs Properties_Tar.
Import ListNotations.
Local Open Scope nat_scope.

(** ** C182: what the saved figures show *)
(** A mode triad has two figures, and a third one exactly if the terms are requested. *)
Theorem C182_files pal n cc brunt terms z view : exists figs, triad_figures pal n cc brunt terms z view = Ok figs /\
  map fst figs = [("coupling_coefficient", "cc_profile_single"); ("coupling_coefficient", "cc_profile")]%string ++
                  if view then [("coupling_coefficient_contributions", "cc_contributions_profile")%string] else [].
Proof. destruct terms as [[[t1 t2] t3] t4]. destruct view; eexists; split; reflexivity. Qed.
(** The first shows the cumulative profile, unshaded, with N^2 on a second axis. *)
Theorem C182_single_figure pal n cc brunt terms z view figs : triad_figures pal n cc brunt terms z view = Ok figs ->
  exists f p, nth_error figs 0 = Some ("coupling_coefficient"%string, "cc_profile_single"%string, f) /\ f_panels f = [p] /\ shows p [cc] /\
    p_shade p = None /\ p_twin p = Some brunt /\ f_texts f = ["$N^2$ (Hz)"%string] /\ f_legend f = None.
Proof. destruct terms as [[[t1 t2] t3] t4]. cbn. intros H. inversion H; subst figs. do 2 eexists. repeat split. Qed.
(** The second shows the cumulative profile above the adjusted one; in both panels the radii at which the TAR holds are shaded
    and N^2 is drawn, the radius is named below the lower panel only, and N^2 beside it once. *)
Theorem C182_masked_figure pal n cc brunt terms z view figs : triad_figures pal n cc brunt terms z view = Ok figs ->
  exists f u l, nth_error figs 1 = Some ("coupling_coefficient"%string, "cc_profile"%string, f) /\ f_panels f = [u; l] /\
    shows u [cc] /\ shows l [adj_profile (adjust n cc z)] /\ shaded u (z_valid z) /\ shaded l (z_valid z) /\
    p_twin u = Some brunt /\ p_twin l = Some brunt /\ p_xlabel u = None /\ p_xlabel l = Some "r / R"%string /\
    f_texts f = ["$N^2$ (Hz)"%string] /\ f_legend f = None.
Proof. destruct terms as [[[t1 t2] t3] t4]. cbn. intros H. inversion H; subst figs. do 3 eexists. repeat split. Qed.
(** The third shows the four terms above the four adjusted terms; its legend explains the curves of the lower panel, and the
    curves of the upper one carry the same labels. *)
Theorem C182_term_figure pal n cc brunt t1 t2 t3 t4 z figs : triad_figures pal n cc brunt (t1, t2, t3, t4) z true = Ok figs ->
  exists f u l, nth_error figs 2 = Some ("coupling_coefficient_contributions"%string, "cc_contributions_profile"%string, f) /\ f_panels f = [u; l] /\
    shows u [t1; t2; t3; t4] /\ shows l (map (fun t => adj_profile (adjust n t z)) [t1; t2; t3; t4]) /\
    shaded u (z_valid z) /\ shaded l (z_valid z) /\ p_twin u = None /\ p_twin l = None /\ f_texts f = [] /\
    legend_explains f (map (fun t => adj_profile (adjust n t z)) [t1; t2; t3; t4]) (map term_label ["1"; "2"; "3"; "4"]%string) /\
    map c_label (p_curves u) = map Some (map term_label ["1"; "2"; "3"; "4"]%string) /\ NoDup (map term_label ["1"; "2"; "3"; "4"]%string).
Proof.
  cbn. intros H. inversion H; subst figs. do 3 eexists. split; [reflexivity|]. split; [reflexivity|]. split; [reflexivity|]. split; [reflexivity|].
  split; [reflexivity|]. split; [reflexivity|]. split; [reflexivity|]. split; [reflexivity|]. split; [reflexivity|].
  split; [eexists; split; [reflexivity|]; split; reflexivity|]. split; [reflexivity|].
  repeat (constructor; [cbn; intuition discriminate|]). constructor.
Qed.
(** Where the four terms add up to the coefficient, the four curves of each panel add up to the curve of the same panel of the
    second figure, at every radius. *)
Theorem C182_curves_add_up pal n cc brunt t1 t2 t3 t4 z figs : triad_figures pal n cc brunt (t1, t2, t3, t4) z true = Ok figs ->
  (forall k, cc k = sum_at [t1; t2; t3; t4] k) ->
  exists f g ul ll ut lt, nth_error (map snd figs) 1 = Some f /\ nth_error (map snd figs) 2 = Some g /\
    f_panels f = [ul; ll] /\ f_panels g = [ut; lt] /\
    (forall k, sum_at (map c_y (p_curves ul)) k = sum_at (map c_y (p_curves ut)) k) /\
    (forall k, sum_at (map c_y (p_curves ll)) k = sum_at (map c_y (p_curves lt)) k).
Proof.
  cbn. intros H A. inversion H; subst figs. do 6 eexists. split; [reflexivity|]. split; [reflexivity|]. split; [reflexivity|]. split; [reflexivity|].
  split; intros k.
  - change ((cc k + 0)%R = sum_at [t1; t2; t3; t4] k). rewrite A. apply Rplus_0_r.
  - change ((adj_profile (adjust n cc z) k + 0)%R = sum_at (map (fun t => adj_profile (adjust n t z)) [t1; t2; t3; t4]) k).
    rewrite (adj_ext n z cc (sum_at [t1; t2; t3; t4]) A), adj_sum. apply Rplus_0_r.
Qed.
(** With an invalid core, the curve of the lower panel grows exactly where the TAR holds, as shaded, and ends at the adjusted
    coefficient that is printed. *)
Theorem C182_lower_panel_ends_at_printed_value pal cc brunt terms rot freq z view figs : let v := tar_valid rot freq in let n := List.length v in
  List.length rot = List.length freq -> tar_zones true rot freq = Ok z -> hd false v = false -> In true v ->
  triad_figures pal n cc brunt terms z view = Ok figs ->
  exists f u l y, nth_error (map snd figs) 1 = Some f /\ f_panels f = [u; l] /\ shaded l v /\ shows l [y] /\
    (forall k, k < n -> y k = kept cc v k) /\ y (n - 1) = adj_value (adjust n cc z).
Proof.
  intros v n L Z Hd T H. destruct (C182_masked_figure _ _ _ _ _ _ _ _ H) as (f & u & l & N & P & _ & Sl & _ & Sh & _).
  destruct (C100_masks_partition_the_star rot freq T) as (z' & Z' & V & _).
  { destruct (tar_valid rot freq) as [|[|] v'] eqn:E; unfold v in Hd, T; try rewrite E in Hd; try rewrite E in T; [destruct T|discriminate|left; reflexivity]. }
  rewrite Z in Z'. inversion Z'; subst z'.
  exists f, u, l, (adj_profile (adjust n cc z)). split; [rewrite nth_error_map, N; reflexivity|]. split; [exact P|].
  split; [unfold v; rewrite <- V; exact Sh|]. split; [exact Sl|].
  assert (K : forall k, k < n -> adj_profile (adjust n cc z) k = kept cc v k) by (intros k K; apply (C101_adjusted_profile_invalid_core rot freq cc z k Hd T Z K)).
  split; [exact K|]. rewrite K.
  - destruct (C101_adjusted_value rot freq cc z L Z) as [E _]. rewrite V in E. symmetry. exact E.
  - unfold n, v in *. destruct (tar_valid rot freq); [destruct T|cbn; lia].
Qed.
(** Finding: with a valid core and a valid surface, the lower panel ends at zero, whatever adjusted coefficient is printed. *)
Theorem C182_valid_core_lower_panel_ends_at_zero pal cc brunt terms rot freq z view figs : let v := tar_valid rot freq in let n := List.length v in
  List.length rot = List.length freq -> tar_zones true rot freq = Ok z -> hd false v = true -> In false v -> nth (n - 1) v false = true ->
  triad_figures pal n cc brunt terms z view = Ok figs ->
  exists f u l y, nth_error (map snd figs) 1 = Some f /\ f_panels f = [u; l] /\ shows l [y] /\ y (n - 1) = 0%R /\
    adj_value (adjust n cc z) = kept cc v (n - 1).
Proof.
  intros v n L Z Hd F Sf H. destruct (C182_masked_figure _ _ _ _ _ _ _ _ H) as (f & u & l & N & P & _ & Sl & _).
  destruct (C100_masks_partition_the_star rot freq) as (z' & Z' & V & _).
  { destruct (tar_valid rot freq) as [|[|] v'] eqn:E; unfold v in Hd; try rewrite E in Hd; [discriminate|left; reflexivity|discriminate]. }
  { exact F. }
  rewrite Z in Z'. inversion Z'; subst z'.
  exists f, u, l, (adj_profile (adjust n cc z)). split; [rewrite nth_error_map, N; reflexivity|]. split; [exact P|]. split; [exact Sl|].
  assert (NZ : 0 < n) by (unfold n, v in *; destruct (tar_valid rot freq); [discriminate Hd|cbn; lia]).
  split.
  - apply (C101_valid_core_and_surface rot freq cc z (n - 1) Hd F Z); [unfold n, v in NZ |- *; lia|]. intros j J. replace j with (n - 1) by (unfold n, v in NZ, J |- *; lia). exact Sf.
  - destruct (C101_adjusted_value rot freq cc z L Z) as [E _]. rewrite V in E. exact E.
Qed.
(** N^2 is never drawn in a panel with a list of curves, even if it is given; and curves without a label of their own are not drawn. *)
Theorem C182_lists pal n ys labels z brunt use_legend es ylabel bl sx pl :
  (let '(_, _, f, _) := double_many n ys labels z brunt use_legend (Some es) in
   (forall p, In p (f_panels f) -> p_twin p = None) /\ f_texts f = [] /\
   map (fun p => map c_y (p_curves p)) (f_panels f) =
     [firstn (List.length es) ys; firstn (List.length es) (map (fun y => adj_profile (adjust n y z)) ys)]) /\
  (forall f, single_figure pal (Many ys) ylabel brunt bl sx pl (Some es) = Ok f ->
     (forall p, In p (f_panels f) -> p_twin p = None) /\ f_texts f = [] /\
     map (fun p => map c_y (p_curves p)) (f_panels f) = [firstn (List.length es) ys]).
Proof.
  assert (M : forall l, map c_y (map (fun p : profile * option string => mkCurve (fst p) None (snd p)) l) = map fst l) by (intros l; rewrite map_map; reflexivity).
  split.
  - cbn [double_many two_panels individual f_panels f_texts twin_of texts_of is_many app]. split; [intros p [<-|[<-|[]]]; reflexivity|]. split; [reflexivity|].
    cbn [map p_curves]. rewrite !M, !labelled_fst, map_map. reflexivity.
  - intros f. unfold single_figure. destruct pal as [|c pal].
    + destruct (labelled ys (Some es)) as [|[y lb] l] eqn:E; [|discriminate]. cbn. intros H. inversion H; subst f. cbn [f_panels f_texts p_curves p_twin].
      split; [intros p [<-|[]]; reflexivity|]. split; [reflexivity|]. pose proof (labelled_fst ys es) as X. rewrite E in X. cbn in X. cbn. rewrite <- X. reflexivity.
    + destruct (cycle_curves_ok (c :: pal) ltac:(discriminate) (labelled ys (Some es)) 0 0) as (cs & C & Y & _); [symmetry; apply (Nat.mod_0_l (S (List.length pal))); discriminate|].
      rewrite C. cbn [bind]. intros H. inversion H; subst f. cbn [f_panels f_texts p_curves p_twin map].
      split; [intros p [<-|[]]; reflexivity|]. split; [reflexivity|]. rewrite Y, labelled_fst. reflexivity.
Qed.
(** A single panel has a legend exactly if one is asked for and it has several curves; the legend then explains every curve. *)
Theorem C182_single_legend pal y ys es ylabel brunt bl sx pl : pal <> [] -> List.length es = List.length ys ->
  (exists f, single_figure pal (One y) ylabel brunt bl sx pl (Some es) = Ok f /\ f_legend f = None) /\
  (exists f, single_figure pal (Many ys) ylabel brunt bl sx false (Some es) = Ok f /\ f_legend f = None) /\
  (exists f, single_figure pal (Many ys) ylabel brunt bl sx true (Some es) = Ok f /\ legend_explains f ys es).
Proof.
  intros N L. assert (S0 : 0 = start_place 0 mod List.length pal) by (destruct pal as [|c pal]; [contradiction|]; change (start_place 0) with 0; symmetry; apply Nat.mod_0_l; discriminate).
  destruct (cycle_curves_ok pal N (labelled ys (Some es)) 0 0 S0) as (cs & C & Y & Lb & _). destruct (labelled_all ys es (eq_sym L)) as [E1 E2].
  split; [eexists; split; reflexivity|]. unfold single_figure. rewrite C. cbn [bind]. split; [eexists; split; reflexivity|].
  eexists. split; [reflexivity|]. exists cs. split; [reflexivity|]. split; [rewrite Y; exact E1|rewrite Lb; exact E2].
Qed.
Definition ex_zones : zones := mkZones [false; true; true; false; true] [(0, 1); (3, 4)] [Slice (Some 1) (Some 3); Slice (Some 4) None] [Slice None (Some 1); Slice (Some 3) (Some 4)] false.
Theorem C182_hypotheses_met : tar_zones true ex_rot ex_freq = Ok ex_zones /\ hd false (tar_valid ex_rot ex_freq) = false /\ In true (tar_valid ex_rot ex_freq) /\
  (let cc := fun k => INR k in exists figs, triad_figures [] 5 cc cc (cc, fun _ => 0%R, fun _ => 0%R, fun _ => 0%R) ex_zones true = Ok figs /\ List.length figs = 3 /\
     (forall k, cc k = sum_at [cc; fun _ => 0%R; fun _ => 0%R; fun _ => 0%R] k) /\ adj_value (adjust 5 cc ex_zones) = 2%R) /\
  (let rot := [true; true; false; true] in let v := tar_valid rot [true; true; true; true] in
   hd false v = true /\ In false v /\ nth (List.length v - 1) v false = true /\ exists z, tar_zones true rot [true; true; true; true] = Ok z /\ adj_value (adjust 4 (fun k => INR k) z) = 2%R).
Proof.
  split; [reflexivity|]. split; [reflexivity|]. split; [cbn; auto|]. split.
  - cbv zeta. eexists. split; [reflexivity|]. split; [reflexivity|]. split; [intros k; unfold sum_at; cbn; lra|]. cbn. unfold contribution. cbn. lra.
  - cbv zeta. split; [reflexivity|]. split; [cbn; auto|]. split; [reflexivity|]. eexists. split; [reflexivity|]. cbn. unfold contribution. cbn. lra.
Qed.

(** ** C183: the colours of several curves in one panel *)
(** The i-th curve has the colour at place 0, 1, 4, 9, 10, 11, ... of the endlessly repeated palette. *)
Theorem C183_colours pal ys ylabel brunt bl sx pl : pal <> [] -> exists f p, single_figure pal (Many ys) ylabel brunt bl sx pl None = Ok f /\ f_panels f = [p] /\
  shows p ys /\ forall i, i < List.length ys -> exists c, nth_error (map c_color (p_curves p)) i = Some (Some c) /\ nth_error pal (colour_place i mod List.length pal) = Some c.
Proof.
  intros N. destruct (cycle_curves_ok pal N (labelled ys None) 0 0) as (cs & C & Y & _ & Cl).
  { destruct pal as [|c pal]; [contradiction|]. change (start_place 0) with 0. symmetry. apply Nat.mod_0_l. discriminate. }
  unfold single_figure. rewrite C. cbn [bind]. do 2 eexists. split; [reflexivity|]. split; [reflexivity|]. split.
  - unfold shows. cbn [p_curves]. rewrite Y. apply labelled_none.
  - intros i I. cbn [p_curves]. apply (Cl i). cbn. rewrite map_length. exact I.
Qed.
(** Labels do not change the colours. *)
Theorem C183_labels_do_not_matter pal ys es ylabel brunt bl sx pl : pal <> [] -> List.length es = List.length ys ->
  exists f g p q, single_figure pal (Many ys) ylabel brunt bl sx pl None = Ok f /\ single_figure pal (Many ys) ylabel brunt bl sx pl (Some es) = Ok g /\
    f_panels f = [p] /\ f_panels g = [q] /\ map c_y (p_curves p) = map c_y (p_curves q) /\ map c_color (p_curves p) = map c_color (p_curves q) /\
    map c_label (p_curves q) = map Some es.
Proof.
  intros N L. assert (S0 : 0 = start_place 0 mod List.length pal) by (destruct pal as [|c pal]; [contradiction|]; change (start_place 0) with 0; symmetry; apply Nat.mod_0_l; discriminate).
  destruct (cycle_curves_ok pal N (labelled ys None) 0 0 S0) as (cs & C & Y & _ & Cl).
  destruct (cycle_curves_ok pal N (labelled ys (Some es)) 0 0 S0) as (ds & D & Y' & Lb & Dl).
  destruct (labelled_all ys es (eq_sym L)) as [E1 E2]. unfold single_figure. rewrite C, D. cbn [bind]. do 4 eexists.
  split; [reflexivity|]. split; [reflexivity|]. split; [reflexivity|]. split; [reflexivity|]. cbn [p_curves]. split; [rewrite Y, Y', E1; apply labelled_none|]. split.
  - assert (LC : List.length cs = List.length ys) by (rewrite <- (map_length c_y cs), Y, labelled_none; reflexivity).
    assert (LD : List.length ds = List.length ys) by (rewrite <- (map_length c_y ds), Y', E1; reflexivity).
    assert (L1 : List.length (labelled ys None) = List.length ys) by (cbn; apply map_length).
    assert (L2 : List.length (labelled ys (Some es)) = List.length ys) by (rewrite <- (map_length fst), E1; reflexivity).
    apply (nth_ext _ _ None None); [rewrite !map_length; lia|]. intros i I. rewrite map_length in I.
    destruct (Cl i ltac:(lia)) as (c & C1 & C2). destruct (Dl i ltac:(lia)) as (d & D1 & D2).
    rewrite (nth_error_nth _ _ None C1), (nth_error_nth _ _ None D1). congruence.
  - rewrite Lb. exact E2.
Qed.
(** With a palette of ten or more different colours, the curves differ in colour exactly if there are at most four of them, or
    six fewer than colours. *)
Theorem C183_distinct_colours pal ys ylabel brunt bl sx pl : NoDup pal -> 10 <= List.length pal ->
  exists f p, single_figure pal (Many ys) ylabel brunt bl sx pl None = Ok f /\ f_panels f = [p] /\
    (NoDup (map c_color (p_curves p)) <-> (List.length ys <= 4 \/ List.length ys + 6 <= List.length pal)).
Proof.
  intros ND L. destruct (C183_colours pal ys ylabel brunt bl sx pl) as (f & p & F & P & Sh & C); [destruct pal; [cbn in L; lia|discriminate]|].
  exists f, p. split; [exact F|]. split; [exact P|].
  assert (Len : List.length (map c_color (p_curves p)) = List.length ys) by (rewrite map_length, <- (map_length c_y), Sh; reflexivity).
  assert (LZ : List.length pal <> 0) by lia. split.
  - intros D. destruct (le_lt_dec (List.length ys) 4) as [H|H]; [left; exact H|]. right.
    destruct (le_lt_dec (List.length ys + 6) (List.length pal)) as [G|G]; [exact G|]. exfalso.
    (* the curve with place (length pal) repeats the first colour *)
    destruct (C 0 ltac:(lia)) as (c & C1 & C2). destruct (C (List.length pal - 6) ltac:(lia)) as (d & D1 & D2).
    assert (E : colour_place (List.length pal - 6) = List.length pal).
    { destruct (List.length pal - 6) as [|[|[|[|j]]]] eqn:X; try lia. cbn. lia. }
    rewrite E, Nat.mod_same in D2 by exact LZ. change (colour_place 0) with 0 in C2. rewrite Nat.mod_0_l in C2 by exact LZ. rewrite C2 in D2. inversion D2; subst d.
    assert (Q : 0 = List.length pal - 6). { apply (proj1 (NoDup_nth_error _) D); [lia|congruence]. } lia.
  - intros H. apply NoDup_nth_error. intros i j I E. assert (J : j < List.length ys).
    { rewrite <- Len. apply nth_error_Some. rewrite <- E. apply nth_error_Some. exact I. }
    rewrite Len in I. destruct (C i I) as (c & C1 & C2). destruct (C j J) as (d & D1 & D2).
    assert (B : forall a, a < List.length ys -> colour_place a < List.length pal) by (intros a A; destruct a as [|[|[|[|a]]]]; cbn; lia).
    rewrite (Nat.mod_small _ _ (B i I)) in C2. rewrite (Nat.mod_small _ _ (B j J)) in D2.
    assert (c = d) by congruence. subst d.
    assert (Q : colour_place i = colour_place j) by (apply (proj1 (NoDup_nth_error pal) ND); [apply B, I|congruence]).
    destruct (lt_eq_lt_dec i j) as [[X|X]|X]; [|exact X|]; apply colour_place_lt in X; lia.
Qed.
(** Finding: with the ten colours of the styles in use, the fifth curve has the colour of the first. *)
Theorem C183_fifth_of_ten pal y1 y2 y3 y4 y5 ys ylabel brunt bl sx pl : List.length pal = 10 ->
  exists f p, single_figure pal (Many (y1 :: y2 :: y3 :: y4 :: y5 :: ys)) ylabel brunt bl sx pl None = Ok f /\ f_panels f = [p] /\
    nth_error (map c_color (p_curves p)) 4 = nth_error (map c_color (p_curves p)) 0 /\ nth_error (map c_color (p_curves p)) 0 <> None.
Proof.
  intros L. destruct (C183_colours pal (y1 :: y2 :: y3 :: y4 :: y5 :: ys) ylabel brunt bl sx pl) as (f & p & F & P & Sh & C); [destruct pal; discriminate|].
  exists f, p. split; [exact F|]. split; [exact P|]. destruct (C 0 ltac:(cbn; lia)) as (c & C1 & C2). destruct (C 4 ltac:(cbn; lia)) as (d & D1 & D2).
  rewrite L in C2, D2. cbn in C2, D2. rewrite C1, D1. split; [congruence|discriminate].
Qed.
(** One curve is dark blue whatever the palette; a list of curves with an empty palette is refused. *)
Theorem C183_one_curve_and_empty_palette pal y ys ylabel brunt bl sx pl :
  (exists f p, single_figure pal (One y) ylabel brunt bl sx pl None = Ok f /\ f_panels f = [p] /\ shows p [y] /\ map c_color (p_curves p) = [Some "xkcd:darkblue"%string]) /\
  single_figure [] (Many (y :: ys)) ylabel brunt bl sx pl None = Exc ZeroDivisionError.
Proof. split; [do 2 eexists; repeat split|reflexivity]. Qed.
Theorem C183_hypotheses_met : let pal := ["a"; "b"; "c"; "d"; "e"; "f"; "g"; "h"; "i"; "j"]%string in NoDup pal /\ List.length pal = 10 /\
  exists f p, single_figure pal (Many [fun _ => 0%R; fun _ => 1%R; fun _ => 2%R; fun _ => 3%R]) None None false true false None = Ok f /\ f_panels f = [p] /\
    map c_color (p_curves p) = [Some "a"; Some "b"; Some "e"; Some "j"]%string.
Proof.
  cbv zeta. split; [repeat (constructor; [cbn; intuition discriminate|]); constructor|]. split; [reflexivity|]. do 2 eexists. split; [reflexivity|]. split; reflexivity.
Qed.
