(** * C116-C123: the arrays of the coupling object and the grid they live on *)
From Coq Require Import List ZArith Lia Reals Lra String Ascii Bool.
From Coquelicot Require Import Complex.
From Verif Require Import Base Py NumDeriv_Model Load_Model Load_Dim Coupling_Model Grid_Model Grid_Spec Grid_Interp Grid_Proofs Grid_Build Grid_Mesa Grid_Final Grid_Poly Grid_Analytic Grid_Errors.
Import ListNotations.
Local Open Scope string_scope.

(** ** C116: resampling *)
Theorem C116_resampling x xp fp : List.length xp = List.length fp -> (0 < List.length xp)%nat ->
  exists r, interp_list x xp fp = Ok r /\ List.length r = List.length x /\
   forall j, (j < List.length x)%nat -> lin_interp xp fp (nth j x 0%R) (nth j r 0%R) /\
     (nondecreasing xp -> forall v, lin_interp xp fp (nth j x 0%R) v -> v = nth j r 0%R).
Proof.
  intros HL H0. exists (map (interp1 (combine xp fp)) x). split; [apply interp_list_spec; auto|]. split; [apply map_length|].
  intros j Hj. rewrite (nth_map0 _ x 0%R) by exact Hj. split; [apply interp1_spec; assumption|].
  intros HN v Hv. eapply lin_interp_unique; [exact HN|exact Hv|apply interp1_spec; assumption].
Qed.
Theorem C116_bad_samples x xp fp : List.length xp <> List.length fp \/ xp = [] -> interp_list x xp fp = Exc ValueError.
Proof.
  intros H. unfold interp_list. destruct H as [H| ->]; [rewrite (proj2 (Nat.eqb_neq _ _) H), andb_false_r; reflexivity|reflexivity].
Qed.
Theorem C116_exact xp : (0 < List.length xp)%nat -> increasing xp ->
  (forall fp, List.length fp = List.length xp -> interp_list xp xp fp = Ok fp) /\
  (forall a b x r, (forall t, In t x -> nth 0 xp 0 <= t <= nth (List.length xp - 1) xp 0)%R ->
     interp_list x xp (map (fun t => a * t + b)%R xp) = Ok r -> r = map (fun t => a * t + b)%R x) /\
  (forall fp x r lo hi, interp_list x xp fp = Ok r -> (forall v, In v fp -> lo <= v <= hi)%R -> forall v, In v r -> (lo <= v <= hi)%R).
Proof.
  intros H0 HI. split; [|split].
  - intros fp HL. apply interp_own_grid; auto.
  - intros a b x r Hx H. apply interp_list_spec in H. destruct H as (_ & HL & ->). apply map_ext_in. intros t Ht.
    eapply lin_interp_unique; [apply incr_nondecr, HI|apply interp1_spec; assumption|apply lin_interp_affine; [exact H0|apply Hx, Ht]].
  - intros fp x r lo hi H Hb v Hv. apply interp_list_spec in H. destruct H as (_ & HL & ->). apply in_map_iff in Hv. destruct Hv as (t & <- & _).
    eapply lin_interp_bounds; [exact HL|exact H0|exact Hb|apply interp1_spec; assumption].
Qed.
(** at a grid point that occurs twice (a discontinuity) both copies get the value of the last one *)
Theorem C116_double_points xp fp r j k : List.length xp = List.length fp -> nondecreasing xp -> (j <= k < List.length xp)%nat ->
  nth j xp 0%R = nth k xp 0%R -> ((S k < List.length xp)%nat -> (nth k xp 0 < nth (S k) xp 0)%R) ->
  interp_list xp xp fp = Ok r -> nth j r 0%R = nth k fp 0%R.
Proof.
  intros HL HN Hk E HS H. apply interp_list_spec in H. destruct H as (_ & _ & ->). rewrite (nth_map0 _ xp 0%R) by lia. rewrite E.
  apply interp_at_sample; [exact HL|exact HN|lia|exact HS].
Qed.
Example C116_case : interp_list [0; 3/2; 5]%R [1; 2; 2; 4]%R [10; 20; 30; 50]%R = Ok [10; 15; 50]%R /\
  interp_list [1; 2; 2; 4]%R [1; 2; 2; 4]%R [10; 20; 30; 50]%R = Ok [10; 30; 30; 50]%R.
Proof.
  unfold interp_list, interp1, interp_from. cbn [List.length combine map Nat.ltb Nat.leb Nat.eqb andb].
  split; repeat match goal with |- context [Rlt_dec ?a ?b] => destruct (Rlt_dec a b); try lra end; repeat f_equal; field.
Qed.

(** ** C117: the MESA + GYRE object *)
Section Mesa.
Variable der : list R -> list R -> res (list (option (list R))).
Variables (d1 d2 d3 prof : gdict) (x1 x2 x3 : list R) (st : string -> list R) (Rs G : R) (rad N2 ad : list R).
Hypothesis I : mesa_input d1 d2 d3 prof x1 x2 x3 st Rs G rad N2 ad.
Hypothesis Hder : derivative_ok der (List.length x1 - 2).
Lemma on_grid_ok a : List.length a = List.length rad -> profile_on_grid x1 rad a (on_grid false x1 rad a).
Proof.
  intros La. unfold profile_on_grid, on_grid. destruct (Nat.eqb_spec (List.length rad) (List.length x1)) as [E|E].
  - split; [rewrite rev_length; lia|]. split; [reflexivity|contradiction].
  - split; [apply map_length|]. split; [contradiction|]. intros _ R0 HR j Hj. rewrite (nth_map0 _ x1 0%R) by exact Hj.
    assert (R0 = amax rad) as ->.
    { pose proof (po_pos _ _ _ (mi_prof _ _ _ _ _ _ _ _ _ _ _ _ _ I)). destruct (amax_spec rad) as [Q1 Q2]; [destruct rad; [cbn in H; lia|discriminate]|].
      destruct HR as [Q3 Q4]. apply Rle_antisym; auto. }
    unfold nrad; cbv zeta iota; apply interp1_spec; rewrite ?rev_length, ?map_length; [lia|]. apply (po_pos _ _ _ (mi_prof _ _ _ _ _ _ _ _ _ _ _ _ _ I)).
Qed.
Lemma prof_len k a : dget k prof = Some (VArr a) -> List.length a = List.length rad.
Proof. intros Hk. destruct (po_cols _ _ _ (mi_prof _ _ _ _ _ _ _ _ _ _ _ _ _ I) k (VArr a) (dget_in _ _ _ Hk) eq_refl) as (a' & E & L). injection E as <-. exact L. Qed.
Lemma mode_ok_of i d xp : In (i, d, xp) [(1%nat, d1, x1); (2%nat, d2, x2); (3%nat, d3, x3)] -> mode_ok d xp.
Proof. cbn. intros [E|[E|[E|[]]]]; injection E as _ <- <-; apply I. Qed.
(** everything that enters the radial integrals is given at the same n-2 points: the grid of the first mode without its end points *)
Theorem C117_mesa_grid sym brunt : exists o, build_mesa der sym brunt d1 d2 d3 prof = Ok o /\
  o "_x" = Some (VArr (kept x1)) /\
  (forall k, In k structure_names -> o ("_" ++ k) = Some (VArr (kept (st k)))) /\
  (forall i d xp k v, In (i, d, xp) [("1", d1, x1); ("2", d2, x2); ("3", d3, x3)] -> dget k d = Some v -> In k mode_functions ->
     exists w, resampled x1 xp v w /\ (xp = x1 -> increasing x1 -> samples v = Some w) /\
       (In k mesa_functions -> array_at o (of_mode k i) (kept w)) /\ (~ In k mesa_functions -> array_at o (of_mode k i) w)) /\
  (forall k a, In (k, a) [("brunt_N2", N2); ("gamma_1_adDer", ad)] ->
     exists w, profile_on_grid x1 rad a w /\ o (of_profile k) = Some (VArr (kept w))) /\
  (forall k, In k derived_names -> real_array o k (List.length x1 - 2)).
Proof.
  destruct (build_mesa_ok der d1 d2 d3 prof x1 x2 x3 st Rs G rad N2 ad I sym brunt Hder)
    as (o & g & drho_ & drho2_ & drho3_ & g2 & g3 & dP_ & dP2_ & dP3_ & E & X & S & M & B & A & NP & NR & D & Q & W & _).
  exists o. split; [exact E|]. split; [exact X|]. split; [exact S|]. split; [|split].
  - intros i d xp k v H1 H2 H3.
    assert (HI : exists j, In (j, d, xp) [(1%nat, d1, x1); (2%nat, d2, x2); (3%nat, d3, x3)] /\ of_mode k i = mode_attr k j).
    { cbn in H1. destruct H1 as [E1|[E1|[E1|[]]]]; injection E1 as <- <- <-; [exists 1%nat|exists 2%nat|exists 3%nat]; (split; [cbn; tauto|reflexivity]). }
    destruct HI as (j & Hj & ->). pose proof (mode_ok_of j d xp Hj) as MO.
    destruct (mo_funs _ _ MO k v (dget_in _ _ _ H2) H3) as (s & Hs & Ls).
    destruct (resample_ok x1 xp v s Hs Ls (mo_pos _ _ MO) (mo_incr _ _ MO)) as (w & Hw & HRw). exists w. split; [exact HRw|].
    pose proof (M j d xp k v Hj H2 H3) as HM. split; [|split].
    + intros -> HIn. rewrite (resample_own x1 v s Hs Ls (mo_pos _ _ MO) HIn) in Hw. congruence.
    + intros Hk. apply has_iff in Hk. rewrite Hk in HM. eexists. split; [exact HM|]. apply gmid_samples, Hw.
    + intros Hk. apply has_false in Hk. rewrite Hk in HM. eexists. split; [exact HM|exact Hw].
  - intros k a [E1|[E1|[]]]; injection E1 as <- <-.
    + exists (on_grid false x1 rad N2). split; [apply on_grid_ok, (prof_len "brunt_N2"), (mi_N2 _ _ _ _ _ _ _ _ _ _ _ _ _ I)|exact B].
    + exists (on_grid false x1 rad ad). split; [apply on_grid_ok, (prof_len "gamma_1_adDer"), (mi_ad _ _ _ _ _ _ _ _ _ _ _ _ _ I)|exact A].
  - intros k Hk. unfold derived_names in Hk. cbn [In] in Hk.
    repeat (destruct Hk as [<-|Hk]; [first [ eexists; split; [eapply D; pick|apply tab_length] | eexists; split; [eapply Q; pick|apply tab_length] | eexists; split; [eapply W; pick|apply tab_length] ]|]). destruct Hk.
Qed.
(** the derived structure: with symbolic derivatives the equations of stellar structure hold at every point *)
Theorem C117_mesa_structure o : build_mesa der true true d1 d2 d3 prof = Ok o ->
  (forall i, (i < List.length x1 - 2)%nat ->
     structure_equations G (val o "_x" i * Rs)%R (val o "_M_r" i) (val o "_rho" i) (val o "_P" i) (val o "_Gamma_1" i) (val o "_brunt_N2_profile" i)
       (val o "_dgravpot" i) (val o "_drho" i) (val o "_drho2" i) (val o "_dgravpot2" i) (val o "_dgravpot3" i) (val o "_dP" i) (val o "_dP2" i) (val o "_dP3" i)) /\
  (forall k k', In (k, k') [("_drho", "_drho2"); ("_drho2", "_drho3")] -> exists a d0 b, o k = Some (VArr a) /\ o k' = Some (VArr b) /\
     der (map (fun x => x * Rs)%R (kept x1)) a = Ok [d0; Some b]).
Proof.
  intros HO. destruct (build_mesa_ok der d1 d2 d3 prof x1 x2 x3 st Rs G rad N2 ad I true true Hder)
    as (o' & g & drho_ & drho2_ & drho3_ & g2 & g3 & dP_ & dP2_ & dP3_ & E & X & S & M & B & A & NP & NR & D & Q & W & Fg & F1 & F2 & F3 & F4 & F5 & F6).
  rewrite HO in E. injection E as <-.
  assert (L : forall k, In k structure_names -> List.length (st k) = List.length x1) by (intros k Hk; apply (mi_st _ _ _ _ _ _ _ _ _ _ _ _ _ I k Hk)).
  split.
  - intros i Hi. unfold val. rewrite X, B. rewrite (S "M_r" ltac:(cbn; tauto) : o "_M_r" = _), (S "rho" ltac:(cbn; tauto) : o "_rho" = _),
      (S "P" ltac:(cbn; tauto) : o "_P" = _), (S "Gamma_1" ltac:(cbn; tauto) : o "_Gamma_1" = _).
    rewrite (D "_dgravpot" g), (D "_drho" drho_), (D "_drho2" drho2_), (D "_dgravpot2" g2), (D "_dgravpot3" g3), (D "_dP" dP_), (D "_dP2" dP2_), (D "_dP3" dP3_) by pick.
    rewrite !tab_nth by exact Hi.
    assert (LN : List.length (on_grid false x1 rad N2) = List.length x1) by (apply on_grid_ok, (prof_len "brunt_N2"), (mi_N2 _ _ _ _ _ _ _ _ _ _ _ _ _ I)).
    rewrite !kept_nth by (rewrite ?L, ?LN by (cbn; tauto); exact Hi).
    destruct (F5 eq_refl i) as (Z1 & Z2 & Z3 & Z4 & Z5). rewrite Z5, Z4, Z3, Z2, Z1, (F4 eq_refl eq_refl i Hi).
    unfold structure_equations. split; [rewrite (Fg i); reflexivity|]. unfold dgravpot2, dgravpot3, dP, dP2, dP3, drho, Rdiv. repeat split; ring.
  - assert (ER : map (fun x => x * Rs)%R (kept x1) = tab (List.length x1 - 2) (fun i => nth (Datatypes.S i) x1 0 * Rs)%R).
    { rewrite (kept_tab x1 0%R _ eq_refl), map_tab. reflexivity. }
    assert (DI : forall x y z, der1 der x y = Ok z -> exists d0, der x y = Ok [d0; Some z]).
    { intros x y z H. unfold der1, compute_der in H. destruct (der x y) as [[|a [|[b|] [|]]]| |]; cbn in H; try discriminate. injection H as ->. exists a. reflexivity. }
    intros k k' [E1|[E1|[]]]; injection E1 as <- <-; rewrite ER.
    + destruct (DI _ _ _ F1) as (d0 & HD). exists (tab (List.length x1 - 2) drho_), d0, (tab (List.length x1 - 2) drho2_). split; [apply D; pick|]. split; [apply D; pick|exact HD].
    + destruct (DI _ _ _ F2) as (d0 & HD). exists (tab (List.length x1 - 2) drho2_), d0, (tab (List.length x1 - 2) drho3_). split; [apply D; pick|]. split; [apply D; pick|exact HD].
Qed.
(** ** C121: normalisation *)
Theorem C121_normalisation sym brunt o : build_mesa der sym brunt d1 d2 d3 prof = Ok o ->
  exists nP nr, greatest (kept (st "P")) nP /\ greatest (kept (st "rho")) nr /\
   (forall k k', In (k, k') (pressure_like "_P") -> forall i, (i < List.length x1 - 2)%nat -> val o k i = (val o k' i / nP)%R) /\
   (forall k k', In (k, k') (density_like "_rho") -> forall i, (i < List.length x1 - 2)%nat -> val o k i = (val o k' i / nr)%R) /\
   (forall k q, In (k, q) [("_P_normed", "P"); ("_rho_normed", "rho")] -> (forall v, In v (st q) -> 0 < v)%R ->
      (forall i, (i < List.length x1 - 2)%nat -> 0 < val o k i <= 1)%R /\ exists i, (i < List.length x1 - 2)%nat /\ val o k i = 1%R).
Proof.
  intros HO. destruct (build_mesa_ok der d1 d2 d3 prof x1 x2 x3 st Rs G rad N2 ad I sym brunt Hder)
    as (o' & g & drho_ & drho2_ & drho3_ & g2 & g3 & dP_ & dP2_ & dP3_ & E & X & S & M & B & A & NP & NR & D & Q & W & _).
  rewrite HO in E. injection E as <-.
  pose proof (mi_first _ _ _ _ _ _ _ _ _ _ _ _ _ I) as HF.
  assert (L : forall k, In k structure_names -> List.length (st k) = List.length x1) by (intros k Hk; apply (mi_st _ _ _ _ _ _ _ _ _ _ _ _ _ I k Hk)).
  assert (GR : forall k, In k structure_names -> greatest (kept (st k)) (amax (kept (st k)))).
  { intros k Hk. apply amax_spec. pose proof (kept_length (st k)) as HL. rewrite (L k Hk) in HL. intros Z. rewrite Z in HL. cbn in HL. lia. }
  exists (amax (kept (st "P"))), (amax (kept (st "rho"))). split; [apply GR; cbn; tauto|]. split; [apply GR; cbn; tauto|].
  assert (SV : forall k i, In k structure_names -> (i < List.length x1 - 2)%nat -> val o ("_" ++ k) i = nth (Datatypes.S i) (st k) 0%R).
  { intros k i Hk Hi. unfold val. rewrite (S k Hk). apply kept_nth. rewrite L by exact Hk. exact Hi. }
  assert (DV : forall k f i, In (k, f) [("_dgravpot", g); ("_drho", drho_); ("_drho2", drho2_); ("_drho3", drho3_); ("_dgravpot2", g2); ("_dgravpot3", g3);
      ("_dP", dP_); ("_dP2", dP2_); ("_dP3", dP3_)] -> (i < List.length x1 - 2)%nat -> val o k i = f i).
  { intros k f i Hk Hi. unfold val. rewrite (D k f Hk). apply tab_nth, Hi. }
  assert (PV : forall k k', In (k, k') (pressure_like "_P") -> forall i, (i < List.length x1 - 2)%nat -> val o k i = (val o k' i / amax (kept (st "P")))%R).
  { intros k k' Hk i Hi. unfold pressure_like in Hk. cbn [In] in Hk. destruct Hk as [Hk|[Hk|[Hk|[Hk|[]]]]]; injection Hk as <- <-; unfold val at 1.
    - rewrite (Q "_P_normed" _ ltac:(pick)), tab_nth by exact Hi. rewrite (SV "P" i ltac:(cbn; tauto) Hi : val o "_P" i = _). reflexivity.
    - rewrite (Q "_dP_normed" _ ltac:(pick)), tab_nth by exact Hi. rewrite (DV "_dP" dP_ i ltac:(pick) Hi). reflexivity.
    - rewrite (Q "_dP2_normed" _ ltac:(pick)), tab_nth by exact Hi. rewrite (DV "_dP2" dP2_ i ltac:(pick) Hi). reflexivity.
    - rewrite (Q "_dP3_normed" _ ltac:(pick)), tab_nth by exact Hi. rewrite (DV "_dP3" dP3_ i ltac:(pick) Hi). reflexivity. }
  assert (RV : forall k k', In (k, k') (density_like "_rho") -> forall i, (i < List.length x1 - 2)%nat -> val o k i = (val o k' i / amax (kept (st "rho")))%R).
  { intros k k' Hk i Hi. unfold density_like in Hk. cbn [In] in Hk. destruct Hk as [Hk|[Hk|[Hk|[Hk|[]]]]]; injection Hk as <- <-; unfold val at 1.
    - rewrite (W "_rho_normed" _ ltac:(pick)), tab_nth by exact Hi. rewrite (SV "rho" i ltac:(cbn; tauto) Hi : val o "_rho" i = _). reflexivity.
    - rewrite (W "_drho_normed" _ ltac:(pick)), tab_nth by exact Hi. rewrite (DV "_drho" drho_ i ltac:(pick) Hi). reflexivity.
    - rewrite (W "_drho2_normed" _ ltac:(pick)), tab_nth by exact Hi. rewrite (DV "_drho2" drho2_ i ltac:(pick) Hi). reflexivity.
    - rewrite (W "_drho3_normed" _ ltac:(pick)), tab_nth by exact Hi. rewrite (DV "_drho3" drho3_ i ltac:(pick) Hi). reflexivity. }
  split; [exact PV|]. split; [exact RV|].
  assert (BND : forall k q, In q structure_names -> (forall i, (i < List.length x1 - 2)%nat -> val o k i = (val o ("_" ++ q) i / amax (kept (st q)))%R) -> (forall v, In v (st q) -> 0 < v)%R ->
    (forall i, (i < List.length x1 - 2)%nat -> 0 < val o k i <= 1)%R /\ exists i, (i < List.length x1 - 2)%nat /\ val o k i = 1%R).
  { intros k q Hq HV HP. destruct (GR q Hq) as [G1 G2]. set (mx := amax (kept (st q))) in *.
    assert (IK : forall v, In v (kept (st q)) -> exists i, (i < List.length x1 - 2)%nat /\ nth (Datatypes.S i) (st q) 0%R = v).
    { intros v Hv. apply (In_nth _ _ 0%R) in Hv. destruct Hv as (i & Hi & Ei). rewrite kept_length, (L q Hq) in Hi. exists i. split; [exact Hi|].
      rewrite kept_nth in Ei by (rewrite (L q Hq); exact Hi). exact Ei. }
    assert (PN : forall i, (i < List.length x1 - 2)%nat -> (0 < nth (Datatypes.S i) (st q) 0 <= mx)%R).
    { intros i Hi. split; [apply HP, nth_In; rewrite (L q Hq); lia|]. apply G2. rewrite <- kept_nth by (rewrite (L q Hq); exact Hi). apply nth_In. rewrite kept_length, (L q Hq). exact Hi. }
    split.
    - intros i Hi. rewrite HV, SV by assumption. destruct (PN i Hi). split; [apply Rdiv_lt_0_compat; lra|]. apply Rmult_le_reg_r with mx; [lra|]. unfold Rdiv. rewrite Rmult_assoc, Rinv_l by lra. lra.
    - destruct (IK mx G1) as (i & Hi & Ei). exists i. split; [exact Hi|]. rewrite HV, SV by assumption. rewrite Ei. destruct (PN i Hi). field. lra. }
  intros k q [Hk|[Hk|[]]] HP; injection Hk as <- <-.
  - apply (BND "_P_normed" "P"); [cbn; tauto|apply PV; pick|exact HP].
  - apply (BND "_rho_normed" "rho"); [cbn; tauto|apply RV; pick|exact HP].
Qed.
End Mesa.

(** ** C118: the first mode must have the most points *)
Theorem C118_first_mode_longest der sym brunt d1 d2 d3 prof x1 x2 x3 st Rs G rad N2 :
  mode_ok d1 x1 -> mode_ok d2 x2 -> mode_ok d3 x3 ->
  (forall k, In k ["M_r"; "rho"; "P"; "Gamma_1"] -> dget k d1 = Some (VArr (st k)) /\ List.length (st k) = List.length x1) ->
  dget "R_star" d1 = Some (VNum Rs) -> dget "G" d1 = Some (VNum G) ->
  profile_ok prof "radius" rad -> dget "brunt_N2" prof = Some (VArr N2) ->
  (List.length x1 < List.length x2 \/ List.length x1 < List.length x3)%nat -> List.length x1 <> 3%nat ->
  build_mesa der sym brunt d1 d2 d3 prof = Exc ValueError.
Proof. intros. eapply first_not_longest; eassumption. Qed.

(** ** C119: profiles of polytropes cannot be resampled *)
Theorem C119_polytrope_points der analytic sym brunt d1 d2 d3 prof x1 x2 x3 xs rad P0 :
  mode_ok d1 x1 -> mode_ok d2 x2 -> mode_ok d3 x3 -> longest_grid x1 x2 x3 xs ->
  NoDup (map fst prof) -> dget "r" prof = Some (VArr rad) -> (0 < List.length rad)%nat -> List.length rad <> List.length xs ->
  (forall k v, In (k, v) prof -> scalar v = false -> exists a, v = VArr a /\ List.length a = List.length rad) ->
  (forall k v, In (k, v) prof -> scalar v = true -> forall q, "_" ++ k <> of_profile q) ->
  dget "p0" prof = Some (VNum P0) ->
  build_poly der analytic sym brunt d1 d2 d3 prof = Exc AttributeError.
Proof. intros. eapply poly_other_length; eassumption. Qed.

(** ** C120: cutting *)
Theorem C120_cut_exactly o s arg poly names : cut_names arg poly = Ok names -> NoDup names ->
  (forall c, In c names -> exists v, o c = Some v /\ samples v <> None) ->
  exists o', cutter o arg s poly = Ok o' /\
   (forall c, ~ In c names -> o' c = o c) /\
   (forall c l, In c names -> array_at o c l -> array_at o' c (match s with DropFirst => tl l | DropLast => removelast l end)).
Proof.
  intros E N H. unfold cutter. rewrite E. cbn [bind]. destruct (cut_loop s names o (gsl s) N) as (o' & E' & A).
  { intros c Hc. destruct (H c Hc) as (v & Q1 & Q2). exists v. split; [exact Q1|apply gsl_ok, Q2]. }
  exists o'. split; [exact E'|]. split.
  - intros c Hc. rewrite A. apply has_false in Hc. rewrite Hc. reflexivity.
  - intros c l Hc (v & Hv & Hl). apply has_iff in Hc. exists (gsl s v). split; [rewrite A, Hc, Hv; reflexivity|].
    unfold gsl. destruct v as [| | | |a|a|a|]; cbn in Hl |- *; try discriminate; injection Hl as <-; destruct s; cbn [lslice]; try reflexivity; f_equal.
    + destruct a; reflexivity.
    + clear. induction a as [|b [|c a] IH]; [reflexivity|reflexivity|]. change (removelast (b :: c :: a)) with (b :: removelast (c :: a)). cbn [map]. rewrite IH. reflexivity.
Qed.
Theorem C120_unknown_group o s name (poly : bool) : dget (upper name ++ (if poly then "_POLY" else "")) cut_members = None ->
  cutter o (CutName name) s poly = Exc SystemExit.
Proof. intros H. unfold cutter, cut_names. rewrite H. reflexivity. Qed.
Theorem C120_missing_array o s arg poly pre c post : cut_names arg poly = Ok (pre ++ c :: post)%list -> ~ In c pre ->
  (forall k, In k pre -> exists v, o k = Some v /\ samples v <> None) ->
  (o c = None -> cutter o arg s poly = Exc AttributeError) /\ (o c = Some VNone -> cutter o arg s poly = Exc TypeError).
Proof.
  intros E Hn Hp. unfold cutter. rewrite E. cbn [bind]. split; intros Hc.
  - apply cut_missing. exists pre, c, post. auto.
  - clear E. revert o Hp Hc. induction pre as [|k pre IH]; intros o Hp Hc; cbn [app foldM].
    + unfold oget at 1. rewrite Hc. reflexivity.
    + destruct (Hp k (in_eq _ _)) as (v & Ev & Hv). unfold oget at 1. rewrite Ev. cbn [bind]. destruct (gsl_ok s v Hv) as [-> Hv2]. cbn [bind]. apply IH.
      * intros Z. apply Hn. right. exact Z.
      * intros k1 I1. destruct (string_dec k1 k) as [->|Nk]; [rewrite oset_same; eauto|]. rewrite oset_other by exact Nk. apply Hp. right. exact I1.
      * rewrite oset_other; [exact Hc|]. intros ->. apply Hn. left. reflexivity.
Qed.
(** a list of names together with polytrope=True looks up other names *)
Theorem C120_list_polytrope o s c l : o (c ++ "_POLY") = None -> cutter o (CutList (c :: l)) s true = Exc AttributeError.
Proof. intros H. unfold cutter. cbn [cut_names bind map foldM]. unfold oget. rewrite H. reflexivity. Qed.
Example C120_groups :
  (forall o s, cutter o (CutName "structure_coefficient_cuts") s true = Exc SystemExit) /\
  (forall o s, cutter o (CutName "profile_load_cuts_analytic") s false = Exc SystemExit) /\
  cut_names (CutName "pre_Profile_load_cuts") false = Ok ["_x"; "_M_r"; "_rho"; "_P"; "_Gamma_1"; "_brunt_N2_profile"].
Proof. repeat split. Qed.

(** ** C122: derivatives of arrays *)
Theorem C122_complex_arrays der use_complex x a d0 d : derivative_ok der (List.length x) -> List.length a = List.length x ->
  der x (map fst a) = Ok [d0; d] ->
  compute_der der use_complex true x (VCpx a) = Exc UnboundLocalError /\
  numerical_radial_gradient der use_complex x (VCpx a) = Exc UnboundLocalError /\
  (exists r, compute_der der false false x (VCpx a) = Ok [option_map VArr d0; r] /\ r = option_map VArr d).
Proof.
  intros Hd La E.
  assert (C : forall b, compute_der der b true x (VCpx a) = Exc UnboundLocalError).
  { intros b. unfold compute_der. rewrite E. cbn [bind]. destruct b; [|reflexivity].
    destruct (Hd x (map snd a)) as (e0 & e & E2 & _); [reflexivity|rewrite map_length; exact La|]. rewrite E2. reflexivity. }
  split; [apply C|]. split; [unfold numerical_radial_gradient; rewrite C; reflexivity|].
  eexists. split; [unfold compute_der; rewrite E; reflexivity|reflexivity].
Qed.
Theorem C122_complex_parts der x a d0 d e0 e : der x (map fst a) = Ok [d0; Some d] -> der x (map snd a) = Ok [e0; Some e] ->
  exists r0, compute_der der true false x (VCpx a) = Ok [r0; Some (VCpx (combine d e))].
Proof. intros E1 E2. unfold compute_der. rewrite E1, E2. eexists. reflexivity. Qed.
Theorem C122_real_arrays der use_complex print x a d0 d : der x a = Ok [d0; Some d] ->
  compute_der der use_complex print x (VArr a) = Ok [option_map VArr d0; Some (VArr d)] /\
  numerical_radial_gradient der use_complex x (VArr a) = Ok (VArr d).
Proof. intros E. unfold numerical_radial_gradient, compute_der. rewrite E. split; reflexivity. Qed.
Theorem C122_other_values der use_complex print x v : samples v = None -> compute_der der use_complex print x v = Exc SystemExit.
Proof. destruct v; intros H; try discriminate; reflexivity. Qed.

(** ** C123: polytropes *)
Section Polytrope.
Variable der : list R -> list R -> res (list (option (list R))).
Variables (d1 d2 d3 prof : gdict) (x1 x2 x3 xs : list R) (col : string -> list R) (G1 : list R) (P0 rho0 Gp G Rs : R).
Hypothesis I : poly_input d1 d2 d3 prof x1 x2 x3 xs col G1 P0 rho0 Gp G Rs.
Definition poly_aligned (o : obj) : Prop :=
  o "_x" = Some (VArr (kept xs)) /\
  (forall k, In k ["r"; "mr"; "rho"; "p"; "brunt_n2"] -> o (of_profile k) = Some (VArr (kept (col k)))) /\
  (forall name k, In (name, k) [("_c_1", "c1"); ("_V_2", "v2"); ("_As", "as"); ("_U", "u")] -> o name = Some (VArr (kept (col k)))) /\
  (forall i d xp k v, In (i, d, xp) [("1", d1, x1); ("2", d2, x2); ("3", d3, x3)] -> dget k d = Some v -> In k mode_functions ->
     exists w, resampled xs xp v w /\ (xp = xs -> increasing xs -> samples v = Some w) /\
       (In k poly_functions -> array_at o (of_mode k i) (kept w)) /\ (~ In k poly_functions -> array_at o (of_mode k i) w)).
Lemma poly_modes (o : obj) : (forall i d xp k v, In (i, d, xp) [(1%nat, d1, x1); (2%nat, d2, x2); (3%nat, d3, x3)] -> dget k d = Some v -> In k mode_functions ->
      o (mode_attr k i) = Some (if has k poly_functions then gmid (resample xs xp v) else resample xs xp v)) ->
  (forall i d xp k v, In (i, d, xp) [("1", d1, x1); ("2", d2, x2); ("3", d3, x3)] -> dget k d = Some v -> In k mode_functions ->
     exists w, resampled xs xp v w /\ (xp = xs -> increasing xs -> samples v = Some w) /\
       (In k poly_functions -> array_at o (of_mode k i) (kept w)) /\ (~ In k poly_functions -> array_at o (of_mode k i) w)).
Proof.
  intros M i d xp k v H1 H2 H3.
  assert (HI : exists j, In (j, d, xp) [(1%nat, d1, x1); (2%nat, d2, x2); (3%nat, d3, x3)] /\ of_mode k i = mode_attr k j).
  { cbn in H1. destruct H1 as [E1|[E1|[E1|[]]]]; injection E1 as <- <- <-; [exists 1%nat|exists 2%nat|exists 3%nat]; (split; [cbn; tauto|reflexivity]). }
  destruct HI as (j & Hj & ->).
  destruct (in_mode_ok _ _ _ _ _ _ _ _ _ _ _ _ _ _ _ I j d xp Hj) as (_ & MO & _).
  destruct (mo_funs _ _ MO k v (dget_in _ _ _ H2) H3) as (s & Hs & Ls).
  destruct (resample_ok xs xp v s Hs Ls (mo_pos _ _ MO) (mo_incr _ _ MO)) as (w & Hw & HRw). exists w. split; [exact HRw|].
  pose proof (M j d xp k v Hj H2 H3) as HM. split; [|split].
  - intros -> HIn. rewrite (resample_own xs v s Hs Ls (mo_pos _ _ MO) HIn) in Hw. congruence.
  - intros Hk. apply has_iff in Hk. rewrite Hk in HM. eexists. split; [exact HM|]. apply gmid_samples, Hw.
  - intros Hk. apply has_false in Hk. rewrite Hk in HM. eexists. split; [exact HM|exact Hw].
Qed.
Notation n := (List.length xs - 2)%nat.
(** derivatives computed as for MESA models *)
Theorem C123_polytrope_numeric sym brunt : derivative_ok der n -> List.length G1 = List.length xs -> sym = false \/ brunt = true ->
  exists o, build_poly der false sym brunt d1 d2 d3 prof = Ok o /\ poly_aligned o /\ o "_Gamma_1" = Some (VArr (kept G1)) /\
   (forall k, In k derived_names -> real_array o k n) /\
   (forall k k', In (k, k') (pressure_like (of_profile "p")) -> forall i, (i < n)%nat -> val o k i = (val o k' i / P0)%R) /\
   (forall k k', In (k, k') (density_like (of_profile "rho")) -> forall i, (i < n)%nat -> val o k i = (val o k' i / rho0)%R) /\
   (sym = true -> Gp = G -> forall i, (i < n)%nat ->
     structure_equations G (val o "_r_profile" i) (val o "_mr_profile" i) (val o "_rho_profile" i) (val o "_p_profile" i) (val o "_Gamma_1" i) (val o "_brunt_n2_profile" i)
       (val o "_dgravpot" i) (val o "_drho" i) (val o "_drho2" i) (val o "_dgravpot2" i) (val o "_dgravpot3" i) (val o "_dP" i) (val o "_dP2" i) (val o "_dP3" i)).
Proof.
  intros Hder HG1 Hflag.
  destruct (build_poly_ok _ _ _ _ _ _ _ _ _ _ _ _ _ _ _ I der Hder sym brunt HG1 Hflag)
    as (o & g & drho_ & drho2_ & drho3_ & g2 & g3 & dP_ & dP2_ & dP3_ & E & X & GG & PC & CC & M & NP & NR & D & Q & W & Fg & F1 & F2 & F3 & F4 & F5 & F6).
  assert (LC : forall k, In k poly_columns -> List.length (col k) = List.length xs) by (intros k Hk; apply (pi_cols _ _ _ _ _ _ _ _ _ _ _ _ _ _ _ I k Hk)).
  assert (SV : forall k i, In k ["r"; "mr"; "rho"; "p"; "brunt_n2"] -> (i < n)%nat -> val o (of_profile k) i = nth (S i) (col k) 0%R).
  { intros k i Hk Hi. unfold val. rewrite (PC k Hk : o (of_profile k) = _). apply kept_nth. rewrite LC by (cbn in Hk |- *; tauto). exact Hi. }
  assert (DV : forall k f i, In (k, f) [("_dgravpot", g); ("_drho", drho_); ("_drho2", drho2_); ("_drho3", drho3_); ("_dgravpot2", g2); ("_dgravpot3", g3);
      ("_dP", dP_); ("_dP2", dP2_); ("_dP3", dP3_)] -> (i < n)%nat -> val o k i = f i).
  { intros k f i Hk Hi. unfold val. rewrite (D k f Hk). apply tab_nth, Hi. }
  exists o. split; [exact E|]. split.
  { split; [exact X|]. split; [exact PC|]. split; [exact CC|]. apply poly_modes, M. }
  split; [exact GG|]. split; [|split; [|split]].
  - intros k Hk. unfold derived_names in Hk. cbn [In] in Hk.
    repeat (destruct Hk as [<-|Hk]; [first [ eexists; split; [eapply D; pick|apply tab_length] | eexists; split; [eapply Q; pick|apply tab_length] | eexists; split; [eapply W; pick|apply tab_length] ]|]). destruct Hk.
  - intros k k' Hk i Hi. unfold pressure_like in Hk. cbn [In] in Hk. destruct Hk as [Hk|[Hk|[Hk|[Hk|[]]]]]; injection Hk as <- <-; unfold val at 1.
    + rewrite (Q "_P_normed" _ ltac:(pick)), tab_nth by exact Hi. rewrite (SV "p" i ltac:(cbn; tauto) Hi). reflexivity.
    + rewrite (Q "_dP_normed" _ ltac:(pick)), tab_nth by exact Hi. rewrite (DV "_dP" dP_ i ltac:(pick) Hi). reflexivity.
    + rewrite (Q "_dP2_normed" _ ltac:(pick)), tab_nth by exact Hi. rewrite (DV "_dP2" dP2_ i ltac:(pick) Hi). reflexivity.
    + rewrite (Q "_dP3_normed" _ ltac:(pick)), tab_nth by exact Hi. rewrite (DV "_dP3" dP3_ i ltac:(pick) Hi). reflexivity.
  - intros k k' Hk i Hi. unfold density_like in Hk. cbn [In] in Hk. destruct Hk as [Hk|[Hk|[Hk|[Hk|[]]]]]; injection Hk as <- <-; unfold val at 1.
    + rewrite (W "_rho_normed" _ ltac:(pick)), tab_nth by exact Hi. rewrite (SV "rho" i ltac:(cbn; tauto) Hi). reflexivity.
    + rewrite (W "_drho_normed" _ ltac:(pick)), tab_nth by exact Hi. rewrite (DV "_drho" drho_ i ltac:(pick) Hi). reflexivity.
    + rewrite (W "_drho2_normed" _ ltac:(pick)), tab_nth by exact Hi. rewrite (DV "_drho2" drho2_ i ltac:(pick) Hi). reflexivity.
    + rewrite (W "_drho3_normed" _ ltac:(pick)), tab_nth by exact Hi. rewrite (DV "_drho3" drho3_ i ltac:(pick) Hi). reflexivity.
  - intros HS HGG i Hi.
    rewrite (SV "r" i ltac:(cbn; tauto) Hi : val o "_r_profile" i = _), (SV "mr" i ltac:(cbn; tauto) Hi : val o "_mr_profile" i = _),
      (SV "rho" i ltac:(cbn; tauto) Hi : val o "_rho_profile" i = _), (SV "p" i ltac:(cbn; tauto) Hi : val o "_p_profile" i = _),
      (SV "brunt_n2" i ltac:(cbn; tauto) Hi : val o "_brunt_n2_profile" i = _).
    assert (GV : val o "_Gamma_1" i = nth (S i) G1 0%R) by (unfold val; rewrite GG; apply kept_nth; rewrite HG1; exact Hi). rewrite GV.
    rewrite (DV "_dgravpot" g), (DV "_drho" drho_), (DV "_drho2" drho2_), (DV "_dgravpot2" g2), (DV "_dgravpot3" g3), (DV "_dP" dP_), (DV "_dP2" dP2_), (DV "_dP3" dP3_) by (exact Hi || pick).
    destruct (F5 HS i) as (Z1 & Z2 & Z3 & Z4 & Z5). rewrite Z5, Z4, Z3, Z2, Z1, (F4 HS i), HGG.
    unfold structure_equations. split; [rewrite (Fg i), ?HGG; reflexivity|]. unfold dgravpot2, dgravpot3, dP, dP2, dP3, drho, Rdiv. repeat split; ring.
Qed.
(** analytical derivatives: they are the columns of the structure file *)
Theorem C123_polytrope_analytic sym brunt : (forall name k, In (name, k) poly_derivatives -> dget k prof = Some (VArr (col k))) ->
  exists o, build_poly der true sym brunt d1 d2 d3 prof = Ok o /\ poly_aligned o /\ o "_Gamma_1" = Some (VArr (kept G1)) /\
   (forall name k, In (name, k) poly_derivatives -> o name = Some (VArr (kept (col k)))) /\
   (forall name k, In (name, k) [("_P_normed", "p"); ("_dP_normed", "dp"); ("_dP2_normed", "dp2"); ("_dP3_normed", "dp3")] ->
      o name = Some (VArr (map (fun z => z / P0)%R (kept (col k))))) /\
   (forall name k, In (name, k) [("_rho_normed", "rho"); ("_drho_normed", "drho"); ("_drho2_normed", "drho2"); ("_drho3_normed", "drho3")] ->
      o name = Some (VArr (map (fun z => z / rho0)%R (kept (col k))))).
Proof.
  intros HD. destruct (build_analytic_ok _ _ _ _ _ _ _ _ _ _ _ _ _ _ _ I der sym brunt HD) as (o & E & X & GG & PC & CC & M & NP & NR & D & Q & W).
  exists o. split; [exact E|]. split; [|split; [exact GG|split; [exact D|split; [exact Q|exact W]]]].
  split; [exact X|]. split; [exact PC|]. split; [exact CC|]. apply poly_modes, M.
Qed.
Theorem C123_missing_derivative sym brunt :
  (forall name k, In (name, k) poly_derivatives -> dget k prof = None \/ exists a, dget k prof = Some (VArr a)) ->
  (exists name k, In (name, k) poly_derivatives /\ dget k prof = None) ->
  build_poly der true sym brunt d1 d2 d3 prof = Exc TypeError.
Proof. intros. eapply analytic_missing; eassumption. Qed.
Theorem C123_no_brunt : build_poly der false true false d1 d2 d3 prof = Exc AttributeError.
Proof. eapply poly_no_brunt; eassumption. Qed.
End Polytrope.

(** ** Concrete inputs *)
Local Open Scope R_scope.
Ltac ndec := intros i j [Hij Hj]; cbn [List.length] in Hj; do 5 (destruct i as [|i]; [do 5 (destruct j as [|j]; [try lia; cbn [nth]; lra|]); lia|]); lia.
Ltac dictcols H := cbn [In] in H; repeat (destruct H as [H|H]; [injection H as <- <-|]); [..|destruct H].
(** a mode whose radial functions are compound arrays *)
Definition ex_mode (x : list R) : gdict :=
  [("x", VArr x); ("n", VInt (Z.of_nat (List.length x)));
   ("y_1", VComp (map (fun t => (t, 1)) x)); ("y_2", VComp (map (fun t => (1, t)) x)); ("xi_r", VComp (map (fun t => (2 * t, 0)) x));
   ("xi_h", VCpx (map (fun t => (0, t)) x)); ("eul_phi", VArr x); ("deul_phi", VArr x); ("eul_P", VArr x); ("omega", VNum 3); ("G", VNum 2); ("R_star", VNum 5)].
Definition ex_st (x : list R) : string -> list R := fun _ => map (fun t => 10 - t) x.
Definition ex_first (x : list R) : gdict := (ex_mode x ++ map (fun k => (k, VArr (ex_st x k))) structure_names)%list.
Lemma nondecr_4 a b c d : a <= b -> b <= c -> c <= d -> nondecreasing [a; b; c; d].
Proof. intros ? ? ?. ndec. Qed.
Lemma ex_mode_ok x : nondecreasing x -> (0 < List.length x)%nat -> mode_ok (ex_mode x) x.
Proof.
  intros HN H0. split.
  - apply nodupb_ok. reflexivity.
  - reflexivity.
  - reflexivity.
  - exact H0.
  - exact HN.
  - intros k v HI Hk. unfold ex_mode in HI. dictcols HI; try (eexists; split; [reflexivity|rewrite ?map_length; reflexivity]);
      exfalso; apply has_iff in Hk; discriminate.
Qed.
Lemma ex_first_ok x : nondecreasing x -> (0 < List.length x)%nat -> mode_ok (ex_first x) x.
Proof.
  intros HN H0. split.
  - apply nodupb_ok. reflexivity.
  - reflexivity.
  - reflexivity.
  - exact H0.
  - exact HN.
  - intros k v HI Hk. unfold ex_first in HI. apply in_app_iff in HI. destruct HI as [HI|HI].
    + apply (mo_funs _ _ (ex_mode_ok x HN H0) k v HI Hk).
    + exfalso. cbn [map structure_names] in HI. dictcols HI; apply has_iff in Hk; discriminate.
Qed.
Definition ex_prof : gdict := [("radius", VArr [6; 3; 0]); ("brunt_N2", VArr [1; 2; 3]); ("gamma_1_adDer", VArr [4; 5; 6]); ("star_age", VNum 7)].
Lemma ex_prof_ok : profile_ok ex_prof "radius" [6; 3; 0].
Proof.
  split.
  - apply nodupb_ok. reflexivity.
  - reflexivity.
  - cbn. lia.
  - intros k v HI Hs. unfold ex_prof in HI. dictcols HI; try discriminate; eexists; split; reflexivity.
  - intros k v HI Hs. unfold ex_prof in HI. dictcols HI; try discriminate. split; [|split].
    + intros q i Hi. cbn [In] in Hi. destruct Hi as [<-|[<-|[<-|[]]]].
      * change (of_mode q "1") with (mode_attr q 1). apply not_mode. reflexivity.
      * change (of_mode q "2") with (mode_attr q 2). apply not_mode. reflexivity.
      * change (of_mode q "3") with (mode_attr q 3). apply not_mode. reflexivity.
    + apply not_prof. reflexivity.
    + intros Z. apply has_iff in Z. discriminate.
Qed.
Example C117_case : mesa_input (ex_first [0; 1; 2; 4]) (ex_mode [0; 2; 4]) (ex_mode [0; 1; 1; 4]) ex_prof [0; 1; 2; 4] [0; 2; 4] [0; 1; 1; 4]
  (ex_st [0; 1; 2; 4]) 5 2 [6; 3; 0] [1; 2; 3] [4; 5; 6].
Proof.
  split.
  - apply ex_first_ok; [apply nondecr_4; lra|cbn; lia].
  - apply ex_mode_ok; [ndec|cbn; lia].
  - apply ex_mode_ok; [apply nondecr_4; lra|cbn; lia].
  - cbn. lia.
  - intros d k Hd Hk. cbn [In] in Hd, Hk. destruct Hd as [<-|[<-|[<-|[]]]]; repeat (destruct Hk as [<-|Hk]; [eexists; reflexivity|]); destruct Hk.
  - intros k Hk. cbn [In structure_names] in Hk. repeat (destruct Hk as [<-|Hk]; [split; reflexivity|]). destruct Hk.
  - reflexivity.
  - reflexivity.
  - apply ex_prof_ok.
  - reflexivity.
  - reflexivity.
Qed.
(** numpy.gradient and central stencils are such differentiators *)
Example C117_differentiators gradient n f :
  ((forall x y, List.length x = n -> List.length y = n -> List.length (gradient y x) = n) -> derivative_ok (differentiate gradient GradientM 1 false f) n) /\
  derivative_ok (differentiate gradient (StencilM 2 CENTER) 1 false f) n.
Proof. split; [apply gradient_ok|apply stencil_ok]. Qed.
Example C118_case der sym brunt : build_mesa der sym brunt (ex_first [0; 1; 2; 4]) (ex_mode [0; 1; 2; 3; 4]) (ex_mode [0; 4]) ex_prof = Exc ValueError.
Proof.
  apply (C118_first_mode_longest der sym brunt _ _ _ _ [0; 1; 2; 4] [0; 1; 2; 3; 4] [0; 4] (ex_st [0; 1; 2; 4]) 5 2 [6; 3; 0] [1; 2; 3]).
  - apply ex_first_ok; [apply nondecr_4; lra|cbn; lia].
  - apply ex_mode_ok; [ndec|cbn; lia].
  - apply ex_mode_ok; [ndec|cbn; lia].
  - intros k Hk. cbn [In] in Hk. repeat (destruct Hk as [<-|Hk]; [split; reflexivity|]). destruct Hk.
  - reflexivity.
  - reflexivity.
  - apply ex_prof_ok.
  - reflexivity.
  - left. cbn. lia.
  - cbn. lia.
Qed.
(** a polytrope *)
Definition ex_col (x : list R) : string -> list R := fun _ => map (fun t => 1 + t) x.
Definition ex_poly (x : list R) (ders : list (string * string)) : gdict :=
  ([("p0", VNum 4); ("rho0", VNum 5); ("G", VNum 2); ("n_poly", VNum 3)] ++ map (fun k => (k, VArr (ex_col x k))) poly_columns ++
   map (fun nk => (snd nk, VArr (ex_col x (snd nk)))) ders)%list.
Definition ex_pfirst (x : list R) : gdict := (ex_mode x ++ [("Gamma_1", VArr (map (fun _ => 5 / 3) x))])%list.
Lemma ex_pfirst_ok x : nondecreasing x -> (0 < List.length x)%nat -> mode_ok (ex_pfirst x) x.
Proof.
  intros HN H0. split.
  - apply nodupb_ok. reflexivity.
  - reflexivity.
  - reflexivity.
  - exact H0.
  - exact HN.
  - intros k v HI Hk. unfold ex_pfirst in HI. apply in_app_iff in HI. destruct HI as [HI|HI].
    + apply (mo_funs _ _ (ex_mode_ok x HN H0) k v HI Hk).
    + exfalso. dictcols HI; apply has_iff in Hk; discriminate.
Qed.
Lemma ex_poly_input ders : NoDup (map fst (ex_poly [0; 1; 2; 4] ders)) ->
  poly_input (ex_pfirst [0; 4]) (ex_mode [0; 1; 2; 4]) (ex_mode [0; 2; 4]) (ex_poly [0; 1; 2; 4] ders) [0; 4] [0; 1; 2; 4] [0; 2; 4] [0; 1; 2; 4]
    (ex_col [0; 1; 2; 4]) [5 / 3; 5 / 3] 4 5 2 2 5.
Proof.
  intros HK. split.
  - apply ex_pfirst_ok; [ndec|cbn; lia].
  - apply ex_mode_ok; [apply nondecr_4; lra|cbn; lia].
  - apply ex_mode_ok; [ndec|cbn; lia].
  - split; [cbn; lia|]. right. left. split; [cbn; lia|reflexivity].
  - cbn. lia.
  - intros d k Hd Hk. cbn [In] in Hd, Hk. destruct Hd as [<-|[<-|[<-|[]]]]; repeat (destruct Hk as [<-|Hk]; [eexists; reflexivity|]); destruct Hk.
  - reflexivity.
  - reflexivity.
  - reflexivity.
  - exact HK.
  - intros k Hk. cbn [In poly_columns] in Hk. repeat (destruct Hk as [<-|Hk]; [split; reflexivity|]). destruct Hk.
  - reflexivity.
  - reflexivity.
  - reflexivity.
Qed.
Example C123_case der sym brunt :
  (exists o, build_poly der true sym brunt (ex_pfirst [0; 4]) (ex_mode [0; 1; 2; 4]) (ex_mode [0; 2; 4]) (ex_poly [0; 1; 2; 4] poly_derivatives) = Ok o /\
    o "_dP" = Some (VArr [1 + 1; 1 + 2])) /\
  build_poly der true sym brunt (ex_pfirst [0; 4]) (ex_mode [0; 1; 2; 4]) (ex_mode [0; 2; 4]) (ex_poly [0; 1; 2; 4] [("_dP", "dp")]) = Exc TypeError /\
  build_poly der false true false (ex_pfirst [0; 4]) (ex_mode [0; 1; 2; 4]) (ex_mode [0; 2; 4]) (ex_poly [0; 1; 2; 4] []) = Exc AttributeError.
Proof.
  split; [|split].
  - destruct (C123_polytrope_analytic der _ _ _ _ _ _ _ _ _ _ _ _ _ _ _ (ex_poly_input poly_derivatives ltac:(apply nodupb_ok; reflexivity)) sym brunt) as (o & E & _ & _ & D & _).
    + intros name k Hk. cbn [In poly_derivatives] in Hk. repeat (destruct Hk as [Hk|Hk]; [injection Hk as <- <-; reflexivity|]). destruct Hk.
    + exists o. split; [exact E|]. rewrite (D "_dP" "dp") by pick. reflexivity.
  - apply (C123_missing_derivative der _ _ _ _ _ _ _ _ _ _ _ _ _ _ _ (ex_poly_input [("_dP", "dp")%string] ltac:(apply nodupb_ok; reflexivity)) sym brunt).
    + intros name k Hk. cbn [In poly_derivatives] in Hk. repeat (destruct Hk as [Hk|Hk]; [injection Hk as <- <-; first [left; reflexivity|right; eexists; reflexivity]|]). destruct Hk.
    + exists "_dP2"%string, "dp2"%string. split; [pick|reflexivity].
  - apply (C123_no_brunt der _ _ _ _ _ _ _ _ _ _ _ _ _ _ _ (ex_poly_input [] ltac:(apply nodupb_ok; reflexivity))).
Qed.
Example C119_case der analytic sym brunt :
  build_poly der analytic sym brunt (ex_pfirst [0; 4]) (ex_mode [0; 1; 2; 3]) (ex_mode [0; 2; 4]) (ex_poly [0; 1; 4] poly_derivatives) = Exc AttributeError.
Proof.
  apply (C119_polytrope_points der analytic sym brunt _ _ _ _ [0; 4] [0; 1; 2; 3] [0; 2; 4] [0; 1; 2; 3] (ex_col [0; 1; 4] "r") 4).
  - apply ex_pfirst_ok; [ndec|cbn; lia].
  - apply ex_mode_ok; [apply nondecr_4; lra|cbn; lia].
  - apply ex_mode_ok; [ndec|cbn; lia].
  - split; [cbn; lia|]. right. left. split; [cbn; lia|reflexivity].
  - apply nodupb_ok. reflexivity.
  - reflexivity.
  - cbn. lia.
  - cbn. lia.
  - intros k v HI Hs. unfold ex_poly in HI. cbn [map app poly_columns poly_derivatives snd] in HI. dictcols HI; try discriminate; eexists; split; reflexivity.
  - intros k v HI Hs. unfold ex_poly in HI. cbn [map app poly_columns poly_derivatives snd] in HI. dictcols HI; try discriminate; apply not_prof; reflexivity.
  - reflexivity.
Qed.
