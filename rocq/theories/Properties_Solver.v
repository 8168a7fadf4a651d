(** * Theorems on the grid solver: C62 (triads do not influence one another; failures; what is saved) and
    C97 (surface fluctuations and the luminosity phase). *)
From Coq Require Import Reals List String ZArith Bool Lia Lra Permutation.
From Coquelicot Require Import Coquelicot.
From Verif Require Import Base Py Stab_Model Stat_Model Saver_Model Saver_Spec Properties_Saver Solver_Model Solver_Spec Solver_Proofs.
Import ListNotations.

Section C62.
Variable cfg : settings.
Variables data coupler : Type.
Variable load : orders -> res data.
Variable make_handler : data -> res handler.
Variable set_nonadiabatic : handler -> data -> res handler.
Variable two_mode : data -> res bool.
Variable stationary_check : data -> handler -> bool -> res bool.
Variable selection_check : data -> res bool.
Variable make_coupler : data -> handler -> res coupler.
Variable coupled_of : coupler -> coupled.
Variable jacobian_check : bool -> handler -> R -> res bool.
Variable lag_surface : data -> list C.
Variable xir_surface : data -> list C.
Variable disc_integrals : coupler -> res (list R * list R).
Notation st := (state data coupler).
Notation run := (grid_run cfg data coupler load make_handler set_nonadiabatic two_mode stationary_check selection_check make_coupler coupled_of jacobian_check lag_surface xir_surface disc_integrals).
Notation of_triad := (triad_of cfg data coupler load make_handler set_nonadiabatic two_mode stationary_check selection_check make_coupler coupled_of jacobian_check lag_surface xir_surface disc_integrals).
Notation couple := (l_couple data coupler).
Notation freq := (l_freq data coupler).
Notation hyper := (l_hyper data coupler).
Notation stat := (l_stat data coupler).
Notation stats := (l_stats data coupler).

(** If every triad of the grid can be computed on its own, the run succeeds and slot i of every list holds exactly the
    results of triad i, whatever the solver computed before. *)
Theorem C62_each_triad_in_its_slot os ts (s : st) : mapM of_triad os = Ok ts -> sized data coupler (List.length os) s ->
  exists s', run os s = (s', Ok tt) /\ couple s' = map (couple_slot cfg) ts /\ freq s' = map (freq_slot cfg) ts /\
    hyper s' = map hyper_slot ts /\ stat s' = map (stat_slot cfg) ts /\ stats s' = map stats_slot ts /\ map t_orders ts = os.
Proof.
  intros E Z. destruct (grid_run_ok cfg data coupler load make_handler set_nonadiabatic two_mode stationary_check selection_check make_coupler coupled_of jacobian_check lag_surface xir_surface disc_integrals os ts s E Z) as (s' & S & B1 & B2 & B3 & B4 & B5).
  exists s'. split; [exact S|]. rewrite map_map in B1, B2, B3, B4, B5. pose proof (triads_orders _ _ _ _ _ _ _ _ _ _ _ _ _ _ _ os ts E) as O.
  repeat (split; [assumption|]). split; [|exact O]. rewrite B5, <- O, map_map. apply map_ext. intros t. unfold stats_slot, coupling_stat, mean3, wu3. destruct (t_orders t) as [[a b] c].
  rewrite !plus_IZR, minus_IZR, abs_IZR, minus_IZR. reflexivity.
Qed.

(** The first triad that raises ends the run with its exception. The slots of the triads before it hold their results, those
    of the triads after it are what they were, and the statistics are not stored. *)
Theorem C62_first_failure os o post ts e (s : st) : mapM of_triad os = Ok ts -> of_triad o = Exc e ->
  sized data coupler (List.length (os ++ o :: post)) s ->
  exists s', run (os ++ o :: post) s = (s', Exc e) /\ stats s' = stats s /\
    forall i, i <> List.length os ->
      match nth_error ts i with
      | Some t => nth i (couple s') None = couple_slot cfg t /\ nth i (freq s') None = freq_slot cfg t /\
                  nth i (hyper s') None = hyper_slot t /\ nth i (stat s') None = stat_slot cfg t
      | None => nth i (couple s') None = nth i (couple s) None /\ nth i (freq s') None = nth i (freq s) None /\
                nth i (hyper s') None = nth i (hyper s) None /\ nth i (stat s') None = nth i (stat s) None
      end.
Proof.
  intros E T Z.
  destruct (grid_loop_fails cfg data coupler load make_handler set_nonadiabatic two_mode stationary_check selection_check make_coupler coupled_of jacobian_check lag_surface xir_surface disc_integrals os o post ts 0 _ s (Exc e) E T ltac:(discriminate) Z) as (s' & r & S & (s1 & (F1 & F2 & F3 & F4 & F5) & (A1 & A2 & A3 & A4 & A5)) & X & Y).
  { rewrite app_length. cbn. lia. }
  rewrite (X e eq_refl) in S. exists s'. split; [unfold grid_run, bindM; rewrite S; reflexivity|]. split; [congruence|].
  pose proof (triads_length _ _ _ _ _ _ _ _ _ _ _ _ _ _ _ os ts E) as L. intros i I. cbn [Nat.add] in A1, A2, A3, A4. rewrite L in A1, A2, A3, A4.
  rewrite (proj2 A1 i I), (proj2 A2 i I), (proj2 A3 i I), (proj2 A4 i I).
  destruct F1 as (_ & F1 & G1), F2 as (_ & F2 & G2), F3 as (_ & F3 & G3), F4 as (_ & F4 & G4). rewrite map_length in G1, G2, G3, G4.
  destruct (nth_error ts i) as [t|] eqn:N.
  - repeat split; [apply (F1 i)|apply (F2 i)|apply (F3 i)|apply (F4 i)]; rewrite (map_nth_error _ _ _ N); reflexivity.
  - apply nth_error_None in N. repeat split; [apply G1|apply G2|apply G3|apply G4]; lia.
Qed.

(** A run succeeds only if every triad can be computed on its own. *)
Theorem C62_success_means_all_triads os (s s' : st) : sized data coupler (List.length os) s -> run os s = (s', Ok tt) -> exists ts, mapM of_triad os = Ok ts.
Proof.
  intros Z S.
  assert (D : (exists ts, mapM of_triad os = Ok ts) \/ exists a o post ts, os = (a ++ o :: post)%list /\ mapM of_triad a = Ok ts /\ forall t, of_triad o <> Ok t).
  { clear S Z s s'. induction os as [|o os IH]; [left; exists []; reflexivity|]. destruct (of_triad o) as [t| |e] eqn:T.
    - destruct IH as [[ts M]|(a & o' & post & ts & -> & M & N)].
      + left. exists (t :: ts). cbn. rewrite T, M. reflexivity.
      + right. exists (o :: a), o', post, (t :: ts). split; [reflexivity|]. split; [cbn; rewrite T, M; reflexivity|exact N].
    - right. exists [], o, os, []. split; [reflexivity|]. split; [reflexivity|]. congruence.
    - right. exists [], o, os, []. split; [reflexivity|]. split; [reflexivity|]. congruence. }
  destruct D as [D|(a & o & post & ts & -> & M & N)]; [exact D|]. exfalso.
  destruct (grid_loop_fails cfg data coupler load make_handler set_nonadiabatic two_mode stationary_check selection_check make_coupler coupled_of jacobian_check lag_surface xir_surface disc_integrals a o post ts 0 _ s (of_triad o) M eq_refl N Z) as (s1 & r & S1 & _ & _ & Y).
  { rewrite app_length. cbn. lia. }
  unfold grid_run, bindM in S. rewrite S1 in S. destruct r as [u| |e]; [destruct u; apply Y; reflexivity|discriminate|discriminate].
Qed.

(** Two successful runs, of any grids and after any earlier computations, agree on the triads they share. *)
Theorem C62_same_triad_same_results os1 os2 (s1 s2 s1' s2' : st) i j o :
  sized data coupler (List.length os1) s1 -> sized data coupler (List.length os2) s2 ->
  run os1 s1 = (s1', Ok tt) -> run os2 s2 = (s2', Ok tt) -> nth_error os1 i = Some o -> nth_error os2 j = Some o ->
  nth i (couple s1') None = nth j (couple s2') None /\ nth i (freq s1') None = nth j (freq s2') None /\
  nth i (hyper s1') None = nth j (hyper s2') None /\ nth i (stat s1') None = nth j (stat s2') None /\ nth i (stats s1') None = nth j (stats s2') None.
Proof.
  assert (K : forall os (s s' : st) i o, sized data coupler (List.length os) s -> run os s = (s', Ok tt) -> nth_error os i = Some o ->
    exists t, of_triad o = Ok t /\ nth i (couple s') None = couple_slot cfg t /\ nth i (freq s') None = freq_slot cfg t /\
      nth i (hyper s') None = hyper_slot t /\ nth i (stat s') None = stat_slot cfg t /\ nth i (stats s') None = stats_slot t).
  { clear. intros os s s' i o Z S N. destruct (C62_success_means_all_triads os s s' Z S) as [ts M].
    destruct (C62_each_triad_in_its_slot os ts s M Z) as (s'' & S' & B1 & B2 & B3 & B4 & B5 & _). rewrite S in S'. inversion S'; subst s''. clear S S'.
    assert (T : exists t, nth_error ts i = Some t /\ of_triad o = Ok t).
    { clear - M N. revert ts i M N. induction os as [|a os IH]; intros ts [|i] M N; cbn in N; try discriminate; cbn in M;
        destruct (of_triad a) as [t| |] eqn:T; cbn in M; try discriminate; destruct (mapM of_triad os) as [ts'| |] eqn:M'; cbn in M; try discriminate; inversion M; subst.
      - inversion N; subst. exists t. split; [reflexivity|exact T].
      - apply (IH ts' i eq_refl N). }
    destruct T as (t & T & OT). exists t. split; [exact OT|]. rewrite B1, B2, B3, B4, B5.
    assert (F : forall B (f : triad -> option B), nth i (map f ts) None = f t) by (intros B f; apply nth_error_nth; apply map_nth_error, T).
    rewrite !F. repeat split. }
  intros Z1 Z2 S1 S2 N1 N2. destruct (K _ _ _ _ _ Z1 S1 N1) as (t1 & T1 & A1 & A2 & A3 & A4 & A5).
  destruct (K _ _ _ _ _ Z2 S2 N2) as (t2 & T2 & B1 & B2 & B3 & B4 & B5). rewrite T1 in T2. inversion T2; subst t2.
  rewrite A1, A2, A3, A4, A5, B1, B2, B3, B4, B5. repeat split.
Qed.

(** Calling a solver again after a success changes no result. *)
Theorem C62_second_call os (s s' : st) : sized data coupler (List.length os) s -> run os s = (s', Ok tt) ->
  exists s'', run os s' = (s'', Ok tt) /\ couple s'' = couple s' /\ freq s'' = freq s' /\ hyper s'' = hyper s' /\ stat s'' = stat s' /\ stats s'' = stats s'.
Proof.
  intros Z S. destruct (C62_success_means_all_triads os s s' Z S) as [ts M].
  destruct (C62_each_triad_in_its_slot os ts s M Z) as (s1 & S1 & B1 & B2 & B3 & B4 & B5 & O). rewrite S in S1. inversion S1; subst s1. clear S1.
  assert (Z' : sized data coupler (List.length os) s').
  { unfold sized. rewrite B1, B2, B3, B4, B5, !map_length. rewrite <- O, map_length. repeat split. }
  destruct (C62_each_triad_in_its_slot os ts s' M Z') as (s2 & S2 & D1 & D2 & D3 & D4 & D5 & _). exists s2. split; [exact S2|]. repeat split; congruence.
Qed.

(** what the saver reads from the solver after a successful run *)
Lemma solver_results o os t ts c (s : st) : mapM of_triad (o :: os) = Ok (t :: ts) -> sized data coupler (List.length (o :: os)) s ->
  c_poly c = polytrope cfg -> c_adiabatic c = adiabatic cfg ->
  exists s', run (o :: os) s = (s', Ok tt) /\ read_solver c (o :: os) s' = Ok (results_of c (t :: ts)).
Proof.
  intros M Z P A. destruct (grid_run_ok cfg data coupler load make_handler set_nonadiabatic two_mode stationary_check selection_check make_coupler coupled_of jacobian_check lag_surface xir_surface disc_integrals (o :: os) (t :: ts) s M Z) as (s' & S & B1 & B2 & B3 & B4 & B5).
  exists s'. split; [exact S|].
  unfold read_solver. rewrite B1, B2, B4, B5, !all_written_map. cbn [bind].
  pose proof (triads_orders _ _ _ _ _ _ _ _ _ _ _ _ _ _ _ (o :: os) (t :: ts) M) as O. unfold results_of.
  assert (E1 : map (stat_v cfg) (t :: ts) = map (fun t => if c_poly c then None else Some (stat_dict (t_stat t))) (t :: ts)) by (apply map_ext; intros u; unfold stat_v; rewrite P; reflexivity).
  assert (E2 : map (couple_v cfg) (t :: ts) = map (fun t => coupling_info (c_adiabatic c) (t_coupled t)) (t :: ts)) by (apply map_ext; intros u; unfold couple_v; rewrite A; reflexivity).
  assert (E3 : map (freq_v cfg) (t :: ts) = map (fun t => mode_freq_info (c_poly c) (t_freqs t)) (t :: ts)) by (apply map_ext; intros u; unfold freq_v; rewrite P; reflexivity).
  assert (E4 : map coupling_stat (o :: os) = map (fun t => coupling_stat (t_orders t)) (t :: ts)) by (rewrite <- O, map_map; reflexivity).
  rewrite E1, E2, E3, E4, O. reflexivity.
Qed.
(** From the grid to the file: after a successful run the results file holds the results of every triad in its row. *)
Theorem C62_saved_results o os t ts c (s : st) disk : mapM of_triad (o :: os) = Ok (t :: ts) -> sized data coupler (List.length (o :: os)) s ->
  c_poly c = polytrope cfg -> c_adiabatic c = adiabatic cfg -> List.Forall well_shaped (t :: ts) ->
  exists s' r f, run (o :: os) s = (s', Ok tt) /\ read_solver c (o :: os) s' = Ok r /\ store_results 3 Write disk r = (Some f, Ok tt) /\
    forall name x, In (name, x) (results_table c) -> reads f (split_path name) (col x (t :: ts)).
Proof.
  intros M Z P A W. destruct (solver_results o os t ts c s M Z P A) as (s' & S & R). destruct (C61_results_read_back c t ts disk W) as (f & F & Rd & _).
  exists s', (results_of c (t :: ts)), f. split; [exact S|]. split; [exact R|]. split; [exact F|exact Rd].
Qed.

(** ** C97: fluctuations and luminosity phase of a triad that was computed with a stationary solution *)
Variable o : orders.
Variables (d : data) (v : solved) (t : triad).
Hypothesis computed : of_triad o = Ok t.
Hypothesis solution : s_solved (t_stat t) = Some v.
Hypothesis is_data : load o = Ok d.
Lemma computed_inv : exists h q de, disc_integrals q = Ok de /\ t_coupled t = Some (coupled_of q) /\
  v = mkSolved (amps3 (amps_of coupler coupled_of h q)) (flux_of cfg data coupler coupled_of lag_surface xir_surface h q d (fst de) (snd de))
    (Stat_Model.acrit (amps_of coupler coupled_of h q)) (relative_phase (q_of h)) (relative_phase (q_of h)).
Proof.
  generalize computed solution. unfold triad_of. rewrite is_data. cbn [bind].
  destruct (prepared _ _ _ _ _ _ _ d) as [[[h' pre] two]| |]; cbn [bind]; try discriminate.
  destruct (coupling_of _ _ _ _ d h' pre) as [q'| |]; cbn [bind]; try discriminate. destruct (hyper_of _ _ _ _ h' q' two) as [hy| |]; cbn [bind]; try discriminate.
  destruct (polytrope cfg); cbn [bind].
  - intros E. inversion E; subst. discriminate.
  - unfold stat_of. destruct q' as [q'|].
    + destruct (disc_integrals q') as [de| |] eqn:D; cbn [bind]; try discriminate. intros E V. inversion E; subst. cbn in V. destruct pre; [|discriminate].
      inversion V; subst. exists h', q', de. repeat split; [exact D].
    + cbn [bind]. intros E V. inversion E; subst. discriminate.
Qed.
(** The luminosity phase is always the phase of the amplitudes: the contribution of the luminosities is lost. *)
Theorem C97_luminosity_phase_adds_nothing : lum_phase v = rel_phase v.
Proof. destruct computed_inv as (h & q & de & _ & _ & ->). reflexivity. Qed.

Lemma factors_nth : forall tk ek lum xir i, (i < List.length tk)%nat -> (i < List.length ek)%nat -> (i < List.length lum)%nat -> (i < List.length xir)%nat ->
  nth i (disc_factors tk ek lum xir) 0%R = Cmod (RtoC (nth i tk 0) * nth i lum 0 - RtoC (nth i ek 0) * nth i xir 0)%C.
Proof.
  induction tk as [|a tk IH]; intros [|b ek] [|l lum] [|x xir] [|i]; cbn [List.length disc_factors nth]; intros; try lia; [reflexivity|apply IH; lia].
Qed.
Lemma factors_length : forall tk ek lum xir, List.length tk = 3%nat -> List.length ek = 3%nat -> List.length lum = 3%nat -> List.length xir = 3%nat -> List.length (disc_factors tk ek lum xir) = 3%nat.
Proof.
  intros [|? [|? [|? [|]]]] [|? [|? [|? [|]]]] [|? [|? [|? [|]]]] [|? [|? [|? [|]]]]; cbn; intros; try discriminate; reflexivity.
Qed.
Lemma flux_nth h q tk ek i : List.length tk = 3%nat -> List.length ek = 3%nat -> List.length (lag_surface d) = 3%nat -> List.length (xir_surface d) = 3%nat -> (i < 3)%nat ->
  nth i (flux_of cfg data coupler coupled_of lag_surface xir_surface h q d tk ek) 0%R =
  (nth i (amps3 (amps_of coupler coupled_of h q)) 0 * flux_factor (nth i tk 0) (nth i ek 0) (if adiabatic cfg then 1 else 0) (nth i (lag_surface d) 0%C) (nth i (xir_surface d) 0%C))%R.
Proof.
  intros L1 L2 L3 L4 I. unfold flux_of.
  assert (E : forall (l : list R) (k : list R), List.length l = 3%nat -> List.length k = 3%nat -> nth i (map (fun af => (fst af * Rabs (snd af))%R) (combine l k)) 0%R = (nth i l 0 * Rabs (nth i k 0))%R).
  { intros [|? [|? [|? [|]]]] [|? [|? [|? [|]]]]; cbn; intros; try discriminate. destruct i as [|[|[|]]]; try reflexivity. lia. }
  unfold flagged. rewrite E; [|reflexivity|apply factors_length; rewrite ?map_length; assumption].
  rewrite factors_nth by (rewrite ?map_length; lia). rewrite Rabs_pos_eq by apply Cmod_ge_0. f_equal. unfold flux_factor. f_equal.
  assert (F : forall l : list C, nth i (map (fun z => (z * (if adiabatic cfg then 1 else 0))%C) l) 0%C = (nth i l 0%C * (if adiabatic cfg then 1 else 0))%C).
  { intros l. rewrite <- (map_nth (fun z => (z * (if adiabatic cfg then 1 else 0))%C)). f_equal. ring. }
  rewrite !F. destruct (adiabatic cfg); reflexivity.
Qed.
Section Shapes.
Hypothesis lag3 : List.length (lag_surface d) = 3%nat.
Hypothesis xir3 : List.length (xir_surface d) = 3%nat.
Hypothesis disc3 : forall q tk ek, disc_integrals q = Ok (tk, ek) -> List.length tk = 3%nat /\ List.length ek = 3%nat.
(** In non-adiabatic computations all stored surface flux variations are 0. *)
Theorem C97_nonadiabatic_fluctuations_vanish i : adiabatic cfg = false -> (i < 3)%nat -> nth i (flucs v) 0%R = 0%R.
Proof.
  intros A I. destruct computed_inv as (h & q & [tk ek] & D & _ & ->). destruct (disc3 _ _ _ D) as [L1 L2]. cbn [flucs fst snd].
  rewrite flux_nth by assumption. rewrite A. unfold flux_factor. replace (RtoC (nth i tk 0) * (nth i (lag_surface d) 0 * RtoC 0) - RtoC (nth i ek 0) * (nth i (xir_surface d) 0 * RtoC 0))%C with (RtoC 0) by ring.
  rewrite Cmod_0. ring.
Qed.
(** In adiabatic computations they are computed from GYRE's surface values without the mode's normalisation factor, and so
    are right only if that factor has modulus 1 or the variation is 0 anyway. *)
Theorem C97_adiabatic_fluctuations_not_normalised i : adiabatic cfg = true -> (i < 3)%nat ->
  exists q tk ek, disc_integrals q = Ok (tk, ek) /\ t_coupled t = Some (coupled_of q) /\
    let flux := fun norm => (nth i (amps v) 0 * flux_factor (nth i tk 0) (nth i ek 0) norm (nth i (lag_surface d) 0%C) (nth i (xir_surface d) 0%C))%R in
    nth i (flucs v) 0%R = flux 1%R /\
    (nth i (flucs v) 0%R = flux (nth i (norms (coupled_of q)) 0%R) <-> Rabs (nth i (norms (coupled_of q)) 0%R) = 1%R \/ flux 1%R = 0%R).
Proof.
  intros A I. destruct computed_inv as (h & q & [tk ek] & D & T & ->). destruct (disc3 _ _ _ D) as [L1 L2]. exists q, tk, ek. split; [exact D|]. split; [exact T|]. cbn [flucs amps fst snd]. cbv zeta.
  rewrite flux_nth by assumption. rewrite A. split; [reflexivity|].
  set (a := nth i (amps3 _) 0%R). set (n := nth i (norms _) 0%R).
  assert (N : forall x y l r, flux_factor x y n l r = (Rabs n * flux_factor x y 1 l r)%R).
  { intros x y l r. unfold flux_factor. rewrite <- Cmod_R, <- Cmod_mult. f_equal. ring. }
  rewrite N. set (f := flux_factor _ _ 1 _ _). split.
  - intros E. destruct (Req_dec (a * f) 0) as [Zr|Nz]; [right; exact Zr|left]. apply Rmult_eq_reg_r with (a * f)%R; [|exact Nz]. lra.
  - intros [->|Zr]; [ring|]. replace (a * (Rabs n * f))%R with (Rabs n * (a * f))%R by ring. rewrite Zr. ring.
Qed.
End Shapes.
End C62.

(** ** The hypotheses are met: a model with one loadable triad that has a stationary solution, one whose pre-check fails, and
    all other triads missing on disk *)
Definition ex_cfg (ad : bool) : settings := mkSettings false ad true true.
Definition ex_load (o : orders) : res nat :=
  let '(a, b, c) := o in if (a =? 1)%Z then Ok 1%nat else if (a =? 2)%Z then Ok 2%nat else Exc FileNotFoundError.
Definition ex_handler (n : nat) : handler := mkHandler (ex_freqs (INR n)) [1; -2; -3]%R (-4)%R 1%R [1; -1; -1]%R 1%R [1; 1; 1]%R.
Definition ex_of (ad : bool) := triad_of (ex_cfg ad) nat unit ex_load (fun n => Ok (ex_handler n)) (fun h _ => Ok h) (fun _ => Ok false)
  (fun n _ _ => Ok (n =? 1)%nat) (fun _ => Ok true) (fun _ _ => Ok tt) (fun _ => mkCoupled 1 1 1 [2; 2; 2] [1; 0; 0; 0])%R (fun _ _ _ => Ok true)
  (fun _ => map RtoC [1; 1; 1]%R) (fun _ => map RtoC [0; 0; 0]%R) (fun _ => Ok ([1; 1; 1], [1; 1; 1])%R).
Theorem C62_hypotheses_met ad : (exists t1 t2, mapM (ex_of ad) [(1, 5, 6); (2, 5, 6)]%Z = Ok [t1; t2] /\ List.Forall well_shaped [t1; t2] /\
    t_coupled t1 <> None /\ t_coupled t2 = None) /\ ex_of ad (3, 5, 6)%Z = Exc FileNotFoundError /\
  sized nat unit 2 (fresh nat unit 2).
Proof.
  split; [|split; [reflexivity|repeat split]]. eexists. eexists. split; [reflexivity|]. split; [|split; [discriminate|reflexivity]].
  constructor; [|constructor; [|constructor]]; (split; [repeat constructor|]); cbn; repeat split.
Qed.
Theorem C97_hypotheses_met ad : exists t v, ex_of ad (1, 5, 6)%Z = Ok t /\ s_solved (t_stat t) = Some v.
Proof. eexists. eexists. split; reflexivity. Qed.
