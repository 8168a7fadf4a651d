(** * The loop over triads and the isolation of its slots. *)
From Coq Require Import Reals List String ZArith Bool Lia Lra.
From Coquelicot Require Import Coquelicot.
From Verif Require Import Base Py Stab_Model Stat_Model Saver_Model Solver_Model Solver_Spec.
Import ListNotations.

Section Slots.
Context {A : Type}.
Lemma put_slot_length i (a : A) : forall l, List.length (put_slot i a l) = List.length l.
Proof. induction i as [|i IH]; intros [|x l]; cbn; auto. Qed.
Lemma put_slot_nth i (a : A) : forall l, (i < List.length l)%nat -> nth i (put_slot i a l) None = Some a.
Proof. induction i as [|i IH]; intros [|x l] H; cbn in *; try lia; [reflexivity|apply IH; lia]. Qed.
Lemma put_slot_other i j (a : A) : forall l, i <> j -> nth j (put_slot i a l) None = nth j l None.
Proof. revert j. induction i as [|i IH]; intros j [|x l] H; destruct j; cbn; try reflexivity; try contradiction. apply IH. lia. Qed.
Lemma put_slot_eq i (a : A) : forall l, (i < List.length l)%nat -> put_slot i a l = (firstn i l ++ Some a :: skipn (S i) l)%list.
Proof. induction i as [|i IH]; intros [|x l] H; cbn in *; try lia; [reflexivity|]. f_equal. apply IH. lia. Qed.
(** at most slot i differs *)
Definition but (i : nat) (l l' : list (option A)) : Prop := List.length l' = List.length l /\ forall j, j <> i -> nth j l' None = nth j l None.
Lemma but_refl i l : but i l l. Proof. split; auto. Qed.
Lemma but_put i a l : but i l (put_slot i a l).
Proof. split; [apply put_slot_length|]. intros j H. apply put_slot_other. congruence. Qed.
End Slots.

Lemma cmod_angle z : angle (Cmod z) = 0%R.
Proof. unfold angle. destruct (Rlt_dec _ 0) as [H|H]; [|reflexivity]. pose proof (Cmod_ge_0 z). lra. Qed.
Lemma factors_angle : forall tk ek lum xir i, angle (nth i (disc_factors tk ek lum xir) 0%R) = 0%R.
Proof.
  assert (Z : angle 0 = 0%R) by (unfold angle; destruct (Rlt_dec 0 0) as [H|H]; [lra|reflexivity]).
  induction tk as [|t tk IH]; intros [|e ek] [|l lum] [|x xir] [|i]; cbn [disc_factors nth]; try exact Z; [apply cmod_angle|apply IH].
Qed.
Lemma coupling_entry ad q : py_get (coupling_info ad q) (-3) = Ok (CBool ad).
Proof. destruct q; reflexivity. Qed.

Section Run.
Variable cfg : settings.
Variables data coupler : Type.
Variable load : orders -> res data.
Variable make_handler : data -> res handler.
Variable set_nonadiabatic : handler -> data -> res handler.
Variable two_mode : data -> res bool.
Variable stationary_check : data -> handler -> bool -> res bool.
Variable selection_check : data -> res bool.
Variable make_coupler : data -> handler -> res coupler.
Variable coupled_of : coupler -> coupled.
Variable jacobian_check : bool -> handler -> R -> res bool.
Variable lag_surface : data -> list C.
Variable xir_surface : data -> list C.
Variable disc_integrals : coupler -> res (list R * list R).
Notation st := (state data coupler).
Notation step := (grid_step cfg data coupler load make_handler set_nonadiabatic two_mode stationary_check selection_check make_coupler coupled_of jacobian_check lag_surface xir_surface disc_integrals).
Notation loop := (grid_loop cfg data coupler load make_handler set_nonadiabatic two_mode stationary_check selection_check make_coupler coupled_of jacobian_check lag_surface xir_surface disc_integrals).
Notation run := (grid_run cfg data coupler load make_handler set_nonadiabatic two_mode stationary_check selection_check make_coupler coupled_of jacobian_check lag_surface xir_surface disc_integrals).
Notation of_triad := (triad_of cfg data coupler load make_handler set_nonadiabatic two_mode stationary_check selection_check make_coupler coupled_of jacobian_check lag_surface xir_surface disc_integrals).

Definition apart (i : nat) (s s' : st) : Prop :=
  but i (l_couple _ _ s) (l_couple _ _ s') /\ but i (l_freq _ _ s) (l_freq _ _ s') /\ but i (l_hyper _ _ s) (l_hyper _ _ s') /\
  but i (l_stat _ _ s) (l_stat _ _ s') /\ l_stats _ _ s' = l_stats _ _ s.
Definition wrote (i : nat) (t : triad) (s s' : st) : Prop :=
  l_couple _ _ s' = put_slot i (coupling_info (adiabatic cfg) (t_coupled t)) (l_couple _ _ s) /\
  l_freq _ _ s' = put_slot i (mode_freq_info (polytrope cfg) (t_freqs t)) (l_freq _ _ s) /\
  l_hyper _ _ s' = put_slot i (hyperbolic (t_stat t)) (l_hyper _ _ s) /\
  l_stat _ _ s' = put_slot i (if polytrope cfg then None else Some (stat_dict (t_stat t))) (l_stat _ _ s) /\
  l_stats _ _ s' = l_stats _ _ s.
Definition step_ok (i : nat) (o : orders) (s : st) : Prop :=
  match of_triad o with
  | Ok t => exists s', step i o s = (s', Ok tt) /\ wrote i t s s'
  | Exc e => exists s', step i o s = (s', Exc e) /\ apart i s s'
  | UB => exists s', step i o s = (s', UB) /\ apart i s s'
  end.

Ltac fails := eexists; split; [reflexivity|]; repeat split; try reflexivity; cbn; try apply put_slot_length; try (intros; apply put_slot_other; congruence).
Ltac works P := eexists; split; [reflexivity|]; unfold wrote; rewrite P; repeat split; try reflexivity.

Lemma grid_step_ok i o s n : (i < n)%nat -> sized data coupler n s -> step_ok i o s.
Proof.
  intros I (L1 & L2 & L3 & L4 & L5). unfold step_ok, triad_of, prepared, coupling_of, hyper_of, grid_step, compute_coupling_one_triad, choose_coupler, hyperbolicity, stat_of.
  unfold bindM, lift, modify, gets, ret.
  destruct (load o) as [d| |e]; cbn [bind]; [|fails|fails].
  destruct (polytrope cfg) eqn:P.
  - destruct (make_handler d) as [h| |e]; cbn [bind]; [|fails|fails].
    destruct (two_mode d) as [two| |e]; cbn [bind]; [|fails|fails].
    destruct (rot_formalism cfg); cbn [negb orb]; [|fails].
    destruct (make_coupler d h) as [q| |e]; cbn [bind]; [|fails|fails].
    works P.
  - destruct (make_handler d) as [h0| |e]; cbn [bind]; [|fails|fails].
    destruct (set_nonadiabatic h0 d) as [h| |e]; cbn [bind]; [|fails|fails].
    destruct (two_mode d) as [two| |e]; cbn [bind]; [|fails|fails].
    destruct (if stat_solv cfg then stationary_check d h two else selection_check d) as [pre| |e] eqn:PC; cbn [bind]; [|fails|fails].
    destruct (rot_formalism cfg); cbn [negb orb]; [|fails].
    unfold additional_mode_info, three_mode_stationary, need, bindM, lift, modify, gets, ret.
    assert (E : pre && stat_solv cfg || negb (stat_solv cfg) = pre || negb (stat_solv cfg)) by (destruct pre, (stat_solv cfg); reflexivity).
    rewrite E. destruct (pre || negb (stat_solv cfg)) eqn:X.
    + destruct (make_coupler d h) as [q| |e]; cbn [bind]; [|fails|fails]. cbn [s_coupler set_coupler].
      destruct (jacobian_check two h (ncc (coupled_of q))) as [hy| |e]; cbn [bind]; [|fails|fails].
      cbn [l_couple set_couple set_hyper set_freq set_coupler set_handler set_data option_map].
      rewrite put_slot_nth by (rewrite L1; exact I). rewrite coupling_entry. cbn [times_cell]. cbn [s_coupler set_xir set_lag set_hyper set_freq set_couple set_coupler].
      destruct (disc_integrals q) as [[tk ek]| |e]; cbn [bind]; [|fails|fails].
      cbn [l_hyper s_handler s_lag s_xir s_disc s_coupler set_disc set_xir set_lag set_hyper set_freq set_couple set_coupler set_handler set_data].
      rewrite put_slot_nth by (rewrite L3; exact I).
      destruct pre; works P.
      cbn [fst snd t_stat]. unfold flux_of, flagged, q_of, amps_of, qc_of. rewrite !factors_angle. 
      unfold set_stat. cbn [l_stat set_disc set_xir set_lag set_hyper set_freq set_couple set_coupler set_handler set_data].
      do 7 f_equal. unfold q_of. lra.
    + apply orb_false_iff in X. destruct X as [-> X]. cbn [bind].
      cbn [l_couple set_couple set_hyper set_freq set_coupler set_handler set_data option_map].
      rewrite put_slot_nth by (rewrite L1; exact I). rewrite coupling_entry. cbn [times_cell]. cbn [s_coupler set_xir set_lag set_hyper set_freq set_couple set_coupler].
      cbn [l_hyper s_handler s_lag s_xir s_disc s_coupler set_disc set_xir set_lag set_hyper set_freq set_couple set_coupler set_handler set_data].
      rewrite put_slot_nth by (rewrite L3; exact I). works P.
Qed.

Lemma wrote_sized i t s s' n : sized data coupler n s -> wrote i t s s' -> sized data coupler n s'.
Proof. intros (A1 & A2 & A3 & A4 & A5) (B1 & B2 & B3 & B4 & B5). unfold sized. rewrite B1, B2, B3, B4, B5, !put_slot_length. repeat split; assumption. Qed.

(** slots from i on hold the values of ts, the others are as before *)
Definition filled {A} (i : nat) (vs : list A) (l l' : list (option A)) : Prop :=
  List.length l' = List.length l /\ (forall j v, nth_error vs j = Some v -> nth (i + j) l' None = Some v) /\
  (forall j, (j < i \/ i + List.length vs <= j)%nat -> nth j l' None = nth j l None).
Lemma filled_nil {A} i (l : list (option A)) : filled i [] l l.
Proof. split; [reflexivity|]. split; [intros [|j] v H; discriminate|reflexivity]. Qed.
Lemma filled_cons {A} i (v : A) vs l l' : (i < List.length l)%nat -> filled (S i) vs (put_slot i v l) l' -> filled i (v :: vs) l l'.
Proof.
  intros I (F1 & F2 & F3). rewrite put_slot_length in F1. split; [exact F1|]. split.
  - intros [|j] w H; cbn in H.
    + inversion H; subst. rewrite Nat.add_0_r, F3 by lia. apply put_slot_nth, I.
    + rewrite <- Nat.add_succ_comm. apply F2, H.
  - cbn [List.length]. intros j H. rewrite F3 by lia. apply put_slot_other. lia.
Qed.
Lemma filled_all {A} (vs : list A) l l' : List.length vs = List.length l -> filled 0 vs l l' -> l' = map Some vs.
Proof.
  intros E (F1 & F2 & _). apply nth_ext with (d := None) (d' := None); [rewrite map_length; lia|].
  intros j H. destruct (nth_error vs j) as [v|] eqn:N.
  - rewrite (F2 j v N : nth j l' None = _). apply (map_nth_error Some) in N. apply nth_error_nth with (d := None) in N. rewrite N. reflexivity.
  - apply nth_error_None in N. lia.
Qed.
Definition couple_v (t : triad) := coupling_info (adiabatic cfg) (t_coupled t).
Definition freq_v (t : triad) := mode_freq_info (polytrope cfg) (t_freqs t).
Definition hyper_v (t : triad) := hyperbolic (t_stat t).
Definition stat_v (t : triad) := if polytrope cfg then None else Some (stat_dict (t_stat t)).
Definition wrote_all (i : nat) (ts : list triad) (s s' : st) : Prop :=
  filled i (map couple_v ts) (l_couple _ _ s) (l_couple _ _ s') /\ filled i (map freq_v ts) (l_freq _ _ s) (l_freq _ _ s') /\
  filled i (map hyper_v ts) (l_hyper _ _ s) (l_hyper _ _ s') /\ filled i (map stat_v ts) (l_stat _ _ s) (l_stat _ _ s') /\
  l_stats _ _ s' = l_stats _ _ s.
Lemma wrote_all_cons i n t ts s s1 s2 : (i < n)%nat -> sized data coupler n s -> wrote i t s s1 -> wrote_all (S i) ts s1 s2 -> wrote_all i (t :: ts) s s2.
Proof.
  intros I (A1 & A2 & A3 & A4 & A5) (B1 & B2 & B3 & B4 & B5) (F1 & F2 & F3 & F4 & F5).
  rewrite B1 in F1. rewrite B2 in F2. rewrite B3 in F3. rewrite B4 in F4.
  unfold wrote_all. cbn [map]. split; [apply filled_cons; [lia|exact F1]|]. split; [apply filled_cons; [lia|exact F2]|]. split; [apply filled_cons; [lia|exact F3]|]. split; [apply filled_cons; [lia|exact F4]|congruence].
Qed.
Lemma grid_loop_ok os : forall ts i n s, mapM of_triad os = Ok ts -> sized data coupler n s -> (i + List.length os <= n)%nat ->
  exists s', loop i os s = (s', Ok tt) /\ wrote_all i ts s s' /\ sized data coupler n s'.
Proof.
  induction os as [|o os IH]; intros ts i n s E Z L; cbn in E, L.
  - inversion E; subst. exists s. split; [reflexivity|]. split; [|exact Z]. repeat split; try apply filled_nil; cbn; try reflexivity; intros [|?] ? H; discriminate.
  - pose proof (grid_step_ok i o s n ltac:(lia) Z) as G. unfold step_ok in G. destruct (of_triad o) as [t| |e]; cbn in E; try discriminate.
    destruct (mapM of_triad os) as [ts'| |e] eqn:M; cbn in E; try discriminate. inversion E; subst. clear E.
    destruct G as (s1 & S1 & W). pose proof (wrote_sized _ _ _ _ _ Z W) as Z1. destruct (IH ts' (S i) n s1 eq_refl Z1 ltac:(lia)) as (s2 & S2 & W2 & Z2).
    exists s2. split; [|split; [exact (wrote_all_cons i n t ts' s s1 s2 ltac:(lia) Z W W2)|exact Z2]].
    cbn [grid_loop]. unfold bindM at 1. rewrite S1. exact S2.
Qed.
(** the loop stops at the first triad that raises *)
Definition stopped (i : nat) (ts : list triad) (s s' : st) : Prop := exists s1, wrote_all i ts s s1 /\ apart (i + List.length ts) s1 s'.
Lemma grid_loop_fails os o post : forall ts i n s (r : res triad), mapM of_triad os = Ok ts -> of_triad o = r -> (forall t, r <> Ok t) ->
  sized data coupler n s -> (i + List.length os < n)%nat ->
  exists s' r', loop i (os ++ o :: post) s = (s', r') /\ stopped i ts s s' /\ (forall e, r = Exc e -> r' = Exc e) /\ r' <> Ok tt.
Proof.
  induction os as [|o' os IH]; intros ts i n s r E T N Z L; cbn in E, L.
  - inversion E; subst. cbn [app grid_loop]. pose proof (grid_step_ok i o s n ltac:(lia) Z) as G. unfold step_ok in G.
    assert (W : wrote_all i [] s s) by (repeat split; try apply filled_nil; cbn; try reflexivity; intros [|?] ? H; discriminate).
    destruct (of_triad o) as [t| |e] eqn:T; [exfalso; exact (N t eq_refl)| |].
    + destruct G as (s1 & S1 & A). unfold bindM at 1. rewrite S1. exists s1, UB. split; [reflexivity|]. split; [exists s; split; [exact W|rewrite Nat.add_0_r; exact A]|]. split; [discriminate|discriminate].
    + destruct G as (s1 & S1 & A). unfold bindM at 1. rewrite S1. exists s1, (Exc e). split; [reflexivity|]. split; [exists s; split; [exact W|rewrite Nat.add_0_r; exact A]|]. split; [congruence|discriminate].
  - pose proof (grid_step_ok i o' s n ltac:(lia) Z) as G. unfold step_ok in G. destruct (of_triad o') as [t| |e] eqn:T'; cbn in E; try discriminate.
    destruct (mapM of_triad os) as [ts'| |e] eqn:M; cbn in E; try discriminate. inversion E; subst. clear E.
    destruct G as (s1 & S1 & W). pose proof (wrote_sized _ _ _ _ _ Z W) as Z1.
    destruct (IH ts' (S i) n s1 (of_triad o) eq_refl eq_refl N Z1 ltac:(lia)) as (s2 & r' & S2 & (s1' & W2 & A2) & X).
    exists s2, r'. split; [cbn [app grid_loop]; unfold bindM at 1; rewrite S1; exact S2|]. split; [|exact X].
    exists s1'. split; [exact (wrote_all_cons i n t ts' s s1 s1' ltac:(lia) Z W W2)|]. cbn [List.length]. rewrite <- Nat.add_succ_comm. exact A2.
Qed.
Lemma store_statistics_ok os : forall i n (s : st), sized data coupler n s -> (i + List.length os <= n)%nat ->
  exists s', store_statistics data coupler i os s = (s', Ok tt) /\ l_couple _ _ s' = l_couple _ _ s /\ l_freq _ _ s' = l_freq _ _ s /\
    l_hyper _ _ s' = l_hyper _ _ s /\ l_stat _ _ s' = l_stat _ _ s /\ filled i (map coupling_stat os) (l_stats _ _ s) (l_stats _ _ s').
Proof.
  induction os as [|o os IH]; intros i n s Z L; cbn in L.
  - exists s. split; [reflexivity|]. repeat split. intros [|?] ? H; discriminate.
  - destruct (IH (S i) n (set_stats data coupler i (coupling_stat o) s)) as (s' & S' & B1 & B2 & B3 & B4 & F); [|lia|].
    + destruct Z as (A1 & A2 & A3 & A4 & A5). unfold sized. cbn. rewrite put_slot_length. auto.
    + exists s'. split; [exact S'|]. repeat (split; [assumption|]). cbn [map]. apply filled_cons; [destruct Z as (_ & _ & _ & _ & A5); lia|exact F].
Qed.
Lemma triads_length os ts : mapM of_triad os = Ok ts -> List.length ts = List.length os.
Proof. revert ts. induction os as [|o os IH]; cbn; intros ts E; [inversion E; reflexivity|]. destruct (of_triad o) as [t| |]; cbn in E; try discriminate.
  destruct (mapM of_triad os) as [ts'| |]; cbn in E; try discriminate. inversion E. cbn. rewrite (IH ts' eq_refl). reflexivity. Qed.
Lemma triad_orders o t : of_triad o = Ok t -> t_orders t = o.
Proof.
  unfold triad_of. destruct (load o) as [d| |]; cbn [bind]; try discriminate. destruct (prepared _ _ _ _ _ _ _ d) as [[[h pre] two]| |]; cbn [bind]; try discriminate.
  destruct (coupling_of _ _ _ _ d h pre) as [q| |]; cbn [bind]; try discriminate. destruct (hyper_of _ _ _ _ h q two) as [hy| |]; cbn [bind]; try discriminate.
  destruct (if polytrope cfg then _ else _) as [x| |]; cbn [bind]; try discriminate. intros E. inversion E. reflexivity.
Qed.
Lemma triads_orders os : forall ts, mapM of_triad os = Ok ts -> map t_orders ts = os.
Proof. induction os as [|o os IH]; cbn; intros ts E; [inversion E; reflexivity|]. destruct (of_triad o) as [t| |] eqn:T; cbn in E; try discriminate.
  destruct (mapM of_triad os) as [ts'| |]; cbn in E; try discriminate. inversion E. cbn. rewrite (IH ts' eq_refl), (triad_orders o t T). reflexivity. Qed.
Lemma grid_run_ok os ts s : mapM of_triad os = Ok ts -> sized data coupler (List.length os) s ->
  exists s', run os s = (s', Ok tt) /\ l_couple _ _ s' = map Some (map couple_v ts) /\ l_freq _ _ s' = map Some (map freq_v ts) /\
    l_hyper _ _ s' = map Some (map hyper_v ts) /\ l_stat _ _ s' = map Some (map stat_v ts) /\ l_stats _ _ s' = map Some (map coupling_stat os).
Proof.
  intros E Z. destruct (grid_loop_ok os ts 0 _ s E Z (le_n _)) as (s1 & S1 & (F1 & F2 & F3 & F4 & F5) & Z1).
  destruct (store_statistics_ok os 0 _ s1 Z1 (le_n _)) as (s2 & S2 & B1 & B2 & B3 & B4 & F). exists s2.
  split; [unfold grid_run, bindM; rewrite S1; exact S2|]. rewrite B1, B2, B3, B4. pose proof (triads_length os ts E) as L. destruct Z as (A1 & A2 & A3 & A4 & A5).
  repeat split; (eapply filled_all; [|eassumption]); rewrite map_length; [..|rewrite F5]; try lia. symmetry. exact A5.
Qed.
End Run.
Lemma all_written_map {A} (l : list A) : all_written (map Some l) = Ok l.
Proof. induction l as [|x l IH]; cbn; [reflexivity|]. rewrite IH. reflexivity. Qed.
