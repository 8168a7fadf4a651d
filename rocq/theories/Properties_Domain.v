(** * The figure of stability domains (C141-C144). *)
From Coq Require Import Reals ZArith Lra Psatz Bool List Lia String.
From Coquelicot Require Import Coquelicot.
From Verif Require Import Stab_Model Stab_Spec Stab_Proofs Properties_Stab Domain_Model Domain_Spec Domain_Proofs.
Import ListNotations.
Local Open Scope R_scope.

Lemma nth_map2 {A B C} (f : A -> B -> C) l k i : nth_error (map2 f l k) i =
  match nth_error l i, nth_error k i with Some a, Some b => Some (f a b) | _, _ => None end.
Proof.
  revert k i. induction l as [|a l IH]; intros [|b k] [|i]; cbn; try reflexivity.
  - destruct (nth_error l i); reflexivity.
  - apply IH.
Qed.
Definition steps (start stop step : R) : nat := Z.to_nat (Rceil ((stop - start) / step)).
Lemma arange_nth start stop step i : nth_error (arange start stop step) i =
  if Nat.ltb i (steps start stop step) then Some (start + INR i * step) else None.
Proof.
  unfold arange. fold (steps start stop step). destruct (Nat.ltb_spec i (steps start stop step)) as [H|H].
  - rewrite (map_nth_error _ i _ (d := i)); [reflexivity|]. rewrite (nth_error_nth' _ 0%nat) by (rewrite seq_length; exact H).
    rewrite seq_nth by exact H. reflexivity.
  - apply nth_error_None. rewrite map_length, seq_length. exact H.
Qed.
Lemma arange_length start stop step : List.length (arange start stop step) = steps start stop step.
Proof. unfold arange. rewrite map_length, seq_length. reflexivity. Qed.

Lemma mesh_entry tmi tma dth i j : let '(X, Y, _) := comp_meshgrid tmi tma dth in
  entry X i j = (if Nat.ltb i (steps tmi tma dth) && Nat.ltb j (steps tmi tma dth) then Some (tmi + INR j * dth) else None) /\
  entry Y i j = (if Nat.ltb i (steps tmi tma dth) && Nat.ltb j (steps tmi tma dth) then Some (tmi + INR i * dth) else None).
Proof.
  unfold comp_meshgrid, entry. rewrite !nth_error_map, !arange_nth.
  destruct (Nat.ltb_spec i (steps tmi tma dth)) as [H|H]; cbn [option_map andb]; [|auto].
  rewrite nth_error_map, !arange_nth. destruct (Nat.ltb_spec j (steps tmi tma dth)); cbn [option_map]; auto.
Qed.
Lemma on_arrays_entry f X Y d i j : entry (on_arrays f X Y d) i j =
  match entry X i j, entry Y i j with Some x, Some y => Some (f x y d) | _, _ => None end.
Proof.
  unfold on_arrays, entry. rewrite nth_map2. destruct (nth_error X i) as [xs|]; [|reflexivity].
  destruct (nth_error Y i) as [ys|]; [|destruct (nth_error xs j); reflexivity]. apply nth_map2.
Qed.
Lemma panel_entries dg1 tmi tma dth i j : let P := make_panel dg1 tmi tma dth in let n := steps tmi tma dth in
  let th2 := tmi + INR j * dth in let th3 := tmi + INR i * dth in
  let inside := Nat.ltb i n && Nat.ltb j n in
  entry (p_X P) i j = (if inside then Some th2 else None) /\ entry (p_Y P) i j = (if inside then Some th3 else None) /\
  entry (p_original P) i j = (if inside then Some (original_domain th2 th3 dg1) else None) /\
  entry (p_corrected P) i j = (if inside then Some (corrected_domain th2 th3 dg1) else None).
Proof.
  pose proof (mesh_entry tmi tma dth i j) as M. unfold make_panel. destruct (comp_meshgrid tmi tma dth) as [[X Y] ext] eqn:E.
  cbn [p_X p_Y p_original p_corrected]. destruct M as [M1 M2]. rewrite !on_arrays_entry, M1, M2.
  destruct (Nat.ltb i (steps tmi tma dth) && Nat.ltb j (steps tmi tma dth)); auto.
Qed.

(** ** C141: a coloured cell is a stable triad *)
Lemma C141_at a b r g1 w eta v J : 0 < a -> 0 < b -> stationary_triad a b r g1 w eta v ->
  jacobian 4 (ae3 (rates g1 a b) w eta (r * g1)) v J -> (corrected_domain a b r = true <-> decaying4 J).
Proof.
  intros A B (G & E & A1 & A2 & A3 & H) HJ.
  assert (S : parametric_signs (rates g1 a b)) by (unfold parametric_signs, rates; nra).
  destruct (C36_accepted_iff_decaying _ w eta (r * g1) v S E A1 A2 A3 H) as (J0 & _ & K).
  rewrite <- (K J HJ). rewrite (domain_checker a b r g1 G), !andb_true_iff. tauto.
Qed.
Lemma jacobian_exists a b r g1 w eta v : 0 < a -> 0 < b -> stationary_triad a b r g1 w eta v ->
  exists J, jacobian 4 (ae3 (rates g1 a b) w eta (r * g1)) v J.
Proof.
  intros A B (G & E & A1 & A2 & A3 & H).
  assert (S : parametric_signs (rates g1 a b)) by (unfold parametric_signs, rates; nra).
  destruct (C36_accepted_iff_decaying _ w eta (r * g1) v S E A1 A2 A3 H) as (J0 & X & _). exists J0. exact X.
Qed.

Theorem C141_coloured_iff_stable :
  forall dg1 tmi tma dth i j c, 0 < tmi -> 0 < dth ->
  entry (p_corrected (make_panel dg1 tmi tma dth)) i j = Some c ->
  exists theta2 theta3,
    entry (p_X (make_panel dg1 tmi tma dth)) i j = Some theta2 /\
    entry (p_Y (make_panel dg1 tmi tma dth)) i j = Some theta3 /\
    theta2 = tmi + INR j * dth /\ theta3 = tmi + INR i * dth /\
    (forall gamma1 w eta v J, stationary_triad theta2 theta3 dg1 gamma1 w eta v ->
       jacobian 4 (ae3 (rates gamma1 theta2 theta3) w eta (dg1 * gamma1)) v J -> (c = true <-> decaying4 J)) /\
    (theta2 + theta3 <> 1 ->
       (exists gamma1 w eta v, stationary_triad theta2 theta3 dg1 gamma1 w eta v) /\
       (c = true <-> stable_parameters theta2 theta3 dg1)) /\
    (theta2 + theta3 = 1 -> c = false).
Proof.
  intros dg1 tmi tma dth i j c T D H. destruct (panel_entries dg1 tmi tma dth i j) as (EX & EY & _ & EC).
  rewrite H in EC. destruct (Nat.ltb i (steps tmi tma dth) && Nat.ltb j (steps tmi tma dth)); [|discriminate].
  injection EC as ->. exists (tmi + INR j * dth), (tmi + INR i * dth). split; [exact EX|split; [exact EY|split; [reflexivity|split; [reflexivity|]]]].
  pose proof (pos_INR i). pose proof (pos_INR j).
  set (a := tmi + INR j * dth) in *. set (b := tmi + INR i * dth) in *.
  assert (A : 0 < a) by (unfold a; nra). assert (B : 0 < b) by (unfold b; nra).
  split; [|split].
  - intros. eapply C141_at; eassumption.
  - intros N. destruct (triad_exists a b dg1 A B N) as (g1 & w & eta & v & K). split; [exists g1, w, eta, v; exact K|].
    split.
    + intros C g1' w' eta' v' J' K' HJ'. apply (C141_at a b dg1 g1' w' eta' v' J' A B K' HJ'), C.
    + intros C. destruct (jacobian_exists a b dg1 g1 w eta v A B K) as (J & HJ). apply (C141_at a b dg1 g1 w eta v J A B K HJ), (C _ _ _ _ _ K HJ).
  - intros E. apply not_true_iff_false. rewrite corrected_poly. lra.
Qed.
Print Assumptions C141_coloured_iff_stable.
(** both daughters are interchangeable, and so are the signs of the detuning: the figure is symmetric *)
Theorem C141_symmetric :
  forall dg1 tmi tma dth i j,
  entry (p_corrected (make_panel dg1 tmi tma dth)) i j = entry (p_corrected (make_panel (- dg1) tmi tma dth)) j i /\
  entry (p_original (make_panel dg1 tmi tma dth)) i j = entry (p_original (make_panel (- dg1) tmi tma dth)) j i.
Proof.
  intros. destruct (panel_entries dg1 tmi tma dth i j) as (_ & _ & EO & EC). destruct (panel_entries (- dg1) tmi tma dth j i) as (_ & _ & EO' & EC').
  rewrite EO, EO', EC, EC'. rewrite (andb_comm (Nat.ltb j _)).
  set (a := tmi + INR j * dth). set (b := tmi + INR i * dth).
  assert (C : corrected_domain a b dg1 = corrected_domain b a (- dg1)).
  { apply Bool.eq_true_iff_eq. rewrite !corrected_poly. replace ((- dg1) ^ 2) with (dg1 ^ 2) by ring. rewrite (Rplus_comm b a).
    unfold poly, k2, k4. rewrite (Rplus_comm b a), (Rmult_comm b a). replace (2 * b ^ 2 + 2 * a ^ 2 + 2) with (2 * a ^ 2 + 2 * b ^ 2 + 2) by ring. reflexivity. }
  assert (O : original_domain a b dg1 = original_domain b a (- dg1)).
  { apply Bool.eq_true_iff_eq. rewrite !original_poly. replace ((- dg1) ^ 2) with (dg1 ^ 2) by ring. rewrite (Rplus_comm b a).
    unfold poly, k2, k4'. rewrite (Rplus_comm b a), (Rmult_comm b a). replace (2 * b ^ 2 + 2 * a ^ 2 + 2) with (2 * a ^ 2 + 2 * b ^ 2 + 2) by ring. reflexivity. }
  rewrite C, O. split; reflexivity.
Qed.
Print Assumptions C141_symmetric.
(** a cell that is coloured and one that is not, in the panel of detuning ratio 10 *)
Example C141_case :
  entry (p_corrected (make_panel 10 (1/10) 40 (1/100))) 390 390 = Some true /\
  entry (p_corrected (make_panel 10 (1/10) 40 (1/100))) 90 90 = Some false.
Proof.
  assert (N : steps (1/10) 40 (1/100) = 3990%nat).
  { unfold steps, Rceil. replace (up (- ((40 - 1/10) / (1/100)))) with (-3989)%Z; [reflexivity|].
    apply tech_up; rewrite ?minus_IZR, ?opp_IZR; lra. }
  destruct (panel_entries 10 (1/10) 40 (1/100) 390 390) as (_ & _ & _ & E1).
  destruct (panel_entries 10 (1/10) 40 (1/100) 90 90) as (_ & _ & _ & E2).
  rewrite E1, E2, N. replace (Nat.ltb 390 3990) with true by (symmetry; apply Nat.ltb_lt; lia).
  replace (Nat.ltb 90 3990) with true by (symmetry; apply Nat.ltb_lt; lia). cbn [andb].
  replace (1/10 + INR 390 * (1/100)) with 4 by (rewrite INR_IZR_INZ; cbn; lra).
  replace (1/10 + INR 90 * (1/100)) with 1 by (rewrite INR_IZR_INZ; cbn; lra).
  split; f_equal.
  - apply corrected_poly. unfold poly, k2, k4. lra.
  - apply not_true_iff_false. rewrite corrected_poly. unfold poly, k2, k4. lra.
Qed.

(** ** C142: which parameters the figure covers, and where a cell is drawn *)
Lemma ceil_bounds x : IZR (Rceil x) - 1 < x <= IZR (Rceil x).
Proof. unfold Rceil. rewrite minus_IZR. destruct (archimed (- x)). lra. Qed.
Lemma steps_bounds a b d : a < b -> 0 < d -> (0 < steps a b d)%nat /\ (INR (steps a b d) - 1) * d < b - a <= INR (steps a b d) * d.
Proof.
  intros L D. destruct (ceil_bounds ((b - a) / d)) as [C1 C2].
  assert (P : 0 < (b - a) / d) by (apply Rdiv_lt_0_compat; lra).
  assert (Z : (0 < Rceil ((b - a) / d))%Z) by (apply lt_IZR; lra).
  assert (E : INR (steps a b d) = IZR (Rceil ((b - a) / d))).
  { unfold steps. rewrite INR_IZR_INZ, Z2Nat.id by lia. reflexivity. }
  split; [unfold steps; lia|]. rewrite E. assert (X : b - a = (b - a) / d * d) by (field; lra).
  split; [rewrite X at 2; apply Rmult_lt_compat_r; lra|rewrite X at 1; apply Rmult_le_compat_r; lra].
Qed.

Theorem C142_grid_and_placement :
  forall dg1 tmi tma dth, tmi < tma -> 0 < dth ->
  exists n, (0 < n)%nat /\
  (* n by n parameters, from theta_min in steps of dtheta, up to but excluding theta_max *)
  (forall i j, entry (p_corrected (make_panel dg1 tmi tma dth)) i j <> None <-> (i < n)%nat /\ (j < n)%nat) /\
  (forall i j, entry (p_original (make_panel dg1 tmi tma dth)) i j <> None <-> (i < n)%nat /\ (j < n)%nat) /\
  (forall k, tmi + INR k * dth < tma <-> (k < n)%nat) /\
  (* a coloured cell is drawn at most half a step from the parameters it stands for (the last samples too
     far left, the first ones too far right), and the hatched region exactly at them *)
  (p_extent (make_panel dg1 tmi tma dth) = (tmi, tma, tmi, tma)) /\
  (forall k, (k < n)%nat -> Rabs (cell_centre tmi tma n k - (tmi + INR k * dth)) <= dth / 2) /\
  cell_centre tmi tma n 0 - tmi = (tma - tmi) / (2 * INR n).
Proof.
  intros dg1 tmi tma dth L D. destruct (steps_bounds tmi tma dth L D) as (NP & B1 & B2). set (n := steps tmi tma dth) in *.
  assert (IN : 1 <= INR n) by (change 1 with (INR 1); apply le_INR; lia).
  exists n. split; [exact NP|]. 
  assert (EN : forall i j (x : option bool), (x <> None) -> ((if Nat.ltb i n && Nat.ltb j n then x else None) <> None <-> (i < n)%nat /\ (j < n)%nat)).
  { intros i j x X. destruct (Nat.ltb_spec i n); destruct (Nat.ltb_spec j n); cbn; split; intros Q; try tauto; try lia. }
  split; [|split; [|split; [|split; [|split]]]].
  - intros i j. destruct (panel_entries dg1 tmi tma dth i j) as (_ & _ & _ & E). rewrite E. apply EN. discriminate.
  - intros i j. destruct (panel_entries dg1 tmi tma dth i j) as (_ & _ & E & _). rewrite E. apply EN. discriminate.
  - intros k. split; intros H.
    + apply INR_lt. nra.
    + pose proof (le_INR k (n - 1) ltac:(lia)) as KN. rewrite minus_INR in KN by lia. cbn [INR] in KN. nra.
  - reflexivity.
  - intros k K. unfold cell_centre. pose proof (le_INR k (n - 1) ltac:(lia)) as KN. rewrite minus_INR in KN by lia. cbn [INR] in KN.
    pose proof (pos_INR k) as K0. set (x := INR k) in *. set (N := INR n) in *. set (c := (tma - tmi) / N).
    assert (CN : c * N = tma - tmi) by (unfold c; field; lra). assert (CD : c <= dth) by nra. assert (CN' : (dth - c) * N < dth) by nra.
    replace (tmi + (x + 1 / 2) * c - (tmi + x * dth)) with (c / 2 - x * (dth - c)) by field.
    apply Rabs_le. assert (0 <= x * (dth - c)) by (apply Rmult_le_pos; lra). assert (x * (dth - c) <= (N - 1) * (dth - c)) by (apply Rmult_le_compat_r; lra).
    split; nra.
  - unfold cell_centre. cbn [INR]. field. lra.
Qed.
Print Assumptions C142_grid_and_placement.

(** the published panels are of this kind, and the four files do not overwrite each other *)
Theorem C142_published_panels :
  (forall first P, In P (make_panels (get_grid_information first)) ->
     exists tmi tma dth, 0 < tmi < tma /\ 0 < dth /\ P = make_panel (p_dg1 P) tmi tma dth) /\
  (map p_dg1 (make_panels (get_grid_information true)) = [1/10; 1; 10]) /\
  (map p_dg1 (make_panels (get_grid_information false)) = [100; 1000; 10000]) /\
  (forall a f a' f', generate_save_name a f = generate_save_name a' f' -> a = a' /\ f = f').
Proof.
  split; [|split; [reflexivity|split; [reflexivity|]]].
  - intros first P H. destruct first; cbn [make_panels get_grid_information map2 combine domega_gamma1 theta_min theta_max dtheta] in H;
      repeat (destruct H as [<-|H]; [do 3 eexists; split; [|split; [|reflexivity]]; lra|]); destruct H.
  - intros [] [] [] [] H; cbn in H; try discriminate; auto.
Qed.
Print Assumptions C142_published_panels.

(** ** C143: detuning *)
Theorem C143_stable_iff_detuned_enough :
  forall a b, 0 < a -> 0 < b ->
  (* unstable whatever the detuning ... *)
  (a + b <= 1 \/ (a + b - 1) * (a + b + 1) ^ 2 <= (4 * (a + b) + 2) * (a * b) -> forall r, corrected_domain a b r = false) /\
  (* ... or stable exactly above a threshold *)
  (1 < a + b -> (4 * (a + b) + 2) * (a * b) < (a + b - 1) * (a + b + 1) ^ 2 ->
     exists r0, 0 < r0 /\ forall r, corrected_domain a b r = true <-> r0 < Rabs r).
Proof.
  intros a b A B. split.
  - intros H r. apply not_true_iff_false. rewrite corrected_poly. intros [T P]. destruct H as [H|H]; [lra|].
    apply (proj1 (poly_ray a b (k4 a b) A B T (k4_k2 a b A B T)) ltac:(unfold k4; lra) r P).
  - intros T H. destruct (proj2 (poly_ray a b (k4 a b) A B T (k4_k2 a b A B T)) ltac:(unfold k4; lra)) as (r0 & R0 & E).
    exists r0. split; [exact R0|]. intros r. rewrite corrected_poly, E. tauto.
Qed.
Print Assumptions C143_stable_iff_detuned_enough.
Theorem C143_domains_are_nested :
  forall a b r r', 0 < a -> 0 < b -> Rabs r <= Rabs r' -> corrected_domain a b r = true -> corrected_domain a b r' = true.
Proof.
  intros a b r r' A B L H. destruct (C143_stable_iff_detuned_enough a b A B) as [N Y].
  destruct (Rle_dec (a + b) 1) as [C|C]; [rewrite (N (or_introl C)) in H; discriminate|].
  destruct (Rle_dec ((a + b - 1) * (a + b + 1) ^ 2) ((4 * (a + b) + 2) * (a * b))) as [C'|C']; [rewrite (N (or_intror C')) in H; discriminate|].
  destruct (Y ltac:(lra) ltac:(lra)) as (r0 & _ & E). apply E. apply E in H. lra.
Qed.
Print Assumptions C143_domains_are_nested.
(** strong damping of the daughters always suffices once the detuning is large *)
Theorem C143_strong_damping :
  forall a b, 0 < a -> 0 < b -> 1 + sqrt 3 < a + b -> exists r0, 0 < r0 /\ forall r, corrected_domain a b r = true <-> r0 < Rabs r.
Proof.
  intros a b A B H. assert (S3 : sqrt 3 * sqrt 3 = 3) by (apply sqrt_sqrt; lra). assert (P3 : 0 < sqrt 3) by (apply sqrt_lt_R0; lra).
  apply (C143_stable_iff_detuned_enough a b A B); [lra|]. set (s := a + b) in *. assert (Q : 4 * (a * b) <= s ^ 2) by (pose proof (pow2_ge_0 (a - b)); unfold s; nra).
  assert (K : 0 < s ^ 2 - 2 * s - 2) by nra. nra.
Qed.
Print Assumptions C143_strong_damping.
(** without damping above that bound there are triads that no detuning stabilises: two equal daughters *)
Example C143_case : (forall r, corrected_domain 1 1 r = false) /\ corrected_domain 4 4 10 = true /\ corrected_domain 4 4 1 = false.
Proof.
  split; [|split].
  - apply C143_stable_iff_detuned_enough; lra.
  - apply corrected_poly. unfold poly, k2, k4. lra.
  - apply not_true_iff_false. rewrite corrected_poly. unfold poly, k2, k4. lra.
Qed.

(** ** C144: Dziembowski's criterion *)
Theorem C144_original_contains_corrected :
  forall a b r, 0 < a -> 0 < b ->
  (corrected_domain a b r = true -> original_domain a b r = true) /\
  (original_domain a b r = true -> 1 < a + b) /\
  (original_domain a b 0 = corrected_domain a b 0).
Proof.
  intros a b r A B. split; [|split].
  - rewrite corrected_poly, original_poly. intros [T P]. split; [exact T|]. eapply Rlt_le_trans; [exact P|]. unfold poly.
    assert (k4 a b <= k4' a b).
    { unfold k4, k4'. assert (0 < (a + b - 1) * (3 * (a + b) ^ 2 + 1 - (a + b + 1) ^ 2)) by (apply Rmult_lt_0_compat; nra). lra. }
    assert (0 <= (r ^ 2) ^ 2) by apply pow2_ge_0. nra.
  - rewrite original_poly. tauto.
  - apply Bool.eq_true_iff_eq. rewrite original_poly, corrected_poly. unfold poly. replace (0 ^ 2) with 0 by ring.
    split; intros [T H]; (split; [exact T|]); lra.
Qed.
Print Assumptions C144_original_contains_corrected.
(** its threshold is never larger, and it exists for triads that are never stable; where the true threshold
    exists, the two criteria disagree exactly for the detunings between the two *)
Theorem C144_difference_of_the_domains :
  forall a b, 0 < a -> 0 < b -> 1 < a + b -> (4 * (a + b) + 2) * (a * b) < (a + b - 1) * (3 * (a + b) ^ 2 + 1) ->
  exists ro, 0 < ro /\ (forall r, original_domain a b r = true <-> ro < Rabs r) /\
  ((4 * (a + b) + 2) * (a * b) < (a + b - 1) * (a + b + 1) ^ 2 ->
     exists rc, ro < rc /\ (forall r, corrected_domain a b r = true <-> rc < Rabs r) /\
     forall r, original_domain a b r <> corrected_domain a b r <-> ro < Rabs r <= rc) /\
  ((a + b - 1) * (a + b + 1) ^ 2 <= (4 * (a + b) + 2) * (a * b) ->
     forall r, original_domain a b r <> corrected_domain a b r <-> ro < Rabs r).
Proof.
  intros a b A B T H. destruct (proj2 (poly_ray a b (k4' a b) A B T (k4'_k2 a b A B T)) ltac:(unfold k4'; lra)) as (ro & R0 & E).
  assert (EO : forall r, original_domain a b r = true <-> ro < Rabs r) by (intros r; rewrite original_poly, E; tauto).
  exists ro. split; [exact R0|]. split; [exact EO|]. split.
  - intros K. destruct (proj2 (C143_stable_iff_detuned_enough a b A B) T K) as (rc & RC & EC).
    assert (L : ro < rc).
    { (* at the threshold of the corrected criterion the original polynomial is positive *)
      destruct (Rlt_dec ro rc) as [Q|Q]; [exact Q|exfalso].
      (* the corrected polynomial at rc is not positive; the original one at the same point is not positive either, as ro >= rc;
         take a detuning just above: both true, contradiction with the strict gap at ro *)
      assert (F : ~ 0 < poly a b (k4' a b) (ro ^ 2)). { rewrite E. rewrite Rabs_right by lra. lra. }
      assert (G : forall e, 0 < e -> 0 < poly a b (k4 a b) ((ro + e) ^ 2)).
      { intros e He. destruct (corrected_poly a b (ro + e)) as [CP _]. apply CP. apply EC. rewrite Rabs_right by lra. lra. }
      assert (D : k4 a b < k4' a b).
      { unfold k4, k4'. assert (0 < (a + b - 1) * (3 * (a + b) ^ 2 + 1 - (a + b + 1) ^ 2)) by (apply Rmult_lt_0_compat; nra). lra. }
      assert (F' : poly a b (k4 a b) (ro ^ 2) < 0).
      { unfold poly in *. assert (0 < (ro ^ 2) ^ 2) by (apply pow_lt, pow_lt, R0). nra. }
      set (f := fun x => poly a b (k4 a b) (x ^ 2)) in *.
      assert (CF : continuity_pt f ro).
      { apply continuity_pt_filterlim. apply (ex_derive_continuous f ro). unfold f, poly. auto_derive. exact I. }
      destruct (CF (- f ro)) as (dl & DP & CD). { unfold f. lra. }
      specialize (CD (ro + dl / 2)). assert (X : Rabs (f (ro + dl / 2) - f ro) < - f ro).
      { apply CD. split; [split; [exact I|lra]|]. unfold dist. cbn. unfold R_dist. replace (ro + dl / 2 - ro) with (dl / 2) by ring. rewrite Rabs_right; lra. }
      apply Rabs_def2 in X. pose proof (G (dl / 2) ltac:(lra)) as X'. change (0 < f (ro + dl / 2)) in X'. change (f ro < 0) in F'. lra. }
    exists rc. split; [exact L|]. split; [exact EC|]. intros r. specialize (EO r). specialize (EC r).
    destruct (original_domain a b r), (corrected_domain a b r); split; intros Q; try congruence.
    + exfalso. destruct EC as [X _]. specialize (X eq_refl). lra.
    + split; [tauto|]. apply Rnot_lt_le. intros X. apply EC in X. discriminate.
    + exfalso. destruct EC as [X _]. specialize (X eq_refl). assert (Y : ro < Rabs r) by lra. apply EO in Y. discriminate.
    + exfalso. destruct Q as [Q _]. apply EO in Q. discriminate.
  - intros K r. pose proof (proj1 (C143_stable_iff_detuned_enough a b A B) (or_intror K) r) as Z. rewrite Z. rewrite <- EO.
    destruct (original_domain a b r); split; congruence.
Qed.
Print Assumptions C144_difference_of_the_domains.
(** two equal daughters with theta = 1: the old criterion hatches every detuning ratio above 1, none is stable *)
Example C144_case : original_domain 1 1 2 = true /\ corrected_domain 1 1 2 = false /\
  original_domain 4 4 5 = true /\ corrected_domain 4 4 5 = false /\ corrected_domain 4 4 10 = true.
Proof.
  split; [apply original_poly; unfold poly, k2, k4'; lra|split; [apply C143_case|split; [|split]]].
  - apply original_poly; unfold poly, k2, k4'; lra.
  - apply not_true_iff_false. rewrite corrected_poly. unfold poly, k2, k4. lra.
  - apply C143_case.
Qed.
