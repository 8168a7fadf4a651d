(** * Pre-checks and the gate in front of the coupling computation (C30-C33). *)
From Coq Require Import Reals ZArith List Lia Lra Bool Permutation.
From Coquelicot Require Import Coquelicot.
From Verif Require Import Base Py Stab_Model Stab_Spec Stab_Proofs Properties_Stab PreCheck_Model PreCheck_Spec PreCheck_Proofs.
Import ListNotations.
Local Open Scope R_scope.

(** C30: the azimuthal check passes exactly when the longitude integral does not vanish. *)
Theorem C30_azimuthal_rule :
  forall m1 m2 m3 c1 c2 c3,
  (azimuthal_rule [m1; m2; m3] [c1; c2; c3] = true <->
   longitude_integral (signed c1 m1 + signed c2 m2 + signed c3 m3) <> 0) /\
  (azimuthal_rule [m1; m2; m3] [c1; c2; c3] = true <-> (signed c1 m1 + signed c2 m2 + signed c3 m3 = 0)%Z).
Proof.
  intros. rewrite azimuthal_rule_iff. split; [|reflexivity]. rewrite longitude_integral_val.
  destruct (Z.eqb_spec (signed c1 m1 + signed c2 m2 + signed c3 m3) 0) as [E|E].
  - split; [intros _|auto]. assert (0 < PI) by apply PI_RGT_0. lra.
  - split; [contradiction|]. intros H. exfalso. apply H. reflexivity.
Qed.
Print Assumptions C30_azimuthal_rule.
(** No conjugation argument, or one given as a plain bool (whatever its value), conjugates the first mode only: m1 = m2 + m3. *)
Theorem C30_default_conjugation :
  forall cs, (cs = ConjNone \/ exists b l, cs = ConjBools b l) ->
  conj_triads cs = Ok [[true; false; false]] /\
  forall m1 m2 m3, azimuthal_rule [m1; m2; m3] [true; false; false] = true <-> (m1 = m2 + m3)%Z.
Proof.
  intros cs H. split; [destruct H as [->|(b & l & ->)]; reflexivity|]. intros. rewrite azimuthal_rule_iff. unfold signed. lia.
Qed.
Print Assumptions C30_default_conjugation.

(** C31: the meridional check, for modes with meridional orders l - |m|. When it
    rejects, the latitude integral of any product of functions with the modes' parities
    vanishes. *)
Theorem C31_meridional_rule :
  forall k1 k2 k3,
  (meridional_rule [k1; k2; k3] = true <->
   Nat.Even (List.length (filter (fun k => Z.odd k) [k1; k2; k3]))) /\
  (meridional_rule [k1; k2; k3] = false ->
   forall f1 f2 f3, has_parity k1 f1 -> has_parity k2 f2 -> has_parity k3 f3 ->
   (forall x, continuous (fun mu => f1 mu * f2 mu * f3 mu) x) ->
   RInt (fun mu => f1 mu * f2 mu * f3 mu) (-1) 1 = 0) /\
  (meridional_rule [k1; k2; k3] = true ->
   exists f1 f2 f3, has_parity k1 f1 /\ has_parity k2 f2 /\ has_parity k3 f3 /\
   (forall x, continuous (fun mu => f1 mu * f2 mu * f3 mu) x) /\
   0 < RInt (fun mu => f1 mu * f2 mu * f3 mu) (-1) 1).
Proof.
  intros k1 k2 k3. rewrite meridional_rule_iff, !Z.even_add. split; [|split].
  - cbn [filter]. rewrite <- !Z.negb_even. rewrite <- Nat.even_spec. destruct (Z.even k1), (Z.even k2), (Z.even k3); cbn; intuition discriminate.
  - intros H f1 f2 f3 P1 P2 P3 C. apply odd_integral; [exact C|]. intros x. rewrite P1, P2, P3.
    destruct (Z.even k1), (Z.even k2), (Z.even k3); cbn in H; try discriminate; ring.
  - intros H. set (f := fun (k : Z) (x : R) => if Z.even k then 1 else x). exists (f k1), (f k2), (f k3).
    assert (P : forall k, has_parity k (f k)) by (intros k x; unfold f; destruct (Z.even k); ring).
    repeat split; try apply P.
    + intros x. unfold f. destruct (Z.even k1), (Z.even k2), (Z.even k3); apply (@ex_derive_continuous R_AbsRing R_NormedModule); auto_derive; trivial.
    + assert (E : (forall x, f k1 x * f k2 x * f k3 x = 1) \/ (forall x, f k1 x * f k2 x * f k3 x = x ^ 2)).
      { unfold f. destruct (Z.even k1), (Z.even k2), (Z.even k3); cbn in H; try discriminate; [left|right|right|right]; intros; ring. }
      destruct E as [E|E]; erewrite RInt_ext by (intros x _; apply E).
      * rewrite RInt_const. unfold scal; simpl; unfold mult; simpl. lra.
      * assert (I : is_RInt (fun x => x ^ 2) (-1) 1 (1 ^ 3 / 3 - (-1) ^ 3 / 3)).
        { apply (is_RInt_derive (fun x => x ^ 3 / 3)); intros x _; [auto_derive; [trivial|field]|].
          apply (@ex_derive_continuous R_AbsRing R_NormedModule). auto_derive. trivial. }
        apply (is_RInt_unique (V := R_CompleteNormedModule)) in I. rewrite I. lra.
Qed.
Print Assumptions C31_meridional_rule.

(** The orders compared are those of the triad's modes, for the triad (1,2,3) and any
    reordering of it; not so for other triads. *)
Theorem C31_orders_of_permuted_triads :
  forall a b c rest t, Permutation t [1; 2; 3]%Z ->
  exists ll lm lk, relevant_info (a :: b :: c :: rest) t = Ok (ll, lm, lk) /\
    meridional_rule lk = meridional_rule [(ml a - Z.abs (mm a))%Z; (ml b - Z.abs (mm b))%Z; (ml c - Z.abs (mm c))%Z].
Proof.
  intros a b c rest t H. destruct (info_perm a b c rest t H) as (ll & lm & lk & E & _ & P).
  exists ll, lm, lk. split; [exact E|]. unfold meridional_rule. f_equal. f_equal.
  unfold k_grav_in in P. revert P. generalize [(ml a - Z.abs (mm a))%Z; (ml b - Z.abs (mm b))%Z; (ml c - Z.abs (mm c))%Z]. intros l P.
  unfold zsum. clear -P. assert (F : forall l1 l2, Permutation l1 l2 -> forall x, fold_left Z.add l1 x = fold_left Z.add l2 x).
  { clear. intros l1 l2 P. induction P; intros x0; cbn; auto; [f_equal; lia|rewrite IHP1; apply IHP2]. }
  apply F, P.
Qed.
Print Assumptions C31_orders_of_permuted_triads.
Theorem C31_other_triads_wrong :
  (exists a b c, relevant_info [a; b; c] [1; 1; 2]%Z = Ok ([ml a; ml a; ml b], [mm a; mm a; mm b], [0; 0; 0]%Z) /\
     (ml b - Z.abs (mm b) = 1)%Z) /\
  (forall a b c d, relevant_info [a; b; c; d] [1; 2; 4]%Z = Exc IndexError).
Proof.
  split; [|reflexivity]. exists (mkMode 1 1 0), (mkMode 2 1 0), (mkMode 1 1 0). split; reflexivity.
Qed.
Print Assumptions C31_other_triads_wrong.

(** C32: the resonance scenarios are the sign patterns they name and exclude each
    other; a zero rate is none of them. *)
Theorem C32_resonance_scenarios :
  forall g : vec,
  (check_parametric g = true <-> 0 < g 0%nat /\ g 1%nat < 0 /\ g 2%nat < 0) /\
  (check_direct g = true <-> g 0%nat < 0 /\ 0 < g 1%nat /\ 0 < g 2%nat) /\
  (check_driven g = true <-> 0 < g 0%nat /\ 0 < g 1%nat /\ 0 < g 2%nat) /\
  (check_parametric g = true -> check_direct g = false /\ check_driven g = false) /\
  (check_direct g = true -> check_parametric g = false /\ check_driven g = false) /\
  (check_driven g = true -> check_parametric g = false /\ check_direct g = false) /\
  ((g 0%nat = 0 \/ g 1%nat = 0 \/ g 2%nat = 0) -> check_parametric g = false /\ check_direct g = false /\ check_driven g = false).
Proof.
  intros g.
  assert (P : check_parametric g = true <-> 0 < g 0%nat /\ g 1%nat < 0 /\ g 2%nat < 0) by (unfold check_parametric; rewrite !andb_true_iff, !Rltb_spec; reflexivity).
  assert (D : check_direct g = true <-> g 0%nat < 0 /\ 0 < g 1%nat /\ 0 < g 2%nat) by (unfold check_direct; rewrite !andb_true_iff, !Rltb_spec; reflexivity).
  assert (V : check_driven g = true <-> 0 < g 0%nat /\ 0 < g 1%nat /\ 0 < g 2%nat) by (unfold check_driven; rewrite !andb_true_iff, !Rltb_spec; reflexivity).
  split; [exact P|split; [exact D|split; [exact V|]]]. rewrite P, D, V. rewrite <- !not_true_iff_false, P, D, V. repeat split; lra.
Qed.
Print Assumptions C32_resonance_scenarios.
(** Which scenarios the stability pre-check can accept: parametric ones, and direct
    ones of a harmonic pair; never driven ones. *)
Theorem C32_accepted_scenarios :
  forall two g q, linearly_stable two g q = true ->
  check_parametric g = true \/ (two = true /\ check_direct g = true).
Proof.
  intros two g q H. unfold linearly_stable in H. destruct (check_parametric g); [auto|]. destruct (check_direct g); [|discriminate].
  destruct two; [auto|discriminate].
Qed.
Print Assumptions C32_accepted_scenarios.
Example C32_case : linearly_stable false (vec3 1 (-4) (-4)) 2 = true /\ linearly_stable true (vec3 (-3) 1 1) 0 = true /\ linearly_stable false (vec3 (-3) 1 1) 0 = false.
Proof.
  assert (P1 : check_parametric (vec3 1 (-4) (-4)) = true) by (apply C32_resonance_scenarios; unfold vec3; repeat split; lra).
  assert (P2 : check_parametric (vec3 (-3) 1 1) = false) by (apply not_true_iff_false; rewrite (proj1 (C32_resonance_scenarios _)); unfold vec3; lra).
  assert (P3 : check_direct (vec3 (-3) 1 1) = true) by (apply C32_resonance_scenarios; unfold vec3; repeat split; lra).
  unfold linearly_stable. rewrite P1, P2, P3. repeat split.
  - apply andb_true_iff. split; [|apply C34_case]. apply Rltb_spec. unfold sum3, vec3. lra.
  - apply C37_direct_case.
Qed.

(** C33: when is the coupling coefficient of a triad computed? With stationary solving:
    exactly when both selection rules and the stability test pass. Without it: always. *)
Definition rules_pass (cc : cc_conj) (a b c : mode) (p : bool) : Prop :=
  match cc with
  | CcNone | CcBool _ =>
      p = true <-> (mm a = mm b + mm c)%Z /\ Z.even (ml a - Z.abs (mm a) + (ml b - Z.abs (mm b)) + (ml c - Z.abs (mm c))) = true
  | CcTuple l => forall c1 c2 c3, l = [c1; c2; c3] ->
      (p = true <-> (signed c1 (mm a) + signed c2 (mm b) + signed c3 (mm c) = 0)%Z
                    /\ Z.even (ml a - Z.abs (mm a) + (ml b - Z.abs (mm b)) + (ml c - Z.abs (mm c))) = true)
  end.
Definition harmonic (b c : mode) : bool := if Z.eq_dec (mm b) (mm c) then if Z.eq_dec (mn b) (mn c) then if Z.eq_dec (ml b) (ml c) then true else false else false else false.

Theorem C33_gate :
  forall cf a b c g q, polytrope cf = false ->
  exists rules, rules_pass (terms_cc_conj cf) a b c rules /\
  precheck cf [a; b; c] g q = Ok (if stat_solv cf then rules && linearly_stable (harmonic b c) g q else rules) /\
  triad_computed cf [a; b; c] g q = Ok (if stat_solv cf then rules && linearly_stable (harmonic b c) g q else true).
Proof.
  intros cf a b c g q Hp.
  assert (L : exists l, conj_triads (conf_conj cf) = Ok [l] /\ match terms_cc_conj cf with CcTuple l' => l = l' | _ => l = [true; false; false] end).
  { unfold conf_conj. destruct (terms_cc_conj cf); eexists; split; reflexivity. }
  destruct L as (l & Hl & Hcc).
  set (rules := azimuthal_rule [mm a; mm b; mm c] l && meridional_rule [k_grav_in (ml a) (mm a); k_grav_in (ml b) (mm b); k_grav_in (ml c) (mm c)]).
  exists rules. split.
  - unfold rules_pass, rules. rewrite meridional_rule_iff. unfold k_grav_in. destruct (terms_cc_conj cf) as [|bb|l']; subst l.
    + rewrite andb_true_iff, azimuthal_rule_iff. unfold signed. split; intros [X Y]; split; try assumption; lia.
    + rewrite andb_true_iff, azimuthal_rule_iff. unfold signed. split; intros [X Y]; split; try assumption; lia.
    + intros c1 c2 c3 E. subst l'. rewrite andb_true_iff, azimuthal_rule_iff. reflexivity.
  - assert (T : two_mode_sum [a; b; c] = Ok (harmonic b c)).
    { transitivity (Ok ((mm b =? mm c)%Z && (mn b =? mn c)%Z && (ml b =? ml c)%Z)); [reflexivity|]. f_equal. unfold harmonic.
      destruct (Z.eqb_spec (mm b) (mm c)), (Z.eq_dec (mm b) (mm c)); try contradiction; [|reflexivity].
      destruct (Z.eqb_spec (mn b) (mn c)), (Z.eq_dec (mn b) (mn c)); try contradiction; [|reflexivity].
      destruct (Z.eqb_spec (ml b) (ml c)), (Z.eq_dec (ml b) (ml c)); try contradiction; reflexivity. }
    assert (P : precheck cf [a; b; c] g q = Ok (if stat_solv cf then rules && linearly_stable (harmonic b c) g q else rules)).
    { unfold precheck. rewrite Hp, T. cbn [bind]. unfold three_mode_check. rewrite (generic_123 a b c [] _ (conf_conj cf) (or_intror eq_refl) l Hl). fold rules.
      destruct (stat_solv cf); reflexivity. }
    split; [exact P|]. unfold triad_computed. rewrite P. cbn [bind]. unfold coupler_created. rewrite Hp. destruct (stat_solv cf); cbn; rewrite ?andb_true_r, ?orb_false_r, ?orb_true_r; reflexivity.
Qed.
Print Assumptions C33_gate.
(** Polytropic runs are never rejected. *)
Theorem C33_polytropes_not_checked :
  forall cf a b c g q, polytrope cf = true -> precheck cf [a; b; c] g q = Ok true /\ triad_computed cf [a; b; c] g q = Ok true.
Proof. intros cf a b c g q H. unfold triad_computed, precheck, coupler_created. rewrite H. cbn. auto. Qed.
Print Assumptions C33_polytropes_not_checked.
(** Put together with C36: every three-mode triad let through by stationary solving has
    only decaying perturbations at its fixed points. *)
Theorem C33_computed_triads_are_stable :
  forall cf a b c g w eta d v J,
  polytrope cf = false -> stat_solv cf = true -> harmonic b c = false ->
  triad_computed cf [a; b; c] g (d / sum3 g) = Ok true ->
  eta <> 0 -> 0 < v 0%nat -> 0 < v 1%nat -> 0 < v 2%nat -> (forall i, (i < 4)%nat -> ae3 g w eta d v i = 0) ->
  jacobian 4 (ae3 g w eta d) v J -> decaying4 J.
Proof.
  intros cf a b c g w eta d v J Hp Hs Hh HT He V0 V1 V2 HF HJ.
  destruct (C33_gate cf a b c g (d / sum3 g) Hp) as (rules & _ & _ & T). rewrite T, Hs, Hh in HT. injection HT as HT. apply andb_true_iff in HT. destruct HT as [_ HT].
  unfold linearly_stable in HT. destruct (check_parametric g) eqn:P; [|destruct (check_direct g); discriminate].
  apply (proj1 (C32_resonance_scenarios g)) in P.
  destruct (C36_accepted_iff_decaying g w eta d v P He V0 V1 V2 HF) as (J0 & _ & X). apply (X J HJ). exact HT.
Qed.
Print Assumptions C33_computed_triads_are_stable.
Example C33_case : triad_computed (mkConf false true CcNone) [mkMode 2 2 (-30); mkMode 1 1 (-40); mkMode 1 1 (-45)]%Z (vec3 1 (-4) (-4)) 2 = Ok true
  /\ harmonic (mkMode 1 1 (-40)) (mkMode 1 1 (-45)) = false.
Proof.
  split; [|reflexivity]. destruct (C33_gate (mkConf false true CcNone) (mkMode 2 2 (-30)) (mkMode 1 1 (-40)) (mkMode 1 1 (-45)) (vec3 1 (-4) (-4)) 2 eq_refl) as (r & R & _ & T).
  rewrite T. cbn [stat_solv]. change (harmonic (mkMode 1 1 (-40)) (mkMode 1 1 (-45))) with false. rewrite (proj1 C32_case). cbn in R. f_equal. rewrite andb_true_r. apply R. split; [lia|reflexivity].
Qed.
