(** * The hypotheses of C167-C169 are met: an object for a grid of two triads, an object for a profile, equal arguments for both classes. *)
From Coq Require Import Reals QArith List ZArith String Bool.
From Coquelicot Require Import Coquelicot.
From Verif Require Import Base Py Inlist_Model Parser_Model Setup_Model Run_Model Legacy_Model Legacy_Spec Properties_Legacy Properties_RunExamples.
From Verif Require Solver_Model Solver_Spec Properties_Solver Properties_RunFiles.
Import ListNotations.
Local Open Scope string_scope.

Definition ex_common : table := [("base_dir", VStr "/b/"); ("ad_path", VStr "/ad/"); ("nad_path", VStr "/nad/"); ("cheby_blow_up_factor", VInt 1000); ("polytrope_mass", VInt 3)].
Definition ex_grid_kw : table := (("cc_profile_selection_dict", VNone) :: ("mode_selection_dict", VTab (mode_selection (ex_s true 2 (VStr "hdf5")))) :: ("compute_grid", VBool true) :: ex_common)%list.
Definition ex_sel : table := cc_profile_selection (ex_s false 2 (VStr "hdf5")).
Definition ex_profile_kw : table := (("cc_profile_selection_dict", VTab ex_sel) :: ("compute_profile", VBool true) :: ("save_name", VStr "out") :: ex_common)%list.
Notation ex_construct := (construct ex_repr nat unit ex_world ex_argv).
(** what a test of a constructed object can see, without the empty result lists *)
Definition seen (r : res (object nat unit)) : res (purpose * val * Solver_Model.settings * source) :=
  match r with Ok b => Ok (b_purpose _ _ b, b_name _ _ b, b_cfg _ _ b, k_source (b_wiring _ _ b)) | Exc e => Exc e | UB => UB end.
Lemma seen_ok r p n c k : seen r = Ok (p, n, c, k) -> exists b, r = Ok b /\ b_purpose _ _ b = p /\ b_name _ _ b = n /\ b_cfg _ _ b = c /\ k_source (b_wiring _ _ b) = k.
Proof. destruct r as [b| |]; cbn; try discriminate. intros E. injection E as <- <- <- <-. exists b. repeat split. Qed.
Lemma ex_alone (k : wiring) : exists t1 t2, Properties_RunFiles.alone nat unit ex_world k [2; 1; 1]%Z [2; 1; 1]%Z ex_cfg (1, 5, 6)%Z = Ok t1 /\
  mapM (Properties_RunFiles.alone nat unit ex_world k [2; 1; 1]%Z [2; 1; 1]%Z ex_cfg) [(1, 5, 6); (2, 5, 6)]%Z = Ok [t1; t2].
Proof.
  destruct (Properties_Solver.C62_hypotheses_met true) as ((t1 & t2 & MT & _) & _). exists t1, t2. split; [|exact MT].
  change (mapM (Properties_Solver.ex_of true) [(1, 5, 6); (2, 5, 6)]%Z = Ok [t1; t2]) in MT. cbn [mapM] in MT. destruct (Properties_Solver.ex_of true (1, 5, 6)%Z) as [t| |] eqn:X; [|discriminate|discriminate].
  cbn [bind] in MT. destruct (Properties_Solver.ex_of true (2, 5, 6)%Z) as [t'| |]; [|discriminate|discriminate]. cbn [bind] in MT. injection MT as <- _. exact X.
Qed.
Theorem C167_hypotheses_met :
  (exists b, ex_construct ex_grid_kw = Ok b /\ b_purpose _ _ b = ForGrid [2; 1; 1]%Z [2; 1; 1]%Z [(1, 5, 6); (2, 5, 6)]%Z) /\
  (exists b t, ex_construct ex_profile_kw = Ok b /\ b_purpose _ _ b = ForProfile (VTab ex_sel) /\ describes ex_sel 1 5 6 [2; 1; 1]%Z [2; 1; 1]%Z /\
     Properties_RunFiles.alone nat unit ex_world (b_wiring _ _ b) [2; 1; 1]%Z [2; 1; 1]%Z (b_cfg _ _ b) (1, 5, 6)%Z = Ok t) /\
  ex_construct (tl ex_grid_kw) = Exc TypeError /\ ex_construct (tl (tl ex_profile_kw)) = Exc TypeError.
Proof.
  split; [|split; [|split; vm_compute; reflexivity]].
  - destruct (seen_ok (ex_construct ex_grid_kw) (ForGrid [2; 1; 1]%Z [2; 1; 1]%Z [(1, 5, 6); (2, 5, 6)]%Z) (VStr "") ex_cfg Adiabatic ltac:(vm_compute; reflexivity)) as (b & E & P & _). exists b. split; assumption.
  - destruct (seen_ok (ex_construct ex_profile_kw) (ForProfile (VTab ex_sel)) (VStr "out") ex_cfg Adiabatic ltac:(vm_compute; reflexivity)) as (b & E & P & _ & Cf & _).
    destruct (ex_alone (b_wiring _ _ b)) as (t1 & t2 & A & _). exists b, t1. split; [exact E|]. split; [exact P|]. split; [repeat split|]. rewrite Cf. exact A.
Qed.
Theorem C168_hypotheses_met :
  (exists b s', ex_construct ex_grid_kw = Ok b /\ b_purpose _ _ b = ForGrid [2; 1; 1]%Z [2; 1; 1]%Z [(1, 5, 6); (2, 5, 6)]%Z /\
     run_triads nat unit ex_world (b_wiring _ _ b) [2; 1; 1]%Z [2; 1; 1]%Z (b_cfg _ _ b) [(1, 5, 6); (2, 5, 6)]%Z (Solver_Model.fresh nat unit 2) = (s', Ok tt)) /\
  (exists a a' k', call legacy_sig [ex_argv] ex_grid_kw = Ok a /\ solver_init ex_repr (w_folders _ _ ex_world) grid_sig ex_argv ex_common = Ok (a', k') /\ same_arguments a a').
Proof.
  split.
  - destruct (seen_ok (ex_construct ex_grid_kw) (ForGrid [2; 1; 1]%Z [2; 1; 1]%Z [(1, 5, 6); (2, 5, 6)]%Z) (VStr "") ex_cfg Adiabatic ltac:(vm_compute; reflexivity)) as (b & E & P & _ & Cf & _).
    destruct (ex_alone (b_wiring _ _ b)) as (t1 & t2 & _ & A). exists b.
    destruct (Properties_Solver.C62_each_triad_in_its_slot _ _ _ _ _ _ _ _ _ _ _ _ _ _ _ _ _ (Solver_Model.fresh nat unit 2) A (Properties_RunFiles.fresh_sized nat unit 2)) as (s1 & R1 & _).
    exists s1. split; [exact E|]. split; [exact P|]. rewrite Cf. exact R1.
  - destruct (call legacy_sig [ex_argv] ex_grid_kw) as [a| |] eqn:Ea; [|vm_compute in Ea; discriminate|vm_compute in Ea; discriminate].
    destruct (solver_init ex_repr (w_folders _ _ ex_world) grid_sig ex_argv ex_common) as [[a' k']| |] eqn:Eb; [|vm_compute in Eb; discriminate|vm_compute in Eb; discriminate].
    exists a, a', k'. split; [reflexivity|]. split; [reflexivity|].
    assert (X : forallb (fun n => match tget a n, tget a' n with Some v, Some v' => match v, v' with VStr x, VStr y => String.eqb x y | VBool x, VBool y => Bool.eqb x y | VInt x, VInt y => Z.eqb x y | VNone, VNone => true
      | VFloat x, VFloat y => Z.eqb (Qnum x) (Qnum y) && Pos.eqb (Qden x) (Qden y) | VArr [VStr x], VArr [VStr y] => String.eqb x y | _, _ => false end | _, _ => false end) shared = true).
    { vm_compute in Ea. vm_compute in Eb. injection Ea as <-. injection Eb as <- _. vm_compute. reflexivity. }
    intros n N. rewrite forallb_forall in X. specialize (X n N). destruct (tget a n) as [v|]; [|discriminate]. destruct (tget a' n) as [v'|]; [|destruct v; discriminate]. f_equal.
    destruct v as [|bb|z|q|st|la|lt|tt'], v' as [|bb'|z'|q'|st'|la'|lt'|tt'']; try discriminate; try reflexivity; try (destruct la as [|[] [|]]; discriminate).
    + f_equal. apply Bool.eqb_prop, X.
    + f_equal. apply Z.eqb_eq, X.
    + f_equal. apply andb_true_iff in X. destruct X as [X1 X2]. apply Z.eqb_eq in X1. apply Pos.eqb_eq in X2. destruct q, q'. cbn in *. congruence.
    + f_equal. apply String.eqb_eq, X.
    + destruct la as [|[] [|]]; try discriminate. destruct la' as [|[] [|]]; try discriminate. apply String.eqb_eq in X. congruence.
Qed.
(** computing the whole grid does not make the rates available; the profile object has a profile after its profile was computed *)
Theorem C169_hypotheses_met : exists b, ex_construct ex_grid_kw = Ok b /\ List.Forall not_profile [Call true false; OneTriad 0; Statistics] /\
  linear_driving_rates nat unit (history ex_repr nat unit ex_world [Call true false] b) = Exc AttributeError.
Proof.
  destruct (proj1 C167_hypotheses_met) as (b & E & _). exists b. split; [exact E|]. split; [repeat constructor|]. exact (C169_driving_rates ex_repr nat unit ex_world ex_argv ex_grid_kw b _ E).
Qed.
