(** * Lemmas on unit conversion and dimensionalisation of a whole dictionary. *)
From Coq Require Import List ZArith Lia Reals Lra String Ascii Bool.
From Coquelicot Require Import Complex.
From Verif Require Import Base Py Load_Model Load_Spec Load_Proofs Load_UnitKeys.
Import ListNotations.
Local Open Scope R_scope.

Lemma vscale_1 v : vscale 1 v = v.
Proof.
  destruct v as [l|l|l|s]; cbn [vscale]; try reflexivity; f_equal.
  - rewrite <- (map_id l) at 2. apply map_ext. intros x. ring.
  - rewrite <- (map_id l) at 2. apply map_ext. intros [x y]. cbn. f_equal; ring.
Qed.
Lemma times_scale u c v f : times (vscale u v) (map (Rmult c) f) = rmap (vscale (u * c)) (times v f).
Proof.
  destruct v as [l|l|l|s]; cbn [vscale times]; [|reflexivity| |reflexivity].
  - rewrite (bcast_scale Rmult Rmult _ _ (Rmult (u * c))) by (intros; ring). destruct (bcast Rmult l f); reflexivity.
  - rewrite (bcast_scale (fun z x => Cmult z (RtoC x)) (fun z x => Cmult z (RtoC x)) _ _ (fun z => (u * c * fst z, u * c * snd z))).
    + destruct (bcast _ l f); reflexivity.
    + intros [x y] w. unfold Cmult, RtoC. cbn. f_equal; ring.
Qed.
Lemma re_im_scale c v f : re_im v (map (Rmult c) f) = rmap (vscale c) (re_im v f).
Proof.
  destruct v as [l|l|l|s]; try reflexivity. cbn [re_im].
  pose proof (bcast_scale (fun (z : R * R) x => (fst z * x, snd z * x) : C) (fun (z : R * R) x => (fst z * x, snd z * x) : C) (fun z => z) (Rmult c) (fun z : C => (c * fst z, c * snd z)) l f) as B.
  rewrite map_id in B. rewrite B by (intros [x y] w; cbn; f_equal; ring). destruct (bcast _ l f) as [r| |]; [|reflexivity|reflexivity]. cbn [rmap bind]. rewrite map_length.
  destruct (_ =? _)%nat; reflexivity.
Qed.
Lemma dim_entry_resc d k v : key_ok k -> dim_entry dim_gyre (resc d) (k, vscale (si_per_cgs k) v) = rmap rescO (dim_entry dim_gyre d (k, v)).
Proof.
  intros K. unfold dim_entry. destruct (in_dec string_dec k (dc_avoid dim_gyre)); [reflexivity|]. unfold key_ok in K. cbn [dc_factor dim_gyre] in *.
  change (dc_complex _) with (dc_complex dim_gyre). destruct (dget (upper k) gyre_factors) as [f|].
  - destruct K as (c & S & -> & U). rewrite (S d), U, vscale_1. destruct (f d) as [x| |]; cbn [rmap bind]; [|reflexivity|reflexivity]. cbn [fst snd].
    destruct (in_dec string_dec k (dc_complex dim_gyre)).
    + rewrite re_im_scale. destruct (re_im v x); reflexivity.
    + pose proof (times_scale 1 (si_per_cgs (k ++ "_dim")) v x) as T. rewrite vscale_1, Rmult_1_l in T. rewrite T. destruct (times v x); reflexivity.
  - cbn [bind fst snd]. destruct (in_dec string_dec k (dc_complex dim_gyre)) as [I|I].
    + rewrite (K I), vscale_1. destruct (re_im v [1]); cbn [rmap bind rescO option_map fst snd]; [|reflexivity|reflexivity]. rewrite (K I), vscale_1. reflexivity.
    + pose proof (times_scale (si_per_cgs k) 1 v [1]) as T. cbn [map] in T. rewrite !Rmult_1_r in T. rewrite T. destruct (times v [1]); reflexivity.
Qed.
Lemma dimensionalize_resc d : (forall k v, In (k, v) d -> key_ok k) -> dimensionalize dim_gyre (resc d) = rmap resc (dimensionalize dim_gyre d).
Proof.
  intros K. unfold dimensionalize. unfold resc at 2. rewrite (mapM_rel (dim_entry dim_gyre d) (dim_entry dim_gyre (resc d)) _ rescO).
  - destruct (mapM (dim_entry dim_gyre d) d) as [new| |]; cbn [rmap bind]; [|reflexivity|reflexivity]. f_equal.
    pose proof (fold_rescO new []) as F. cbn [resc map] in F. rewrite F. apply fold_resc.
  - intros [k v] I. apply dim_entry_resc. exact (K k v I).
Qed.
Lemma attr_factor k : In k gyre_detail_attrs -> si_per_cgs k = match si_factor k with Some f => f | None => 1 end.
Proof.
  assert (F : Forall (fun k => si_per_cgs k = match si_factor k with Some f => f | None => 1 end) gyre_detail_attrs).
  { unfold gyre_detail_attrs. repeat (constructor; [cbv beta; si; match goal with |- _ = match si_factor ?k with _ => _ end => let v := eval cbv -[Rinv IZR] in (si_factor k) in change (si_factor k) with v end; reflexivity|]). constructor. }
  intros I. rewrite Forall_forall in F. apply F, I.
Qed.
Definition unit_keys : list string := ["M_star"; "R_star"; "L_star"; "M_r"; "P"; "rho"]%string.
Lemma unit_conversion_si d : (forall k v, In (k, v) d -> In k gyre_detail_attrs) -> (forall k v, In (k, v) d -> In k unit_keys -> exists l, v = VReal l) ->
  unit_conversion "SI" d = Ok (resc d).
Proof.
  induction d as [|[k v] d IH]; intros A U; [reflexivity|]. cbn [unit_conversion]. rewrite IH; [|intros k' v' I; apply (A k' v'); right; exact I|intros k' v' I; apply (U k' v'); right; exact I].
  assert (C : conversion "SI" k v = Ok (vscale (si_per_cgs k) v)).
  { unfold conversion. destruct (string_dec "SI" "SI") as [_|]; [|congruence]. rewrite (attr_factor k) by (apply (A k v); left; reflexivity). destruct (si_factor k) as [f|] eqn:F; [|rewrite vscale_1; reflexivity].
    assert (I : In k unit_keys). { unfold si_factor in F. unfold unit_keys. repeat (match goal with H : context [string_dec k ?s] |- _ => destruct (string_dec k s) as [->|?]; [cbn; tauto|] end). discriminate. }
    destruct (U k v (or_introl eq_refl) I) as [l ->]. reflexivity. }
  rewrite C. reflexivity.
Qed.
Lemma unit_conversion_other u d : u <> "SI"%string -> unit_conversion u d = Ok d.
Proof.
  intros N. induction d as [|[k v] d IH]; [reflexivity|]. cbn [unit_conversion]. rewrite IH. unfold conversion. destruct (string_dec u "SI"); [contradiction|]. reflexivity.
Qed.
Lemma dset_keep {V} (P : string -> V -> Prop) d k v : (forall k v, In (k, v) d -> P k v) -> P k v -> forall k' v', In (k', v') (dset d k v) -> P k' v'.
Proof.
  induction d as [|[k0 v0] d IH]; intros H H0 k' v' I; cbn in I.
  - destruct I as [E|[]]. injection E as <- <-. exact H0.
  - destruct (string_dec k k0) as [->|N]; cbn in I.
    + destruct I as [E|I]; [injection E as <- <-; exact H0|apply H; right; exact I].
    + destruct I as [E|I]; [injection E as <- <-; apply H; left; reflexivity|apply IH; [intros; apply H; right; assumption|exact H0|exact I]].
Qed.
Lemma finish_si g_cgs g_si d : g_cgs = 1000 * g_si -> (forall k v, In (k, v) d -> In k gyre_detail_attrs) -> (forall k v, In (k, v) d -> In k unit_keys -> exists l, v = VReal l) ->
  finish_detail g_cgs g_si "SI" d = rmap resc (finish_detail g_cgs g_si "CGS" d).
Proof.
  intros G A U. unfold finish_detail. rewrite (unit_conversion_si d A U), unit_conversion_other by discriminate. cbn [bind].
  assert (E : VReal [g_value g_cgs g_si "SI"] = vscale (si_per_cgs "G") (VReal [g_value g_cgs g_si "CGS"])).
  { rewrite si_G. unfold g_value. cbn [vscale map]. change (lower "SI") with "si"%string. change (lower "CGS") with "cgs"%string. destruct (string_dec "si" "si") as [_|]; [|congruence]. destruct (string_dec "cgs" "si"); [discriminate|]. do 2 f_equal. rewrite G. field. }
  rewrite E, dset_resc. apply dimensionalize_resc. pose proof keys_ok as K. rewrite Forall_forall in K.
  apply (dset_keep (fun k _ => key_ok k)); [intros k v I; apply K; right; apply (A k v I)|apply K; left; reflexivity].
Qed.
