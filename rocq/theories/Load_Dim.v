(** * Lemmas on dimensionalisation. *)
From Coq Require Import List ZArith Lia Reals Lra String Ascii Bool.
From Coquelicot Require Import Complex.
From Verif Require Import Base Py Load_Model Load_Spec Load_Proofs Load_UnitKeys Load_Units.
Import ListNotations.
Local Open Scope R_scope.

Lemma dget_in {V} k v (d : dict V) : dget k d = Some v -> In (k, v) d.
Proof. induction d as [|[k0 v0] d IH]; [discriminate|]. cbn. destruct (string_dec k k0) as [->|]; [intros E; injection E as ->; left; reflexivity|intros E; right; apply IH, E]. Qed.
Lemma in_dget {V} k v (d : dict V) : NoDup (map fst d) -> In (k, v) d -> dget k d = Some v.
Proof.
  induction d as [|[k0 v0] d IH]; intros N I; [destruct I|]. cbn in N |- *. inversion N as [|? ? N1 N2]; subst. destruct I as [E|I].
  - injection E as -> ->. destruct (string_dec k k); [reflexivity|congruence].
  - destruct (string_dec k k0) as [->|]; [exfalso; apply N1; apply (in_map fst) in I; exact I|apply IH; assumption].
Qed.
Lemma fold_none {V} k (l : dict V) : (forall v, ~ In (k, v) l) -> forall t, dget k (fold_left (fun t kv => dset t (fst kv) (snd kv)) l t) = dget k t.
Proof.
  induction l as [|[k0 v0] l IH]; intros H t; [reflexivity|]. cbn [fold_left fst snd]. rewrite IH by (intros v I; apply (H v); right; exact I). rewrite dget_dset.
  destruct (string_dec k k0) as [->|]; [exfalso; apply (H v0); left; reflexivity|reflexivity].
Qed.
Lemma fold_some {V} k v (l : dict V) : (forall w, In (k, w) l -> w = v) -> In (k, v) l -> forall t, dget k (fold_left (fun t kv => dset t (fst kv) (snd kv)) l t) = Some v.
Proof.
  induction l as [|[k0 v0] l IH]; intros H I t; [destruct I|]. cbn [fold_left fst snd].
  destruct (in_dec string_dec k (map fst l)) as [M|M].
  - apply in_map_iff in M. destruct M as ([k1 v1] & E & M). cbn in E. subst k1. apply IH; [intros w J; apply H; right; exact J|]. rewrite <- (H v1 (or_intror M)). exact M.
  - rewrite fold_none by (intros w J; apply M; apply (in_map fst) in J; exact J). rewrite dget_dset. destruct I as [E|I]; [injection E as -> ->; destruct (string_dec k k); [reflexivity|congruence]|].
    exfalso. apply M. apply (in_map fst) in I. exact I.
Qed.
Definition somes {A} (l : list (option A)) : list A := flat_map (fun o => match o with Some x => [x] | None => [] end) l.
Lemma fold_somes {V} (l : list (option (string * V))) : forall t,
  fold_left (fun t o => match o with Some kv => dset t (fst kv) (snd kv) | None => t end) l t = fold_left (fun t kv => dset t (fst kv) (snd kv)) (somes l) t.
Proof. induction l as [|[x|] l IH]; intros t; [reflexivity| |]; cbn [fold_left somes flat_map app]; apply IH. Qed.
Lemma fold_nodup {V} (l : dict V) : forall t, NoDup (map fst t) -> NoDup (map fst (fold_left (fun t kv => dset t (fst kv) (snd kv)) l t)).
Proof. induction l as [|[k v] l IH]; intros t N; [exact N|]. cbn [fold_left]. apply IH, dset_keys, N. Qed.
Lemma fold_in {V} (l : dict V) k v : In (k, v) (fold_left (fun t kv => dset t (fst kv) (snd kv)) l []) -> In (k, v) l.
Proof.
  assert (G : forall t, In (k, v) (fold_left (fun t kv => dset t (fst kv) (snd kv)) l t) -> In (k, v) l \/ In (k, v) t).
  { induction l as [|[k0 v0] l IH]; intros t I; [right; exact I|]. cbn [fold_left fst snd] in I. apply IH in I. destruct I as [I|I]; [left; right; exact I|].
    apply (dset_keep (fun a b => In (a, b) ((k0, v0) :: l) \/ In (a, b) t)) in I; [exact I|intros; right; assumption|left; left; reflexivity]. }
  intros I. destruct (G [] I) as [H|[]]. exact H.
Qed.
(** what a whole dimensionalisation leaves under a key, from the entries it writes *)
Lemma dim_result c (D : dict val) (F : string * val -> option (string * val)) : (forall kv, In kv D -> dim_entry c D kv = Ok (F kv)) ->
  exists r, dimensionalize c D = Ok r /\
    (forall x, (forall kv w, In kv D -> F kv <> Some (x, w)) -> dget x r = dget x D) /\
    (forall x w, (exists kv, In kv D /\ F kv = Some (x, w)) -> (forall kv w', In kv D -> F kv = Some (x, w') -> w' = w) -> dget x r = Some w).
Proof.
  intros H. unfold dimensionalize. rewrite (mapM_ok _ F) by exact H. cbn [bind]. eexists. split; [reflexivity|]. rewrite fold_somes.
  set (wr := somes (map F D)).
  assert (W : forall x w, In (x, w) wr <-> exists kv, In kv D /\ F kv = Some (x, w)).
  { intros x w. unfold wr, somes. rewrite in_flat_map. split.
    - intros (o & I & J). apply in_map_iff in I. destruct I as (kv & E & I). destruct o as [p|]; [|destruct J]. destruct J as [->|[]]. exists kv. auto.
    - intros (kv & I & E). exists (Some (x, w)). split; [apply in_map_iff; exists kv; auto|left; reflexivity]. }
  set (dummy := fold_left (fun t kv => dset t (fst kv) (snd kv)) wr []).
  split.
  - intros x N. apply fold_none. intros v I. apply fold_in in I. apply W in I. destruct I as (kv & I & E). exact (N kv v I E).
  - intros x w E U. assert (G : dget x dummy = Some w).
    { apply fold_some; [intros w' I; apply W in I; destruct I as (kv & I & Q); exact (U kv w' I Q)|apply W, E]. }
    apply fold_some; [intros w' I|apply dget_in, G]. assert (G' : dget x dummy = Some w') by (apply in_dget; [apply fold_nodup; constructor|exact I]). congruence.
Qed.
Lemma bcast_one {A D} (f : A -> R -> D) x u : bcast f x [u] = Ok (map (fun a => f a u) x).
Proof. destruct x as [|a [|b x]]; reflexivity. Qed.
Lemma bcast_same {A D} (f : A -> R -> D) x y : List.length x = List.length y -> bcast f x y = Ok (map (fun ab => f (fst ab) (snd ab)) (combine x y)).
Proof.
  destruct x as [|a [|b x]], y as [|c [|d y]]; intros L; cbn in L; try discriminate; try reflexivity. cbn [bcast]. cbn [List.length]. rewrite (proj2 (Nat.eqb_eq _ _)) by lia. reflexivity.
Qed.
Lemma map_nth_seq {A B} (g : A -> B) (l : list A) a0 : map g l = map (fun i => g (nth i l a0)) (seq 0 (List.length l)).
Proof.
  induction l as [|x l IH]; [reflexivity|]. cbn [map List.length seq]. f_equal. rewrite <- seq_shift, map_map. exact IH.
Qed.
Lemma combine_nth_seq {A B} (g : A -> R -> B) (x : list A) (y : list R) a0 : List.length x = List.length y ->
  map (fun ab => g (fst ab) (snd ab)) (combine x y) = map (fun i => g (nth i x a0) (nth i y 0)) (seq 0 (List.length x)).
Proof.
  revert y. induction x as [|a x IH]; intros [|b y] L; cbn in L; try discriminate; [reflexivity|]. cbn [combine map List.length seq fst snd nth]. f_equal. rewrite <- seq_shift, map_map. apply IH. lia.
Qed.
Definition scaled_by (s : scales) (D : dict val) : Prop :=
  dget "G" D = Some (VReal [sc_G s]) /\ dget "M_star" D = Some (VReal [sc_M s]) /\ dget "R_star" D = Some (VReal [sc_R s]) /\ dget "L_star" D = Some (VReal [sc_L s]) /\
  dget "P" D = Some (VReal (sc_P s)) /\ dget "rho" D = Some (VReal (sc_rho s)) /\ dget "T" D = Some (VReal (sc_T s)) /\
  List.length (sc_rho s) = List.length (sc_P s) /\ List.length (sc_T s) = List.length (sc_P s).
Definition fac_spec (s : scales) (k : string) (f : dict val -> res (list R)) (U : nat -> R) : Prop :=
  forall D, scaled_by s D -> exists fl, f D = Ok fl /\ ((exists u, fl = [u] /\ forall i, U i = u) \/ (In k on_grid /\ List.length fl = List.length (sc_P s) /\ forall i, U i = nth i fl 0)).
Definition fac_ok (s : scales) (k : string) : Prop :=
  match dget (upper k) gyre_factors with
  | Some f => exists U, unit_of s k = Some U /\ fac_spec s k f U
  | None => unit_of s k = None
  end.
Definition unit_b (s : scales) (k : string) : option (nat -> R) :=
  let const (u : R) := Some (fun _ : nat => u) in
  if inb k ["xi_r"; "xi_h"; "xi_r_ref"; "xi_h_ref"; "lag_S"; "lag_S_ref"]%string then const (sc_R s)
  else if inb k ["eul_phi"; "eul_phi_ref"]%string then const (sc_G s * sc_M s / sc_R s)
  else if inb k ["deul_phi"; "deul_phi_ref"]%string then const (sc_G s * sc_M s / sc_R s ^ 2)
  else if inb k ["eul_P"; "lag_P"]%string then Some (fun i => nth i (sc_P s) 0)
  else if inb k ["eul_rho"; "lag_rho"]%string then Some (fun i => nth i (sc_rho s) 0)
  else if inb k ["eul_T"; "lag_T"]%string then Some (fun i => nth i (sc_T s) 0)
  else if inb k ["Omega_rot"; "Delta_p"; "Delta_g"]%string then const (sqrt (sc_G s * sc_M s / sc_R s ^ 3))
  else if inb k ["lag_L"; "lag_L_ref"]%string then const (sc_L s)
  else if inb k ["E"; "E_p"; "E_g"; "dE_dx"]%string then const (sc_M s * sc_R s ^ 2)
  else if inb k ["H"; "W"; "W_eps"; "tau_ss"; "tau_tr"; "dW_dx"; "dW_eps_dx"; "dtau_ss_dx"; "dtau_tr_dx"]%string then const (sc_G s * sc_M s ^ 2 / sc_R s)
  else None.
Lemma unit_eq s k : unit_of s k = unit_b s k.
Proof. unfold unit_of, unit_b. rewrite !dec_inb. reflexivity. Qed.
Ltac open_scales := let D := fresh "D" in intros D (HG & HM & HR & HL & HP & Hrho & HT & L1 & L2).
Lemma fs_r s k : fac_spec s k get_r (fun _ => sc_R s).
Proof. open_scales. unfold get_r, real_entry. rewrite HR. eexists. split; [reflexivity|]. left. eexists. split; reflexivity. Qed.
Lemma fs_L s k : fac_spec s k get_L (fun _ => sc_L s).
Proof. open_scales. unfold get_L, real_entry. rewrite HL. eexists. split; [reflexivity|]. left. eexists. split; reflexivity. Qed.
Lemma fs_phi s k : fac_spec s k get_eul_phi_fac (fun _ => sc_G s * sc_M s / sc_R s).
Proof. open_scales. unfold get_eul_phi_fac, real_entry. rewrite HG, HM, HR. eexists. split; [reflexivity|]. left. eexists. split; reflexivity. Qed.
Lemma fs_dphi s k : fac_spec s k get_deul_phi_fac (fun _ => sc_G s * sc_M s / sc_R s ^ 2).
Proof. open_scales. unfold get_deul_phi_fac, real_entry. rewrite HG, HM, HR. eexists. split; [reflexivity|]. left. eexists. split; reflexivity. Qed.
Lemma fs_om s k : fac_spec s k get_om_rot_fac (fun _ => sqrt (sc_G s * sc_M s / sc_R s ^ 3)).
Proof. open_scales. unfold get_om_rot_fac, real_entry. rewrite HG, HM, HR. eexists. split; [reflexivity|]. left. eexists. split; reflexivity. Qed.
Lemma fs_E s k : fac_spec s k get_E_fac (fun _ => sc_M s * sc_R s ^ 2).
Proof. open_scales. unfold get_E_fac, real_entry. rewrite HM, HR. eexists. split; [reflexivity|]. left. eexists. split; reflexivity. Qed.
Lemma fs_H s k : fac_spec s k get_H_fac (fun _ => sc_G s * sc_M s ^ 2 / sc_R s).
Proof. open_scales. unfold get_H_fac, real_entry. rewrite HG, HM, HR. eexists. split; [reflexivity|]. left. eexists. split; reflexivity. Qed.
Lemma fs_P s k : In k on_grid -> fac_spec s k get_P (fun i => nth i (sc_P s) 0).
Proof. intros I. open_scales. unfold get_P, real_entry. rewrite HP. eexists. split; [reflexivity|]. right. auto. Qed.
Lemma fs_rho s k : In k on_grid -> fac_spec s k get_rho (fun i => nth i (sc_rho s) 0).
Proof. intros I. open_scales. unfold get_rho, real_entry. rewrite Hrho. eexists. split; [reflexivity|]. right. auto. Qed.
Lemma fs_T s k : In k on_grid -> fac_spec s k get_T (fun i => nth i (sc_T s) 0).
Proof. intros I. open_scales. unfold get_T, real_entry. rewrite HT. eexists. split; [reflexivity|]. right. auto. Qed.
Ltac fac_tac s k :=
  unfold fac_ok; rewrite (unit_eq s k);
  let v := eval cbv -[get_r get_eul_phi_fac get_deul_phi_fac get_P get_rho get_T get_om_rot_fac get_L get_E_fac get_H_fac] in (dget (upper k) gyre_factors) in
  change (dget (upper k) gyre_factors) with v; cbv iota;
  match v with
  | None => reflexivity
  | Some ?f => let p := match f with
                      | get_r => constr:(fs_r s k) | get_eul_phi_fac => constr:(fs_phi s k) | get_deul_phi_fac => constr:(fs_dphi s k)
                      | get_P => constr:(fs_P s k ltac:(apply inb_iff; reflexivity)) | get_rho => constr:(fs_rho s k ltac:(apply inb_iff; reflexivity)) | get_T => constr:(fs_T s k ltac:(apply inb_iff; reflexivity))
                      | get_om_rot_fac => constr:(fs_om s k) | get_L => constr:(fs_L s k) | get_E_fac => constr:(fs_E s k) | get_H_fac => constr:(fs_H s k)
                      end in
               eexists; split; [|exact p]; reflexivity
  end.
Lemma facs_ok s : Forall (fac_ok s) ("G"%string :: gyre_detail_attrs).
Proof. unfold gyre_detail_attrs. repeat (constructor; [match goal with |- fac_ok _ ?k => fac_tac s k end|]). constructor. Qed.
Lemma pairs_iff k : In k (dc_complex dim_gyre) <-> In k pairs.
Proof.
  assert (A : forallb (fun x => inb x pairs) (dc_complex dim_gyre) = true) by (vm_compute; reflexivity).
  assert (B : forallb (fun x => inb x (dc_complex dim_gyre)) pairs = true) by (vm_compute; reflexivity).
  rewrite forallb_forall in A, B. split; intros I; apply inb_iff; [apply A|apply B]; exact I.
Qed.
Lemma grid_pairs k : In k on_grid -> In k pairs.
Proof. assert (A : forallb (fun x => inb x pairs) on_grid = true) by (vm_compute; reflexivity). rewrite forallb_forall in A. intros I. apply inb_iff, A, I. Qed.
Definition written (s : scales) (kv : string * val) : option (string * val) :=
  let (k, v) := kv in
  if in_dec string_dec k labels then None
  else match unit_of s k with Some U => Some (k ++ "_dim", in_units U v)%string | None => Some (k, in_units (fun _ => 1) v) end.
Lemma times_one l u : times (VReal l) [u] = Ok (in_units (fun _ => u) (VReal l)).
Proof. cbn [times in_units]. rewrite bcast_one. cbn [bind]. do 2 f_equal. apply (map_nth_seq (fun a => a * u) l 0). Qed.
Lemma re_im_one l u : re_im (VReIm l) [u] = Ok (in_units (fun _ => u) (VReIm l)).
Proof.
  cbn [re_im in_units]. rewrite bcast_one. cbn [bind]. rewrite map_length, Nat.eqb_refl. do 2 f_equal.
  apply (map_nth_seq (fun z : R * R => (fst z * u, snd z * u) : C) l (0, 0)).
Qed.
Lemma re_im_grid l f : List.length l = List.length f -> re_im (VReIm l) f = Ok (in_units (fun i => nth i f 0) (VReIm l)).
Proof.
  intros L. cbn [re_im in_units]. rewrite bcast_same by exact L. cbn [bind]. rewrite map_length, combine_length, <- L, Nat.min_id, Nat.eqb_refl. do 2 f_equal.
  apply (combine_nth_seq (fun (z : R * R) x => (fst z * x, snd z * x) : C) l f (0, 0) L).
Qed.
Lemma in_units_ext U U' v : (forall i, U i = U' i) -> in_units U v = in_units U' v.
Proof. intros E. destruct v; cbn; try reflexivity; f_equal; apply map_ext; intros i; rewrite E; reflexivity. Qed.
Lemma dim_entry_written s D k v : fac_ok s k -> scaled_by s D ->
  (~ In k labels -> if in_dec string_dec k pairs then exists l, v = VReIm l /\ (In k on_grid -> List.length l = List.length (sc_P s)) else exists l, v = VReal l) ->
  dim_entry dim_gyre D (k, v) = Ok (written s (k, v)).
Proof.
  intros K S T. unfold dim_entry, written. change (dc_avoid dim_gyre) with labels. destruct (in_dec string_dec k labels) as [|NL]; [reflexivity|]. specialize (T NL).
  unfold fac_ok in K. change (dc_factor dim_gyre (upper k)) with (dget (upper k) gyre_factors). destruct (dget (upper k) gyre_factors) as [f|].
  - destruct K as (U & EU & FS). rewrite EU. destruct (FS D S) as (fl & Ef & H). rewrite Ef. cbn [bind fst snd].
    destruct (in_dec string_dec k (dc_complex dim_gyre)) as [I|I]; destruct (in_dec string_dec k pairs) as [J|J]; try (exfalso; apply pairs_iff in I; contradiction); try (exfalso; apply I, pairs_iff, J).
    + destruct T as (l & -> & Lg). destruct H as [(u & -> & HU)|(G & Lf & HU)].
      * rewrite re_im_one. cbn [bind]. do 3 f_equal. apply in_units_ext. intros i. symmetry. apply HU.
      * rewrite re_im_grid by (rewrite (Lg G), Lf; reflexivity). cbn [bind]. do 3 f_equal. apply in_units_ext. intros i. symmetry. apply HU.
    + destruct T as (l & ->). destruct H as [(u & -> & HU)|(G & _)]; [|exfalso; apply J, grid_pairs, G]. rewrite times_one. cbn [bind]. do 3 f_equal. apply in_units_ext. intros i. symmetry. apply HU.
  - rewrite K. cbn [bind fst snd].
    destruct (in_dec string_dec k (dc_complex dim_gyre)) as [I|I]; destruct (in_dec string_dec k pairs) as [J|J]; try (exfalso; apply pairs_iff in I; contradiction); try (exfalso; apply I, pairs_iff, J).
    + destruct T as (l & -> & _). rewrite re_im_one. reflexivity.
    + destruct T as (l & ->). rewrite times_one. reflexivity.
Qed.
(** no key ends in _dim *)
Lemma txt_app a b : txt (a ++ b)%string = txt a ++ txt b.
Proof. unfold txt. induction a as [|c a IH]; [reflexivity|]. cbn. f_equal. exact IH. Qed.
Definition ends_dim (k : string) : bool := match strip (rev (txt "_dim")) (rev (txt k)) with Some _ => true | None => false end.
Lemma ends_dim_app k : ends_dim (k ++ "_dim")%string = true.
Proof. unfold ends_dim. rewrite txt_app, rev_app_distr. rewrite (proj2 (strip_some _ _ _) eq_refl). reflexivity. Qed.
Lemma attrs_no_dim k : In k ("G"%string :: gyre_detail_attrs) -> ends_dim k = false.
Proof.
  assert (A : forallb (fun x => negb (ends_dim x)) ("G"%string :: gyre_detail_attrs) = true) by (vm_compute; reflexivity). rewrite forallb_forall in A. intros I. apply A in I. destruct (ends_dim k); [discriminate|reflexivity].
Qed.
Lemma append_inj_dim a b : (a ++ "_dim" = b ++ "_dim")%string -> a = b.
Proof.
  intros H. apply (f_equal txt) in H. rewrite !txt_app in H. apply app_inv_tail in H. rewrite <- (string_of_list_ascii_of_string a), <- (string_of_list_ascii_of_string b). unfold txt in H. rewrite H. reflexivity.
Qed.
Lemma dset_new_keys {V} (d : dict V) k v : ~ In k (map fst d) -> dset d k v = d ++ [(k, v)].
Proof. induction d as [|[k0 v0] d IH]; intros N; [reflexivity|]. cbn in *. destruct (string_dec k k0) as [->|]; [exfalso; apply N; left; reflexivity|]. f_equal. apply IH. intros I. apply N. right. exact I. Qed.
Lemma g_not_attr : ~ In "G"%string gyre_detail_attrs.
Proof. intros I. apply inb_iff in I. vm_compute in I. discriminate. Qed.
Lemma finish_ok s g_si d : detail_data s d -> exists r, finish_detail (sc_G s) g_si "CGS" d = Ok r /\ dget "G" r = Some (VReal [sc_G s]) /\
  forall k v, dget k d = Some v ->
    (In k labels -> dget k r = Some v) /\
    (~ In k labels -> match unit_of s k with
                      | Some U => dget k r = Some v /\ dget (k ++ "_dim")%string r = Some (in_units U v)
                      | None => dget k r = Some (in_units (fun _ => 1) v)
                      end).
Proof.
  intros (ND & KA & dM & dR & dL & dP & drho & dT & L1 & L2 & TY). unfold finish_detail. rewrite unit_conversion_other by discriminate. cbn [bind].
  change (g_value (sc_G s) g_si "CGS") with (sc_G s).
  set (D := dset d "G" (VReal [sc_G s])).
  assert (NG : ~ In "G"%string (map fst d)). { intros I. apply in_map_iff in I. destruct I as ([k v] & E & I). cbn in E. subst k. exact (g_not_attr (KA "G"%string v I)). }
  assert (GD : forall k, dget k D = if string_dec k "G" then Some (VReal [sc_G s]) else dget k d) by (intros k; apply dget_dset).
  assert (SC : scaled_by s D) by (repeat split; rewrite ?GD; assumption || reflexivity).
  assert (KD : forall k v, In (k, v) D -> In k ("G"%string :: gyre_detail_attrs)) by (apply (dset_keep (fun k _ => In k ("G"%string :: gyre_detail_attrs))); [intros k v I; right; exact (KA k v I)|left; reflexivity]).
  assert (TD : forall k v, In (k, v) D -> ~ In k labels -> if in_dec string_dec k pairs then exists l, v = VReIm l /\ (In k on_grid -> List.length l = List.length (sc_P s)) else exists l, v = VReal l).
  { apply (dset_keep (fun k v => ~ In k labels -> if in_dec string_dec k pairs then exists l, v = VReIm l /\ (In k on_grid -> List.length l = List.length (sc_P s)) else exists l, v = VReal l)); [exact TY|].
    intros _. rewrite dec_false by (vm_compute; reflexivity). eexists. reflexivity. }
  pose proof (facs_ok s) as FO. rewrite Forall_forall in FO.
  destruct (dim_result dim_gyre D (written s)) as (r & E & R1 & R2).
  { intros [k v] I. apply dim_entry_written; [apply FO, (KD k v I)|exact SC|exact (TD k v I)]. }
  assert (NDD : NoDup (map fst D)) by (apply dset_keys, ND).
  exists r. split; [exact E|].
  (* which entries write under a name *)
  assert (WN : forall k' v' x w, In (k', v') D -> written s (k', v') = Some (x, w) ->
     (x = (k' ++ "_dim")%string /\ (exists U, unit_of s k' = Some U /\ w = in_units U v')) \/ (x = k' /\ unit_of s k' = None /\ ~ In k' labels /\ w = in_units (fun _ => 1) v')).
  { intros k' v' x w I H. unfold written in H. destruct (in_dec string_dec k' labels); [discriminate|]. destruct (unit_of s k') as [U|]; injection H as <- <-; [left|right]; eauto. }
  assert (ROW : forall k v, In (k, v) D -> ~ In k labels -> match unit_of s k with
                      | Some U => dget k r = Some v /\ dget (k ++ "_dim")%string r = Some (in_units U v)
                      | None => dget k r = Some (in_units (fun _ => 1) v)
                      end).
  { intros k v I NL. destruct (unit_of s k) as [U|] eqn:EU.
    - split.
      + rewrite R1; [apply in_dget; assumption|]. intros [k' v'] w I' W. destruct (WN _ _ _ _ I' W) as [(-> & _)|(-> & N & _)].
        * pose proof (attrs_no_dim _ (KD _ _ I)) as X. rewrite ends_dim_app in X. discriminate.
        * congruence.
      + apply R2.
        * exists (k, v). split; [exact I|]. unfold written. destruct (in_dec string_dec k labels); [contradiction|]. rewrite EU. reflexivity.
        * intros [k' v'] w I' W. destruct (WN _ _ _ _ I' W) as [(Q & U' & EU' & ->)|(Q & _)].
          -- apply append_inj_dim in Q. subst k'. rewrite EU in EU'. injection EU' as <-. apply in_dget in I, I'; [|assumption|assumption]. rewrite I in I'. injection I' as <-. reflexivity.
          -- pose proof (attrs_no_dim _ (KD _ _ I')) as X. rewrite <- Q, ends_dim_app in X. discriminate.
    - apply R2.
      + exists (k, v). split; [exact I|]. unfold written. destruct (in_dec string_dec k labels); [contradiction|]. rewrite EU. reflexivity.
      + intros [k' v'] w I' W. destruct (WN _ _ _ _ I' W) as [(Q & _)|(Q & _ & _ & ->)].
        * pose proof (attrs_no_dim _ (KD _ _ I)) as X. rewrite Q, ends_dim_app in X. discriminate.
        * subst k'. apply in_dget in I, I'; [|assumption|assumption]. rewrite I in I'. injection I' as <-. reflexivity. }
  split.
  - assert (IG : In ("G"%string, VReal [sc_G s]) D) by (apply dget_in; rewrite GD; reflexivity).
    pose proof (ROW _ _ IG ltac:(intros X; apply inb_iff in X; vm_compute in X; discriminate)) as X. rewrite unit_eq in X. change (unit_b s "G") with (@None (nat -> R)) in X. cbv iota in X. rewrite X. cbn. do 3 f_equal. ring.
  - intros k v H. assert (I : In (k, v) D). { apply dget_in. rewrite GD. destruct (string_dec k "G") as [->|]; [|exact H]. exfalso. apply NG. apply dget_in in H. apply (in_map fst) in H. exact H. }
    split; [|intros NL; apply ROW; assumption].
    intros IL. rewrite R1; [apply in_dget; assumption|]. intros [k' v'] w I' W. destruct (WN _ _ _ _ I' W) as [(-> & _)|(-> & _ & N & _)]; [|contradiction].
    pose proof (attrs_no_dim _ (KD _ _ I)) as X. rewrite ends_dim_app in X. discriminate.
Qed.
