(** * Lemmas on unit conversion: how every factor and every key scales. *)
From Coq Require Import List ZArith Lia Reals Lra String Ascii Bool.
From Coquelicot Require Import Complex.
From Verif Require Import Base Py Load_Model Load_Spec Load_Proofs.
Import ListNotations.
Local Open Scope R_scope.

Definition resc (d : dict val) : dict val := map (fun kv => (fst kv, vscale (si_per_cgs (fst kv)) (snd kv))) d.
Definition rmap {A B} (f : A -> B) (x : res A) : res B := match x with Ok a => Ok (f a) | Exc e => Exc e | UB => UB end.
Lemma dget_resc k d : dget k (resc d) = option_map (vscale (si_per_cgs k)) (dget k d).
Proof. induction d as [|[k0 v0] d IH]; [reflexivity|]. cbn [resc map fst snd dget]. destruct (string_dec k k0) as [->|]; [reflexivity|exact IH]. Qed.
Lemma dset_resc d k v : dset (resc d) k (vscale (si_per_cgs k) v) = resc (dset d k v).
Proof. induction d as [|[k0 v0] d IH]; [reflexivity|]. cbn [resc map fst snd dset]. destruct (string_dec k k0) as [->|]; [reflexivity|]. cbn [map fst snd]. f_equal. exact IH. Qed.
Lemma fold_resc (l : dict val) : forall t, fold_left (fun t kv => dset t (fst kv) (snd kv)) (resc l) (resc t) = resc (fold_left (fun t kv => dset t (fst kv) (snd kv)) l t).
Proof. induction l as [|[k v] l IH]; intros t; [reflexivity|]. cbn [resc map fold_left fst snd]. rewrite dset_resc. apply IH. Qed.
Definition rescO (o : option (string * val)) : option (string * val) := option_map (fun kv => (fst kv, vscale (si_per_cgs (fst kv)) (snd kv))) o.
Lemma fold_rescO l : forall t, fold_left (fun t o => match o with Some kv => dset t (fst kv) (snd kv) | None => t end) (map rescO l) (resc t) =
  resc (fold_left (fun (t : dict val) (o : option (string * val)) => match o with Some kv => dset t (fst kv) (snd kv) | None => t end) l t).
Proof. induction l as [|[[k v]|] l IH]; intros t; [reflexivity| |]; cbn [map fold_left rescO option_map fst snd]; [rewrite dset_resc|]; apply IH. Qed.
Lemma mapM_rel {A A' B B'} (F : A -> res B) (F' : A' -> res B') (h : A -> A') (g : B -> B') l :
  (forall x, In x l -> F' (h x) = rmap g (F x)) -> mapM F' (map h l) = rmap (map g) (mapM F l).
Proof.
  induction l as [|x l IH]; intros H; [reflexivity|]. cbn [map mapM]. rewrite H by (left; reflexivity). rewrite IH by (intros; apply H; right; assumption).
  destruct (F x); cbn [rmap bind]; [|reflexivity|reflexivity]. destruct (mapM F l); reflexivity.
Qed.
(** factors *)
Lemma real_resc k d c : si_per_cgs k = c -> real_entry (resc d) k = rmap (map (Rmult c)) (real_entry d k).
Proof. intros <-. unfold real_entry. rewrite dget_resc. destruct (dget k d) as [[| | |]|]; reflexivity. Qed.
Lemma bcast_scale {A A' B B' D D'} (f : A -> B -> D) (f' : A' -> B' -> D') (a : A -> A') (b : B -> B') (e : D -> D') x y :
  (forall u v, f' (a u) (b v) = e (f u v)) -> bcast f' (map a x) (map b y) = rmap (map e) (bcast f x y).
Proof.
  intros H. assert (One : forall (u : A) (l : list B), map (f' (a u)) (map b l) = map e (map (f u) l)) by (intros u l; rewrite !map_map; apply map_ext; intros v; apply H).
  assert (Two : forall (v : B) (l : list A), map (fun u => f' u (b v)) (map a l) = map e (map (fun u => f u v) l)) by (intros v l; rewrite !map_map; apply map_ext; intros u; apply H).
  assert (Co : forall (l : list A) (l' : list B), map (fun ab => f' (fst ab) (snd ab)) (combine (map a l) (map b l')) = map e (map (fun ab => f (fst ab) (snd ab)) (combine l l'))).
  { induction l as [|u l IH]; intros [|v l']; cbn; [reflexivity|reflexivity|reflexivity|]. rewrite H. f_equal. apply IH. }
  destruct x as [|u [|u2 x]]; [|cbn [map bcast]; cbn [rmap]; f_equal; exact (One u y)|].
  - destruct y as [|v [|v2 y]]; reflexivity.
  - destruct y as [|v [|v2 y]]; [reflexivity|cbn [bcast map]; cbn [rmap]; f_equal; exact (Two v (u :: u2 :: x))|].
    change (bcast f' (map a (u :: u2 :: x)) (map b (v :: v2 :: y))) with (if (List.length (map a (u :: u2 :: x)) =? List.length (map b (v :: v2 :: y)))%nat then Ok (map (fun ab => f' (fst ab) (snd ab)) (combine (map a (u :: u2 :: x)) (map b (v :: v2 :: y)))) else Exc ValueError).
    rewrite !map_length. rewrite Co. unfold bcast. destruct (_ =? _)%nat; reflexivity.
Qed.
Lemma rmap_bind {A B D E} (x : res A) (g : A -> B) (k : B -> res D) (h : A -> res E) (e : E -> D) :
  (forall a, k (g a) = rmap e (h a)) -> bind (rmap g x) k = rmap e (bind x h).
Proof. intros H. destruct x; cbn [rmap bind]; [apply H|reflexivity|reflexivity]. Qed.
Definition scaled_factor (f : dict val -> res (list R)) (c : R) : Prop := forall d, f (resc d) = rmap (map (Rmult c)) (f d).
Definition inb (k : string) (l : list string) : bool := existsb (String.eqb k) l.
Lemma inb_iff k l : inb k l = true <-> In k l.
Proof. unfold inb. rewrite existsb_exists. split; [intros (x & I & E); apply String.eqb_eq in E; subst; exact I|intros I; exists k; split; [exact I|apply String.eqb_refl]]. Qed.
Lemma dec_false {A} k l (a b : A) : inb k l = false -> (if in_dec string_dec k l then a else b) = b.
Proof. intros H. destruct (in_dec string_dec k l) as [I|]; [apply inb_iff in I; congruence|reflexivity]. Qed.
Lemma dec_true {A} k l (a b : A) : inb k l = true -> (if in_dec string_dec k l then a else b) = a.
Proof. intros H. destruct (in_dec string_dec k l) as [|N]; [reflexivity|apply inb_iff in H; contradiction]. Qed.
Definition si_b (k : string) : R :=
  if inb k ["M_star"%string; "M_r"%string; "G"%string] then (/ 1000)                                             
  else if inb k ["R_star"%string; "xi_r_dim"%string; "xi_h_dim"%string; "xi_r_ref_dim"%string; "xi_h_ref_dim"%string; "lag_S_dim"%string; "lag_S_ref_dim"%string] then (/ 100)  
  else if inb k ["deul_phi_dim"%string; "deul_phi_ref_dim"%string] then (/ 100)                           
  else if inb k ["eul_phi_dim"%string; "eul_phi_ref_dim"%string] then (/ 10000)                           
  else if inb k ["P"%string; "eul_P_dim"%string; "lag_P_dim"%string] then (/ 10)                                 
  else if inb k ["rho"%string; "eul_rho_dim"%string; "lag_rho_dim"%string] then 1000                             
  else if inb k ["L_star"%string; "lag_L_dim"%string; "lag_L_ref_dim"%string] then (/ 10000000)                  
  else if inb k ["E_dim"%string; "E_p_dim"%string; "E_g_dim"%string; "dE_dx_dim"%string; "H_dim"%string; "W_dim"%string; "W_eps_dim"%string; "tau_ss_dim"%string; "tau_tr_dim"%string; "dW_dx_dim"%string;
                               "dW_eps_dx_dim"%string; "dtau_ss_dx_dim"%string; "dtau_tr_dx_dim"%string] then (/ 10000000)      
  else 1.
Lemma dec_inb {A} k l (a b : A) : (if in_dec string_dec k l then a else b) = if inb k l then a else b.
Proof. destruct (inb k l) eqn:E; [apply dec_true, E|apply dec_false, E]. Qed.
Lemma si_eq k : si_per_cgs k = si_b k.
Proof. unfold si_per_cgs, si_b. rewrite !dec_inb. reflexivity. Qed.
Ltac si := match goal with |- context [si_per_cgs ?k] => rewrite (si_eq k); let v := eval cbv -[Rinv IZR] in (si_b k) in replace (si_b k) with v by (vm_cast_no_check (@eq_refl R v)) end.
Lemma si_G : si_per_cgs "G" = / 1000. Proof. si. reflexivity. Qed.
Lemma si_M : si_per_cgs "M_star" = / 1000. Proof. si. reflexivity. Qed.
Lemma si_R : si_per_cgs "R_star" = / 100. Proof. si. reflexivity. Qed.
Lemma si_P : si_per_cgs "P" = / 10. Proof. si. reflexivity. Qed.
Lemma si_rho : si_per_cgs "rho" = 1000. Proof. si. reflexivity. Qed.
Lemma si_T : si_per_cgs "T" = 1. Proof. si. reflexivity. Qed.
Lemma si_L : si_per_cgs "L_star" = / 10000000. Proof. si. reflexivity. Qed.
Lemma sf_r : scaled_factor get_r (/ 100). Proof. intros d. apply real_resc, si_R. Qed.
Lemma sf_P : scaled_factor get_P (/ 10). Proof. intros d. apply real_resc, si_P. Qed.
Lemma sf_rho : scaled_factor get_rho 1000. Proof. intros d. apply real_resc, si_rho. Qed.
Lemma sf_T : scaled_factor get_T 1. Proof. intros d. apply real_resc, si_T. Qed.
Lemma sf_L : scaled_factor get_L (/ 10000000). Proof. intros d. apply real_resc, si_L. Qed.
Lemma map_pow c n l : map (fun x => x ^ n) (map (Rmult c) l) = map (Rmult (c ^ n)) (map (fun x => x ^ n) l).
Proof. rewrite !map_map. apply map_ext. intros x. apply Rpow_mult_distr. Qed.
Lemma div_scale c1 c2 u v : c2 <> 0 -> (c1 * u) / (c2 * v) = c1 / c2 * (u / v).
Proof.
  intros H. unfold Rdiv. destruct (Req_dec v 0) as [->|Hv].
  - rewrite Rmult_0_r. rewrite Rinv_0. ring.
  - field. split; assumption.
Qed.
Lemma sf_phi : scaled_factor get_eul_phi_fac (/ 10000).
Proof.
  intros d. unfold get_eul_phi_fac. rewrite (real_resc "G" d _ si_G), (real_resc "M_star" d _ si_M), (real_resc "R_star" d _ si_R).
  apply rmap_bind. intros g. apply rmap_bind. intros m. rewrite (bcast_scale Rmult Rmult _ _ (Rmult (/ 1000 * / 1000))) by (intros; ring).
  apply rmap_bind. intros gm. apply rmap_bind. intros r. apply bcast_scale. intros u v. rewrite div_scale by lra. f_equal. field.
Qed.
Lemma sf_dphi : scaled_factor get_deul_phi_fac (/ 100).
Proof.
  intros d. unfold get_deul_phi_fac. rewrite (real_resc "G" d _ si_G), (real_resc "M_star" d _ si_M), (real_resc "R_star" d _ si_R).
  apply rmap_bind. intros g. apply rmap_bind. intros m. rewrite (bcast_scale Rmult Rmult _ _ (Rmult (/ 1000 * / 1000))) by (intros; ring).
  apply rmap_bind. intros gm. apply rmap_bind. intros r. rewrite map_pow. apply bcast_scale. intros u v. rewrite div_scale by (apply pow_nonzero; lra). f_equal. field.
Qed.
Lemma sf_om : scaled_factor get_om_rot_fac 1.
Proof.
  intros d. unfold get_om_rot_fac. rewrite (real_resc "G" d _ si_G), (real_resc "M_star" d _ si_M), (real_resc "R_star" d _ si_R).
  apply rmap_bind. intros g. apply rmap_bind. intros m. rewrite (bcast_scale Rmult Rmult _ _ (Rmult (/ 1000 * / 1000))) by (intros; ring).
  apply rmap_bind. intros gm. apply rmap_bind. intros r. rewrite map_pow. rewrite (bcast_scale Rdiv Rdiv _ _ (Rmult 1)).
  - apply rmap_bind. intros q. cbn [rmap]. f_equal. rewrite !map_map. apply map_ext. intros x. rewrite !Rmult_1_l. reflexivity.
  - intros u v. rewrite div_scale by (apply pow_nonzero; lra). f_equal. field.
Qed.
Lemma sf_E : scaled_factor get_E_fac (/ 10000000).
Proof.
  intros d. unfold get_E_fac. rewrite (real_resc "M_star" d _ si_M), (real_resc "R_star" d _ si_R).
  apply rmap_bind. intros m. apply rmap_bind. intros r. rewrite map_pow. apply bcast_scale. intros u v. field.
Qed.
Lemma sf_H : scaled_factor get_H_fac (/ 10000000).
Proof.
  intros d. unfold get_H_fac. rewrite (real_resc "G" d _ si_G), (real_resc "M_star" d _ si_M), (real_resc "R_star" d _ si_R).
  apply rmap_bind. intros g. apply rmap_bind. intros m. rewrite map_pow. rewrite (bcast_scale Rmult Rmult _ _ (Rmult (/ 1000 * (/ 1000) ^ 2))) by (intros; ring).
  apply rmap_bind. intros gm. apply rmap_bind. intros r. apply bcast_scale. intros u v. rewrite div_scale by lra. f_equal. field.
Qed.
Definition key_ok (k : string) : Prop :=
  match dget (upper k) gyre_factors with
  | Some f => exists c, scaled_factor f c /\ c = si_per_cgs (k ++ "_dim") /\ si_per_cgs k = 1
  | None => In k (dc_complex dim_gyre) -> si_per_cgs k = 1
  end.
Ltac key_tac k :=
  unfold key_ok;
  let v := eval cbv -[get_r get_eul_phi_fac get_deul_phi_fac get_P get_rho get_T get_om_rot_fac get_L get_E_fac get_H_fac] in (dget (upper k) gyre_factors) in
  change (dget (upper k) gyre_factors) with v; cbv iota;
  match v with
  | None => let I := fresh in intros I; first [exfalso; apply inb_iff in I; vm_compute in I; discriminate I | si; reflexivity]
  | Some ?f => let p := match f with
                      | get_r => constr:(sf_r) | get_eul_phi_fac => constr:(sf_phi) | get_deul_phi_fac => constr:(sf_dphi) | get_P => constr:(sf_P) | get_rho => constr:(sf_rho)
                      | get_T => constr:(sf_T) | get_om_rot_fac => constr:(sf_om) | get_L => constr:(sf_L) | get_E_fac => constr:(sf_E) | get_H_fac => constr:(sf_H)
                      end in
               eexists; split; [exact p|split; [cbn [append]; si; reflexivity|si; reflexivity]]
  end.
Lemma keys_ok : Forall key_ok ("G"%string :: gyre_detail_attrs).
Proof. unfold gyre_detail_attrs. repeat (constructor; [match goal with |- key_ok ?k => key_tac k end|]). constructor. Qed.
