(** * Proofs about the debug information *)
From Coq Require Import List ZArith Lia Reals Lra String Ascii Bool.
From Coquelicot Require Import Complex.
From Verif Require Import Base Py NumDeriv_Model Load_Model Load_Spec Load_Proofs Grid_Model Grid_Spec Grid_Proofs Grid_Build Grid_Mesa Debug_Model Debug_Spec.
Import ListNotations.
Local Open Scope string_scope.

(** ** names *)
Lemma is_in_debug k : is_in "max_min" k = true <-> debug_attr k.
Proof.
  unfold is_in. rewrite contains_occurs. split.
  - intros (a & b & E). exists (string_of_list_ascii a), (string_of_list_ascii b).
    rewrite <- (string_of_list_ascii_of_string k), E. rewrite <- (string_of_list_ascii_of_string "max_min") at 2.
    generalize (list_ascii_of_string "max_min") as w. intros w. clear. induction a as [|c a IH]; cbn; [|rewrite IH; reflexivity].
    induction w as [|c w IH]; cbn; [reflexivity|rewrite IH; reflexivity].
  - intros (a & b & ->). exists (list_ascii_of_string a), (list_ascii_of_string b). rewrite !las_app. reflexivity.
Qed.
Lemma not_debug k : is_in "max_min" k = false -> ~ debug_attr k.
Proof. intros H D. apply is_in_debug in D. congruence. Qed.
Lemma debug_name_eq a normed poly : exists t, debug_name a normed poly = a ++ "_" ++ "max_min" ++ t.
Proof. unfold debug_name. destruct poly, normed; cbn [andb]; [exists "_normed_poly"|exists "_poly"|exists "_normed"|exists ""]; reflexivity. Qed.
Lemma sapp_assoc (a b c : string) : (a ++ b) ++ c = a ++ (b ++ c).
Proof. induction a as [|x a IH]; cbn; [reflexivity|rewrite IH; reflexivity]. Qed.
Lemma debug_name_debug a normed poly : debug_attr (debug_name a normed poly).
Proof. destruct (debug_name_eq a normed poly) as (t & ->). exists (a ++ "_"), t. rewrite sapp_assoc. reflexivity. Qed.

(** ** simulation *)
Definition agree (o o' : obj) : Prop := same_results o o'.
Lemma agree_refl o : agree o o. Proof. intros k _. reflexivity. Qed.
Lemma agree_trans a b c : agree a b -> agree b c -> agree a c.
Proof. intros H1 H2 k Hk. rewrite (H1 k Hk). apply H2, Hk. Qed.
Lemma agree_oset o o' k v : agree o o' -> agree (oset o k v) (oset o' k v).
Proof. intros H k' Hk. unfold oset. destruct (string_dec k' k); [reflexivity|apply H, Hk]. Qed.
Lemma agree_dbg o o' k v : agree o o' -> debug_attr k -> agree o (oset o' k v).
Proof. intros H D k' Hk. unfold oset. destruct (string_dec k' k) as [->|]; [contradiction|apply H, Hk]. Qed.
Lemma agree_oget o o' k : agree o o' -> is_in "max_min" k = false -> oget o k = oget o' k.
Proof. intros H Hk. unfold oget. rewrite (H k (not_debug k Hk)). reflexivity. Qed.
(** [ve]: a ValueError may replace the outcome *)
Definition sim (ve : bool) (p d : res obj) : Prop :=
  match d with
  | Ok o' => match p with Ok o => agree o o' | _ => False end
  | UB => p = UB
  | Exc e => p = Exc e \/ (ve = true /\ e = ValueError)
  end.
Lemma sim_unaffected p d : sim true p d -> unaffected p d.
Proof.
  destruct d as [o'| |e']; cbn; intros H; [|exact H|tauto]. destruct p as [o| |e]; try contradiction. exists o. split; [reflexivity|exact H].
Qed.
Lemma sim_bind ve p d f g : sim ve p d -> (forall o o', agree o o' -> sim ve (f o) (g o')) -> sim ve (bind p f) (bind d g).
Proof.
  intros H HF. destruct d as [o'| |e']; cbn [bind].
  - destruct p as [o| |e]; cbn in H; try contradiction. apply HF, H.
  - cbn in H. rewrite H. reflexivity.
  - cbn in H |- *. destruct H as [->|H]; [left; reflexivity|right; exact H].
Qed.
(** the same value is computed on both sides *)
Lemma sim_bindE {A} ve (x y : res A) f g : x = y -> (forall a, sim ve (f a) (g a)) -> sim ve (bind x f) (bind y g).
Proof. intros -> H. destruct y as [a| |e]; cbn [bind]; [apply H|reflexivity|left; reflexivity]. Qed.
Lemma sim_exc ve e : sim ve (Exc e) (Exc e). Proof. left. reflexivity. Qed.
Lemma sim_weak p d : sim false p d -> sim true p d.
Proof. destruct d; cbn; [auto|auto|intros [H|[H _]]; [left; exact H|discriminate]]. Qed.
Lemma sim_foldM {A} ve (f g : obj -> A -> res obj) l : (forall a o o', In a l -> agree o o' -> sim ve (f o a) (g o' a)) ->
  forall o o', agree o o' -> sim ve (foldM f l o) (foldM g l o').
Proof.
  induction l as [|a l IH]; intros H o o' HA; [exact HA|]. cbn [foldM]. apply sim_bind; [apply H; [left; reflexivity|exact HA]|].
  intros. apply IH; [|assumption]. intros. apply H; [right; assumption|assumption].
Qed.
Lemma add_debug_sim normed poly a o o' : agree o o' -> sim true (Ok o) (add_debug normed poly a o').
Proof.
  intros H. unfold add_debug.
  assert (S1 : forall v, sim true (Ok o) (Ok (oset o' (debug_name a normed poly) v))) by (intros v; cbn; apply agree_dbg; [exact H|apply debug_name_debug]).
  assert (S2 : forall l, sim true (Ok o) (s <- summary l ; Ok (oset o' (debug_name a normed poly) s))) by (intros [|b l]; cbn [summary bind]; [right; auto|apply S1]).
  destruct (o' a) as [[]|]; auto.
Qed.
Lemma note_sim dbg normed poly l : forall o o', agree o o' -> sim true (Ok o) (note dbg normed poly l o').
Proof.
  intros o o' H. unfold note. destruct dbg; [|exact H]. revert o o' H. induction l as [|a l IH]; intros o o' H; [exact H|]. cbn [foldM].
  pose proof (add_debug_sim normed poly a o o' H) as S. destruct (add_debug normed poly a o') as [o1| |e]; cbn [bind]; [apply IH, S|discriminate S|exact S].
Qed.
Lemma sim_note_after p d dbg normed poly l : sim true p d -> sim true p (bind d (note dbg normed poly l)).
Proof.
  intros H. destruct d as [o'| |e']; cbn [bind]; [|exact H|exact H]. destruct p as [o| |e]; try contradiction. apply note_sim, H.
Qed.
Lemma fill_agree names : (forall a, In a names -> debug_attr a) -> forall o, agree o (fill_debug names o).
Proof.
  unfold fill_debug. induction names as [|a l IH]; intros H o; [apply agree_refl|]. cbn [fold_left].
  apply agree_trans with (b := match o a with Some _ => o | None => oset o a VNone end).
  - destruct (o a); [apply agree_refl|]. apply agree_dbg; [apply agree_refl|apply H; left; reflexivity].
  - apply IH. intros; apply H; right; assumption.
Qed.

(** ** the statements that are shared respect agreement *)
Definition resp (f : obj -> res obj) : Prop := forall o o', agree o o' -> sim false (f o) (f o').
Lemma oarr_agree o o' k : agree o o' -> is_in "max_min" k = false -> oarr o k = oarr o' k.
Proof. intros H Hk. unfold oarr. rewrite (agree_oget o o' k H Hk). reflexivity. Qed.
Ltac nodbg := vm_compute; reflexivity.
Lemma interpolator_resp i d x : resp (interpolator i d x).
Proof.
  intros o o' H. unfold interpolator. apply sim_foldM; [|apply agree_oset, H]. intros [k v] p p' _ HP. cbn [fst snd].
  destruct (has k to_interpolate); [|exact HP]. apply sim_bindE; [reflexivity|intros xp]. apply sim_bindE; [reflexivity|intros w]. apply agree_oset, HP.
Qed.
Lemma extract_profile_resp poly prof : resp (extract_profile poly prof).
Proof.
  intros o o' H. unfold extract_profile. apply sim_bindE; [reflexivity|intros nr]. apply sim_bindE; [apply agree_oget; [exact H|nodbg]|intros x].
  apply sim_bindE; [reflexivity|intros n]. destruct (List.length nr =? n)%nat; apply sim_foldM; try exact H; intros [k v] p p' _ HP.
  - destruct (has k _); [exact HP|]. destruct (poly || scalar v); [apply agree_oset, HP|]. apply sim_bindE; [reflexivity|intros w]. apply agree_oset, HP.
  - destruct (scalar v); [apply agree_oset, HP|]. apply sim_bindE; [reflexivity|intros w]. apply sim_bindE; [reflexivity|intros u]. apply agree_oset, HP.
Qed.
Lemma set_normalization_resp c s P rho : resp (set_normalization c s P rho).
Proof. intros o o' H. unfold set_normalization. apply sim_bindE; [reflexivity|intros p]. apply sim_bindE; [reflexivity|intros r]. apply agree_oset, agree_oset, H. Qed.
Definition cut_clean (a : cut_arg) (poly : bool) : Prop := forall names c, cut_names a poly = Ok names -> In c names -> is_in "max_min" c = false.
Lemma cutter_resp a s poly : cut_clean a poly -> resp (fun o => cutter o a s poly).
Proof.
  intros HC o o' H. unfold cutter. destruct (cut_names a poly) as [names| |e] eqn:E; cbn [bind]; [|reflexivity|apply sim_exc].
  apply sim_foldM; [|exact H]. intros c p p' Hc HP. apply sim_bindE; [apply agree_oget; [exact HP|exact (HC names c E Hc)]|intros v].
  apply sim_bindE; [reflexivity|intros w]. apply agree_oset, HP.
Qed.
Lemma cut2_resp center surface l poly : (forall s, In s l -> cut_clean (CutName s) poly) -> resp (cut2 center surface l poly).
Proof.
  intros HC o o' H. unfold cut2. apply sim_bind.
  - destruct center; [|exact H]. apply sim_foldM; [|exact H]. intros s p p' Hs HP. apply (cutter_resp (CutName s) DropFirst poly (HC s Hs) p p' HP).
  - intros p p' HP. destruct surface; [|exact HP]. apply sim_foldM; [|exact HP]. intros s q q' Hs HQ. apply (cutter_resp (CutName s) DropLast poly (HC s Hs) q q' HQ).
Qed.
Lemma cut_clean_by a poly : (match cut_names a poly with Ok names => forallb (fun c => negb (is_in "max_min" c)) names | _ => true end) = true -> cut_clean a poly.
Proof. intros H names c E Hc. rewrite E in H. rewrite forallb_forall in H. specialize (H c Hc). destruct (is_in "max_min" c); [discriminate|reflexivity]. Qed.
Lemma pre_cuts_resp c s poly : resp (pre_profile_cuts c s poly).
Proof. apply cut2_resp. intros n [<-|[]]. apply cut_clean_by. destruct poly; vm_compute; reflexivity. Qed.
Lemma mode_cuts_resp c s poly : resp (mode_structure_cuts c s poly).
Proof. apply cut2_resp. intros n [<-|[<-|[]]]; apply cut_clean_by; destruct poly; vm_compute; reflexivity. Qed.
Lemma analytic_cuts_resp c s : resp (cut2 c s ["profile_load_cuts_analytic"] true).
Proof. apply cut2_resp. intros n [<-|[]]. apply cut_clean_by. vm_compute; reflexivity. Qed.
Lemma osets_agree l : forall o o', agree o o' -> agree (osets l o) (osets l o').
Proof. unfold osets. induction l as [|kv l IH]; intros o o' H; [exact H|]. cbn [fold_left]. apply IH, agree_oset, H. Qed.
Ltac oa := match goal with H : agree ?o ?o' |- context [oarr ?o ?k] => rewrite (oarr_agree o o' k H ltac:(nodbg)) end.
Lemma normed_resp P rho : resp (normed P rho).
Proof.
  intros o o' H. unfold normed. apply sim_bindE; [oa; reflexivity|intros nP]. apply sim_bindE; [oa; reflexivity|intros nr].
  repeat oa. apply sim_foldM; [|exact H]. intros [[name src] nf] p p' _ HP. apply sim_bindE; [reflexivity|intros a]. apply sim_bindE; [reflexivity|intros q]. apply agree_oset, HP.
Qed.
Lemma profiles_mesa_resp der c s sym brunt : resp (profiles_mesa der c s sym brunt).
Proof.
  intros o o' H. unfold profiles_mesa. apply sim_bind; [apply pre_cuts_resp, H|]. clear o o' H. intros o o' H. repeat oa.
  repeat (apply sim_bindE; [reflexivity|intro]). apply normed_resp, osets_agree, H.
Qed.
Lemma profiles_poly_resp der c s sym brunt : resp (profiles_poly der c s sym brunt).
Proof.
  intros o o' H. unfold profiles_poly. apply sim_bind; [apply pre_cuts_resp, H|]. clear o o' H. intros o o' H. repeat oa.
  repeat (apply sim_bindE; [reflexivity|intro]). apply normed_resp, osets_agree, H.
Qed.
Ltac inl := cbn [In] in *; repeat match goal with H : _ \/ _ |- _ => destruct H as [H|H] | H : False |- _ => destruct H end.
Lemma profiles_analytic_resp c s prof : resp (profiles_analytic c s prof).
Proof.
  intros o o' H. unfold profiles_analytic. repeat oa. do 3 (apply sim_bindE; [reflexivity|intro]).
  apply sim_bindE; [apply agree_oget; [exact H|nodbg]|intros x]. apply sim_bindE; [reflexivity|intros n]. apply sim_bind; [|clear o o' H; intros o o' H].
  - apply sim_foldM; [|exact H]. intros t p p' _ HP. unfold get_or_interp. destruct (negb _).
    + rewrite (agree_oget p p' "_x" HP ltac:(nodbg)). apply sim_bindE; [reflexivity|intros w]. apply agree_oset, HP.
    + apply agree_oset, HP.
  - apply sim_bind; [apply analytic_cuts_resp, H|clear o o' H; intros o o' H]. repeat oa. do 2 (apply sim_bindE; [reflexivity|intro]).
    apply sim_foldM; [|exact H]. intros [[name src] nf] p p' Ht HP. apply sim_bindE.
    + apply agree_oget; [exact HP|]. inl; injection Ht as <- <- <-; nodbg.
    + intros v. apply sim_bindE; [reflexivity|intros q]. apply agree_oset, HP.
Qed.
Lemma store_poly_resp : resp store_poly_coefficients.
Proof.
  intros o o' H. unfold store_poly_coefficients. apply sim_foldM; [|exact H]. intros t p p' Ht HP. apply sim_bindE.
  - apply agree_oget; [exact HP|]. inl; subst t; nodbg.
  - intros v. destruct v; cbn; try (left; reflexivity); apply agree_oset, HP.
Qed.

(** ** the instrumented constructor *)
Lemma foldM_pure {A S} (f : S -> A -> S) l : forall s, foldM (fun s a => Ok (f s a)) l s = Ok (fold_left f l s).
Proof. induction l as [|a l IH]; intros s; [reflexivity|]. cbn [foldM bind fold_left]. apply IH. Qed.
Lemma dextract_common_sim dbg common d o o' : agree o o' -> sim true (Ok (extract_common common d o)) (dextract_common dbg common d o').
Proof.
  intros H. unfold extract_common, dextract_common. rewrite <- foldM_pure. apply sim_foldM; [|exact H]. intros a p p' _ HP. apply note_sim, agree_oset, HP.
Qed.
Lemma dextract_mode_sim dbg common i d o o' : agree o o' -> sim true (Ok (extract_mode common i d o)) (dextract_mode dbg common i d o').
Proof.
  intros H. unfold extract_mode, dextract_mode. rewrite <- foldM_pure. apply sim_foldM; [|exact H]. intros [k v] p p' _ HP. cbn [fst snd].
  destruct (has k common); [exact HP|]. apply note_sim, agree_oset, HP.
Qed.
Lemma sim_okbind o d g (q : obj -> obj) : sim true (Ok o) d -> (forall o', agree o o' -> sim true (Ok (q o)) (g o')) -> sim true (Ok (q o)) (bind d g).
Proof. intros H HG. destruct d as [o'| |e]; cbn [bind]; [apply HG, H|discriminate H|right; destruct H as [H|H]; [discriminate H|exact H]]. Qed.
Lemma dextracted_sim dbg common d1 d2 d3 : sim true (Ok (extracted common d1 d2 d3)) (dextracted dbg common d1 d2 d3).
Proof.
  unfold extracted, dextracted.
  refine (sim_okbind _ _ _ (fun o => extract_mode common 3 d3 (extract_mode common 2 d2 (extract_mode common 1 d1 o))) (dextract_common_sim dbg common d1 _ _ (agree_refl _)) _).
  intros o1 H1. refine (sim_okbind _ _ _ (fun o => extract_mode common 3 d3 (extract_mode common 2 d2 o)) (dextract_mode_sim dbg common 1 d1 _ _ H1) _).
  intros o2 H2. refine (sim_okbind _ _ _ (fun o => extract_mode common 3 d3 o) (dextract_mode_sim dbg common 2 d2 _ _ H2) _).
  intros o3 H3. apply dextract_mode_sim, H3.
Qed.
Lemma dinterpolator_sim dbg i d x o o' : agree o o' -> sim true (interpolator i d x o) (dinterpolator dbg i d x o').
Proof. intros H. unfold dinterpolator. apply sim_note_after, sim_weak, interpolator_resp, H. Qed.
Lemma dinterpolation_sim dbg ds o o' : agree o o' -> sim true (interpolation_modes ds o) (dinterpolation_modes dbg ds o').
Proof.
  intros H. unfold interpolation_modes, dinterpolation_modes. apply sim_bindE; [reflexivity|intros lens]. apply sim_bindE; [reflexivity|intros x].
  apply sim_foldM; [|exact H]. intros [i d] p p' _ HP. apply dinterpolator_sim, HP.
Qed.
Lemma structure_debug_ok a : In a structure_debug -> debug_attr a.
Proof. intros H. apply is_in_debug. revert a H. apply forallb_forall. vm_compute. reflexivity. Qed.
Lemma tail_sim p d n1 n2 poly dbg : sim true p d ->
  sim true p (o <- d ; o <- note dbg false poly n1 o ; o <- note dbg true poly n2 o ; Ok (if dbg then fill_debug structure_debug o else o)).
Proof.
  intros H. destruct d as [o'| |e']; cbn [bind]; [|exact H|exact H]. destruct p as [o| |e]; try contradiction.
  pose proof (note_sim dbg false poly n1 o o' H) as H1. destruct (note dbg false poly n1 o') as [o1| |e1]; cbn [bind]; [|discriminate H1|exact H1].
  pose proof (note_sim dbg true poly n2 o o1 H1) as H2. destruct (note dbg true poly n2 o1) as [o2| |e2]; cbn [bind]; [|discriminate H2|exact H2].
  destruct dbg; [|exact H2]. apply (agree_trans _ _ _ H2 (fill_agree _ structure_debug_ok o2)).
Qed.
Lemma dbuild_mesa_sim der dbg sym brunt d1 d2 d3 prof : sim true (build_mesa der sym brunt d1 d2 d3 prof) (dbuild_mesa der dbg sym brunt d1 d2 d3 prof).
Proof.
  unfold build_mesa, dbuild_mesa.
  pose proof (dextracted_sim dbg mesa_common d1 d2 d3) as HE. destruct (dextracted dbg mesa_common d1 d2 d3) as [o0| |e]; cbn [bind]; [|discriminate HE|].
  2: { right. destruct HE as [HE|HE]; [discriminate HE|exact HE]. }
  apply sim_bind; [apply dinterpolation_sim, HE|clear HE o0; intros o o' H]. apply sim_bind; [apply sim_weak, extract_profile_resp, H|clear o o' H; intros o o' H].
  apply sim_bindE; [apply agree_oget; [exact H|nodbg]|intros P]. apply sim_bindE; [apply agree_oget; [exact H|nodbg]|intros rho].
  apply sim_bind; [apply sim_weak, set_normalization_resp, H|clear o o' H; intros o o' H]. apply sim_bindE; [reflexivity|intros G].
  apply sim_bind; [|clear o o' H; intros o o' H; apply sim_weak, mode_cuts_resp, H]. apply tail_sim, sim_weak, profiles_mesa_resp, agree_oset, H.
Qed.
Lemma dbuild_poly_sim der dbg analytic sym brunt d1 d2 d3 prof : sim true (build_poly der analytic sym brunt d1 d2 d3 prof) (dbuild_poly der dbg analytic sym brunt d1 d2 d3 prof).
Proof.
  unfold build_poly, dbuild_poly.
  pose proof (dextracted_sim dbg poly_common d1 d2 d3) as HE. destruct (dextracted dbg poly_common d1 d2 d3) as [o0| |e]; cbn [bind]; [|discriminate HE|].
  2: { right. destruct HE as [HE|HE]; [discriminate HE|exact HE]. }
  apply sim_bind; [apply dinterpolation_sim, HE|clear HE o0; intros o o' H]. apply sim_bind; [apply sim_weak, extract_profile_resp, H|clear o o' H; intros o o' H].
  apply sim_bindE; [apply agree_oget; [exact H|nodbg]|intros P]. apply sim_bindE; [apply agree_oget; [exact H|nodbg]|intros rho].
  apply sim_bind; [apply sim_weak, set_normalization_resp, H|clear o o' H; intros o o' H].
  apply sim_bind; [destruct analytic; apply tail_sim; [apply sim_weak, profiles_analytic_resp, H|apply sim_weak, profiles_poly_resp, H]|clear o o' H; intros o o' H].
  apply sim_bind; [apply sim_note_after, sim_weak, store_poly_resp, H|clear o o' H; intros o o' H; apply sim_weak, mode_cuts_resp, H].
Qed.
(** without the flag: the very same statements *)
Lemma dextracted_off common d1 d2 d3 : dextracted false common d1 d2 d3 = Ok (extracted common d1 d2 d3).
Proof.
  assert (E1 : forall o, dextract_common false common d1 o = Ok (extract_common common d1 o)) by (intros o; apply foldM_pure).
  assert (E2 : forall i d o, dextract_mode false common i d o = Ok (extract_mode common i d o)).
  { intros i d o. unfold dextract_mode, extract_mode. rewrite <- foldM_pure. clear. revert o. induction d as [|kv d IH]; intros o; [reflexivity|]. cbn [foldM].
    unfold note. destruct (has (fst kv) common); cbn [bind]; apply IH. }
  unfold dextracted. rewrite E1. cbn [bind]. rewrite E2. cbn [bind]. rewrite E2. cbn [bind]. rewrite E2. reflexivity.
Qed.
Lemma bind_Ok {A} (r : res A) : bind r Ok = r. Proof. destruct r; reflexivity. Qed.
Lemma foldM_ext {A S} (f g : S -> A -> res S) l : (forall s a, f s a = g s a) -> forall s, foldM f l s = foldM g l s.
Proof. intros H. induction l as [|a l IH]; intros s; [reflexivity|]. cbn [foldM]. rewrite H. destruct (g s a); cbn [bind]; auto. Qed.
Lemma dinterpolation_off ds o : dinterpolation_modes false ds o = interpolation_modes ds o.
Proof.
  unfold dinterpolation_modes, interpolation_modes. destruct (mapM _ ds) as [lens| |e]; cbn [bind]; try reflexivity.
  destruct (nth_error ds (argmax lens)) as [d|]; cbn [bind]; [destruct (dread d "x") as [x| |e]; cbn [bind]; try reflexivity|reflexivity].
  apply foldM_ext. intros s [i d']. apply bind_Ok.
Qed.
Lemma dbuild_mesa_off der sym brunt d1 d2 d3 prof : dbuild_mesa der false sym brunt d1 d2 d3 prof = build_mesa der sym brunt d1 d2 d3 prof.
Proof.
  unfold dbuild_mesa, build_mesa. rewrite dextracted_off. cbn [bind]. rewrite dinterpolation_off.
  destruct (interpolation_modes _ _) as [o| |e]; cbn [bind]; try reflexivity. destruct (extract_profile _ _ _) as [o1| |e]; cbn [bind]; try reflexivity.
  destruct (oget o1 "_P") as [P| |e]; cbn [bind]; try reflexivity. destruct (oget o1 "_rho") as [rho| |e]; cbn [bind]; try reflexivity.
  destruct (set_normalization _ _ _ _ _) as [o2| |e]; cbn [bind]; try reflexivity. destruct (dread d1 "G") as [G| |e]; cbn [bind]; try reflexivity.
  unfold dprofiles_mesa, note. destruct (profiles_mesa _ _ _ _ _ _) as [o3| |e]; reflexivity.
Qed.
Lemma dbuild_poly_off der analytic sym brunt d1 d2 d3 prof : dbuild_poly der false analytic sym brunt d1 d2 d3 prof = build_poly der analytic sym brunt d1 d2 d3 prof.
Proof.
  unfold dbuild_poly, build_poly. rewrite dextracted_off. cbn [bind]. rewrite dinterpolation_off.
  destruct (interpolation_modes _ _) as [o| |e]; cbn [bind]; try reflexivity. destruct (extract_profile _ _ _) as [o1| |e]; cbn [bind]; try reflexivity.
  destruct (oget o1 "_p0_profile") as [P| |e]; cbn [bind]; try reflexivity. destruct (oget o1 "_rho0_profile") as [rho| |e]; cbn [bind]; try reflexivity.
  destruct (set_normalization _ _ _ _ _) as [o2| |e]; cbn [bind]; try reflexivity.
  assert (E : (if analytic then dprofiles_analytic false true true prof o2 else dprofiles_poly der false true true sym brunt o2) =
              (if analytic then profiles_analytic true true prof o2 else profiles_poly der true true sym brunt o2)).
  { destruct analytic; unfold dprofiles_analytic, dprofiles_poly, note; apply bind_Ok. }
  rewrite E. clear E. destruct (if analytic then profiles_analytic true true prof o2 else profiles_poly der true true sym brunt o2) as [o3| |e]; cbn [bind]; try reflexivity.
  unfold dstore_poly_coefficients, note. destruct (store_poly_coefficients o3); reflexivity.
Qed.
