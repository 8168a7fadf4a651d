(** * Proofs: the MESA + GYRE object *)
From Coq Require Import List ZArith Lia Reals Lra String Ascii Bool.
From Coquelicot Require Import Complex.
From Verif Require Import Base Py NumDeriv_Model Load_Model Load_Proofs Load_Dim Coupling_Model Grid_Model Grid_Spec Grid_Interp Grid_Proofs Grid_Build.
Import ListNotations.
Local Open Scope string_scope.

Lemma oset_eqb o k v k' : oset o k v k' = if String.eqb k' k then Some v else o k'.
Proof. unfold oset. destruct (string_dec k' k) as [->|N]; [rewrite String.eqb_refl; reflexivity|]. apply String.eqb_neq in N. rewrite N. reflexivity. Qed.

(** ** cutting whole members *)
Definition gsl (s : slicer) (v : gval) : gval := match vslice s v with Ok w => w | _ => v end.
Definition gmid (v : gval) : gval := gsl DropLast (gsl DropFirst v).
Lemma gsl_ok s v : samples v <> None -> vslice s v = Ok (gsl s v) /\ samples (gsl s v) <> None.
Proof. unfold gsl. destruct v; cbn; intros H; try contradiction; (split; [reflexivity|discriminate]). Qed.
Lemma kept_map {A B} (f : A -> B) l : kept (map f l) = map f (kept l).
Proof.
  unfold kept. destruct l as [|a l]; [reflexivity|]. cbn [map tl]. clear a. induction l as [|b [|c l] IH]; [reflexivity|reflexivity|].
  change (removelast (map f (b :: c :: l))) with (f b :: removelast (map f (c :: l))). rewrite IH. reflexivity.
Qed.
Lemma gmid_samples v s : samples v = Some s -> samples (gmid v) = Some (kept s).
Proof.
  destruct v; cbn; intros H; try discriminate; injection H as <-; try reflexivity. f_equal. symmetry. apply kept_map.
Qed.
Definition all_arrays (o : obj) (names : list string) : Prop := forall c, In c names -> exists v, o c = Some v /\ samples v <> None.
Lemma cutter_ok s m poly names o : cut_names (CutName m) poly = Ok names -> NoDup names -> all_arrays o names ->
  exists o', cutter o (CutName m) s poly = Ok o' /\ (forall c, o' c = if has c names then option_map (gsl s) (o c) else o c).
Proof.
  intros E N H. unfold cutter. rewrite E. cbn [bind]. apply cut_loop; [exact N|]. intros c Hc. destruct (H c Hc) as (v & A & B).
  exists v. split; [exact A|]. apply gsl_ok, B.
Qed.
Lemma all_arrays_cut s names names' o o' : all_arrays o names -> (forall c, o' c = if has c names' then option_map (gsl s) (o c) else o c) -> all_arrays o' names.
Proof.
  intros H E c Hc. destruct (H c Hc) as (v & A & B). rewrite E, A. destruct (has c names'); cbn; eexists; (split; [reflexivity|]); [apply gsl_ok, B|exact B].
Qed.
Lemma cut2_one m poly names o : cut_names (CutName m) poly = Ok names -> NoDup names -> all_arrays o names ->
  exists o', cut2 true true [m] poly o = Ok o' /\ (forall c, o' c = if has c names then option_map gmid (o c) else o c).
Proof.
  intros E N H. unfold cut2. cbn [foldM].
  destruct (cutter_ok DropFirst m poly names o E N H) as (o1 & E1 & A1). rewrite E1. cbn [bind].
  destruct (cutter_ok DropLast m poly names o1 E N (all_arrays_cut _ _ _ _ _ H A1)) as (o2 & E2 & A2). rewrite E2. cbn [bind].
  exists o2. split; [reflexivity|]. intros c. rewrite A2, A1. destruct (has c names); [|reflexivity]. destruct (o c); reflexivity.
Qed.
Lemma has_app c l1 l2 : has c (l1 ++ l2)%list = has c l1 || has c l2.
Proof. unfold has. apply existsb_app. Qed.
Lemma cut2_two m1 m2 poly n1 n2 o : cut_names (CutName m1) poly = Ok n1 -> cut_names (CutName m2) poly = Ok n2 ->
  NoDup (n1 ++ n2)%list -> all_arrays o (n1 ++ n2)%list ->
  exists o', cut2 true true [m1; m2] poly o = Ok o' /\ (forall c, o' c = if has c (n1 ++ n2)%list then option_map gmid (o c) else o c).
Proof.
  intros E1 E2 N H.
  assert (N1 : NoDup n1) by (clear - N; induction n1; [constructor|]; inversion N; subst; constructor; [intros I; apply H1, in_or_app; auto|auto]).
  assert (N2 : NoDup n2) by (clear - N; induction n1; [exact N|]; inversion N; subst; auto).
  assert (D : forall c, has c n1 = true -> has c n2 = false).
  { intros c H1. apply has_false. intros H2. apply has_iff in H1. clear - N H1 H2. induction n1; [destruct H1|]. cbn in N. inversion N; subst.
    destruct H1 as [->|H1]; [|auto]. apply H3, in_or_app. auto. }
  assert (S1 : forall q, all_arrays q (n1 ++ n2)%list -> all_arrays q n1) by (intros q Q c Hc; apply Q, in_or_app; auto).
  assert (S2 : forall q, all_arrays q (n1 ++ n2)%list -> all_arrays q n2) by (intros q Q c Hc; apply Q, in_or_app; auto).
  unfold cut2. cbn [foldM].
  destruct (cutter_ok DropFirst m1 poly n1 o E1 N1 (S1 _ H)) as (o1 & F1 & A1). rewrite F1. cbn [bind].
  pose proof (all_arrays_cut _ _ _ _ _ H A1) as H1.
  destruct (cutter_ok DropFirst m2 poly n2 o1 E2 N2 (S2 _ H1)) as (o2 & F2 & A2). rewrite F2. cbn [bind].
  pose proof (all_arrays_cut _ _ _ _ _ H1 A2) as H2.
  destruct (cutter_ok DropLast m1 poly n1 o2 E1 N1 (S1 _ H2)) as (o3 & F3 & A3). rewrite F3. cbn [bind].
  pose proof (all_arrays_cut _ _ _ _ _ H2 A3) as H3.
  destruct (cutter_ok DropLast m2 poly n2 o3 E2 N2 (S2 _ H3)) as (o4 & F4 & A4). rewrite F4. cbn [bind].
  exists o4. split; [reflexivity|]. intros c. rewrite A4, A3, A2, A1, has_app. pose proof (D c) as Dc.
  destruct (has c n1); destruct (has c n2); cbn [orb]; try (specialize (Dc eq_refl); discriminate); destruct (o c); reflexivity.
Qed.
Fixpoint nodupb (l : list string) : bool := match l with [] => true | a :: l' => negb (has a l') && nodupb l' end.
Lemma nodupb_ok l : nodupb l = true -> NoDup l.
Proof.
  induction l as [|a l IH]; cbn; intros H; [constructor|]. apply andb_prop in H. destruct H as [H1 H2]. constructor; [|auto].
  apply has_false. destruct (has a l); [discriminate|reflexivity].
Qed.

(** ** kept points as tables *)
Local Open Scope R_scope.
Lemma removelast_length {A} (l : list A) : List.length (removelast l) = (List.length l - 1)%nat.
Proof. induction l as [|a [|b l] IH]; [reflexivity|reflexivity|]. change (removelast (a :: b :: l)) with (a :: removelast (b :: l)). cbn [List.length] in *. rewrite IH. lia. Qed.
Lemma removelast_nth {A} (l : list A) d i : (i < List.length l - 1)%nat -> nth i (removelast l) d = nth i l d.
Proof.
  revert i. induction l as [|a [|b l] IH]; intros i H; [cbn in H; lia|cbn in H; lia|].
  change (removelast (a :: b :: l)) with (a :: removelast (b :: l)). destruct i; [reflexivity|]. cbn [nth]. rewrite IH by (cbn [List.length] in *; lia). reflexivity.
Qed.
Lemma kept_length {A} (l : list A) : List.length (kept l) = (List.length l - 2)%nat.
Proof. unfold kept. rewrite removelast_length. destruct l; cbn; lia. Qed.
Lemma kept_nth {A} (l : list A) d i : (i < List.length l - 2)%nat -> nth i (kept l) d = nth (S i) l d.
Proof. intros H. unfold kept. destruct l as [|a l]; [cbn in H; lia|]. cbn [tl List.length nth] in *. apply removelast_nth. lia. Qed.
Lemma kept_tab {A} (l : list A) d n : List.length l = n -> kept l = tab (n - 2) (fun i => nth (S i) l d).
Proof.
  intros <-. apply (nth_ext _ _ d d); [rewrite tab_length; apply kept_length|]. intros i Hi. rewrite kept_length in Hi.
  rewrite tab_nth by exact Hi. apply kept_nth, Hi.
Qed.

(** ** derivatives *)
Section Derivs.
Variable der : list R -> list R -> res (list (option (list R))).
Variable n : nat.
Hypothesis Hder : derivative_ok der n.
Lemma der1_ok fx fy : exists f, der1 der (tab n fx) (tab n fy) = Ok (tab n f).
Proof.
  destruct (Hder (tab n fx) (tab n fy)) as (d0 & d & E & L); [apply tab_length|apply tab_length|].
  exists (fun i => nth i d 0). unfold der1, compute_der. rewrite E. cbn [bind map option_map].
  rewrite (tab_of d 0) at 1. rewrite L. reflexivity.
Qed.
Lemma structure_derivs_ok (sym brunt : bool) rad G G3 g rho P G1 N2 rho_num :
  (sym = true -> brunt = false -> rho_num = Ok (tab n rho)) ->
  exists drho_ drho2_ drho3_ g2 g3 dP_ dP2_ dP3_,
  structure_derivs der sym brunt (tab n rad) [G] [G3] (tab n g) (tab n rho) (tab n P) (tab n G1) (tab n N2) rho_num =
    Ok [("_drho", tab n drho_); ("_drho2", tab n drho2_); ("_drho3", tab n drho3_); ("_dgravpot2", tab n g2); ("_dgravpot3", tab n g3);
        ("_dP", tab n dP_); ("_dP2", tab n dP2_); ("_dP3", tab n dP3_)]%string /\
  der1 der (tab n rad) (tab n drho_) = Ok (tab n drho2_) /\ der1 der (tab n rad) (tab n drho2_) = Ok (tab n drho3_) /\
  (sym = false \/ brunt = false -> der1 der (tab n rad) (tab n rho) = Ok (tab n drho_)) /\
  (sym = true -> brunt = true -> forall i, drho_ i = drho (rho i) (g i) (G1 i) (P i) (N2 i)) /\
  (sym = true -> forall i, g2 i = dgravpot2 G (rho i) (g i) (rad i) /\ g3 i = dgravpot3 G3 (drho_ i) (g i) (g2 i) (rad i) /\
     dP_ i = dP (rho i) (g i) /\ dP2_ i = dP2 (rho i) (drho_ i) (g i) (g2 i) /\ dP3_ i = dP3 (rho i) (drho_ i) (drho2_ i) (g i) (g2 i) (g3 i)) /\
  (sym = false -> der1 der (tab n rad) (tab n g) = Ok (tab n g2) /\ der1 der (tab n rad) (tab n g2) = Ok (tab n g3) /\
     der1 der (tab n rad) (tab n P) = Ok (tab n dP_) /\ der1 der (tab n rad) (tab n dP_) = Ok (tab n dP2_) /\ der1 der (tab n rad) (tab n dP2_) = Ok (tab n dP3_)).
Proof.
  intros Hnum.
  assert (D1 : exists f, (if sym then
             if brunt then
               a <- vmul [(-1)%R] (tab n rho) ; a <- vmul a (tab n g) ; b <- vmul (tab n G1) (tab n P) ; a <- vdiv a b ;
               c <- vdiv (tab n N2) (tab n g) ; d <- vsub a c ; vmul (tab n rho) d
             else y <- rho_num ; der1 der (tab n rad) y
           else der1 der (tab n rad) (tab n rho)) = Ok (tab n f) /\
     (sym = false \/ brunt = false -> der1 der (tab n rad) (tab n rho) = Ok (tab n f)) /\
     (sym = true -> brunt = true -> forall i, f i = drho (rho i) (g i) (G1 i) (P i) (N2 i))).
  { destruct sym; [destruct brunt|].
    - eexists. unfold vmul, vdiv, vsub. rewrite bcast_left. cbn [bind]. rewrite bcast_tab. cbn [bind]. rewrite bcast_tab. cbn [bind].
      rewrite bcast_tab. cbn [bind]. rewrite bcast_tab. cbn [bind]. rewrite bcast_tab. cbn [bind]. rewrite bcast_tab. split; [reflexivity|].
      split; [intros [H|H]; discriminate|]. intros _ _ i. cbv beta. unfold drho. reflexivity.
    - rewrite (Hnum eq_refl eq_refl). cbn [bind]. destruct (der1_ok rad rho) as (f & E). exists f. split; [exact E|]. split; [auto|]. intros; discriminate.
    - destruct (der1_ok rad rho) as (f & E). exists f. split; [exact E|]. split; [auto|]. intros; discriminate. }
  destruct D1 as (drho_ & E1 & E1a & E1b). destruct (der1_ok rad drho_) as (drho2_ & E2). destruct (der1_ok rad drho2_) as (drho3_ & E3).
  unfold structure_derivs. rewrite E1. cbn [bind]. rewrite E2. cbn [bind]. rewrite E3. cbn [bind].
  destruct sym.
  - unfold vmul, vdiv, vsub, vadd. rewrite !map_tab.
    repeat first [rewrite bcast_tab | rewrite bcast_left | progress change (bcast Rmult [4 * PI] [G]) with (Ok [4 * PI * G]) | progress change (bcast Rmult [4 * PI] [G3]) with (Ok [4 * PI * G3]) | progress cbn [bind] | rewrite map_tab].
    do 8 eexists. split; [reflexivity|]. split; [exact E2|]. split; [exact E3|]. split; [exact E1a|]. split; [exact E1b|]. split; [|intros; discriminate].
    intros _ i. cbv beta. unfold dgravpot2, dgravpot3, dP, dP2, dP3. repeat split; try ring.
  - destruct (der1_ok rad g) as (g2 & F1). destruct (der1_ok rad g2) as (g3 & F2).
    destruct (der1_ok rad P) as (d1 & F3). destruct (der1_ok rad d1) as (d2 & F4). destruct (der1_ok rad d2) as (d3 & F5).
    rewrite F1. cbn [bind]. rewrite F2. cbn [bind]. rewrite F3. cbn [bind]. rewrite F4. cbn [bind]. rewrite F5. cbn [bind].
    do 8 eexists. split; [reflexivity|]. split; [exact E2|]. split; [exact E3|]. split; [exact E1a|]. split; [exact E1b|].
    split; [intros; discriminate|]. intros _. repeat split; assumption.
Qed.
End Derivs.
