(** * Lemmas for the kernel figures. *)
From Coq Require Import Reals List ZArith Bool String Ascii Lia Lra.
From Coquelicot Require Import Complex.
From Verif Require Import Base Py Saver_Model Freq_Model Coupling_Model Kernel_Model KFig_Model KFig_Spec.
Import ListNotations.
Local Open Scope string_scope.
Local Open Scope list_scope.
Local Open Scope res_scope.

Lemma upd_length {A} (l : list A) i a : List.length (upd l i a) = List.length l.
Proof. revert i; induction l; destruct i; cbn; congruence. Qed.
Lemma upd_nth {A} (l : list A) i a j : nth_error (upd l i a) j = if (j =? i)%nat then match nth_error l i with Some _ => Some a | None => None end else nth_error l j.
Proof.
  revert i j; induction l as [|b l IH]; intros i j.
  - cbn. destruct i, j; cbn; try reflexivity. destruct (j =? i)%nat; reflexivity.
  - destruct i, j; cbn; try reflexivity. rewrite IH. reflexivity.
Qed.

(** ** labels and lines of one term *)
Definition label_of (br : bool) (d : kdraw) : label_arg :=
  let b := fun l => if br then "[" +++ l +++ "]" else l in
  if (1 <? List.length (d_legend d))%nat then LList (map b (d_legend d)) else LStr (b (hd "" (d_legend d))).
Lemma multiple_label_ok br d : d_legend d <> [] -> multiple_label br (d_legend d) = Ok (label_of br d).
Proof. intros H. unfold multiple_label, label_of. destruct (1 <? _)%nat; [reflexivity|]. destruct (d_legend d); [contradiction|reflexivity]. Qed.
Definition lines_of (n : nat) (x : nat -> R) (br : bool) (d : kdraw) : list line :=
  match label_of br d with
  | LStr s => map (fun y => {| l_label := s; l_n := n; l_x := x; l_y := y |}) (d_rows d)
  | LList l => map (fun p => {| l_label := fst p; l_n := n; l_x := x; l_y := snd p |}) (combine l (d_rows d))
  end.
Lemma plot_lines_ok n x br d : legend_fits d -> plot_lines n x (d_rows d) (label_of br d) = Ok (lines_of n x br d).
Proof.
  intros [NE L]. unfold plot_lines, lines_of, label_of. destruct (Nat.ltb_spec 1 (List.length (d_legend d))) as [H|H]; [|reflexivity].
  rewrite map_length, (L H), Nat.eqb_refl. reflexivity.
Qed.
Lemma nth_combine {A B} (l : list A) (r : list B) i a b : nth_error l i = Some a -> nth_error r i = Some b -> nth_error (combine l r) i = Some (a, b).
Proof. revert r i; induction l; intros [|c r] [|i]; cbn; try discriminate; [congruence|apply IHl]. Qed.
Lemma lines_of_spec n x (br : bool) d : legend_fits d -> term_lines n x (if br then "[" else "") (if br then "]" else "") d (lines_of n x br d).
Proof.
  intros [NE L]. unfold term_lines, lines_of, label_of. destruct (Nat.ltb_spec 1 (List.length (d_legend d))) as [H|H].
  - split. { rewrite map_length, combine_length, map_length, (L H). lia. }
    intros i y Hy. assert (Hi : (i < List.length (d_legend d))%nat) by (rewrite (L H); apply nth_error_Some; congruence).
    destruct (nth_error (d_legend d) i) as [s|] eqn:Es; [|apply nth_error_None in Es; lia].
    eexists. exists s. split; [|split; [reflexivity|reflexivity]].
    erewrite map_nth_error; [|apply nth_combine; [apply map_nth_error; exact Es|exact Hy]]. cbn. destruct br; [reflexivity|].
    replace ("" +++ s +++ "") with s; [reflexivity|]. cbn. clear. induction s; cbn; congruence.
  - split; [apply map_length|]. intros i y Hy. destruct (d_legend d) as [|s [|? ?]] eqn:E; [contradiction|..|cbn in H; lia].
    eexists. exists s. split; [|split; [reflexivity|reflexivity]]. erewrite map_nth_error by exact Hy. cbn. destruct br; [reflexivity|].
    replace ("" +++ s +++ "") with s; [reflexivity|]. cbn. clear. induction s; cbn; congruence.
Qed.

(** ** one term per axis *)
Definition with_lines (p : panel) (ls : list line) : panel :=
  {| p_lines := p_lines p ++ ls; p_title := p_title p; p_xlim := p_xlim p; p_xlabel := p_xlabel p; p_ylabel := p_ylabel p; p_shade := p_shade p |}.
Definition drawn (n : nat) (x : nat -> R) (br : kdraw -> bool) (ti : kdraw -> option string) (d : kdraw) (p : panel) : panel :=
  let q := with_lines p (lines_of n x (br d) d) in match ti d with Some s => set_title s q | None => q end.
Lemma draw_multiple_ok n x br ti terms : forall i axes, Forall legend_fits terms -> (i + List.length terms <= List.length axes)%nat ->
  exists axes', draw_multiple n x br ti i terms axes = Ok axes' /\ List.length axes' = List.length axes /\
    forall j, nth_error axes' j =
      if ((i <=? j) && (j <? i + List.length terms))%nat
      then match nth_error terms (j - i), nth_error axes j with Some d, Some p => Some (drawn n x br ti d p) | _, _ => None end
      else nth_error axes j.
Proof.
  induction terms as [|d terms IH]; intros i axes F L; cbn [draw_multiple].
  - exists axes. split; [reflexivity|]. split; [reflexivity|]. intros j. cbn [List.length]. rewrite Nat.add_0_r.
    destruct (Nat.leb_spec i j), (Nat.ltb_spec j i); cbn; try reflexivity; lia.
  - inversion F as [|? ? Fd Ft]; subst. cbn in L. rewrite (multiple_label_ok _ _ (proj1 Fd)). cbn [bind].
    unfold on_axis. destruct (nth_error axes i) as [p|] eqn:Ep; [|apply nth_error_None in Ep; lia].
    unfold draw. rewrite (plot_lines_ok _ _ _ _ Fd). cbn [bind].
    set (q := match ti d with Some s => _ | None => _ end).
    assert (Q : q = drawn n x br ti d p) by reflexivity.
    destruct (IH (S i) (upd axes i q) Ft) as (axes' & E & Ln & N). { rewrite upd_length. lia. }
    exists axes'. split; [exact E|]. split; [rewrite Ln; apply upd_length|]. intros j. rewrite N, upd_nth, Ep. cbn [List.length].
    destruct (Nat.leb_spec (S i) j) as [A|A], (Nat.ltb_spec j (S i + List.length terms)) as [B|B],
             (Nat.leb_spec i j) as [C|C], (Nat.ltb_spec j (i + S (List.length terms))) as [D|D], (Nat.eqb_spec j i) as [G|G]; cbn [andb]; try lia; try reflexivity.
    + replace (j - i)%nat with (S (j - S i)) by lia. reflexivity.
    + subst j. rewrite Nat.sub_diag. cbn. rewrite Ep, Q. reflexivity.
Qed.
Lemma draw_multiple_too_many n x br ti terms : forall i axes, Forall legend_fits terms -> (i <= List.length axes)%nat -> (List.length axes < i + List.length terms)%nat ->
  draw_multiple n x br ti i terms axes = Exc IndexError.
Proof.
  induction terms as [|d terms IH]; intros i axes F Li L; cbn [draw_multiple List.length] in *; [lia|].
  inversion F as [|? ? Fd Ft]; subst. rewrite (multiple_label_ok _ _ (proj1 Fd)). cbn [bind].
  unfold on_axis. destruct (nth_error axes i) as [p|] eqn:Ep; [|reflexivity].
  unfold draw. rewrite (plot_lines_ok _ _ _ _ Fd). cbn [bind]. apply IH; [exact Ft|..]; rewrite upd_length; [|lia].
  apply nth_error_Some. congruence.
Qed.

(** ** figures *)
Lemma grid_row c : (1 <= c)%Z -> grid_axes c 1 = Ok (Z.to_nat c).
Proof.
  intros H. unfold grid_axes. destruct (Z.ltb_spec c 1); [lia|]. cbn [orb Z.ltb]. change ((1 <? 1)%Z) with false. cbn [orb].
  destruct (Z.eqb_spec c 1) as [->|N]; reflexivity.
Qed.
Lemma all_figs_ok (fig : Z -> res (list panel)) (mk : nat -> panel) cols :
  (forall c, (1 <= c)%Z -> fig c = Ok (map mk (seq 0 (Z.to_nat c)))) -> Forall (fun c => (1 <= c)%Z) cols ->
  all_figs fig cols = Ok (map (fun c => map mk (seq 0 (Z.to_nat c))) cols).
Proof. intros H F. induction F as [|c cols C F IH]; cbn; [reflexivity|]. rewrite (H c C). cbn. rewrite IH. reflexivity. Qed.
Lemma axes_length (mk : nat -> panel) cols : List.length (List.concat (map (fun c => map mk (seq 0 (Z.to_nat c))) cols)) = total cols.
Proof. induction cols as [|c cols IH]; cbn; [reflexivity|]. rewrite app_length, map_length, seq_length, IH. reflexivity. Qed.
Lemma axes_nth (mk : nat -> panel) cols : forall f q c, nth_error cols f = Some c -> (q < Z.to_nat c)%nat ->
  nth_error (List.concat (map (fun c => map mk (seq 0 (Z.to_nat c))) cols)) (total (firstn f cols) + q) = Some (mk q).
Proof.
  induction cols as [|c0 cols IH]; intros [|f] q c; cbn; try discriminate.
  - intros [= ->] Hq. rewrite nth_error_app1 by (rewrite map_length, seq_length; exact Hq).
    erewrite map_nth_error; [reflexivity|]. rewrite nth_error_nth' with (d := 0%nat) by (rewrite seq_length; exact Hq). rewrite seq_nth by exact Hq. reflexivity.
  - intros Hc Hq. rewrite nth_error_app2 by (rewrite map_length, seq_length; lia). rewrite map_length, seq_length.
    rewrite <- (IH f q c Hc Hq). f_equal. unfold total. lia.
Qed.
Lemma sizes_of (mk : nat -> panel) cols : map (@List.length panel) (map (fun c => map mk (seq 0 (Z.to_nat c))) cols) = map Z.to_nat cols.
Proof. rewrite map_map. apply map_ext. intros c. rewrite map_length, seq_length. reflexivity. Qed.
Lemma regroup_length s a : List.length (regroup s a) = List.length s.
Proof. revert a; induction s; cbn; intros; [reflexivity|]. rewrite IHs. reflexivity. Qed.
Lemma nth_firstn {A} (l : list A) : forall n q, nth_error (firstn n l) q = if (q <? n)%nat then nth_error l q else None.
Proof.
  induction l as [|a l IH]; intros [|n] [|q]; cbn [firstn nth_error]; try reflexivity.
  - destruct (S q <? S n)%nat; reflexivity.
  - rewrite IH. reflexivity.
Qed.
Lemma nth_skipn {A} (l : list A) : forall n q, nth_error (skipn n l) q = nth_error l (n + q).
Proof. induction l as [|a l IH]; intros [|n] q; cbn; try reflexivity; [destruct q; reflexivity|apply IH]. Qed.
Lemma regroup_nth cols : forall axes f c, nth_error cols f = Some c -> (total cols <= List.length axes)%nat ->
  exists g, nth_error (regroup (map Z.to_nat cols) axes) f = Some g /\ List.length g = Z.to_nat c /\
    forall q, (q < Z.to_nat c)%nat -> nth_error g q = nth_error axes (total (firstn f cols) + q).
Proof.
  induction cols as [|c0 cols IH]; intros axes [|f] c; cbn; try discriminate.
  - intros [= ->] L. eexists. split; [reflexivity|]. split; [rewrite firstn_length; lia|].
    intros q Hq. rewrite nth_firstn. apply Nat.ltb_lt in Hq. rewrite Hq. reflexivity.
  - intros Hc L. destruct (IH (skipn (Z.to_nat c0) axes) f c Hc) as (g & G & Lg & N). { rewrite skipn_length. unfold total. lia. }
    exists g. split; [exact G|]. split; [exact Lg|]. intros q Hq. rewrite (N q Hq), nth_skipn. f_equal. unfold total. lia.
Qed.
Lemma total_firstn cols : forall f c q, nth_error cols f = Some c -> (q < Z.to_nat c)%nat -> (total (firstn f cols) + q < total cols)%nat.
Proof.
  induction cols as [|c0 cols IH]; intros [|f] c q; cbn; try discriminate.
  - intros [= ->]. lia.
  - intros H Q. specialize (IH f c q H Q). unfold total in *. lia.
Qed.
Lemma save_multiple_nth path number kind part figs f g : nth_error figs f = Some g ->
  nth_error (save_multiple path number kind part figs) f = Some (multiple_name path number kind part f, g).
Proof.
  intros H. unfold save_multiple. erewrite map_nth_error; [|apply nth_combine; [|exact H]].
  2:{ rewrite nth_error_nth' with (d := 0%nat) by (rewrite seq_length; apply nth_error_Some; congruence). rewrite seq_nth; [reflexivity|apply nth_error_Some; congruence]. }
  reflexivity.
Qed.
Lemma save_multiple_length path number kind part figs : List.length (save_multiple path number kind part figs) = List.length figs.
Proof. unfold save_multiple. rewrite map_length, combine_length, seq_length. lia. Qed.

(** the common part of the two figure functions with one term per panel *)
Lemma multiple_general n x br ti (mk : nat -> panel) terms cols : Forall legend_fits terms ->
  let figs := map (fun c => map mk (seq 0 (Z.to_nat c))) cols in
  (total cols < List.length terms)%nat -> draw_multiple n x br ti 0 terms (List.concat figs) = Exc IndexError.
Proof. intros F figs L. apply draw_multiple_too_many; [exact F|lia|]. unfold figs. rewrite axes_length. cbn. exact L. Qed.
Lemma multiple_fits n x br ti (mk : nat -> panel) terms cols path number kind part : Forall legend_fits terms ->
  let figs := map (fun c => map mk (seq 0 (Z.to_nat c))) cols in
  (List.length terms <= total cols)%nat ->
  exists axes', draw_multiple n x br ti 0 terms (List.concat figs) = Ok axes' /\
    let fs := save_multiple path number kind part (regroup (map (@List.length panel) figs) axes') in
    List.length fs = List.length cols /\
    forall f c, nth_error cols f = Some c ->
      exists g, nth_error fs f = Some (multiple_name path number kind part f, g) /\ List.length g = Z.to_nat c /\
        forall q, (q < Z.to_nat c)%nat -> nth_error g q =
          Some (match nth_error terms (total (firstn f cols) + q) with Some d => drawn n x br ti d (mk q) | None => mk q end).
Proof.
  intros F figs L. destruct (draw_multiple_ok n x br ti terms 0 (List.concat figs) F) as (axes' & E & Ln & N).
  { unfold figs. rewrite axes_length. cbn. exact L. }
  exists axes'. split; [exact E|]. cbn zeta. unfold figs at 1 2. rewrite sizes_of. split.
  { rewrite save_multiple_length, regroup_length, map_length. reflexivity. }
  intros f c Hc. destruct (regroup_nth cols axes' f c Hc) as (g & G & Lg & Nq). { rewrite Ln. unfold figs. rewrite axes_length. lia. }
  exists g. split; [apply save_multiple_nth; exact G|]. split; [exact Lg|]. intros q Hq. rewrite (Nq q Hq), N.
  unfold figs. rewrite (axes_nth mk cols f q c Hc Hq). cbn [Nat.leb andb]. rewrite Nat.sub_0_r. cbn [plus].
  destruct (Nat.ltb_spec (total (firstn f cols) + q) (List.length terms)) as [H|H].
  - destruct (nth_error terms _) eqn:Et; [reflexivity|]. apply nth_error_None in Et. lia.
  - apply nth_error_None in H. rewrite H. reflexivity.
Qed.

(** ** everything on the first axis *)
Lemma draw_single_ok n x (label : kdraw -> res string) (lab : kdraw -> string) terms : (forall d, In d terms -> label d = Ok (lab d)) ->
  forall p axes, draw_single n x label terms (p :: axes) =
    Ok (with_lines p (flat_map (fun d => map (fun y => {| l_label := lab d; l_n := n; l_x := x; l_y := y |}) (d_rows d)) terms) :: axes).
Proof.
  induction terms as [|d terms IH]; intros H p axes; cbn [draw_single flat_map].
  - unfold with_lines. rewrite app_nil_r. destruct p; reflexivity.
  - rewrite (H d (or_introl eq_refl)). cbn. rewrite IH by (intros d' Hd; apply H; right; exact Hd). unfold with_lines. cbn. rewrite app_assoc. reflexivity.
Qed.
