(** * Numerical differentiation (C17-C20, C64). *)
From Coq Require Import List ZArith Reals Lia Lra Bool String.
From Coquelicot Require Import Coquelicot.
From Verif Require Import Base Fornberg_Model Fornberg_Spec Fornberg_Proofs NumDeriv_Model NumDeriv_Proofs.
Import ListNotations.
Local Open Scope R_scope.

(** C17: the weights computed for pairwise distinct nodes apply the k-th
    derivative at x0 to every polynomial of degree < number of nodes (also for
    k >= number of nodes, where the derivative is 0). The bounds 20 and 7 are
    the fixed array extents (see C19). *)
Theorem C17_fornberg_weights_exact :
  forall (nodes : list R) (k : nat) (x0 : R),
  NoDup nodes -> (1 <= List.length nodes <= 20)%nat -> (k <= 7)%nat ->
  exists w,
    fdcoef RA (Z.of_nat k + 1) (Z.of_nat (List.length nodes)) x0 (fun i => rd nodes (i - 1)) = Ok w /\
    List.length w = List.length nodes /\
    forall a, (List.length a <= List.length nodes)%nat ->
      apply_weights w (peval a) nodes = Derive_n (peval a) k x0.
Proof. exact weights_exact. Qed.
Print Assumptions C17_fornberg_weights_exact.

Example C17_case : NoDup [0; 1; 3; 7] /\ (1 <= List.length [0; 1; 3; 7] <= 20)%nat /\ (2 <= 7)%nat.
Proof.
  split; [|cbn; lia]. repeat constructor; cbn; intros H; repeat destruct H as [H|H]; try lra; try contradiction.
Qed.

(** C18 *)
Theorem C18_grid_derivative_exact :
  forall (k acc : nat) (grid a : list R),
  NoDup grid -> (k <= 7)%nat -> (acc <= 19)%nat -> (acc + 1 <= List.length grid)%nat -> (List.length a <= acc + 1)%nat ->
  grid_derivative RA (Z.of_nat k) (Z.of_nat acc) grid (map (peval a) grid) =
    Ok (map (Derive_n (peval a) k) grid).
Proof. exact grid_derivative_exact. Qed.
Print Assumptions C18_grid_derivative_exact.

Example C18_case : NoDup [0; 1; 3; 4; 8; 9] /\ (4 + 1 <= List.length [0; 1; 3; 4; 8; 9])%nat.
Proof.
  split; [|cbn; lia]. repeat constructor; cbn; intros H; repeat destruct H as [H|H]; try lra; try contradiction.
Qed.

(** C19: for every accuracy >= 1, order, grid and data of equal lengths, in
    every arithmetic: the call returns normally, with one value per grid point,
    exactly when accuracy <= 19, 0 <= order <= 7 and the grid has at least
    accuracy+1 points; accuracy > 20 stops the program; everything else, in
    particular accuracy = 20 which the guard accepts, accesses an array out of
    bounds. *)
Theorem C19_fornberg_definedness :
  forall (num : Type) (A : arith num) (k acc : Z) (grid u : list num),
  (1 <= acc)%Z -> List.length u = List.length grid ->
  ((20 < acc)%Z -> grid_derivative A k acc grid u = Exc SystemExit) /\
  ((acc <= 19 /\ 0 <= k <= 7 /\ acc + 1 <= Z.of_nat (List.length grid))%Z ->
      exists du, grid_derivative A k acc grid u = Ok du /\ List.length du = List.length grid) /\
  ((acc <= 20)%Z -> ~ (acc <= 19 /\ 0 <= k <= 7 /\ acc + 1 <= Z.of_nat (List.length grid))%Z ->
      grid_derivative A k acc grid u = UB).
Proof.
  intros num A k acc grid u Ha Hu. split; [|split].
  - intros H. unfold grid_derivative, iaccuracy_max. destruct (Z.ltb_spec 20 acc); [reflexivity|lia].
  - intros (H1 & H2 & H3). apply grid_derivative_total; try assumption; lia.
  - intros H1 H2. apply grid_derivative_ub; lia.
Qed.
Print Assumptions C19_fornberg_definedness.

Example C19_case_guard_accepts_20 :
  grid_derivative RA 1 20 (map IZR [1;2;3;4;5;6;7;8;9;10;11;12;13;14;15;16;17;18;19;20;21;22]%Z)
     (map IZR [1;2;3;4;5;6;7;8;9;10;11;12;13;14;15;16;17;18;19;20;21;22]%Z) = UB.
Proof. apply grid_derivative_ub; lia. Qed.

Section Stencils.
Variable gradient : list R -> list R -> list R.
Local Notation call m x y := (differentiate gradient m 1 false 10 x y).

(** C20: every stencil result has the length of the input, the first entry is
    the input itself, the points whose neighbourhood leaves the grid hold 0 and
    the others hold the exact derivative of the polynomials the rule is exact
    for. *)
Theorem C20_forward_exact_for_affine :
  forall a b x, exists der,
    call (StencilM 1 FORWARD) x (map (peval [a; b]) x) = Ok [Some (map (peval [a; b]) x); Some der] /\
    List.length der = List.length x /\ nth (List.length x - 1) der 0 = 0 /\
    forall k, (k + 1 < List.length x)%nat -> nth k x 0 <> nth (k + 1) x 0 ->
      nth k der 0 = Derive (peval [a; b]) (nth k x 0).
Proof.
  intros a b x. eexists. split; [reflexivity|]. split; [apply run_stencil_length|]. split.
  - apply run_stencil_border. cbn [st_lo st_hi forward1]. lia.
  - intros k Hk Hne. rewrite run_stencil_inner by (cbn [st_lo st_hi forward1]; lia).
    cbn [st_kernel forward1]. rewrite !nthZ_map by lia. unfold nthZ.
    replace (Z.to_nat (Z.of_nat k + 1)) with (k + 1)%nat by lia. replace (Z.to_nat (Z.of_nat k + 0)) with k by lia.
    rewrite Derive1_peval. cbn. field. lra.
Qed.
Theorem C20_backward_exact_for_affine :
  forall a b x, exists der,
    call (StencilM 1 BACKWARD) x (map (peval [a; b]) x) = Ok [Some (map (peval [a; b]) x); Some der] /\
    List.length der = List.length x /\ nth 0 der 0 = 0 /\
    forall k, (k + 1 < List.length x)%nat -> nth k x 0 <> nth (k + 1) x 0 ->
      nth (k + 1) der 0 = Derive (peval [a; b]) (nth (k + 1) x 0).
Proof.
  intros a b x. eexists. split; [reflexivity|]. split; [apply run_stencil_length|]. split.
  - apply run_stencil_border. cbn [st_lo st_hi backward1]. lia.
  - intros k Hk Hne. rewrite run_stencil_inner by (cbn [st_lo st_hi backward1]; lia).
    cbn [st_kernel backward1]. rewrite !nthZ_map by lia. unfold nthZ.
    replace (Z.to_nat (Z.of_nat (k + 1) + 0)) with (k + 1)%nat by lia. replace (Z.to_nat (Z.of_nat (k + 1) + -1)) with k by lia.
    rewrite Derive1_peval. cbn. field. lra.
Qed.
Theorem C20_center_exact_for_quadratics :
  forall a b c x, exists der,
    call (StencilM 1 CENTER) x (map (peval [a; b; c]) x) = Ok [Some (map (peval [a; b; c]) x); Some der] /\
    List.length der = List.length x /\ nth 0 der 0 = 0 /\ nth (List.length x - 1) der 0 = 0 /\
    forall k h, (k + 2 < List.length x)%nat -> h <> 0 ->
      nth (k + 1) x 0 = nth k x 0 + h -> nth (k + 2) x 0 = nth k x 0 + 2 * h ->
      nth (k + 1) der 0 = Derive (peval [a; b; c]) (nth (k + 1) x 0).
Proof.
  intros a b c x. eexists. split; [reflexivity|]. split; [apply run_stencil_length|]. split; [|split].
  - apply run_stencil_border. cbn [st_lo st_hi center1]. lia.
  - apply run_stencil_border. cbn [st_lo st_hi center1]. lia.
  - intros k h Hk Hh E1 E2. rewrite run_stencil_inner by (cbn [st_lo st_hi center1]; lia).
    cbn [st_kernel center1]. rewrite !nthZ_map by lia. unfold nthZ.
    replace (Z.to_nat (Z.of_nat (k + 1) + 1)) with (k + 2)%nat by lia. replace (Z.to_nat (Z.of_nat (k + 1) + -1)) with k by lia.
    rewrite E1, E2, Derive1_peval. cbn. field. lra.
Qed.
Theorem C20_center2_exact_for_quartics :
  forall a b c d e x, exists der,
    call (StencilM 2 CENTER) x (map (peval [a; b; c; d; e]) x) = Ok [Some (map (peval [a; b; c; d; e]) x); Some der] /\
    List.length der = List.length x /\
    (forall k, (k < 2 \/ List.length x <= k + 2)%nat -> nth k der 0 = 0) /\
    forall k h, (k + 4 < List.length x)%nat -> h <> 0 ->
      (forall j, (j <= 4)%nat -> nth (k + j) x 0 = nth k x 0 + INR j * h) ->
      nth (k + 2) der 0 = Derive (peval [a; b; c; d; e]) (nth (k + 2) x 0).
Proof.
  intros a b c d e x. eexists. split; [reflexivity|]. split; [apply run_stencil_length|]. split.
  - intros k Hk. apply run_stencil_border. cbn [st_lo st_hi center2]. lia.
  - intros k h Hk Hh E. rewrite run_stencil_inner by (cbn [st_lo st_hi center2]; lia).
    cbn [st_kernel center2]. rewrite !nthZ_map by lia. unfold nthZ.
    replace (Z.to_nat (Z.of_nat (k + 2) + 2)) with (k + 4)%nat by lia. replace (Z.to_nat (Z.of_nat (k + 2) + -2)) with (k + 0)%nat by lia.
    replace (Z.to_nat (Z.of_nat (k + 2) + 1)) with (k + 3)%nat by lia. replace (Z.to_nat (Z.of_nat (k + 2) + -1)) with (k + 1)%nat by lia.
    replace (Z.to_nat (Z.of_nat (k + 2) + 0)) with (k + 2)%nat by lia.
    rewrite !E by lia. rewrite Derive1_peval. cbn. field. lra.
Qed.
(** The documented order-2 forward and backward stencils do not exist. *)
Theorem C20_missing_second_order_stencils :
  forall t x y n, t = FORWARD \/ t = BACKWARD ->
  differentiate gradient (StencilM 2 t) (S n) false 10 x y = Exc TypeError.
Proof.
  intros t x y n Ht. replace (S n) with (n + 1)%nat by lia.
  destruct Ht as [-> | ->]; cbn [differentiate execute]; rewrite !Nat.add_1_r; reflexivity.
Qed.
(** numpy.gradient gets the values first and the points second: if it is exact for affine
    functions on these points, so is the gradient method; derivatives beyond the first
    are missing without an error. *)
Theorem C20_gradient_method :
  forall x n a b, (forall a b, gradient (map (peval [a; b]) x) x = map (fun _ => b) x) ->
  differentiate gradient GradientM (S n) false 10 x (map (peval [a; b]) x) =
    Ok (Some (map (peval [a; b]) x) :: Some (map (Derive (peval [a; b])) x) :: repeat None n).
Proof.
  intros x n a b G. cbn [differentiate execute]. f_equal. rewrite Nat.add_1_r. cbn [seq map Nat.eqb]. rewrite G. do 2 f_equal.
  - f_equal. apply map_ext. intros t. rewrite Derive1_peval. cbn. lra.
  - clear G. match goal with |- map ?g (seq 2 n) = _ => assert (H : forall k, (2 <= k)%nat -> map g (seq k n) = repeat None n); [|apply H; lia] end. induction n as [|n IH]; intros k Hk; [reflexivity|].
    cbn [seq map repeat]. rewrite (proj2 (Nat.eqb_neq k 1)), (proj2 (Nat.eqb_neq k 0)) by lia. f_equal. apply IH. lia.
Qed.
End Stencils.
Print Assumptions C20_gradient_method.
Example C20_gradient_case : forall a b,
  (fun y x => map (fun _ : R => (nth 1 y 0 - nth 0 y 0) / (nth 1 x 0 - nth 0 x 0)) x) (map (peval [a; b]) [1; 3]) [1; 3] = map (fun _ => b) [1; 3].
Proof. intros a b. cbn. f_equal; [|f_equal]; field. Qed.
Print Assumptions C20_center2_exact_for_quartics.

Example C20_case : forall j, (j <= 4)%nat -> nth (0 + j) [0; 2; 4; 6; 8] 0 = nth 0 [0; 2; 4; 6; 8] 0 + INR j * 2.
Proof. intros [|[|[|[|[|j]]]]] H; try lia; simpl; ring. Qed.

(** C64: differentiation through the internal fine grid, on a uniform n-point
    grid with refinement factor f: of the n input points only gcd(n-1, f-2)+1
    equally spread ones come back (f = 2: gcd(n-1, 0) = n-1, all of them), for
    every method and derivative order; the zeroth derivative shows which. *)
Theorem C64_interpolated_differentiation_drops_points :
  forall gradient m order a h n f y,
  0 < h -> (2 <= n)%nat -> (2 <= f)%nat -> List.length y = n ->
  let g := Nat.gcd (n - 1) (f - 2) in
  let x := map (fun k => a + INR k * h) (seq 0 n) in
  forall out, differentiate gradient m order true f x y = Ok out ->
    (forall i der, nth_error out i = Some (Some der) -> List.length der = (g + 1)%nat) /\
    nth_error out 0 = Some (Some (map (fun t => nth (t * ((n - 1) / g)) y 0) (seq 0 (g + 1)))).
Proof.
  intros gradient m order a h n f y Hh Hn Hf Hy g x out H. fold (ugrid a h n) in x.
  unfold differentiate in H. unfold x in H. rewrite ugrid_length, map_idx_uniform in H by assumption. fold g in H.
  set (fine := linspace (amin (ugrid a h n)) (amax (ugrid a h n)) (n * f - 1)) in *.
  destruct (execute gradient m order fine (map (interp (ugrid a h n) y) fine)) as [ders| |] eqn:E; try discriminate.
  cbn [bind] in H. injection H as <-. split.
  - intros i der Hi. rewrite nth_error_map in Hi. destruct (nth_error ders i) as [[d|]|]; cbn in Hi; try discriminate.
    injection Hi as <-. unfold pick. rewrite !map_length, seq_length. reflexivity.
  - assert (E0 : nth_error ders 0 = Some (Some (map (interp (ugrid a h n) y) fine))).
    { destruct m as [o t| |acc| |]; cbn [execute] in E; try discriminate.
      - destruct (retrieve_stencil o t); try discriminate. cbn [bind] in E. rewrite Nat.add_1_r in E. cbn [seq map Nat.eqb] in E.
        cbn [seq_res bind] in E. destruct (seq_res _); try discriminate. cbn [bind] in E. injection E as <-. reflexivity.
      - rewrite Nat.add_1_r in E. injection E as <-. reflexivity.
      - rewrite Nat.add_1_r in E. cbn [seq map Nat.eqb] in E.
        cbn [seq_res bind] in E. destruct (seq_res _); try discriminate. cbn [bind] in E. injection E as <-. reflexivity. }
    rewrite nth_error_map, E0. cbn [option_map]. do 2 f_equal. unfold pick. rewrite map_map.
    apply map_ext_in. intros t Ht. apply in_seq in Ht.
    set (M := (n * f - 2)%nat) in *.
    assert (Eg : g = Nat.gcd (n - 1) M) by (symmetry; apply gcd_nf; assumption).
    assert (Hnf : (4 <= n * f)%nat) by nia.
    assert (Hg : g <> 0%nat) by (rewrite Eg; intros E'; apply Nat.gcd_eq_0_l in E'; lia).
    destruct (Nat.gcd_divide_r (n - 1) M) as [M' HM']. destruct (Nat.gcd_divide_l (n - 1) M) as [p' Hp]. rewrite <- Eg in HM', Hp.
    assert (EM : (M / g = M')%nat) by (rewrite HM' at 1; apply Nat.div_mul; exact Hg).
    assert (Ep : ((n - 1) / g = p')%nat) by (rewrite Hp at 1; apply Nat.div_mul; exact Hg).
    rewrite EM, Ep.
    assert (Hlt : (t * M' < n * f - 1)%nat) by nia.
    assert (Hk : (t * p' < n)%nat) by nia.
    assert (Hfl : List.length fine = (n * f - 1)%nat) by (unfold fine, linspace; rewrite map_length, seq_length; reflexivity).
    rewrite (nth_indep _ 0 (interp (ugrid a h n) y 0)) by (rewrite map_length, Hfl; exact Hlt).
    rewrite map_nth.
    assert (En : nth (t * M') fine 0 = nth (t * p') (ugrid a h n) 0).
    { rewrite ugrid_nth by exact Hk. unfold fine, linspace. rewrite ugrid_amin, ugrid_amax by (assumption || lia).
      set (ff := fun i0 => _). rewrite (nth_indep _ 0 (ff 0%nat)) by (rewrite map_length, seq_length; exact Hlt).
      rewrite map_nth, seq_nth by exact Hlt. unfold ff. rewrite Nat.add_0_l.
      replace (n * f - 1 - 1)%nat with M by lia. rewrite Hp, HM'. rewrite !mult_INR.
      assert (0 < INR M) by (apply lt_0_INR; lia). rewrite HM', mult_INR in H. field.
      split; intros E'; rewrite E' in H; lra. }
    rewrite En. apply interp_knot; rewrite ?ugrid_length; try assumption; try lia.
    intros i Hi. rewrite !ugrid_nth by lia. rewrite S_INR. lra.
Qed.
Print Assumptions C64_interpolated_differentiation_drops_points.

(** Default factor 10 on 100 points keeps gcd(99,8)+1 = 2 of them. *)
Example C64_case : (Nat.gcd (100 - 1) (10 - 2) + 1 = 2)%nat.
Proof. reflexivity. Qed.
