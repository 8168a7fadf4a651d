(** * C114 for polytropic oscillation files. *)
From Coq Require Import List ZArith Lia Reals Lra String Ascii Bool.
From Coquelicot Require Import Complex.
From Verif Require Import Base Py Load_Model Load_Spec Load_Proofs Load_UnitKeys Load_Units Load_Dim.
Import ListNotations.
Local Open Scope string_scope.

(** C114 for polytropes: the eigenfunctions of a polytropic oscillation file are stored as pairs and become complex numbers;
    everything else is left as it is, and nothing gets a dimension *)
Definition poly_labels : list string := ["n"; "j"; "l"; "m"; "n_p"; "n_g"; "n_pg"; "freq_units"; "freq_frame"; "label"].
Definition poly_pairs : list string :=
  ["freq"; "omega"; "lambda"; "l_i"; "xi_r"; "xi_h"; "eul_phi"; "deul_phi"; "y_1"; "y_2"; "y_3"; "y_4"; "y_5"; "y_6"].
Definition poly_data (d : dict val) : Prop :=
  NoDup (map fst d) /\ forall k v, In (k, v) d -> ~ In k poly_labels -> if in_dec string_dec k poly_pairs then exists l, v = VReIm l else exists l, v = VReal l.
Lemma poly_lists k : (In k (dc_avoid re_im_poly) <-> In k poly_labels) /\ (In k (dc_complex re_im_poly) <-> In k poly_pairs).
Proof.
  assert (G : forall a b, forallb (fun x => inb x b) a = true -> forallb (fun x => inb x a) b = true -> (In k a <-> In k b)).
  { intros a b A B. rewrite forallb_forall in A, B. split; intros J; apply inb_iff; [apply A|apply B]; exact J. }
  split; apply G; vm_compute; reflexivity.
Qed.
Theorem C114_polytropes d : poly_data d -> exists r, dimensionalize re_im_poly d = Ok r /\
  forall k, dget k r = match dget k d with
                       | Some (VReIm l) => if in_dec string_dec k poly_labels then Some (VReIm l) else Some (VCx l)
                       | o => o
                       end.
Proof.
  intros [N T].
  set (out := fun v : val => match v with VReIm l => VCx l | o => o end).
  set (F := fun kv : string * val => if in_dec string_dec (fst kv) poly_labels then None else Some (fst kv, out (snd kv))).
  destruct (dim_result re_im_poly d F) as (r & E & R1 & R2).
  { intros [k v] J. unfold dim_entry, F. cbn [fst snd]. destruct (poly_lists k) as [La Lc].
    destruct (in_dec string_dec k (dc_avoid re_im_poly)) as [A|A], (in_dec string_dec k poly_labels) as [B|B]; try (exfalso; tauto); [reflexivity|].
    cbn [dc_factor re_im_poly bind fst snd]. change (dc_complex {| dc_factor := _; dc_complex := ?c; dc_avoid := _ |}) with c.
    specialize (T k v J B). change (in_dec string_dec k (dc_complex re_im_poly)) with (in_dec string_dec k (dc_complex re_im_poly)).
    destruct (in_dec string_dec k (dc_complex re_im_poly)) as [P|P], (in_dec string_dec k poly_pairs) as [Q|Q]; try (exfalso; tauto); destruct T as [l ->].
    - unfold re_im. rewrite bcast_one. cbn [bind]. rewrite map_length, Nat.eqb_refl. cbn [bind out]. do 4 f_equal.
      rewrite <- (map_id l) at 2. apply map_ext. intros [x y]. cbn [fst snd]. rewrite !Rmult_1_r. reflexivity.
    - unfold times. rewrite bcast_one. cbn [bind out]. do 4 f_equal.
      rewrite <- (map_id l) at 2. apply map_ext. intros x. apply Rmult_1_r. }
  exists r. split; [exact E|]. intros k.
  destruct (in_dec string_dec k poly_labels) as [B|B].
  - rewrite R1.
    + destruct (dget k d) as [[]|]; reflexivity.
    + intros [k' v'] w J Q. unfold F in Q. cbn [fst snd] in Q. destruct (in_dec string_dec k' poly_labels); [discriminate|]. congruence.
  - destruct (dget k d) as [v|] eqn:G.
    + rewrite (R2 k (out v)).
      * destruct v; reflexivity.
      * exists (k, v). split; [apply dget_in, G|]. unfold F. cbn [fst snd]. destruct (in_dec string_dec k poly_labels); [contradiction|reflexivity].
      * intros [k' v'] w J Q. unfold F in Q. cbn [fst snd] in Q. destruct (in_dec string_dec k' poly_labels); [discriminate|].
        injection Q as -> <-. apply (in_dget _ _ _ N) in J. congruence.
    + rewrite R1; [exact G|]. intros [k' v'] w J Q. unfold F in Q. cbn [fst snd] in Q. destruct (in_dec string_dec k' poly_labels); [discriminate|].
      injection Q as -> <-. apply (in_dget _ _ _ N) in J. congruence.
Qed.
Example C114_polytropes_hypotheses_met : let d := [("xi_r", VReIm [(1, 2)%R; (3, 4)%R]); ("x", VReal [0; 1]%R); ("n", VReal [2]%R)] in poly_data d.
Proof.
  cbv zeta. split.
  - repeat (constructor; [cbn; intuition discriminate|]). constructor.
  - intros k v [E|[E|[E|[]]]] NL; injection E as <- <-; cbn; eauto.
Qed.
