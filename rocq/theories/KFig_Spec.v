(** * Specification for the kernel figures of a profile run (C156-C159): texts of the labels and
    contents of the panels, written without the code's tables and loops. *)
From Coq Require Import Reals List ZArith Bool String Ascii.
From Coquelicot Require Import Complex.
From Verif Require Import Base Coupling_Model Kernel_Model KFig_Model.
Import ListNotations.
Local Open Scope string_scope.
Local Open Scope list_scope.

(** the symbols of the radial functions shown in kernels *)
Definition shown_rad (a : rterm) : Prop := a <> RXZ1 /\ a <> RXZ2c.
Definition tex_rad (a : rterm) : string :=
  match a with
  | RZ1 => "z_1" | RDiverg => "H" | RDerXZ1 => "\dfrac{\partial(r\,z_1)}{\partial r}"
  | RZ2c => "\dfrac{z_2}{c_1\,\bar{\omega}^2}"
  | RDerXZ2c => "\dfrac{\partial}{\partial r}\,(r\,\dfrac{z_2}{c_1\,\bar{\omega}^2})"
  | RXZ1 | RXZ2c => ""
  end.
Definition tex_rad_mode (a : rterm) (m : string) : string :=
  match a with
  | RZ1 => "(z_{1})_{" +++ m +++ "}" | RDiverg => "(H)_{" +++ m +++ "}"
  | RDerXZ1 => "\left(\dfrac{\partial(r\,z_1)}{\partial r}\right)_{" +++ m +++ "}"
  | RZ2c => "\left(\dfrac{z_2}{c_1\,\bar{\omega}^2}\right)_{" +++ m +++ "}"
  | _ => ""
  end.
(** the symbols of the Hough functions and of their combinations *)
Definition tex_ang (a : aterm) : string :=
  match a with
  | Hr => "H_r" | Ht => "H_\theta" | Hp => "H_\phi" | MHr => "m\,H_r" | DHr => "\partial\,H_r" | DHt => "\partial\,H_\theta"
  | DHp => "\partial\,H_\phi" | PhPh => "H_\phi^\phi" | ThPh => "H_\phi^\theta"
  end.
Definition tex_ang_mode (a : aterm) (m : string) : string :=
  match a with
  | Ht => "\left((H_\theta\right)_{" +++ m +++ "}"    (* one bracket too many: this is the text of the code *)
  | a => "\left(" +++ tex_ang a +++ "\right)_{" +++ m +++ "}"
  end.
(** the symbols of the profiles that multiply a radial kernel *)
Definition tex_profile (p : profile) : string :=
  match p with
  | Pressure => "P" | GamMin => "(\Gamma_1 - 1)" | GamMinSq => "(\Gamma_1 - 1)^2"
  | DerGam => "\left(\dfrac{\partial \Gamma_1}{\partial \ln \rho}\right)_S" | Density => "\rho" | PR3 => "r^3" | PR2 => "r^2" | PR1 => "r"
  | DPhi => "\dfrac{\partial \Phi}{\partial r}" | D2Phi => "\dfrac{\partial^2 \Phi}{\partial r^2}" | D3Phi => "\dfrac{\partial^3 \Phi}{\partial r^3}"
  end.
(** a kernel is the product of three functions, one for each of the modes 1, 2, 3, in that order; in a kernel
    that is not symmetrised the modes are called A, B, C *)
Definition product_text {A} (sym : bool) (tex : A -> string) (texm : A -> string -> string) (t : A * A * A) : string :=
  let '(a, b, c) := t in
  if sym then tex a +++ ", " +++ tex b +++ ", " +++ tex c
  else texm a "A" +++ ", " +++ texm b "B" +++ ", " +++ texm c "C".

(** the lines of a panel, one for each row of the kernel, in order: label, abscissae and values *)
Definition shows {A} (label : A * A * A -> string) (n : nat) (x : nat -> R) (rows : list ((A * A * A) * (nat -> C))) (ls : list line) : Prop :=
  List.length ls = List.length rows /\
  forall i key f, nth_error rows i = Some (key, f) ->
    exists l, nth_error ls i = Some l /\ l_label l = label key /\ l_n l = n /\ forall k, l_x l k = x k /\ l_y l k = Re (f k).

(** label of a radial kernel, title of its panel *)
Definition radial_label (sym : bool) (t : rterm * rterm * rterm) : string := "[$" +++ product_text sym tex_rad tex_rad_mode t +++ "$]".
Fixpoint spaced (l : list string) : string :=
  match l with [] => "" | [s] => s | s :: t => s +++ "\," +++ spaced t end.
Definition radial_title (ps : list profile) : string := "$" +++ spaced (map tex_profile ps) +++ "$" +++ "$\,\left(\dfrac{{r^3}}{{\epsilon}}\right)$".
(** label of an angular kernel: the factor and the division by sin(theta) that the kernel stands for *)
Definition factor_text (ftext : R -> string) (f : R) (s : string) : Prop :=
  (f = 1%R /\ s = "") \/ (f = (-1)%R /\ s = "-\,") \/ (f <> 1%R /\ f <> (-1)%R /\ s = ftext f +++ "\,").
Definition angular_label (div : bool) (pre : string) (sym : bool) (t : aterm * aterm * aterm) : string :=
  let inner := if sym then "[" +++ product_text true tex_ang tex_ang_mode t +++ "]" else product_text false tex_ang tex_ang_mode t in
  let body := if div then "$\dfrac{" +++ pre +++ inner +++ "}{\sqrt{1 - \mu^2}}$" else "$" +++ pre +++ inner +++ "$" in
  if sym then body else "[" +++ body +++ "]".

(** the frame of a panel: limits, labels of the axes (the ordinate is named on the first panel of a figure
    only) and the shaded zone *)
Definition frame (xlim : R * R) (xlabel : string) (part : string) (number : string) (tar : option (list bool)) (first : bool) (p : panel) : Prop :=
  p_xlim p = xlim /\ p_xlabel p = xlabel /\
  p_ylabel p = (if first then Some ("$\left(\eta_1^{(" +++ number +++ ")}\right)_{" +++ part +++ "}$") else None) /\
  p_shade p = tar.
Definition radial_frame number tar := frame (0%R, 1%R) "r / R" "k" number tar.
Definition angular_frame number := frame ((-1)%R, 1%R) "$\mu$" "k\,\mu" number None.

(** the files of a profile run, in the order in which they are saved *)
Definition expected_names (path part : string) : list string :=
  let a := path +++ "/angular_kernels/cc_contribution_" in
  let r := path +++ "/radial_kernels/cc_contribution_" in
  let e := part +++ ".png" in
  map (fun s => a +++ s +++ e)
    [ "1_angular_kernels_nr_1"; "1_angular_kernels_nr_2"; "1_angular_kernels_nr_3"; "1_angular_kernels_nr_4"; "1_angular_kernels_nr_5";
      "2_radial_kernels";      (* an angular figure *)
      "3_angular_kernels_nr_1"; "3_angular_kernels_nr_2"; "3_angular_kernels_nr_3"; "3_angular_kernels_nr_4";
      "3_angular_kernels_nr_5"; "3_angular_kernels_nr_6"; "3_angular_kernels_nr_7"; "3_angular_kernels_nr_8";
      "4_angular_kernels_nr_1" ] ++
  map (fun s => r +++ s +++ e)
    [ "1_radial_kernels_nr_1"; "1_radial_kernels_nr_2"; "2_radial_kernels";
      "3_radial_kernels_nr_1"; "3_radial_kernels_nr_2"; "3_radial_kernels_nr_3"; "3_radial_kernels_nr_4"; "4_radial_kernels_nr_1" ].

(** how many panels the figures of a contribution have *)
Definition angular_columns (nr : Z) : nat := if (nr =? 1)%Z then 2 else 3.
Definition total (sizes : list Z) : nat := fold_right (fun c n => (Z.to_nat c + n)%nat) 0%nat sizes.

(** a legend text that can be drawn: one text, or one for each row *)
Definition legend_fits (d : kdraw) : Prop :=
  d_legend d <> [] /\ ((1 < List.length (d_legend d))%nat -> List.length (d_legend d) = List.length (d_rows d)).
(** the lines of term d, with the texts of its legend between [pre] and [post] *)
Definition term_lines (n : nat) (x : nat -> R) (pre post : string) (d : kdraw) (ls : list line) : Prop :=
  List.length ls = List.length (d_rows d) /\
  forall i y, nth_error (d_rows d) i = Some y ->
    exists l s, nth_error ls i = Some l /\ nth_error (d_legend d) (if (1 <? List.length (d_legend d))%nat then i else 0) = Some s /\
      l = {| l_label := pre +++ s +++ post; l_n := n; l_x := x; l_y := y |}.

(** the profiles that multiply kernel j (counted from 0) of a contribution, besides r^3 over the energy *)
Definition multipliers (nr : Z) (j : nat) : list profile :=
  if (nr =? 1)%Z then [Pressure; GamMin]
  else if (nr =? 2)%Z then (if (j =? 0)%nat then [Pressure; GamMinSq] else [Pressure; DerGam])
  else if (nr =? 3)%Z then [Pressure]
  else match j with O => [Density; PR1; DPhi] | S O => [Density; PR2; D2Phi] | _ => [Density; PR3; D3Phi] end.
