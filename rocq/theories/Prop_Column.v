(* Prop_Column.v -- C120-C123: columns of a matrix, quotients and rectifiers, hash codes, fixed-rank views. *)
From Verif Require Import Base BaseFacts Model_Index Model_View Model_Tensor Model_RView Model_CView Model_Column Spec_Index Spec_View Spec_Tensor
  Proofs_Axes Proofs_Index Proofs_View Proofs_View2 Proofs_Tensor Proofs_Tensor2 Proofs_Tensor3 Proofs_Tensor4 Proofs_RView5 Spec_CView Proofs_Column Prop_EinsumFn.
From Verif Require Import Spec_RView.
Local Open Scope Z_scope.

(* a matrix stored row by row *)
Definition row_matrix (v : view) (n nc : Z) : Prop := vdims v = [n; nc] /\ vstr v = [nc; 1].
Definition column_op {R : cring} (g : mem R -> Z -> Z -> R) (run : mem R -> res (mem R)) (r : view) (n nc : Z) (m : mem R) : Prop :=
  exists m', run m = Ok m' /\ (forall i j, 0 <= i < n -> 0 <= j < nc -> elem m' r [i; j] = Some (cadd (elem0 m r [i; j]) (g m i j))) /\ untouched m m' r.

(* ---- C120 *)
Theorem C120_columns (R : cring) (cj : R -> R) (dv : R -> R -> R) r x y n nc (m : mem R) :
  row_matrix r n nc -> row_matrix x n nc -> vdims y = [nc] -> vstr y = [1] -> 0 <= n -> 0 <= nc ->
  readable m r -> readable m x -> readable m y -> no_clobber r x -> disjoint_views r y ->
  column_op (fun m i j => cmul (elem0 m x [i; j]) (elem0 m y [j])) (tv_scale_columns r x y) r n nc m /\
  column_op (fun m i j => cmul (elem0 m x [i; j]) (cj (elem0 m y [j]))) (tv_mul_columns_XC cj r x y) r n nc m /\
  column_op (fun m i j => dv (elem0 m x [i; j]) (elem0 m y [j])) (tv_div_columns dv r x y) r n nc m.
Proof.
  intros [Dr Sr] [Dx Sx] Dy Sy Hn Hnc Rr Rx Ry Nc Dj. unfold column_op, tv_scale_columns, tv_mul_columns_XC, tv_div_columns.
  split; [|split]; (match goal with |- context [col_op ?f _ _ _ _] => destruct (col_op_ok f r x y n nc m) as (m' & E & A & B) end; [assumption..|exists m'; now repeat split]).
Qed.
Print Assumptions C120_columns.
Example C120_columns_case : let r := View 0 0 [2; 3] [3; 1] in let x := View 0 6 [2; 3] [3; 1] in let y := View 0 12 [3] [1] in let m := zm [0; 0; 0; 0; 0; 100; 1; 2; 3; 4; 5; 6; 10; 20; 30] in
  row_matrix r 2 3 /\ row_matrix x 2 3 /\ readable (V := Z) m r /\ readable (V := Z) m x /\ readable (V := Z) m y /\ no_clobber r x /\ disjoint_views r y /\
  exists m', tv_scale_columns (R := ZRing) r x y m = Ok m' /\ map (fun ix => elem m' r ix) (all_indices [2; 3]) = map Some [10; 40; 90; 40; 100; 280].
Proof.
  cbv zeta. split; [now split|]. split; [now split|]. split; [now apply readable_by|]. split; [now apply readable_by|]. split; [now apply readable_by|].
  split. { assert (D : disjoint_views (View 0 0 [2; 3] [3; 1]) (View 0 6 [2; 3] [3; 1])) by (apply disjoint_by; now vm_compute). intros ix jx Hi Hj E. exfalso. now apply (D ix jx). }
  split; [apply disjoint_by; now vm_compute|]. eexists. split; [reflexivity|]. now vm_compute.
Qed.
(* the wrong number of axes, or sides that do not fit, are refused *)
Theorem C120_sizes (R : cring) (cj : R -> R) (dv : R -> R -> R) r x y n nc (m : mem R) : vdims r = [n; nc] -> ~ (vdims x = [n; nc] /\ vdims y = [nc]) ->
  tv_scale_columns r x y m = Throw /\ tv_mul_columns_XC cj r x y m = Throw /\ tv_div_columns dv r x y m = Throw.
Proof.
  intros Dr H. assert (G : forall f : R -> list R -> R, col_op f r x y m = Throw); [|repeat split; apply G]. intro f. unfold col_op. rewrite Dr.
  destruct (vdims x) as [|a [|b [|? ?]]]; try reflexivity. destruct (vdims y) as [|c [|? ?]]; try reflexivity. cbn [length Nat.eqb assrt].
  change (zget [n; nc] 0) with (@Ok Z n). change (zget [n; nc] 1) with (@Ok Z nc). change (zget [a; b] 0) with (@Ok Z a). change (zget [a; b] 1) with (@Ok Z b). change (zget [c] 0) with (@Ok Z c). cbn [bind].
  destruct (a =? n) eqn:E1; [|reflexivity]. destruct (b =? nc) eqn:E2; [|reflexivity]. destruct (c =? nc) eqn:E3; [|reflexivity]. apply Z.eqb_eq in E1, E2, E3. subst. exfalso. apply H. now split.
Qed.
Print Assumptions C120_sizes.
Example C120_sizes_case : ~ ([2; 3] = [2; 3] /\ [2] = [3]) /\ tv_scale_columns (R := ZRing) (View 0 0 [2; 3] [3; 1]) (View 0 6 [2; 3] [3; 1]) (View 0 12 [2] [1]) (zm []) = Throw.
Proof. split; [intros [_ E]; discriminate E|reflexivity]. Qed.
(* the strides are ignored: a transposed matrix is read in the order of its memory *)
Theorem C120_layout_refuted : exists r x y (m m' : mem Z), row_matrix r 2 2 /\ vwf x /\ vdims x = [2; 2] /\ vdims y = [2] /\ vstr y = [1] /\
  readable m r /\ readable m x /\ readable m y /\ disjoint_views r x /\ disjoint_views r y /\ tv_scale_columns (R := ZRing) r x y m = Ok m' /\
  elem m' r [0; 1] = Some 2 /\ elem0 (R := ZRing) m r [0; 1] = 0 /\ elem0 (R := ZRing) m x [0; 1] = 3 /\ elem0 (R := ZRing) m y [1] = 1.
Proof.
  exists (View 0 0 [2; 2] [2; 1]), (View 0 4 [2; 2] [1; 2]), (View 0 8 [2] [1]), (zm [0; 0; 0; 0; 1; 2; 3; 4; 1; 1]). eexists. split; [now split|]. split; [split; [reflexivity|repeat constructor; lia]|].
  split; [reflexivity|]. split; [reflexivity|]. split; [reflexivity|]. split; [now apply readable_by|]. split; [now apply readable_by|]. split; [now apply readable_by|]. split; [apply disjoint_by; now vm_compute|]. split; [apply disjoint_by; now vm_compute|].
  split; [reflexivity|]. now vm_compute.
Qed.
Print Assumptions C120_layout_refuted.
(* the inner products of the columns of two matrices, in any layout, are put into r *)
Theorem C120_inner_products_set (R : cring) (cj : R -> R) r x y n nc (m : mem R) : vwf r -> vwf x -> vwf y -> vdims x = [n; nc] -> vdims y = [n; nc] -> vdims r = [nc] -> distinct_cells r ->
  readable m r -> readable m x -> readable m y -> disjoint_views r x -> disjoint_views r y ->
  exists m', tv_column_inps_XC cj r x y m = Ok m' /\
    (forall i, 0 <= i < nc -> elem m' r [i] = Some (rsum (map (fun j => cmul (elem0 m x [j; i]) (cj (elem0 m y [j; i]))) (zrange n)))) /\ untouched m m' r.
Proof. exact (column_inps_ok cj r x y n nc m). Qed.
Print Assumptions C120_inner_products_set.
Example C120_inner_products_case : let r := View 0 0 [2] [1] in let x := View 0 2 [3; 2] [1; 3] in let m := zm [5; 0; 1; 2; 3; 4; 5; 6] in
  vwf r /\ vwf x /\ distinct_cells r /\ readable m r /\ readable m x /\ disjoint_views r x /\
  exists m', tv_column_inps_XC (R := ZRing) (fun v => v) r x x m = Ok m' /\ elem m' r [0] = Some 14 /\ elem m' r [1] = Some 77.
Proof.
  cbv zeta. split; [split; [reflexivity|repeat constructor; lia]|]. split; [split; [reflexivity|repeat constructor; lia]|]. split; [apply nodup_by; cbn; nodup|].
  split; [now apply readable_by|]. split; [now apply readable_by|]. split; [apply disjoint_by; now vm_compute|]. eexists. split; [reflexivity|]. now vm_compute.
Qed.
(* ... so they are never added to an element of r that was not 0 *)
Theorem C120_inner_products_add_refuted (R : cring) (cj : R -> R) r x y n nc (m m' : mem R) i : vwf r -> vwf x -> vwf y -> vdims x = [n; nc] -> vdims y = [n; nc] -> vdims r = [nc] -> distinct_cells r ->
  readable m r -> readable m x -> readable m y -> disjoint_views r x -> disjoint_views r y -> tv_column_inps_XC cj r x y m = Ok m' ->
  0 <= i < nc -> elem0 m r [i] <> c0 ->
  elem0 m' r [i] <> cadd (elem0 m r [i]) (rsum (map (fun j => cmul (elem0 m x [j; i]) (cj (elem0 m y [j; i]))) (zrange n))).
Proof.
  intros Wr Wx Wy Dx Dy Dr Hd Rr Rx Ry Nx Ny E Hi Hz K. destruct (C120_inner_products_set R cj r x y n nc m) as (m2 & E2 & A & _); try assumption. rewrite E in E2. injection E2 as <-.
  set (s := rsum _) in *. assert (V : elem0 m' r [i] = s) by (unfold elem0; now rewrite A). rewrite V in K. apply Hz. pose (T := cth R).
  assert (G : cadd (cadd (elem0 m r [i]) s) (copp s) = cadd s (copp s)) by now rewrite <- K.
  rewrite <- (Ring_theory.Radd_assoc T), (Ring_theory.Ropp_def T), (Ring_theory.Radd_comm T), (Ring_theory.Radd_0_l T) in G. exact G.
Qed.
Print Assumptions C120_inner_products_add_refuted.

(* ---- C121 *)
Theorem C121_div (R : cring) (dv : R -> R -> R) r x y (m : mem R) : vwf r -> vwf x -> vwf y -> vdims x = vdims r -> vdims y = vdims r -> distinct_cells r ->
  readable m r -> readable m x -> readable m y -> no_clobber r x -> no_clobber r y ->
  exists m', tv_add_div dv r x y m = Ok m' /\
    (forall ix, in_range ix (vdims r) -> elem m' r ix = Some (cadd (elem0 m r ix) (dv (elem0 m x ix) (elem0 m y ix)))) /\ untouched m m' r.
Proof.
  intros Wr Wx Wy Dx Dy Hd Rr Rx Ry Nx Ny. destruct (reg_or_each_ok (f_cdiv dv) r [x; y] m Wr Hd Rr) as (m' & E & W); [constructor; [tauto|constructor; [tauto|constructor]]|].
  exists m'. split; [exact E|]. split; [|apply W]. intros ix Hix. destruct (elem m r ix) as [v|] eqn:Ev; [|now apply Rr in Ev].
  assert (Hx : in_range ix (vdims x)) by now rewrite Dx. assert (Hy : in_range ix (vdims y)) by now rewrite Dy.
  destruct (elem m x ix) as [a|] eqn:Ea; [|now apply Rx in Ea]. destruct (elem m y ix) as [b|] eqn:Eb; [|now apply Ry in Eb].
  unfold elem0. rewrite Ev, Ea, Eb. exact (ew2 (f_cdiv dv) r x y m m' W ix v a b Hix Ev Ea Eb).
Qed.
Print Assumptions C121_div.
Example C121_div_case : let r := View 0 0 [2; 2] [2; 1] in let x := View 0 4 [2; 2] [1; 2] in let y := View 0 8 [2; 2] [0; 1] in let m := zm [0; 0; 0; 100; 10; 20; 30; 40; 2; 5] in
  vwf r /\ vwf x /\ vwf y /\ distinct_cells r /\ readable m r /\ readable m x /\ readable m y /\ disjoint_views r x /\ disjoint_views r y /\
  exists m', tv_add_div (R := ZRing) Z.div r x y m = Ok m' /\ map (elem m' r) (all_indices [2; 2]) = map Some [5; 6; 10; 108].
Proof.
  cbv zeta. split; [split; [reflexivity|repeat constructor; lia]|]. split; [split; [reflexivity|repeat constructor; lia]|]. split; [split; [reflexivity|repeat constructor; lia]|]. split; [apply nodup_by; cbn; nodup|].
  split; [now apply readable_by|]. split; [now apply readable_by|]. split; [now apply readable_by|]. split; [apply disjoint_by; now vm_compute|]. split; [apply disjoint_by; now vm_compute|]. eexists. split; [reflexivity|]. now vm_compute.
Qed.
(* the leaky rectifier with slope alpha below 0, and its derivative *)
Definition leaky {R : cring} (pos neg : R -> bool) (alpha x : R) : R := if pos x then x else if neg x then cmul alpha x else c0.
Definition leaky' {R : cring} (pos neg : R -> bool) (alpha x : R) : R := if pos x then c1 else if neg x then alpha else c0.
Lemma relu_slope {R : cring} (pos neg : R -> bool) (alpha x g : R) : (forall v, pos v = true -> neg v = false) ->
  cmul (cadd (b01 (pos x)) (cmul alpha (b01 (neg x)))) g = cmul (leaky' pos neg alpha x) g.
Proof.
  intro H. unfold leaky', b01. pose (T := cth R). assert (Z0 : forall v : R, cmul v c0 = c0). { intro v. rewrite (Ring_theory.Rmul_comm T). apply mul_zero_l. }
  destruct (pos x) eqn:P; [rewrite (H x P), Z0, (Ring_theory.Radd_comm T), (Ring_theory.Radd_0_l T); reflexivity|].
  rewrite (Ring_theory.Radd_0_l T). destruct (neg x); [rewrite (Ring_theory.Rmul_comm T alpha c1), (Ring_theory.Rmul_1_l T); reflexivity|now rewrite Z0].
Qed.
Theorem C121_relu (R : cring) (pos neg : R -> bool) (alpha : R) r x (m : mem R) : (forall v, pos v = true -> neg v = false) ->
  vwf r -> vwf x -> vdims x = vdims r -> vstr r = strides_of 1 (vdims r) -> vstr x = strides_of 1 (vdims x) -> distinct_cells r -> readable m r -> readable m x -> no_clobber r x ->
  exists m', tv_add_relu pos neg r x alpha m = Ok m' /\
    (forall ix, in_range ix (vdims r) -> elem m' r ix = Some (cadd (elem0 m r ix) (leaky pos neg alpha (elem0 m x ix)))) /\ untouched m m' r.
Proof.
  intros H Wr Wx D Sr Sx Hd Rr Rx Nc. destruct (flat_ok (f_relu pos neg alpha) r x m) as (m' & E & A & B); [assumption..|]. exists m'. split; [exact E|]. split; [|exact B].
  intros ix Hix. rewrite A by assumption. cbn [f_relu]. f_equal. f_equal. rewrite relu_slope by assumption. unfold leaky', leaky. pose (T := cth R).
  destruct (pos _); [apply (Ring_theory.Rmul_1_l T)|]. destruct (neg _); [reflexivity|]. apply mul_zero_l.
Qed.
Print Assumptions C121_relu.
Definition zpos (v : Z) := 0 <? v.
Definition zneg (v : Z) := v <? 0.
Example C121_relu_case : let r := View 0 0 [2; 2] [2; 1] in let x := View 0 4 [2; 2] [2; 1] in let m := zm [1; 1; 1; 1; 10; -3; 0; 40] in
  (forall v, zpos v = true -> zneg v = false) /\ vwf r /\ vwf x /\ distinct_cells r /\ readable m r /\ readable m x /\ disjoint_views r x /\
  exists m', tv_add_relu (R := ZRing) zpos zneg r x 2 m = Ok m' /\ map (elem m' r) (all_indices [2; 2]) = map Some [11; -5; 1; 41].
Proof.
  cbv zeta. split; [unfold zpos, zneg; intros; lia|]. split; [split; [reflexivity|repeat constructor; lia]|]. split; [split; [reflexivity|repeat constructor; lia]|]. split; [apply nodup_by; cbn; nodup|].
  split; [now apply readable_by|]. split; [now apply readable_by|]. split; [apply disjoint_by; now vm_compute|]. eexists. split; [reflexivity|]. now vm_compute.
Qed.
(* ... strides are ignored *)
Theorem C121_relu_layout_refuted : exists r x (m m' : mem Z), vwf r /\ vwf x /\ vdims x = vdims r /\ distinct_cells r /\ readable m r /\ readable m x /\ disjoint_views r x /\
  tv_add_relu (R := ZRing) zpos zneg r x 0 m = Ok m' /\ elem0 (R := ZRing) m r [0; 1] = 0 /\ elem0 (R := ZRing) m x [0; 1] = 3 /\ elem0 (R := ZRing) m' r [0; 1] = 2.
Proof.
  exists (View 0 0 [2; 2] [2; 1]), (View 0 4 [2; 2] [1; 2]), (zm [0; 0; 0; 0; 1; 2; 3; 4]). eexists. split; [split; [reflexivity|repeat constructor; lia]|]. split; [split; [reflexivity|repeat constructor; lia]|].
  split; [reflexivity|]. split; [apply nodup_by; cbn; nodup|]. split; [now apply readable_by|]. split; [now apply readable_by|]. split; [apply disjoint_by; now vm_compute|]. split; [reflexivity|]. now vm_compute.
Qed.
Print Assumptions C121_relu_layout_refuted.
(* the gradient is right where g has the sign of x *)
Theorem C121_relu_back_same_signs (R : cring) (pos neg : R -> bool) (alpha : R) r g x (m : mem R) : (forall v, pos v = true -> neg v = false) ->
  vwf r -> vwf g -> vdims g = vdims r -> vstr r = strides_of 1 (vdims r) -> vstr g = strides_of 1 (vdims g) -> distinct_cells r -> readable m r -> readable m g -> no_clobber r g ->
  exists m', tv_add_relu_back pos neg r g x alpha m = Ok m' /\
    (forall ix, in_range ix (vdims r) -> pos (elem0 m g ix) = pos (elem0 m x ix) -> neg (elem0 m g ix) = neg (elem0 m x ix) ->
       elem m' r ix = Some (cadd (elem0 m r ix) (cmul (leaky' pos neg alpha (elem0 m x ix)) (elem0 m g ix)))) /\ untouched m m' r.
Proof.
  intros H Wr Wx D Sr Sx Hd Rr Rx Nc. destruct (flat_ok (f_relu pos neg alpha) r g m) as (m' & E & A & B); [assumption..|]. exists m'. split; [exact E|]. split; [|exact B].
  intros ix Hix P N. rewrite A by assumption. cbn [f_relu]. f_equal. f_equal. rewrite P, N. now apply relu_slope.
Qed.
Print Assumptions C121_relu_back_same_signs.
Example C121_relu_back_case : let r := View 0 0 [2] [1] in let g := View 0 2 [2] [1] in let x := View 0 4 [2] [1] in let m := zm [1; 1; 10; -3; 7; -7] in
  vwf r /\ vwf g /\ distinct_cells r /\ readable m r /\ readable m g /\ disjoint_views r g /\ (forall i, 0 <= i < 2 -> zpos (elem0 (R := ZRing) m g [i]) = zpos (elem0 (R := ZRing) m x [i])) /\
  exists m', tv_add_relu_back (R := ZRing) zpos zneg r g x 2 m = Ok m' /\ map (elem m' r) (all_indices [2]) = map Some [11; -5].
Proof.
  cbv zeta. split; [split; [reflexivity|repeat constructor; lia]|]. split; [split; [reflexivity|repeat constructor; lia]|]. split; [apply nodup_by; cbn; nodup|].
  split; [now apply readable_by|]. split; [now apply readable_by|]. split; [apply disjoint_by; now vm_compute|].
  split. { intros i Hi. assert (i = 0 \/ i = 1) as [-> | ->] by lia; reflexivity. } eexists. split; [reflexivity|]. now vm_compute.
Qed.
(* ... but a negative gradient at a positive input, with alpha=0, is lost *)
Theorem C121_relu_back_refuted : exists r g x (m m' : mem Z), vwf r /\ vwf g /\ vwf x /\ vdims g = vdims r /\ vdims x = vdims r /\ readable m r /\ readable m g /\ readable m x /\ disjoint_views r g /\ disjoint_views r x /\
  tv_add_relu_back (R := ZRing) zpos zneg r g x 0 m = Ok m' /\ elem0 (R := ZRing) m x [0] = 1 /\ elem0 (R := ZRing) m g [0] = -5 /\ elem0 (R := ZRing) m r [0] = 0 /\ elem0 (R := ZRing) m' r [0] = 0.
Proof.
  exists (View 0 0 [1] [1]), (View 0 1 [1] [1]), (View 0 2 [1] [1]), (zm [0; -5; 1]). eexists. split; [split; [reflexivity|repeat constructor; lia]|]. split; [split; [reflexivity|repeat constructor; lia]|]. split; [split; [reflexivity|repeat constructor; lia]|].
  split; [reflexivity|]. split; [reflexivity|]. split; [now apply readable_by|]. split; [now apply readable_by|]. split; [now apply readable_by|]. split; [apply disjoint_by; now vm_compute|]. split; [apply disjoint_by; now vm_compute|]. split; [reflexivity|]. now vm_compute.
Qed.
Print Assumptions C121_relu_back_refuted.
(* adding x to every slice along axis d: right for d=0 and one slice *)
Theorem C121_broadcast_one (R : cring) r s ds ss x (m : mem R) : vdims r = 1 :: ds -> vstr r = s :: ss -> plain_layout (View (vblk r) (voff r) ds ss) -> vwf x -> vdims x = ds ->
  distinct_cells r -> readable m r -> readable m x -> no_clobber (View (vblk r) (voff r) ds ss) x ->
  exists m', tv_add_broadcast r 0 x m = Ok m' /\
    (forall ix, in_range ix ds -> elem m' r (0 :: ix) = Some (cadd (elem0 m r (0 :: ix)) (elem0 m x ix))) /\ untouched m m' r.
Proof.
  intros Dr Sr Pl Wx Dx Hd Rr Rx Nc. set (w := View (vblk r) (voff r) ds ss) in *.
  assert (Lw : length ss = length ds) by (destruct Pl as [L _]; exact L). assert (Nn : nonneg ds) by (destruct Pl as (_ & N & _); exact N).
  assert (Ew : forall m0 ix, in_range ix ds -> elem m0 w ix = elem (V := R) m0 r (0 :: ix)).
  { intros m0 ix Hix. rewrite !elem_cell; [|now rewrite Sr, Dr; cbn [length]; f_equal|rewrite Dr; constructor; [lia|assumption]|exact Lw|exact Hix]. unfold cell, w. rewrite Sr. cbn [vblk voff vstr dot]. do 2 f_equal. lia. }
  assert (Aw : forall ix, in_range ix ds -> vaddr w ix = vaddr r (0 :: ix)).
  { intros ix Hix. rewrite !vaddr_cell; [|now rewrite Sr, Dr; cbn [length]; f_equal|rewrite Dr; constructor; [lia|assumption]|exact Lw|exact Hix]. unfold cell, w. rewrite Sr. cbn [vblk voff vstr dot]. do 2 f_equal. lia. }
  assert (Hr0 : forall ix, in_range ix ds -> in_range (0 :: ix) (vdims r)) by (intros; rewrite Dr; constructor; [lia|assumption]).
  destruct (add_ok w x m) as (m' & E & A & B); try assumption.
  - intros ix jx Hi Hj K. rewrite !Aw in K by assumption. assert (K2 := Hd _ _ (Hr0 _ Hi) (Hr0 _ Hj) K). congruence.
  - intros ix Hix. rewrite Ew by assumption. apply Rr. now apply Hr0.
  - exists m'. split; [|split].
    + unfold tv_add_broadcast, ndims. rewrite Dr. replace (0 <? Z.of_nat (length (1 :: ds))) with true by (symmetry; apply Z.ltb_lt; cbn [length]; lia). cbn [assrt].
      change (zget (1 :: ds) 0) with (@Ok Z 1). cbn [bind]. unfold forZ. change (zrange 1) with [0]. cbn [foldM].
      destruct (C08_slice_prefix_l r [0] [1] ds) as (w' & E1 & _); [split; [rewrite Dr, Sr; cbn [length]; now f_equal|rewrite Dr; constructor; [lia|assumption]]|now rewrite Dr|repeat constructor; lia|].
      rewrite E1. cbn [bind]. replace w' with w; [now rewrite E|]. unfold slice_prefix in E1. rewrite Dr, Sr in E1. cbn [length] in E1.
      change (Z.of_nat 1) with 1 in E1. assert (K1 : forall a (l : list Z), vchunk 0 1 (a :: l) = Ok [a]).
      { intros a l. unfold vchunk. change (0 <? 0) with false. change (1 =? -1) with false. cbv iota zeta. cbn [length]. replace (_ || _) with false by (symmetry; lia). reflexivity. }
      assert (K2 : forall a (l : list Z), vchunk 1 (-1) (a :: l) = Ok l).
      { intros a l. unfold vchunk. change (1 <? 0) with false. change (-1 =? -1) with true. cbv iota zeta. cbn [length]. replace (_ || _) with false by (symmetry; lia).
        f_equal. change (Z.to_nat 1) with 1%nat. cbn [skipn]. apply firstn_all2. lia. }
      rewrite K1, !K2 in E1. cbn in E1. rewrite Z.mul_0_r, !Z.add_0_r in E1. unfold w. congruence.
    + intros ix Hix. rewrite <- Ew by assumption. pose proof (Rr _ (Hr0 _ Hix)) as K. rewrite <- Ew in K by assumption. destruct (elem m w ix) as [v|] eqn:Ev; [|congruence].
      assert (Hx : in_range ix (vdims x)) by now rewrite Dx. destruct (elem m x ix) as [u|] eqn:Eu; [|now apply Rx in Eu]. unfold elem0. rewrite <- Ew, Ev, Eu by assumption. now apply A.
    + intros b a Ha. apply B. intros ix Hix. rewrite Aw by assumption. apply Ha. now apply Hr0.
Qed.
Print Assumptions C121_broadcast_one.
Example C121_broadcast_case : let r := View 0 0 [1; 2] [2; 1] in let x := View 0 2 [2] [1] in let m := zm [1; 2; 10; 20] in
  plain_layout (View 0 0 [2] [1]) /\ vwf x /\ distinct_cells r /\ readable m r /\ readable m x /\ disjoint_views (View 0 0 [2] [1]) x /\
  exists m', tv_add_broadcast (R := ZRing) r 0 x m = Ok m' /\ elem m' r [0; 0] = Some 11 /\ elem m' r [0; 1] = Some 22.
Proof.
  cbv zeta. split. { split; [reflexivity|]. split; [repeat constructor; lia|]. split; [repeat constructor; vm_compute; congruence|]. right. constructor. lia. }
  split; [split; [reflexivity|repeat constructor; lia]|]. split; [apply nodup_by; cbn; nodup|]. split; [now apply readable_by|]. split; [now apply readable_by|]. split; [apply disjoint_by; now vm_compute|].
  eexists. split; [reflexivity|]. now vm_compute.
Qed.
(* with two slices x is added twice to the first and never to the second *)
Theorem C121_broadcast_refuted : exists r x (m m' : mem Z), plain_layout r /\ vwf x /\ vdims r = [2; 2] /\ vdims x = [2] /\ distinct_cells r /\ readable m r /\ readable m x /\ disjoint_views r x /\
  tv_add_broadcast (R := ZRing) r 0 x m = Ok m' /\ elem m x [1] = Some 1 /\ map (elem m r) [[0; 1]; [1; 1]] = map Some [0; 0] /\ map (elem m' r) [[0; 1]; [1; 1]] = map Some [2; 0].
Proof.
  exists (View 0 0 [2; 2] [2; 1]), (View 0 4 [2] [1]), (zm [0; 0; 0; 0; 1; 1]). eexists.
  split. { split; [reflexivity|]. split; [repeat constructor; lia|]. split; [repeat constructor; vm_compute; congruence|]. right. constructor. lia. }
  split; [split; [reflexivity|repeat constructor; lia]|]. split; [reflexivity|]. split; [reflexivity|]. split; [apply nodup_by; cbn; nodup|]. split; [now apply readable_by|]. split; [now apply readable_by|]. split; [apply disjoint_by; now vm_compute|].
  split; [reflexivity|]. now vm_compute.
Qed.
Print Assumptions C121_broadcast_refuted.

(* ---- C122 *)
(* hash codes depend on the shape and the elements only, whatever the layouts, blocks and memories *)
Theorem C122_hash (V : Type) hi (hv : V -> Z) x y (m m2 : mem V) : vwf x -> vwf y -> readable m x -> readable m2 y -> vdims x = vdims y ->
  (forall ix, in_range ix (vdims x) -> elem m x ix = elem m2 y ix) -> exists h, tv_hash hi hv x m = Ok h /\ tv_hash hi hv y m2 = Ok h.
Proof.
  intros Wx Wy Rx Ry D H. rewrite !hash_fold by assumption. rewrite <- D.
  destruct (hash_total hv x m (all_indices (vdims x)) (hash_dims hi (vdims x))) as (h & E); [intros ix Hix; apply Rx; now apply in_all_indices|].
  exists h. split; [exact E|]. rewrite <- E. apply foldM_ext. intros ix t Hix. apply in_all_indices in Hix. now rewrite H.
Qed.
Print Assumptions C122_hash.
Example C122_hash_case : let x := View 0 0 [2; 2] [2; 1] in let y := View 0 4 [2; 2] [1; 2] in let m := zm [1; 2; 3; 4; 1; 3; 2; 4] in
  vwf x /\ vwf y /\ readable m x /\ readable m y /\ (forall ix, In ix (all_indices [2; 2]) -> elem m x ix = elem m y ix) /\
  tv_hash (fun v => v) (fun v => v) x m = tv_hash (fun v => v) (fun v => v) y m /\ tv_hash (fun v => v) (fun v => v) x m = Ok 196.
Proof.
  cbv zeta. split; [split; [reflexivity|repeat constructor; lia]|]. split; [split; [reflexivity|repeat constructor; lia]|]. split; [now apply readable_by|]. split; [now apply readable_by|].
  split. { intros ix Hix. cbn in Hix. repeat (destruct Hix as [<-|Hix]; [now vm_compute|]). destruct Hix. } split; now vm_compute.
Qed.
(* so row-major tensors that compare equal have the same hash code *)
Theorem C122_equal_hash_row_major (V : Type) hi (hv : V -> Z) (eqv : V -> V -> bool) x y (m : mem V) : (forall a b, eqv a b = true <-> a = b) -> vwf x -> vwf y -> readable m x -> readable m y ->
  vstr x = strides_of 1 (vdims x) -> vstr y = strides_of 1 (vdims y) -> tv_eq eqv x y m = Ok true -> exists h, tv_hash hi hv x m = Ok h /\ tv_hash hi hv y m = Ok h.
Proof.
  intros He Wx Wy Rx Ry Sx Sy E. destruct (eq_ok eqv x y m) as (b & E2 & K); try assumption. rewrite E in E2. injection E2 as <-. destruct (proj1 K eq_refl) as [D A]. now apply C122_hash.
Qed.
Print Assumptions C122_equal_hash_row_major.
(* ... but in other layouts the comparison says true whatever the elements are, and the codes differ *)
Theorem C122_equal_hash_refuted : exists x y (m : mem Z), vwf x /\ vwf y /\ readable m x /\ readable m y /\ tv_eq Z.eqb x y m = Ok true /\
  exists h h', tv_hash (fun v => v) (fun v => v) x m = Ok h /\ tv_hash (fun v => v) (fun v => v) y m = Ok h' /\ h <> h'.
Proof.
  exists (View 0 0 [2; 2] [1; 2]), (View 0 4 [2; 2] [1; 2]), (zm [1; 2; 3; 4; 1; 3; 2; 5]). split; [split; [reflexivity|repeat constructor; lia]|]. split; [split; [reflexivity|repeat constructor; lia]|]. split; [now apply readable_by|]. split; [now apply readable_by|].
  split; [reflexivity|]. do 2 eexists. split; [now vm_compute|]. split; [now vm_compute|]. discriminate.
Qed.
Print Assumptions C122_equal_hash_refuted.

(* ---- C123 *)
(* view1, view2 and view3 of a tensor of ints or floats are the tensor itself: same block, shape and addresses *)
Theorem C123_view x k : In k [1%nat; 2%nat; 3%nat] -> vwf x -> viewk_of k x = if (length (vdims x) =? k)%nat then Ok x else Throw.
Proof.
  intros Hk [L _]. unfold viewk_of. destruct (length (vdims x) =? k)%nat eqn:E; [|reflexivity]. apply Nat.eqb_eq in E. cbn [assrt]. destruct x as [b o ds ss]. cbn [vblk voff vdims vstr] in *. subst k.
  destruct ds as [|d1 [|d2 [|d3 [|? ?]]]]; cbn [length In] in Hk; try (exfalso; lia); (destruct ss as [|s1 [|s2 [|s3 [|? ?]]]]; try discriminate L); reflexivity.
Qed.
Print Assumptions C123_view.
Example C123_view_case : viewk_of 2 (View 0 3 [2; 4] [1; 2]) = Ok (View 0 3 [2; 4] [1; 2]) /\ viewk_of 3 (View 0 3 [2; 4] [1; 2]) = Throw.
Proof. split; reflexivity. Qed.
(* those of a complex tensor have, in the memory seen as floats, its elements *)
Theorem C123_complex_view (R : cring) x k (m : mem (CxRing R)) : In k [1%nat; 2%nat; 3%nat] -> vwf x -> length (vdims x) = k -> readable m x ->
  exists v, cviewk_of k x = Ok v /\ cshape v (vdims x) /\ readable (as_floats m) v /\ (forall ix, in_range ix (vdims x) -> celem (as_floats m) v ix = elem0 m x ix).
Proof.
  intros Hk [L N] E Rd. set (v := View (vblk x) (2 * voff x) (vdims x ++ [2]) (map (Z.mul 2) (vstr x) ++ [1])). exists v.
  assert (Lv : length (vstr v) = length (vdims v)) by (unfold v; cbn [vstr vdims]; rewrite !app_length, map_length; cbn [length]; lia).
  assert (Dt : forall ss ix c, length ix = length ss -> dot (map (Z.mul 2) ss ++ [1]) (ix ++ [c]) = 2 * dot ss ix + c).
  { induction ss as [|s ss IH]; intros [|i ix] c Hl; try discriminate Hl; [cbn [map app dot]; lia|]. cbn [map app dot]. rewrite IH by (cbn [length] in Hl; lia). lia. }
  assert (At : forall ix c, in_range ix (vdims x) -> 0 <= c < 2 -> elem (as_floats m) v (ix ++ [c]) = option_map (fun z => if c =? 0 then fst z else snd z) (elem m x ix)).
  { intros ix c Hix Hc. rewrite !elem_cell; [|exact L|exact Hix|exact Lv|unfold v; cbn [vdims]; apply Forall2_app; [assumption|repeat constructor; lia]]. unfold cell, at_, v. cbn [vblk voff vstr fst snd].
    rewrite Dt by (apply in_range_length in Hix; lia). unfold as_floats. replace (2 * voff x + (2 * dot (vstr x) ix + c)) with (c + (voff x + dot (vstr x) ix) * 2) by ring.
    rewrite Z.div_add, Z.div_small, Z.mod_add, Z.mod_small by lia. cbn [Z.add]. destruct (m _ _); [|reflexivity]. cbn [option_map]. reflexivity. }
  split; [|split; [|split]].
  - unfold cviewk_of. rewrite E, Nat.eqb_refl. cbn [assrt]. unfold v. destruct x as [b o ds ss]. cbn [vblk voff vdims vstr] in *. subst k.
    destruct ds as [|d1 [|d2 [|d3 [|? ?]]]]; cbn [length In] in Hk; try (exfalso; lia); (destruct ss as [|s1 [|s2 [|s3 [|? ?]]]]; try discriminate L); reflexivity.
  - split; [split; [exact Lv|]|reflexivity]. apply Forall_app. split; [exact N|repeat constructor; lia].
  - intros ix Hix. unfold v in Hix. cbn [vdims] in Hix. apply Forall2_app_inv_r in Hix as (i1 & i2 & H1 & H2 & ->). inversion H2 as [|c ? ? ? Hc Hn]; subst. inversion Hn; subst. rewrite At by assumption.
    intro K. apply (Rd i1 H1). destruct (elem m x i1); [discriminate K|reflexivity].
  - intros ix Hix. unfold celem, elem0. rewrite !At by (assumption || lia). destruct (elem m x ix) as [[a b]|] eqn:Ee; [reflexivity|now apply Rd in Ee].
Qed.
Print Assumptions C123_complex_view.
(* and writing the two parts of an element through the view writes the element *)
Theorem C123_complex_write (R : cring) (m m' : mem (CxRing R)) b a z : store m b a z = Ok m' ->
  exists m1 m2, store (as_floats m) b (2 * a) (fst z) = Ok m1 /\ store m1 b (2 * a + 1) (snd z) = Ok m2 /\ forall c p, as_floats m' c p = m2 c p.
Proof.
  unfold store, as_floats. intro H. destruct (m b a) as [w|] eqn:E; [|discriminate H]. injection H as <-.
  replace (2 * a / 2) with a by (rewrite Z.mul_comm, Z.div_mul; lia). rewrite E. eexists. eexists. split; [reflexivity|].
  assert (D1 : (2 * a + 1) / 2 = a) by (replace (2 * a + 1) with (1 + a * 2) by ring; rewrite Z.div_add by lia; reflexivity). unfold upd. rewrite (Z.eqb_refl b). cbn [andb]. replace (2 * a + 1 =? 2 * a) with false by lia. cbn [andb]. rewrite D1, E. split; [reflexivity|].
  intros c p. cbv beta. destruct (c =? b) eqn:Ec; cbn [andb]; [|reflexivity]. apply Z.eqb_eq in Ec. subst c. pose proof (Z.div_mod p 2 ltac:(lia)) as Dm. pose proof (Z.mod_pos_bound p 2 ltac:(lia)) as Bd.
  destruct (p / 2 =? a) eqn:Ep.
  - apply Z.eqb_eq in Ep. destruct (p mod 2 =? 0) eqn:Em.
    + replace (p =? 2 * a + 1) with false by lia. now replace (p =? 2 * a) with true by lia.
    + now replace (p =? 2 * a + 1) with true by lia.
  - replace (p =? 2 * a + 1) with false by (symmetry; apply Z.eqb_neq; intros ->; rewrite D1 in Ep; lia).
    replace (p =? 2 * a) with false by (symmetry; apply Z.eqb_neq; intros ->; rewrite Z.mul_comm, Z.div_mul in Ep; lia). reflexivity.
Qed.
Print Assumptions C123_complex_write.
Theorem C123_complex_rank x k : length (vdims x) <> k -> cviewk_of k x = Throw.
Proof. intro H. unfold cviewk_of. now replace (length (vdims x) =? k)%nat with false by (symmetry; now apply Nat.eqb_neq). Qed.
Print Assumptions C123_complex_rank.
Definition czm (l : list (Z * Z)) : mem (CxRing ZRing) := fun b a => if b =? 0 then (if a <? 0 then None else nth_error l (Z.to_nat a)) else None.
Example C123_complex_case : let x := View 0 1 [2; 2] [1; 2] in let m := czm [(0, 0); (1, 2); (3, 4); (5, 6); (7, 8)] in
  vwf x /\ readable m x /\ exists v, cviewk_of 2 x = Ok v /\ map (celem (R := ZRing) (as_floats m) v) (all_indices [2; 2]) = [(1, 2); (5, 6); (3, 4); (7, 8)] /\
  exists m', store m 0 3 (50, 60) = Ok m' /\ celem (R := ZRing) (as_floats m') v [0; 1] = (50, 60).
Proof.
  cbv zeta. split; [split; [reflexivity|repeat constructor; lia]|]. split; [now apply readable_by|]. eexists. split; [reflexivity|]. split; [now vm_compute|]. eexists. split; [reflexivity|]. now vm_compute.
Qed.
(* the flat view of a row-major tensor lists its elements in order *)
Theorem C123_flat x : vwf x -> vstr x = strides_of 1 (vdims x) ->
  exists v, flat_view_of x = Ok v /\ vdims v = [prod (vdims x)] /\ forall ix, in_range ix (vdims x) -> vaddr v [flat ix (vdims x)] = vaddr x ix.
Proof.
  intros [L N] S. unfold flat_view_of, is_contiguous. rewrite (proj2 (is_regular_iff _ _ L) S). cbn [bind assrt]. eexists. split; [reflexivity|]. cbn [vdims]. rewrite asize_prod. split; [reflexivity|].
  intros ix Hix. rewrite (vaddr_cell x) by assumption. rewrite vaddr_cell; [|reflexivity|cbn [vdims]; apply in_range1; now apply flat_range]. unfold cell. cbn [vblk voff vstr dot]. rewrite S, dot_strides_of by now apply in_range_length. do 2 f_equal. lia.
Qed.
Print Assumptions C123_flat.
Example C123_flat_case : vwf (View 0 5 [2; 3] [3; 1]) /\ vstr (View 0 5 [2; 3] [3; 1]) = strides_of 1 [2; 3] /\ flat_view_of (View 0 5 [2; 3] [3; 1]) = Ok (View 0 5 [6] [1]).
Proof. split; [split; [reflexivity|repeat constructor; lia]|]. split; reflexivity. Qed.
(* whenever there is a flat view, it has exactly the cells of the tensor, each once *)
Theorem C123_flat_cells x v : vwf x -> positive (vdims x) -> positive (vstr x) -> flat_view_of x = Ok v ->
  Permutation (map (fun ix => voff x + dot (vstr x) ix) (all_indices (vdims x))) (map (fun ix => voff v + dot (vstr v) ix) (all_indices (vdims v))) /\ vblk v = vblk x.
Proof.
  intros [L N] Pd Ps E. unfold flat_view_of in E. destruct (is_contiguous (vstr x) (vdims x)) as [c| |] eqn:Ec; try discriminate. cbn [bind] in E. destruct c; [|discriminate]. injection E as <-. cbn [vdims vstr voff vblk]. split; [|reflexivity].
  rewrite asize_prod. pose proof (contiguous_solid _ _ Pd Ps L Ec) as P. apply (Permutation_map (Z.add (voff x))) in P. rewrite map_map in P. rewrite P.
  assert (E1 : all_indices [prod (vdims x)] = map (fun i => [i]) (zrange (prod (vdims x)))) by (generalize (prod (vdims x)); intro n; cbn; induction (zrange n) as [|a l IH]; cbn; [reflexivity|now f_equal]).
  rewrite E1, map_map. erewrite map_ext; [reflexivity|]. intro a. cbn [dot]. lia.
Qed.
Print Assumptions C123_flat_cells.
Example C123_flat_cells_case : flat_view_of (View 0 5 [2; 3] [1; 2]) = Ok (View 0 5 [6] [1]) /\ flat_view_of (View 0 5 [2; 3] [4; 1]) = Throw.
Proof. split; reflexivity. Qed.
(* ... that of any other contiguous tensor lists them in the order of memory *)
Theorem C123_flat_refuted : exists x v, vwf x /\ flat_view_of x = Ok v /\ exists ix, in_range ix (vdims x) /\ vaddr v [flat ix (vdims x)] <> vaddr x ix.
Proof.
  exists (View 0 0 [2; 2] [1; 2]). eexists. split; [split; [reflexivity|repeat constructor; lia]|]. split; [reflexivity|]. exists [0; 1]. split; [repeat constructor; lia|]. discriminate.
Qed.
Print Assumptions C123_flat_refuted.
