(* Prop_CuColumns.v -- C190, C191: destructive reductions, broadcasts and scaled columns on a device.  In every theorem the updates of a launch run in any
   order. *)
From Verif Require Import Base BaseFacts Model_Index Model_View Model_Tensor Model_Ops Model_RView Model_Cuda Model_CuConv Model_CuBlas Model_Containers Model_CuGather Model_CuRtensor Model_CuColumns
  Spec_Index Spec_View Spec_Tensor Spec_Cuda Spec_CuRtensor Proofs_Index Proofs_Tensor Proofs_Tensor3 Proofs_Cuda Spec_RView Proofs_CuBlas Proofs_CuRtensor Proofs_RView4 Proofs_CuColumns Prop_CuRtensor.
Local Open Scope Z_scope.

Lemma axpy_one {R : cring} (u w : R) : f_axpy c1 u [w] = cadd u w.
Proof. cbn [f_axpy]. f_equal. apply (Rmul_1_l (cth R)). Qed.

Section Zero.
Context {R : cring}.
Add Ring RrC191 : (cth R).
Lemma cmul_zero (x : R) : cmul x c0 = c0. Proof. ring. Qed.
End Zero.

(* ---- C190 ---- *)
(* v.reduce0_destructively() for a regular matrix with two rows or more: row 0 becomes the sum of the rows, nothing outside v changes *)
Theorem C190_reduce0_partial {R : cring} v n0 n1 (m : mem (car R)) orders : vwf v -> vdims v = [n0; n1] -> reg2 v = true -> 2 <= n0 -> readable m v -> any_order (cu_reduce0 v) orders ->
  exists m', cu_exec (f_axpy c1) orders m = Ok m' /\ untouched m m' v /\ forall j, 0 <= j < n1 -> elem m' v [0; j] = Some (rsum (map (fun i => elem0 m v [i; j]) (zrange n0))).
Proof.
  intros W D Hr H2 Rv O. destruct (reduce_dev v n0 n1 W D Hr (f_axpy c1) orders m axpy_one Rv H2 O) as (m' & E & R' & U & H). exists m'. split; [exact E|]. split; [exact U|].
  intros j Hj. rewrite (readable_elem m' v [0; j] R') by (rewrite D; repeat constructor; lia). f_equal. now apply H.
Qed.
Print Assumptions C190_reduce0_partial.
(* v.reduce1_destructively() for a matrix stored by columns *)
Theorem C190_reduce1_partial {R : cring} b o n0 n1 (m : mem (car R)) (v := View b o [n0; n1] [1; n0]) orders : 0 <= n0 -> 2 <= n1 -> readable m v -> any_order (cu_reduce1d v) orders ->
  exists m', cu_exec (f_axpy c1) orders m = Ok m' /\ untouched m m' v /\ forall i, 0 <= i < n0 -> elem m' v [i; 0] = Some (rsum (map (fun j => elem0 m v [i; j]) (zrange n1))).
Proof. intros P0 P1 Rv O. exact (reduce1_dev b o n0 n1 _ m orders axpy_one P0 P1 Rv O). Qed.
Print Assumptions C190_reduce1_partial.
(* v.reduce0_destructively_into(r): the sums of the columns are added to r; memory outside v and r does not change *)
Theorem C190_into_partial {R : cring} v n0 n1 r rs (m : mem (car R)) : vwf v -> vdims v = [n0; n1] -> reg2 v = true -> 2 <= n0 -> operands r [v] m -> vdims r = [n1] -> vstr r = [rs] -> 0 <= rs ->
  exists plan, cu_reduce0_into v r = Ok plan /\ forall orders, any_order plan orders -> exists m', cu_exec (f_axpy c1) orders m = Ok m' /\ untouched2 m m' r v /\
    forall j x, 0 <= j < n1 -> elem m r [j] = Some x -> elem m' r [j] = Some (cadd x (rsum (map (fun i => elem0 m v [i; j]) (zrange n0)))).
Proof. exact (reduce_into_dev v n0 n1 r rs m). Qed.
Print Assumptions C190_into_partial.
Theorem C190_into_rejects v r : nd r 0 <> nd v 1 -> cu_reduce0_into v r = Throw.
Proof. intro N. unfold cu_reduce0_into. now replace (nd r 0 =? nd v 1) with false by lia. Qed.
Print Assumptions C190_into_rejects.
(* v.reduce1_destructively() for a regular 3-tensor whose middle side is two or more *)
Theorem C190_middle_partial {R : cring} b o n0 n1 n2 (m : mem (car R)) (v := View b o [n0; n1; n2] [n1 * n2; n2; 1]) orders :
  0 < n0 <= 2147483647 -> 2 <= n1 -> 0 <= n2 -> n1 * n2 <= 67107840 -> readable m v -> any_order (cu_reduce3 v) orders ->
  exists m', cu_exec (f_axpy c1) orders m = Ok m' /\ untouched m m' v /\
    forall i k, 0 <= i < n0 -> 0 <= k < n2 -> elem m' v [i; 0; k] = Some (rsum (map (fun j => elem0 m v [i; j; k]) (zrange n1))).
Proof. intros P0 P1 P2 Hf Rv O. exact (reduce3_dev b o n0 n1 n2 P0 ltac:(lia) P2 Hf _ orders m axpy_one Rv P1 O). Qed.
Print Assumptions C190_middle_partial.
(* and for a 3-tensor with gaps between its slices, which are reduced one by one *)
Theorem C190_slices_partial {R : cring} b o n0 n1 n2 s0 (m : mem (car R)) (v := View b o [n0; n1; n2] [s0; n2; 1]) orders :
  2 <= n1 -> 0 <= n2 -> s0 <> n1 * n2 -> distinct_cells v -> readable m v -> any_order (cu_reduce3 v) orders ->
  exists m', cu_exec (f_axpy c1) orders m = Ok m' /\ untouched m m' v /\
    forall i k, 0 <= i < n0 -> 0 <= k < n2 -> elem m' v [i; 0; k] = Some (rsum (map (fun j => elem0 m v [i; j; k]) (zrange n1))).
Proof. intros P1 P2 Hs Dc Rv O. exact (reduce3_slices_dev b o n0 n1 n2 s0 P1 P2 Dc _ axpy_one m orders Hs Rv O). Qed.
Print Assumptions C190_slices_partial.
(* Refuted for one row: it is doubled *)
Theorem C190_one_row_refuted {R : cring} v n1 (m : mem (car R)) orders : vwf v -> vdims v = [1; n1] -> reg2 v = true -> readable m v -> any_order (cu_reduce0 v) orders ->
  exists m', cu_exec (f_axpy c1) orders m = Ok m' /\ untouched m m' v /\ forall j, 0 <= j < n1 -> elem m' v [0; j] = Some (cadd (elem0 m v [0; j]) (elem0 m v [0; j])).
Proof. intros W D Hr Rv O. exact (reduce_one_dev v 1 n1 W D Hr _ orders m axpy_one Rv eq_refl O). Qed.
Print Assumptions C190_one_row_refuted.
Theorem C190_one_slice_refuted {R : cring} b o n0 n2 (m : mem (car R)) (v := View b o [n0; 1; n2] [1 * n2; n2; 1]) orders :
  0 < n0 <= 2147483647 -> 0 <= n2 <= 67107840 -> readable m v -> any_order (cu_reduce3 v) orders ->
  exists m', cu_exec (f_axpy c1) orders m = Ok m' /\ untouched m m' v /\
    forall i k, 0 <= i < n0 -> 0 <= k < n2 -> elem m' v [i; 0; k] = Some (cadd (elem0 m v [i; 0; k]) (elem0 m v [i; 0; k])).
Proof. intros P0 P2 Rv O. exact (reduce3_one_dev b o n0 1 n2 P0 ltac:(lia) ltac:(lia) ltac:(lia) _ orders m axpy_one Rv eq_refl O). Qed.
Print Assumptions C190_one_slice_refuted.
(* Refuted for other layouts: nothing is launched *)
Theorem C190_layout_refuted v : reg2 v = false -> cu_reduce0 v = [].
Proof. intro H. unfold cu_reduce0. now rewrite H. Qed.
Print Assumptions C190_layout_refuted.
Theorem C190_layout1_refuted b o n0 n1 s0 s1 : s0 <> 1 \/ s1 <> n0 -> cu_reduce1d (View b o [n0; n1] [s0; s1]) = [].
Proof. intro H. apply C190_layout_refuted. unfold reg2, nd, sd, rv2_transp, nd, sd. cbn [vdims vstr nth]. lia. Qed.
Print Assumptions C190_layout1_refuted.
Theorem C190_layout3_refuted b o n0 n1 n2 s0 s1 s2 : s2 <> 1 \/ s1 <> n2 -> cu_reduce3 (View b o [n0; n1; n2] [s0; s1; s2]) = [].
Proof.
  intro H. unfold cu_reduce3. replace (reg3 _) with false by (unfold reg3, nd, sd; cbn [vdims vstr nth]; lia).
  erewrite map_ext; [|intro i; apply C190_layout_refuted; unfold reg2, nd, sd, rv3_slice0, nd, sd; cbn [vdims vstr nth]; lia]. generalize (zrange (nd (View b o [n0; n1; n2] [s0; s1; s2]) 0)). intro l. induction l; auto.
Qed.
Print Assumptions C190_layout3_refuted.
(* r.broadcast0(x) for a regular matrix and vector: every row becomes x *)
Theorem C190_broadcast_partial {R : cring} v n0 n1 x (m : mem (car R)) : vwf v -> vdims v = [n0; n1] -> reg2 v = true -> 1 <= n0 -> readable m v ->
  vwf x -> vdims x = [n1] -> reg1 x = true -> readable m x -> disjoint_views v x ->
  exists plan, cu_broadcast v x = Ok plan /\ forall orders, any_order plan orders -> exists m', cu_exec f_set orders m = Ok m' /\ becomes v (fun ix => elem0 m x [nth 1 ix 0]) m m'.
Proof. intros W D Hr H1 Rv Wx Dx Ex Rx B. exact (broadcast_dev v n0 n1 W D Hr f_set x m (fun _ _ => eq_refl) Rv Wx Dx Ex Rx B H1). Qed.
Print Assumptions C190_broadcast_partial.
Theorem C190_broadcast_rejects v x : nd x 0 <> nd v 1 -> cu_broadcast v x = Throw.
Proof. intro N. unfold cu_broadcast. now replace (nd x 0 =? nd v 1) with false by lia. Qed.
Print Assumptions C190_broadcast_rejects.
Theorem C190_broadcast_layout_refuted v x : nd x 0 = nd v 1 -> reg2 v && reg1 x = false -> cu_broadcast v x = Ok [].
Proof. intros N H. unfold cu_broadcast. now rewrite N, Z.eqb_refl, H. Qed.
Print Assumptions C190_broadcast_layout_refuted.

(* ---- C191 ---- *)
(* r.add_scale_columns(x,y), r.add_mul_columns(x,y), refuted: column j of r is multiplied by y(j), and x is not used.  r and y are stored without gaps *)
Theorem C191_columns_refuted {R : cring} b o n nc by_ oy x (m : mem (car R)) (r := View b o [n; nc] [nc; 1]) (y := View by_ oy [nc] [1]) : 0 <= n -> 0 <= nc -> vdims x = [n; nc] ->
  readable m r -> readable m y -> disjoint_views r y ->
  exists plan, cu_scale_columns r x y = Ok plan /\ forall orders, any_order plan orders -> exists m', cu_exec f_dgmm orders m = Ok m' /\
    becomes r (fun ix => cmul (elem0 m y [nth 1 ix 0]) (elem0 m r ix)) m m'.
Proof.
  intros P Q Dx Rr Ry Dj. eexists. split.
  - unfold cu_scale_columns. rewrite Dx. cbn [length vdims y]. change (2 =? 2)%nat with true. change (1 =? 1)%nat with true. cbn [assrt]. destruct (nd2 x n nc Dx) as [-> ->]. unfold nd. cbn [vdims nth r y]. rewrite !Z.eqb_refl. reflexivity.
  - intros orders O. eapply dgmm_dev; try eassumption. reflexivity.
Qed.
Print Assumptions C191_columns_refuted.
(* so r is as it should be only if y(j)*r(i,j) is r(i,j)+x(i,j)*y(j) throughout: not so for r=0, x=y=1 *)
Theorem C191_sum_refuted {R : cring} b o n nc by_ oy x (m : mem (car R)) (r := View b o [n; nc] [nc; 1]) (y := View by_ oy [nc] [1]) : 0 <= n -> 0 <= nc -> vdims x = [n; nc] ->
  readable m r -> readable m y -> disjoint_views r y -> (forall ix, in_range ix [n; nc] -> elem m r ix = Some c0) ->
  exists plan, cu_scale_columns r x y = Ok plan /\ forall orders, any_order plan orders -> exists m', cu_exec f_dgmm orders m = Ok m' /\ forall ix, in_range ix [n; nc] -> elem m' r ix = Some c0.
Proof.
  intros P Q Dx Rr Ry Dj Zr. destruct (C191_columns_refuted b o n nc by_ oy x m P Q Dx Rr Ry Dj) as (plan & Ep & H). exists plan. split; [exact Ep|]. intros orders O. destruct (H orders O) as (m' & E & B & _). exists m'. split; [exact E|].
  intros ix I. rewrite B by exact I. f_equal. unfold elem0 at 2. rewrite Zr by exact I. apply cmul_zero.
Qed.
Print Assumptions C191_sum_refuted.
Theorem C191_rejects r x y : length (vdims x) <> 2%nat \/ length (vdims y) <> 1%nat \/ nd x 0 <> nd r 0 \/ nd x 1 <> nd r 1 \/ nd y 0 <> nd r 1 -> cu_scale_columns r x y = Throw.
Proof.
  intro H. unfold cu_scale_columns. destruct (length (vdims x) =? 2)%nat eqn:E1; [|reflexivity]. destruct (length (vdims y) =? 1)%nat eqn:E2; [|reflexivity]. cbn [assrt]. apply Nat.eqb_eq in E1, E2.
  replace ((nd x 0 =? nd r 0) && (nd x 1 =? nd r 1) && (nd y 0 =? nd r 1)) with false; [reflexivity|]. symmetry. lia.
Qed.
Print Assumptions C191_rejects.

(* concrete cases *)
Ltac cc_read := apply cr_read; [lia|reflexivity|intros ix I; rng; cbn [dot]; lia].
Ltac cc_apart := intros ix jx I J E; rewrite !vaddr_cell in E by (reflexivity || assumption); discriminate.
Ltac cc_wf := split; [reflexivity|unfold nonneg; repeat constructor; lia].
Definition shown (m : res (mem Z)) (l : list addr) : res (list Z) := do m' <- m; loads m' l.
Example C190_case_reduce0 : vwf (View 1 5 [7; 3] [3; 1]) /\ reg2 (View 1 5 [7; 3] [3; 1]) = true /\ readable cr_ramp (View 1 5 [7; 3] [3; 1]) /\
  shown (cu_exec (@f_axpy ZRing 1) (map (@rev _) (cu_reduce0 (View 1 5 [7; 3] [3; 1]))) cr_ramp) [(1, 4); (1, 5); (1, 7); (1, 26)] = Ok [6; 7 * 5 - 3 * 21; 7 * 3 - 3 * 21; -16].
Proof. split; [cc_wf|]. split; [reflexivity|]. split; [cc_read|]. vm_compute. reflexivity. Qed.
Example C190_case_reduce1 : readable cr_ramp (View 1 5 [3; 5] [1; 3]) /\
  shown (cu_exec (@f_axpy ZRing 1) (map (@rev _) (cu_reduce1d (View 1 5 [3; 5] [1; 3]))) cr_ramp) [(1, 4); (1, 5); (1, 7)] = Ok [6; 5 * 5 - 30; 5 * 3 - 30].
Proof. split; [cc_read|]. vm_compute. reflexivity. Qed.
Example C190_case_into : operands (View 0 0 [3] [2]) [View 1 5 [7; 3] [3; 1]] cr_ramp /\ exists plan, cu_reduce0_into (View 1 5 [7; 3] [3; 1]) (View 0 0 [3] [2]) = Ok plan /\
  shown (cu_exec (@f_axpy ZRing 1) (map (@rev _) plan) cr_ramp) [(0, 0); (0, 1); (0, 4)] = Ok [35 - 63; -1; -4 + (21 - 63)].
Proof. split; [cr_op|]. eexists. split; [vm_compute; reflexivity|]. vm_compute. reflexivity. Qed.
Example C190_case_middle : readable cr_ramp (View 1 5 [2; 3; 400] [1200; 400; 1]) /\
  shown (cu_exec (@f_axpy ZRing 1) (map (@rev _) (cu_reduce3 (View 1 5 [2; 3; 400] [1200; 400; 1]))) cr_ramp) [(1, 4); (1, 5); (1, 1604)] = Ok [6; 15 - 1200; 3 * (10 - 1604) - 1200].
Proof. split; [cc_read|]. vm_compute. reflexivity. Qed.
(* rows longer than one block of threads *)
Example C190_case_middle_long : readable cr_ramp (View 1 5 [1; 2; 1100] [2200; 1100; 1]) /\ length (cu_reduce3 (View 1 5 [1; 2; 1100] [2200; 1100; 1])) = 2%nat /\
  shown (cu_exec (@f_axpy ZRing 1) (map (@rev _) (cu_reduce3 (View 1 5 [1; 2; 1100] [2200; 1100; 1]))) cr_ramp) [(1, 4); (1, 5); (1, 1104)] = Ok [6; 10 - 1100; 2 * (10 - 1104) - 1100].
Proof. split; [cc_read|]. split; [reflexivity|]. vm_compute. reflexivity. Qed.
Example C190_case_slices : distinct_cells (View 1 5 [2; 3; 4] [20; 4; 1]) /\ readable cr_ramp (View 1 5 [2; 3; 4] [20; 4; 1]) /\
  shown (cu_exec (@f_axpy ZRing 1) (map (@rev _) (cu_reduce3 (View 1 5 [2; 3; 4] [20; 4; 1]))) cr_ramp) [(1, 4); (1, 5); (1, 17); (1, 28)] = Ok [6; 15 - 12; -7; 3 * (10 - 28) - 12].
Proof.
  split; [|split; [cc_read|vm_compute; reflexivity]]. intros ix jx I J E. rewrite !vaddr_cell in E by (reflexivity || assumption). cbn [vdims] in *. rng. unfold cell in E. cbn [vblk voff vstr dot] in E.
  apply (f_equal (fun q => match q with Ok p => snd p | _ => 0 end)) in E. cbn [snd] in E. repeat (f_equal; try lia).
Qed.
Example C190_case_one : readable cr_ramp (View 1 5 [1; 3] [3; 1]) /\ shown (cu_exec (@f_axpy ZRing 1) (cu_reduce0 (View 1 5 [1; 3] [3; 1])) cr_ramp) [(1, 5)] = Ok [10] /\
  readable cr_ramp (View 1 5 [2; 1; 3] [3; 3; 1]) /\ shown (cu_exec (@f_axpy ZRing 1) (cu_reduce3 (View 1 5 [2; 1; 3] [3; 3; 1])) cr_ramp) [(1, 5); (1, 8)] = Ok [10; 4].
Proof. split; [cc_read|]. split; [vm_compute; reflexivity|]. split; [cc_read|]. vm_compute. reflexivity. Qed.
Example C190_case_layout : reg2 (View 0 0 [2; 3] [1; 2]) = false /\ reg2 (View 0 0 [2; 3] [1; 2]) && reg1 (View 1 0 [3] [1]) = false. Proof. split; reflexivity. Qed.
Example C190_case_broadcast : vwf (View 0 0 [7; 3] [3; 1]) /\ reg2 (View 0 0 [7; 3] [3; 1]) = true /\ readable cr_ramp (View 0 0 [7; 3] [3; 1]) /\ readable cr_ramp (View 1 4 [3] [1]) /\ disjoint_views (View 0 0 [7; 3] [3; 1]) (View 1 4 [3] [1]) /\
  exists plan, cu_broadcast (View 0 0 [7; 3] [3; 1]) (View 1 4 [3] [1]) = Ok plan /\ shown (cu_exec (@f_set Z) (map (@rev _) plan) cr_ramp) [(0, 0); (0, 20); (0, 13); (0, 21)] = Ok [6; 4; 5; -21].
Proof. split; [cc_wf|]. split; [reflexivity|]. split; [cc_read|]. split; [cc_read|]. split; [cc_apart|]. eexists. split; [vm_compute; reflexivity|]. vm_compute. reflexivity. Qed.
Example C191_case : readable cr_ramp (View 0 0 [2; 3] [3; 1]) /\ readable cr_ramp (View 1 0 [3] [1]) /\ disjoint_views (View 0 0 [2; 3] [3; 1]) (View 1 0 [3] [1]) /\
  exists plan, cu_scale_columns (View 0 0 [2; 3] [3; 1]) (View 2 0 [2; 3] [3; 1]) (View 1 0 [3] [1]) = Ok plan /\ shown (cu_exec (@f_dgmm ZRing) (map (@rev _) plan) cr_ramp) [(0, 0); (0, 4); (0, 6)] = Ok [0; 9 * -4; -6].
Proof. split; [cc_read|]. split; [cc_read|]. split; [cc_apart|]. eexists. split; [vm_compute; reflexivity|]. vm_compute. reflexivity. Qed.
(* the code of the CPU would give r+x*y: -4+(20-4)*9 at the cell 4 *)
Example C191_case_differs : 9 * -4 <> -4 + (20 - 4) * 9. Proof. lia. Qed.
Definition cc_flat : mem (car ZRing) := fun b a => if (0 <=? b) && (b <? 3) && (0 <=? a) && (a <? 100) then Some (if b =? 0 then 0 else 1) else None.
Example C191_case_sum : forall ix, in_range ix [2; 3] -> elem cc_flat (View 0 0 [2; 3] [3; 1]) ix = Some 0.
Proof.
  intros ix I. rewrite elem_cell by (reflexivity || assumption). rng. unfold at_, cell, cc_flat. cbn [vblk voff vstr fst snd dot]. set (a := 0 + _). replace ((0 <=? 0) && (0 <? 3) && (0 <=? a) && (a <? 100)) with true by (unfold a; lia). reflexivity.
Qed.
Example C191_case_rejects : nd (View 1 0 [4] [1]) 0 <> nd (View 0 0 [2; 3] [3; 1]) 1. Proof. discriminate. Qed.
