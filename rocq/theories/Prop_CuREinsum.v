(* Prop_CuREinsum.v -- C196: Einstein sums of two real arrays on a device, r(i)+=sum over j of x(i,j)*y(i,j), for arrays of any layout.  The threads of a launch run in any order. *)
From Verif Require Import Base BaseFacts Model_Index Model_View Model_Tensor Model_Ops Model_RView Model_Einsum Model_Cuda Model_CuConv Model_CuBlas Model_CuRtensor Model_CuREinsum
  Spec_Index Spec_View Spec_Tensor Spec_Cuda Proofs_Index Proofs_Tensor Proofs_Tensor3 Proofs_Convolve Proofs_Convolve2 Proofs_Cuda Spec_RView Proofs_CuBlas Proofs_CuRtensor Proofs_CuColumns Proofs_CuREinsum Prop_CuRtensor.
Local Open Scope Z_scope.

(* the sum at index i of the result *)
Definition einsum {R : cring} (m : mem (car R)) (x y : view) (js ix : list Z) : R := rsum (map (fun j => cmul (elem0 m x (ix ++ j)) (elem0 m y (ix ++ j))) (all_indices js)).
(* y with other strides *)
Definition restrided (y : view) (s : list Z) : view := View (vblk y) (voff y) (vdims y) s.

(* no index in the result, up to one summed index *)
Theorem C196_0 {R : cring} r x y (m : mem (car R)) js : operands r [x; y] m -> vdims r = [] -> vdims x = js -> vdims y = js ->
  forall orders, any_order (re_add_0 js (arr x) (vstr x) (arr y) (vstr y) (arr r)) orders -> exists m', cu_exec f_conv orders m = Ok m' /\ gains r (einsum m x y js) m m'.
Proof.
  intros O Dr Dx Dy orders P. rewrite re0_plan in P. apply one_launch; try assumption; rewrite Dr; try assumption. assert (S : vstr r = []); [|now rewrite S].
  destruct O as ([L _] & _). rewrite Dr in L. now destruct (vstr r).
Qed.
Print Assumptions C196_0.
(* one index in the result *)
Theorem C196_1 {R : cring} r x y (m : mem (car R)) n js : operands r [x; y] m -> vdims r = [n] -> vdims x = n :: js -> vdims y = n :: js -> 0 <= n <= 2147483647 ->
  forall orders, any_order (re_add_1 n js (arr x) (vstr x) (arr y) (vstr y) (arr r) (vstr r)) orders -> exists m', cu_exec f_conv orders m = Ok m' /\ gains r (einsum m x y js) m m'.
Proof. intros O Dr Dx Dy H orders P. rewrite re1_plan in P by exact H. apply one_launch; try assumption; rewrite Dr; assumption. Qed.
Print Assumptions C196_1.
(* two *)
Theorem C196_2_partial {R : cring} r x y (m : mem (car R)) n0 n1 js : operands r [x; y] m -> vdims r = [n0; n1] -> vdims x = n0 :: n1 :: js -> vdims y = n0 :: n1 :: js -> 0 <= n0 <= 2147483647 -> 0 <= n1 <= 65535 ->
  forall orders, any_order (re_add_2 n0 n1 js (arr x) (vstr x) (arr y) (vstr y) (arr r) (vstr r)) orders -> exists m', cu_exec f_conv orders m = Ok m' /\ gains r (einsum m x y js) m m'.
Proof. intros O Dr Dx Dy H0 H1 orders P. rewrite re2_plan in P by assumption. apply one_launch; try assumption; rewrite Dr; assumption. Qed.
Print Assumptions C196_2_partial.
(* three, and one summed index *)
Theorem C196_3_1_partial {R : cring} r x y (m : mem (car R)) n0 n1 n2 js : operands r [x; y] m -> vdims r = [n0; n1; n2] -> vdims x = n0 :: n1 :: n2 :: js -> vdims y = n0 :: n1 :: n2 :: js ->
  0 <= n0 <= 2147483647 -> 0 <= n1 <= 65535 -> 0 <= n2 <= 65535 -> n2 <= 64 \/ 1024 < n0 * n1 * n2 ->
  forall orders, any_order (re_add_3_1 n0 n1 n2 js (arr x) (vstr x) (arr y) (vstr y) (arr r) (vstr r)) orders -> exists m', cu_exec f_conv orders m = Ok m' /\ gains r (einsum m x y js) m m'.
Proof. intros O Dr Dx Dy H0 H1 H2 H3 orders P. rewrite re31_plan in P by assumption. apply one_launch; try assumption; rewrite Dr; assumption. Qed.
Print Assumptions C196_3_1_partial.
(* Refuted: beyond these sides no launch is legal, nothing is computed and no error is reported *)
Theorem C196_2_refuted n0 n1 js x xs y ys r rs : 1 <= n0 -> 65535 < n1 -> re_add_2 n0 n1 js x xs y ys r rs = [[]].
Proof.
  intros H0 H1. unfold re_add_2. destruct (Z.leb_spec (n0 * n1) 1024); [nia|]. destruct (Z.leb_spec n1 1024); [lia|]. unfold re_launch.
  destruct (cu_ok (n0, n1, 1) (1, 1, 1)) eqn:C; [apply ok_inv in C; lia|reflexivity].
Qed.
Print Assumptions C196_2_refuted.
Theorem C196_3_1_refuted n0 n1 n2 js x xs y ys r rs : 1 <= n0 -> 1 <= n1 -> 1 <= n2 -> 65535 < n1 \/ 65535 < n2 \/ (64 < n2 /\ n0 * n1 * n2 <= 1024) -> re_add_3_1 n0 n1 n2 js x xs y ys r rs = [[]].
Proof.
  intros H0 H1 H2 H3. assert (1 <= n0 * n1) by nia. assert (1 <= n1 * n2) by nia. unfold re_add_3_1.
  assert (N : forall g b co, cu_ok g b = false -> re_launch g b co js x xs y ys r rs = []) by (intros g b co E; unfold re_launch; now rewrite E).
  destruct (Z.leb_spec (n0 * n1 * n2) 1024); [|destruct (Z.leb_spec (n1 * n2) 1024); [|destruct (Z.leb_spec n2 1024)]]; rewrite N; try reflexivity.
  - destruct (cu_ok (1, 1, 1) (n0, n1, n2)) eqn:C; [apply ok_inv in C; exfalso; nia|reflexivity].
  - exfalso. nia.
  - destruct (cu_ok (n0, n1, 1) (n2, 1, 1)) eqn:C; [apply ok_inv in C; exfalso; nia|reflexivity].
  - destruct (cu_ok (n0, n1, n2) (1, 1, 1)) eqn:C; [apply ok_inv in C; exfalso; nia|reflexivity].
Qed.
Print Assumptions C196_3_1_refuted.
(* three indices in the result and none summed: results with more than 1024 elements, or single columns *)
Theorem C196_3_0_partial {R : cring} r x y (m : mem (car R)) n0 n1 n2 : operands r [x; y] m -> vdims r = [n0; n1; n2] -> vdims x = [n0; n1; n2] -> vdims y = [n0; n1; n2] ->
  0 <= n0 <= 2147483647 -> 0 <= n1 <= 65535 -> 0 <= n2 <= 65535 -> (n1 = 1 /\ n2 = 1) \/ 1024 < n0 * n1 * n2 ->
  forall orders, any_order (re_add_3_0 n0 n1 n2 (arr x) (vstr x) (arr y) (vstr y) (arr r) (vstr r)) orders -> exists m', cu_exec f_conv orders m = Ok m' /\ gains r (fun ix => cmul (elem0 m x ix) (elem0 m y ix)) m m'.
Proof.
  intros O Dr Dx Dy H0 H1 H2 H3 orders P. rewrite re30_plan in P by assumption. destruct (one_launch r x y m [] orders O) as (m' & E & G); try (rewrite Dr; assumption). exists m'. split; [exact E|].
  eapply gains_ext; [|exact G]. intros ix _. cbn [all_indices map]. rewrite app_nil_r, rsum_cons, rsum_nil. destruct (cth R). now rewrite Radd_comm, Radd_0_l.
Qed.
Print Assumptions C196_3_0_partial.
(* Refuted for smaller results: of a result stored row by row only the elements (i,0,0) can change ... *)
Theorem C196_3_0_refuted {R : cring} b o n0 n1 n2 x xs y ys (m m' : mem (car R)) : let r := View b o [n0; n1; n2] [n1 * n2; n2; 1] in
  1 <= n0 -> 1 <= n1 -> 1 <= n2 -> n0 * n1 * n2 <= 1024 -> forall orders, any_order (re_add_3_0 n0 n1 n2 x xs y ys (arr r) (vstr r)) orders -> cu_exec f_conv orders m = Ok m' ->
  forall i0 i1 i2, in_range [i0; i1; i2] [n0; n1; n2] -> i1 <> 0 \/ i2 <> 0 -> elem m' r [i0; i1; i2] = elem m r [i0; i1; i2].
Proof.
  intros r H0 H1 H2 H3 orders P E i0 i1 i2 I N. rewrite !elem_cell by (reflexivity || exact I). rewrite exec_run in E. eapply run_untouched; [exact E|]. intro J.
  apply (Permutation_in _ (Permutation_map fst (order_concat _ _ P))) in J. unfold re_add_3_0 in J. destruct (Z.leb_spec (n0 * n1 * n2) 1024); [|lia]. cbn [concat] in J. rewrite app_nil_r in J.
  unfold re_launch in J. destruct (cu_ok _ _); [|destruct J]. rewrite map_map in J. cbn [fst] in J. rewrite <- (map_map k_ttt (fun ix => shift (arr r) (dot (vstr r) ix))), th_ttt in J.
  apply in_map_iff in J. destruct J as (ix & J & K). apply in_all_indices in K. apply in_range_3_inv in K. destruct K as (k0 & k1 & k2 & -> & K0 & K1 & K2).
  apply in_range_cons in I. destruct I as [I0 I]. apply in_range_cons in I. destruct I as [I1 I]. apply in_range_cons in I. destruct I as [I2 _].
  unfold r, shift, arr, cell in J. cbn [vblk voff vstr fst snd dot] in J. apply (f_equal snd) in J. cbn [snd] in J. assert (k1 = 0) by lia. assert (k2 = 0) by lia. subst k1 k2.
  assert (Q : 0 <= n2 * i1 + i2 < n1 * n2) by nia. assert (i0 = k0); [|subst k0; nia].
  assert (T : n1 * n2 * k0 = n1 * n2 * i0 + (n2 * i1 + i2)) by lia. assert (P0 : 0 < n1 * n2) by nia. nia.
Qed.
Print Assumptions C196_3_0_refuted.
(* ... and when n1>1 the element that would follow r is written: the call cannot succeed unless that cell is allocated *)
Theorem C196_3_0_refuted_outside {R : cring} r n0 n1 n2 x xs y ys (m : mem (car R)) : 1 <= n0 -> 1 < n1 -> 1 <= n2 -> n0 * n1 * n2 <= 1024 -> at_ m (cell r [n0; 0; 0]) = None ->
  forall orders, any_order (re_add_3_0 n0 n1 n2 x xs y ys (arr r) (vstr r)) orders -> forall m', cu_exec f_conv orders m <> Ok m'.
Proof.
  intros H0 H1 H2 H3 N orders P m' E. rewrite exec_run in E. apply (run_unallocated _ _ _ _ _ E N). apply (Permutation_in _ (Permutation_sym (Permutation_map fst (order_concat _ _ P)))).
  unfold re_add_3_0. destruct (Z.leb_spec (n0 * n1 * n2) 1024); [|lia]. cbn [concat]. rewrite app_nil_r. unfold re_launch. rewrite ok_true by nia.
  rewrite map_map. cbn [fst]. rewrite <- (map_map k_ttt (fun ix => shift (arr r) (dot (vstr r) ix))), th_ttt. apply in_map_iff. exists [n0; 0; 0]. split; [reflexivity|]. apply in_all_indices. repeat constructor; nia.
Qed.
Print Assumptions C196_3_0_refuted_outside.
(* no index in the result, two summed: the second stride of y is ignored, that of x is used *)
Theorem C196_0_2_refuted {R : cring} r x y (m : mem (car R)) j0 j1 : let y' := restrided y [nth 0 (vstr y) 0; nth 1 (vstr x) 0] in
  operands r [x; y'] m -> vdims r = [] -> vdims x = [j0; j1] -> vdims y = [j0; j1] ->
  forall orders, any_order (re_add_0_2 [j0; j1] (arr x) (vstr x) (arr y) (vstr y) (arr r)) orders -> exists m', cu_exec f_conv orders m = Ok m' /\ gains r (einsum m x y' [j0; j1]) m m'.
Proof.
  intros y' O Dr Dx Dy orders P. rewrite re02_plan in P. apply (one_launch r x y'); try assumption; rewrite Dr; try assumption. assert (S : vstr r = []); [|now rewrite S].
  destruct O as ([L _] & _). rewrite Dr in L. now destruct (vstr r).
Qed.
Print Assumptions C196_0_2_refuted.
Lemma same_strides y s : vstr y = s -> restrided y s = y.
Proof. intros <-. now destruct y. Qed.
(* so the sum is right when both are equal *)
Theorem C196_0_2_partial {R : cring} r x y (m : mem (car R)) j0 j1 : operands r [x; y] m -> vdims r = [] -> vdims x = [j0; j1] -> vdims y = [j0; j1] -> nth 1 (vstr y) 0 = nth 1 (vstr x) 0 ->
  forall orders, any_order (re_add_0_2 [j0; j1] (arr x) (vstr x) (arr y) (vstr y) (arr r)) orders -> exists m', cu_exec f_conv orders m = Ok m' /\ gains r (einsum m x y [j0; j1]) m m'.
Proof.
  intros O Dr Dx Dy S orders P. assert (Y : restrided y [nth 0 (vstr y) 0; nth 1 (vstr x) 0] = y).
  { apply same_strides. rewrite <- S. destruct O as (_ & _ & _ & F). inversion F as [|? ? _ F2]; subst. inversion F2 as [|? ? ([L _] & _) _]; subst. rewrite Dy in L. destruct (vstr y) as [|? [|? [|? ?]]]; try discriminate L. reflexivity. }
  pose proof (C196_0_2_refuted r x y m j0 j1) as T. cbv zeta in T. rewrite Y in T. now apply T.
Qed.
Print Assumptions C196_0_2_partial.
(* three indices in the result, two summed: every launch whose sides allow it runs, so the sum is added up to four times; and the last stride of y is ignored *)
Theorem C196_3_2_refuted {R : cring} r x y (m : mem (car R)) n0 n1 n2 j0 j1 : let y' := restrided y [nth 0 (vstr y) 0; nth 1 (vstr y) 0; nth 2 (vstr y) 0; nth 3 (vstr y) 0; nth 4 (vstr x) 0] in
  operands r [x; y'] m -> vdims r = [n0; n1; n2] -> vdims x = [n0; n1; n2; j0; j1] -> vdims y = [n0; n1; n2; j0; j1] ->
  1 <= n0 <= 2147483647 -> 1 <= n1 <= 65535 -> 1 <= n2 <= 65535 -> n2 <= 64 \/ 1024 < n0 * n1 * n2 ->
  forall orders, any_order (re_add_3_2 n0 n1 n2 [j0; j1] (arr x) (vstr x) (arr y) (vstr y) (arr r) (vstr r)) orders -> exists m', cu_exec f_conv orders m = Ok m' /\
    gains r (fun ix => rsum (repeat (einsum m x y' [j0; j1] ix) (if n0 * n1 * n2 <=? 1024 then 4 else if n1 * n2 <=? 1024 then 3 else if n2 <=? 1024 then 2 else 1))) m m'.
Proof.
  intros y' O Dr Dx Dy H0 H1 H2 H3 orders P. rewrite re32_plan in P by assumption. refine (launches r x y' [j0; j1] (re_times n0 n1 n2) m orders O _ _ _); rewrite Dr; assumption.
Qed.
Print Assumptions C196_3_2_refuted.
(* so the result is right when n2>1024 and both strides are equal *)
Theorem C196_3_2_partial {R : cring} r x y (m : mem (car R)) n0 n1 n2 j0 j1 : operands r [x; y] m -> vdims r = [n0; n1; n2] -> vdims x = [n0; n1; n2; j0; j1] -> vdims y = [n0; n1; n2; j0; j1] ->
  1 <= n0 <= 2147483647 -> 1 <= n1 <= 65535 -> 1024 < n2 <= 65535 -> nth 4 (vstr y) 0 = nth 4 (vstr x) 0 ->
  forall orders, any_order (re_add_3_2 n0 n1 n2 [j0; j1] (arr x) (vstr x) (arr y) (vstr y) (arr r) (vstr r)) orders -> exists m', cu_exec f_conv orders m = Ok m' /\ gains r (einsum m x y [j0; j1]) m m'.
Proof.
  intros O Dr Dx Dy H0 H1 H2 S orders P. assert (Y : restrided y [nth 0 (vstr y) 0; nth 1 (vstr y) 0; nth 2 (vstr y) 0; nth 3 (vstr y) 0; nth 4 (vstr x) 0] = y).
  { apply same_strides. rewrite <- S. destruct O as (_ & _ & _ & F). inversion F as [|? ? _ F2]; subst. inversion F2 as [|? ? ([L _] & _) _]; subst. rewrite Dy in L. destruct (vstr y) as [|? [|? [|? [|? [|? [|? ?]]]]]]; try discriminate L. reflexivity. }
  pose proof (C196_3_2_refuted r x y m n0 n1 n2 j0 j1) as T. cbv zeta in T. rewrite Y in T. assert (1 <= n0 * n1) by nia. destruct (T O Dr Dx Dy H0 H1 ltac:(lia) ltac:(right; nia) orders P) as (m' & E & G). exists m'. split; [exact E|].
  eapply gains_ext; [|exact G]. intros ix _. destruct (Z.leb_spec (n0 * n1 * n2) 1024); [nia|]. destruct (Z.leb_spec (n1 * n2) 1024); [nia|]. destruct (Z.leb_spec n2 1024); [lia|]. cbn [repeat]. rewrite rsum_cons, rsum_nil. destruct (cth R). now rewrite Radd_comm, Radd_0_l.
Qed.
Print Assumptions C196_3_2_partial.

(* ---- the hypotheses can be met ---- *)
Lemma rev_orders {A} (plan : list (list A)) : any_order plan (map (@rev A) plan).
Proof. induction plan as [|l p IH]; constructor; [apply Permutation_sym, Permutation_rev|exact IH]. Qed.
(* x=(10,9,8), y=(20,18,16) *)
Example C196_case_0 : operands (View 0 7 [] []) [View 1 0 [3] [1]; View 2 0 [3] [2]] cr_ramp /\
  match cu_exec (@f_conv ZRing) (re_add_0 [3] (1, 0) [1] (2, 0) [2] (0, 7)) cr_ramp with Ok m' => m' 0 7 = Some (-7 + 10 * 20 + 9 * 18 + 8 * 16) | _ => False end.
Proof. split; [cr_op|]. vm_compute. reflexivity. Qed.
(* r(1) at cell 2, x(1,0)=8, x(1,1)=7, y(1,0)=19, y(1,1)=17 *)
Example C196_case_1 : operands (View 0 0 [2] [2]) [View 1 0 [2; 2] [2; 1]; View 2 0 [2; 2] [1; 2]] cr_ramp /\
  match cu_exec (@f_conv ZRing) (map (@rev _) (re_add_1 2 [2] (1, 0) [2; 1] (2, 0) [1; 2] (0, 0) [2])) cr_ramp with Ok m' => m' 0 2 = Some (-2 + 8 * 19 + 7 * 17) /\ m' 0 1 = Some (-1) | _ => False end.
Proof. split; [cr_op|]. vm_compute. split; reflexivity. Qed.
(* r(1,0) at cell 3, x(1,0,0)=6, x(1,0,1)=5, y(1,0,0)=19, y(1,0,1)=15 *)
Example C196_case_2 : operands (View 0 0 [2; 2] [3; 1]) [View 1 0 [2; 2; 2] [4; 2; 1]; View 2 0 [2; 2; 2] [1; 2; 4]] cr_ramp /\
  match cu_exec (@f_conv ZRing) (map (@rev _) (re_add_2 2 2 [2] (1, 0) [4; 2; 1] (2, 0) [1; 2; 4] (0, 0) [3; 1])) cr_ramp with Ok m' => m' 0 3 = Some (-3 + 6 * 19 + 5 * 15) /\ m' 0 2 = Some (-2) | _ => False end.
Proof. split; [cr_op|]. vm_compute. split; reflexivity. Qed.
(* r(1,0,1) at cell 3, x(1,0,1,0)=4, x(1,0,1,1)=3, y(1,0,1,0)=14, y(1,0,1,1)=13 *)
Example C196_case_3_1 : operands (View 0 0 [2; 1; 2] [2; 2; 1]) [View 1 0 [2; 1; 2; 2] [4; 4; 2; 1]; View 2 0 [2; 1; 2; 2] [4; 4; 2; 1]] cr_ramp /\ 2 <= 64 /\
  match cu_exec (@f_conv ZRing) (map (@rev _) (re_add_3_1 2 1 2 [2] (1, 0) [4; 4; 2; 1] (2, 0) [4; 4; 2; 1] (0, 0) [2; 2; 1])) cr_ramp with Ok m' => m' 0 3 = Some (-3 + 4 * 14 + 3 * 13) | _ => False end.
Proof. split; [cr_op|]. split; [lia|]. vm_compute. reflexivity. Qed.
(* 3*1*1, and 1*2*600 elements *)
Example C196_case_3_0 : operands (View 0 0 [3; 1; 1] [2; 1; 1]) [View 1 0 [3; 1; 1] [1; 1; 1]; View 2 0 [3; 1; 1] [3; 1; 1]] cr_ramp /\ 1024 < 1 * 2 * 600 /\
  match cu_exec (@f_conv ZRing) (map (@rev _) (re_add_3_0 3 1 1 (1, 0) [1; 1; 1] (2, 0) [3; 1; 1] (0, 0) [2; 1; 1])) cr_ramp with Ok m' => m' 0 4 = Some (-4 + 8 * 14) | _ => False end /\
  match cu_exec (@f_conv ZRing) (map (@rev _) (re_add_3_0 1 2 600 (1, 0) [1; 600; 1] (2, 0) [1; 600; 1] (0, 0) [1200; 600; 1])) cr_ramp with Ok m' => m' 0 607 = Some (-607 + (10 - 607) * (20 - 607)) | _ => False end.
Proof. split; [cr_op|]. split; [lia|]. split; vm_compute; reflexivity. Qed.
(* 2*2*2 elements: the last one, cell 7, keeps its value; cells 8 and 12, behind r, do not *)
Example C196_case_3_0_refuted : 2 * 2 * 2 <= 1024 /\
  match cu_exec (@f_conv ZRing) (re_add_3_0 2 2 2 (1, 0) [4; 2; 1] (2, 0) [4; 2; 1] (0, 0) [4; 2; 1]) cr_ramp with Ok m' => m' 0 7 = Some (-7) /\ m' 0 8 = Some (-8 + 2 * 12) /\ m' 0 12 = Some (-12 + -2 * 8) | _ => False end.
Proof. split; [lia|]. vm_compute. repeat split; reflexivity. Qed.
Example C196_case_outside : at_ cr_ramp (cell (View 0 2992 [2; 2; 2] [4; 2; 1]) [2; 0; 0]) = None /\ cu_exec (@f_conv ZRing) (re_add_3_0 2 2 2 (1, 0) [4; 2; 1] (2, 0) [4; 2; 1] (0, 2992) [4; 2; 1]) cr_ramp = UB.
Proof. split; vm_compute; reflexivity. Qed.
(* y stored by columns: y is read as (20,19;19,18) in place of (20,18;19,17) *)
Example C196_case_0_2 : operands (View 0 0 [] []) [View 1 0 [2; 2] [2; 1]; restrided (View 2 0 [2; 2] [1; 2]) [1; 1]] cr_ramp /\
  match cu_exec (@f_conv ZRing) (re_add_0_2 [2; 2] (1, 0) [2; 1] (2, 0) [1; 2] (0, 0)) cr_ramp with Ok m' => m' 0 0 = Some (10 * 20 + 9 * 19 + 8 * 19 + 7 * 18) /\ m' 0 0 <> Some (10 * 20 + 9 * 18 + 8 * 19 + 7 * 17) | _ => False end.
Proof. split; [unfold restrided; cbn [vblk voff vdims]; cr_op|]. vm_compute. split; [reflexivity|discriminate]. Qed.
Example C196_case_0_2_same : operands (View 0 0 [] []) [View 1 0 [2; 2] [2; 1]; View 2 0 [2; 2] [3; 1]] cr_ramp /\
  match cu_exec (@f_conv ZRing) (re_add_0_2 [2; 2] (1, 0) [2; 1] (2, 0) [3; 1] (0, 0)) cr_ramp with Ok m' => m' 0 0 = Some (10 * 20 + 9 * 19 + 8 * 17 + 7 * 16) | _ => False end.
Proof. split; [cr_op|]. vm_compute. reflexivity. Qed.
(* one element: x=(10,9;8,7), y=(20,19;18,17), and the sum is added four times *)
Example C196_case_3_2 : operands (View 0 0 [1; 1; 1] [1; 1; 1]) [View 1 0 [1; 1; 1; 2; 2] [4; 4; 4; 2; 1]; restrided (View 2 0 [1; 1; 1; 2; 2] [4; 4; 4; 2; 1]) [4; 4; 4; 2; 1]] cr_ramp /\
  match cu_exec (@f_conv ZRing) (re_add_3_2 1 1 1 [2; 2] (1, 0) [4; 4; 4; 2; 1] (2, 0) [4; 4; 4; 2; 1] (0, 0) [1; 1; 1]) cr_ramp with Ok m' => m' 0 0 = Some (4 * (10 * 20 + 9 * 19 + 8 * 18 + 7 * 17)) | _ => False end.
Proof. split; [unfold restrided; cbn [vblk voff vdims]; cr_op|]. vm_compute. reflexivity. Qed.
Example C196_case_3_2_partial : operands (View 0 0 [1; 1; 1025] [1; 1; 1]) [View 1 0 [1; 1; 1025; 1; 2] [1; 1; 2; 1; 1]; View 2 0 [1; 1; 1025; 1; 2] [1; 1; 1; 1; 1]] cr_ramp /\ 1024 < 1025 <= 65535 /\
  match cu_exec (@f_conv ZRing) (re_add_3_2 1 1 1025 [1; 2] (1, 0) [1; 1; 2; 1; 1] (2, 0) [1; 1; 1; 1; 1] (0, 0) [1; 1; 1]) cr_ramp with Ok m' => m' 0 3 = Some (-3 + 4 * 17 + 3 * 16) | _ => False end.
Proof. split; [cr_op|]. split; [lia|]. vm_compute. reflexivity. Qed.
(* 1*65536 and 1*1*65 elements *)
Example C196_case_limits : re_add_2 1 65536 [2] (1, 0) [1; 1; 1] (2, 0) [1; 1; 1] (0, 0) [1; 1] = [[]] /\ re_add_3_1 1 1 65 [2] (1, 0) [1; 1; 1; 1] (2, 0) [1; 1; 1; 1] (0, 0) [1; 1; 1] = [[]] /\ 64 < 65 /\ 1 * 1 * 65 <= 1024.
Proof. split; [apply C196_2_refuted; lia|]. split; [apply C196_3_1_refuted; lia|lia]. Qed.
(* the orders used above are allowed *)
Example C196_case_orders : any_order (re_add_2 2 2 [2] (1, 0) [4; 2; 1] (2, 0) [1; 2; 4] (0, 0) [3; 1]) (map (@rev _) (re_add_2 2 2 [2] (1, 0) [4; 2; 1] (2, 0) [1; 2; 4] (0, 0) [3; 1])).
Proof. apply rev_orders. Qed.
