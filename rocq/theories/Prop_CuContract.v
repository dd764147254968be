(* Prop_CuContract.v -- C195: contractions and outer products of complex tensors on a device, for operands of any layout.  The threads of a launch run in any order. *)
From Verif Require Import Base BaseFacts Model_Index Model_View Model_Tensor Model_Ops Model_RView Model_CView Model_Cuda Model_CuConv Model_CuBlas Model_CuComplex Model_CuContract
  Spec_Index Spec_View Spec_Tensor Spec_Cuda Proofs_Index Proofs_Tensor Proofs_Tensor3 Proofs_Cuda Spec_RView Proofs_CuBlas Proofs_CuRtensor Proofs_CuColumns Proofs_CuComplex Proofs_CuContract Prop_CuRtensor Prop_CuComplex.
Local Open Scope Z_scope.

(* x.add_contract_aib_aib_ab_to(r,y) *)
Theorem C195_contract_partial {R : cring} x r y (m : mem (car (CxRing R))) a n b : operands r [x; y] m -> vdims r = [a; b] -> vdims x = [a; n; b] -> vdims y = [a; n; b] -> 1 <= a <= 2147483647 -> 1 <= b <= 1024 ->
  exists plan, cu_contract x r y = Ok plan /\ forall order, Permutation order plan -> exists m', cu_exec (f_cgemm false false) [order] m = Ok m' /\
    gains r (fun ix => rsum (map (fun i => cmul (elem0 m x [nth 0 ix 0; i; nth 1 ix 0]) (elem0 m y [nth 0 ix 0; i; nth 1 ix 0])) (zrange n))) m m'.
Proof. exact (contract_dev x r y m a n b). Qed.
Print Assumptions C195_contract_partial.
(* x.add_contract_abic_bic_abc_to(r,y) *)
Theorem C195_contract4_partial {R : cring} x r y (m : mem (car (CxRing R))) e a n b : operands r [x; y] m -> vdims r = [e; a; b] -> vdims x = [e; a; n; b] -> vdims y = [a; n; b] -> 1 <= a <= 2147483647 -> 1 <= b <= 1024 ->
  exists plan, cu_contract4 x r y = Ok plan /\ forall orders, any_order plan orders -> exists m', cu_exec (f_cgemm false false) orders m = Ok m' /\
    gains r (fun ix => rsum (map (fun i => cmul (elem0 m x [nth 0 ix 0; nth 1 ix 0; i; nth 2 ix 0]) (elem0 m y [nth 1 ix 0; i; nth 2 ix 0])) (zrange n))) m m'.
Proof. exact (contract4_dev x r y m e a n b). Qed.
Print Assumptions C195_contract4_partial.
(* r.add_expand_2(x,y) *)
Theorem C195_expand_partial {R : cring} r x y (m : mem (car (CxRing R))) a b d c : operands r [x; y] m -> vdims r = [a; b; d; c] -> vdims x = [a; b; c] -> vdims y = [b; d; c] ->
  1 <= a <= 2147483647 -> 1 <= b <= 65535 -> 1 <= d <= 65535 -> 1 <= c <= 1024 -> c <= 64 \/ 1024 < b * d * c ->
  exists plan, cu_expand_2 r x y = Ok plan /\ forall order, Permutation order plan -> exists m', cu_exec (f_cgemm false false) [order] m = Ok m' /\
    gains r (fun ix => cmul (elem0 m x [nth 0 ix 0; nth 1 ix 0; nth 3 ix 0]) (elem0 m y [nth 1 ix 0; nth 2 ix 0; nth 3 ix 0])) m m'.
Proof. exact (expand_dev r x y m a b d c). Qed.
Print Assumptions C195_expand_partial.
(* sides that do not fit are rejected *)
Theorem C195_contract_rejects x r y : nd r 0 <> nd x 0 \/ nd r 1 <> nd x 2 \/ nd y 0 <> nd x 0 \/ nd y 1 <> nd x 1 \/ nd y 2 <> nd x 2 -> cu_contract x r y = Throw.
Proof.
  intro H. unfold cu_contract. destruct (nd r 0 =? nd x 0) eqn:E1; [|reflexivity]. destruct (nd r 1 =? nd x 2) eqn:E2; [|reflexivity]. destruct (nd y 0 =? nd x 0) eqn:E3; [|reflexivity].
  destruct (nd y 1 =? nd x 1) eqn:E4; [|reflexivity]. destruct (nd y 2 =? nd x 2) eqn:E5; [exfalso; lia|reflexivity].
Qed.
Print Assumptions C195_contract_rejects.
Theorem C195_expand_rejects r x y : nd x 0 <> nd r 0 \/ nd x 1 <> nd r 1 \/ nd x 2 <> nd r 3 \/ nd y 0 <> nd r 1 \/ nd y 1 <> nd r 2 \/ nd y 2 <> nd r 3 -> cu_expand_2 r x y = Throw.
Proof.
  intro H. unfold cu_expand_2. destruct (nd x 0 =? nd r 0) eqn:E1; [|reflexivity]. destruct (nd x 1 =? nd r 1) eqn:E2; [|reflexivity]. destruct (nd x 2 =? nd r 3) eqn:E3; [|reflexivity].
  destruct (nd y 0 =? nd x 1) eqn:E4; [|reflexivity]. destruct (nd y 1 =? nd r 2) eqn:E5; [|reflexivity]. destruct (nd y 2 =? nd x 2) eqn:E6; [exfalso; lia|reflexivity].
Qed.
Print Assumptions C195_expand_rejects.
Theorem C195_contract4_rejects x r y : nd x 0 <> nd r 0 -> cu_contract4 x r y = Throw.
Proof. intro H. unfold cu_contract4. destruct (Z.eqb_spec (nd x 0) (nd r 0)); [contradiction|reflexivity]. Qed.
Print Assumptions C195_contract4_rejects.
(* Refuted for last sides above 1024: a message is printed, or the launch fails, and nothing is computed; no error is reported to the caller *)
Theorem C195_contract_refuted x r y a n b : vdims r = [a; b] -> vdims x = [a; n; b] -> vdims y = [a; n; b] -> 1 <= a -> 1024 < b -> cu_contract x r y = Ok [].
Proof.
  intros Dr Dx Dy Ha Hb. unfold cu_contract, nd. rewrite Dr, Dx, Dy. cbn [nth]. rewrite !Z.eqb_refl. cbn [assrt]. unfold cu_cproduct_2_1. destruct (Z.leb_spec (a * b) 1024); [nia|]. destruct (Z.leb_spec b 1024); [lia|reflexivity].
Qed.
Print Assumptions C195_contract_refuted.
(* Refuted for r.add_expand_2(x,y) outside the sides of C195_expand_partial, for example for 65 to 1024 channels when b*d*c<=1024: a block cannot be deeper than 64 threads *)
Theorem C195_expand_refuted r x y a b d c : vdims r = [a; b; d; c] -> vdims x = [a; b; c] -> vdims y = [b; d; c] -> 1 <= a -> 1 <= b -> 1 <= d -> 1 <= c ->
  65535 < b \/ 65535 < d \/ 1024 < c \/ (64 < c /\ b * d * c <= 1024) -> cu_expand_2 r x y = Ok [].
Proof.
  intros Dr Dx Dy Ha Hb Hd Hc H. unfold cu_expand_2, nd. rewrite Dr, Dx, Dy. cbn [nth]. rewrite !Z.eqb_refl. cbn [assrt]. f_equal. unfold cu_cproduct_4. assert (1 <= b * d) by nia. assert (1 <= d * c) by nia.
  assert (N : forall g t co n x xs y ys r rs, cu_ok g t = false -> cc_launch g t co n x xs y ys r rs = []) by (intros; unfold cc_launch; now rewrite H2).
  destruct (Z.leb_spec (b * d * c) 1024) as [L|L].
  - apply N. unfold cu_ok. assert (64 < c) by nia. lia.
  - destruct (Z.leb_spec (d * c) 1024) as [L'|L'].
    + apply N. unfold cu_ok. assert (65535 < b) by nia. lia.
    + destruct (Z.leb_spec c 1024); [|reflexivity]. apply N. unfold cu_ok. lia.
Qed.
Print Assumptions C195_expand_refuted.

(* ---- the hypotheses can be met ---- *)
(* r(1,1) at cell 5, x(1,0,1)=(5,5), x(1,1,1)=(3,7) of a transposed layout, y(1,0,1)=(15,5), y(1,1,1)=(13,7) *)
Example C195_case_contract : operands (View 0 0 [2; 2] [4; 1]) [View 1 0 [2; 2; 2] [1; 2; 4]; View 2 0 [2; 2; 2] [4; 2; 1]] cx_ramp /\ exists plan, cu_contract (View 1 0 [2; 2; 2] [1; 2; 4]) (View 0 0 [2; 2] [4; 1]) (View 2 0 [2; 2; 2] [4; 2; 1]) = Ok plan /\
  match cu_exec (@f_cgemm ZRing false false) [rev plan] cx_ramp with Ok m' => m' 0 5 = Some (-5 + (5 * 15 - 5 * 5) + (3 * 13 - 7 * 7), 5 + (5 * 5 + 5 * 15) + (3 * 7 + 7 * 13)) /\ m' 0 2 = Some (-2, 2) | _ => False end.
Proof. split; [cx_op|]. eexists. split; [vm_compute; reflexivity|]. vm_compute. split; reflexivity. Qed.
(* r(1,0,1) at cell 3, x(1,0,0,1)=(5,5), x(1,0,1,1)=(3,7), y(0,0,1)=(19,1), y(0,1,1)=(17,3) *)
Example C195_case_contract4 : operands (View 0 0 [2; 1; 2] [2; 2; 1]) [View 1 0 [2; 1; 2; 2] [4; 4; 2; 1]; View 2 0 [1; 2; 2] [4; 2; 1]] cx_ramp /\ exists plan, cu_contract4 (View 1 0 [2; 1; 2; 2] [4; 4; 2; 1]) (View 0 0 [2; 1; 2] [2; 2; 1]) (View 2 0 [1; 2; 2] [4; 2; 1]) = Ok plan /\
  any_order plan (map (@rev _) plan) /\ match cu_exec (@f_cgemm ZRing false false) (map (@rev _) plan) cx_ramp with Ok m' => m' 0 3 = Some (-3 + (5 * 19 - 5 * 1) + (3 * 17 - 7 * 3), 3 + (5 * 1 + 5 * 19) + (3 * 3 + 7 * 17)) | _ => False end.
Proof. split; [cx_op|]. eexists. split; [vm_compute; reflexivity|]. split; [repeat constructor; apply Permutation_sym, Permutation_rev|]. vm_compute. reflexivity. Qed.
(* r(1,0,1,1) at cell 7, x(1,0,1)=(7,3), y(0,1,1)=(17,3) *)
Example C195_case_expand : operands (View 0 0 [2; 1; 2; 2] [4; 4; 2; 1]) [View 1 0 [2; 1; 2] [2; 2; 1]; View 2 0 [1; 2; 2] [4; 2; 1]] cx_ramp /\ exists plan, cu_expand_2 (View 0 0 [2; 1; 2; 2] [4; 4; 2; 1]) (View 1 0 [2; 1; 2] [2; 2; 1]) (View 2 0 [1; 2; 2] [4; 2; 1]) = Ok plan /\
  match cu_exec (@f_cgemm ZRing false false) [rev plan] cx_ramp with Ok m' => m' 0 7 = Some (-7 + (7 * 17 - 3 * 3), 7 + (7 * 3 + 3 * 17)) | _ => False end.
Proof. split; [cx_op|]. eexists. split; [vm_compute; reflexivity|]. vm_compute. reflexivity. Qed.
Example C195_case_rejects : nd (View 0 0 [2; 3] [3; 1]) 0 <> nd (View 0 0 [3; 3; 1] [3; 1; 1]) 0 /\ nd (View 0 0 [2; 1; 2; 2] [4; 4; 2; 1]) 0 <> nd (View 0 0 [3; 3; 1] [3; 1; 1]) 0. Proof. split; discriminate. Qed.
(* 65 channels: 1*1*65 threads in a block, all of them along its third axis *)
Example C195_case_refuted : 64 < 65 /\ 1 * 1 * 65 <= 1024 /\ vdims (View 0 0 [2; 1; 1; 65] [65; 65; 65; 1]) = [2; 1; 1; 65] /\ cu_expand_2 (View 0 0 [2; 1; 1; 65] [65; 65; 65; 1]) (View 1 0 [2; 1; 65] [65; 65; 1]) (View 2 0 [1; 1; 65] [65; 65; 1]) = Ok [].
Proof. repeat split; try lia. Qed.
