(* Prop_CuComplex.v -- C192, C193: products and sums of complex views on a device.  In every theorem the updates of a library call run in any order. *)
From Verif Require Import Base BaseFacts Model_Index Model_View Model_Tensor Model_Ops Model_RView Model_CView Model_Cuda Model_CuConv Model_CuBlas Model_CuComplex
  Spec_Index Spec_View Spec_Tensor Spec_Cuda Proofs_Index Proofs_Tensor Proofs_Tensor3 Proofs_Cuda Spec_RView Proofs_CuBlas Proofs_CuRtensor Proofs_CuColumns Proofs_CuComplex Prop_CuRtensor.
Local Open Scope Z_scope.

(* ---- C192 ---- *)
(* r.add_matmul_AA(x,y), r.add_matmul(x,y), r.add_mprod(x,y) for matrices stored by rows without gaps *)
Theorem C192_AA_partial {R : cring} r x y (m : mem (car (CxRing R))) a n b : operands r [x; y] m -> vdims r = [a; b] -> vstr r = [b; 1] -> vdims x = [a; n] -> vstr x = [n; 1] -> vdims y = [n; b] -> vstr y = [b; 1] -> 1 <= n -> 1 <= b ->
  exists plan, cu_cmatmul_AA r x y = Ok plan /\ forall order, Permutation order plan -> exists m', cu_exec (f_cgemm false false) [order] m = Ok m' /\
    gains r (fun ix => rsum (map (fun k => cmul (elem0 m x [nth 0 ix 0; k]) (elem0 m y [k; nth 1 ix 0])) (zrange n))) m m'.
Proof. exact (cAA_ok r x y m a n b). Qed.
Print Assumptions C192_AA_partial.
(* r.add_matmul_AH(x,y): the second factor is conjugated and transposed *)
Theorem C192_AH_partial {R : cring} r x y (m : mem (car (CxRing R))) a n b : operands r [x; y] m -> vdims r = [a; b] -> vstr r = [b; 1] -> vdims x = [a; n] -> vstr x = [n; 1] -> vdims y = [b; n] -> vstr y = [n; 1] -> 1 <= n -> 1 <= b ->
  exists plan, cu_cmatmul_AH r x y = Ok plan /\ forall order, Permutation order plan -> exists m', cu_exec (f_cgemm true false) [order] m = Ok m' /\
    gains r (fun ix => rsum (map (fun k => cmul (elem0 m x [nth 0 ix 0; k]) (conj (elem0 m y [nth 1 ix 0; k]))) (zrange n))) m m'.
Proof. exact (cAH_ok r x y m a n b). Qed.
Print Assumptions C192_AH_partial.
(* r.add_matmul_HA(x,y): the first factor is conjugated and transposed *)
Theorem C192_HA_partial {R : cring} r x y (m : mem (car (CxRing R))) a n b : operands r [x; y] m -> vdims r = [a; b] -> vstr r = [b; 1] -> vdims x = [n; a] -> vstr x = [a; 1] -> vdims y = [n; b] -> vstr y = [b; 1] -> 1 <= a -> 1 <= b ->
  exists plan, cu_cmatmul_HA r x y = Ok plan /\ forall order, Permutation order plan -> exists m', cu_exec (f_cgemm false true) [order] m = Ok m' /\
    gains r (fun ix => rsum (map (fun k => cmul (conj (elem0 m x [k; nth 0 ix 0])) (elem0 m y [k; nth 1 ix 0])) (zrange n))) m m'.
Proof. exact (cHA_ok r x y m a n b). Qed.
Print Assumptions C192_HA_partial.
(* r.add_mix_1_0(x,y): r(a,b,c) gains the sum over k of x(a,k,c)*y(k,b); there may be gaps between the slices of x *)
Theorem C192_mix_partial {R : cring} r x y (m : mem (car (CxRing R))) a n b c xs : operands r [x; y] m -> vdims r = [a; b; c] -> vstr r = [b * c; c; 1] -> vdims x = [a; n; c] -> vstr x = [xs; c; 1] -> vdims y = [n; b] -> vstr y = [b; 1] -> 1 <= b -> 1 <= c ->
  exists plan, cu_cmix_1_0 r x y = Ok plan /\ forall order, Permutation order plan -> exists m', cu_exec (f_cgemm false false) [order] m = Ok m' /\
    gains r (fun ix => rsum (map (fun k => cmul (elem0 m x [nth 0 ix 0; k; nth 2 ix 0]) (elem0 m y [k; nth 1 ix 0])) (zrange n))) m m'.
Proof. exact (cmix_ok r x y m a n b c xs). Qed.
Print Assumptions C192_mix_partial.
(* targets with another layout, and for AH, HA and mix operands of other sides, are rejected *)
Theorem C192_target_rejects r x y : reg2 r = false -> cu_cmatmul_AA r x y = Throw /\ cu_cmatmul_AH r x y = Throw /\ cu_cmatmul_HA r x y = Throw.
Proof.
  intro H. unfold cu_cmatmul_AA, cu_cmatmul_AH, cu_cmatmul_HA. rewrite H. split; [reflexivity|]. split; repeat match goal with |- assrt ?c _ = _ => destruct c; cbn [assrt]; try reflexivity end.
Qed.
Print Assumptions C192_target_rejects.
Theorem C192_AH_rejects r x y : nd x 0 <> nd r 0 \/ nd y 0 <> nd r 1 \/ nd y 1 <> nd x 1 -> cu_cmatmul_AH r x y = Throw.
Proof.
  intro H. unfold cu_cmatmul_AH. destruct (nd x 0 =? nd r 0) eqn:E1; [|reflexivity]. destruct (nd y 0 =? nd r 1) eqn:E2; [|reflexivity]. destruct (nd y 1 =? nd x 1) eqn:E3; [exfalso; lia|reflexivity].
Qed.
Print Assumptions C192_AH_rejects.
Theorem C192_HA_rejects r x y : nd x 1 <> nd r 0 \/ nd y 1 <> nd r 1 \/ nd y 0 <> nd x 0 -> cu_cmatmul_HA r x y = Throw.
Proof.
  intro H. unfold cu_cmatmul_HA. destruct (nd x 1 =? nd r 0) eqn:E1; [|reflexivity]. destruct (nd y 1 =? nd r 1) eqn:E2; [|reflexivity]. destruct (nd y 0 =? nd x 0) eqn:E3; [exfalso; lia|reflexivity].
Qed.
Print Assumptions C192_HA_rejects.
Theorem C192_mix_rejects r x y : nd y 0 <> nd x 1 \/ nd x 0 <> nd r 0 \/ nd y 1 <> nd r 1 \/ nd x 2 <> nd r 2 \/ reg3 r = false -> cu_cmix_1_0 r x y = Throw.
Proof.
  intro H. unfold cu_cmix_1_0. destruct (nd y 0 =? nd x 1) eqn:E1; [|reflexivity]. destruct (nd x 0 =? nd r 0) eqn:E2; [|reflexivity]. destruct (nd y 1 =? nd r 1) eqn:E3; [|reflexivity]. destruct (nd x 2 =? nd r 2) eqn:E4; [|reflexivity].
  destruct (reg3 r); [exfalso; destruct H as [H|[H|[H|[H|H]]]]; (lia || discriminate)|reflexivity].
Qed.
Print Assumptions C192_mix_rejects.
(* Refuted for other layouts of x and y: they are read as if they were stored by rows without gaps *)
Theorem C192_layout_refuted r bx ox dx sx sx' by_ oy dy sy sy' :
  cu_cmatmul_AA r (View bx ox dx sx) (View by_ oy dy sy) = cu_cmatmul_AA r (View bx ox dx sx') (View by_ oy dy sy') /\
  cu_cmatmul_AH r (View bx ox dx sx) (View by_ oy dy sy) = cu_cmatmul_AH r (View bx ox dx sx') (View by_ oy dy sy') /\
  cu_cmatmul_HA r (View bx ox dx sx) (View by_ oy dy sy) = cu_cmatmul_HA r (View bx ox dx sx') (View by_ oy dy sy').
Proof. repeat split. Qed.
Print Assumptions C192_layout_refuted.
(* Refuted for operands of AA whose sides do not fit: the numbers of rows of x and y do not matter *)
Theorem C192_sides_refuted r bx ox p p' n sx by_ oy q q' b sy :
  cu_cmatmul_AA r (View bx ox [p; n] sx) (View by_ oy [q; b] sy) = cu_cmatmul_AA r (View bx ox [p'; n] sx) (View by_ oy [q'; b] sy).
Proof. reflexivity. Qed.
Print Assumptions C192_sides_refuted.

(* ---- C193 ---- *)
(* r.add(x) for complex matrices stored by rows without gaps, refuted: of the 2*n0*n1 floats only the first n0*n1 are added *)
Theorem C193_matrix_refuted {R : cring} br o_r bx ox n0 n1 (m : mem (car R)) (r := View br o_r [n0; n1; 2] [2 * n1; 2; 1]) (x := View bx ox [n0; n1; 2] [2 * n1; 2; 1]) : 1 <= n0 -> 1 <= n1 -> operands r [x] m ->
  exists plan, cu_cadd2 r x = Ok plan /\ forall orders, any_order plan orders -> exists m', cu_exec (f_axpy c1) orders m = Ok m' /\ untouched m m' r /\
    forall i j c, in_range [i; j; c] [n0; n1; 2] -> elem m' r [i; j; c] = Some (if 2 * n1 * i + (2 * j + c) <? n0 * n1 then cadd (elem0 m r [i; j; c]) (elem0 m x [i; j; c]) else elem0 m r [i; j; c]).
Proof. exact (cadd2_dev br o_r bx ox n0 n1 m). Qed.
Print Assumptions C193_matrix_refuted.
(* operands without elements are accepted and nothing is launched *)
Theorem C193_empty r x : nd x 0 = nd r 0 -> nd x 1 = nd r 1 -> nd x 0 = 0 \/ nd x 1 = 0 -> cu_cadd2 r x = Ok [] /\ cu_cadd3 r x = Ok [].
Proof. intros E0 E1 H. unfold cu_cadd2, cu_cadd3. rewrite <- E0, <- E1, !Z.eqb_refl. cbn [assrt]. replace (nd x 0 * nd x 1 =? 0) with true by (symmetry; apply Z.eqb_eq; nia). now split. Qed.
Print Assumptions C193_empty.
(* r.add(x) for complex 3-tensors, refuted: at most the first n0*n1 of the 2*n0*n1*n2 floats change *)
Theorem C193_tensor_refuted {R : cring} br o_r n0 n1 n2 x (m m' : mem (car R)) plan orders (r := View br o_r [n0; n1; n2; 2] [2 * n2 * n1; 2 * n2; 2; 1]) : 1 <= n0 -> 1 <= n1 ->
  cu_cadd3 r x = Ok plan -> any_order plan orders -> cu_exec (f_axpy c1) orders m = Ok m' ->
  forall i j k c, n0 * n1 <= 2 * n2 * n1 * i + (2 * n2 * j + (2 * k + c)) -> elem m' r [i; j; k; c] = elem m r [i; j; k; c].
Proof.
  intros P0 P1 Ep O E i j k c H. assert (Va : vaddr r [i; j; k; c] = Ok (br, o_r + (2 * n2 * n1 * i + (2 * n2 * j + (2 * k + c))))) by (unfold vaddr, offs, r; cbn [vstr vblk voff]; cbn -[Z.mul Z.add]; do 2 f_equal; lia).
  unfold elem. rewrite Va. apply (cadd3_dev r x m m' plan orders Ep O E); unfold nd; cbn [vdims nth r vblk voff]; [nia|lia].
Qed.
Print Assumptions C193_tensor_refuted.
(* operands of other sides and other layouts are rejected *)
Theorem C193_rejects r x : nd x 0 <> nd r 0 \/ nd x 1 <> nd r 1 -> cu_cadd2 r x = Throw /\ cu_cadd3 r x = Throw.
Proof.
  intro H. unfold cu_cadd2, cu_cadd3. destruct (nd x 0 =? nd r 0) eqn:E1; [|split; reflexivity]. destruct (nd x 1 =? nd r 1) eqn:E2; [exfalso; lia|split; reflexivity].
Qed.
Print Assumptions C193_rejects.
Theorem C193_layout_rejects r x : nd x 0 * nd x 1 <> 0 -> (creg2 r && creg2 x = false -> cu_cadd2 r x = Throw) /\ (creg3 r && creg3 x = false -> cu_cadd3 r x = Throw).
Proof.
  intro H. unfold cu_cadd2, cu_cadd3. replace (nd x 0 * nd x 1 =? 0) with false by lia. split; intros ->; destruct (nd x 0 =? nd r 0); try reflexivity; destruct (nd x 1 =? nd r 1); reflexivity.
Qed.
Print Assumptions C193_layout_rejects.

(* concrete cases *)
Definition cx_ramp : mem (car (CxRing ZRing)) := fun b a => if (0 <=? b) && (b <? 4) && (0 <=? a) && (a <? 100) then Some (10 * b - a, a) else None.
Lemma cx_read b o d s : 0 <= b < 4 -> length s = length d -> (forall ix, in_range ix d -> 0 <= o + dot s ix < 100) -> readable cx_ramp (View b o d s).
Proof.
  intros Hb L H ix I. cbn [vdims] in I. rewrite elem_cell by assumption. unfold at_, cell, cx_ramp. cbn [vblk voff vstr fst snd]. specialize (H ix I).
  replace ((0 <=? b) && (b <? 4) && (0 <=? o + dot s ix) && (o + dot s ix <? 100)) with true by lia. discriminate.
Qed.
Ltac cx_op := split; [split; [reflexivity|unfold nonneg; repeat constructor; lia]|split; [intros ix jx I J E; rewrite !vaddr_cell in E by (reflexivity || assumption); cbn [vdims] in *; rng; unfold cell in E; cbn [vblk voff vstr dot] in E;
    apply (f_equal (fun q => match q with Ok p => snd p | _ => 0 end)) in E; cbn [snd] in E; repeat (f_equal; try lia)|split; [apply cx_read; [lia|reflexivity|intros ix I; rng; cbn [dot]; lia]|
    repeat (apply Forall_cons || apply Forall_nil); (split; [split; [reflexivity|unfold nonneg; repeat constructor; lia]|split; [apply cx_read; [lia|reflexivity|intros ix I; rng; cbn [dot]; lia]|
      intros ix jx I J E; rewrite !vaddr_cell in E by (reflexivity || assumption); discriminate]])]]].
(* r(1,0)=(-3,3), x row 1 = (8,2),(7,3), y column 0 = (20,0),(17,3) *)
Example C192_case_AA : operands (View 0 0 [2; 3] [3; 1]) [View 1 0 [2; 2] [2; 1]; View 2 0 [2; 3] [3; 1]] cx_ramp /\ exists plan, cu_cmatmul_AA (View 0 0 [2; 3] [3; 1]) (View 1 0 [2; 2] [2; 1]) (View 2 0 [2; 3] [3; 1]) = Ok plan /\
  match cu_exec (@f_cgemm ZRing false false) [rev plan] cx_ramp with Ok m' => m' 0 3 = Some (-3 + (8 * 20 - 2 * 0) + (7 * 17 - 3 * 3), 3 + (8 * 0 + 2 * 20) + (7 * 3 + 3 * 17)) /\ m' 0 6 = Some (-6, 6) | _ => False end.
Proof. split; [cx_op|]. eexists. split; [vm_compute; reflexivity|]. vm_compute. split; reflexivity. Qed.
(* r(1,0), y row 0 = (20,0),(19,1), conjugated *)
Example C192_case_AH : operands (View 0 0 [2; 3] [3; 1]) [View 1 0 [2; 2] [2; 1]; View 2 0 [3; 2] [2; 1]] cx_ramp /\ exists plan, cu_cmatmul_AH (View 0 0 [2; 3] [3; 1]) (View 1 0 [2; 2] [2; 1]) (View 2 0 [3; 2] [2; 1]) = Ok plan /\
  match cu_exec (@f_cgemm ZRing true false) [rev plan] cx_ramp with Ok m' => m' 0 3 = Some (-3 + 8 * 20 + (7 * 19 + 3 * 1), 3 + 2 * 20 + (3 * 19 - 7 * 1)) | _ => False end.
Proof. split; [cx_op|]. eexists. split; [vm_compute; reflexivity|]. vm_compute. reflexivity. Qed.
(* r(1,0), x column 1 = (9,1),(7,3) conjugated, y column 0 = (20,0),(17,3) *)
Example C192_case_HA : operands (View 0 0 [2; 3] [3; 1]) [View 1 0 [2; 2] [2; 1]; View 2 0 [2; 3] [3; 1]] cx_ramp /\ exists plan, cu_cmatmul_HA (View 0 0 [2; 3] [3; 1]) (View 1 0 [2; 2] [2; 1]) (View 2 0 [2; 3] [3; 1]) = Ok plan /\
  match cu_exec (@f_cgemm ZRing false true) [rev plan] cx_ramp with Ok m' => m' 0 3 = Some (-3 + 9 * 20 + (7 * 17 + 3 * 3), 3 - 1 * 20 + (7 * 3 - 3 * 17)) | _ => False end.
Proof. split; [cx_op|]. eexists. split; [vm_compute; reflexivity|]. vm_compute. reflexivity. Qed.
(* r(1,1,0) at cell 6, x(1,0,0) at 10, x(1,1,0) at 12, y(0,1), y(1,1) at 1 and 3 *)
Example C192_case_mix : operands (View 0 0 [2; 2; 2] [4; 2; 1]) [View 1 0 [2; 2; 2] [10; 2; 1]; View 2 0 [2; 2] [2; 1]] cx_ramp /\ exists plan, cu_cmix_1_0 (View 0 0 [2; 2; 2] [4; 2; 1]) (View 1 0 [2; 2; 2] [10; 2; 1]) (View 2 0 [2; 2] [2; 1]) = Ok plan /\
  match cu_exec (@f_cgemm ZRing false false) [rev plan] cx_ramp with Ok m' => m' 0 6 = Some (-6 + (0 * 19 - 10 * 1) + (-2 * 17 - 12 * 3), 6 + (0 * 1 + 10 * 19) + (-2 * 3 + 12 * 17)) | _ => False end.
Proof. split; [cx_op|]. eexists. split; [vm_compute; reflexivity|]. vm_compute. reflexivity. Qed.
(* a transposed x: element (0,1) of x is the cell 2, the cell 1 is read *)
Example C192_case_layout : exists plan, cu_cmatmul_AA (View 0 0 [1; 1] [1; 1]) (View 1 0 [1; 2] [1; 2]) (View 2 0 [2; 1] [1; 1]) = Ok plan /\ plan = [((0, 0), [(2, 0); (1, 0); (2, 1); (1, 1)])] /\ cell (View 1 0 [1; 2] [1; 2]) [0; 1] = (1, 2).
Proof. eexists. split; [vm_compute; reflexivity|]. split; reflexivity. Qed.
(* y has one row, two are read *)
Example C192_case_sides : exists plan, cu_cmatmul_AA (View 0 0 [1; 1] [1; 1]) (View 1 0 [1; 2] [2; 1]) (View 2 0 [1; 1] [1; 1]) = Ok plan /\ plan = [((0, 0), [(2, 0); (1, 0); (2, 1); (1, 1)])].
Proof. eexists. split; [vm_compute; reflexivity|]. reflexivity. Qed.
Example C192_case_rejects : reg2 (View 0 0 [2; 3] [1; 2]) = false /\ nd (View 0 0 [2; 3] [3; 1]) 0 <> nd (View 0 0 [3; 3] [3; 1]) 0 /\ reg3 (View 0 0 [2; 2; 2] [8; 2; 1]) = false.
Proof. split; [reflexivity|]. split; [discriminate|reflexivity]. Qed.
Example C193_case : operands (View 0 0 [2; 3; 2] [2 * 3; 2; 1]) [View 1 0 [2; 3; 2] [2 * 3; 2; 1]] cr_ramp /\ exists plan, cu_cadd2 (View 0 0 [2; 3; 2] [2 * 3; 2; 1]) (View 1 0 [2; 3; 2] [2 * 3; 2; 1]) = Ok plan /\
  match cu_exec (@f_axpy ZRing 1) (map (@rev _) plan) cr_ramp with Ok m' => m' 0 5 = Some (-5 + 5) /\ m' 0 6 = Some (-6) | _ => False end.
Proof. split; [cr_op|]. eexists. split; [vm_compute; reflexivity|]. vm_compute. split; reflexivity. Qed.
Example C193_case_tensor : exists plan m', cu_cadd3 (View 0 0 [2; 3; 2; 2] [12; 4; 2; 1]) (View 1 0 [2; 3; 2; 2] [12; 4; 2; 1]) = Ok plan /\ any_order plan plan /\ cu_exec (@f_axpy ZRing 1) plan cr_ramp = Ok m' /\ m' 0 5 = Some (-5 + 5) /\ m' 0 6 = Some (-6).
Proof. eexists. eexists. split; [vm_compute; reflexivity|]. split; [repeat constructor; apply Permutation_refl|]. split; [cbv -[cr_ramp Z.eqb Z.add Z.mul Z.leb Z.ltb]; reflexivity|]. split; vm_compute; reflexivity. Qed.
Example C193_case_layout : nd (View 1 0 [2; 3; 2] [20; 2; 1]) 0 * nd (View 1 0 [2; 3; 2] [20; 2; 1]) 1 <> 0 /\ creg2 (View 1 0 [2; 3; 2] [20; 2; 1]) = false. Proof. split; [discriminate|reflexivity]. Qed.
Example C193_case_empty : nd (View 1 0 [2; 0; 2] [0; 2; 1]) 0 = 2 /\ nd (View 1 0 [2; 0; 2] [0; 2; 1]) 1 = 0. Proof. now split. Qed.
