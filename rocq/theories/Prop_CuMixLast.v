(* Prop_CuMixLast.v -- C194: products of complex tensors with a matrix along the last axis, on a device.  The updates of the library call run in any order. *)
From Verif Require Import Base BaseFacts Model_Index Model_View Model_Tensor Model_Ops Model_RView Model_CView Model_Cuda Model_CuConv Model_CuBlas Model_CuComplex Model_CuMixLast
  Spec_Index Spec_View Spec_Tensor Spec_Cuda Proofs_Index Proofs_Tensor Proofs_Tensor3 Proofs_Cuda Spec_RView Proofs_CuBlas Proofs_CuRtensor Proofs_CuColumns Proofs_CuComplex Proofs_CuMixLast Prop_CuRtensor Prop_CuComplex.
Local Open Scope Z_scope.

(* r.add_mix_2_0(x,y), r.add_mix_2_H(x,y) for tensors and matrices stored without gaps *)
Theorem C194_mix_2_0_partial {R : cring} r x y (m : mem (car (CxRing R))) a b n c : operands r [x; y] m -> vdims r = [a; b; c] -> vstr r = [b * c; c; 1] -> vdims x = [a; b; n] -> vstr x = [b * n; n; 1] -> vdims y = [n; c] -> vstr y = [c; 1] -> 1 <= n -> 1 <= c ->
  exists plan, cu_cmix_2_0 r x y = Ok plan /\ forall order, Permutation order plan -> exists m', cu_exec (f_cgemm false false) [order] m = Ok m' /\
    gains r (fun ix => rsum (map (fun k => cmul (elem0 m x [nth 0 ix 0; nth 1 ix 0; k]) (elem0 m y [k; nth 2 ix 0])) (zrange n))) m m'.
Proof. intros O Dr Tr Dx Tx Dy Ty Hn Hc. exact (proj1 (cmix2_dev r x y m a b n c O Dr Tr Dx Tx Hn Hc) Dy Ty). Qed.
Print Assumptions C194_mix_2_0_partial.
Theorem C194_mix_2_H_partial {R : cring} r x y (m : mem (car (CxRing R))) a b n c : operands r [x; y] m -> vdims r = [a; b; c] -> vstr r = [b * c; c; 1] -> vdims x = [a; b; n] -> vstr x = [b * n; n; 1] -> vdims y = [c; n] -> vstr y = [n; 1] -> 1 <= n -> 1 <= c ->
  exists plan, cu_cmix_2_H r x y = Ok plan /\ forall order, Permutation order plan -> exists m', cu_exec (f_cgemm true false) [order] m = Ok m' /\
    gains r (fun ix => rsum (map (fun k => cmul (elem0 m x [nth 0 ix 0; nth 1 ix 0; k]) (conj (elem0 m y [nth 2 ix 0; k]))) (zrange n))) m m'.
Proof. intros O Dr Tr Dx Tx Dy Ty Hn Hc. exact (proj2 (cmix2_dev r x y m a b n c O Dr Tr Dx Tx Hn Hc) Dy Ty). Qed.
Print Assumptions C194_mix_2_H_partial.
(* r.add_mix_3_0(x,y), r.add_mix_3_H(x,y) for tensors of rank 4 *)
Theorem C194_mix_3_0_partial {R : cring} r x y (m : mem (car (CxRing R))) a b d n c : operands r [x; y] m -> vdims r = [a; b; d; c] -> vstr r = [b * (d * c); d * c; c; 1] -> vdims x = [a; b; d; n] -> vstr x = [b * (d * n); d * n; n; 1] -> vdims y = [n; c] -> vstr y = [c; 1] -> 1 <= n -> 1 <= c ->
  exists plan, cu_cmix_3_0 r x y = Ok plan /\ forall order, Permutation order plan -> exists m', cu_exec (f_cgemm false false) [order] m = Ok m' /\
    gains r (fun ix => rsum (map (fun k => cmul (elem0 m x [nth 0 ix 0; nth 1 ix 0; nth 2 ix 0; k]) (elem0 m y [k; nth 3 ix 0])) (zrange n))) m m'.
Proof. intros O Dr Tr Dx Tx Dy Ty Hn Hc. exact (proj1 (cmix3_dev r x y m a b d n c O Dr Tr Dx Tx Hn Hc) Dy Ty). Qed.
Print Assumptions C194_mix_3_0_partial.
Theorem C194_mix_3_H_partial {R : cring} r x y (m : mem (car (CxRing R))) a b d n c : operands r [x; y] m -> vdims r = [a; b; d; c] -> vstr r = [b * (d * c); d * c; c; 1] -> vdims x = [a; b; d; n] -> vstr x = [b * (d * n); d * n; n; 1] -> vdims y = [c; n] -> vstr y = [n; 1] -> 1 <= n -> 1 <= c ->
  exists plan, cu_cmix_3_H r x y = Ok plan /\ forall order, Permutation order plan -> exists m', cu_exec (f_cgemm true false) [order] m = Ok m' /\
    gains r (fun ix => rsum (map (fun k => cmul (elem0 m x [nth 0 ix 0; nth 1 ix 0; nth 2 ix 0; k]) (conj (elem0 m y [nth 3 ix 0; k]))) (zrange n))) m m'.
Proof. intros O Dr Tr Dx Tx Dy Ty Hn Hc. exact (proj2 (cmix3_dev r x y m a b d n c O Dr Tr Dx Tx Hn Hc) Dy Ty). Qed.
Print Assumptions C194_mix_3_H_partial.
(* a target whose innermost slices have gaps or another order is rejected *)
Theorem C194_target_rejects r x y : sd r 1 <> nd r 2 \/ sd r 2 <> 1 -> cu_cmix_2_0 r x y = Throw /\ cu_cmix_2_H r x y = Throw.
Proof.
  intro H. destruct (C192_target_rejects (cm3_fuse01 r) (cm3_fuse01 x) y) as (A & B & _); [|split; assumption].
  unfold reg2, cm3_fuse01. cbn [nd sd vdims vstr nth]. unfold nd, sd in *. cbn [vdims vstr nth]. destruct H; lia.
Qed.
Print Assumptions C194_target_rejects.
Theorem C194_target4_rejects r x y : sd r 2 <> nd r 3 \/ sd r 3 <> 1 -> cu_cmix_3_0 r x y = Throw /\ cu_cmix_3_H r x y = Throw.
Proof. intro H. exact (C194_target_rejects (cm4_fuse01 r) (cm4_fuse01 x) y H). Qed.
Print Assumptions C194_target4_rejects.
(* sides that do not fit are rejected by mix_2_H *)
Theorem C194_sides_rejects r x y : nd x 0 * nd x 1 <> nd r 0 * nd r 1 \/ nd y 0 <> nd r 2 \/ nd y 1 <> nd x 2 -> cu_cmix_2_H r x y = Throw.
Proof. intro H. exact (C192_AH_rejects (cm3_fuse01 r) (cm3_fuse01 x) y H). Qed.
Print Assumptions C194_sides_rejects.
(* Refuted for gaps between the slices: the strides of the first axis do not matter, the slices are taken to follow each other *)
Theorem C194_gap_refuted br o_r a b c s s' t u bx ox dx n sx sx' tx ux y :
  cu_cmix_2_0 (View br o_r [a; b; c] [s; t; u]) (View bx ox [a; dx; n] [sx; tx; ux]) y = cu_cmix_2_0 (View br o_r [a; b; c] [s'; t; u]) (View bx ox [a; dx; n] [sx'; tx; ux]) y /\
  cu_cmix_2_H (View br o_r [a; b; c] [s; t; u]) (View bx ox [a; dx; n] [sx; tx; ux]) y = cu_cmix_2_H (View br o_r [a; b; c] [s'; t; u]) (View bx ox [a; dx; n] [sx'; tx; ux]) y.
Proof. split; reflexivity. Qed.
Print Assumptions C194_gap_refuted.
(* so with gaps between the slices of the target memory outside it changes *)
Theorem C194_outside_refuted : exists (r x y : view) (m m' : mem (car (CxRing ZRing))) plan, vdims r = [2; 1; 1] /\ vdims x = [2; 1; 1] /\ vdims y = [1; 1] /\ operands r [x; y] m /\
  cu_cmix_2_0 r x y = Ok plan /\ cu_exec (f_cgemm false false) [plan] m = Ok m' /\ ~ untouched m m' r.
Proof.
  exists (View 0 0 [2; 1; 1] [5; 1; 1]), (View 1 0 [2; 1; 1] [1; 1; 1]), (View 2 0 [1; 1] [1; 1]), cx_ramp. eexists. eexists. do 3 (split; [reflexivity|]). split; [cx_op|]. split; [vm_compute; reflexivity|].
  split; [cbv -[cx_ramp Z.eqb Z.add Z.mul Z.leb Z.ltb Z.sub Z.opp]; reflexivity|]. intro U. specialize (U 0 1). 
  assert (H : forall ix, in_range ix [2; 1; 1] -> vaddr (View 0 0 [2; 1; 1] [5; 1; 1]) ix <> Ok (0, 1)).
  { intros ix I E. rewrite vaddr_cell in E by (reflexivity || assumption). rng. unfold cell in E. cbn [vblk voff vstr dot] in E. apply (f_equal (fun q => match q with Ok p => snd p | _ => 0 end)) in E. cbn [snd] in E. lia. }
  specialize (U H). vm_compute in U. discriminate U.
Qed.
Print Assumptions C194_outside_refuted.

(* ---- the hypotheses can be met ---- *)
(* r(1,0,1) at cell 5, x row (1,0) = (6,4),(5,5), y column 1 = (19,1),(17,3) *)
Example C194_case_2_0 : operands (View 0 0 [2; 2; 2] [4; 2; 1]) [View 1 0 [2; 2; 2] [4; 2; 1]; View 2 0 [2; 2] [2; 1]] cx_ramp /\ exists plan, cu_cmix_2_0 (View 0 0 [2; 2; 2] [4; 2; 1]) (View 1 0 [2; 2; 2] [4; 2; 1]) (View 2 0 [2; 2] [2; 1]) = Ok plan /\
  match cu_exec (@f_cgemm ZRing false false) [rev plan] cx_ramp with Ok m' => m' 0 5 = Some (-5 + (6 * 19 - 4 * 1) + (5 * 17 - 5 * 3), 5 + (6 * 1 + 4 * 19) + (5 * 3 + 5 * 17)) | _ => False end.
Proof. split; [cx_op|]. eexists. split; [vm_compute; reflexivity|]. vm_compute. reflexivity. Qed.
(* y row 1 = (18,2),(17,3), conjugated *)
Example C194_case_2_H : operands (View 0 0 [2; 2; 2] [4; 2; 1]) [View 1 0 [2; 2; 2] [4; 2; 1]; View 2 0 [2; 2] [2; 1]] cx_ramp /\ exists plan, cu_cmix_2_H (View 0 0 [2; 2; 2] [4; 2; 1]) (View 1 0 [2; 2; 2] [4; 2; 1]) (View 2 0 [2; 2] [2; 1]) = Ok plan /\
  match cu_exec (@f_cgemm ZRing true false) [rev plan] cx_ramp with Ok m' => m' 0 5 = Some (-5 + (6 * 18 + 4 * 2) + (5 * 17 + 5 * 3), 5 + (4 * 18 - 6 * 2) + (5 * 17 - 5 * 3)) | _ => False end.
Proof. split; [cx_op|]. eexists. split; [vm_compute; reflexivity|]. vm_compute. reflexivity. Qed.
(* r(0,1,0,1) at cell 5 *)
Example C194_case_3 : operands (View 0 0 [1; 2; 2; 2] [8; 4; 2; 1]) [View 1 0 [1; 2; 2; 2] [8; 4; 2; 1]; View 2 0 [2; 2] [2; 1]] cx_ramp /\ exists p0 pH, cu_cmix_3_0 (View 0 0 [1; 2; 2; 2] [8; 4; 2; 1]) (View 1 0 [1; 2; 2; 2] [8; 4; 2; 1]) (View 2 0 [2; 2] [2; 1]) = Ok p0 /\
  cu_cmix_3_H (View 0 0 [1; 2; 2; 2] [8; 4; 2; 1]) (View 1 0 [1; 2; 2; 2] [8; 4; 2; 1]) (View 2 0 [2; 2] [2; 1]) = Ok pH /\
  match cu_exec (@f_cgemm ZRing false false) [rev p0] cx_ramp with Ok m' => m' 0 5 = Some (-5 + (6 * 19 - 4 * 1) + (5 * 17 - 5 * 3), 5 + (6 * 1 + 4 * 19) + (5 * 3 + 5 * 17)) | _ => False end /\
  match cu_exec (@f_cgemm ZRing true false) [rev pH] cx_ramp with Ok m' => m' 0 5 = Some (-5 + (6 * 18 + 4 * 2) + (5 * 17 + 5 * 3), 5 + (4 * 18 - 6 * 2) + (5 * 17 - 5 * 3)) | _ => False end.
Proof. split; [cx_op|]. eexists. eexists. split; [vm_compute; reflexivity|]. split; [vm_compute; reflexivity|]. split; vm_compute; reflexivity. Qed.
Example C194_case_rejects : sd (View 0 0 [2; 2; 2] [8; 3; 1]) 1 <> nd (View 0 0 [2; 2; 2] [8; 3; 1]) 2 /\ sd (View 0 0 [1; 2; 2; 2] [1; 2; 4; 8]) 3 <> 1 /\
  nd (View 1 0 [3; 2; 2] [4; 2; 1]) 0 * nd (View 1 0 [3; 2; 2] [4; 2; 1]) 1 <> nd (View 0 0 [2; 2; 2] [4; 2; 1]) 0 * nd (View 0 0 [2; 2; 2] [4; 2; 1]) 1.
Proof. repeat split; discriminate. Qed.
