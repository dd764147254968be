(* Prop_CuConv.v -- C182 and C183: two- and three-dimensional convolution of fixed-rank views on a device. *)
From Verif Require Import Base BaseFacts Model_Index Model_View Model_Tensor Model_Ops Model_RView Model_Einsum Model_Convolve Model_Cuda Model_CuConv Spec_Index Spec_View Spec_Tensor Spec_Convolve Spec_Convolve2D Spec_RConv Spec_Cuda
  Proofs_Index Proofs_Tensor Proofs_Cuda Spec_RView Proofs_CuConv.
Local Open Scope Z_scope.

(* Every layout of the three views and every order of the threads.  The last hypothesis: without padding the filter stays inside the images. *)
Theorem C182_channels_partial {R : cring} r x w (m : mem (car R)) N0 N1 O X0 X1 A C J0 J1 : operands r [x; w] m -> vdims r = [N0; N1; O; C] -> vdims x = [X0; X1; A; C] -> vdims w = [O; J0; J1; A] ->
  N0 <= 2147483647 -> N1 <= 65535 -> O <= 65535 -> C <= 1024 -> (centred N0 X0 J0 = 0 -> centred N1 X1 J1 = 0 -> N0 + J0 - 1 <= X0 /\ N1 + J1 - 1 <= X1) ->
  exists plan, rconv2_4_cu r x w = Ok plan /\ forall order, Permutation order plan -> exists m', cu_exec f_conv [order] m = Ok m' /\
    gains r (fun ix => bank2 X0 X1 J0 J1 A (centred N0 X0 J0) (centred N1 X1 J1) (fun q0 q1 a => elem0 m x [q0; q1; a; nth 3 ix 0]) (fun j0 j1 a => elem0 m w [nth 2 ix 0; j0; j1; a]) (nth 0 ix 0) (nth 1 ix 0)) m m'.
Proof. exact (conv2_4 r x w m N0 N1 O X0 X1 A C J0 J1). Qed.
Print Assumptions C182_channels_partial.
Theorem C182_batches_partial {R : cring} r x w (m : mem (car R)) B N0 N1 O X0 X1 A C J0 J1 : operands r [x; w] m -> vdims r = [B; N0; N1; O; C] -> vdims x = [B; X0; X1; A; C] -> vdims w = [O; J0; J1; A] ->
  B <= 2147483647 -> N0 * N1 <= 65535 -> O <= 65535 -> C <= 1024 -> (centred N0 X0 J0 = 0 -> centred N1 X1 J1 = 0 -> N0 + J0 - 1 <= X0 /\ N1 + J1 - 1 <= X1) ->
  exists plan, rconv2_5_cu r x w = Ok plan /\ forall order, Permutation order plan -> exists m', cu_exec f_conv [order] m = Ok m' /\
    gains r (fun ix => bank2 X0 X1 J0 J1 A (centred N0 X0 J0) (centred N1 X1 J1) (fun q0 q1 a => elem0 m x [nth 0 ix 0; q0; q1; a; nth 4 ix 0]) (fun j0 j1 a => elem0 m w [nth 3 ix 0; j0; j1; a]) (nth 1 ix 0) (nth 2 ix 0)) m m'.
Proof. exact (conv2_5 r x w m B N0 N1 O X0 X1 A C J0 J1). Qed.
Print Assumptions C182_batches_partial.
(* More than 1024 columns, or images of more than 65535 pixels: nothing is added, and no error *)
Theorem C182_large_refuted {R : cring} r x w (m : mem (car R)) N0 N1 O X0 X1 A C J0 J1 : vdims w = [O; J0; J1; A] ->
  (vdims r = [N0; N1; O; C] -> vdims x = [X0; X1; A; C] -> 1024 < C ->
     exists plan, rconv2_4_cu r x w = Ok plan /\ forall order, Permutation order plan -> cu_exec f_conv [order] m = Ok m) /\
  (forall B, vdims r = [B; N0; N1; O; C] -> vdims x = [B; X0; X1; A; C] -> 65535 < N0 * N1 \/ 1024 < C ->
     exists plan, rconv2_5_cu r x w = Ok plan /\ forall order, Permutation order plan -> cu_exec f_conv [order] m = Ok m).
Proof.
  intro Dw. split.
  - intros Dr Dx H. unfold rconv2_4_cu, nd. rewrite Dr, Dx, Dw. cbn [nth]. rewrite !Z.eqb_refl. cbn [assrt]. eexists. split; [reflexivity|]. intros order P. apply (idle _ _ _ _ m P). apply ok_false. intros K. lia.
  - intros B Dr Dx H. unfold rconv2_5_cu, nd. rewrite Dr, Dx, Dw. cbn [nth]. rewrite !Z.eqb_refl. cbn [assrt]. eexists. split; [reflexivity|]. intros order P. apply (idle _ _ _ _ m P). apply ok_false. intros K. lia.
Qed.
Print Assumptions C182_large_refuted.
(* Paddings that come out as zero although the filter sticks out of x by one: a thread reads memory that does not belong to x *)
Definition one_mem : mem (car ZRing) := fun b a => if ((b =? 0) && (a =? 0)) || ((b =? 1) && (a =? 0)) || ((b =? 2) && (0 <=? a) && (a <? 4)) then Some 1 else None.
Theorem C182_outside_refuted : exists r x w (m : mem (car ZRing)) N0 N1 O X0 X1 A C J0 J1 plan, operands r [x; w] m /\ vdims r = [N0; N1; O; C] /\ vdims x = [X0; X1; A; C] /\ vdims w = [O; J0; J1; A] /\
  rconv2_4_cu r x w = Ok plan /\ forall order, Permutation order plan -> cu_exec (@f_conv ZRing) [order] m = UB.
Proof.
  exists (View 0 0 [1; 1; 1; 1] [1; 1; 1; 1]), (View 1 0 [1; 1; 1; 1] [1; 1; 1; 1]), (View 2 0 [1; 2; 2; 1] [4; 2; 1; 1]), one_mem, 1, 1, 1, 1, 1, 1, 1, 2, 2. eexists. split; [|split; [reflexivity|split; [reflexivity|split; [reflexivity|split; [reflexivity|]]]]].
  - split; [split; [reflexivity|unfold nonneg; repeat constructor; lia]|]. split; [|split].
    + intros ix jx I J _. cbn [vdims] in *. rng. repeat (f_equal; try lia).
    + intros ix I. cbn [vdims] in *. rng. assert (i = 0) by lia. assert (i0 = 0) by lia. assert (i1 = 0) by lia. assert (i2 = 0) by lia. subst. discriminate.
    + repeat (apply Forall_cons || apply Forall_nil); (split; [split; [reflexivity|unfold nonneg; repeat constructor; lia]|split]).
      * intros ix I. cbn [vdims] in *. rng. assert (i = 0) by lia. assert (i0 = 0) by lia. assert (i1 = 0) by lia. assert (i2 = 0) by lia. subst. discriminate.
      * intros ix jx I J. cbn [vdims] in *. rng. unfold vaddr. cbn -[Z.mul Z.add]. congruence.
      * intros ix I. cbn [vdims] in *. rng. assert (i = 0) by lia. assert (i2 = 0) by lia. assert (i0 = 0 \/ i0 = 1) as K0 by lia. assert (i1 = 0 \/ i1 = 1) as K1 by lia. subst. destruct K0 as [-> | ->], K1 as [-> | ->]; discriminate.
      * intros ix jx I J. cbn [vdims] in *. rng. unfold vaddr. cbn -[Z.mul Z.add]. congruence.
  - intros order P. apply Permutation_sym in P. match type of P with Permutation ?l _ => let l' := eval vm_compute in l in change l with l' in P end. apply Permutation_length_1_inv in P. subst order. vm_compute. reflexivity.
Qed.
Print Assumptions C182_outside_refuted.
(* concrete case: one 3 by 3 image, two input and two output channels, two columns, filters of 2 by 2, padding by zeros in no axis / in both *)
Example C182_case_limits : centred 2 3 2 = 0 /\ 2 + 2 - 1 <= 3 /\ centred 4 3 2 = 1.
Proof. repeat split; vm_compute; congruence. Qed.
Definition ramp : mem (car ZRing) := fun b a => if (0 <=? a) && (a <? 100) then Some (a + b) else None.
Example C182_case : exists plan m', rconv2_4_cu (View 0 0 [2; 2; 2; 2] [8; 4; 2; 1]) (View 1 0 [3; 3; 2; 2] [12; 4; 2; 1]) (View 2 0 [2; 2; 2; 2] [8; 4; 2; 1]) = Ok plan /\ length plan = 16%nat /\
  cu_exec (@f_conv ZRing) [rev plan] ramp = Ok m' /\ m' 0 0 = Some (0 + (1*2 + 3*3 + 5*4 + 7*5 + 13*6 + 15*7 + 17*8 + 19*9)).
Proof. eexists. eexists. split; [vm_compute; reflexivity|]. split; [reflexivity|]. split; [cbn -[Z.add Z.mul]; reflexivity|]. vm_compute. reflexivity. Qed.
Example C182_case_operands : operands (View 0 0 [2; 2; 2; 2] [8; 4; 2; 1]) [View 1 0 [3; 3; 2; 2] [12; 4; 2; 1]; View 2 0 [2; 2; 2; 2] [8; 4; 2; 1]] ramp.
Proof.
  assert (Rd : forall b d s, Forall (fun n => 0 <= n) s -> length d = length s -> (forall ix, in_range ix d -> 0 <= dot s ix < 100) -> readable ramp (View b 0 d s)).
  { intros b d s N L H ix I. cbn [vdims] in I. rewrite elem_cell by (assumption || now symmetry). unfold at_, cell, ramp. cbn [vblk voff vstr fst snd]. specialize (H ix I). replace ((0 <=? 0 + dot s ix) && (0 + dot s ix <? 100)) with true by lia. discriminate. }
  split; [split; [reflexivity|unfold nonneg; repeat constructor; lia]|]. split; [|split].
  - intros ix jx I J E. rewrite !vaddr_cell in E by (reflexivity || assumption). cbn [vdims] in *. rng. unfold cell in E. cbn [vblk voff vstr dot] in E. apply (f_equal (fun q => match q with Ok p => snd p | _ => 0 end)) in E. cbn [snd] in E. repeat (f_equal; try lia).
  - apply Rd; [repeat constructor; lia|reflexivity|]. intros ix I. rng. cbn [dot]. lia.
  - repeat (apply Forall_cons || apply Forall_nil); (split; [split; [reflexivity|unfold nonneg; repeat constructor; lia]|split]);
      try (apply Rd; [repeat constructor; lia|reflexivity|intros ix I; rng; cbn [dot]; lia]);
      intros ix jx I J; rewrite !vaddr_cell by (reflexivity || assumption); unfold cell; cbn [vblk]; congruence.
Qed.
Theorem C183_plain_partial {R : cring} r x w (m : mem (car R)) N0 N1 N2 O X0 X1 X2 A J0 J1 J2 : operands r [x; w] m -> vdims r = [N0; N1; N2; O] -> vdims x = [X0; X1; X2; A] -> vdims w = [O; J0; J1; J2; A] ->
  N0 <= 2147483647 -> N1 <= 65535 -> N2 <= 65535 -> O <= 1024 -> (centred N0 X0 J0 = 0 -> centred N1 X1 J1 = 0 -> centred N2 X2 J2 = 0 -> N0 + J0 - 1 <= X0 /\ N1 + J1 - 1 <= X1 /\ N2 + J2 - 1 <= X2) ->
  exists plan, rconv3_4_cu r x w = Ok plan /\ forall order, Permutation order plan -> exists m', cu_exec f_conv [order] m = Ok m' /\
    gains r (fun ix => bank3 X0 X1 X2 J0 J1 J2 A (centred N0 X0 J0) (centred N1 X1 J1) (centred N2 X2 J2) (fun q0 q1 q2 a => elem0 m x [q0; q1; q2; a]) (fun j0 j1 j2 a => elem0 m w [nth 3 ix 0; j0; j1; j2; a]) (nth 0 ix 0) (nth 1 ix 0) (nth 2 ix 0)) m m'.
Proof. exact (conv3_4 r x w m N0 N1 N2 O X0 X1 X2 A J0 J1 J2). Qed.
Print Assumptions C183_plain_partial.
Theorem C183_channels_partial {R : cring} r x w (m : mem (car R)) N0 N1 N2 O X0 X1 X2 A C J0 J1 J2 : operands r [x; w] m -> vdims r = [N0; N1; N2; O; C] -> vdims x = [X0; X1; X2; A; C] -> vdims w = [O; J0; J1; J2; A] ->
  N0 <= 2147483647 -> N1 <= 65535 -> N2 <= 65535 -> O * C <= 1024 -> (centred N0 X0 J0 = 0 -> centred N1 X1 J1 = 0 -> centred N2 X2 J2 = 0 -> N0 + J0 - 1 <= X0 /\ N1 + J1 - 1 <= X1 /\ N2 + J2 - 1 <= X2) ->
  exists plan, rconv3_5_cu r x w = Ok plan /\ forall order, Permutation order plan -> exists m', cu_exec f_conv [order] m = Ok m' /\
    gains r (fun ix => bank3 X0 X1 X2 J0 J1 J2 A (centred N0 X0 J0) (centred N1 X1 J1) (centred N2 X2 J2) (fun q0 q1 q2 a => elem0 m x [q0; q1; q2; a; nth 4 ix 0]) (fun j0 j1 j2 a => elem0 m w [nth 3 ix 0; j0; j1; j2; a]) (nth 0 ix 0) (nth 1 ix 0) (nth 2 ix 0)) m m'.
Proof. exact (conv3_5 r x w m N0 N1 N2 O X0 X1 X2 A C J0 J1 J2). Qed.
Print Assumptions C183_channels_partial.
Theorem C183_batches_partial {R : cring} r x w (m : mem (car R)) B N0 N1 N2 O X0 X1 X2 A C J0 J1 J2 : operands r [x; w] m -> vdims r = [B; N0; N1; N2; O; C] -> vdims x = [B; X0; X1; X2; A; C] -> vdims w = [O; J0; J1; J2; A] ->
  B * N0 <= 2147483647 -> N1 <= 65535 -> N2 <= 65535 -> O * C <= 1024 -> (centred N0 X0 J0 = 0 -> centred N1 X1 J1 = 0 -> centred N2 X2 J2 = 0 -> N0 + J0 - 1 <= X0 /\ N1 + J1 - 1 <= X1 /\ N2 + J2 - 1 <= X2) ->
  exists plan, rconv3_6_cu r x w = Ok plan /\ forall order, Permutation order plan -> exists m', cu_exec f_conv [order] m = Ok m' /\
    gains r (fun ix => bank3 X0 X1 X2 J0 J1 J2 A (centred N0 X0 J0) (centred N1 X1 J1) (centred N2 X2 J2) (fun q0 q1 q2 a => elem0 m x [nth 0 ix 0; q0; q1; q2; a; nth 5 ix 0]) (fun j0 j1 j2 a => elem0 m w [nth 4 ix 0; j0; j1; j2; a]) (nth 1 ix 0) (nth 2 ix 0) (nth 3 ix 0)) m m'.
Proof. exact (conv3_6 r x w m B N0 N1 N2 O X0 X1 X2 A C J0 J1 J2). Qed.
Print Assumptions C183_batches_partial.
(* More than 1024 output channels (times columns): nothing is added *)
Theorem C183_large_refuted {R : cring} r x w (m : mem (car R)) N0 N1 N2 O X0 X1 X2 A C J0 J1 J2 : vdims w = [O; J0; J1; J2; A] ->
  (vdims r = [N0; N1; N2; O] -> vdims x = [X0; X1; X2; A] -> 1024 < O ->
     exists plan, rconv3_4_cu r x w = Ok plan /\ forall order, Permutation order plan -> cu_exec f_conv [order] m = Ok m) /\
  (vdims r = [N0; N1; N2; O; C] -> vdims x = [X0; X1; X2; A; C] -> 1024 < O * C ->
     exists plan, rconv3_5_cu r x w = Ok plan /\ forall order, Permutation order plan -> cu_exec f_conv [order] m = Ok m) /\
  (forall B, vdims r = [B; N0; N1; N2; O; C] -> vdims x = [B; X0; X1; X2; A; C] -> 1024 < O * C ->
     exists plan, rconv3_6_cu r x w = Ok plan /\ forall order, Permutation order plan -> cu_exec f_conv [order] m = Ok m).
Proof.
  intro Dw. split; [|split].
  - intros Dr Dx H. unfold rconv3_4_cu, nd. rewrite Dr, Dx, Dw. cbn [nth]. rewrite !Z.eqb_refl. cbn [assrt]. eexists. split; [reflexivity|]. intros order P. apply (idle _ _ _ _ m P). apply ok_false. intros K. lia.
  - intros Dr Dx H. unfold rconv3_5_cu, nd. rewrite Dr, Dx, Dw. cbn [nth]. rewrite !Z.eqb_refl. cbn [assrt]. replace (O * C <=? 1024) with false by lia. eexists. split; [reflexivity|]. intros order P. apply Permutation_sym, Permutation_nil in P. now subst.
  - intros B Dr Dx H. unfold rconv3_6_cu, nd. rewrite Dr, Dx, Dw. cbn [nth]. rewrite !Z.eqb_refl. cbn [assrt]. replace (O * C <=? 1024) with false by lia. eexists. split; [reflexivity|]. intros order P. apply Permutation_sym, Permutation_nil in P. now subst.
Qed.
Print Assumptions C183_large_refuted.
(* concrete case: a 2 by 2 by 2 volume, filters of 2 by 2 by 2, result padded to 3 by 3 by 3 *)
Example C183_case : centred 3 2 2 = 1 /\ exists plan m', rconv3_5_cu (View 0 0 [3; 3; 3; 1; 1] [9; 3; 1; 1; 1]) (View 1 0 [2; 2; 2; 1; 1] [4; 2; 1; 1; 1]) (View 2 0 [1; 2; 2; 2; 1] [8; 4; 2; 1; 1]) = Ok plan /\ length plan = 27%nat /\
  cu_exec (@f_conv ZRing) [rev plan] ramp = Ok m' /\ m' 0 0 = Some (0 + 1 * 9) /\ m' 0 26 = Some (26 + 8 * 2).
Proof. split; [reflexivity|]. eexists. eexists. split; [vm_compute; reflexivity|]. split; [reflexivity|]. split; [cbn -[Z.add Z.mul]; reflexivity|]. split; vm_compute; reflexivity. Qed.
