(* Prop_RConv.v -- C94 to C97: two- and three-dimensional convolution of fixed-rank views.  r, x, w are the views passed; bank2 and bank3
   (Spec_RConv) sum the filter over the shifted x, with zeros outside it; [centred N X J] is half of what N, X and J leave, rounded towards zero. *)
From Verif Require Import Base BaseFacts Model_Index Model_View Model_Tensor Model_Ops Model_RView Model_Einsum Model_Convolve Model_RConv Model_Sparse Spec_Index Spec_View Spec_Tensor Spec_Convolve Spec_Convolve2D Spec_RConv Checks
  Proofs_Tensor Proofs_Einsum3 Proofs_Convolve Proofs_Convolve2 Proofs_Convolve2D2 Prop_Tensor Prop_Sparse Spec_RView Proofs_RView Proofs_RView2 Proofs_RView3 Proofs_RConv Proofs_RConv2 Proofs_RConv3 Proofs_RConv4 Proofs_RConv5 Proofs_RConv6.
Local Open Scope Z_scope.
Ltac wf := split; [reflexivity|repeat constructor; lia].
Ltac opnd := lazymatch goal with |- operands _ [_] _ => apply (operands1 (R := ZRing)) | |- operands _ [_; _] _ => apply (operands2 (R := ZRing)) end; first [wf | by_check].

(* ---- C94 ---- *)
(* when the padding of the second axis is zero, the rows of the filter and of x are taken as one run each: they must follow on, and stay inside x *)
Theorem C94_plain_partial : forall (R : cring) r x w (m : mem (car R)) N0 N1 O X0 X1 A J0 J1, operands r [x; w] m -> vdims r = [N0; N1; O] -> vdims x = [X0; X1; A] -> vdims w = [O; J0; J1; A] ->
  (centred N1 X1 J1 = 0 -> N1 + J1 - 1 <= X1 /\ run_on (sd x 1) (sd x 2) A J1 /\ run_on (sd w 2) (sd w 3) A J1) ->
  exists m', rconv2_3 r x w m = Ok m' /\
    gains r (fun ix => bank2 X0 X1 J0 J1 A (centred N0 X0 J0) (centred N1 X1 J1) (fun q0 q1 a => elem0 m x [q0; q1; a]) (fun j0 j1 a => elem0 m w [nth 2 ix 0; j0; j1; a]) (nth 0 ix 0) (nth 1 ix 0)) m m'.
Proof. exact @rconv2_3_ok. Qed.
Print Assumptions C94_plain_partial.
(* with channels, for the layouts a matrix product is carried out for *)
Theorem C94_channels_partial : forall (R : cring) r x w (m : mem (car R)) N0 N1 O X0 X1 A C J0 J1, operands r [x; w] m -> vdims r = [N0; N1; O; C] -> vdims x = [X0; X1; A; C] -> vdims w = [O; J0; J1; A] ->
  (centred N1 X1 J1 = 0 -> N1 + J1 - 1 <= X1 /\ run_on (sd x 1) (sd x 2) A J1 /\ run_on (sd w 2) (sd w 3) A J1) ->
  multiplies O (if centred N1 X1 J1 =? 0 then J1 * A else A) C (sd r 2) (sd r 3) (sd w 0) (sd w 3) (sd x 2) (sd x 3) ->
  exists m', rconv2_4 r x w m = Ok m' /\
    gains r (fun ix => bank2 X0 X1 J0 J1 A (centred N0 X0 J0) (centred N1 X1 J1) (fun q0 q1 a => elem0 m x [q0; q1; a; nth 3 ix 0]) (fun j0 j1 a => elem0 m w [nth 2 ix 0; j0; j1; a]) (nth 0 ix 0) (nth 1 ix 0)) m m'.
Proof. intros R r x w m N0 N1 O X0 X1 A C J0 J1 Op Dr Dx Dw H HL. apply (rconv2_4_ok r x w m N0 N1 O X0 X1 A C J0 J1); try assumption. now apply carried_iff. Qed.
Print Assumptions C94_channels_partial.
Theorem C94_batches_partial : forall (R : cring) r x w (m : mem (car R)) B N0 N1 O X0 X1 A C J0 J1, operands r [x; w] m -> vdims r = [B; N0; N1; O; C] -> vdims x = [B; X0; X1; A; C] -> vdims w = [O; J0; J1; A] ->
  (centred N1 X1 J1 = 0 -> N1 + J1 - 1 <= X1 /\ run_on (sd x 2) (sd x 3) A J1 /\ run_on (sd w 2) (sd w 3) A J1) ->
  multiplies O (if centred N1 X1 J1 =? 0 then J1 * A else A) C (sd r 3) (sd r 4) (sd w 0) (sd w 3) (sd x 3) (sd x 4) ->
  exists m', rconv2_5 r x w m = Ok m' /\
    gains r (fun ix => bank2 X0 X1 J0 J1 A (centred N0 X0 J0) (centred N1 X1 J1) (fun q0 q1 a => elem0 m x [nth 0 ix 0; q0; q1; a; nth 4 ix 0]) (fun j0 j1 a => elem0 m w [nth 3 ix 0; j0; j1; a]) (nth 1 ix 0) (nth 2 ix 0)) m m'.
Proof. intros R r x w m B N0 N1 O X0 X1 A C J0 J1 Op Dr Dx Dw H HL. apply (rconv2_5_ok r x w m B N0 N1 O X0 X1 A C J0 J1); try assumption. now apply carried_iff. Qed.
Print Assumptions C94_batches_partial.
Theorem C94_blocks_partial : forall (R : cring) r x w (m : mem (car R)) B N0 N1 D O X0 X1 A C J0 J1, operands r [x; w] m -> vdims r = [B; N0; N1; D; O; C] -> vdims x = [B; X0; X1; D; A; C] -> vdims w = [O; J0; J1; A] ->
  (centred N1 X1 J1 = 0 -> N1 + J1 - 1 <= X1 /\ run_on (sd x 2) (sd x 4) A J1 /\ run_on (sd w 2) (sd w 3) A J1) ->
  multiplies O (if centred N1 X1 J1 =? 0 then J1 * A else A) C (sd r 4) (sd r 5) (sd w 0) (sd w 3) (sd x 4) (sd x 5) ->
  exists m', rconv2_6 r x w m = Ok m' /\
    gains r (fun ix => bank2 X0 X1 J0 J1 A (centred N0 X0 J0) (centred N1 X1 J1) (fun q0 q1 a => elem0 m x [nth 0 ix 0; q0; q1; nth 3 ix 0; a; nth 5 ix 0]) (fun j0 j1 a => elem0 m w [nth 4 ix 0; j0; j1; a]) (nth 1 ix 0) (nth 2 ix 0)) m m'.
Proof. intros R r x w m B N0 N1 D O X0 X1 A C J0 J1 Op Dr Dx Dw H HL. apply (rconv2_6_ok r x w m B N0 N1 D O X0 X1 A C J0 J1); try assumption. now apply carried_iff. Qed.
Print Assumptions C94_blocks_partial.
(* for all other layouts with channels the result is as before the call, whatever x and w hold *)
Theorem C94_layouts_refuted : forall (R : cring) r x w (m : mem (car R)) N0 N1 O X0 X1 A C J0 J1, vdims w = [O; J0; J1; A] ->
  let K := if centred N1 X1 J1 =? 0 then J1 * A else A in
  (vdims r = [N0; N1; O; C] -> vdims x = [X0; X1; A; C] -> ~ multiplies O K C (sd r 2) (sd r 3) (sd w 0) (sd w 3) (sd x 2) (sd x 3) -> rconv2_4 r x w m = Ok m) /\
  (forall B, vdims r = [B; N0; N1; O; C] -> vdims x = [B; X0; X1; A; C] -> ~ multiplies O K C (sd r 3) (sd r 4) (sd w 0) (sd w 3) (sd x 3) (sd x 4) -> rconv2_5 r x w m = Ok m) /\
  (forall B D, vdims r = [B; N0; N1; D; O; C] -> vdims x = [B; X0; X1; D; A; C] -> ~ multiplies O K C (sd r 4) (sd r 5) (sd w 0) (sd w 3) (sd x 4) (sd x 5) -> rconv2_6 r x w m = Ok m).
Proof.
  intros R r x w m N0 N1 O X0 X1 A C J0 J1 Dw K. split; [|split].
  - intros Dr Dx H. apply (rconv2_4_idle r x w m N0 N1 O X0 X1 A C J0 J1); try assumption. now apply carried_not.
  - intros B Dr Dx H. apply (rconv2_5_idle r x w m B N0 N1 O X0 X1 A C J0 J1); try assumption. now apply carried_not.
  - intros B D Dr Dx H. apply (rconv2_6_idle r x w m B N0 N1 D O X0 X1 A C J0 J1); try assumption. now apply carried_not.
Qed.
Print Assumptions C94_layouts_refuted.
(* convolve2D: a result of its own, with q0 and q1 zeros on each side of x *)
Lemma fit N X J q : N = X + 2 * q - J + 1 -> centred N X J = q /\ (q = 0 -> N + J - 1 <= X).
Proof. intros H. split; [exact (proj2 (centred_back N X J q H))|lia]. Qed.
Lemma own_layout b N0 N1 O C B D : (sd (fresh_view b [N0; N1; O; C]) 2 = C /\ sd (fresh_view b [N0; N1; O; C]) 3 = 1) /\ (sd (fresh_view b [B; N0; N1; O; C]) 3 = C /\ sd (fresh_view b [B; N0; N1; O; C]) 4 = 1) /\
  (sd (fresh_view b [B; N0; N1; D; O; C]) 4 = C /\ sd (fresh_view b [B; N0; N1; D; O; C]) 5 = 1).
Proof. unfold sd. cbn -[Z.mul]. lia. Qed.
Theorem C94_convolve2D_partial : forall (R : cring) b x w (m : mem (car R)) O X0 X1 A J0 J1 q0 q1, vwf x -> vwf w -> readable m x -> readable m w -> vblk x <> b -> vblk w <> b -> vdims w = [O; J0; J1; A] ->
  let N0 := X0 + 2 * q0 - J0 + 1 in let N1 := X1 + 2 * q1 - J1 + 1 in 0 <= N0 -> 0 <= N1 -> let K := if q1 =? 0 then J1 * A else A in
  let holds dims G := exists m', rconvolve2D b x w q0 q1 m = Ok (Some (fresh_view b dims), m') /\ (forall ix, in_range ix dims -> elem m' (fresh_view b dims) ix = Some (G ix)) /\ forall b' a, b' <> b -> m' b' a = m b' a in
  (vdims x = [X0; X1; A] -> (q1 = 0 -> run_on (sd x 1) (sd x 2) A J1 /\ run_on (sd w 2) (sd w 3) A J1) ->
     holds [N0; N1; O] (fun ix => bank2 X0 X1 J0 J1 A q0 q1 (fun k0 k1 a => elem0 m x [k0; k1; a]) (fun j0 j1 a => elem0 m w [nth 2 ix 0; j0; j1; a]) (nth 0 ix 0) (nth 1 ix 0))) /\
  (forall C, vdims x = [X0; X1; A; C] -> (q1 = 0 -> run_on (sd x 1) (sd x 2) A J1 /\ run_on (sd w 2) (sd w 3) A J1) -> multiplies O K C C 1 (sd w 0) (sd w 3) (sd x 2) (sd x 3) ->
     holds [N0; N1; O; C] (fun ix => bank2 X0 X1 J0 J1 A q0 q1 (fun k0 k1 a => elem0 m x [k0; k1; a; nth 3 ix 0]) (fun j0 j1 a => elem0 m w [nth 2 ix 0; j0; j1; a]) (nth 0 ix 0) (nth 1 ix 0))) /\
  (forall B C, vdims x = [B; X0; X1; A; C] -> (q1 = 0 -> run_on (sd x 2) (sd x 3) A J1 /\ run_on (sd w 2) (sd w 3) A J1) -> multiplies O K C C 1 (sd w 0) (sd w 3) (sd x 3) (sd x 4) ->
     holds [B; N0; N1; O; C] (fun ix => bank2 X0 X1 J0 J1 A q0 q1 (fun k0 k1 a => elem0 m x [nth 0 ix 0; k0; k1; a; nth 4 ix 0]) (fun j0 j1 a => elem0 m w [nth 3 ix 0; j0; j1; a]) (nth 1 ix 0) (nth 2 ix 0))) /\
  (forall B D C, vdims x = [B; X0; X1; D; A; C] -> (q1 = 0 -> run_on (sd x 2) (sd x 4) A J1 /\ run_on (sd w 2) (sd w 3) A J1) -> multiplies O K C C 1 (sd w 0) (sd w 3) (sd x 4) (sd x 5) ->
     holds [B; N0; N1; D; O; C] (fun ix => bank2 X0 X1 J0 J1 A q0 q1 (fun k0 k1 a => elem0 m x [nth 0 ix 0; k0; k1; nth 3 ix 0; a; nth 5 ix 0]) (fun j0 j1 a => elem0 m w [nth 4 ix 0; j0; j1; a]) (nth 1 ix 0) (nth 2 ix 0))).
Proof.
  intros R b x w m O X0 X1 A J0 J1 q0 q1 Wx Ww Rx Rw Bx Bw Dw N0 N1 HN0 HN1 K holds. destruct (fit N0 X0 J0 q0 eq_refl) as [Q0 _]. destruct (fit N1 X1 J1 q1 eq_refl) as [Q1 Hfit].
  pose proof (sizes_nonneg w Ww) as Nw. rewrite Dw in Nw. pose proof (sizes_nonneg x Wx) as Nx.
  split; [|split; [|split]].
  - intros Dx H. unfold holds, rconvolve2D. unfold ndims. rewrite Dw, Dx, !(nd_eq x _ _ Dx), !(nd_eq w _ _ Dw). cbn [length Z.of_nat Pos.of_succ_nat Pos.succ Z.eqb Pos.eqb nth assrt]. rewrite Z.eqb_refl. cbn [assrt]. fold N0 N1.
    destruct (fresh_result b [N0; N1; O] x w (fun r => rconv2_3 r x w) (fun ix => bank2 X0 X1 J0 J1 A q0 q1 (fun k0 k1 a => elem0 m x [k0; k1; a]) (fun j0 j1 a => elem0 m w [nth 2 ix 0; j0; j1; a]) (nth 0 ix 0) (nth 1 ix 0)) m) as (m' & E & V & U); try assumption.
    { repeat constructor; [assumption|assumption|exact (Nw 0%nat)]. }
    { intros m1 Op Ex Ew. destruct (rconv2_3_ok (fresh_view b [N0; N1; O]) x w m1 N0 N1 O X0 X1 A J0 J1 Op eq_refl Dx Dw) as (m' & E & G); [rewrite Q1; intro Z1; split; [now apply Hfit|now apply H]|].
      exists m'. split; [exact E|]. eapply gains_ext; [|exact G]. intros ix _. cbv beta. rewrite Q0, Q1. apply bank2_ext; intros; [apply Ex|apply Ew]. }
    rewrite E. cbn [bind fst snd]. exists m'. auto.
  - intros C Dx H HL. unfold holds, rconvolve2D. unfold ndims. rewrite Dw, Dx, !(nd_eq x _ _ Dx), !(nd_eq w _ _ Dw). cbn [length Z.of_nat Pos.of_succ_nat Pos.succ Z.eqb Pos.eqb nth assrt]. rewrite Z.eqb_refl. cbn [assrt]. fold N0 N1. rewrite Dx in Nx.
    destruct (fresh_result b [N0; N1; O; C] x w (fun r => rconv2_4 r x w) (fun ix => bank2 X0 X1 J0 J1 A q0 q1 (fun k0 k1 a => elem0 m x [k0; k1; a; nth 3 ix 0]) (fun j0 j1 a => elem0 m w [nth 2 ix 0; j0; j1; a]) (nth 0 ix 0) (nth 1 ix 0)) m) as (m' & E & V & U); try assumption.
    { repeat constructor; [assumption|assumption|exact (Nw 0%nat)|exact (Nx 3%nat)]. }
    { intros m1 Op Ex Ew. destruct (rconv2_4_ok (fresh_view b [N0; N1; O; C]) x w m1 N0 N1 O X0 X1 A C J0 J1 Op eq_refl Dx Dw) as (m' & E & G); [rewrite Q1; intro Z1; split; [now apply Hfit|now apply H]| |].
      { apply carried_iff. rewrite Q1. destruct (own_layout b N0 N1 O C 0 0) as [[L1 L2] _]. rewrite L1, L2. exact HL. }
      exists m'. split; [exact E|]. eapply gains_ext; [|exact G]. intros ix _. cbv beta. rewrite Q0, Q1. apply bank2_ext; intros; [apply Ex|apply Ew]. }
    rewrite E. cbn [bind fst snd]. exists m'. auto.
  - intros B C Dx H HL. unfold holds, rconvolve2D. unfold ndims. rewrite Dw, Dx, !(nd_eq x _ _ Dx), !(nd_eq w _ _ Dw). cbn [length Z.of_nat Pos.of_succ_nat Pos.succ Z.eqb Pos.eqb nth assrt]. rewrite Z.eqb_refl. cbn [assrt]. fold N0 N1. rewrite Dx in Nx.
    destruct (fresh_result b [B; N0; N1; O; C] x w (fun r => rconv2_5 r x w) (fun ix => bank2 X0 X1 J0 J1 A q0 q1 (fun k0 k1 a => elem0 m x [nth 0 ix 0; k0; k1; a; nth 4 ix 0]) (fun j0 j1 a => elem0 m w [nth 3 ix 0; j0; j1; a]) (nth 1 ix 0) (nth 2 ix 0)) m) as (m' & E & V & U); try assumption.
    { repeat constructor; [exact (Nx 0%nat)|assumption|assumption|exact (Nw 0%nat)|exact (Nx 4%nat)]. }
    { intros m1 Op Ex Ew. destruct (rconv2_5_ok (fresh_view b [B; N0; N1; O; C]) x w m1 B N0 N1 O X0 X1 A C J0 J1 Op eq_refl Dx Dw) as (m' & E & G); [rewrite Q1; intro Z1; split; [now apply Hfit|now apply H]| |].
      { apply carried_iff. rewrite Q1. destruct (own_layout b N0 N1 O C B 0) as (_ & [L1 L2] & _). rewrite L1, L2. exact HL. }
      exists m'. split; [exact E|]. eapply gains_ext; [|exact G]. intros ix _. cbv beta. rewrite Q0, Q1. apply bank2_ext; intros; [apply Ex|apply Ew]. }
    rewrite E. cbn [bind fst snd]. exists m'. auto.
  - intros B D C Dx H HL. unfold holds, rconvolve2D. unfold ndims. rewrite Dw, Dx, !(nd_eq x _ _ Dx), !(nd_eq w _ _ Dw). cbn [length Z.of_nat Pos.of_succ_nat Pos.succ Z.eqb Pos.eqb nth assrt]. rewrite Z.eqb_refl. cbn [assrt]. fold N0 N1. rewrite Dx in Nx.
    destruct (fresh_result b [B; N0; N1; D; O; C] x w (fun r => rconv2_6 r x w) (fun ix => bank2 X0 X1 J0 J1 A q0 q1 (fun k0 k1 a => elem0 m x [nth 0 ix 0; k0; k1; nth 3 ix 0; a; nth 5 ix 0]) (fun j0 j1 a => elem0 m w [nth 4 ix 0; j0; j1; a]) (nth 1 ix 0) (nth 2 ix 0)) m) as (m' & E & V & U); try assumption.
    { repeat constructor; [exact (Nx 0%nat)|assumption|assumption|exact (Nx 3%nat)|exact (Nw 0%nat)|exact (Nx 5%nat)]. }
    { intros m1 Op Ex Ew. destruct (rconv2_6_ok (fresh_view b [B; N0; N1; D; O; C]) x w m1 B N0 N1 D O X0 X1 A C J0 J1 Op eq_refl Dx Dw) as (m' & E & G); [rewrite Q1; intro Z1; split; [now apply Hfit|now apply H]| |].
      { apply carried_iff. rewrite Q1. destruct (own_layout b N0 N1 O C B D) as (_ & _ & [L1 L2]). rewrite L1, L2. exact HL. }
      exists m'. split; [exact E|]. eapply gains_ext; [|exact G]. intros ix _. cbv beta. rewrite Q0, Q1. apply bank2_ext; intros; [apply Ex|apply Ew]. }
    rewrite E. cbn [bind fst snd]. exists m'. auto.
Qed.
Print Assumptions C94_convolve2D_partial.
(* with channels and a filter stored row by row, more than one row of taps (more than one tap, when there is padding): the result is all zeros *)
Theorem C94_row_by_row_refuted : forall (R : cring) b x w (m : mem (car R)) O X0 X1 A C J0 J1 q0 q1, vwf x -> vwf w -> readable m x -> vblk x <> b -> vdims w = [O; J0; J1; A] -> vdims x = [X0; X1; A; C] ->
  vstr w = [J0 * J1 * A; J1 * A; A; 1] -> 1 <= A -> 1 <= J1 -> (q1 = 0 -> J0 <> 1) -> (q1 <> 0 -> J0 * J1 <> 1) ->
  let N0 := X0 + 2 * q0 - J0 + 1 in let N1 := X1 + 2 * q1 - J1 + 1 in 0 <= N0 -> 0 <= N1 ->
  exists r m', rconvolve2D b x w q0 q1 m = Ok (Some r, m') /\ vdims r = [N0; N1; O; C] /\ forall ix, in_range ix [N0; N1; O; C] -> elem m' r ix = Some c0.
Proof.
  intros R b x w m O X0 X1 A C J0 J1 q0 q1 Wx Ww Rx Bx Dw Dx Sw HA HJ1 H0 H1 N0 N1 HN0 HN1. destruct (fit N1 X1 J1 q1 eq_refl) as [Q1 _].
  pose proof (sizes_nonneg w Ww) as Nw. rewrite Dw in Nw. pose proof (sizes_nonneg x Wx) as Nx. rewrite Dx in Nx. pose proof (Nw 1%nat) as HJ0. cbn [nth] in HJ0.
  destruct (fresh_idle b [N0; N1; O; C] x (fun r => rconv2_4 r x w) m) as (m' & E & V); try assumption.
  { repeat constructor; [assumption|assumption|exact (Nw 0%nat)|exact (Nx 3%nat)]. }
  { intro m1. apply (rconv2_4_idle (fresh_view b [N0; N1; O; C]) x w m1 N0 N1 O X0 X1 A C J0 J1); [reflexivity|assumption|assumption|]. apply carried_not. rewrite Q1. unfold multiplies, by_rows, by_cols, sd. rewrite Sw. cbn [nth].
    destruct (Z.eqb_spec q1 0) as [Z1|Z1]; [specialize (H0 Z1); clear H1|specialize (H1 Z1); clear H0]; intros (_ & [[[P _] _]|[[[P _] _]|[[P _] _]]]); nia. }
  exists (fresh_view b [N0; N1; O; C]), m'. unfold rconvolve2D, ndims. rewrite Dw, Dx, !(nd_eq x _ _ Dx), !(nd_eq w _ _ Dw). cbn [length Z.of_nat Pos.of_succ_nat Pos.succ Z.eqb Pos.eqb nth assrt]. rewrite Z.eqb_refl. cbn [assrt]. fold N0 N1. rewrite E. cbn [bind fst snd]. auto.
Qed.
Print Assumptions C94_row_by_row_refuted.
(* sizes that leave one zero to add on one side only: the padding rounds to zero, and the last window of a row runs into the next row, or past the end of the last *)
Theorem C94_uneven_refuted :
  (let r := View 0 0 [2; 3; 1] [3; 1; 1] in let x := View 1 0 [2; 3; 1] [3; 1; 1] in let w := View 2 0 [1; 1; 2; 1] [2; 2; 1; 1] in
   operands r [x; w] ex_mem /\ exists m', rconv2_3 (R := ZRing) r x w ex_mem = Ok m' /\ elem m' r [0; 2; 0] = Some (2 + (200 * 102 + 201 * 103)) /\
   bank2 (R := ZRing) 2 3 1 2 1 (centred 2 2 1) (centred 3 3 2) (fun q0 q1 a => elem0 (R := ZRing) ex_mem x [q0; q1; a]) (fun j0 j1 a => elem0 (R := ZRing) ex_mem w [0; j0; j1; a]) 0 2 = 200 * 102) /\
  (let r := View 0 0 [1; 3; 1] [3; 1; 1] in let x := View 1 97 [1; 3; 1] [3; 1; 1] in let w := View 2 0 [1; 1; 2; 1] [2; 2; 1; 1] in operands r [x; w] ex_mem /\ rconv2_3 (R := ZRing) r x w ex_mem = UB).
Proof. split; cbv zeta; (split; [opnd|]); [eexists; split; [vm_compute; reflexivity|split; vm_compute; reflexivity]|vm_compute; reflexivity]. Qed.
Print Assumptions C94_uneven_refuted.
(* every second column of a matrix: without padding, the run of taps reads the columns in between *)
Theorem C94_gaps_refuted :
  let r := View 0 0 [1; 1; 1] [1; 1; 1] in let x := View 1 0 [1; 2; 2] [8; 4; 1] in let w := View 2 0 [1; 1; 2; 2] [4; 4; 2; 1] in
  operands r [x; w] ex_mem /\ exists m', rconv2_3 (R := ZRing) r x w ex_mem = Ok m' /\ elem m' r [0; 0; 0] = Some (200 * 100 + 201 * 101 + 202 * 102 + 203 * 103) /\
  bank2 (R := ZRing) 1 2 1 2 2 (centred 1 1 1) (centred 1 2 2) (fun q0 q1 a => elem0 (R := ZRing) ex_mem x [q0; q1; a]) (fun j0 j1 a => elem0 (R := ZRing) ex_mem w [0; j0; j1; a]) 0 0 = 200 * 100 + 201 * 101 + 202 * 104 + 203 * 105.
Proof. cbv zeta. split; [opnd|]. eexists. split; [vm_compute; reflexivity|]. split; vm_compute; reflexivity. Qed.
Print Assumptions C94_gaps_refuted.
(* operands whose sides do not fit are refused *)
Ltac fits := repeat match goal with |- context[?a =? ?b] => destruct (Z.eqb_spec a b); cbn [assrt]; [|reflexivity] end; exfalso; tauto.
Theorem C94_rejects : forall (R : cring) r x w (m : mem (car R)),
  (~ (nd r 2 = nd w 0 /\ nd x 2 = nd w 3) -> rconv2_3 r x w m = Throw) /\ (~ (nd r 2 = nd w 0 /\ nd x 2 = nd w 3 /\ nd r 3 = nd x 3) -> rconv2_4 r x w m = Throw) /\
  (~ (nd r 0 = nd x 0 /\ nd r 3 = nd w 0 /\ nd r 4 = nd x 4 /\ nd x 3 = nd w 3) -> rconv2_5 r x w m = Throw) /\
  (~ (nd r 0 = nd x 0 /\ nd r 3 = nd x 3 /\ nd r 4 = nd w 0 /\ nd x 4 = nd w 3 /\ nd r 5 = nd x 5) -> rconv2_6 r x w m = Throw) /\
  forall b q0 q1, (ndims w <> 4 -> rconvolve2D b x w q0 q1 m = Throw) /\
    (ndims x = 3 \/ ndims x = 4 -> nd w 3 <> nd x 2 -> rconvolve2D b x w q0 q1 m = Throw) /\ (ndims x = 5 -> nd w 3 <> nd x 3 -> rconvolve2D b x w q0 q1 m = Throw) /\ (ndims x = 6 -> nd w 3 <> nd x 4 -> rconvolve2D b x w q0 q1 m = Throw).
Proof.
  intros R r x w m. unfold rconv2_3, rconv2_4, rconv2_5, rconv2_6, rconvolve2D. do 4 (split; [intro H; fits|]). intros b q0 q1. split; [intro H; destruct (Z.eqb_spec (ndims w) 4); [contradiction|reflexivity]|].
  destruct (ndims w =? 4); cbn [assrt]; [|auto]. split; [intros [-> | ->] H; cbn [Z.eqb Pos.eqb]; fits|]. split; intros -> H; cbn [Z.eqb Pos.eqb]; fits.
Qed.
Print Assumptions C94_rejects.
Example C94_case : operands (View 0 3 [3; 4; 2] [16; 4; 2]) [View 1 4 [3; 4; 2] [20; 5; 2]; View 2 1 [2; 3; 3; 2] [25; 7; 2; 1]] ex_mem /\ centred 4 4 3 = 1 /\
  operands (View 0 3 [3; 2; 2] [16; 4; 2]) [View 1 4 [3; 4; 2] [20; 4; 2]; View 2 1 [2; 3; 3; 2] [25; 7; 2; 1]] ex_mem /\ centred 2 4 3 = 0 /\ run_on 4 2 2 3 /\ run_on 2 1 2 3 /\
  operands (View 0 3 [3; 2; 2; 3] [16; 8; 3; 1]) [View 1 4 [3; 3; 2; 3] [30; 10; 3; 1]; View 2 1 [2; 2; 2; 2] [2; 4; 8; 1]] ex_mem /\ centred 2 3 2 = 0 /\
  operands (View 0 3 [3; 4; 2; 3] [25; 6; 3; 1]) [View 1 4 [3; 3; 2; 3] [30; 10; 3; 1]; View 2 1 [2; 2; 3; 2] [2; 4; 8; 1]] ex_mem /\ centred 4 3 3 = 1 /\ multiplies 2 2 3 3 1 2 1 3 1.
Proof. repeat match goal with |- _ /\ _ => split end; first [opnd | reflexivity | now right | unfold multiplies, by_rows, by_cols; lia]. Qed.
(* the filter of a 3 by 3 bank stored row by row *)
Example C94_case_refuted : let w := View 2 0 [2; 3; 3; 2] [18; 6; 2; 1] in vwf w /\ vstr w = [3 * 3 * 2; 3 * 2; 2; 1] /\
  (exists m', rconvolve2D (R := ZRing) 5 (View 1 0 [3; 3; 2; 2] [12; 4; 2; 1]) w 1 1 ex_mem = Ok (Some (fresh_view 5 [3; 3; 2; 2]), m') /\ elem m' (fresh_view 5 [3; 3; 2; 2]) [1; 1; 1; 1] = Some 0) /\
  bank2 (R := ZRing) 3 3 3 3 2 1 1 (fun q0 q1 a => elem0 (R := ZRing) ex_mem (View 1 0 [3; 3; 2; 2] [12; 4; 2; 1]) [q0; q1; a; 1]) (fun j0 j1 a => elem0 (R := ZRing) ex_mem w [1; j0; j1; a]) 1 1 <> 0.
Proof. split; [wf|]. split; [reflexivity|]. split; [eexists; split; vm_compute; reflexivity|vm_compute; congruence]. Qed.

(* ---- C95: sparse filters, row o of the matrix holding the filter of output channel o; a list of calls (row, column, value) in any order ---- *)
Theorem C95_two_d : forall (R : cring) r x n w J0 J1 (m : mem (car R)) N0 N1 X0 X1 A, operands r [x] m -> 0 <= J0 -> 0 <= J1 -> inside n (J0 * J1 * A) w ->
  let f o j0 j1 a := matrix_of (R := R) w o ((j0 * J1 + j1) * A + a) in let p0 := centred N0 X0 J0 in let p1 := centred N1 X1 J1 in
  (vdims r = [N0; N1; n] -> vdims x = [X0; X1; A] -> exists m', rsconv2_3 r x n w J0 J1 m = Ok m' /\
     gains r (fun ix => bank2 X0 X1 J0 J1 A p0 p1 (fun q0 q1 a => elem0 m x [q0; q1; a]) (f (nth 2 ix 0)) (nth 0 ix 0) (nth 1 ix 0)) m m') /\
  (forall C, vdims r = [N0; N1; n; C] -> vdims x = [X0; X1; A; C] -> exists m', rsconv2_4 r x n w J0 J1 m = Ok m' /\
     gains r (fun ix => bank2 X0 X1 J0 J1 A p0 p1 (fun q0 q1 a => elem0 m x [q0; q1; a; nth 3 ix 0]) (f (nth 2 ix 0)) (nth 0 ix 0) (nth 1 ix 0)) m m') /\
  (forall B C, vdims r = [B; N0; N1; n; C] -> vdims x = [B; X0; X1; A; C] -> exists m', rsconv2_5 r x n w J0 J1 m = Ok m' /\
     gains r (fun ix => bank2 X0 X1 J0 J1 A p0 p1 (fun q0 q1 a => elem0 m x [nth 0 ix 0; q0; q1; a; nth 4 ix 0]) (f (nth 3 ix 0)) (nth 1 ix 0) (nth 2 ix 0)) m m') /\
  (forall B D C, vdims r = [B; N0; N1; D; n; C] -> vdims x = [B; X0; X1; D; A; C] -> exists m', rsconv2_6 r x n w J0 J1 m = Ok m' /\
     gains r (fun ix => bank2 X0 X1 J0 J1 A p0 p1 (fun q0 q1 a => elem0 m x [nth 0 ix 0; q0; q1; nth 3 ix 0; a; nth 5 ix 0]) (f (nth 4 ix 0)) (nth 1 ix 0) (nth 2 ix 0)) m m').
Proof.
  intros R r x n w J0 J1 m N0 N1 X0 X1 A Op HJ0 HJ1 Hw f p0 p1. split; [|split; [|split]]; intros.
  - now apply (rsconv2_3_ok r x n w J0 J1 m N0 N1 X0 X1 A).
  - now apply (rsconv2_4_ok r x n w J0 J1 m N0 N1 X0 X1 A C).
  - now apply (rsconv2_5_ok r x n w J0 J1 m B N0 N1 X0 X1 A C).
  - now apply (rsconv2_6_ok r x n w J0 J1 m B N0 N1 D X0 X1 A C).
Qed.
Print Assumptions C95_two_d.
Theorem C95_three_d : forall (R : cring) r x n w J0 J1 J2 (m : mem (car R)) N0 N1 N2 X0 X1 X2 A, operands r [x] m -> 0 <= J0 -> 0 <= J1 -> 0 <= J2 -> inside n (J0 * J1 * J2 * A) w ->
  let f o j0 j1 j2 a := matrix_of (R := R) w o (((j0 * J1 + j1) * J2 + j2) * A + a) in let p0 := centred N0 X0 J0 in let p1 := centred N1 X1 J1 in let p2 := centred N2 X2 J2 in
  (vdims r = [N0; N1; N2; n] -> vdims x = [X0; X1; X2; A] -> exists m', rsconv3_4 r x n w J0 J1 J2 m = Ok m' /\
     gains r (fun ix => bank3 X0 X1 X2 J0 J1 J2 A p0 p1 p2 (fun q0 q1 q2 a => elem0 m x [q0; q1; q2; a]) (f (nth 3 ix 0)) (nth 0 ix 0) (nth 1 ix 0) (nth 2 ix 0)) m m') /\
  (forall C, vdims r = [N0; N1; N2; n; C] -> vdims x = [X0; X1; X2; A; C] -> exists m', rsconv3_5 r x n w J0 J1 J2 m = Ok m' /\
     gains r (fun ix => bank3 X0 X1 X2 J0 J1 J2 A p0 p1 p2 (fun q0 q1 q2 a => elem0 m x [q0; q1; q2; a; nth 4 ix 0]) (f (nth 3 ix 0)) (nth 0 ix 0) (nth 1 ix 0) (nth 2 ix 0)) m m') /\
  (forall B C, vdims r = [B; N0; N1; N2; n; C] -> vdims x = [B; X0; X1; X2; A; C] -> exists m', rsconv3_6 r x n w J0 J1 J2 m = Ok m' /\
     gains r (fun ix => bank3 X0 X1 X2 J0 J1 J2 A p0 p1 p2 (fun q0 q1 q2 a => elem0 m x [nth 0 ix 0; q0; q1; q2; a; nth 5 ix 0]) (f (nth 4 ix 0)) (nth 1 ix 0) (nth 2 ix 0) (nth 3 ix 0)) m m').
Proof.
  intros R r x n w J0 J1 J2 m N0 N1 N2 X0 X1 X2 A Op HJ0 HJ1 HJ2 Hw f p0 p1 p2. split; [|split]; intros.
  - now apply (rsconv3_4_ok r x n w J0 J1 J2 m N0 N1 N2 X0 X1 X2 A).
  - now apply (rsconv3_5_ok r x n w J0 J1 J2 m N0 N1 N2 X0 X1 X2 A C).
  - now apply (rsconv3_6_ok r x n w J0 J1 J2 m B N0 N1 N2 X0 X1 X2 A C).
Qed.
Print Assumptions C95_three_d.
(* a sparse matrix converted from a dense one makes calls inside it, and stands for it *)
Theorem C95_converted : forall rc n k (W : Z -> Z -> Z), 0 <= n -> 0 <= k -> exists S l, csr_of_dense n k W = Ok S /\ csr_calls rc S = Ok l /\ inside n k l /\ forall o s, 0 <= o < n -> 0 <= s < k -> matrix_of (R := ZRing) l o s = W o s.
Proof. intros rc n k W Hn Hk. destruct (C60_stores_the_nonzeros rc n k W Hn Hk) as (S & l & E & El & ND & H). exists S, l. split; [exact E|]. split; [exact El|]. now apply matrix_of_dense. Qed.
Print Assumptions C95_converted.
(* convolve2D and convolve3D with a sparse filter: q zeros on each side; k columns; the filter must have J0*J1*A columns *)
Lemma only_one (R : cring) r x (m : mem (car R)) : operands r [x; x] m -> operands r [x] m.
Proof. intros (P1 & P2 & P3 & F). inversion F as [|y l Hy HF]. split; [assumption|]. split; [assumption|]. split; [assumption|]. now constructor. Qed.
Theorem C95_convolve2D : forall (R : cring) b x n w J0 J1 (m : mem (car R)) X0 X1 A q0 q1, vwf x -> readable m x -> vblk x <> b -> 0 <= n -> 0 <= J0 -> 0 <= J1 -> let k := J0 * J1 * A in inside n k w ->
  let f o j0 j1 a := matrix_of (R := R) w o ((j0 * J1 + j1) * A + a) in
  let N0 := X0 + 2 * q0 - J0 + 1 in let N1 := X1 + 2 * q1 - J1 + 1 in 0 <= N0 -> 0 <= N1 ->
  let holds dims G := exists m', rsconvolve2D b x n k w J0 J1 q0 q1 m = Ok (Some (fresh_view b dims), m') /\ (forall ix, in_range ix dims -> elem m' (fresh_view b dims) ix = Some (G ix)) /\ forall b' a, b' <> b -> m' b' a = m b' a in
  (vdims x = [X0; X1; A] -> holds [N0; N1; n] (fun ix => bank2 X0 X1 J0 J1 A q0 q1 (fun k0 k1 a => elem0 m x [k0; k1; a]) (f (nth 2 ix 0)) (nth 0 ix 0) (nth 1 ix 0))) /\
  (forall C, vdims x = [X0; X1; A; C] -> holds [N0; N1; n; C] (fun ix => bank2 X0 X1 J0 J1 A q0 q1 (fun k0 k1 a => elem0 m x [k0; k1; a; nth 3 ix 0]) (f (nth 2 ix 0)) (nth 0 ix 0) (nth 1 ix 0))) /\
  (forall B C, vdims x = [B; X0; X1; A; C] -> holds [B; N0; N1; n; C] (fun ix => bank2 X0 X1 J0 J1 A q0 q1 (fun k0 k1 a => elem0 m x [nth 0 ix 0; k0; k1; a; nth 4 ix 0]) (f (nth 3 ix 0)) (nth 1 ix 0) (nth 2 ix 0))) /\
  (forall B D C, vdims x = [B; X0; X1; D; A; C] -> holds [B; N0; N1; D; n; C] (fun ix => bank2 X0 X1 J0 J1 A q0 q1 (fun k0 k1 a => elem0 m x [nth 0 ix 0; k0; k1; nth 3 ix 0; a; nth 5 ix 0]) (f (nth 4 ix 0)) (nth 1 ix 0) (nth 2 ix 0))).
Proof.
  intros R b x n w J0 J1 m X0 X1 A q0 q1 Wx Rx Bx Hn HJ0 HJ1 k Hw f N0 N1 HN0 HN1 holds. destruct (fit N0 X0 J0 q0 eq_refl) as [Q0 _]. destruct (fit N1 X1 J1 q1 eq_refl) as [Q1 _]. pose proof (sizes_nonneg x Wx) as Nx.
  split; [|split; [|split]].
  - intros Dx. unfold holds, rsconvolve2D, ndims. rewrite Dx, !(nd_eq x _ _ Dx). cbn [length Z.of_nat Pos.of_succ_nat Pos.succ Z.eqb Pos.eqb nth]. fold N0 N1 k. rewrite Z.eqb_refl. cbn [assrt].
    destruct (fresh_result b [N0; N1; n] x x (fun r => rsconv2_3 r x n w J0 J1) (fun ix => bank2 X0 X1 J0 J1 A q0 q1 (fun k0 k1 a => elem0 m x [k0; k1; a]) (f (nth 2 ix 0)) (nth 0 ix 0) (nth 1 ix 0)) m) as (m' & E & V & U); try assumption; [now repeat constructor| |].
    { intros m1 Op Ex _. destruct (rsconv2_3_ok (fresh_view b [N0; N1; n]) x n w J0 J1 m1 N0 N1 X0 X1 A (only_one R _ _ _ Op) eq_refl Dx HJ0 HJ1 Hw) as (m' & E & G).
      exists m'. split; [exact E|]. eapply gains_ext; [|exact G]. intros ix _. cbv beta. rewrite Q0, Q1. apply bank2_ext; intros; [apply Ex|reflexivity]. }
    rewrite E. cbn [bind fst snd]. exists m'. auto.
  - intros C Dx. unfold holds, rsconvolve2D, ndims. rewrite Dx, !(nd_eq x _ _ Dx). cbn [length Z.of_nat Pos.of_succ_nat Pos.succ Z.eqb Pos.eqb nth]. fold N0 N1 k. rewrite Z.eqb_refl. cbn [assrt]. rewrite Dx in Nx.
    destruct (fresh_result b [N0; N1; n; C] x x (fun r => rsconv2_4 r x n w J0 J1) (fun ix => bank2 X0 X1 J0 J1 A q0 q1 (fun k0 k1 a => elem0 m x [k0; k1; a; nth 3 ix 0]) (f (nth 2 ix 0)) (nth 0 ix 0) (nth 1 ix 0)) m) as (m' & E & V & U); try assumption; [repeat constructor; try assumption; exact (Nx 3%nat)| |].
    { intros m1 Op Ex _. destruct (rsconv2_4_ok (fresh_view b [N0; N1; n; C]) x n w J0 J1 m1 N0 N1 X0 X1 A C (only_one R _ _ _ Op) eq_refl Dx HJ0 HJ1 Hw) as (m' & E & G).
      exists m'. split; [exact E|]. eapply gains_ext; [|exact G]. intros ix _. cbv beta. rewrite Q0, Q1. apply bank2_ext; intros; [apply Ex|reflexivity]. }
    rewrite E. cbn [bind fst snd]. exists m'. auto.
  - intros B C Dx. unfold holds, rsconvolve2D, ndims. rewrite Dx, !(nd_eq x _ _ Dx). cbn [length Z.of_nat Pos.of_succ_nat Pos.succ Z.eqb Pos.eqb nth]. fold N0 N1 k. rewrite Z.eqb_refl. cbn [assrt]. rewrite Dx in Nx.
    destruct (fresh_result b [B; N0; N1; n; C] x x (fun r => rsconv2_5 r x n w J0 J1) (fun ix => bank2 X0 X1 J0 J1 A q0 q1 (fun k0 k1 a => elem0 m x [nth 0 ix 0; k0; k1; a; nth 4 ix 0]) (f (nth 3 ix 0)) (nth 1 ix 0) (nth 2 ix 0)) m) as (m' & E & V & U); try assumption; [repeat constructor; try assumption; [exact (Nx 0%nat)|exact (Nx 4%nat)]| |].
    { intros m1 Op Ex _. destruct (rsconv2_5_ok (fresh_view b [B; N0; N1; n; C]) x n w J0 J1 m1 B N0 N1 X0 X1 A C (only_one R _ _ _ Op) eq_refl Dx HJ0 HJ1 Hw) as (m' & E & G).
      exists m'. split; [exact E|]. eapply gains_ext; [|exact G]. intros ix _. cbv beta. rewrite Q0, Q1. apply bank2_ext; intros; [apply Ex|reflexivity]. }
    rewrite E. cbn [bind fst snd]. exists m'. auto.
  - intros B D C Dx. unfold holds, rsconvolve2D, ndims. rewrite Dx, !(nd_eq x _ _ Dx). cbn [length Z.of_nat Pos.of_succ_nat Pos.succ Z.eqb Pos.eqb nth]. fold N0 N1 k. rewrite Z.eqb_refl. cbn [assrt]. rewrite Dx in Nx.
    destruct (fresh_result b [B; N0; N1; D; n; C] x x (fun r => rsconv2_6 r x n w J0 J1) (fun ix => bank2 X0 X1 J0 J1 A q0 q1 (fun k0 k1 a => elem0 m x [nth 0 ix 0; k0; k1; nth 3 ix 0; a; nth 5 ix 0]) (f (nth 4 ix 0)) (nth 1 ix 0) (nth 2 ix 0)) m) as (m' & E & V & U); try assumption; [repeat constructor; try assumption; [exact (Nx 0%nat)|exact (Nx 3%nat)|exact (Nx 5%nat)]| |].
    { intros m1 Op Ex _. destruct (rsconv2_6_ok (fresh_view b [B; N0; N1; D; n; C]) x n w J0 J1 m1 B N0 N1 D X0 X1 A C (only_one R _ _ _ Op) eq_refl Dx HJ0 HJ1 Hw) as (m' & E & G).
      exists m'. split; [exact E|]. eapply gains_ext; [|exact G]. intros ix _. cbv beta. rewrite Q0, Q1. apply bank2_ext; intros; [apply Ex|reflexivity]. }
    rewrite E. cbn [bind fst snd]. exists m'. auto.
Qed.
Print Assumptions C95_convolve2D.
Theorem C95_convolve3D : forall (R : cring) b x n w J0 J1 J2 (m : mem (car R)) X0 X1 X2 A q0 q1 q2, vwf x -> readable m x -> vblk x <> b -> 0 <= n -> 0 <= J0 -> 0 <= J1 -> 0 <= J2 -> let k := J0 * J1 * J2 * A in inside n k w ->
  let f o j0 j1 j2 a := matrix_of (R := R) w o (((j0 * J1 + j1) * J2 + j2) * A + a) in
  let N0 := X0 + 2 * q0 - J0 + 1 in let N1 := X1 + 2 * q1 - J1 + 1 in let N2 := X2 + 2 * q2 - J2 + 1 in 0 <= N0 -> 0 <= N1 -> 0 <= N2 ->
  let holds dims G := exists m', rsconvolve3D b x n k w J0 J1 J2 q0 q1 q2 m = Ok (Some (fresh_view b dims), m') /\ (forall ix, in_range ix dims -> elem m' (fresh_view b dims) ix = Some (G ix)) /\ forall b' a, b' <> b -> m' b' a = m b' a in
  (vdims x = [X0; X1; X2; A] -> holds [N0; N1; N2; n] (fun ix => bank3 X0 X1 X2 J0 J1 J2 A q0 q1 q2 (fun k0 k1 k2 a => elem0 m x [k0; k1; k2; a]) (f (nth 3 ix 0)) (nth 0 ix 0) (nth 1 ix 0) (nth 2 ix 0))) /\
  (forall C, vdims x = [X0; X1; X2; A; C] -> holds [N0; N1; N2; n; C] (fun ix => bank3 X0 X1 X2 J0 J1 J2 A q0 q1 q2 (fun k0 k1 k2 a => elem0 m x [k0; k1; k2; a; nth 4 ix 0]) (f (nth 3 ix 0)) (nth 0 ix 0) (nth 1 ix 0) (nth 2 ix 0))) /\
  (forall B C, vdims x = [B; X0; X1; X2; A; C] -> holds [B; N0; N1; N2; n; C] (fun ix => bank3 X0 X1 X2 J0 J1 J2 A q0 q1 q2 (fun k0 k1 k2 a => elem0 m x [nth 0 ix 0; k0; k1; k2; a; nth 5 ix 0]) (f (nth 4 ix 0)) (nth 1 ix 0) (nth 2 ix 0) (nth 3 ix 0))).
Proof.
  intros R b x n w J0 J1 J2 m X0 X1 X2 A q0 q1 q2 Wx Rx Bx Hn HJ0 HJ1 HJ2 k Hw f N0 N1 N2 HN0 HN1 HN2 holds. destruct (fit N0 X0 J0 q0 eq_refl) as [Q0 _]. destruct (fit N1 X1 J1 q1 eq_refl) as [Q1 _]. destruct (fit N2 X2 J2 q2 eq_refl) as [Q2 _]. pose proof (sizes_nonneg x Wx) as Nx.
  split; [|split].
  - intros Dx. unfold holds, rsconvolve3D, ndims. rewrite Dx, !(nd_eq x _ _ Dx). cbn [length Z.of_nat Pos.of_succ_nat Pos.succ Z.eqb Pos.eqb nth]. fold N0 N1 N2 k. rewrite Z.eqb_refl. cbn [assrt].
    destruct (fresh_result b [N0; N1; N2; n] x x (fun r => rsconv3_4 r x n w J0 J1 J2) (fun ix => bank3 X0 X1 X2 J0 J1 J2 A q0 q1 q2 (fun k0 k1 k2 a => elem0 m x [k0; k1; k2; a]) (f (nth 3 ix 0)) (nth 0 ix 0) (nth 1 ix 0) (nth 2 ix 0)) m) as (m' & E & V & U); try assumption; [now repeat constructor| |].
    { intros m1 Op Ex _. destruct (rsconv3_4_ok (fresh_view b [N0; N1; N2; n]) x n w J0 J1 J2 m1 N0 N1 N2 X0 X1 X2 A (only_one R _ _ _ Op) eq_refl Dx HJ0 HJ1 HJ2 Hw) as (m' & E & G).
      exists m'. split; [exact E|]. eapply gains_ext; [|exact G]. intros ix _. cbv beta. rewrite Q0, Q1, Q2. apply bank3_ext; intros; [apply Ex|reflexivity]. }
    rewrite E. cbn [bind fst snd]. exists m'. auto.
  - intros C Dx. unfold holds, rsconvolve3D, ndims. rewrite Dx, !(nd_eq x _ _ Dx). cbn [length Z.of_nat Pos.of_succ_nat Pos.succ Z.eqb Pos.eqb nth]. fold N0 N1 N2 k. rewrite Z.eqb_refl. cbn [assrt]. rewrite Dx in Nx.
    destruct (fresh_result b [N0; N1; N2; n; C] x x (fun r => rsconv3_5 r x n w J0 J1 J2) (fun ix => bank3 X0 X1 X2 J0 J1 J2 A q0 q1 q2 (fun k0 k1 k2 a => elem0 m x [k0; k1; k2; a; nth 4 ix 0]) (f (nth 3 ix 0)) (nth 0 ix 0) (nth 1 ix 0) (nth 2 ix 0)) m) as (m' & E & V & U); try assumption; [repeat constructor; try assumption; exact (Nx 4%nat)| |].
    { intros m1 Op Ex _. destruct (rsconv3_5_ok (fresh_view b [N0; N1; N2; n; C]) x n w J0 J1 J2 m1 N0 N1 N2 X0 X1 X2 A C (only_one R _ _ _ Op) eq_refl Dx HJ0 HJ1 HJ2 Hw) as (m' & E & G).
      exists m'. split; [exact E|]. eapply gains_ext; [|exact G]. intros ix _. cbv beta. rewrite Q0, Q1, Q2. apply bank3_ext; intros; [apply Ex|reflexivity]. }
    rewrite E. cbn [bind fst snd]. exists m'. auto.
  - intros B C Dx. unfold holds, rsconvolve3D, ndims. rewrite Dx, !(nd_eq x _ _ Dx). cbn [length Z.of_nat Pos.of_succ_nat Pos.succ Z.eqb Pos.eqb nth]. fold N0 N1 N2 k. rewrite Z.eqb_refl. cbn [assrt]. rewrite Dx in Nx.
    destruct (fresh_result b [B; N0; N1; N2; n; C] x x (fun r => rsconv3_6 r x n w J0 J1 J2) (fun ix => bank3 X0 X1 X2 J0 J1 J2 A q0 q1 q2 (fun k0 k1 k2 a => elem0 m x [nth 0 ix 0; k0; k1; k2; a; nth 5 ix 0]) (f (nth 4 ix 0)) (nth 1 ix 0) (nth 2 ix 0) (nth 3 ix 0)) m) as (m' & E & V & U); try assumption; [repeat constructor; try assumption; [exact (Nx 0%nat)|exact (Nx 5%nat)]| |].
    { intros m1 Op Ex _. destruct (rsconv3_6_ok (fresh_view b [B; N0; N1; N2; n; C]) x n w J0 J1 J2 m1 B N0 N1 N2 X0 X1 X2 A C (only_one R _ _ _ Op) eq_refl Dx HJ0 HJ1 HJ2 Hw) as (m' & E & G).
      exists m'. split; [exact E|]. eapply gains_ext; [|exact G]. intros ix _. cbv beta. rewrite Q0, Q1, Q2. apply bank3_ext; intros; [apply Ex|reflexivity]. }
    rewrite E. cbn [bind fst snd]. exists m'. auto.
Qed.
Print Assumptions C95_convolve3D.
(* operands that do not fit, and a filter of the wrong width, are refused; for other ranks no tensor is returned *)
Theorem C95_rejects : forall (R : cring) b x n k w J0 J1 J2 q0 q1 q2 (m : mem (car R)),
  (ndims x = 3 \/ ndims x = 4 -> k <> J0 * J1 * nd x 2 -> rsconvolve2D b x n k w J0 J1 q0 q1 m = Throw) /\ (ndims x = 5 -> k <> J0 * J1 * nd x 3 -> rsconvolve2D b x n k w J0 J1 q0 q1 m = Throw) /\ (ndims x = 6 -> k <> J0 * J1 * nd x 4 -> rsconvolve2D b x n k w J0 J1 q0 q1 m = Throw) /\
  (ndims x = 4 \/ ndims x = 5 -> k <> J0 * J1 * J2 * nd x 3 -> rsconvolve3D b x n k w J0 J1 J2 q0 q1 q2 m = Throw) /\ (ndims x = 6 -> k <> J0 * J1 * J2 * nd x 4 -> rsconvolve3D b x n k w J0 J1 J2 q0 q1 q2 m = Throw) /\
  (ndims x < 3 \/ ndims x > 6 -> rsconvolve2D b x n k w J0 J1 q0 q1 m = Ok (None, m)) /\ (ndims x < 4 \/ ndims x > 6 -> rsconvolve3D b x n k w J0 J1 J2 q0 q1 q2 m = Ok (None, m)) /\
  forall r, (nd r 2 <> n -> rsconv2_3 r x n w J0 J1 m = Throw) /\ (~ (nd r 2 = n /\ nd r 3 = nd x 3) -> rsconv2_4 r x n w J0 J1 m = Throw) /\ (~ (nd r 0 = nd x 0 /\ nd r 3 = n /\ nd r 4 = nd x 4) -> rsconv2_5 r x n w J0 J1 m = Throw) /\
    (~ (nd r 0 = nd x 0 /\ nd r 4 = n /\ nd r 3 = nd x 3 /\ nd r 5 = nd x 5) -> rsconv2_6 r x n w J0 J1 m = Throw) /\
    (nd r 3 <> n -> rsconv3_4 r x n w J0 J1 J2 m = Throw) /\ (~ (nd r 3 = n /\ nd r 4 = nd x 4) -> rsconv3_5 r x n w J0 J1 J2 m = Throw) /\ (~ (nd r 0 = nd x 0 /\ nd r 4 = n /\ nd r 5 = nd x 5) -> rsconv3_6 r x n w J0 J1 J2 m = Throw).
Proof.
  intros. unfold rsconvolve2D, rsconvolve3D. repeat match goal with |- (_ -> _) /\ _ => split end;
    try (intros [-> | ->] H; cbn [Z.eqb Pos.eqb]; fits); try (intros -> H; cbn [Z.eqb Pos.eqb]; fits);
    try (intro H; repeat match goal with |- context[ndims x =? ?a] => replace (ndims x =? a) with false by lia end; reflexivity).
  intro r. unfold rsconv2_3, rsconv2_4, rsconv2_5, rsconv2_6, rsconv3_4, rsconv3_5, rsconv3_6. repeat match goal with |- _ /\ _ => split end; intro H; fits.
Qed.
Print Assumptions C95_rejects.
Example C95_case : operands (View 0 3 [3; 4; 2] [16; 4; 2]) [View 1 4 [3; 4; 2] [20; 5; 2]] ex_mem /\ inside 2 (3 * 2 * 2) [(0, 3, 7); (1, 11, -2); (0, 3, 1)] /\ matrix_of (R := ZRing) [(0, 3, 7); (1, 11, -2); (0, 3, 1)] 0 3 = 8 /\
  operands (View 0 3 [2; 3; 2; 2] [16; 4; 2; 1]) [View 1 4 [2; 3; 2; 3] [25; 8; 3; 1]] ex_mem.
Proof. split; [opnd|]. split; [intros o s v H; repeat destruct H as [H|H]; try (injection H; intros; lia); destruct H|]. split; [reflexivity|opnd]. Qed.

(* ---- C96 ---- *)
(* three dimensions; when there is padding on the third axis, the loop over its taps runs to the length of the second axis of the filter: right for
   filters whose second and third axes are equally long *)
Theorem C96_plain_partial : forall (R : cring) r x w (m : mem (car R)) N0 N1 N2 O X0 X1 X2 A J0 J1 J2, operands r [x; w] m -> vdims r = [N0; N1; N2; O] -> vdims x = [X0; X1; X2; A] -> vdims w = [O; J0; J1; J2; A] ->
  (centred N2 X2 J2 = 0 -> N2 + J2 - 1 <= X2 /\ run_on (sd x 2) (sd x 3) A J2 /\ run_on (sd w 3) (sd w 4) A J2) -> (centred N2 X2 J2 <> 0 -> J1 = J2) ->
  exists m', rconv3_4 r x w m = Ok m' /\
    gains r (fun ix => bank3 X0 X1 X2 J0 J1 J2 A (centred N0 X0 J0) (centred N1 X1 J1) (centred N2 X2 J2) (fun q0 q1 q2 a => elem0 m x [q0; q1; q2; a]) (fun j0 j1 j2 a => elem0 m w [nth 3 ix 0; j0; j1; j2; a]) (nth 0 ix 0) (nth 1 ix 0) (nth 2 ix 0)) m m'.
Proof.
  intros R r x w m N0 N1 N2 O X0 X1 X2 A J0 J1 J2 Op Dr Dx Dw Hf Hj. destruct (rconv3_4_ok r x w m N0 N1 N2 O X0 X1 X2 A J0 J1 J2 Op Dr Dx Dw Hf) as (m' & E & G); [intro H; rewrite Hj by exact H; lia|].
  exists m'. split; [exact E|]. eapply gains_ext; [|exact G]. intros ix _. cbv beta. destruct (Z.eqb_spec (centred N2 X2 J2) 0) as [_|H]; [reflexivity|now rewrite Hj].
Qed.
Print Assumptions C96_plain_partial.
(* a filter shorter in its second axis than in its third: only the first J1 taps of the third axis take part *)
Theorem C96_box_refuted : forall (R : cring) r x w (m : mem (car R)) N0 N1 N2 O X0 X1 X2 A J0 J1 J2, operands r [x; w] m -> vdims r = [N0; N1; N2; O] -> vdims x = [X0; X1; X2; A] -> vdims w = [O; J0; J1; J2; A] ->
  centred N2 X2 J2 <> 0 -> J1 <= J2 ->
  exists m', rconv3_4 r x w m = Ok m' /\
    gains r (fun ix => bank3 X0 X1 X2 J0 J1 J1 A (centred N0 X0 J0) (centred N1 X1 J1) (centred N2 X2 J2) (fun q0 q1 q2 a => elem0 m x [q0; q1; q2; a]) (fun j0 j1 j2 a => elem0 m w [nth 3 ix 0; j0; j1; j2; a]) (nth 0 ix 0) (nth 1 ix 0) (nth 2 ix 0)) m m'.
Proof.
  intros R r x w m N0 N1 N2 O X0 X1 X2 A J0 J1 J2 Op Dr Dx Dw Hp Hj. destruct (rconv3_4_ok r x w m N0 N1 N2 O X0 X1 X2 A J0 J1 J2 Op Dr Dx Dw) as (m' & E & G); [intro; contradiction|now intros _|].
  exists m'. split; [exact E|]. eapply gains_ext; [|exact G]. intros ix _. cbv beta. now destruct (Z.eqb_spec (centred N2 X2 J2) 0) as [H|_].
Qed.
Print Assumptions C96_box_refuted.
(* the two sums differ; and a filter longer in its second axis is read beyond its end *)
Theorem C96_box_witness_refuted :
  (let r := View 0 0 [1; 1; 3; 1] [3; 3; 1; 1] in let x := View 1 0 [1; 1; 3; 1] [3; 3; 1; 1] in let w := View 2 0 [1; 1; 1; 3; 1] [3; 3; 3; 1; 1] in operands r [x; w] ex_mem /\ centred 3 3 3 = 1 /\
   exists m', rconv3_4 (R := ZRing) r x w ex_mem = Ok m' /\ elem m' r [0; 0; 1; 0] = Some (1 + 200 * 100) /\
   bank3 (R := ZRing) 1 1 3 1 1 3 1 0 0 1 (fun q0 q1 q2 a => elem0 (R := ZRing) ex_mem x [q0; q1; q2; a]) (fun j0 j1 j2 a => elem0 (R := ZRing) ex_mem w [0; j0; j1; j2; a]) 0 0 1 = 200 * 100 + 201 * 101 + 202 * 102) /\
  (let r := View 0 0 [1; 1; 5; 1] [5; 5; 1; 1] in let x := View 1 0 [1; 3; 3; 1] [9; 3; 1; 1] in let w := View 2 97 [1; 1; 3; 1; 1] [3; 3; 1; 1; 1] in operands r [x; w] ex_mem /\ centred 5 3 1 = 1 /\ rconv3_4 (R := ZRing) r x w ex_mem = UB).
Proof. split; cbv zeta; (split; [opnd|]); (split; [reflexivity|]); [eexists; split; [vm_compute; reflexivity|split; vm_compute; reflexivity]|vm_compute; reflexivity]. Qed.
Print Assumptions C96_box_witness_refuted.
Theorem C96_channels_partial : forall (R : cring) r x w (m : mem (car R)) N0 N1 N2 O X0 X1 X2 A C J0 J1 J2, operands r [x; w] m -> vdims w = [O; J0; J1; J2; A] ->
  (vdims r = [N0; N1; N2; O; C] -> vdims x = [X0; X1; X2; A; C] -> multiplies O A C (sd r 3) (sd r 4) (sd w 0) (sd w 4) (sd x 3) (sd x 4) -> exists m', rconv3_5 r x w m = Ok m' /\
     gains r (fun ix => bank3 X0 X1 X2 J0 J1 J2 A (centred N0 X0 J0) (centred N1 X1 J1) (centred N2 X2 J2) (fun q0 q1 q2 a => elem0 m x [q0; q1; q2; a; nth 4 ix 0]) (fun j0 j1 j2 a => elem0 m w [nth 3 ix 0; j0; j1; j2; a]) (nth 0 ix 0) (nth 1 ix 0) (nth 2 ix 0)) m m') /\
  (forall B, vdims r = [B; N0; N1; N2; O; C] -> vdims x = [B; X0; X1; X2; A; C] -> multiplies O A C (sd r 4) (sd r 5) (sd w 0) (sd w 4) (sd x 4) (sd x 5) -> exists m', rconv3_6 r x w m = Ok m' /\
     gains r (fun ix => bank3 X0 X1 X2 J0 J1 J2 A (centred N0 X0 J0) (centred N1 X1 J1) (centred N2 X2 J2) (fun q0 q1 q2 a => elem0 m x [nth 0 ix 0; q0; q1; q2; a; nth 5 ix 0]) (fun j0 j1 j2 a => elem0 m w [nth 4 ix 0; j0; j1; j2; a]) (nth 1 ix 0) (nth 2 ix 0) (nth 3 ix 0)) m m').
Proof.
  intros R r x w m N0 N1 N2 O X0 X1 X2 A C J0 J1 J2 Op Dw. split.
  - intros Dr Dx H. apply (rconv3_5_ok r x w m N0 N1 N2 O X0 X1 X2 A C J0 J1 J2); try assumption. now apply carried_iff.
  - intros B Dr Dx H. apply (rconv3_6_ok r x w m B N0 N1 N2 O X0 X1 X2 A C J0 J1 J2); try assumption. now apply carried_iff.
Qed.
Print Assumptions C96_channels_partial.
Theorem C96_layouts_refuted : forall (R : cring) r x w (m : mem (car R)) N0 N1 N2 O X0 X1 X2 A C J0 J1 J2, vdims w = [O; J0; J1; J2; A] ->
  (vdims r = [N0; N1; N2; O; C] -> vdims x = [X0; X1; X2; A; C] -> ~ multiplies O A C (sd r 3) (sd r 4) (sd w 0) (sd w 4) (sd x 3) (sd x 4) -> rconv3_5 r x w m = Ok m) /\
  (forall B, vdims r = [B; N0; N1; N2; O; C] -> vdims x = [B; X0; X1; X2; A; C] -> ~ multiplies O A C (sd r 4) (sd r 5) (sd w 0) (sd w 4) (sd x 4) (sd x 5) -> rconv3_6 r x w m = Ok m).
Proof.
  intros R r x w m N0 N1 N2 O X0 X1 X2 A C J0 J1 J2 Dw. split.
  - intros Dr Dx H. apply (rconv3_5_idle r x w m N0 N1 N2 O X0 X1 X2 A C J0 J1 J2); try assumption. now apply carried_not.
  - intros B Dr Dx H. apply (rconv3_6_idle r x w m B N0 N1 N2 O X0 X1 X2 A C J0 J1 J2); try assumption. now apply carried_not.
Qed.
Print Assumptions C96_layouts_refuted.
Theorem C96_convolve3D_partial : forall (R : cring) b x w (m : mem (car R)) O X0 X1 X2 A J0 J1 J2 q0 q1 q2, vwf x -> vwf w -> readable m x -> readable m w -> vblk x <> b -> vblk w <> b -> vdims w = [O; J0; J1; J2; A] ->
  let N0 := X0 + 2 * q0 - J0 + 1 in let N1 := X1 + 2 * q1 - J1 + 1 in let N2 := X2 + 2 * q2 - J2 + 1 in 0 <= N0 -> 0 <= N1 -> 0 <= N2 ->
  let holds dims G := exists m', rconvolve3D b x w q0 q1 q2 m = Ok (Some (fresh_view b dims), m') /\ (forall ix, in_range ix dims -> elem m' (fresh_view b dims) ix = Some (G ix)) /\ forall b' a, b' <> b -> m' b' a = m b' a in
  (vdims x = [X0; X1; X2; A] -> (q2 = 0 -> run_on (sd x 2) (sd x 3) A J2 /\ run_on (sd w 3) (sd w 4) A J2) -> (q2 <> 0 -> J1 = J2) ->
     holds [N0; N1; N2; O] (fun ix => bank3 X0 X1 X2 J0 J1 J2 A q0 q1 q2 (fun k0 k1 k2 a => elem0 m x [k0; k1; k2; a]) (fun j0 j1 j2 a => elem0 m w [nth 3 ix 0; j0; j1; j2; a]) (nth 0 ix 0) (nth 1 ix 0) (nth 2 ix 0))) /\
  (forall C, vdims x = [X0; X1; X2; A; C] -> multiplies O A C C 1 (sd w 0) (sd w 4) (sd x 3) (sd x 4) ->
     holds [N0; N1; N2; O; C] (fun ix => bank3 X0 X1 X2 J0 J1 J2 A q0 q1 q2 (fun k0 k1 k2 a => elem0 m x [k0; k1; k2; a; nth 4 ix 0]) (fun j0 j1 j2 a => elem0 m w [nth 3 ix 0; j0; j1; j2; a]) (nth 0 ix 0) (nth 1 ix 0) (nth 2 ix 0))) /\
  (forall B C, vdims x = [B; X0; X1; X2; A; C] -> multiplies O A C C 1 (sd w 0) (sd w 4) (sd x 4) (sd x 5) ->
     holds [B; N0; N1; N2; O; C] (fun ix => bank3 X0 X1 X2 J0 J1 J2 A q0 q1 q2 (fun k0 k1 k2 a => elem0 m x [nth 0 ix 0; k0; k1; k2; a; nth 5 ix 0]) (fun j0 j1 j2 a => elem0 m w [nth 4 ix 0; j0; j1; j2; a]) (nth 1 ix 0) (nth 2 ix 0) (nth 3 ix 0))).
Proof.
  intros R b x w m O X0 X1 X2 A J0 J1 J2 q0 q1 q2 Wx Ww Rx Rw Bx Bw Dw N0 N1 N2 HN0 HN1 HN2 holds. destruct (fit N0 X0 J0 q0 eq_refl) as [Q0 _]. destruct (fit N1 X1 J1 q1 eq_refl) as [Q1 _]. destruct (fit N2 X2 J2 q2 eq_refl) as [Q2 Hfit].
  pose proof (sizes_nonneg w Ww) as Nw. rewrite Dw in Nw. pose proof (sizes_nonneg x Wx) as Nx.
  split; [|split].
  - intros Dx H Hj. unfold holds, rconvolve3D. unfold ndims. rewrite Dw, Dx, !(nd_eq x _ _ Dx), !(nd_eq w _ _ Dw). cbn [length Z.of_nat Pos.of_succ_nat Pos.succ Z.eqb Pos.eqb nth assrt]. rewrite Z.eqb_refl. cbn [assrt]. fold N0 N1 N2.
    destruct (fresh_result b [N0; N1; N2; O] x w (fun r => rconv3_4 r x w) (fun ix => bank3 X0 X1 X2 J0 J1 J2 A q0 q1 q2 (fun k0 k1 k2 a => elem0 m x [k0; k1; k2; a]) (fun j0 j1 j2 a => elem0 m w [nth 3 ix 0; j0; j1; j2; a]) (nth 0 ix 0) (nth 1 ix 0) (nth 2 ix 0)) m) as (m' & E & V & U); try assumption.
    { repeat constructor; [assumption|assumption|assumption|exact (Nw 0%nat)]. }
    { intros m1 Op Ex Ew. destruct (C96_plain_partial R (fresh_view b [N0; N1; N2; O]) x w m1 N0 N1 N2 O X0 X1 X2 A J0 J1 J2 Op eq_refl Dx Dw) as (m' & E & G); [rewrite Q2; intro Z1; split; [now apply Hfit|now apply H]|now rewrite Q2|].
      exists m'. split; [exact E|]. eapply gains_ext; [|exact G]. intros ix _. cbv beta. rewrite Q0, Q1, Q2. apply bank3_ext; intros; [apply Ex|apply Ew]. }
    rewrite E. cbn [bind fst snd]. exists m'. auto.
  - intros C Dx HL. unfold holds, rconvolve3D. unfold ndims. rewrite Dw, Dx, !(nd_eq x _ _ Dx), !(nd_eq w _ _ Dw). cbn [length Z.of_nat Pos.of_succ_nat Pos.succ Z.eqb Pos.eqb nth assrt]. rewrite Z.eqb_refl. cbn [assrt]. fold N0 N1 N2. rewrite Dx in Nx.
    destruct (fresh_result b [N0; N1; N2; O; C] x w (fun r => rconv3_5 r x w) (fun ix => bank3 X0 X1 X2 J0 J1 J2 A q0 q1 q2 (fun k0 k1 k2 a => elem0 m x [k0; k1; k2; a; nth 4 ix 0]) (fun j0 j1 j2 a => elem0 m w [nth 3 ix 0; j0; j1; j2; a]) (nth 0 ix 0) (nth 1 ix 0) (nth 2 ix 0)) m) as (m' & E & V & U); try assumption.
    { repeat constructor; [assumption|assumption|assumption|exact (Nw 0%nat)|exact (Nx 4%nat)]. }
    { intros m1 Op Ex Ew. destruct (rconv3_5_ok (fresh_view b [N0; N1; N2; O; C]) x w m1 N0 N1 N2 O X0 X1 X2 A C J0 J1 J2 Op eq_refl Dx Dw) as (m' & E & G); [apply carried_iff; destruct (own_layout b N1 N2 O C N0 0) as (_ & [L1 L2] & _); rewrite L1, L2; exact HL|].
      exists m'. split; [exact E|]. eapply gains_ext; [|exact G]. intros ix _. cbv beta. rewrite Q0, Q1, Q2. apply bank3_ext; intros; [apply Ex|apply Ew]. }
    rewrite E. cbn [bind fst snd]. exists m'. auto.
  - intros B C Dx HL. unfold holds, rconvolve3D. unfold ndims. rewrite Dw, Dx, !(nd_eq x _ _ Dx), !(nd_eq w _ _ Dw). cbn [length Z.of_nat Pos.of_succ_nat Pos.succ Z.eqb Pos.eqb nth assrt]. rewrite Z.eqb_refl. cbn [assrt]. fold N0 N1 N2. rewrite Dx in Nx.
    destruct (fresh_result b [B; N0; N1; N2; O; C] x w (fun r => rconv3_6 r x w) (fun ix => bank3 X0 X1 X2 J0 J1 J2 A q0 q1 q2 (fun k0 k1 k2 a => elem0 m x [nth 0 ix 0; k0; k1; k2; a; nth 5 ix 0]) (fun j0 j1 j2 a => elem0 m w [nth 4 ix 0; j0; j1; j2; a]) (nth 1 ix 0) (nth 2 ix 0) (nth 3 ix 0)) m) as (m' & E & V & U); try assumption.
    { repeat constructor; [exact (Nx 0%nat)|assumption|assumption|assumption|exact (Nw 0%nat)|exact (Nx 5%nat)]. }
    { intros m1 Op Ex Ew. destruct (rconv3_6_ok (fresh_view b [B; N0; N1; N2; O; C]) x w m1 B N0 N1 N2 O X0 X1 X2 A C J0 J1 J2 Op eq_refl Dx Dw) as (m' & E & G); [apply carried_iff; destruct (own_layout b N0 N1 O C B N2) as (_ & _ & [L1 L2]); rewrite L1, L2; exact HL|].
      exists m'. split; [exact E|]. eapply gains_ext; [|exact G]. intros ix _. cbv beta. rewrite Q0, Q1, Q2. apply bank3_ext; intros; [apply Ex|apply Ew]. }
    rewrite E. cbn [bind fst snd]. exists m'. auto.
Qed.
Print Assumptions C96_convolve3D_partial.
(* with channels and a filter of more than one tap stored row by row, the result is all zeros *)
Theorem C96_row_by_row_refuted : forall (R : cring) b x w (m : mem (car R)) O X0 X1 X2 A C J0 J1 J2 q0 q1 q2, vwf x -> vwf w -> readable m x -> vblk x <> b -> vdims w = [O; J0; J1; J2; A] -> vdims x = [X0; X1; X2; A; C] ->
  vstr w = [J0 * J1 * J2 * A; J1 * J2 * A; J2 * A; A; 1] -> 1 <= A -> J0 * J1 * J2 <> 1 ->
  let N0 := X0 + 2 * q0 - J0 + 1 in let N1 := X1 + 2 * q1 - J1 + 1 in let N2 := X2 + 2 * q2 - J2 + 1 in 0 <= N0 -> 0 <= N1 -> 0 <= N2 ->
  exists r m', rconvolve3D b x w q0 q1 q2 m = Ok (Some r, m') /\ vdims r = [N0; N1; N2; O; C] /\ forall ix, in_range ix [N0; N1; N2; O; C] -> elem m' r ix = Some c0.
Proof.
  intros R b x w m O X0 X1 X2 A C J0 J1 J2 q0 q1 q2 Wx Ww Rx Bx Dw Dx Sw HA H N0 N1 N2 HN0 HN1 HN2.
  pose proof (sizes_nonneg w Ww) as Nw. rewrite Dw in Nw. pose proof (sizes_nonneg x Wx) as Nx. rewrite Dx in Nx.
  destruct (fresh_idle b [N0; N1; N2; O; C] x (fun r => rconv3_5 r x w) m) as (m' & E & V); try assumption.
  { repeat constructor; [assumption|assumption|assumption|exact (Nw 0%nat)|exact (Nx 4%nat)]. }
  { intro m1. apply (rconv3_5_idle (fresh_view b [N0; N1; N2; O; C]) x w m1 N0 N1 N2 O X0 X1 X2 A C J0 J1 J2); [reflexivity|assumption|assumption|]. apply carried_not. unfold multiplies, by_rows, by_cols, sd. rewrite Sw. cbn [nth].
    generalize dependent (J0 * J1 * J2). intros T _ HT. intros (_ & [[[P _] _]|[[[P _] _]|[[P _] _]]]); nia. }
  exists (fresh_view b [N0; N1; N2; O; C]), m'. unfold rconvolve3D, ndims. rewrite Dw, Dx, !(nd_eq x _ _ Dx), !(nd_eq w _ _ Dw). cbn [length Z.of_nat Pos.of_succ_nat Pos.succ Z.eqb Pos.eqb nth assrt]. rewrite Z.eqb_refl. cbn [assrt]. fold N0 N1 N2. rewrite E. cbn [bind fst snd]. auto.
Qed.
Print Assumptions C96_row_by_row_refuted.
Theorem C96_rejects : forall (R : cring) r x w (m : mem (car R)),
  (~ (nd r 3 = nd w 0 /\ nd x 3 = nd w 4) -> rconv3_4 r x w m = Throw) /\ (~ (nd r 3 = nd w 0 /\ nd x 3 = nd w 4 /\ nd r 4 = nd x 4) -> rconv3_5 r x w m = Throw) /\
  (~ (nd r 0 = nd x 0 /\ nd r 4 = nd w 0 /\ nd r 5 = nd x 5 /\ nd x 4 = nd w 4) -> rconv3_6 r x w m = Throw) /\
  forall b q0 q1 q2, (ndims w <> 5 -> rconvolve3D b x w q0 q1 q2 m = Throw) /\
    (ndims x = 4 \/ ndims x = 5 -> nd w 4 <> nd x 3 -> rconvolve3D b x w q0 q1 q2 m = Throw) /\ (ndims x = 6 -> nd w 4 <> nd x 4 -> rconvolve3D b x w q0 q1 q2 m = Throw).
Proof.
  intros R r x w m. unfold rconv3_4, rconv3_5, rconv3_6, rconvolve3D. do 3 (split; [intro H; fits|]). intros b q0 q1 q2. split; [intro H; destruct (Z.eqb_spec (ndims w) 5); [contradiction|reflexivity]|].
  destruct (ndims w =? 5); cbn [assrt]; [|auto]. split; [intros [-> | ->] H; cbn [Z.eqb Pos.eqb]; fits|]. intros -> H; cbn [Z.eqb Pos.eqb]; fits.
Qed.
Print Assumptions C96_rejects.
Example C96_case : operands (View 0 3 [2; 3; 3; 2] [36; 12; 4; 2]) [View 1 4 [2; 3; 3; 2] [40; 12; 4; 2]; View 2 1 [2; 2; 2; 3; 2] [40; 20; 9; 3; 1]] ex_mem /\ centred 3 3 3 = 1 /\
  operands (View 0 3 [2; 3; 1; 2] [36; 12; 4; 2]) [View 1 4 [2; 3; 3; 2] [40; 12; 4; 2]; View 2 1 [2; 2; 2; 3; 2] [40; 20; 9; 2; 1]] ex_mem /\ centred 1 3 3 = 0 /\ run_on 4 2 2 3 /\ run_on 2 1 2 3 /\
  operands (View 0 3 [2; 1; 3; 2; 3] [40; 40; 8; 3; 1]) [View 1 4 [2; 1; 3; 2; 3] [40; 20; 8; 3; 1]; View 2 1 [2; 2; 2; 3; 2] [2; 40; 20; 4; 1]] ex_mem /\ multiplies 2 2 3 3 1 2 1 3 1.
Proof. repeat match goal with |- _ /\ _ => split end; first [opnd | reflexivity | now right | unfold multiplies, by_rows, by_cols; lia]. Qed.

(* ---- C97: the gradient of x, for results of the size convolve3D gives ---- *)
Theorem C97_plain_partial : forall (R : cring) rg xg w (m : mem (car R)) N0 N1 N2 O X0 X1 X2 A J0 J1 J2 p0 p1 p2, operands xg [rg; w] m -> vdims rg = [N0; N1; N2; O] -> vdims xg = [X0; X1; X2; A] -> vdims w = [O; J0; J1; J2; A] ->
  N0 = X0 + 2 * p0 - J0 + 1 -> N1 = X1 + 2 * p1 - J1 + 1 -> N2 = X2 + 2 * p2 - J2 + 1 ->
  (p2 = J2 - 1 -> run_on (sd rg 2) (sd rg 3) O J2 /\ run_on (- sd w 3) (sd w 0) O J2) -> (p2 <> J2 - 1 -> J1 = J2) ->
  exists m', rconv3_back0 rg xg w m = Ok m' /\
    gains xg (fun ix => bank3_dx N0 N1 N2 J0 J1 J2 O p0 p1 p2 (fun k0 k1 k2 o => elem0 m rg [k0; k1; k2; o]) (fun o j0 j1 j2 => elem0 m w [o; j0; j1; j2; nth 3 ix 0]) (nth 0 ix 0) (nth 1 ix 0) (nth 2 ix 0)) m m'.
Proof. exact @back0_4_ok. Qed.
Print Assumptions C97_plain_partial.
Theorem C97_channels_partial : forall (R : cring) rg xg w (m : mem (car R)) N0 N1 N2 O X0 X1 X2 A C J0 J1 J2 p0 p1 p2, operands xg [rg; w] m -> vdims w = [O; J0; J1; J2; A] ->
  N0 = X0 + 2 * p0 - J0 + 1 -> N1 = X1 + 2 * p1 - J1 + 1 -> N2 = X2 + 2 * p2 - J2 + 1 ->
  (vdims rg = [N0; N1; N2; O; C] -> vdims xg = [X0; X1; X2; A; C] -> multiplies A O C (sd xg 3) (sd xg 4) (sd w 4) (sd w 0) (sd rg 3) (sd rg 4) -> exists m', rconv3_back0 rg xg w m = Ok m' /\
     gains xg (fun ix => bank3_dx N0 N1 N2 J0 J1 J2 O p0 p1 p2 (fun k0 k1 k2 o => elem0 m rg [k0; k1; k2; o; nth 4 ix 0]) (fun o j0 j1 j2 => elem0 m w [o; j0; j1; j2; nth 3 ix 0]) (nth 0 ix 0) (nth 1 ix 0) (nth 2 ix 0)) m m') /\
  (forall B, vdims rg = [B; N0; N1; N2; O; C] -> vdims xg = [B; X0; X1; X2; A; C] -> multiplies A O C (sd xg 4) (sd xg 5) (sd w 4) (sd w 0) (sd rg 4) (sd rg 5) -> exists m', rconv3_back0 rg xg w m = Ok m' /\
     gains xg (fun ix => bank3_dx N0 N1 N2 J0 J1 J2 O p0 p1 p2 (fun k0 k1 k2 o => elem0 m rg [nth 0 ix 0; k0; k1; k2; o; nth 5 ix 0]) (fun o j0 j1 j2 => elem0 m w [o; j0; j1; j2; nth 4 ix 0]) (nth 1 ix 0) (nth 2 ix 0) (nth 3 ix 0)) m m').
Proof.
  intros R rg xg w m N0 N1 N2 O X0 X1 X2 A C J0 J1 J2 p0 p1 p2 Op Dw E0 E1 E2. split.
  - intros Dr Dx H. now apply (back0_5_ok rg xg w m N0 N1 N2 O X0 X1 X2 A C J0 J1 J2 p0 p1 p2).
  - intros B Dr Dx H. now apply (back0_6_ok rg xg w m B N0 N1 N2 O X0 X1 X2 A C J0 J1 J2 p0 p1 p2).
Qed.
Print Assumptions C97_channels_partial.
(* bank3_dx is the transpose of bank3: against any x, the gradient gives what g gives against the convolution of x *)
Theorem C97_adjoint : forall (R : cring) N0 N1 N2 X0 X1 X2 J0 J1 J2 A O p0 p1 p2 (g x : Z -> Z -> Z -> Z -> R) (w : Z -> Z -> Z -> Z -> Z -> R),
  sum_box N0 N1 N2 (fun k0 k1 k2 => sum_to O (fun o => cmul (g k0 k1 k2 o) (bank3 X0 X1 X2 J0 J1 J2 A p0 p1 p2 x (w o) k0 k1 k2))) =
  sum_box X0 X1 X2 (fun i0 i1 i2 => sum_to A (fun a => cmul (x i0 i1 i2 a) (bank3_dx N0 N1 N2 J0 J1 J2 O p0 p1 p2 g (fun o j0 j1 j2 => w o j0 j1 j2 a) i0 i1 i2))).
Proof. exact @adjoint3. Qed.
Print Assumptions C97_adjoint.
(* sizes that leave one zero to add on one side only: the gradient is that of a convolution shifted by one *)
Theorem C97_uneven_refuted : let rg := View 1 0 [2; 1; 1; 1] [1; 1; 1; 1] in let xg := View 0 0 [2; 1; 1; 1] [1; 1; 1; 1] in let w := View 2 0 [1; 2; 1; 1; 1] [2; 1; 1; 1; 1] in
  operands xg [rg; w] ex_mem /\ centred 2 2 2 = 0 /\ exists m', rconv3_back0 (R := ZRing) rg xg w ex_mem = Ok m' /\ elem m' xg [0; 0; 0; 0] = Some (0 + (201 * 100 + 200 * 101)) /\
  bank3_dx (R := ZRing) 2 1 1 2 1 1 1 (centred 2 2 2) 0 0 (fun k0 k1 k2 o => elem0 (R := ZRing) ex_mem rg [k0; k1; k2; o]) (fun o j0 j1 j2 => elem0 (R := ZRing) ex_mem w [o; j0; j1; j2; 0]) 0 0 0 = 200 * 100.
Proof. cbv zeta. split; [opnd|]. split; [reflexivity|]. eexists. split; [vm_compute; reflexivity|]. split; vm_compute; reflexivity. Qed.
Print Assumptions C97_uneven_refuted.
Example C97_case : operands (View 0 3 [2; 3; 3; 2] [36; 12; 4; 2]) [View 1 4 [2; 3; 3; 2] [40; 12; 4; 2]; View 2 1 [2; 1; 3; 3; 2] [45; 40; 9; 3; 1]] ex_mem /\ 2 = 2 + 2 * 0 - 1 + 1 /\ 3 = 3 + 2 * 1 - 3 + 1 /\ 1 <> 3 - 1 /\
  operands (View 0 3 [2; 1; 3; 2; 3] [40; 40; 8; 3; 1]) [View 1 4 [2; 1; 3; 2; 3] [40; 20; 8; 3; 1]; View 2 1 [2; 1; 1; 3; 2] [1; 40; 20; 4; 2]] ex_mem /\ multiplies 2 2 3 3 1 2 1 3 1.
Proof. repeat match goal with |- _ /\ _ => split end; first [opnd | reflexivity | lia | unfold multiplies, by_rows, by_cols; lia]. Qed.
