(* Proofs_RConv4.v -- three-dimensional convolution with dense filters. *)
From Verif Require Import Base BaseFacts Model_Index Model_View Model_Tensor Model_Ops Model_RView Model_Einsum Model_Convolve Model_RConv Spec_Index Spec_View Spec_Tensor Spec_Convolve Spec_Convolve2D Spec_RConv
  Proofs_Axes Proofs_Index Proofs_View Proofs_Tensor Proofs_Tensor2 Proofs_Tensor3 Proofs_Convolve Proofs_Convolve2 Proofs_Convolve2D Proofs_Convolve2D2 Proofs_Ops2 Proofs_Ops3 Spec_RView Proofs_RView Proofs_RView2 Proofs_RView3 Proofs_RView5 Proofs_RView6 Spec_CView Proofs_CView3 Proofs_RConv Proofs_RConv2 Proofs_RConv3.
Local Open Scope Z_scope.

Section S.
Context {R : cring}.
Notation memR := (mem (car R)).
Implicit Types m : memR.
Add Ring RR : (cth R).

Lemma bank3_loops X0 X1 X2 J0 J1 J2 A p0 p1 p2 (x w : Z -> Z -> Z -> Z -> R) i0 i1 i2 :
  rsum (map (fun j0 => rsum (map (fun j1 => rsum (map (fun j2 => sum_to A (fun a => cmul (w j0 j1 j2 a) (x (i0 + j0 - p0) (i1 + j1 - p1) (i2 + j2 - p2) a))) (wlist p2 i2 X2 J2))) (wlist p1 i1 X1 J1))) (wlist p0 i0 X0 J0)) =
  bank3 X0 X1 X2 J0 J1 J2 A p0 p1 p2 x w i0 i1 i2.
Proof.
  rewrite sum_wlist. unfold bank3, sum_box. apply sum_ext. intros j0 _. rewrite (zpad_ext X0 _ (fun _ => sum_grid J1 J2 (fun j1 j2 => zpad2 X1 X2 (fun q1 q2 => sum_to A (fun a => cmul (w j0 j1 j2 a) (x (i0 + j0 - p0) q1 q2 a))) (i1 + j1 - p1) (i2 + j2 - p2)))).
  2: { intros _. apply (sum_wlist2 p1 i1 X1 J1 p2 i2 X2 J2 (fun j1 j2 q1 q2 => sum_to A (fun a => cmul (w j0 j1 j2 a) (x (i0 + j0 - p0) q1 q2 a)))). }
  unfold sum_grid at 1. rewrite zpad_sum. unfold sum_grid at 1. apply sum_ext. intros j1 _. rewrite zpad_sum. apply sum_ext. intros j2 _. unfold zpad3. unfold zpad at 1 2. now destruct ((0 <=? i0 + j0 - p0) && (i0 + j0 - p0 <? X0)).
Qed.
Lemma bank3_fused X0 X1 X2 J0 J1 J2 A p0 p1 (x w : Z -> Z -> Z -> Z -> R) i0 i1 i2 : 0 <= J2 -> 0 <= A -> 0 <= i2 -> i2 + J2 <= X2 ->
  rsum (map (fun j0 => rsum (map (fun j1 => sum_to (J2 * A) (fun k => cmul (w j0 j1 (k / A) (k mod A)) (x (i0 + j0 - p0) (i1 + j1 - p1) (i2 + k / A) (k mod A)))) (wlist p1 i1 X1 J1))) (wlist p0 i0 X0 J0)) =
  bank3 X0 X1 X2 J0 J1 J2 A p0 p1 0 x w i0 i1 i2.
Proof.
  intros HJ HA Hi Hfit. rewrite <- bank3_loops. apply rsum_ext. intros j0 _. apply rsum_ext. intros j1 _. rewrite (sum_fused J2 A (fun j2 a => cmul (w j0 j1 j2 a) (x (i0 + j0 - p0) (i1 + j1 - p1) (i2 + j2) a))) by assumption.
  rewrite sum_wlist. unfold sum_grid. apply sum_ext. intros j2 Hj2. rewrite zpad_in by lia. now replace (i2 + j2 - 0) with (i2 + j2) by lia.
Qed.
Lemma bank3_ext X0 X1 X2 J0 J1 J2 A p0 p1 p2 (x w x' w' : Z -> Z -> Z -> Z -> R) i0 i1 i2 :
  (forall q0 q1 q2 a, 0 <= q0 < X0 -> 0 <= q1 < X1 -> 0 <= q2 < X2 -> 0 <= a < A -> x q0 q1 q2 a = x' q0 q1 q2 a) ->
  (forall j0 j1 j2 a, 0 <= j0 < J0 -> 0 <= j1 < J1 -> 0 <= j2 < J2 -> 0 <= a < A -> w j0 j1 j2 a = w' j0 j1 j2 a) ->
  bank3 X0 X1 X2 J0 J1 J2 A p0 p1 p2 x w i0 i1 i2 = bank3 X0 X1 X2 J0 J1 J2 A p0 p1 p2 x' w' i0 i1 i2.
Proof.
  intros Hx Hw. unfold bank3, sum_box, sum_grid. apply sum_ext. intros j0 H0. apply sum_ext. intros j1 H1. apply sum_ext. intros j2 H2. unfold zpad3, zpad2. apply zpad_ext. intro Hq0. apply zpad_ext. intro Hq1. apply zpad_ext. intro Hq2. apply sum_ext. intros a Ha. now rewrite Hx, Hw.
Qed.

Lemma x4_win1 x X0 X1 X2 A q0 q1 q2 : vwf x -> vdims x = [X0; X1; X2; A] -> 0 <= q0 < X0 -> 0 <= q1 < X1 -> 0 <= q2 < X2 ->
  let v := View (vblk x) (voff x + q0 * sd x 0 + q1 * sd x 1 + q2 * sd x 2) [A] [sd x 3] in vwf v /\ shows v x (fun ix => [q0; q1; q2; nth 0 ix 0]).
Proof. intros W D H0 H1 H2. cbv zeta. split_view x W D. win. Qed.
Lemma x4_fused1 x X0 X1 X2 A J q0 q1 q2 : vwf x -> vdims x = [X0; X1; X2; A] -> 0 <= J -> run_on (sd x 2) (sd x 3) A J -> 0 <= q0 < X0 -> 0 <= q1 < X1 -> 0 <= q2 -> q2 + J <= X2 ->
  let v := View (vblk x) (voff x + q0 * sd x 0 + q1 * sd x 1 + q2 * sd x 2) [J * A] [sd x 3] in vwf v /\ shows v x (fun ix => [q0; q1; q2 + nth 0 ix 0 / A; nth 0 ix 0 mod A]).
Proof. intros W D HJ K H0 H1 H2 H3. cbv zeta. split_view x W D. unfold sd in K. cbn [nth vstr] in K. split; [split; [reflexivity|unfold nonneg; repeat constructor; nia]|]. intros ix Hix. cbn [vdims] in Hix. entries. unfold nd, sd in *. cbn [vblk voff vdims vstr nth] in *. jn.
  split; [repeat constructor; lia|]. unfold vaddr; cbn -[Z.mul Z.add Z.sub Z.div Z.modulo Z.opp]; do 2 f_equal; lia. Qed.
Lemma w5_win w O J0 J1 J2 A j0 j1 j2 : vwf w -> vdims w = [O; J0; J1; J2; A] -> 0 <= j0 < J0 -> 0 <= j1 < J1 -> 0 <= j2 < J2 ->
  let v := View (vblk w) (voff w + j0 * sd w 1 + j1 * sd w 2 + j2 * sd w 3) [O; A] [sd w 0; sd w 4] in vwf v /\ shows v w (fun ix => [nth 0 ix 0; j0; j1; j2; nth 1 ix 0]).
Proof. intros W D H0 H1 H2. cbv zeta. split_view w W D. win. Qed.
Lemma w5_fused w O J0 J1 J2 A j0 j1 : vwf w -> vdims w = [O; J0; J1; J2; A] -> run_on (sd w 3) (sd w 4) A J2 -> 0 <= j0 < J0 -> 0 <= j1 < J1 ->
  let v := View (vblk w) (voff w + j0 * sd w 1 + j1 * sd w 2) [O; J2 * A] [sd w 0; sd w 4] in vwf v /\ shows v w (fun ix => [nth 0 ix 0; j0; j1; nth 1 ix 0 / A; nth 1 ix 0 mod A]).
Proof. intros W D K H0 H1. cbv zeta. split_view w W D. unfold sd in K. cbn [nth vstr] in K. split; [split; [reflexivity|unfold nonneg; repeat constructor; nia]|]. intros ix Hix. cbn [vdims] in Hix. entries. unfold nd, sd in *. cbn [vblk voff vdims vstr nth] in *. jn.
  split; [repeat constructor; lia|]. unfold vaddr; cbn -[Z.mul Z.add Z.sub Z.div Z.modulo Z.opp]; do 2 f_equal; lia. Qed.
Lemma x5_win x X0 X1 X2 A C q0 q1 q2 : vwf x -> vdims x = [X0; X1; X2; A; C] -> 0 <= q0 < X0 -> 0 <= q1 < X1 -> 0 <= q2 < X2 ->
  let v := View (vblk x) (voff x + q0 * sd x 0 + q1 * sd x 1 + q2 * sd x 2) [A; C] [sd x 3; sd x 4] in vwf v /\ shows v x (fun ix => [q0; q1; q2; nth 0 ix 0; nth 1 ix 0]).
Proof. intros W D H0 H1 H2. cbv zeta. split_view x W D. win. Qed.

(* the loop over j2 stops at the second side of the filter: K positions of the third axis take part *)
Lemma rconv3_4_ok r x w m N0 N1 N2 O X0 X1 X2 A J0 J1 J2 : operands r [x; w] m -> vdims r = [N0; N1; N2; O] -> vdims x = [X0; X1; X2; A] -> vdims w = [O; J0; J1; J2; A] ->
  let p2 := centred N2 X2 J2 in let K := if p2 =? 0 then J2 else J1 in
  (p2 = 0 -> N2 + J2 - 1 <= X2 /\ run_on (sd x 2) (sd x 3) A J2 /\ run_on (sd w 3) (sd w 4) A J2) -> (p2 <> 0 -> J1 <= J2) ->
  exists m', rconv3_4 r x w m = Ok m' /\
    gains r (fun ix => bank3 X0 X1 X2 J0 J1 K A (centred N0 X0 J0) (centred N1 X1 J1) p2 (fun q0 q1 q2 a => elem0 m x [q0; q1; q2; a]) (fun j0 j1 j2 a => elem0 m w [nth 3 ix 0; j0; j1; j2; a]) (nth 0 ix 0) (nth 1 ix 0) (nth 2 ix 0)) m m'.
Proof.
  intros Op Dr Dx Dw p2 K Hf Hle. pose proof Op as (Wr & Hd & Rr & F). inversion F as [|? ? (Wx & _ & _) F']; subst; inversion F' as [|? ? (Ww & _ & _) _]; subst. clear F F'.
  unfold rconv3_4. rewrite !(nd_eq r _ _ Dr), !(nd_eq x _ _ Dx), !(nd_eq w _ _ Dw). cbn [nth]. rewrite !Z.eqb_refl. cbn [assrt]. cbv zeta.
  change (pad0 N0 X0 J0) with (centred N0 X0 J0). change (pad0 N1 X1 J1) with (centred N1 X1 J1). change (pad0 N2 X2 J2) with p2. set (p0 := centred N0 X0 J0) in *. set (p1 := centred N1 X1 J1) in *.
  apply (slices3_gain r N0 N1 N2 [O]); try assumption. intros i0 i1 i2 m1 Hi0 Hi1 Hi2 U1 p Wp Dp Sp R1. cbn [nth].
  assert (Ip : forall ix jx, in_range ix (vdims p) -> in_range jx (vdims p) -> i0 :: i1 :: i2 :: ix = i0 :: i1 :: i2 :: jx -> ix = jx) by (intros; congruence).
  assert (Ep : View (vblk r) (voff r + i0 * sd r 0 + i1 * sd r 1 + i2 * sd r 2) [O] [sd r 3] = p).
  { unfold p, rvN_slice0. destruct r as [br or dr sr]. cbn [vdims] in Dr. subst dr. destruct Wr as [L _]. cbn [vdims vstr] in L. repeat (destruct sr as [|? sr]; try discriminate L). reflexivity. }
  rewrite Ep. clearbody p. rewrite forR_wlist.
  assert (Us : forall m2, untouched m1 m2 p -> untouched m m2 r) by (intros m2 U2; eapply untouched_trans; [exact U1|]; eapply sub_untouched; eassumption).
  unfold K in *. destruct (Z.eqb_spec p2 0) as [Z2|Z2].
  - destruct (Hf Z2) as (Hfit & Jx & Jw). assert (HJ : 0 <= J2 /\ 0 <= A) by (destruct Ww as [_ N]; rewrite Dw in N; unfold nonneg in N; repeat match goal with H : Forall _ (_ :: _) |- _ => inversion H; subst; clear H end; lia).
    destruct (gains_fold p (fun j0 => foldM (fun j1 => rv2_add_mprod_to (View (vblk w) (voff w + j0 * sd w 1 + j1 * sd w 2) [O; J2 * A] [sd w 0; sd w 4]) p (View (vblk x) (voff x + (i0 + j0 - p0) * sd x 0 + (i1 + j1 - p1) * sd x 1 + i2 * sd x 2) [J2 * A] [sd x 3])) (wlist p1 i1 X1 J1))
      (fun j0 ix => rsum (map (fun j1 => sum_to (J2 * A) (fun k => cmul (elem0 m w [nth 0 ix 0; j0; j1; k / A; k mod A]) (elem0 m x [i0 + j0 - p0; i1 + j1 - p1; i2 + k / A; k mod A]))) (wlist p1 i1 X1 J1))) (wlist p0 i0 X0 J0) m1 m1 R1 (untouched_same m1 p)) as (m2 & E2 & G2).
    { intros j0 m2 Hj0 R2 U2. apply in_wlist in Hj0 as [Hj0 Hq0].
      destruct (gains_fold p (fun j1 => rv2_add_mprod_to (View (vblk w) (voff w + j0 * sd w 1 + j1 * sd w 2) [O; J2 * A] [sd w 0; sd w 4]) p (View (vblk x) (voff x + (i0 + j0 - p0) * sd x 0 + (i1 + j1 - p1) * sd x 1 + i2 * sd x 2) [J2 * A] [sd x 3]))
        (fun j1 ix => sum_to (J2 * A) (fun k => cmul (elem0 m w [nth 0 ix 0; j0; j1; k / A; k mod A]) (elem0 m x [i0 + j0 - p0; i1 + j1 - p1; i2 + k / A; k mod A]))) (wlist p1 i1 X1 J1) m1 m2 R2 U2) as (m3 & E3 & G3); [|now exists m3].
      intros j1 m3 Hj1 R3 U3. apply in_wlist in Hj1 as [Hj1 Hq1]. destruct (x4_fused1 x X0 X1 X2 A J2 _ _ i2 Wx Dx ltac:(lia) Jx Hq0 Hq1 ltac:(lia) ltac:(lia)) as [WX SX]. destruct (w5_fused w O J0 J1 J2 A _ _ Ww Dw Jw Hj0 Hj1) as [WW SW].
      apply (tap1 r x w m m3 p _ _ (fun ix => i0 :: i1 :: i2 :: ix) (fun ix => [i0 + j0 - p0; i1 + j1 - p1; i2 + nth 0 ix 0 / A; nth 0 ix 0 mod A]) (fun ix => [nth 0 ix 0; j0; j1; nth 1 ix 0 / A; nth 1 ix 0 mod A]) O (J2 * A)); try assumption; try reflexivity.
      now apply Us. }
    exists m2. split; [rewrite <- E2; apply foldM_ext; intros j0 m3 _; apply forR_wlist|]. eapply gains_ext; [|exact G2]. intros ix Hix. rewrite Dp in Hix. apply in_range_1_inv in Hix as (o & -> & Ho). cbn [nth].
    rewrite Z2. apply (bank3_fused X0 X1 X2 J0 J1 J2 A p0 p1 (fun q0 q1 q2 a => elem0 m x [q0; q1; q2; a]) (fun j0 j1 j2 a => elem0 m w [o; j0; j1; j2; a])); lia.
  - specialize (Hle Z2).
    set (st := fun j0 j1 j2 => rv2_add_mprod_to (R := R) (View (vblk w) (voff w + j0 * sd w 1 + j1 * sd w 2 + j2 * sd w 3) [O; A] [sd w 0; sd w 4]) p (View (vblk x) (voff x + (i0 + j0 - p0) * sd x 0 + (i1 + j1 - p1) * sd x 1 + (i2 + j2 - p2) * sd x 2) [A] [sd x 3])).
    destruct (gains_fold p (fun j0 => foldM (fun j1 => foldM (st j0 j1) (wlist p2 i2 X2 J1)) (wlist p1 i1 X1 J1))
      (fun j0 ix => rsum (map (fun j1 => rsum (map (fun j2 => sum_to A (fun a => cmul (elem0 m w [nth 0 ix 0; j0; j1; j2; a]) (elem0 m x [i0 + j0 - p0; i1 + j1 - p1; i2 + j2 - p2; a]))) (wlist p2 i2 X2 J1))) (wlist p1 i1 X1 J1))) (wlist p0 i0 X0 J0) m1 m1 R1 (untouched_same m1 p)) as (m2 & E2 & G2).
    { intros j0 m2 Hj0 R2 U2. apply in_wlist in Hj0 as [Hj0 Hq0].
      destruct (gains_fold p (fun j1 => foldM (st j0 j1) (wlist p2 i2 X2 J1))
        (fun j1 ix => rsum (map (fun j2 => sum_to A (fun a => cmul (elem0 m w [nth 0 ix 0; j0; j1; j2; a]) (elem0 m x [i0 + j0 - p0; i1 + j1 - p1; i2 + j2 - p2; a]))) (wlist p2 i2 X2 J1))) (wlist p1 i1 X1 J1) m1 m2 R2 U2) as (m3 & E3 & G3); [|now exists m3].
      intros j1 m3 Hj1 R3 U3. apply in_wlist in Hj1 as [Hj1 Hq1].
      destruct (gains_fold p (st j0 j1) (fun j2 ix => sum_to A (fun a => cmul (elem0 m w [nth 0 ix 0; j0; j1; j2; a]) (elem0 m x [i0 + j0 - p0; i1 + j1 - p1; i2 + j2 - p2; a]))) (wlist p2 i2 X2 J1) m1 m3 R3 U3) as (m4 & E4 & G4); [|now exists m4].
      intros j2 m4 Hj2 R4 U4. apply in_wlist in Hj2 as [Hj2 Hq2]. destruct (x4_win1 x X0 X1 X2 A _ _ _ Wx Dx Hq0 Hq1 Hq2) as [WX SX]. destruct (w5_win w O J0 J1 J2 A _ _ j2 Ww Dw Hj0 Hj1 ltac:(lia)) as [WW SW].
      apply (tap1 r x w m m4 p _ _ (fun ix => i0 :: i1 :: i2 :: ix) (fun ix => [i0 + j0 - p0; i1 + j1 - p1; i2 + j2 - p2; nth 0 ix 0]) (fun ix => [nth 0 ix 0; j0; j1; j2; nth 1 ix 0]) O A); try assumption; try reflexivity.
      now apply Us. }
    exists m2. split.
    { rewrite <- E2. apply foldM_ext. intros j0 m3 _. rewrite forR_wlist. apply foldM_ext. intros j1 m4 _. apply forR_wlist. }
    eapply gains_ext; [|exact G2]. intros ix Hix. rewrite Dp in Hix. apply in_range_1_inv in Hix as (o & -> & Ho). cbn [nth].
    apply (bank3_loops X0 X1 X2 J0 J1 J1 A p0 p1 p2 (fun q0 q1 q2 a => elem0 m x [q0; q1; q2; a]) (fun j0 j1 j2 a => elem0 m w [o; j0; j1; j2; a])).
Qed.

(* ---- channels ---- *)
Lemma rconv3_5_idle r x w m N0 N1 N2 O X0 X1 X2 A C J0 J1 J2 : vdims r = [N0; N1; N2; O; C] -> vdims x = [X0; X1; X2; A; C] -> vdims w = [O; J0; J1; J2; A] ->
  carried O A C (sd r 3) (sd r 4) (sd w 0) (sd w 4) (sd x 3) (sd x 4) = false -> rconv3_5 r x w m = Ok m.
Proof.
  intros Dr Dx Dw H. unfold rconv3_5. rewrite !(nd_eq r _ _ Dr), !(nd_eq x _ _ Dx), !(nd_eq w _ _ Dw). cbn [nth]. rewrite !Z.eqb_refl. cbn [assrt]. cbv zeta.
  unfold forZ, forR. repeat (apply foldM_idle; intro). apply not_carried. exact H.
Qed.
Lemma rconv3_5_ok r x w m N0 N1 N2 O X0 X1 X2 A C J0 J1 J2 : operands r [x; w] m -> vdims r = [N0; N1; N2; O; C] -> vdims x = [X0; X1; X2; A; C] -> vdims w = [O; J0; J1; J2; A] ->
  carried O A C (sd r 3) (sd r 4) (sd w 0) (sd w 4) (sd x 3) (sd x 4) = true ->
  exists m', rconv3_5 r x w m = Ok m' /\
    gains r (fun ix => bank3 X0 X1 X2 J0 J1 J2 A (centred N0 X0 J0) (centred N1 X1 J1) (centred N2 X2 J2) (fun q0 q1 q2 a => elem0 m x [q0; q1; q2; a; nth 4 ix 0]) (fun j0 j1 j2 a => elem0 m w [nth 3 ix 0; j0; j1; j2; a]) (nth 0 ix 0) (nth 1 ix 0) (nth 2 ix 0)) m m'.
Proof.
  intros Op Dr Dx Dw HL. pose proof Op as (Wr & Hd & Rr & F). inversion F as [|? ? (Wx & _ & _) F']; subst; inversion F' as [|? ? (Ww & _ & _) _]; subst. clear F F'.
  unfold rconv3_5. rewrite !(nd_eq r _ _ Dr), !(nd_eq x _ _ Dx), !(nd_eq w _ _ Dw). cbn [nth]. rewrite !Z.eqb_refl. cbn [assrt]. cbv zeta.
  change (pad0 N0 X0 J0) with (centred N0 X0 J0). change (pad0 N1 X1 J1) with (centred N1 X1 J1). change (pad0 N2 X2 J2) with (centred N2 X2 J2). set (p0 := centred N0 X0 J0) in *. set (p1 := centred N1 X1 J1) in *. set (p2 := centred N2 X2 J2) in *.
  apply (slices3_gain r N0 N1 N2 [O; C]); try assumption. intros i0 i1 i2 m1 Hi0 Hi1 Hi2 U1 p Wp Dp Sp R1. cbn [nth].
  assert (Ip : forall ix jx, in_range ix (vdims p) -> in_range jx (vdims p) -> i0 :: i1 :: i2 :: ix = i0 :: i1 :: i2 :: jx -> ix = jx) by (intros; congruence).
  assert (Ep : View (vblk r) (voff r + i0 * sd r 0 + i1 * sd r 1 + i2 * sd r 2) [O; C] [sd r 3; sd r 4] = p).
  { unfold p, rvN_slice0. destruct r as [br or dr sr]. cbn [vdims] in Dr. subst dr. destruct Wr as [L _]. cbn [vdims vstr] in L. repeat (destruct sr as [|? sr]; try discriminate L). reflexivity. }
  rewrite Ep. clearbody p. rewrite forR_wlist.
  assert (Us : forall m2, untouched m1 m2 p -> untouched m m2 r) by (intros m2 U2; eapply untouched_trans; [exact U1|]; eapply sub_untouched; eassumption).
  set (st := fun j0 j1 j2 => rv2_add_mprod (R := R) p (View (vblk w) (voff w + j0 * sd w 1 + j1 * sd w 2 + j2 * sd w 3) [O; A] [sd w 0; sd w 4]) (View (vblk x) (voff x + (i0 + j0 - p0) * sd x 0 + (i1 + j1 - p1) * sd x 1 + (i2 + j2 - p2) * sd x 2) [A; C] [sd x 3; sd x 4])).
  destruct (gains_fold p (fun j0 => foldM (fun j1 => foldM (st j0 j1) (wlist p2 i2 X2 J2)) (wlist p1 i1 X1 J1))
    (fun j0 ix => rsum (map (fun j1 => rsum (map (fun j2 => sum_to A (fun a => cmul (elem0 m w [nth 0 ix 0; j0; j1; j2; a]) (elem0 m x [i0 + j0 - p0; i1 + j1 - p1; i2 + j2 - p2; a; nth 1 ix 0]))) (wlist p2 i2 X2 J2))) (wlist p1 i1 X1 J1))) (wlist p0 i0 X0 J0) m1 m1 R1 (untouched_same m1 p)) as (m2 & E2 & G2).
  { intros j0 m2 Hj0 R2 U2. apply in_wlist in Hj0 as [Hj0 Hq0].
    destruct (gains_fold p (fun j1 => foldM (st j0 j1) (wlist p2 i2 X2 J2))
      (fun j1 ix => rsum (map (fun j2 => sum_to A (fun a => cmul (elem0 m w [nth 0 ix 0; j0; j1; j2; a]) (elem0 m x [i0 + j0 - p0; i1 + j1 - p1; i2 + j2 - p2; a; nth 1 ix 0]))) (wlist p2 i2 X2 J2))) (wlist p1 i1 X1 J1) m1 m2 R2 U2) as (m3 & E3 & G3); [|now exists m3].
    intros j1 m3 Hj1 R3 U3. apply in_wlist in Hj1 as [Hj1 Hq1].
    destruct (gains_fold p (st j0 j1) (fun j2 ix => sum_to A (fun a => cmul (elem0 m w [nth 0 ix 0; j0; j1; j2; a]) (elem0 m x [i0 + j0 - p0; i1 + j1 - p1; i2 + j2 - p2; a; nth 1 ix 0]))) (wlist p2 i2 X2 J2) m1 m3 R3 U3) as (m4 & E4 & G4); [|now exists m4].
    intros j2 m4 Hj2 R4 U4. apply in_wlist in Hj2 as [Hj2 Hq2]. destruct (x5_win x X0 X1 X2 A C _ _ _ Wx Dx Hq0 Hq1 Hq2) as [WX SX]. destruct (w5_win w O J0 J1 J2 A _ _ j2 Ww Dw Hj0 Hj1 Hj2) as [WW SW]. unfold st.
    match goal with |- context [rv2_add_mprod p ?a ?b m4] => pose proof (tap2 r x w m m4 p b a (fun ix => i0 :: i1 :: i2 :: ix) (fun ix => [i0 + j0 - p0; i1 + j1 - p1; i2 + j2 - p2; nth 0 ix 0; nth 1 ix 0]) (fun ix => [nth 0 ix 0; j0; j1; j2; nth 1 ix 0]) O A C Op
      (Us m4 U4) R4 Sp Ip Wp Dp SX WX eq_refl SW WW eq_refl) as T end.
    match type of T with if ?c then _ else _ => assert (Hc : c = true) by (rewrite <- Ep; exact HL); rewrite Hc in T end. exact T. }
  exists m2. split.
  { rewrite <- E2. apply foldM_ext. intros j0 m3 _. rewrite forR_wlist. apply foldM_ext. intros j1 m4 _. apply forR_wlist. }
  eapply gains_ext; [|exact G2]. intros ix Hix. rewrite Dp in Hix. apply in_range_2_inv in Hix as (o & c & -> & Ho & Hc). cbn [nth].
  apply (bank3_loops X0 X1 X2 J0 J1 J2 A p0 p1 p2 (fun q0 q1 q2 a => elem0 m x [q0; q1; q2; a; c]) (fun j0 j1 j2 a => elem0 m w [o; j0; j1; j2; a])).
Qed.
Lemma in_range_5_inv ix A B C D E : in_range ix [A; B; C; D; E] -> exists a b c d e, ix = [a; b; c; d; e] /\ 0 <= a < A /\ 0 <= b < B /\ 0 <= c < C /\ 0 <= d < D /\ 0 <= e < E.
Proof. intro H. unfold in_range in H. entries. do 5 eexists. split; [reflexivity|]. repeat split; lia. Qed.
Lemma rconv3_6_ok r x w m B N0 N1 N2 O X0 X1 X2 A C J0 J1 J2 : operands r [x; w] m -> vdims r = [B; N0; N1; N2; O; C] -> vdims x = [B; X0; X1; X2; A; C] -> vdims w = [O; J0; J1; J2; A] ->
  carried O A C (sd r 4) (sd r 5) (sd w 0) (sd w 4) (sd x 4) (sd x 5) = true ->
  exists m', rconv3_6 r x w m = Ok m' /\
    gains r (fun ix => bank3 X0 X1 X2 J0 J1 J2 A (centred N0 X0 J0) (centred N1 X1 J1) (centred N2 X2 J2) (fun q0 q1 q2 a => elem0 m x [nth 0 ix 0; q0; q1; q2; a; nth 5 ix 0]) (fun j0 j1 j2 a => elem0 m w [nth 4 ix 0; j0; j1; j2; a]) (nth 1 ix 0) (nth 2 ix 0) (nth 3 ix 0)) m m'.
Proof.
  intros Op Dr Dx Dw HL. pose proof Op as (Wr & Hd & Rr & F). inversion F as [|? ? (Wx & _ & _) F']; subst; inversion F' as [|? ? (Ww & _ & _) _]; subst. clear F F'.
  unfold rconv3_6. rewrite !(nd_eq r _ _ Dr), !(nd_eq x _ _ Dx), !(nd_eq w _ _ Dw). cbn [nth]. rewrite !Z.eqb_refl. cbn [assrt].
  apply (slices_gain r B [N0; N1; N2; O; C]); try assumption. intros b m1 Hb U1 R1. cbn [nth].
  destruct (slice0_shows r B _ b Wr Dr Hb) as (Wi & Di & Si). destruct (slice0_shows x B _ b Wx Dx Hb) as (Xi & DXi & SXi).
  destruct (part2_operands r x w m m1 (rvN_slice0 r b) (rvN_slice0 x b) (cons b) (cons b) Op U1 R1 Si) as (O1 & E1 & E2); try assumption; [intros; congruence|].
  destruct (rconv3_5_ok (rvN_slice0 r b) (rvN_slice0 x b) w m1 N0 N1 N2 O X0 X1 X2 A C J0 J1 J2 O1 Di DXi Dw) as (m2 & E & G).
  { rewrite !sd_slice0. exact HL. }
  exists m2. split; [exact E|]. eapply gains_ext; [|exact G]. intros ix Hix. rewrite Di in Hix. apply in_range_5_inv in Hix as (i0 & i1 & i2 & o & c & -> & Hi0 & Hi1 & Hi2 & Ho & Hc). cbn [nth].
  apply bank3_ext; intros.
  - rewrite E1; [reflexivity|]. rewrite DXi. now apply in_range_5.
  - apply E2. rewrite Dw. now apply in_range_5.
Qed.
Lemma rconv3_6_idle r x w m B N0 N1 N2 O X0 X1 X2 A C J0 J1 J2 : vdims r = [B; N0; N1; N2; O; C] -> vdims x = [B; X0; X1; X2; A; C] -> vdims w = [O; J0; J1; J2; A] ->
  carried O A C (sd r 4) (sd r 5) (sd w 0) (sd w 4) (sd x 4) (sd x 5) = false -> rconv3_6 r x w m = Ok m.
Proof.
  intros Dr Dx Dw H. unfold rconv3_6. rewrite !(nd_eq r _ _ Dr), !(nd_eq x _ _ Dx), !(nd_eq w _ _ Dw). cbn [nth]. rewrite !Z.eqb_refl. cbn [assrt]. unfold forZ. apply foldM_idle. intro b.
  apply (rconv3_5_idle _ _ w m N0 N1 N2 O X0 X1 X2 A C J0 J1 J2); [unfold rvN_slice0; cbn [vdims]; now rewrite Dr|unfold rvN_slice0; cbn [vdims]; now rewrite Dx|assumption|]. rewrite !sd_slice0. exact H.
Qed.
End S.
