(* Proofs_RConv2.v -- two-dimensional convolution with dense filters. *)
From Verif Require Import Base BaseFacts Model_Index Model_View Model_Tensor Model_Ops Model_RView Model_Einsum Model_Convolve Model_RConv Spec_Index Spec_View Spec_Tensor Spec_Convolve Spec_Convolve2D Spec_RConv
  Proofs_Axes Proofs_Index Proofs_View Proofs_Tensor Proofs_Tensor2 Proofs_Tensor3 Proofs_Convolve Proofs_Convolve2 Proofs_Convolve2D Proofs_Ops2 Proofs_Ops3 Spec_RView Proofs_RView Proofs_RView2 Proofs_RView3 Proofs_RView5 Proofs_RView6 Spec_CView Proofs_CView3 Proofs_RConv.
Local Open Scope Z_scope.

(* the fused axis of x may be read as positions and channels *)

Lemma run_on_at s1 s2 A J k : 0 <= J -> 0 <= A -> run_on s1 s2 A J -> 0 <= k < J * A -> 0 <= k / A < J /\ 0 <= k mod A < A /\ k / A * s1 + k mod A * s2 = k * s2.
Proof.
  intros HJ HA H Hk. destruct (fuse_at k J A HJ HA Hk) as (H1 & H2 & H3). split; [assumption|]. split; [assumption|]. destruct H as [H|H].
  - assert (k / A = 0) by lia. rewrite H0 in *. rewrite H3 at 2. nia.
  - subst s1. rewrite H3 at 3. nia.
Qed.
Ltac win := split; [split; [reflexivity|unfold nonneg; cbn [vdims]; repeat constructor; try lia; try nia]|];
  intros ix Hix; cbn [vdims] in Hix; entries; unfold nd, sd in *; cbn [vblk voff vdims vstr nth] in *; split; [repeat constructor; try lia; try nia|];
  unfold vaddr; cbn -[Z.mul Z.add Z.sub Z.div Z.modulo Z.opp]; do 2 f_equal; try lia; try nia.
Ltac split_view v W D := let L := fresh "L" in let N := fresh "N" in destruct v as [vb vo vd vs]; destruct W as [L N]; cbn [vdims vstr] in L, N, D; subst vd;
  repeat (destruct vs as [|? vs]; try discriminate L); clear L; unfold nonneg in N; repeat match goal with H : Forall _ (_ :: _) |- _ => inversion H; subst; clear H end.
Ltac jn := match goal with H : 0 <= ?k < ?J * ?A, K : run_on ?s1 ?s2 _ _ |- _ => destruct (run_on_at s1 s2 A J k ltac:(lia) ltac:(lia) K H) as (? & ? & ?); clear H end.

Section S.
Context {R : cring}.
Notation memR := (mem (car R)).
Implicit Types m : memR.
Add Ring RR : (cth R).

Lemma slices2_gain v n0 n1 ds (step : Z -> Z -> memR -> res memR) (G : list Z -> R) m : vwf v -> vdims v = n0 :: n1 :: ds -> distinct_cells v -> readable m v ->
  (forall i j m1, 0 <= i < n0 -> 0 <= j < n1 -> untouched m m1 v -> let p := rvN_slice0 (rvN_slice0 v i) j in
     vwf p -> vdims p = ds -> shows p v (fun ix => i :: j :: ix) -> readable m1 p -> exists m2, step i j m1 = Ok m2 /\ gains p (fun jx => G (i :: j :: jx)) m1 m2) ->
  exists m', forZ n0 (fun i => forZ n1 (step i)) m = Ok m' /\ gains v G m m'.
Proof.
  intros W D Hd Rv H. apply (slices_gain v n0 (n1 :: ds)); try assumption. intros i m1 Hi U R1. destruct (slice0_shows v n0 (n1 :: ds) i W D Hi) as (Wi & Di & Si).
  apply (slices_gain (rvN_slice0 v i) n1 ds (step i) (fun jx => G (i :: jx))); try assumption.
  - apply (shows_distinct _ _ _ Si); [|assumption]. intros ix jx _ _ E. congruence.
  - intros j m2 Hj U2 R2. destruct (slice0_shows _ n1 ds j Wi Di Hj) as (Wj & Dj & Sj). apply H; try assumption.
    + eapply untouched_trans; [exact U|]. eapply sub_untouched; eassumption.
    + exact (shows_trans _ _ _ _ _ Sj Si).
Qed.
Lemma slices3_gain v n0 n1 n2 ds (step : Z -> Z -> Z -> memR -> res memR) (G : list Z -> R) m : vwf v -> vdims v = n0 :: n1 :: n2 :: ds -> distinct_cells v -> readable m v ->
  (forall i j k m1, 0 <= i < n0 -> 0 <= j < n1 -> 0 <= k < n2 -> untouched m m1 v -> let p := rvN_slice0 (rvN_slice0 (rvN_slice0 v i) j) k in
     vwf p -> vdims p = ds -> shows p v (fun ix => i :: j :: k :: ix) -> readable m1 p -> exists m2, step i j k m1 = Ok m2 /\ gains p (fun jx => G (i :: j :: k :: jx)) m1 m2) ->
  exists m', forZ n0 (fun i => forZ n1 (fun j => forZ n2 (step i j))) m = Ok m' /\ gains v G m m'.
Proof.
  intros W D Hd Rv H. apply (slices2_gain v n0 n1 (n2 :: ds)); try assumption. intros i j m1 Hi Hj U p Wp Dp Sp R1.
  apply (slices_gain p n2 ds (step i j) (fun jx => G (i :: j :: jx))); try assumption.
  - apply (shows_distinct _ _ _ Sp); [|assumption]. intros ix jx _ _ E. congruence.
  - intros k m2 Hk U2 R2. destruct (slice0_shows _ n2 ds k Wp Dp Hk) as (Wk & Dk & Sk). apply H; try assumption.
    + eapply untouched_trans; [exact U|]. eapply sub_untouched; eassumption.
    + exact (shows_trans _ _ _ _ _ Sk Sp).
Qed.

(* one tap: a filter matrix times a vector of channels *)
Lemma tap1 r x w m m1 RR XX WW fr fx fw O A : operands r [x; w] m -> untouched m m1 r -> readable m1 RR ->
  shows RR r fr -> (forall ix jx, in_range ix (vdims RR) -> in_range jx (vdims RR) -> fr ix = fr jx -> ix = jx) -> vwf RR -> vdims RR = [O] ->
  shows XX x fx -> vwf XX -> vdims XX = [A] -> shows WW w fw -> vwf WW -> vdims WW = [O; A] ->
  exists m2, rv2_add_mprod_to WW RR XX m1 = Ok m2 /\ gains RR (fun ix => sum_to A (fun a => cmul (elem0 m w (fw [nth 0 ix 0; a])) (elem0 m x (fx [a])))) m1 m2.
Proof.
  intros Op U R1 Sr Ir WR DR Sx WX DX Sw WW' DW. destruct (part_operands r x w m m1 RR XX WW fr fx fw Op U R1 Sr Ir WR Sx WX Sw WW') as (O1 & Ex & Ew).
  destruct (mprod_to_ok WW RR XX m1 O A O1 DW DR DX) as (m2 & E & G). exists m2. split; [exact E|]. eapply gains_ext; [|exact G]. intros ix Hix. rewrite DR in Hix. apply in_range_1_inv in Hix as (o & -> & Ho). cbn [nth].
  apply rsum_ext. intros a Ha. apply in_zrange in Ha. rewrite Ew, Ex; [reflexivity|rewrite DX; repeat constructor; lia|rewrite DW; now apply in_range_2].
Qed.
(* one tap on several channels *)
Lemma tap2 r x w m m1 RR XX WW fr fx fw O A C : operands r [x; w] m -> untouched m m1 r -> readable m1 RR ->
  shows RR r fr -> (forall ix jx, in_range ix (vdims RR) -> in_range jx (vdims RR) -> fr ix = fr jx -> ix = jx) -> vwf RR -> vdims RR = [O; C] ->
  shows XX x fx -> vwf XX -> vdims XX = [A; C] -> shows WW w fw -> vwf WW -> vdims WW = [O; A] ->
  if mm_layout RR WW XX
  then exists m2, rv2_add_mprod RR WW XX m1 = Ok m2 /\ gains RR (fun ix => sum_to A (fun a => cmul (elem0 m w (fw [nth 0 ix 0; a])) (elem0 m x (fx [a; nth 1 ix 0])))) m1 m2
  else rv2_add_mprod RR WW XX m1 = Ok m1.
Proof.
  intros Op U R1 Sr Ir WR DR Sx WX DX Sw WW' DW. destruct (part_operands r x w m m1 RR XX WW fr fx fw Op U R1 Sr Ir WR Sx WX Sw WW') as (O1 & Ex & Ew).
  pose proof (mprod2_ok RR WW XX m1 O A C O1 DR DW DX) as H. destruct (mm_layout RR WW XX); [|exact H]. destruct H as (m2 & E & G). exists m2. split; [exact E|]. eapply gains_ext; [|exact G].
  intros ix Hix. rewrite DR in Hix. apply in_range_2_inv in Hix as (o & c & -> & Ho & Hc). cbn [nth].
  apply rsum_ext. intros a Ha. apply in_zrange in Ha. rewrite Ew, Ex; [reflexivity|rewrite DX; now apply in_range_2|rewrite DW; now apply in_range_2].
Qed.

(* a sum over a fused pair of axes *)
Lemma sum_fused n a (f : Z -> Z -> R) : 0 <= n -> 0 <= a -> sum_to (n * a) (fun k => f (k / a) (k mod a)) = sum_grid n a f.
Proof.
  intros Hn Ha. unfold sum_grid, sum_to. rewrite zrange_mul by assumption. rewrite rsum_flat_map. apply rsum_ext. intros i Hi. rewrite map_map. apply rsum_ext. intros j Hj. apply in_zrange in Hj.
  destruct (dm_at a i j Hj) as [E1 E2]. now rewrite E1, E2.
Qed.
Lemma zpad_in n (f : Z -> R) i : 0 <= i < n -> zpad n f i = f i.
Proof. intro H. unfold zpad. now replace ((0 <=? i) && (i <? n)) with true by lia. Qed.

Lemma x3_win x X0 X1 A q0 q1 : vwf x -> vdims x = [X0; X1; A] -> 0 <= q0 < X0 -> 0 <= q1 < X1 ->
  let v := View (vblk x) (voff x + q0 * sd x 0 + q1 * sd x 1) [A] [sd x 2] in vwf v /\ shows v x (fun ix => [q0; q1; nth 0 ix 0]).
Proof. intros W D H0 H1. cbv zeta. split_view x W D. win. Qed.
Lemma x3_fused x X0 X1 A J q0 q1 : vwf x -> vdims x = [X0; X1; A] -> 0 <= J -> run_on (sd x 1) (sd x 2) A J -> 0 <= q0 < X0 -> 0 <= q1 -> q1 + J <= X1 ->
  let v := View (vblk x) (voff x + q0 * sd x 0 + q1 * sd x 1) [J * A] [sd x 2] in vwf v /\ shows v x (fun ix => [q0; q1 + nth 0 ix 0 / A; nth 0 ix 0 mod A]).
Proof. intros W D HJ K H0 H1 H2. cbv zeta. split_view x W D. unfold sd in K. cbn [nth vstr] in K. split; [split; [reflexivity|unfold nonneg; repeat constructor; nia]|]. intros ix Hix. cbn [vdims] in Hix. entries. unfold nd, sd in *. cbn [vblk voff vdims vstr nth] in *. jn.
  split; [repeat constructor; lia|]. unfold vaddr; cbn -[Z.mul Z.add Z.sub Z.div Z.modulo Z.opp]; do 2 f_equal; lia. Qed.
Lemma w4_win w O J0 J1 A j0 j1 : vwf w -> vdims w = [O; J0; J1; A] -> 0 <= j0 < J0 -> 0 <= j1 < J1 ->
  let v := View (vblk w) (voff w + j0 * sd w 1 + j1 * sd w 2) [O; A] [sd w 0; sd w 3] in vwf v /\ shows v w (fun ix => [nth 0 ix 0; j0; j1; nth 1 ix 0]).
Proof. intros W D H0 H1. cbv zeta. split_view w W D. win. Qed.
Lemma w4_fused w O J0 J1 A j0 : vwf w -> vdims w = [O; J0; J1; A] -> run_on (sd w 2) (sd w 3) A J1 -> 0 <= j0 < J0 ->
  let v := View (vblk w) (voff w + j0 * sd w 1) [O; J1 * A] [sd w 0; sd w 3] in vwf v /\ shows v w (fun ix => [nth 0 ix 0; j0; nth 1 ix 0 / A; nth 1 ix 0 mod A]).
Proof. intros W D K H0. cbv zeta. split_view w W D. unfold sd in K. cbn [nth vstr] in K. split; [split; [reflexivity|unfold nonneg; repeat constructor; nia]|]. intros ix Hix. cbn [vdims] in Hix. entries. unfold nd, sd in *. cbn [vblk voff vdims vstr nth] in *. jn.
  split; [repeat constructor; lia|]. unfold vaddr; cbn -[Z.mul Z.add Z.sub Z.div Z.modulo Z.opp]; do 2 f_equal; lia. Qed.
(* the sums of the loops *)
Lemma bank2_loops X0 X1 J0 J1 A p0 p1 (x w : Z -> Z -> Z -> R) i0 i1 :
  rsum (map (fun j0 => rsum (map (fun j1 => sum_to A (fun a => cmul (w j0 j1 a) (x (i0 + j0 - p0) (i1 + j1 - p1) a))) (wlist p1 i1 X1 J1))) (wlist p0 i0 X0 J0)) = bank2 X0 X1 J0 J1 A p0 p1 x w i0 i1.
Proof. exact (sum_wlist2 p0 i0 X0 J0 p1 i1 X1 J1 (fun j0 j1 q0 q1 => sum_to A (fun a => cmul (w j0 j1 a) (x q0 q1 a)))). Qed.
Lemma bank2_fused X0 X1 J0 J1 A p0 (x w : Z -> Z -> Z -> R) i0 i1 : 0 <= J1 -> 0 <= A -> 0 <= i1 -> i1 + J1 <= X1 ->
  rsum (map (fun j0 => sum_to (J1 * A) (fun k => cmul (w j0 (k / A) (k mod A)) (x (i0 + j0 - p0) (i1 + k / A) (k mod A)))) (wlist p0 i0 X0 J0)) = bank2 X0 X1 J0 J1 A p0 0 x w i0 i1.
Proof.
  intros HJ HA Hi Hfit. unfold bank2, sum_grid. rewrite sum_wlist. apply sum_ext. intros j0 Hj0. rewrite (sum_fused J1 A (fun j1 a => cmul (w j0 j1 a) (x (i0 + j0 - p0) (i1 + j1) a))) by assumption.
  unfold sum_grid. rewrite zpad_sum. apply sum_ext. intros j1 Hj1. unfold zpad2. apply zpad_ext. intros _. rewrite zpad_in by lia. now replace (i1 + j1 - 0) with (i1 + j1) by lia.
Qed.
Lemma rconv2_3_ok r x w m N0 N1 O X0 X1 A J0 J1 : operands r [x; w] m -> vdims r = [N0; N1; O] -> vdims x = [X0; X1; A] -> vdims w = [O; J0; J1; A] ->
  (centred N1 X1 J1 = 0 -> N1 + J1 - 1 <= X1 /\ run_on (sd x 1) (sd x 2) A J1 /\ run_on (sd w 2) (sd w 3) A J1) ->
  exists m', rconv2_3 r x w m = Ok m' /\
    gains r (fun ix => bank2 X0 X1 J0 J1 A (centred N0 X0 J0) (centred N1 X1 J1) (fun q0 q1 a => elem0 m x [q0; q1; a]) (fun j0 j1 a => elem0 m w [nth 2 ix 0; j0; j1; a]) (nth 0 ix 0) (nth 1 ix 0)) m m'.
Proof.
  intros Op Dr Dx Dw Hf. pose proof Op as (Wr & Hd & Rr & F). inversion F as [|? ? (Wx & _ & _) F']; subst; inversion F' as [|? ? (Ww & _ & _) _]; subst. clear F F'.
  unfold rconv2_3. rewrite !(nd_eq r _ _ Dr), !(nd_eq x _ _ Dx), !(nd_eq w _ _ Dw). cbn [nth]. rewrite !Z.eqb_refl. cbn [assrt]. cbv zeta.
  change (pad0 N0 X0 J0) with (centred N0 X0 J0). change (pad0 N1 X1 J1) with (centred N1 X1 J1). set (p0 := centred N0 X0 J0) in *. set (p1 := centred N1 X1 J1) in *.
  apply (slices2_gain r N0 N1 [O]); try assumption. intros i0 i1 m1 Hi0 Hi1 U1 p Wp Dp Sp R1. cbn [nth].
  assert (Ip : forall ix jx, in_range ix (vdims p) -> in_range jx (vdims p) -> i0 :: i1 :: ix = i0 :: i1 :: jx -> ix = jx) by (intros; congruence).
  assert (Ep : View (vblk r) (voff r + i0 * sd r 0 + i1 * sd r 1) [O] [sd r 2] = p).
  { unfold p, rvN_slice0. destruct r as [br or dr sr]. cbn [vdims] in Dr. subst dr. destruct Wr as [L _]. cbn [vdims vstr] in L. repeat (destruct sr as [|? sr]; try discriminate L). reflexivity. }
  rewrite Ep. clearbody p. rewrite forR_wlist.
  destruct (Z.eqb_spec p1 0) as [Z1|Z1].
  - destruct (Hf Z1) as (Hfit & Jx & Jw). assert (HJ : 0 <= J1 /\ 0 <= A) by (destruct Ww as [_ N]; rewrite Dw in N; unfold nonneg in N; repeat match goal with H : Forall _ (_ :: _) |- _ => inversion H; subst; clear H end; lia).
    destruct (gains_fold p (fun j0 => rv2_add_mprod_to (View (vblk w) (voff w + j0 * sd w 1) [O; J1 * A] [sd w 0; sd w 3]) p (View (vblk x) (voff x + (i0 + j0 - p0) * sd x 0 + i1 * sd x 1) [J1 * A] [sd x 2]))
      (fun j0 ix => sum_to (J1 * A) (fun k => cmul (elem0 m w [nth 0 ix 0; j0; k / A; k mod A]) (elem0 m x [i0 + j0 - p0; i1 + k / A; k mod A]))) (wlist p0 i0 X0 J0) m1 m1 R1 (untouched_same m1 p)) as (m2 & E2 & G2).
    { intros j0 m2 Hj0 R2 U2. apply in_wlist in Hj0 as [Hj0 Hq0].
      apply (tap1 r x w m m2 p _ _ (fun ix => i0 :: i1 :: ix) (fun ix => [i0 + j0 - p0; i1 + nth 0 ix 0 / A; nth 0 ix 0 mod A]) (fun ix => [nth 0 ix 0; j0; nth 1 ix 0 / A; nth 1 ix 0 mod A]) O (J1 * A)); try assumption; try reflexivity.
      - eapply untouched_trans; [exact U1|]. eapply sub_untouched; eassumption.
      - now apply (x3_fused x X0 X1 A J1 (i0 + j0 - p0) i1); try assumption; lia.
      - now apply (x3_fused x X0 X1 A J1 (i0 + j0 - p0) i1); try assumption; lia.
      - now apply (w4_fused w O J0 J1 A j0).
      - now apply (w4_fused w O J0 J1 A j0). }
    exists m2. split; [exact E2|]. eapply gains_ext; [|exact G2]. intros ix Hix. rewrite Dp in Hix. apply in_range_1_inv in Hix as (o & -> & Ho). cbn [nth].
    rewrite Z1. apply (bank2_fused X0 X1 J0 J1 A p0 (fun q0 q1 a => elem0 m x [q0; q1; a]) (fun j0 j1 a => elem0 m w [o; j0; j1; a])); lia.
  - destruct (gains_fold p (fun j0 => foldM (fun j1 => rv2_add_mprod_to (View (vblk w) (voff w + j0 * sd w 1 + j1 * sd w 2) [O; A] [sd w 0; sd w 3]) p (View (vblk x) (voff x + (i0 + j0 - p0) * sd x 0 + (i1 + j1 - p1) * sd x 1) [A] [sd x 2])) (wlist p1 i1 X1 J1))
      (fun j0 ix => rsum (map (fun j1 => sum_to A (fun a => cmul (elem0 m w [nth 0 ix 0; j0; j1; a]) (elem0 m x [i0 + j0 - p0; i1 + j1 - p1; a]))) (wlist p1 i1 X1 J1))) (wlist p0 i0 X0 J0) m1 m1 R1 (untouched_same m1 p)) as (m2 & E2 & G2).
    { intros j0 m2 Hj0 R2 U2. apply in_wlist in Hj0 as [Hj0 Hq0].
      destruct (gains_fold p (fun j1 => rv2_add_mprod_to (View (vblk w) (voff w + j0 * sd w 1 + j1 * sd w 2) [O; A] [sd w 0; sd w 3]) p (View (vblk x) (voff x + (i0 + j0 - p0) * sd x 0 + (i1 + j1 - p1) * sd x 1) [A] [sd x 2]))
        (fun j1 ix => sum_to A (fun a => cmul (elem0 m w [nth 0 ix 0; j0; j1; a]) (elem0 m x [i0 + j0 - p0; i1 + j1 - p1; a]))) (wlist p1 i1 X1 J1) m1 m2 R2 U2) as (m3 & E3 & G3); [|now exists m3].
      intros j1 m3 Hj1 R3 U3. apply in_wlist in Hj1 as [Hj1 Hq1]. destruct (x3_win x X0 X1 A _ _ Wx Dx Hq0 Hq1) as [WX SX]. destruct (w4_win w O J0 J1 A _ _ Ww Dw Hj0 Hj1) as [WW SW].
      apply (tap1 r x w m m3 p _ _ (fun ix => i0 :: i1 :: ix) (fun ix => [i0 + j0 - p0; i1 + j1 - p1; nth 0 ix 0]) (fun ix => [nth 0 ix 0; j0; j1; nth 1 ix 0]) O A); try assumption; try reflexivity.
      eapply untouched_trans; [exact U1|]. eapply sub_untouched; eassumption. }
    exists m2. split; [rewrite <- E2; apply foldM_ext; intros j0 m3 _; apply forR_wlist|]. eapply gains_ext; [|exact G2]. intros ix Hix. rewrite Dp in Hix. apply in_range_1_inv in Hix as (o & -> & Ho). cbn [nth].
    apply (bank2_loops X0 X1 J0 J1 A p0 p1 (fun q0 q1 a => elem0 m x [q0; q1; a]) (fun j0 j1 a => elem0 m w [o; j0; j1; a])).
Qed.
End S.
