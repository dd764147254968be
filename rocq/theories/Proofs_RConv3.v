(* Proofs_RConv3.v -- two-dimensional convolution with channels, batches and blocks. *)
From Verif Require Import Base BaseFacts Model_Index Model_View Model_Tensor Model_Ops Model_RView Model_Einsum Model_Convolve Model_RConv Spec_Index Spec_View Spec_Tensor Spec_Convolve Spec_Convolve2D Spec_RConv
  Proofs_Axes Proofs_Index Proofs_View Proofs_Tensor Proofs_Tensor2 Proofs_Tensor3 Proofs_Convolve Proofs_Convolve2 Proofs_Convolve2D Proofs_Convolve2D2 Proofs_Ops2 Proofs_Ops3 Spec_RView Proofs_RView Proofs_RView2 Proofs_RView3 Proofs_RView5 Proofs_RView6 Spec_CView Proofs_CView3 Proofs_RConv Proofs_RConv2.
Local Open Scope Z_scope.

Section S.
Context {R : cring}.
Notation memR := (mem (car R)).
Implicit Types m : memR.
Add Ring RR : (cth R).

Lemma x4_win x X0 X1 A C q0 q1 : vwf x -> vdims x = [X0; X1; A; C] -> 0 <= q0 < X0 -> 0 <= q1 < X1 ->
  let v := View (vblk x) (voff x + q0 * sd x 0 + q1 * sd x 1) [A; C] [sd x 2; sd x 3] in vwf v /\ shows v x (fun ix => [q0; q1; nth 0 ix 0; nth 1 ix 0]).
Proof. intros W D H0 H1. cbv zeta. split_view x W D. win. Qed.
Lemma x4_fused x X0 X1 A C J q0 q1 : vwf x -> vdims x = [X0; X1; A; C] -> 0 <= J -> run_on (sd x 1) (sd x 2) A J -> 0 <= q0 < X0 -> 0 <= q1 -> q1 + J <= X1 ->
  let v := View (vblk x) (voff x + q0 * sd x 0 + q1 * sd x 1) [J * A; C] [sd x 2; sd x 3] in vwf v /\ shows v x (fun ix => [q0; q1 + nth 0 ix 0 / A; nth 0 ix 0 mod A; nth 1 ix 0]).
Proof. intros W D HJ K H0 H1 H2. cbv zeta. split_view x W D. unfold sd in K. cbn [nth vstr] in K. split; [split; [reflexivity|unfold nonneg; repeat constructor; nia]|]. intros ix Hix. cbn [vdims] in Hix. entries. unfold nd, sd in *. cbn [vblk voff vdims vstr nth] in *. jn.
  split; [repeat constructor; lia|]. unfold vaddr; cbn -[Z.mul Z.add Z.sub Z.div Z.modulo Z.opp]; do 2 f_equal; lia. Qed.

(* whether the matrix product of an O by K filter matrix (strides a0, a1) and a K by C matrix (b0, b1), added to an O by C matrix (r0, r1), is carried out *)
Definition carried (O K C r0 r1 a0 a1 b0 b1 : Z) : bool := mm_layout (View 0 0 [O; C] [r0; r1]) (View 0 0 [O; K] [a0; a1]) (View 0 0 [K; C] [b0; b1]).
Lemma carried_is O K C r0 r1 a0 a1 b0 b1 br or ba oa bb ob : mm_layout (View br or [O; C] [r0; r1]) (View ba oa [O; K] [a0; a1]) (View bb ob [K; C] [b0; b1]) = carried O K C r0 r1 a0 a1 b0 b1.
Proof. reflexivity. Qed.
Lemma not_carried r a b m : mm_layout r a b = false -> rv2_add_mprod r a b m = Ok m.
Proof.
  unfold mm_layout, rv2_add_mprod. destruct (reg2 r); [|reflexivity]. cbn [andb]. destruct (reg2 a), (reg2 b), (tra2 a), (tra2 b); cbn; try discriminate; reflexivity.
Qed.
Lemma foldM_idle {T S} (f : T -> S -> res S) l s : (forall t, f t s = Ok s) -> foldM f l s = Ok s.
Proof. intro H. induction l as [|t l IH]; [reflexivity|]. cbn [foldM]. now rewrite H. Qed.

Lemma rconv2_4_idle r x w m N0 N1 O X0 X1 A C J0 J1 : vdims r = [N0; N1; O; C] -> vdims x = [X0; X1; A; C] -> vdims w = [O; J0; J1; A] ->
  carried O (if centred N1 X1 J1 =? 0 then J1 * A else A) C (sd r 2) (sd r 3) (sd w 0) (sd w 3) (sd x 2) (sd x 3) = false -> rconv2_4 r x w m = Ok m.
Proof.
  intros Dr Dx Dw H. unfold rconv2_4. rewrite !(nd_eq r _ _ Dr), !(nd_eq x _ _ Dx), !(nd_eq w _ _ Dw). cbn [nth]. rewrite !Z.eqb_refl. cbn [assrt]. cbv zeta.
  change (pad0 N1 X1 J1) with (centred N1 X1 J1). unfold forZ, forR. apply foldM_idle. intro i0. apply foldM_idle. intro i1. apply foldM_idle. intro j0. destruct (centred N1 X1 J1 =? 0).
  - apply not_carried. exact H.
  - apply foldM_idle. intro j1. apply not_carried. exact H.
Qed.
Lemma rconv2_4_ok r x w m N0 N1 O X0 X1 A C J0 J1 : operands r [x; w] m -> vdims r = [N0; N1; O; C] -> vdims x = [X0; X1; A; C] -> vdims w = [O; J0; J1; A] ->
  (centred N1 X1 J1 = 0 -> N1 + J1 - 1 <= X1 /\ run_on (sd x 1) (sd x 2) A J1 /\ run_on (sd w 2) (sd w 3) A J1) ->
  carried O (if centred N1 X1 J1 =? 0 then J1 * A else A) C (sd r 2) (sd r 3) (sd w 0) (sd w 3) (sd x 2) (sd x 3) = true ->
  exists m', rconv2_4 r x w m = Ok m' /\
    gains r (fun ix => bank2 X0 X1 J0 J1 A (centred N0 X0 J0) (centred N1 X1 J1) (fun q0 q1 a => elem0 m x [q0; q1; a; nth 3 ix 0]) (fun j0 j1 a => elem0 m w [nth 2 ix 0; j0; j1; a]) (nth 0 ix 0) (nth 1 ix 0)) m m'.
Proof.
  intros Op Dr Dx Dw Hf HL. pose proof Op as (Wr & Hd & Rr & F). inversion F as [|? ? (Wx & _ & _) F']; subst; inversion F' as [|? ? (Ww & _ & _) _]; subst. clear F F'.
  unfold rconv2_4. rewrite !(nd_eq r _ _ Dr), !(nd_eq x _ _ Dx), !(nd_eq w _ _ Dw). cbn [nth]. rewrite !Z.eqb_refl. cbn [assrt]. cbv zeta.
  change (pad0 N0 X0 J0) with (centred N0 X0 J0). change (pad0 N1 X1 J1) with (centred N1 X1 J1). set (p0 := centred N0 X0 J0) in *. set (p1 := centred N1 X1 J1) in *.
  apply (slices2_gain r N0 N1 [O; C]); try assumption. intros i0 i1 m1 Hi0 Hi1 U1 p Wp Dp Sp R1. cbn [nth].
  assert (Ip : forall ix jx, in_range ix (vdims p) -> in_range jx (vdims p) -> i0 :: i1 :: ix = i0 :: i1 :: jx -> ix = jx) by (intros; congruence).
  assert (Ep : View (vblk r) (voff r + i0 * sd r 0 + i1 * sd r 1) [O; C] [sd r 2; sd r 3] = p).
  { unfold p, rvN_slice0. destruct r as [br or dr sr]. cbn [vdims] in Dr. subst dr. destruct Wr as [L _]. cbn [vdims vstr] in L. repeat (destruct sr as [|? sr]; try discriminate L). reflexivity. }
  rewrite Ep. clearbody p. rewrite forR_wlist.
  destruct (Z.eqb_spec p1 0) as [Z1|Z1].
  - destruct (Hf Z1) as (Hfit & Jx & Jw). assert (HJ : 0 <= J1 /\ 0 <= A) by (destruct Ww as [_ N]; rewrite Dw in N; unfold nonneg in N; repeat match goal with H : Forall _ (_ :: _) |- _ => inversion H; subst; clear H end; lia).
    destruct (gains_fold p (fun j0 => rv2_add_mprod p (View (vblk w) (voff w + j0 * sd w 1) [O; J1 * A] [sd w 0; sd w 3]) (View (vblk x) (voff x + (i0 + j0 - p0) * sd x 0 + i1 * sd x 1) [J1 * A; C] [sd x 2; sd x 3]))
      (fun j0 ix => sum_to (J1 * A) (fun k => cmul (elem0 m w [nth 0 ix 0; j0; k / A; k mod A]) (elem0 m x [i0 + j0 - p0; i1 + k / A; k mod A; nth 1 ix 0]))) (wlist p0 i0 X0 J0) m1 m1 R1 (untouched_same m1 p)) as (m2 & E2 & G2).
    { intros j0 m2 Hj0 R2 U2. apply in_wlist in Hj0 as [Hj0 Hq0].
      destruct (x4_fused x X0 X1 A C J1 (i0 + j0 - p0) i1 Wx Dx) as [WX SX]; try assumption; try lia. destruct (w4_fused w O J0 J1 A j0 Ww Dw Jw Hj0) as [WW SW].
      match goal with |- context [rv2_add_mprod p ?a ?b m2] => pose proof (tap2 r x w m m2 p b a (fun ix => i0 :: i1 :: ix) (fun ix => [i0 + j0 - p0; i1 + nth 0 ix 0 / A; nth 0 ix 0 mod A; nth 1 ix 0]) (fun ix => [nth 0 ix 0; j0; nth 1 ix 0 / A; nth 1 ix 0 mod A]) O (J1 * A) C Op
        (untouched_trans _ _ _ _ U1 (sub_untouched _ _ _ _ _ Sp U2)) R2 Sp Ip Wp Dp SX WX eq_refl SW WW eq_refl) as T end.
      match type of T with if ?c then _ else _ => assert (Hc : c = true) by (rewrite <- Ep; exact HL); rewrite Hc in T end. exact T. }
    exists m2. split; [exact E2|]. eapply gains_ext; [|exact G2]. intros ix Hix. rewrite Dp in Hix. apply in_range_2_inv in Hix as (o & c & -> & Ho & Hc). cbn [nth].
    rewrite Z1. apply (bank2_fused X0 X1 J0 J1 A p0 (fun q0 q1 a => elem0 m x [q0; q1; a; c]) (fun j0 j1 a => elem0 m w [o; j0; j1; a])); lia.
  - destruct (gains_fold p (fun j0 => foldM (fun j1 => rv2_add_mprod p (View (vblk w) (voff w + j0 * sd w 1 + j1 * sd w 2) [O; A] [sd w 0; sd w 3]) (View (vblk x) (voff x + (i0 + j0 - p0) * sd x 0 + (i1 + j1 - p1) * sd x 1) [A; C] [sd x 2; sd x 3])) (wlist p1 i1 X1 J1))
      (fun j0 ix => rsum (map (fun j1 => sum_to A (fun a => cmul (elem0 m w [nth 0 ix 0; j0; j1; a]) (elem0 m x [i0 + j0 - p0; i1 + j1 - p1; a; nth 1 ix 0]))) (wlist p1 i1 X1 J1))) (wlist p0 i0 X0 J0) m1 m1 R1 (untouched_same m1 p)) as (m2 & E2 & G2).
    { intros j0 m2 Hj0 R2 U2. apply in_wlist in Hj0 as [Hj0 Hq0].
      destruct (gains_fold p (fun j1 => rv2_add_mprod p (View (vblk w) (voff w + j0 * sd w 1 + j1 * sd w 2) [O; A] [sd w 0; sd w 3]) (View (vblk x) (voff x + (i0 + j0 - p0) * sd x 0 + (i1 + j1 - p1) * sd x 1) [A; C] [sd x 2; sd x 3]))
        (fun j1 ix => sum_to A (fun a => cmul (elem0 m w [nth 0 ix 0; j0; j1; a]) (elem0 m x [i0 + j0 - p0; i1 + j1 - p1; a; nth 1 ix 0]))) (wlist p1 i1 X1 J1) m1 m2 R2 U2) as (m3 & E3 & G3); [|now exists m3].
      intros j1 m3 Hj1 R3 U3. apply in_wlist in Hj1 as [Hj1 Hq1]. destruct (x4_win x X0 X1 A C _ _ Wx Dx Hq0 Hq1) as [WX SX]. destruct (w4_win w O J0 J1 A _ _ Ww Dw Hj0 Hj1) as [WW SW].
      match goal with |- context [rv2_add_mprod p ?a ?b m3] => pose proof (tap2 r x w m m3 p b a (fun ix => i0 :: i1 :: ix) (fun ix => [i0 + j0 - p0; i1 + j1 - p1; nth 0 ix 0; nth 1 ix 0]) (fun ix => [nth 0 ix 0; j0; j1; nth 1 ix 0]) O A C Op
        (untouched_trans _ _ _ _ U1 (sub_untouched _ _ _ _ _ Sp U3)) R3 Sp Ip Wp Dp SX WX eq_refl SW WW eq_refl) as T end.
      match type of T with if ?c then _ else _ => assert (Hc : c = true) by (rewrite <- Ep; exact HL); rewrite Hc in T end. exact T. }
    exists m2. split; [rewrite <- E2; apply foldM_ext; intros j0 m3 _; apply forR_wlist|]. eapply gains_ext; [|exact G2]. intros ix Hix. rewrite Dp in Hix. apply in_range_2_inv in Hix as (o & c & -> & Ho & Hc). cbn [nth].
    apply (bank2_loops X0 X1 J0 J1 A p0 p1 (fun q0 q1 a => elem0 m x [q0; q1; a; c]) (fun j0 j1 a => elem0 m w [o; j0; j1; a])).
Qed.

(* ---- batches: an operation on slices, repeated ---- *)
Lemma operands_swap r x w m : operands r [x; w] m -> operands r [w; x] m.
Proof. intros (A & B & C & F). inversion F as [|? ? F1 F']; subst; inversion F' as [|? ? F2 _]; subst. split; [assumption|]. split; [assumption|]. split; [assumption|]. constructor; [assumption|]. now constructor. Qed.
Lemma part2_operands r x w m m1 RR XX fr fx : operands r [x; w] m -> untouched m m1 r -> readable m1 RR ->
  shows RR r fr -> (forall ix jx, in_range ix (vdims RR) -> in_range jx (vdims RR) -> fr ix = fr jx -> ix = jx) -> vwf RR -> shows XX x fx -> vwf XX ->
  operands RR [XX; w] m1 /\ (forall ix, in_range ix (vdims XX) -> elem0 m1 XX ix = elem0 m x (fx ix)) /\ (forall ix, in_range ix (vdims w) -> elem0 m1 w ix = elem0 m w ix).
Proof.
  intros Op U R1 Sr Ir WR Sx WX. pose proof Op as (_ & _ & _ & F). inversion F as [|? ? _ F']; subst; inversion F' as [|? ? (Ww & _ & _) _]; subst. clear F F'.
  destruct (part_operands r x w m m1 RR XX w fr fx (fun ix => ix) Op U R1 Sr Ir WR Sx WX) as (O1 & E1 & E2); try assumption.
  - intros ix Hx. now split.
  - split; [now apply operands_swap|]. now split.
Qed.
Lemma bank2_ext X0 X1 J0 J1 A p0 p1 (x w x' w' : Z -> Z -> Z -> R) i0 i1 :
  (forall q0 q1 a, 0 <= q0 < X0 -> 0 <= q1 < X1 -> 0 <= a < A -> x q0 q1 a = x' q0 q1 a) -> (forall j0 j1 a, 0 <= j0 < J0 -> 0 <= j1 < J1 -> 0 <= a < A -> w j0 j1 a = w' j0 j1 a) ->
  bank2 X0 X1 J0 J1 A p0 p1 x w i0 i1 = bank2 X0 X1 J0 J1 A p0 p1 x' w' i0 i1.
Proof.
  intros Hx Hw. unfold bank2, sum_grid. apply sum_ext. intros j0 H0. apply sum_ext. intros j1 H1. unfold zpad2. apply zpad_ext. intro Hq0. apply zpad_ext. intro Hq1. apply sum_ext. intros a Ha. now rewrite Hx, Hw.
Qed.
Lemma sd_slice0 v i k : sd (rvN_slice0 v i) k = sd v (S k).
Proof. unfold sd, rvN_slice0. cbn [vstr]. destruct (vstr v); [destruct k; reflexivity|reflexivity]. Qed.
Lemma in_range_5 a b c d e A B C D E : 0 <= a < A -> 0 <= b < B -> 0 <= c < C -> 0 <= d < D -> 0 <= e < E -> in_range [a; b; c; d; e] [A; B; C; D; E].
Proof. intros. repeat constructor; lia. Qed.

Lemma rconv2_5_ok r x w m B N0 N1 O X0 X1 A C J0 J1 : operands r [x; w] m -> vdims r = [B; N0; N1; O; C] -> vdims x = [B; X0; X1; A; C] -> vdims w = [O; J0; J1; A] ->
  (centred N1 X1 J1 = 0 -> N1 + J1 - 1 <= X1 /\ run_on (sd x 2) (sd x 3) A J1 /\ run_on (sd w 2) (sd w 3) A J1) ->
  carried O (if centred N1 X1 J1 =? 0 then J1 * A else A) C (sd r 3) (sd r 4) (sd w 0) (sd w 3) (sd x 3) (sd x 4) = true ->
  exists m', rconv2_5 r x w m = Ok m' /\
    gains r (fun ix => bank2 X0 X1 J0 J1 A (centred N0 X0 J0) (centred N1 X1 J1) (fun q0 q1 a => elem0 m x [nth 0 ix 0; q0; q1; a; nth 4 ix 0]) (fun j0 j1 a => elem0 m w [nth 3 ix 0; j0; j1; a]) (nth 1 ix 0) (nth 2 ix 0)) m m'.
Proof.
  intros Op Dr Dx Dw Hf HL. pose proof Op as (Wr & Hd & Rr & F). inversion F as [|? ? (Wx & _ & _) F']; subst; inversion F' as [|? ? (Ww & _ & _) _]; subst. clear F F'.
  unfold rconv2_5. rewrite !(nd_eq r _ _ Dr), !(nd_eq x _ _ Dx), !(nd_eq w _ _ Dw). cbn [nth]. rewrite !Z.eqb_refl. cbn [assrt].
  apply (slices_gain r B [N0; N1; O; C]); try assumption. intros b m1 Hb U1 R1. cbn [nth].
  destruct (slice0_shows r B _ b Wr Dr Hb) as (Wi & Di & Si). destruct (slice0_shows x B _ b Wx Dx Hb) as (Xi & DXi & SXi).
  destruct (part2_operands r x w m m1 (rvN_slice0 r b) (rvN_slice0 x b) (cons b) (cons b) Op U1 R1 Si) as (O1 & E1 & E2); try assumption; [intros; congruence|].
  destruct (rconv2_4_ok (rvN_slice0 r b) (rvN_slice0 x b) w m1 N0 N1 O X0 X1 A C J0 J1 O1 Di DXi Dw) as (m2 & E & G).
  { rewrite !sd_slice0. exact Hf. } { rewrite !sd_slice0. exact HL. }
  exists m2. split; [exact E|]. eapply gains_ext; [|exact G]. intros ix Hix. rewrite Di in Hix. apply in_range_4_inv in Hix as (i0 & i1 & o & c & -> & Hi0 & Hi1 & Ho & Hc). cbn [nth].
  apply bank2_ext; intros.
  - rewrite E1; [reflexivity|]. rewrite DXi. now apply in_range_4.
  - apply E2. rewrite Dw. now apply in_range_4.
Qed.
Lemma rconv2_5_idle r x w m B N0 N1 O X0 X1 A C J0 J1 : vdims r = [B; N0; N1; O; C] -> vdims x = [B; X0; X1; A; C] -> vdims w = [O; J0; J1; A] ->
  carried O (if centred N1 X1 J1 =? 0 then J1 * A else A) C (sd r 3) (sd r 4) (sd w 0) (sd w 3) (sd x 3) (sd x 4) = false -> rconv2_5 r x w m = Ok m.
Proof.
  intros Dr Dx Dw H. unfold rconv2_5. rewrite !(nd_eq r _ _ Dr), !(nd_eq x _ _ Dx), !(nd_eq w _ _ Dw). cbn [nth]. rewrite !Z.eqb_refl. cbn [assrt]. unfold forZ. apply foldM_idle. intro b.
  apply (rconv2_4_idle _ _ w m N0 N1 O X0 X1 A C J0 J1); [unfold rvN_slice0; cbn [vdims]; now rewrite Dr|unfold rvN_slice0; cbn [vdims]; now rewrite Dx|assumption|]. rewrite !sd_slice0. exact H.
Qed.

(* ---- blocks ---- *)
Lemma slice2_shows v a b n c d i : vwf v -> vdims v = [a; b; n; c; d] -> 0 <= i < n ->
  vwf (rv5_slice2 v i) /\ vdims (rv5_slice2 v i) = [a; b; c; d] /\ shows (rv5_slice2 v i) v (fun ix => [nth 0 ix 0; nth 1 ix 0; i; nth 2 ix 0; nth 3 ix 0]).
Proof. intros W D Hi. split_view v W D. unfold rv5_slice2, nd, sd. cbn [nth vdims vstr vblk voff].
  match goal with |- ?a /\ ?b /\ ?c => let H := fresh in assert (H : b) by reflexivity; enough (a /\ c) by tauto; clear H end. win.
Qed.
Lemma slices5_2_gain v a b n c d (step : Z -> memR -> res memR) (G : list Z -> R) m : vwf v -> vdims v = [a; b; n; c; d] -> distinct_cells v -> readable m v ->
  (forall i m1, 0 <= i < n -> untouched m m1 v -> readable m1 (rv5_slice2 v i) -> exists m2, step i m1 = Ok m2 /\ gains (rv5_slice2 v i) (fun jx => G [nth 0 jx 0; nth 1 jx 0; i; nth 2 jx 0; nth 3 jx 0]) m1 m2) ->
  exists m', forZ n step m = Ok m' /\ gains v G m m'.
Proof.
  intros W D Hd Rv H. unfold forZ. apply (parts_gain v (rv5_slice2 v) (fun i jx => [nth 0 jx 0; nth 1 jx 0; i; nth 2 jx 0; nth 3 jx 0]) step G m (zrange n)); try assumption.
  - intros i Hi. apply in_zrange in Hi. now apply (slice2_shows v a b n c d i).
  - intros i j jx kx _ _ _ _ E. congruence.
  - apply zrange_nodup.
  - intros ix Hix. rewrite D in Hix. unfold in_range in Hix. entries. exists x1, [x; x0; x2; x3]. split; [now apply in_zrange|]. destruct (slice2_shows v a b n c d x1 W D) as (_ & -> & _); [assumption|]. split; [now apply in_range_4|reflexivity].
  - intros i m1 Hi. apply H. now apply in_zrange in Hi.
Qed.
Lemma sd_slice2 v i : length (vstr v) = 5%nat -> sd (rv5_slice2 v i) 0 = sd v 0 /\ sd (rv5_slice2 v i) 1 = sd v 1 /\ sd (rv5_slice2 v i) 2 = sd v 3 /\ sd (rv5_slice2 v i) 3 = sd v 4.
Proof. intros _. repeat split. Qed.
Lemma rconv2_6_ok r x w m B N0 N1 D O X0 X1 A C J0 J1 : operands r [x; w] m -> vdims r = [B; N0; N1; D; O; C] -> vdims x = [B; X0; X1; D; A; C] -> vdims w = [O; J0; J1; A] ->
  (centred N1 X1 J1 = 0 -> N1 + J1 - 1 <= X1 /\ run_on (sd x 2) (sd x 4) A J1 /\ run_on (sd w 2) (sd w 3) A J1) ->
  carried O (if centred N1 X1 J1 =? 0 then J1 * A else A) C (sd r 4) (sd r 5) (sd w 0) (sd w 3) (sd x 4) (sd x 5) = true ->
  exists m', rconv2_6 r x w m = Ok m' /\
    gains r (fun ix => bank2 X0 X1 J0 J1 A (centred N0 X0 J0) (centred N1 X1 J1) (fun q0 q1 a => elem0 m x [nth 0 ix 0; q0; q1; nth 3 ix 0; a; nth 5 ix 0]) (fun j0 j1 a => elem0 m w [nth 4 ix 0; j0; j1; a]) (nth 1 ix 0) (nth 2 ix 0)) m m'.
Proof.
  intros Op Dr Dx Dw Hf HL. pose proof Op as (Wr & Hd & Rr & F). inversion F as [|? ? (Wx & _ & _) F']; subst; inversion F' as [|? ? (Ww & _ & _) _]; subst. clear F F'.
  unfold rconv2_6. rewrite !(nd_eq r _ _ Dr), !(nd_eq x _ _ Dx), !(nd_eq w _ _ Dw). cbn [nth]. rewrite !Z.eqb_refl. cbn [assrt].
  apply (slices_gain r B [N0; N1; D; O; C]); try assumption. intros b m1 Hb U1 R1. cbn [nth].
  destruct (slice0_shows r B _ b Wr Dr Hb) as (Wi & Di & Si). destruct (slice0_shows x B _ b Wx Dx Hb) as (Xi & DXi & SXi).
  apply (slices5_2_gain (rvN_slice0 r b) N0 N1 D O C); try assumption.
  { apply (shows_distinct _ _ _ Si); [intros; congruence|assumption]. }
  intros d m2 Hdd U2 R2. destruct (slice2_shows _ _ _ _ _ _ d Wi Di Hdd) as (Wj & Dj & Sj). destruct (slice2_shows _ _ _ _ _ _ d Xi DXi Hdd) as (Xj & DXj & SXj).
  pose proof (shows_trans _ _ _ _ _ Sj Si) as Sr. pose proof (shows_trans _ _ _ _ _ SXj SXi) as Sx.
  assert (Inj : forall ix jx, in_range ix (vdims (rv5_slice2 (rvN_slice0 r b) d)) -> in_range jx (vdims (rv5_slice2 (rvN_slice0 r b) d)) ->
    b :: [nth 0 ix 0; nth 1 ix 0; d; nth 2 ix 0; nth 3 ix 0] = b :: [nth 0 jx 0; nth 1 jx 0; d; nth 2 jx 0; nth 3 jx 0] -> ix = jx).
  { rewrite Dj. intros ix jx Hi Hj E. apply in_range_4_inv in Hi as (? & ? & ? & ? & -> & _). apply in_range_4_inv in Hj as (? & ? & ? & ? & -> & _). cbn [nth] in E. congruence. }
  destruct (part2_operands r x w m m2 _ _ _ _ Op (untouched_trans _ _ _ _ U1 (sub_untouched _ _ _ _ _ Si U2)) R2 Sr Inj Wj Sx Xj) as (O1 & E1 & E2).
  destruct (rconv2_4_ok _ _ w m2 N0 N1 O X0 X1 A C J0 J1 O1 Dj DXj Dw) as (m3 & E & G).
  { unfold sd at 1 2. cbn [rv5_slice2 vstr nth]. rewrite !sd_slice0. exact Hf. } { unfold sd at 1 2 5 6. cbn [rv5_slice2 vstr nth]. rewrite !sd_slice0. exact HL. }
  exists m3. split; [exact E|]. eapply gains_ext; [|exact G]. intros ix Hix. rewrite Dj in Hix. apply in_range_4_inv in Hix as (i0 & i1 & o & c & -> & Hi0 & Hi1 & Ho & Hc). cbn [nth].
  apply bank2_ext; intros.
  - rewrite E1; [reflexivity|]. rewrite DXj. now apply in_range_4.
  - apply E2. rewrite Dw. now apply in_range_4.
Qed.
Lemma rconv2_6_idle r x w m B N0 N1 D O X0 X1 A C J0 J1 : vdims r = [B; N0; N1; D; O; C] -> vdims x = [B; X0; X1; D; A; C] -> vdims w = [O; J0; J1; A] ->
  carried O (if centred N1 X1 J1 =? 0 then J1 * A else A) C (sd r 4) (sd r 5) (sd w 0) (sd w 3) (sd x 4) (sd x 5) = false -> rconv2_6 r x w m = Ok m.
Proof.
  intros Dr Dx Dw H. unfold rconv2_6. rewrite !(nd_eq r _ _ Dr), !(nd_eq x _ _ Dx), !(nd_eq w _ _ Dw). cbn [nth]. rewrite !Z.eqb_refl. cbn [assrt]. unfold forZ. apply foldM_idle. intro b. apply foldM_idle. intro d.
  apply (rconv2_4_idle _ _ w m N0 N1 O X0 X1 A C J0 J1); [unfold rv5_slice2, rvN_slice0, nd; cbn [vdims]; now rewrite Dr|unfold rv5_slice2, rvN_slice0, nd; cbn [vdims]; now rewrite Dx|assumption|].
  unfold sd at 1 2 5 6. cbn [rv5_slice2 vstr nth]. rewrite !sd_slice0. exact H.
Qed.
End S.
