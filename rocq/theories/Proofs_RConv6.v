(* Proofs_RConv6.v -- gradients of three-dimensional convolution, results of their own, layouts. *)
From Verif Require Import Base BaseFacts Model_Index Model_View Model_Tensor Model_Ops Model_RView Model_Einsum Model_Convolve Model_RConv Spec_Index Spec_View Spec_Tensor Spec_Convolve Spec_Convolve2D Spec_RConv
  Proofs_Axes Proofs_Index Proofs_View Proofs_Tensor Proofs_Tensor2 Proofs_Tensor3 Proofs_Einsum3 Proofs_Convolve Proofs_Convolve2 Proofs_Convolve3 Proofs_Convolve2D Proofs_Convolve2D2 Proofs_Ops2 Proofs_Ops3 Spec_RView Proofs_RView Proofs_RView2 Proofs_RView3 Proofs_RView5 Proofs_RView6 Spec_CView Proofs_CView3 Proofs_RConv Proofs_RConv2 Proofs_RConv3 Proofs_RConv4 Proofs_RConv5.
Local Open Scope Z_scope.

Lemma carried_iff O K C r0 r1 a0 a1 b0 b1 : carried O K C r0 r1 a0 a1 b0 b1 = true <-> multiplies O K C r0 r1 a0 a1 b0 b1.
Proof. unfold carried, mm_layout, reg2, tra2, multiplies, by_rows, by_cols, sd, nd. cbn [vdims vstr nth]. lia. Qed.
Lemma carried_not O K C r0 r1 a0 a1 b0 b1 : ~ multiplies O K C r0 r1 a0 a1 b0 b1 -> carried O K C r0 r1 a0 a1 b0 b1 = false.
Proof. rewrite <- carried_iff. now destruct (carried _ _ _ _ _ _ _ _ _). Qed.

Section S.
Context {R : cring}.
Notation memR := (mem (car R)).
Implicit Types m : memR.
Add Ring RR : (cth R).

(* a sum over the filter is a sum over what it slides on *)
Lemma slide1 J X p k (h : Z -> Z -> R) : sum_to J (fun j => zpad X (h j) (k + j - p)) = sum_to X (fun i => zpad J (fun j => h j i) (i - k + p)).
Proof.
  rewrite (sum_ext J _ (fun j => sum_to X (fun i => if k + j - p =? i then h j i else c0))) by (intros j _; symmetry; apply (sum_delta X (k + j - p) (h j))).
  rewrite sum_swap. apply sum_ext. intros i _. rewrite <- (sum_delta J (i - k + p) (fun j => h j i)). apply sum_ext. intros j _.
  destruct (Z.eqb_spec (k + j - p) i), (Z.eqb_spec (i - k + p) j); try reflexivity; lia.
Qed.
Lemma slide3 J0 J1 J2 X0 X1 X2 p0 p1 p2 k0 k1 k2 (h : Z -> Z -> Z -> Z -> Z -> Z -> R) :
  sum_box J0 J1 J2 (fun j0 j1 j2 => zpad3 X0 X1 X2 (h j0 j1 j2) (k0 + j0 - p0) (k1 + j1 - p1) (k2 + j2 - p2)) =
  sum_box X0 X1 X2 (fun i0 i1 i2 => zpad3 J0 J1 J2 (fun j0 j1 j2 => h j0 j1 j2 i0 i1 i2) (i0 - k0 + p0) (i1 - k1 + p1) (i2 - k2 + p2)).
Proof.
  unfold sum_box, sum_grid, zpad3, zpad2.
  rewrite (sum_ext J0 _ (fun j0 => zpad X0 (fun q0 => sum_to J1 (fun j1 => zpad X1 (fun q1 => sum_to J2 (fun j2 => zpad X2 (h j0 j1 j2 q0 q1) (k2 + j2 - p2))) (k1 + j1 - p1))) (k0 + j0 - p0))).
  2: { intros j0 _. rewrite zpad_sum. apply sum_ext. intros j1 _. rewrite <- zpad_sum. apply zpad_ext. intros _. now rewrite zpad_sum. }
  rewrite slide1. apply sum_ext. intros i0 _.
  rewrite (zpad_ext J0 _ (fun j0 => sum_to X1 (fun i1 => zpad J1 (fun j1 => sum_to X2 (fun i2 => zpad J2 (fun j2 => h j0 j1 j2 i0 i1 i2) (i2 - k2 + p2))) (i1 - k1 + p1)))).
  2: { intros _. rewrite slide1. apply sum_ext. intros i1 _. apply zpad_ext. intros _. now rewrite slide1. }
  rewrite zpad_sum. apply sum_ext. intros i1 _. rewrite <- zpad_sum. apply zpad_ext. intros _. now rewrite zpad_sum.
Qed.
Lemma zpad_rev J (f : Z -> R) t u : u = J - 1 - t -> zpad J (fun j => f (J - 1 - j)) u = zpad J f t.
Proof. intros ->. unfold zpad. replace ((0 <=? J - 1 - t) && (J - 1 - t <? J)) with ((0 <=? t) && (t <? J)) by lia. now replace (J - 1 - (J - 1 - t)) with t by lia. Qed.
Lemma zpad3_rev J0 J1 J2 (f : Z -> Z -> Z -> R) t0 t1 t2 u0 u1 u2 : u0 = J0 - 1 - t0 -> u1 = J1 - 1 - t1 -> u2 = J2 - 1 - t2 ->
  zpad3 J0 J1 J2 (fun j0 j1 j2 => f (J0 - 1 - j0) (J1 - 1 - j1) (J2 - 1 - j2)) u0 u1 u2 = zpad3 J0 J1 J2 f t0 t1 t2.
Proof.
  intros E0 E1 E2. unfold zpad3, zpad2. rewrite <- (zpad_rev J0 (fun k0 => zpad J1 (fun k1 => zpad J2 (f k0 k1) t2) t1) t0 u0 E0). apply zpad_ext. intros _.
  rewrite <- (zpad_rev J1 (fun k1 => zpad J2 (f (J0 - 1 - u0) k1) t2) t1 u1 E1). apply zpad_ext. intros _. now apply zpad_rev.
Qed.
Lemma zpad3_sum J0 J1 J2 K (f : Z -> Z -> Z -> Z -> R) i j k : zpad3 J0 J1 J2 (fun a b c => sum_to K (f a b c)) i j k = sum_to K (fun o => zpad3 J0 J1 J2 (fun a b c => f a b c o) i j k).
Proof. unfold zpad3. rewrite <- zpad_sum. apply zpad_ext. intros _. apply zpad2_sum. Qed.
Lemma zpad3_mul_l J0 J1 J2 (f : Z -> Z -> Z -> R) c i j k : zpad3 J0 J1 J2 (fun a b d => cmul c (f a b d)) i j k = cmul c (zpad3 J0 J1 J2 f i j k).
Proof. unfold zpad3, zpad2. rewrite zpad_mul_l. apply zpad_ext. intros _. rewrite zpad_mul_l. apply zpad_ext. intros _. now rewrite zpad_mul_l. Qed.
Lemma box_ext n0 n1 n2 (f g : Z -> Z -> Z -> R) : (forall i j k, 0 <= i < n0 -> 0 <= j < n1 -> 0 <= k < n2 -> f i j k = g i j k) -> sum_box n0 n1 n2 f = sum_box n0 n1 n2 g.
Proof. intro H. unfold sum_box, sum_grid. apply sum_ext. intros i Hi. apply sum_ext. intros j Hj. apply sum_ext. intros k Hk. now apply H. Qed.
Lemma box_swap1 n0 n1 n2 K (f : Z -> Z -> Z -> Z -> R) : sum_box n0 n1 n2 (fun i j k => sum_to K (f i j k)) = sum_to K (fun o => sum_box n0 n1 n2 (fun i j k => f i j k o)).
Proof. unfold sum_box. rewrite (sum_ext n0 _ (fun i => sum_to K (fun o => sum_grid n1 n2 (fun j k => f i j k o)))) by (intros i _; apply grid_swap3). apply sum_swap. Qed.
Lemma box_swap n0 n1 n2 k0 k1 k2 (f : Z -> Z -> Z -> Z -> Z -> Z -> R) : sum_box n0 n1 n2 (fun i j k => sum_box k0 k1 k2 (f i j k)) = sum_box k0 k1 k2 (fun a b c => sum_box n0 n1 n2 (fun i j k => f i j k a b c)).
Proof.
  unfold sum_box at 2. rewrite box_swap1. unfold sum_box at 2. apply sum_ext. intros a _. unfold sum_grid at 1. rewrite box_swap1. unfold sum_grid at 1. apply sum_ext. intros b _. apply box_swap1.
Qed.
Lemma box_mul_l n0 n1 n2 c (f : Z -> Z -> Z -> R) : cmul c (sum_box n0 n1 n2 f) = sum_box n0 n1 n2 (fun i j k => cmul c (f i j k)).
Proof. unfold sum_box. rewrite sum_mul_l. apply sum_ext. intros i _. apply grid_mul_l. Qed.
Lemma bank3_flip N0 N1 N2 J0 J1 J2 O p0 p1 p2 (g w : Z -> Z -> Z -> Z -> R) i0 i1 i2 :
  bank3 N0 N1 N2 J0 J1 J2 O (J0 - 1 - p0) (J1 - 1 - p1) (J2 - 1 - p2) g (fun j0 j1 j2 o => w o (J0 - 1 - j0) (J1 - 1 - j1) (J2 - 1 - j2)) i0 i1 i2 = bank3_dx N0 N1 N2 J0 J1 J2 O p0 p1 p2 g w i0 i1 i2.
Proof.
  unfold bank3, bank3_dx. rewrite (slide3 J0 J1 J2 N0 N1 N2 (J0 - 1 - p0) (J1 - 1 - p1) (J2 - 1 - p2) i0 i1 i2 (fun j0 j1 j2 q0 q1 q2 => sum_to O (fun a => cmul (w a (J0 - 1 - j0) (J1 - 1 - j1) (J2 - 1 - j2)) (g q0 q1 q2 a)))).
  apply box_ext. intros k0 k1 k2 _ _ _. rewrite (zpad3_rev J0 J1 J2 (fun j0 j1 j2 => sum_to O (fun a => cmul (w a j0 j1 j2) (g k0 k1 k2 a))) (i0 - k0 + p0) (i1 - k1 + p1) (i2 - k2 + p2)) by lia.
  rewrite zpad3_sum. apply sum_ext. intros o _. rewrite <- zpad3_mul_l. unfold zpad3, zpad2. apply zpad_ext. intros _. apply zpad_ext. intros _. apply zpad_ext. intros _. ring.
Qed.
(* the gradient is that of the convolution *)
Lemma adjoint3 N0 N1 N2 X0 X1 X2 J0 J1 J2 A O p0 p1 p2 (g x : Z -> Z -> Z -> Z -> R) (w : Z -> Z -> Z -> Z -> Z -> R) :
  sum_box N0 N1 N2 (fun k0 k1 k2 => sum_to O (fun o => cmul (g k0 k1 k2 o) (bank3 X0 X1 X2 J0 J1 J2 A p0 p1 p2 x (w o) k0 k1 k2))) =
  sum_box X0 X1 X2 (fun i0 i1 i2 => sum_to A (fun a => cmul (x i0 i1 i2 a) (bank3_dx N0 N1 N2 J0 J1 J2 O p0 p1 p2 g (fun o j0 j1 j2 => w o j0 j1 j2 a) i0 i1 i2))).
Proof.
  set (T := fun k0 k1 k2 o i0 i1 i2 a => cmul (g k0 k1 k2 o) (cmul (x i0 i1 i2 a) (zpad3 J0 J1 J2 (fun j0 j1 j2 => w o j0 j1 j2 a) (i0 - k0 + p0) (i1 - k1 + p1) (i2 - k2 + p2)))).
  transitivity (sum_box N0 N1 N2 (fun k0 k1 k2 => sum_to O (fun o => sum_box X0 X1 X2 (fun i0 i1 i2 => sum_to A (T k0 k1 k2 o i0 i1 i2))))).
  - apply box_ext. intros k0 k1 k2 _ _ _. apply sum_ext. intros o _. unfold bank3. rewrite (slide3 J0 J1 J2 X0 X1 X2 p0 p1 p2 k0 k1 k2 (fun j0 j1 j2 q0 q1 q2 => sum_to A (fun a => cmul (w o j0 j1 j2 a) (x q0 q1 q2 a)))).
    rewrite box_mul_l. apply box_ext. intros i0 i1 i2 _ _ _. rewrite zpad3_sum, sum_mul_l. apply sum_ext. intros a _. unfold T. f_equal. rewrite <- zpad3_mul_l. unfold zpad3, zpad2. apply zpad_ext. intros _. apply zpad_ext. intros _. apply zpad_ext. intros _. ring.
  - rewrite (box_ext N0 N1 N2 _ (fun k0 k1 k2 => sum_box X0 X1 X2 (fun i0 i1 i2 => sum_to O (fun o => sum_to A (T k0 k1 k2 o i0 i1 i2))))) by (intros; symmetry; apply box_swap1).
    rewrite box_swap. apply box_ext. intros i0 i1 i2 _ _ _. rewrite (box_ext N0 N1 N2 _ (fun k0 k1 k2 => sum_to A (fun a => sum_to O (fun o => T k0 k1 k2 o i0 i1 i2 a)))) by (intros; apply sum_swap).
    rewrite box_swap1. apply sum_ext. intros a _. unfold bank3_dx. rewrite box_mul_l. apply box_ext. intros k0 k1 k2 _ _ _. rewrite sum_mul_l. apply sum_ext. intros o _. unfold T. ring.
Qed.

(* ---- the reversed filter ---- *)
Lemma flip_shows w O J0 J1 J2 A : vwf w -> vdims w = [O; J0; J1; J2; A] ->
  vwf (rflip5 w) /\ vdims (rflip5 w) = [A; J0; J1; J2; O] /\ shows (rflip5 w) w (fun ix => [nth 4 ix 0; J0 - 1 - nth 1 ix 0; J1 - 1 - nth 2 ix 0; J2 - 1 - nth 3 ix 0; nth 0 ix 0]).
Proof.
  intros W D. split_view w W D. unfold rflip5, nd, sd. cbn [nth vdims vstr vblk voff]. match goal with |- ?a /\ ?b /\ ?c => let H := fresh in assert (H : b) by reflexivity; enough (a /\ c) by tauto; clear H end. win.
Qed.
Lemma flip_operands rg xg w m O J0 J1 J2 A : operands xg [rg; w] m -> vdims w = [O; J0; J1; J2; A] -> operands xg [rg; rflip5 w] m.
Proof.
  intros (Wr & Hd & Rr & F) Dw. inversion F as [|? ? Fr F']; subst; inversion F' as [|? ? (Ww & Rw & Bw) _]; subst. destruct (flip_shows w O J0 J1 J2 A Ww Dw) as (Wf & Df & Sf).
  split; [assumption|]. split; [assumption|]. split; [assumption|]. constructor; [assumption|]. constructor; [|constructor]. split; [assumption|]. split; [eapply shows_readable; eassumption|]. eapply shows_disjoint_r; eassumption.
Qed.
Lemma centred_back N X J p : N = X + 2 * p - J + 1 -> centred X N J = J - 1 - p /\ centred N X J = p.
Proof. intros ->. unfold centred. split; [replace (X - (X + 2 * p - J + 1) + J - 1) with ((J - 1 - p) * 2) by lia|replace (X + 2 * p - J + 1 - X + J - 1) with (p * 2) by lia]; apply Z.quot_mul; lia. Qed.
Lemma flip_elem0 w m O J0 J1 J2 A a j0 j1 j2 o : vwf w -> vdims w = [O; J0; J1; J2; A] -> 0 <= a < A -> 0 <= j0 < J0 -> 0 <= j1 < J1 -> 0 <= j2 < J2 -> 0 <= o < O ->
  elem0 m (rflip5 w) [a; j0; j1; j2; o] = elem0 m w [o; J0 - 1 - j0; J1 - 1 - j1; J2 - 1 - j2; a].
Proof. intros W D Ha H0 H1 H2 Ho. destruct (flip_shows w O J0 J1 J2 A W D) as (Wf & Df & Sf). rewrite (shows_elem0 m _ _ _ _ Sf); [reflexivity|]. rewrite Df. now apply in_range_5. Qed.

Lemma back0_4_ok rg xg w m N0 N1 N2 O X0 X1 X2 A J0 J1 J2 p0 p1 p2 : operands xg [rg; w] m -> vdims rg = [N0; N1; N2; O] -> vdims xg = [X0; X1; X2; A] -> vdims w = [O; J0; J1; J2; A] ->
  N0 = X0 + 2 * p0 - J0 + 1 -> N1 = X1 + 2 * p1 - J1 + 1 -> N2 = X2 + 2 * p2 - J2 + 1 ->
  (p2 = J2 - 1 -> run_on (sd rg 2) (sd rg 3) O J2 /\ run_on (- sd w 3) (sd w 0) O J2) -> (p2 <> J2 - 1 -> J1 = J2) ->
  exists m', rconv3_back0 rg xg w m = Ok m' /\
    gains xg (fun ix => bank3_dx N0 N1 N2 J0 J1 J2 O p0 p1 p2 (fun k0 k1 k2 o => elem0 m rg [k0; k1; k2; o]) (fun o j0 j1 j2 => elem0 m w [o; j0; j1; j2; nth 3 ix 0]) (nth 0 ix 0) (nth 1 ix 0) (nth 2 ix 0)) m m'.
Proof.
  intros Op Dr Dx Dw E0 E1 E2 Hf Hle. pose proof Op as (_ & _ & _ & F). inversion F as [|? ? (Wg & _ & _) F']; subst; inversion F' as [|? ? (Ww & _ & _) _]; subst. clear F F'.
  destruct (flip_shows w O J0 J1 J2 A Ww Dw) as (Wf & Df & Sf). pose proof (flip_operands rg xg w m O J0 J1 J2 A Op Dw) as Of.
  unfold rconv3_back0, ndims. rewrite Dx. cbn [length Z.of_nat Pos.of_succ_nat Pos.succ Z.eqb Pos.eqb].
  destruct (rconv3_4_ok xg rg (rflip5 w) m X0 X1 X2 A _ _ _ O J0 J1 J2 Of Dx Dr Df) as (m' & E & G).
  - rewrite (proj1 (centred_back _ X2 J2 p2 eq_refl)). intro Z2. destruct (Hf ltac:(lia)) as [H1 H2]. split; [lia|]. split; [exact H1|exact H2].
  - rewrite (proj1 (centred_back _ X2 J2 p2 eq_refl)). intro Z2. rewrite Hle by lia. lia.
  - exists m'. split; [exact E|]. eapply gains_ext; [|exact G]. intros ix Hix. rewrite Dx in Hix. apply in_range_4_inv in Hix as (i0 & i1 & i2 & a & -> & Hi0 & Hi1 & Hi2 & Ha). cbv beta. cbn [nth].
    rewrite !(proj1 (centred_back _ _ _ _ eq_refl)). replace (if J2 - 1 - p2 =? 0 then J2 else J1) with J2 by (destruct (Z.eqb_spec (J2 - 1 - p2) 0); [reflexivity|rewrite Hle by lia; reflexivity]).
    rewrite <- bank3_flip. apply bank3_ext; intros; [reflexivity|]. now apply (flip_elem0 w m O J0 J1 J2 A).
Qed.
Lemma back0_5_ok rg xg w m N0 N1 N2 O X0 X1 X2 A C J0 J1 J2 p0 p1 p2 : operands xg [rg; w] m -> vdims rg = [N0; N1; N2; O; C] -> vdims xg = [X0; X1; X2; A; C] -> vdims w = [O; J0; J1; J2; A] ->
  N0 = X0 + 2 * p0 - J0 + 1 -> N1 = X1 + 2 * p1 - J1 + 1 -> N2 = X2 + 2 * p2 - J2 + 1 ->
  multiplies A O C (sd xg 3) (sd xg 4) (sd w 4) (sd w 0) (sd rg 3) (sd rg 4) ->
  exists m', rconv3_back0 rg xg w m = Ok m' /\
    gains xg (fun ix => bank3_dx N0 N1 N2 J0 J1 J2 O p0 p1 p2 (fun k0 k1 k2 o => elem0 m rg [k0; k1; k2; o; nth 4 ix 0]) (fun o j0 j1 j2 => elem0 m w [o; j0; j1; j2; nth 3 ix 0]) (nth 0 ix 0) (nth 1 ix 0) (nth 2 ix 0)) m m'.
Proof.
  intros Op Dr Dx Dw E0 E1 E2 HL. pose proof Op as (_ & _ & _ & F). inversion F as [|? ? (Wg & _ & _) F']; subst; inversion F' as [|? ? (Ww & _ & _) _]; subst. clear F F'.
  destruct (flip_shows w O J0 J1 J2 A Ww Dw) as (Wf & Df & Sf). pose proof (flip_operands rg xg w m O J0 J1 J2 A Op Dw) as Of.
  unfold rconv3_back0, ndims. rewrite Dx. cbn [length Z.of_nat Pos.of_succ_nat Pos.succ Z.eqb Pos.eqb].
  destruct (rconv3_5_ok xg rg (rflip5 w) m X0 X1 X2 A _ _ _ O C J0 J1 J2 Of Dx Dr Df) as (m' & E & G); [apply carried_iff; exact HL|].
  exists m'. split; [exact E|]. eapply gains_ext; [|exact G]. intros ix Hix. rewrite Dx in Hix. apply in_range_5_inv in Hix as (i0 & i1 & i2 & a & c & -> & Hi0 & Hi1 & Hi2 & Ha & Hc). cbv beta. cbn [nth].
  rewrite !(proj1 (centred_back _ _ _ _ eq_refl)). rewrite <- bank3_flip. apply bank3_ext; intros; [reflexivity|]. now apply (flip_elem0 w m O J0 J1 J2 A).
Qed.
Lemma in_range_6_inv ix A B C D E F : in_range ix [A; B; C; D; E; F] -> exists a b c d e f, ix = [a; b; c; d; e; f] /\ 0 <= a < A /\ 0 <= b < B /\ 0 <= c < C /\ 0 <= d < D /\ 0 <= e < E /\ 0 <= f < F.
Proof. intro H. unfold in_range in H. entries. do 6 eexists. split; [reflexivity|]. repeat split; lia. Qed.
Lemma back0_6_ok rg xg w m B N0 N1 N2 O X0 X1 X2 A C J0 J1 J2 p0 p1 p2 : operands xg [rg; w] m -> vdims rg = [B; N0; N1; N2; O; C] -> vdims xg = [B; X0; X1; X2; A; C] -> vdims w = [O; J0; J1; J2; A] ->
  N0 = X0 + 2 * p0 - J0 + 1 -> N1 = X1 + 2 * p1 - J1 + 1 -> N2 = X2 + 2 * p2 - J2 + 1 ->
  multiplies A O C (sd xg 4) (sd xg 5) (sd w 4) (sd w 0) (sd rg 4) (sd rg 5) ->
  exists m', rconv3_back0 rg xg w m = Ok m' /\
    gains xg (fun ix => bank3_dx N0 N1 N2 J0 J1 J2 O p0 p1 p2 (fun k0 k1 k2 o => elem0 m rg [nth 0 ix 0; k0; k1; k2; o; nth 5 ix 0]) (fun o j0 j1 j2 => elem0 m w [o; j0; j1; j2; nth 4 ix 0]) (nth 1 ix 0) (nth 2 ix 0) (nth 3 ix 0)) m m'.
Proof.
  intros Op Dr Dx Dw E0 E1 E2 HL. pose proof Op as (_ & _ & _ & F). inversion F as [|? ? (Wg & _ & _) F']; subst; inversion F' as [|? ? (Ww & _ & _) _]; subst. clear F F'.
  destruct (flip_shows w O J0 J1 J2 A Ww Dw) as (Wf & Df & Sf). pose proof (flip_operands rg xg w m O J0 J1 J2 A Op Dw) as Of.
  unfold rconv3_back0, ndims. rewrite Dx. cbn [length Z.of_nat Pos.of_succ_nat Pos.succ Z.eqb Pos.eqb].
  destruct (rconv3_6_ok xg rg (rflip5 w) m B X0 X1 X2 A _ _ _ O C J0 J1 J2 Of Dx Dr Df) as (m' & E & G); [apply carried_iff; exact HL|].
  exists m'. split; [exact E|]. eapply gains_ext; [|exact G]. intros ix Hix. rewrite Dx in Hix. apply in_range_6_inv in Hix as (b & i0 & i1 & i2 & a & c & -> & Hb & Hi0 & Hi1 & Hi2 & Ha & Hc). cbv beta. cbn [nth].
  rewrite !(proj1 (centred_back _ _ _ _ eq_refl)). rewrite <- bank3_flip. apply bank3_ext; intros; [reflexivity|]. now apply (flip_elem0 w m O J0 J1 J2 A).
Qed.

(* ---- results of their own ---- *)
Lemma fresh_result b dims x w (op : view -> memR -> res memR) G m : nonneg dims -> vwf x -> vwf w -> readable m x -> readable m w -> vblk x <> b -> vblk w <> b ->
  (forall m1, operands (fresh_view b dims) [x; w] m1 -> (forall ix, elem0 m1 x ix = elem0 m x ix) -> (forall ix, elem0 m1 w ix = elem0 m w ix) -> exists m', op (fresh_view b dims) m1 = Ok m' /\ gains (fresh_view b dims) G m1 m') ->
  exists m', rconv_result b dims op m = Ok (fresh_view b dims, m') /\ (forall ix, in_range ix dims -> elem m' (fresh_view b dims) ix = Some (G ix)) /\ forall b' a, b' <> b -> m' b' a = m b' a.
Proof.
  intros Hn Wx Ww Rx Rw Bx Bw H. unfold rconv_result.
  destruct (fresh_conv b dims m x Hn Wx Bx Rx) as (Wr & Dr & Rr & Zr & Rx0 & Dx & Kx). destruct (fresh_conv b dims m w Hn Ww Bw Rw) as (_ & _ & _ & _ & Rw0 & Dw & Kw).
  destruct (H (alloc c0 b (asize dims) m)) as (m' & E & V & U); try assumption.
  { split; [assumption|]. split; [assumption|]. split; [assumption|]. constructor; [now split|]. constructor; [now split|constructor]. }
  rewrite E. cbn [bind]. exists m'. split; [reflexivity|]. split; [|now apply (untouched_fresh b dims)].
  intros ix Hix. rewrite (V ix c0 Hix (Zr ix Hix)). f_equal. ring.
Qed.
(* an operation that leaves its result alone leaves zeros *)
Lemma fresh_idle b dims x (op : view -> memR -> res memR) m : nonneg dims -> vwf x -> readable m x -> vblk x <> b -> (forall m1, op (fresh_view b dims) m1 = Ok m1) ->
  exists m', rconv_result b dims op m = Ok (fresh_view b dims, m') /\ forall ix, in_range ix dims -> elem m' (fresh_view b dims) ix = Some c0.
Proof.
  intros Hn Wx Rx Bx H. unfold rconv_result. destruct (fresh_conv b dims m x Hn Wx Bx Rx) as (Wr & Dr & Rr & Zr & _). rewrite H. cbn [bind]. eexists. split; [reflexivity|]. exact Zr.
Qed.
End S.

(* the calls for a matrix converted from dense *)
Lemma matrix_of_dense n k (W : Z -> Z -> Z) (l : list (Z * Z * Z)) : NoDup (map fst l) -> (forall i j v, In (i, j, v) l <-> 0 <= i < n /\ 0 <= j < k /\ v = W i j /\ v <> 0) ->
  inside n k l /\ forall o s, 0 <= o < n -> 0 <= s < k -> matrix_of (R := ZRing) l o s = W o s.
Proof.
  intros ND H. split; [intros o s v Hin; apply H in Hin; tauto|]. intros o s Ho Hs. unfold matrix_of. destruct (Z.eq_dec (W o s) 0) as [E|E].
  - rewrite E. apply (rsum_zero ZRing). intros [[o' s'] v] Hin. cbn [fst snd]. destruct ((o' =? o) && (s' =? s)) eqn:Q; [|reflexivity]. exfalso. apply H in Hin as (_ & _ & -> & Hv). assert (o' = o) by lia. assert (s' = s) by lia. subst. contradiction.
  - assert (Hin : In (o, s, W o s) l) by (apply H; auto). rewrite (rsum_single ZRing _ l (o, s, W o s)).
    + cbn [fst snd]. now rewrite !Z.eqb_refl.
    + now apply NoDup_map_inv in ND.
    + exact Hin.
    + intros [[o' s'] v] Hi Hne. cbn [fst snd]. destruct ((o' =? o) && (s' =? s)) eqn:Q; [|reflexivity]. exfalso. apply Hne. assert (o' = o) by lia. assert (s' = s) by lia. subst. apply H in Hi as (_ & _ & -> & _). reflexivity.
Qed.
