(* Proofs_RConv5.v -- convolution with sparse filters. *)
From Verif Require Import Base BaseFacts Model_Index Model_View Model_Tensor Model_Ops Model_RView Model_Einsum Model_Convolve Model_RConv Spec_Index Spec_View Spec_Tensor Spec_Convolve Spec_Convolve2D Spec_RConv
  Proofs_Axes Proofs_Index Proofs_View Proofs_Tensor Proofs_Tensor2 Proofs_Tensor3 Proofs_Convolve Proofs_Convolve2 Proofs_Convolve2D Proofs_Convolve2D2 Proofs_Ops2 Proofs_Ops3 Spec_RView Proofs_RView Proofs_RView2 Proofs_RView3 Proofs_RView5 Proofs_RView6 Spec_CView Proofs_CView3 Proofs_RConv Proofs_RConv2 Proofs_RConv3 Proofs_RConv4.
Local Open Scope Z_scope.

Section S.
Context {R : cring}.
Notation memR := (mem (car R)).
Implicit Types m : memR.
Add Ring RR : (cth R).

Lemma inc_gains p jx t m : vwf p -> distinct_cells p -> readable m p -> in_range jx (vdims p) -> exists m', inc_at p jx t m = Ok m' /\ gains p (fun ix => if eqlb ix jx then t else c0) m m'.
Proof.
  intros W Hd Rp Hj. destruct (inc_becomes m m p (elem0 m p) jx t W Hd (becomes_start m p Rp) Hj) as (m' & E & B & U). exists m'. split; [exact E|]. split; [|exact U].
  intros ix v Hix Ev. rewrite (B ix Hix). pose proof (readable_elem m p ix Rp Hix) as Er. destruct (eqlb ix jx) eqn:Q.
  - apply eqlb_eq in Q as <-. f_equal. f_equal. congruence.
  - f_equal. replace (elem0 m p ix) with v by congruence. ring.
Qed.
(* the stored elements of one row against any weights g *)
Lemma row_sum (w : list (Z * Z * R)) n K (g : Z -> R) o : inside n K w ->
  rsum (map (fun e => if o =? fst (fst e) then cmul (snd e) (g (snd (fst e))) else c0) w) = sum_to K (fun s => cmul (matrix_of w o s) (g s)).
Proof.
  induction w as [|[[o' s'] v] w IH]; intro H.
  - cbn. unfold sum_to. symmetry. apply rsum_zero. intros s _. unfold matrix_of. cbn. change (rsum (@nil R)) with (@c0 R). ring.
  - cbn [map fst snd]. rewrite rsum_cons. rewrite IH by (intros a b c Hi; apply (H a b c); now right). destruct (H o' s' v (or_introl eq_refl)) as [_ Hs].
    rewrite (sum_ext K (fun s => cmul (matrix_of ((o', s', v) :: w) o s) (g s)) (fun s => cadd (if s' =? s then (if o =? o' then cmul v (g s) else c0) else c0) (cmul (matrix_of w o s) (g s)))).
    + unfold sum_to. rewrite rsum_map_add. f_equal. rewrite (sum_delta K s' (fun s => if o =? o' then cmul v (g s) else c0)). now rewrite zpad_in.
    + intros s _. unfold matrix_of. cbn [map fst snd]. rewrite rsum_cons. rewrite (Z.eqb_sym o' o). destruct (o =? o'), (s' =? s); cbn [andb]; ring.
Qed.
(* a filter laid out as a row of J0*J1*A numbers *)
Lemma bank2_row X0 X1 J0 J1 A p0 p1 (x : Z -> Z -> Z -> R) (W : Z -> R) i0 i1 : 0 <= J0 -> 0 <= J1 -> 0 <= A ->
  sum_to (J0 * J1 * A) (fun s => cmul (W s) (zpad2 X0 X1 (fun q0 q1 => x q0 q1 (s mod A)) (i0 + s / A / J1 - p0) (i1 + (s / A) mod J1 - p1))) =
  bank2 X0 X1 J0 J1 A p0 p1 x (fun j0 j1 a => W ((j0 * J1 + j1) * A + a)) i0 i1.
Proof.
  intros H0 H1 HA. rewrite (sum_ext _ _ (fun s => (fun k a => cmul (W (k * A + a)) (zpad2 X0 X1 (fun q0 q1 => x q0 q1 a) (i0 + k / J1 - p0) (i1 + k mod J1 - p1))) (s / A) (s mod A))).
  2: { intros s Hs. assert (0 < A) by nia. rewrite (Z.mul_comm (s / A) A), <- Z.div_mod by lia. reflexivity. }
  rewrite (sum_fused (J0 * J1) A (fun k a => cmul (W (k * A + a)) (zpad2 X0 X1 (fun q0 q1 => x q0 q1 a) (i0 + k / J1 - p0) (i1 + k mod J1 - p1)))) by nia. unfold sum_grid.
  rewrite (sum_ext _ _ (fun k => (fun j0 j1 => zpad2 X0 X1 (fun q0 q1 => sum_to A (fun a => cmul (W ((j0 * J1 + j1) * A + a)) (x q0 q1 a))) (i0 + j0 - p0) (i1 + j1 - p1)) (k / J1) (k mod J1))).
  - exact (sum_fused J0 J1 (fun j0 j1 => zpad2 X0 X1 (fun q0 q1 => sum_to A (fun a => cmul (W ((j0 * J1 + j1) * A + a)) (x q0 q1 a))) (i0 + j0 - p0) (i1 + j1 - p1)) H0 H1).
  - intros k Hk. assert (0 < J1) by nia. rewrite zpad2_sum. apply sum_ext. intros a _. rewrite (Z.mul_comm (k / J1) J1), <- Z.div_mod by lia. unfold zpad2, zpad. destruct ((0 <=? i0 + k / J1 - p0) && (i0 + k / J1 - p0 <? X0)), ((0 <=? i1 + k mod J1 - p1) && (i1 + k mod J1 - p1 <? X1)); ring.
Qed.
Lemma bank3_row X0 X1 X2 J0 J1 J2 A p0 p1 p2 (x : Z -> Z -> Z -> Z -> R) (W : Z -> R) i0 i1 i2 : 0 <= J0 -> 0 <= J1 -> 0 <= J2 -> 0 <= A ->
  sum_to (J0 * J1 * J2 * A) (fun s => cmul (W s) (zpad3 X0 X1 X2 (fun q0 q1 q2 => x q0 q1 q2 (s mod A)) (i0 + s / A / J2 / J1 - p0) (i1 + (s / A / J2) mod J1 - p1) (i2 + (s / A) mod J2 - p2))) =
  bank3 X0 X1 X2 J0 J1 J2 A p0 p1 p2 x (fun j0 j1 j2 a => W (((j0 * J1 + j1) * J2 + j2) * A + a)) i0 i1 i2.
Proof.
  intros H0 H1 H2 HA. assert (0 <= J0 * J1) by nia. assert (0 <= J0 * J1 * J2) by nia.
  rewrite (sum_ext _ _ (fun s => (fun k a => cmul (W (k * A + a)) (zpad3 X0 X1 X2 (fun q0 q1 q2 => x q0 q1 q2 a) (i0 + k / J2 / J1 - p0) (i1 + (k / J2) mod J1 - p1) (i2 + k mod J2 - p2))) (s / A) (s mod A))).
  2: { intros s Hs. assert (0 < A) by nia. rewrite (Z.mul_comm (s / A) A), <- Z.div_mod by lia. reflexivity. }
  rewrite (sum_fused (J0 * J1 * J2) A (fun k a => cmul (W (k * A + a)) (zpad3 X0 X1 X2 (fun q0 q1 q2 => x q0 q1 q2 a) (i0 + k / J2 / J1 - p0) (i1 + (k / J2) mod J1 - p1) (i2 + k mod J2 - p2)))) by assumption. unfold sum_grid.
  set (T := fun j0 j1 j2 => zpad3 X0 X1 X2 (fun q0 q1 q2 => sum_to A (fun a => cmul (W (((j0 * J1 + j1) * J2 + j2) * A + a)) (x q0 q1 q2 a))) (i0 + j0 - p0) (i1 + j1 - p1) (i2 + j2 - p2)).
  rewrite (sum_ext _ _ (fun k => (fun l j2 => T (l / J1) (l mod J1) j2) (k / J2) (k mod J2))).
  - rewrite (sum_fused (J0 * J1) J2 (fun l j2 => T (l / J1) (l mod J1) j2)) by assumption. unfold sum_grid.
    exact (sum_fused J0 J1 (fun j0 j1 => sum_to J2 (T j0 j1)) H0 H1).
  - intros k Hk. assert (0 < J2) by nia. assert (0 < J1) by nia. unfold T, zpad3. rewrite (Z.mul_comm (k / J2 / J1) J1), <- Z.div_mod, (Z.mul_comm (k / J2) J2), <- Z.div_mod by lia.
    rewrite (zpad_ext X0 _ (fun q0 => sum_to A (fun a => zpad2 X1 X2 (fun q1 q2 => cmul (W (k * A + a)) (x q0 q1 q2 a)) (i1 + (k / J2) mod J1 - p1) (i2 + k mod J2 - p2)))) by (intros _; apply zpad2_sum).
    rewrite zpad_sum. apply sum_ext. intros a _. unfold zpad2, zpad.
    destruct ((0 <=? i0 + k / J2 / J1 - p0) && (i0 + k / J2 / J1 - p0 <? X0)), ((0 <=? i1 + (k / J2) mod J1 - p1) && (i1 + (k / J2) mod J1 - p1 <? X1)), ((0 <=? i2 + k mod J2 - p2) && (i2 + k mod J2 - p2 <? X2)); ring.
Qed.
Lemma zpad_out n (f : Z -> R) i : i < 0 \/ i >= n -> zpad n f i = c0.
Proof. intro H. unfold zpad. destruct ((0 <=? i) && (i <? n)) eqn:E; [lia|reflexivity]. Qed.
Lemma quot_rem s A J1 : 0 <= s -> 0 < A -> 0 < J1 -> Z.quot s (J1 * A) = s / A / J1 /\ Z.rem (Z.quot s A) J1 = (s / A) mod J1 /\ Z.rem s A = s mod A.
Proof.
  intros Hs HA HJ. split; [|split].
  - rewrite Z.quot_div_nonneg by nia. rewrite Z.mul_comm. symmetry. apply Z.div_div; lia.
  - rewrite Z.quot_div_nonneg by lia. rewrite Z.rem_mod_nonneg; [reflexivity|apply Z.div_pos; lia|assumption].
  - apply Z.rem_mod_nonneg; lia.
Qed.
Lemma single r x (m : memR) : operands r [x] m -> operands r [x; x] m.
Proof. intros (A & B & C & F). inversion F; subst. split; [assumption|]. split; [assumption|]. split; [assumption|]. constructor; [assumption|]. now constructor. Qed.
Lemma sizes_nonneg v : vwf v -> forall k, 0 <= nth k (vdims v) 0.
Proof. intros [_ N] k. destruct (Nat.lt_ge_cases k (length (vdims v))) as [H|H]; [|rewrite nth_overflow by assumption; lia]. unfold nonneg in N. rewrite Forall_forall in N. apply N. now apply nth_In. Qed.

Lemma rsconv2_3_ok r x n w J0 J1 m N0 N1 X0 X1 A : operands r [x] m -> vdims r = [N0; N1; n] -> vdims x = [X0; X1; A] -> 0 <= J0 -> 0 <= J1 -> inside n (J0 * J1 * A) w ->
  exists m', rsconv2_3 r x n w J0 J1 m = Ok m' /\
    gains r (fun ix => bank2 X0 X1 J0 J1 A (centred N0 X0 J0) (centred N1 X1 J1) (fun q0 q1 a => elem0 m x [q0; q1; a]) (fun j0 j1 a => matrix_of w (nth 2 ix 0) ((j0 * J1 + j1) * A + a)) (nth 0 ix 0) (nth 1 ix 0)) m m'.
Proof.
  intros Op Dr Dx HJ0 HJ1 Hw. pose proof Op as (Wr & Hd & Rr & F). inversion F as [|? ? (Wx & Rx & Bx) _]; subst. clear F. pose proof (sizes_nonneg x Wx 2) as HA. rewrite Dx in HA. cbn [nth] in HA.
  unfold rsconv2_3. rewrite !(nd_eq r _ _ Dr), !(nd_eq x _ _ Dx). cbn [nth]. rewrite !Z.eqb_refl. cbn [assrt]. cbv zeta.
  change (pad0 N0 X0 J0) with (centred N0 X0 J0). change (pad0 N1 X1 J1) with (centred N1 X1 J1). set (p0 := centred N0 X0 J0) in *. set (p1 := centred N1 X1 J1) in *.
  apply (slices2_gain r N0 N1 [n]); try assumption. intros i0 i1 m1 Hi0 Hi1 U1 p Wp Dp Sp R1. cbn [nth].
  assert (Ep : View (vblk r) (voff r + i0 * sd r 0 + i1 * sd r 1) [n] [sd r 2] = p).
  { unfold p, rvN_slice0. destruct r as [br or dr sr]. cbn [vdims] in Dr. subst dr. destruct Wr as [L _]. cbn [vdims vstr] in L. repeat (destruct sr as [|? sr]; try discriminate L). reflexivity. }
  rewrite Ep. clearbody p. assert (Hdp : distinct_cells p) by (apply (shows_distinct _ _ _ Sp); [intros; congruence|assumption]).
  set (T := fun s => zpad2 X0 X1 (fun q0 q1 => elem0 m x [q0; q1; s mod A]) (i0 + s / A / J1 - p0) (i1 + (s / A) mod J1 - p1)).
  match goal with |- context [foldM ?f w m1] => destruct (gains_fold p f (fun e ix => if nth 0 ix 0 =? fst (fst e) then cmul (snd e) (T (snd (fst e))) else c0) w m1 m1 R1 (untouched_same m1 p)) as (m2 & E2 & G2) end.
  - intros [[o s] v] m2 Hin R2 U2. destruct (Hw o s v Hin) as [Ho Hs]. assert (0 < A /\ 0 < J1) as [HA' HJ'] by nia. cbn [fst snd]. replace (J1 * A =? 0) with false by nia.
    destruct (quot_rem s A J1) as (-> & -> & ->); try lia. pose proof (Z.mod_pos_bound s A HA').
    destruct ((i0 + s / A / J1 - p0 <? 0) || (i0 + s / A / J1 - p0 >=? X0)) eqn:B0; [|destruct ((i1 + (s / A) mod J1 - p1 <? 0) || (i1 + (s / A) mod J1 - p1 >=? X1)) eqn:B1].
    + exists m2. split; [reflexivity|]. eapply gains_ext; [|apply gains_none]. intros ix _. cbv beta. unfold T, zpad2. rewrite zpad_out by lia. destruct (nth 0 ix 0 =? o); ring.
    + exists m2. split; [reflexivity|]. eapply gains_ext; [|apply gains_none]. intros ix _. cbv beta. unfold T, zpad2. rewrite zpad_in by lia. rewrite zpad_out by lia. destruct (nth 0 ix 0 =? o); ring.
    + assert (Uk : untouched m m2 r) by (eapply untouched_trans; [exact U1|]; eapply sub_untouched; eassumption). rewrite (keep_get r x m m2) by (try assumption; rewrite Dx; apply in_range_3; lia). cbn [bind].
      destruct (inc_gains p [o] (cmul v (elem0 m x [i0 + s / A / J1 - p0; i1 + (s / A) mod J1 - p1; s mod A])) m2 Wp Hdp R2) as (m3 & E3 & G3); [rewrite Dp; repeat constructor; lia|].
      exists m3. split; [exact E3|]. eapply gains_ext; [|exact G3]. intros ix Hix. rewrite Dp in Hix. apply in_range_1_inv in Hix as (o' & -> & Ho'). cbn [nth eqlb]. rewrite andb_true_r. unfold T. now rewrite zpad2_in by lia.
  - exists m2. split; [exact E2|]. eapply gains_ext; [|exact G2]. intros ix _. cbv beta. rewrite (row_sum w n (J0 * J1 * A) T (nth 0 ix 0) Hw).
    apply (bank2_row X0 X1 J0 J1 A p0 p1 (fun q0 q1 a => elem0 m x [q0; q1; a]) (matrix_of w (nth 0 ix 0)) i0 i1); assumption.
Qed.
(* one stored element, all the columns k *)
Lemma column_taps p n C o (f : Z -> R) (step : Z -> memR -> res memR) m1 m2 : vwf p -> vdims p = [n; C] -> distinct_cells p -> readable m2 p -> untouched m1 m2 p -> 0 <= o < n ->
  (forall k m3, 0 <= k < C -> untouched m1 m3 p -> step k m3 = inc_at p [o; k] (f k) m3) ->
  exists m3, forZ C step m2 = Ok m3 /\ gains p (fun ix => if nth 0 ix 0 =? o then f (nth 1 ix 0) else c0) m2 m3.
Proof.
  intros Wp Dp Hdp R2 U2 Ho H. unfold forZ. destruct (gains_fold p step (fun k ix => if eqlb ix [o; k] then f k else c0) (zrange C) m1 m2 R2 U2) as (m3 & E3 & G3).
  - intros k m3 Hk R3 U3. apply in_zrange in Hk. rewrite H by assumption. apply inc_gains; try assumption. rewrite Dp. repeat constructor; lia.
  - exists m3. split; [exact E3|]. eapply gains_ext; [|exact G3]. intros ix Hix. rewrite Dp in Hix. apply in_range_2_inv in Hix as (o' & c & -> & Ho' & Hc). cbn [nth eqlb].
    destruct (o' =? o); cbn [andb]; [|apply rsum_zero; intros; reflexivity].
    etransitivity; [|exact (zpad_in C f c Hc)]. rewrite <- sum_delta. apply rsum_ext. intros k _. now rewrite andb_true_r.
Qed.
Lemma rsconv2_4_ok r x n w J0 J1 m N0 N1 X0 X1 A C : operands r [x] m -> vdims r = [N0; N1; n; C] -> vdims x = [X0; X1; A; C] -> 0 <= J0 -> 0 <= J1 -> inside n (J0 * J1 * A) w ->
  exists m', rsconv2_4 r x n w J0 J1 m = Ok m' /\
    gains r (fun ix => bank2 X0 X1 J0 J1 A (centred N0 X0 J0) (centred N1 X1 J1) (fun q0 q1 a => elem0 m x [q0; q1; a; nth 3 ix 0]) (fun j0 j1 a => matrix_of w (nth 2 ix 0) ((j0 * J1 + j1) * A + a)) (nth 0 ix 0) (nth 1 ix 0)) m m'.
Proof.
  intros Op Dr Dx HJ0 HJ1 Hw. pose proof Op as (Wr & Hd & Rr & F). inversion F as [|? ? (Wx & Rx & Bx) _]; subst. clear F. pose proof (sizes_nonneg x Wx 2) as HA. rewrite Dx in HA. cbn [nth] in HA.
  unfold rsconv2_4. rewrite !(nd_eq r _ _ Dr), !(nd_eq x _ _ Dx). cbn [nth]. rewrite !Z.eqb_refl. cbn [assrt]. cbv zeta.
  change (pad0 N0 X0 J0) with (centred N0 X0 J0). change (pad0 N1 X1 J1) with (centred N1 X1 J1). set (p0 := centred N0 X0 J0) in *. set (p1 := centred N1 X1 J1) in *.
  apply (slices2_gain r N0 N1 [n; C]); try assumption. intros i0 i1 m1 Hi0 Hi1 U1 p Wp Dp Sp R1. cbn [nth].
  assert (Ep : View (vblk r) (voff r + i0 * sd r 0 + i1 * sd r 1) [n; C] [sd r 2; sd r 3] = p).
  { unfold p, rvN_slice0. destruct r as [br or dr sr]. cbn [vdims] in Dr. subst dr. destruct Wr as [L _]. cbn [vdims vstr] in L. repeat (destruct sr as [|? sr]; try discriminate L). reflexivity. }
  rewrite Ep. clearbody p. assert (Hdp : distinct_cells p) by (apply (shows_distinct _ _ _ Sp); [intros; congruence|assumption]).
  set (T := fun c s => zpad2 X0 X1 (fun q0 q1 => elem0 m x [q0; q1; s mod A; c]) (i0 + s / A / J1 - p0) (i1 + (s / A) mod J1 - p1)).
  match goal with |- context [foldM ?f w m1] => destruct (gains_fold p f (fun e ix => if nth 0 ix 0 =? fst (fst e) then cmul (snd e) (T (nth 1 ix 0) (snd (fst e))) else c0) w m1 m1 R1 (untouched_same m1 p)) as (m2 & E2 & G2) end.
  - intros [[o s] v] m2 Hin R2 U2. destruct (Hw o s v Hin) as [Ho Hs]. assert (0 < A /\ 0 < J1) as [HA' HJ'] by nia. cbn [fst snd]. replace (J1 * A =? 0) with false by nia.
    destruct (quot_rem s A J1) as (-> & -> & ->); try lia. pose proof (Z.mod_pos_bound s A HA').
    destruct ((i0 + s / A / J1 - p0 <? 0) || (i0 + s / A / J1 - p0 >=? X0)) eqn:B0; [|destruct ((i1 + (s / A) mod J1 - p1 <? 0) || (i1 + (s / A) mod J1 - p1 >=? X1)) eqn:B1].
    + exists m2. split; [reflexivity|]. eapply gains_ext; [|apply gains_none]. intros ix _. cbv beta. unfold T, zpad2. rewrite zpad_out by lia. destruct (nth 0 ix 0 =? o); ring.
    + exists m2. split; [reflexivity|]. eapply gains_ext; [|apply gains_none]. intros ix _. cbv beta. unfold T, zpad2. rewrite zpad_in by lia. rewrite zpad_out by lia. destruct (nth 0 ix 0 =? o); ring.
    + match goal with |- context [forZ C ?st m2] => destruct (column_taps p n C o (fun c => cmul v (T c s)) st m1 m2 Wp Dp Hdp R2 U2 Ho) as (m3 & E3 & G3) end; [|now exists m3].
      intros k m3 Hk U3. assert (Uk : untouched m m3 r) by (eapply untouched_trans; [exact U1|]; eapply sub_untouched; eassumption). rewrite (keep_get r x m m3) by (try assumption; rewrite Dx; apply in_range_4; lia). cbn [bind].
      unfold T. now rewrite zpad2_in by lia.
  - exists m2. split; [exact E2|]. eapply gains_ext; [|exact G2]. intros ix _. cbv beta. rewrite (row_sum w n (J0 * J1 * A) (T (nth 1 ix 0)) (nth 0 ix 0) Hw).
    apply (bank2_row X0 X1 J0 J1 A p0 p1 (fun q0 q1 a => elem0 m x [q0; q1; a; nth 1 ix 0]) (matrix_of w (nth 0 ix 0)) i0 i1); assumption.
Qed.
Lemma one_operand r x m m1 RR XX fr fx : operands r [x] m -> untouched m m1 r -> readable m1 RR ->
  shows RR r fr -> (forall ix jx, in_range ix (vdims RR) -> in_range jx (vdims RR) -> fr ix = fr jx -> ix = jx) -> vwf RR -> shows XX x fx -> vwf XX ->
  operands RR [XX] m1 /\ (forall ix, in_range ix (vdims XX) -> elem0 m1 XX ix = elem0 m x (fx ix)).
Proof.
  intros Op U R1 Sr Ir WR Sx WX. destruct (part2_operands r x x m m1 RR XX fr fx (single r x m Op) U R1 Sr Ir WR Sx WX) as ((A & B & C & F) & E1 & _). split; [|exact E1]. inversion F; subst. split; [assumption|]. split; [assumption|]. split; [assumption|]. now constructor.
Qed.
Lemma rsconv2_5_ok r x n w J0 J1 m B N0 N1 X0 X1 A C : operands r [x] m -> vdims r = [B; N0; N1; n; C] -> vdims x = [B; X0; X1; A; C] -> 0 <= J0 -> 0 <= J1 -> inside n (J0 * J1 * A) w ->
  exists m', rsconv2_5 r x n w J0 J1 m = Ok m' /\
    gains r (fun ix => bank2 X0 X1 J0 J1 A (centred N0 X0 J0) (centred N1 X1 J1) (fun q0 q1 a => elem0 m x [nth 0 ix 0; q0; q1; a; nth 4 ix 0]) (fun j0 j1 a => matrix_of w (nth 3 ix 0) ((j0 * J1 + j1) * A + a)) (nth 1 ix 0) (nth 2 ix 0)) m m'.
Proof.
  intros Op Dr Dx HJ0 HJ1 Hw. pose proof Op as (Wr & Hd & Rr & F). inversion F as [|? ? (Wx & Rx & Bx) _]; subst. clear F.
  unfold rsconv2_5. rewrite !(nd_eq r _ _ Dr), !(nd_eq x _ _ Dx). cbn [nth]. rewrite !Z.eqb_refl. cbn [assrt].
  apply (slices_gain r B [N0; N1; n; C]); try assumption. intros b m1 Hb U1 R1. cbn [nth].
  destruct (slice0_shows r B _ b Wr Dr Hb) as (Wi & Di & Si). destruct (slice0_shows x B _ b Wx Dx Hb) as (Xi & DXi & SXi).
  destruct (one_operand r x m m1 (rvN_slice0 r b) (rvN_slice0 x b) (cons b) (cons b) Op U1 R1 Si) as (O1 & E1); try assumption; [intros; congruence|].
  destruct (rsconv2_4_ok (rvN_slice0 r b) (rvN_slice0 x b) n w J0 J1 m1 N0 N1 X0 X1 A C O1 Di DXi HJ0 HJ1 Hw) as (m2 & E & G).
  exists m2. split; [exact E|]. eapply gains_ext; [|exact G]. intros ix Hix. rewrite Di in Hix. apply in_range_4_inv in Hix as (i0 & i1 & o & c & -> & Hi0 & Hi1 & Ho & Hc). cbn [nth].
  apply bank2_ext; intros; [|reflexivity]. rewrite E1; [reflexivity|]. rewrite DXi. now apply in_range_4.
Qed.
Lemma rsconv2_6_ok r x n w J0 J1 m B N0 N1 D X0 X1 A C : operands r [x] m -> vdims r = [B; N0; N1; D; n; C] -> vdims x = [B; X0; X1; D; A; C] -> 0 <= J0 -> 0 <= J1 -> inside n (J0 * J1 * A) w ->
  exists m', rsconv2_6 r x n w J0 J1 m = Ok m' /\
    gains r (fun ix => bank2 X0 X1 J0 J1 A (centred N0 X0 J0) (centred N1 X1 J1) (fun q0 q1 a => elem0 m x [nth 0 ix 0; q0; q1; nth 3 ix 0; a; nth 5 ix 0]) (fun j0 j1 a => matrix_of w (nth 4 ix 0) ((j0 * J1 + j1) * A + a)) (nth 1 ix 0) (nth 2 ix 0)) m m'.
Proof.
  intros Op Dr Dx HJ0 HJ1 Hw. pose proof Op as (Wr & Hd & Rr & F). inversion F as [|? ? (Wx & Rx & Bx) _]; subst. clear F.
  unfold rsconv2_6. rewrite !(nd_eq r _ _ Dr), !(nd_eq x _ _ Dx). cbn [nth]. rewrite !Z.eqb_refl. cbn [assrt].
  apply (slices_gain r B [N0; N1; D; n; C]); try assumption. intros b m1 Hb U1 R1. cbn [nth].
  destruct (slice0_shows r B _ b Wr Dr Hb) as (Wi & Di & Si). destruct (slice0_shows x B _ b Wx Dx Hb) as (Xi & DXi & SXi).
  apply (slices5_2_gain (rvN_slice0 r b) N0 N1 D n C); try assumption.
  { apply (shows_distinct _ _ _ Si); [intros; congruence|assumption]. }
  intros d m2 Hdd U2 R2. destruct (slice2_shows _ _ _ _ _ _ d Wi Di Hdd) as (Wj & Dj & Sj). destruct (slice2_shows _ _ _ _ _ _ d Xi DXi Hdd) as (Xj & DXj & SXj).
  pose proof (shows_trans _ _ _ _ _ Sj Si) as Sr. pose proof (shows_trans _ _ _ _ _ SXj SXi) as Sx.
  assert (Inj : forall ix jx, in_range ix (vdims (rv5_slice2 (rvN_slice0 r b) d)) -> in_range jx (vdims (rv5_slice2 (rvN_slice0 r b) d)) ->
    b :: [nth 0 ix 0; nth 1 ix 0; d; nth 2 ix 0; nth 3 ix 0] = b :: [nth 0 jx 0; nth 1 jx 0; d; nth 2 jx 0; nth 3 jx 0] -> ix = jx).
  { rewrite Dj. intros ix jx Hi Hj E. apply in_range_4_inv in Hi as (? & ? & ? & ? & -> & _). apply in_range_4_inv in Hj as (? & ? & ? & ? & -> & _). cbn [nth] in E. congruence. }
  destruct (one_operand r x m m2 _ _ _ _ Op (untouched_trans _ _ _ _ U1 (sub_untouched _ _ _ _ _ Si U2)) R2 Sr Inj Wj Sx Xj) as (O1 & E1).
  destruct (rsconv2_4_ok _ _ n w J0 J1 m2 N0 N1 X0 X1 A C O1 Dj DXj HJ0 HJ1 Hw) as (m3 & E & G).
  exists m3. split; [exact E|]. eapply gains_ext; [|exact G]. intros ix Hix. rewrite Dj in Hix. apply in_range_4_inv in Hix as (i0 & i1 & o & c & -> & Hi0 & Hi1 & Ho & Hc). cbn [nth].
  apply bank2_ext; intros; [|reflexivity]. rewrite E1; [reflexivity|]. rewrite DXj. now apply in_range_4.
Qed.

(* ---- three dimensions ---- *)
Lemma quot_rem3 s A J1 J2 : 0 <= s -> 0 < A -> 0 < J1 -> 0 < J2 ->
  Z.rem (Z.quot s A) J2 = (s / A) mod J2 /\ Z.rem (Z.quot s (J2 * A)) J1 = (s / A / J2) mod J1 /\ Z.quot (Z.quot s (J2 * A)) J1 = s / A / J2 / J1 /\ Z.rem s A = s mod A.
Proof.
  intros Hs HA H1 H2. destruct (quot_rem s A J2 Hs HA H2) as (-> & -> & ->). assert (0 <= s / A / J2) by (apply Z.div_pos; [apply Z.div_pos; lia|lia]).
  rewrite Z.quot_div_nonneg, Z.rem_mod_nonneg by lia. auto.
Qed.
Lemma zpad3_in n0 n1 n2 (f : Z -> Z -> Z -> R) i j k : 0 <= i < n0 -> 0 <= j < n1 -> 0 <= k < n2 -> zpad3 n0 n1 n2 f i j k = f i j k.
Proof. intros. unfold zpad3. rewrite zpad_in by lia. now apply zpad2_in. Qed.
Lemma zpad3_out n0 n1 n2 (f : Z -> Z -> Z -> R) i j k : (i < 0 \/ i >= n0) \/ (j < 0 \/ j >= n1) \/ (k < 0 \/ k >= n2) -> zpad3 n0 n1 n2 f i j k = c0.
Proof. intros H. unfold zpad3, zpad2, zpad. destruct ((0 <=? i) && (i <? n0)) eqn:E0; [|reflexivity]. destruct ((0 <=? j) && (j <? n1)) eqn:E1; [|reflexivity]. destruct ((0 <=? k) && (k <? n2)) eqn:E2; [lia|reflexivity]. Qed.
Lemma rsconv3_4_ok r x n w J0 J1 J2 m N0 N1 N2 X0 X1 X2 A : operands r [x] m -> vdims r = [N0; N1; N2; n] -> vdims x = [X0; X1; X2; A] -> 0 <= J0 -> 0 <= J1 -> 0 <= J2 -> inside n (J0 * J1 * J2 * A) w ->
  exists m', rsconv3_4 r x n w J0 J1 J2 m = Ok m' /\
    gains r (fun ix => bank3 X0 X1 X2 J0 J1 J2 A (centred N0 X0 J0) (centred N1 X1 J1) (centred N2 X2 J2) (fun q0 q1 q2 a => elem0 m x [q0; q1; q2; a]) (fun j0 j1 j2 a => matrix_of w (nth 3 ix 0) (((j0 * J1 + j1) * J2 + j2) * A + a)) (nth 0 ix 0) (nth 1 ix 0) (nth 2 ix 0)) m m'.
Proof.
  intros Op Dr Dx HJ0 HJ1 HJ2 Hw. pose proof Op as (Wr & Hd & Rr & F). inversion F as [|? ? (Wx & Rx & Bx) _]; subst. clear F. pose proof (sizes_nonneg x Wx 3) as HA. rewrite Dx in HA. cbn [nth] in HA.
  unfold rsconv3_4. rewrite !(nd_eq r _ _ Dr), !(nd_eq x _ _ Dx). cbn [nth]. rewrite !Z.eqb_refl. cbn [assrt]. cbv zeta.
  change (pad0 N0 X0 J0) with (centred N0 X0 J0). change (pad0 N1 X1 J1) with (centred N1 X1 J1). change (pad0 N2 X2 J2) with (centred N2 X2 J2). set (p0 := centred N0 X0 J0) in *. set (p1 := centred N1 X1 J1) in *. set (p2 := centred N2 X2 J2) in *.
  apply (slices3_gain r N0 N1 N2 [n]); try assumption. intros i0 i1 i2 m1 Hi0 Hi1 Hi2 U1 p Wp Dp Sp R1. cbn [nth].
  assert (Ep : View (vblk r) (voff r + i0 * sd r 0 + i1 * sd r 1 + i2 * sd r 2) [n] [sd r 3] = p).
  { unfold p, rvN_slice0. destruct r as [br or dr sr]. cbn [vdims] in Dr. subst dr. destruct Wr as [L _]. cbn [vdims vstr] in L. repeat (destruct sr as [|? sr]; try discriminate L). reflexivity. }
  rewrite Ep. clearbody p. assert (Hdp : distinct_cells p) by (apply (shows_distinct _ _ _ Sp); [intros; congruence|assumption]).
  set (T := fun s => zpad3 X0 X1 X2 (fun q0 q1 q2 => elem0 m x [q0; q1; q2; s mod A]) (i0 + s / A / J2 / J1 - p0) (i1 + (s / A / J2) mod J1 - p1) (i2 + (s / A) mod J2 - p2)).
  match goal with |- context [foldM ?f w m1] => destruct (gains_fold p f (fun e ix => if nth 0 ix 0 =? fst (fst e) then cmul (snd e) (T (snd (fst e))) else c0) w m1 m1 R1 (untouched_same m1 p)) as (m2 & E2 & G2) end.
  - intros [[o s] v] m2 Hin R2 U2. destruct (Hw o s v Hin) as [Ho Hs]. assert (0 < A /\ 0 < J1 /\ 0 < J2) as (HA' & HJ' & HJ'').
    { assert (0 < J0 * J1 * J2 * A) by lia. assert (0 <= J0 * J1) by nia. assert (0 <= J0 * J1 * J2) by nia. assert (A <> 0) by (intros ->; lia). assert (J2 <> 0) by (intros ->; lia). assert (J1 <> 0) by (intros ->; lia). lia. }
    cbn [fst snd]. replace ((J2 * A =? 0) || (J1 =? 0)) with false by nia.
    destruct (quot_rem3 s A J1 J2) as (-> & -> & -> & ->); try lia. pose proof (Z.mod_pos_bound s A HA').
    assert (Hz : forall t0 t1 t2, (t0 < 0 \/ t0 >= X0) \/ (t1 < 0 \/ t1 >= X1) \/ (t2 < 0 \/ t2 >= X2) -> i0 + s / A / J2 / J1 - p0 = t0 -> i1 + (s / A / J2) mod J1 - p1 = t1 -> i2 + (s / A) mod J2 - p2 = t2 ->
      gains p (fun ix => if nth 0 ix 0 =? o then cmul v (T s) else c0) m2 m2).
    { intros t0 t1 t2 Ht E0 E1 E2. eapply gains_ext; [|apply gains_none]. intros ix _. cbv beta. unfold T. rewrite zpad3_out by (rewrite E0, E1, E2; exact Ht). destruct (nth 0 ix 0 =? o); ring. }
    destruct ((i0 + s / A / J2 / J1 - p0 <? 0) || (i0 + s / A / J2 / J1 - p0 >=? X0)) eqn:B0; [exists m2; split; [reflexivity|]; eapply Hz; try reflexivity; lia|].
    destruct ((i1 + (s / A / J2) mod J1 - p1 <? 0) || (i1 + (s / A / J2) mod J1 - p1 >=? X1)) eqn:B1; [exists m2; split; [reflexivity|]; eapply Hz; try reflexivity; lia|].
    destruct ((i2 + (s / A) mod J2 - p2 <? 0) || (i2 + (s / A) mod J2 - p2 >=? X2)) eqn:B2; [exists m2; split; [reflexivity|]; eapply Hz; try reflexivity; lia|].
    assert (Uk : untouched m m2 r) by (eapply untouched_trans; [exact U1|]; eapply sub_untouched; eassumption). rewrite (keep_get r x m m2) by (try assumption; rewrite Dx; apply in_range_4; lia). cbn [bind].
    match goal with |- context [inc_at p [o] ?t m2] => destruct (inc_gains p [o] t m2 Wp Hdp R2) as (m3 & E3 & G3); [rewrite Dp; repeat constructor; lia|] end.
    exists m3. split; [exact E3|]. eapply gains_ext; [|exact G3]. intros ix Hix. rewrite Dp in Hix. apply in_range_1_inv in Hix as (o' & -> & Ho'). cbn [nth eqlb]. rewrite andb_true_r. unfold T. now rewrite zpad3_in by lia.
  - exists m2. split; [exact E2|]. eapply gains_ext; [|exact G2]. intros ix _. cbv beta. rewrite (row_sum w n (J0 * J1 * J2 * A) T (nth 0 ix 0) Hw).
    apply (bank3_row X0 X1 X2 J0 J1 J2 A p0 p1 p2 (fun q0 q1 q2 a => elem0 m x [q0; q1; q2; a]) (matrix_of w (nth 0 ix 0)) i0 i1 i2); assumption.
Qed.
Lemma rsconv3_5_ok r x n w J0 J1 J2 m N0 N1 N2 X0 X1 X2 A C : operands r [x] m -> vdims r = [N0; N1; N2; n; C] -> vdims x = [X0; X1; X2; A; C] -> 0 <= J0 -> 0 <= J1 -> 0 <= J2 -> inside n (J0 * J1 * J2 * A) w ->
  exists m', rsconv3_5 r x n w J0 J1 J2 m = Ok m' /\
    gains r (fun ix => bank3 X0 X1 X2 J0 J1 J2 A (centred N0 X0 J0) (centred N1 X1 J1) (centred N2 X2 J2) (fun q0 q1 q2 a => elem0 m x [q0; q1; q2; a; nth 4 ix 0]) (fun j0 j1 j2 a => matrix_of w (nth 3 ix 0) (((j0 * J1 + j1) * J2 + j2) * A + a)) (nth 0 ix 0) (nth 1 ix 0) (nth 2 ix 0)) m m'.
Proof.
  intros Op Dr Dx HJ0 HJ1 HJ2 Hw. pose proof Op as (Wr & Hd & Rr & F). inversion F as [|? ? (Wx & Rx & Bx) _]; subst. clear F. pose proof (sizes_nonneg x Wx 3) as HA. rewrite Dx in HA. cbn [nth] in HA.
  unfold rsconv3_5. rewrite !(nd_eq r _ _ Dr), !(nd_eq x _ _ Dx). cbn [nth]. rewrite !Z.eqb_refl. cbn [assrt]. cbv zeta.
  change (pad0 N0 X0 J0) with (centred N0 X0 J0). change (pad0 N1 X1 J1) with (centred N1 X1 J1). change (pad0 N2 X2 J2) with (centred N2 X2 J2). set (p0 := centred N0 X0 J0) in *. set (p1 := centred N1 X1 J1) in *. set (p2 := centred N2 X2 J2) in *.
  apply (slices3_gain r N0 N1 N2 [n; C]); try assumption. intros i0 i1 i2 m1 Hi0 Hi1 Hi2 U1 p Wp Dp Sp R1. cbn [nth].
  assert (Ep : View (vblk r) (voff r + i0 * sd r 0 + i1 * sd r 1 + i2 * sd r 2) [n; C] [sd r 3; sd r 4] = p).
  { unfold p, rvN_slice0. destruct r as [br or dr sr]. cbn [vdims] in Dr. subst dr. destruct Wr as [L _]. cbn [vdims vstr] in L. repeat (destruct sr as [|? sr]; try discriminate L). reflexivity. }
  rewrite Ep. clearbody p. assert (Hdp : distinct_cells p) by (apply (shows_distinct _ _ _ Sp); [intros; congruence|assumption]).
  set (T := fun c s => zpad3 X0 X1 X2 (fun q0 q1 q2 => elem0 m x [q0; q1; q2; s mod A; c]) (i0 + s / A / J2 / J1 - p0) (i1 + (s / A / J2) mod J1 - p1) (i2 + (s / A) mod J2 - p2)).
  match goal with |- context [foldM ?f w m1] => destruct (gains_fold p f (fun e ix => if nth 0 ix 0 =? fst (fst e) then cmul (snd e) (T (nth 1 ix 0) (snd (fst e))) else c0) w m1 m1 R1 (untouched_same m1 p)) as (m2 & E2 & G2) end.
  - intros [[o s] v] m2 Hin R2 U2. destruct (Hw o s v Hin) as [Ho Hs]. assert (0 < A /\ 0 < J1 /\ 0 < J2) as (HA' & HJ' & HJ'').
    { assert (0 < J0 * J1 * J2 * A) by lia. assert (0 <= J0 * J1) by nia. assert (0 <= J0 * J1 * J2) by nia. assert (A <> 0) by (intros ->; lia). assert (J2 <> 0) by (intros ->; lia). assert (J1 <> 0) by (intros ->; lia). lia. }
    cbn [fst snd]. replace ((J2 * A =? 0) || (J1 =? 0)) with false by nia.
    destruct (quot_rem3 s A J1 J2) as (-> & -> & -> & ->); try lia. pose proof (Z.mod_pos_bound s A HA').
    assert (Hz : forall t0 t1 t2, (t0 < 0 \/ t0 >= X0) \/ (t1 < 0 \/ t1 >= X1) \/ (t2 < 0 \/ t2 >= X2) -> i0 + s / A / J2 / J1 - p0 = t0 -> i1 + (s / A / J2) mod J1 - p1 = t1 -> i2 + (s / A) mod J2 - p2 = t2 ->
      gains p (fun ix => if nth 0 ix 0 =? o then cmul v (T (nth 1 ix 0) s) else c0) m2 m2).
    { intros t0 t1 t2 Ht E0 E1 E2. eapply gains_ext; [|apply gains_none]. intros ix _. cbv beta. unfold T. rewrite zpad3_out by (rewrite E0, E1, E2; exact Ht). destruct (nth 0 ix 0 =? o); ring. }
    destruct ((i0 + s / A / J2 / J1 - p0 <? 0) || (i0 + s / A / J2 / J1 - p0 >=? X0)) eqn:B0; [exists m2; split; [reflexivity|]; eapply Hz; try reflexivity; lia|].
    destruct ((i1 + (s / A / J2) mod J1 - p1 <? 0) || (i1 + (s / A / J2) mod J1 - p1 >=? X1)) eqn:B1; [exists m2; split; [reflexivity|]; eapply Hz; try reflexivity; lia|].
    destruct ((i2 + (s / A) mod J2 - p2 <? 0) || (i2 + (s / A) mod J2 - p2 >=? X2)) eqn:B2; [exists m2; split; [reflexivity|]; eapply Hz; try reflexivity; lia|].
    match goal with |- context [forZ C ?st m2] => destruct (column_taps p n C o (fun c => cmul v (T c s)) st m1 m2 Wp Dp Hdp R2 U2 Ho) as (m3 & E3 & G3) end; [|now exists m3].
    intros k m3 Hk U3. assert (Uk : untouched m m3 r) by (eapply untouched_trans; [exact U1|]; eapply sub_untouched; eassumption). rewrite (keep_get r x m m3) by (try assumption; rewrite Dx; apply in_range_5; lia). cbn [bind].
    unfold T. now rewrite zpad3_in by lia.
  - exists m2. split; [exact E2|]. eapply gains_ext; [|exact G2]. intros ix _. cbv beta. rewrite (row_sum w n (J0 * J1 * J2 * A) (T (nth 1 ix 0)) (nth 0 ix 0) Hw).
    apply (bank3_row X0 X1 X2 J0 J1 J2 A p0 p1 p2 (fun q0 q1 q2 a => elem0 m x [q0; q1; q2; a; nth 1 ix 0]) (matrix_of w (nth 0 ix 0)) i0 i1 i2); assumption.
Qed.
Lemma rsconv3_6_ok r x n w J0 J1 J2 m B N0 N1 N2 X0 X1 X2 A C : operands r [x] m -> vdims r = [B; N0; N1; N2; n; C] -> vdims x = [B; X0; X1; X2; A; C] -> 0 <= J0 -> 0 <= J1 -> 0 <= J2 -> inside n (J0 * J1 * J2 * A) w ->
  exists m', rsconv3_6 r x n w J0 J1 J2 m = Ok m' /\
    gains r (fun ix => bank3 X0 X1 X2 J0 J1 J2 A (centred N0 X0 J0) (centred N1 X1 J1) (centred N2 X2 J2) (fun q0 q1 q2 a => elem0 m x [nth 0 ix 0; q0; q1; q2; a; nth 5 ix 0]) (fun j0 j1 j2 a => matrix_of w (nth 4 ix 0) (((j0 * J1 + j1) * J2 + j2) * A + a)) (nth 1 ix 0) (nth 2 ix 0) (nth 3 ix 0)) m m'.
Proof.
  intros Op Dr Dx HJ0 HJ1 HJ2 Hw. pose proof Op as (Wr & Hd & Rr & F). inversion F as [|? ? (Wx & Rx & Bx) _]; subst. clear F.
  unfold rsconv3_6. rewrite !(nd_eq r _ _ Dr), !(nd_eq x _ _ Dx). cbn [nth]. rewrite !Z.eqb_refl. cbn [assrt].
  apply (slices_gain r B [N0; N1; N2; n; C]); try assumption. intros b m1 Hb U1 R1. cbn [nth].
  destruct (slice0_shows r B _ b Wr Dr Hb) as (Wi & Di & Si). destruct (slice0_shows x B _ b Wx Dx Hb) as (Xi & DXi & SXi).
  destruct (one_operand r x m m1 (rvN_slice0 r b) (rvN_slice0 x b) (cons b) (cons b) Op U1 R1 Si) as (O1 & E1); try assumption; [intros; congruence|].
  destruct (rsconv3_5_ok (rvN_slice0 r b) (rvN_slice0 x b) n w J0 J1 J2 m1 N0 N1 N2 X0 X1 X2 A C O1 Di DXi HJ0 HJ1 HJ2 Hw) as (m2 & E & G).
  exists m2. split; [exact E|]. eapply gains_ext; [|exact G]. intros ix Hix. rewrite Di in Hix. apply in_range_5_inv in Hix as (i0 & i1 & i2 & o & c & -> & Hi0 & Hi1 & Hi2 & Ho & Hc). cbn [nth].
  apply bank3_ext; intros; [|reflexivity]. rewrite E1; [reflexivity|]. rewrite DXi. now apply in_range_5.
Qed.
End S.
