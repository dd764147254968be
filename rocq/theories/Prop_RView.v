(* Prop_RView.v -- C85..C90: the fixed-rank real views.  Elements are in an arbitrary commutative ring R
   (rounding is not modelled). *)
From Verif Require Import Base BaseFacts Model_Index Model_View Model_Tensor Model_Ops Model_RView Spec_Index Spec_View Spec_Tensor Spec_RView
  Proofs_Axes Proofs_Index Proofs_View Proofs_View2 Proofs_Tensor Proofs_Tensor2 Proofs_Tensor3 Proofs_Convolve2 Proofs_RView Proofs_RView2 Proofs_RView3 Proofs_RView4 Proofs_RView5 Proofs_RView6 Checks Prop_Tensor.
Local Open Scope Z_scope.

Ltac wf := split; [reflexivity|repeat constructor; lia].
Ltac ops := repeat match goal with
  | |- _ /\ _ => split
  | |- Forall _ (_ :: _) => constructor
  | |- Forall _ [] => constructor
  | |- _ <= _ => cbn; lia
  | |- readable _ _ => by_check | |- distinct_cells _ => by_check | |- no_clobber _ _ => by_check | |- disjoint_views _ _ => by_check
  | |- _ = _ => reflexivity end.

Ltac opnd := lazymatch goal with |- operands _ [_] _ => apply (operands1 (R := ZRing)) | |- operands _ [_; _] _ => apply (operands2 (R := ZRing)) end; first [wf | by_check].

(* ---- C85 ---- *)
Theorem C85_fill : forall (R : cring) r (v : R) (m : mem (car R)), vwf r -> distinct_cells r -> readable m r ->
  (forall n0, vdims r = [n0] -> exists m', rv1_fill r v m = Ok m' /\ becomes r (fun _ => v) m m') /\
  (forall n0 n1, vdims r = [n0; n1] -> exists m', rv2_fill r v m = Ok m' /\ becomes r (fun _ => v) m m') /\
  (forall n0 n1 n2, vdims r = [n0; n1; n2] -> exists m', rv3_fill r v m = Ok m' /\ becomes r (fun _ => v) m m').
Proof.
  intros R r v m W Hd Rr. destruct (fill_gen r v m W Hd Rr) as (m' & E & B). split; [|split].
  - intros n0 D. exists m'. split; [|exact B]. unfold rv1_fill. rewrite (nd_eq r _ 0 D). cbn [nth]. now rewrite nest1_fold, <- D.
  - intros n0 n1 D. exists m'. split; [|exact B]. unfold rv2_fill. rewrite !(nd_eq r _ _ D). cbn [nth]. now rewrite nest2_fold, <- D.
  - intros n0 n1 n2 D. exists m'. split; [|exact B]. unfold rv3_fill. rewrite !(nd_eq r _ _ D). cbn [nth]. now rewrite nest3_fold, <- D.
Qed.
Print Assumptions C85_fill.
Lemma copied_updates {R : cring} r x (m m' : mem (car R)) : zipable r x m -> copied r x m m' -> updates (fun _ w => w) r x m m'.
Proof. intros Z [A B]. split; [|exact B]. intros ix v w Hix Hv Hw. now rewrite A. Qed.
Theorem C85_set : forall (R : cring) r x (m : mem (car R)), zipable r x m ->
  (forall n0, vdims r = [n0] -> (exists m', rv1_set r x m = Ok m' /\ updates (fun _ w => w) r x m m') /\ (exists m', rv1_assign r x m = Ok m' /\ updates (fun _ w => w) r x m m')) /\
  (forall n0 n1, vdims r = [n0; n1] -> exists m', rv2_set r x m = Ok m' /\ updates (fun _ w => w) r x m m') /\
  (forall n0 n1 n2, vdims r = [n0; n1; n2] -> exists m', rv3_set r x m = Ok m' /\ updates (fun _ w => w) r x m m').
Proof.
  intros R r x m Z. split; [|split].
  - intros n0 D. destruct (set1_ok r x m n0 Z D) as [(m1 & E1 & C1) (m2 & E2 & C2)]. split; [exists m1|exists m2]; (split; [assumption|now apply copied_updates]).
  - intros n0 n1 D. destruct (set2_ok r x m n0 n1 Z D) as (m1 & E1 & C1). exists m1. split; [assumption|now apply copied_updates].
  - intros n0 n1 n2 D. destruct (set3_ok r x m n0 n1 n2 Z D) as (m1 & E1 & C1). exists m1. split; [assumption|now apply copied_updates].
Qed.
Print Assumptions C85_set.
Theorem C85_add : forall (R : cring) r x (m : mem (car R)), zipable r x m ->
  (forall n0, vdims r = [n0] -> exists m', rv1_add r x m = Ok m' /\ updates cadd r x m m') /\
  (forall n0 n1, vdims r = [n0; n1] -> exists m', rv2_add r x m = Ok m' /\ updates cadd r x m m') /\
  (forall n0 n1 n2, vdims r = [n0; n1; n2] -> exists m', rv3_add r x m = Ok m' /\ updates cadd r x m m').
Proof.
  intros R r x m Z. split; [|split].
  - intros n0 D. now apply (add1_ok r x m n0).
  - intros n0 n1 D. now apply (add2_ok r x m n0 n1).
  - intros n0 n1 n2 D. now apply (add3_ok r x m n0 n1 n2).
Qed.
Print Assumptions C85_add.
Theorem C85_add_scalar : forall (R : cring) r (v : R) (m : mem (car R)), vwf r -> distinct_cells r -> readable m r ->
  (forall n0, vdims r = [n0] -> exists m', rv1_addv r v m = Ok m' /\ gains r (fun _ => v) m m') /\
  (forall n0 n1, vdims r = [n0; n1] -> exists m', rv2_addv r v m = Ok m' /\ gains r (fun _ => v) m m').
Proof.
  intros R r v m W Hd Rr. destruct (addv_gen r v m W Hd Rr) as (m' & E & B). split.
  - intros n0 D. exists m'. split; [|exact B]. unfold rv1_addv. rewrite (nd_eq r _ 0 D). cbn [nth]. now rewrite nest1_fold, <- D.
  - intros n0 n1 D. exists m'. split; [|exact B]. unfold rv2_addv. rewrite !(nd_eq r _ _ D). cbn [nth]. now rewrite nest2_fold, <- D.
Qed.
Print Assumptions C85_add_scalar.
(* what add(x,c) should do; for 3-tensors it does so unless both views are regular *)
Theorem C85_add_scaled : forall (R : cring) r x c (m : mem (car R)), zipable r x m ->
  (forall n0, vdims r = [n0] -> exists m', rv1_addc r x c m = Ok m' /\ updates (fun v w => cadd v (cmul c w)) r x m m') /\
  (forall n0 n1, vdims r = [n0; n1] -> exists m', rv2_addc r x c m = Ok m' /\ updates (fun v w => cadd v (cmul c w)) r x m m') /\
  (forall n0 n1 n2, vdims r = [n0; n1; n2] -> reg3 r && reg3 x = false -> exists m', rv3_addc r x c m = Ok m' /\ updates (fun v w => cadd v (cmul c w)) r x m m').
Proof.
  intros R r x c m Z. split; [|split].
  - intros n0 D. now apply (addc1_ok r x c m n0).
  - intros n0 n1 D. now apply (addc2_ok r x c m n0 n1).
  - intros n0 n1 n2 D E. pose proof (addc3_ok r x c m n0 n1 n2 Z D) as H. rewrite E in H. exact H.
Qed.
Print Assumptions C85_add_scaled.
(* for two regular 3-tensors the factor c is ignored *)
Theorem C85_add_scaled_rank3_refuted : forall (R : cring) r x c (m : mem (car R)) n0 n1 n2, zipable r x m -> vdims r = [n0; n1; n2] -> reg3 r = true -> reg3 x = true ->
  exists m', rv3_addc r x c m = Ok m' /\ updates cadd r x m m'.
Proof. intros R r x c m n0 n1 n2 Z D E1 E2. pose proof (addc3_ok r x c m n0 n1 n2 Z D) as H. rewrite E1, E2 in H. exact H. Qed.
Print Assumptions C85_add_scaled_rank3_refuted.
(* a 3-tensor x smaller than r is copied or added to the corner of r where both have elements *)
Theorem C85_corner : forall (R : cring) r x (m : mem (car R)) n0 n1 n2 k0 k1 k2, vwf r -> vwf x -> vdims r = [n0; n1; n2] -> vdims x = [k0; k1; k2] -> k0 <= n0 -> k1 <= n1 -> k2 <= n2 ->
  vdims x <> vdims r -> distinct_cells r -> readable m r -> readable m x -> no_clobber r x ->
  (exists m', rv3_set r x m = Ok m' /\
    (forall ix w, in_range ix (vdims x) -> elem m x ix = Some w -> elem m' r ix = Some w) /\
    (forall ix, in_range ix (vdims r) -> ~ in_range ix (vdims x) -> elem m' r ix = elem m r ix) /\ untouched m m' r) /\
  (exists m', rv3_add r x m = Ok m' /\
    (forall ix v w, in_range ix (vdims x) -> elem m r ix = Some v -> elem m x ix = Some w -> elem m' r ix = Some (cadd v w)) /\
    (forall ix, in_range ix (vdims r) -> ~ in_range ix (vdims x) -> elem m' r ix = elem m r ix) /\ untouched m m' r).
Proof.
  intros R r x m n0 n1 n2 k0 k1 k2 Wr Wx D Dx H0 H1 H2 Ne Hd Rr Rx Nc.
  assert (Es : same3 r x = false). { unfold same3. rewrite !(nd_eq r _ _ D), !(nd_eq x _ _ Dx). cbn [nth]. apply not_true_is_false. intro E. apply Ne. rewrite D, Dx. repeat f_equal; lia. }
  assert (L : length (vdims x) = length (vdims r)) by now rewrite D, Dx.
  assert (F : Forall2 Z.le (vdims x) (vdims r)) by (rewrite D, Dx; repeat constructor; assumption).
  split.
  - unfold rv3_set. rewrite Es. cbn [andb]. rewrite !(nd_eq x _ _ Dx). cbn [nth]. rewrite nest3_fold, <- Dx.
    destruct (corner_ok f_set r x m Wr Wx L F Hd Rr Rx Nc) as (m' & E & A & B & U). exists m'. split; [exact E|]. split; [|split; assumption]. intros ix w Hix Hw.
    assert (Ir : in_range ix (vdims r)). { rewrite D. rewrite Dx in Hix. apply in_range_3_inv in Hix as (a & b & c & -> & ? & ? & ?). apply in_range_3; lia. }
    specialize (Rr ix Ir). destruct (elem m r ix) as [u|] eqn:Eu; [|congruence]. exact (A ix u w Hix Eu Hw).
  - unfold rv3_add. rewrite Es. cbn [andb]. rewrite !(nd_eq x _ _ Dx). cbn [nth]. rewrite nest3_fold, <- Dx.
    destruct (corner_ok f_add1 r x m Wr Wx L F Hd Rr Rx Nc) as (m' & E & A & B & U). exists m'. split; [exact E|]. split; [exact A|split; assumption].
Qed.
Print Assumptions C85_corner.
(* vectors and matrices of different sizes are rejected before anything is written *)
Theorem C85_sizes : forall (R : cring) r x c (m : mem (car R)),
  (forall n k, vdims r = [n] -> vdims x = [k] -> k <> n -> rv1_set r x m = Throw /\ rv1_assign r x m = Throw /\ rv1_add r x m = Throw /\ rv1_addc r x c m = Throw) /\
  (forall n0 n1 k0 k1, vdims r = [n0; n1] -> vdims x = [k0; k1] -> (k0 <> n0 \/ k1 <> n1) -> rv2_set r x m = Throw /\ rv2_add r x m = Throw /\ rv2_addc r x c m = Throw).
Proof.
  intros R r x c m. split.
  - intros n k D Dx H. unfold rv1_set, rv1_assign, rv1_add, rv1_addc. rewrite !(nd_eq r _ _ D), !(nd_eq x _ _ Dx). cbn [nth]. replace (k =? n) with false by lia. replace (n =? k) with false by lia. auto.
  - intros n0 n1 k0 k1 D Dx H. unfold rv2_set, rv2_add, rv2_addc. rewrite !(nd_eq r _ _ D), !(nd_eq x _ _ Dx). cbn [nth]. destruct (k0 =? n0) eqn:E; [|auto]. replace (k1 =? n1) with false by lia. auto.
Qed.
Print Assumptions C85_sizes.
(* leaky ReLU: the slope is 1 where x>0 and alpha elsewhere *)
Theorem C85_ReLU : forall (R : cring) gt0 r x g alpha (m : mem (car R)) n0, vwf r -> vwf x -> vwf g -> vdims r = [n0] -> vdims x = [n0] -> vdims g = [n0] ->
  distinct_cells r -> readable m r -> readable m x -> readable m g -> disjoint_views r x -> disjoint_views r g ->
  (exists m', rv1_add_ReLU_back gt0 r g x alpha m = Ok m' /\ gains r (fun ix => cmul (if gt0 (elem0 m x ix) then c1 else alpha) (elem0 m g ix)) m m') /\
  (vstr x = vstr r -> exists m', rv1_add_ReLU gt0 r x alpha m = Ok m' /\ gains r (fun ix => if gt0 (elem0 m x ix) then elem0 m x ix else cmul alpha (elem0 m x ix)) m m').
Proof.
  intros R gt0 r x g alpha m n0 Wr Wx Wg Dr Dx Dg Hd Rr Rx Rg Djx Djg. split.
  - destruct (relu_gen gt0 r x g alpha m n0 Wr Wx Wg Dr Dx Dg Hd Rr Rx Rg Djx Djg) as (m' & E & G). exists m'. split; [|exact G]. unfold rv1_add_ReLU_back. rewrite !(nd_eq r _ _ Dr), !(nd_eq x _ _ Dx), !(nd_eq g _ _ Dg). cbn [nth]. rewrite Z.eqb_refl. exact E.
  - intro Es. destruct (relu_gen gt0 r x x alpha m n0 Wr Wx Wx Dr Dx Dx Hd Rr Rx Rx Djx Djx) as (m' & E & G). exists m'. split.
    + unfold rv1_add_ReLU. rewrite !(nd_eq r _ _ Dr), !(nd_eq x _ _ Dx). cbn [nth]. rewrite Z.eqb_refl, <- Es. cbn [assrt]. replace (View (vblk x) (voff x) (vdims x) (vstr x)) with x by now destruct x. exact E.
    + revert G. apply gains_ext. intros ix _. destruct (gt0 (elem0 m x ix)); [apply (Rmul_1_l (cth R))|reflexivity].
Qed.
Print Assumptions C85_ReLU.
(* with different strides add_ReLU reads the wrong elements of x *)
Theorem C85_ReLU_refuted : exists r x (m m' : mem Z), vwf r /\ vwf x /\ vdims r = [2] /\ vdims x = [2] /\ distinct_cells r /\ readable m r /\ readable m x /\ disjoint_views r x /\
  rv1_add_ReLU (R := ZRing) (fun v => 0 <? v) r x 0 m = Ok m' /\ elem m r [1] = Some 2 /\ elem m x [1] = Some 101 /\ elem m' r [1] = Some (2 + 102).
Proof.
  exists (View 0 0 [2] [2]), (View 1 0 [2] [1]), ex_mem. eexists. split; [wf|]. split; [wf|]. do 2 (split; [reflexivity|]). do 4 (split; [by_check|]). repeat split; reflexivity.
Qed.
Print Assumptions C85_ReLU_refuted.
Example C85_case : zipable ex_r ex_x ex_mem /\ zipable (View 0 3 [2; 3] [20; 2]) (View 1 4 [2; 3] [3; 1]) ex_mem /\ zipable (View 0 3 [4] [3]) (View 1 4 [4] [1]) ex_mem /\
  reg3 ex_r && reg3 ex_x = false.
Proof. repeat split; try (ops; fail); try (repeat constructor; lia). Qed.
Example C85_case_regular : let r := View 0 0 [2; 3; 2] [6; 2; 1] in zipable r ex_y ex_mem /\ reg3 r = true /\ reg3 ex_y = true.
Proof. repeat split; try (ops; fail); try (repeat constructor; lia). Qed.
Example C85_case_corner : let x := View 1 0 [1; 2; 2] [4; 2; 1] in vwf x /\ vdims x <> vdims ex_r /\ readable ex_mem x /\ no_clobber ex_r x.
Proof. split; [wf|]. split; [discriminate|]. ops. Qed.
Example C85_case_ReLU : let r := View 0 0 [3] [2] in let x := View 1 0 [3] [2] in let g := View 2 0 [3] [1] in
  vwf r /\ vwf x /\ vwf g /\ distinct_cells r /\ readable ex_mem r /\ readable ex_mem x /\ readable ex_mem g /\ disjoint_views r x /\ disjoint_views r g /\ vstr x = vstr r.
Proof. repeat split; try (ops; fail); try (repeat constructor; lia). Qed.

(* ---- C86 ---- *)
Theorem C86_matmul : forall (R : cring) r x y (m : mem (car R)) a n b, operands r [x; y] m -> vdims r = [a; b] ->
  (vdims x = [a; n] -> vdims y = [n; b] -> exists m', rv2_AA r x y m = Ok m' /\
     gains r (fun ix => rsum (map (fun k => cmul (elem0 m x [nth 0 ix 0; k]) (elem0 m y [k; nth 1 ix 0])) (zrange n))) m m') /\
  (vdims x = [a; n] -> vdims y = [b; n] -> exists m', rv2_AT r x y m = Ok m' /\
     gains r (fun ix => rsum (map (fun k => cmul (elem0 m x [nth 0 ix 0; k]) (elem0 m y [nth 1 ix 0; k])) (zrange n))) m m') /\
  (vdims x = [n; a] -> vdims y = [n; b] -> exists m', rv2_TA r x y m = Ok m' /\
     gains r (fun ix => rsum (map (fun k => cmul (elem0 m x [k; nth 0 ix 0]) (elem0 m y [k; nth 1 ix 0])) (zrange n))) m m').
Proof. intros R r x y m a n b O D. split; [|split]; intros; [now apply (AA_ok r x y m a n b)|now apply (AT_ok r x y m a n b)|now apply (TA_ok r x y m a n b)]. Qed.
Print Assumptions C86_matmul.
(* add_mprod: for a regular r and one regular and one regular or transposed factor *)
Theorem C86_mprod : forall (R : cring) r x y (m : mem (car R)) a n b, operands r [x; y] m -> vdims r = [a; b] -> vdims x = [a; n] -> vdims y = [n; b] ->
  reg2 r = true -> (reg2 x = true /\ reg2 y = true \/ reg2 x = true /\ tra2 y = true \/ tra2 x = true /\ reg2 y = true) ->
  exists m', rv2_add_mprod r x y m = Ok m' /\ gains r (fun ix => rsum (map (fun k => cmul (elem0 m x [nth 0 ix 0; k]) (elem0 m y [k; nth 1 ix 0])) (zrange n))) m m'.
Proof.
  intros R r x y m a n b O D Dx Dy Er H. pose proof (mprod2_ok r x y m a n b O D Dx Dy) as P. replace (mm_layout r x y) with true in P; [exact P|]. symmetry. unfold mm_layout. rewrite Er.
  destruct H as [[-> ->]|[[-> ->]|[-> ->]]]; destruct (reg2 x), (reg2 y), (tra2 y); reflexivity.
Qed.
Print Assumptions C86_mprod.
(* every other combination of layouts leaves r as it was *)
Theorem C86_mprod_refuted : forall (R : cring) r x y (m : mem (car R)) a n b, operands r [x; y] m -> vdims r = [a; b] -> vdims x = [a; n] -> vdims y = [n; b] ->
  reg2 r && ((reg2 x && reg2 y) || (reg2 x && tra2 y) || (tra2 x && reg2 y)) = false -> rv2_add_mprod r x y m = Ok m.
Proof. intros R r x y m a n b O D Dx Dy H. pose proof (mprod2_ok r x y m a n b O D Dx Dy) as P. unfold mm_layout in P. rewrite H in P. exact P. Qed.
Print Assumptions C86_mprod_refuted.
Theorem C86_vector : forall (R : cring) a y x (m : mem (car R)) n0 n1, operands y [a; x] m -> vdims a = [n0; n1] -> vdims y = [n0] -> vdims x = [n1] ->
  exists m', rv2_add_mprod_to a y x m = Ok m' /\ gains y (fun ix => rsum (map (fun k => cmul (elem0 m a [nth 0 ix 0; k]) (elem0 m x [k])) (zrange n1))) m m'.
Proof. exact @mprod_to_ok. Qed.
Print Assumptions C86_vector.
Theorem C86_outer : forall (R : cring) r x y (m : mem (car R)) n0 n1, operands r [x; y] m -> vdims r = [n0; n1] -> vdims x = [n0] -> vdims y = [n1] ->
  exists m', rv2_add_outer r x y m = Ok m' /\ gains r (fun ix => cmul (elem0 m x [nth 0 ix 0]) (elem0 m y [nth 1 ix 0])) m m'.
Proof. exact @outer_ok. Qed.
Print Assumptions C86_outer.
Theorem C86_batched : forall (R : cring) r x y (m : mem (car R)) nb a n b, operands r [x; y] m -> vdims r = [nb; a; b] -> vdims x = [a; n] -> vdims y = [nb; n; b] ->
  exists m', rv3_add_mprod r x y m = Ok m' /\
    gains r (fun ix => rsum (map (fun k => cmul (elem0 m x [nth 1 ix 0; k]) (elem0 m y [nth 0 ix 0; k; nth 2 ix 0])) (zrange n))) m m'.
Proof. exact @bmprod_ok. Qed.
Print Assumptions C86_batched.
(* the deprecated product of a 3-tensor with a matrix rejects matrices whose results are not square *)
Theorem C86_batched_AA_refuted : forall (R : cring) r x y (m : mem (car R)) nb a n b, vdims r = [nb; a; b] -> vdims x = [nb; a; n] -> vdims y = [n; b] -> a <> b -> rv3_AA r x y m = Throw.
Proof.
  intros R r x y m nb a n b D Dx Dy H. unfold rv3_AA. rewrite !(nd_eq r _ _ D), !(nd_eq x _ _ Dx), !(nd_eq y _ _ Dy). cbn [nth]. rewrite !Z.eqb_refl. replace (b =? a) with false by lia. reflexivity.
Qed.
Print Assumptions C86_batched_AA_refuted.
Example C86_case : operands (View 0 3 [2; 4] [20; 2]) [View 1 4 [2; 3] [1; 2]; View 2 1 [3; 4] [5; 1]] ex_mem /\
  operands (View 0 3 [2; 4] [4; 1]) [View 1 4 [2; 3] [3; 1]; View 2 1 [3; 4] [1; 3]] ex_mem /\ reg2 (View 0 3 [2; 4] [4; 1]) = true /\ reg2 (View 1 4 [2; 3] [3; 1]) = true /\ tra2 (View 2 1 [3; 4] [1; 3]) = true /\
  operands (View 0 3 [2] [4]) [View 1 4 [2; 3] [3; 1]; View 2 1 [3] [3]] ex_mem /\ operands (View 0 3 [2; 3] [4; 1]) [View 1 4 [2] [3]; View 2 1 [3] [3]] ex_mem /\
  operands (View 0 3 [2; 3; 4] [20; 5; 1]) [View 1 4 [3; 2] [3; 1]; View 2 1 [2; 2; 4] [9; 4; 1]] ex_mem.
Proof. repeat match goal with |- _ /\ _ => split end; first [opnd | reflexivity]. Qed.
(* the layouts of the first product are not handled by add_mprod: r keeps its value 3, the product is not zero *)
Example C86_case_refuted : let r := View 0 3 [2; 4] [20; 2] in let x := View 1 4 [2; 3] [1; 2] in let y := View 2 1 [3; 4] [5; 1] in
  reg2 r && ((reg2 x && reg2 y) || (reg2 x && tra2 y) || (tra2 x && reg2 y)) = false /\
  (exists m', rv2_add_mprod (R := ZRing) r x y ex_mem = Ok m' /\ elem m' r [0; 0] = Some 3) /\ (exists m', rv2_AA (R := ZRing) r x y ex_mem = Ok m' /\ elem m' r [0; 0] = Some 65531).
Proof. split; [reflexivity|]. split; eexists; (split; [vm_compute; reflexivity|vm_compute; reflexivity]). Qed.

(* ---- C87 ---- *)
Theorem C87_sum : forall (R : cring) x (m : mem (car R)), vwf x -> readable m x ->
  (forall n0, vdims x = [n0] -> rv1_sum x m = Ok (rsum (map (elem0 m x) (all_indices (vdims x))))) /\
  (forall n0 n1, vdims x = [n0; n1] -> rv2_sum x m = Ok (rsum (map (elem0 m x) (all_indices (vdims x))))).
Proof. intros R x m W Rx. split; intros; [now apply (sum1_ok x m n0)|now apply (sum2_ok x m n0 n1)]. Qed.
Print Assumptions C87_sum.
(* dv is division of a sum by the number of summands *)
Theorem C87_sum_into : forall (R : cring) x r (m : mem (car R)) n0 n1 (dv : R -> Z -> R), operands r [x] m -> vdims x = [n0; n1] ->
  (vdims r = [n1] -> exists m', rv2_sum0_into x r m = Ok m' /\ gains r (fun ix => rsum (map (fun i => elem0 m x [i; nth 0 ix 0]) (zrange n0))) m m') /\
  (vdims r = [n1] -> exists m', rv2_avg0_into dv x r m = Ok m' /\ gains r (fun ix => dv (rsum (map (fun i => elem0 m x [i; nth 0 ix 0]) (zrange n0))) n0) m m') /\
  (vdims r = [n0] -> exists m', rv2_sum1_into x r m = Ok m' /\ gains r (fun ix => rsum (map (fun j => elem0 m x [nth 0 ix 0; j]) (zrange n1))) m m').
Proof. intros R x r m n0 n1 dv O D. destruct (sums2_ok x r m n0 n1 dv O D) as (A & B & C & _). auto. Qed.
Print Assumptions C87_sum_into.
(* the overload of sum1_into for const matrices rejects every matrix that is not square *)
Theorem C87_sum1_const_refuted : forall (R : cring) x r (m : mem (car R)) n0 n1, operands r [x] m -> vdims x = [n0; n1] -> vdims r = [n0] -> n0 <> n1 -> rv2_sum1_into_const x r m = Throw.
Proof. intros R x r m n0 n1 O D Dr H. destruct (sums2_ok x r m n0 n1 (fun v _ => v) O D) as (_ & _ & _ & C). specialize (C Dr). now replace (n0 =? n1) with false in C by lia. Qed.
Print Assumptions C87_sum1_const_refuted.
(* post is the identity for sums and the division by the number of summands for averages *)
Theorem C87_sum_into3 : forall (R : cring) x r (m : mem (car R)) n0 n1 n2 (post : R -> R), operands r [x] m -> vdims x = [n0; n1; n2] ->
  (vdims r = [n1; n2] -> exists m', rv3_sum0_into post x r m = Ok m' /\ gains r (fun ix => post (rsum (map (fun i => elem0 m x [i; nth 0 ix 0; nth 1 ix 0]) (zrange n0)))) m m') /\
  (vdims r = [n0; n2] -> exists m', rv3_sum1_into post x r m = Ok m' /\ gains r (fun ix => post (rsum (map (fun i => elem0 m x [nth 0 ix 0; i; nth 1 ix 0]) (zrange n1)))) m m') /\
  (vdims r = [n0; n1] -> exists m', rv3_sum2_into post x r m = Ok m' /\ gains r (fun ix => post (rsum (map (fun i => elem0 m x [nth 0 ix 0; nth 1 ix 0; i]) (zrange n2)))) m m') /\
  (vdims r = [n2] -> exists m', rv3_sum01_into post x r m = Ok m' /\ gains r (fun ix => post (rsum (map (fun jx => elem0 m x (jx ++ ix)) (all_indices [n0; n1])))) m m').
Proof.
  intros R x r m n0 n1 n2 post O D. destruct (sums3_ok x r m n0 n1 n2 post O D) as (A & B & C). split; [exact A|]. split; [exact B|]. split; [exact C|]. intro Dr. now apply (sum01_ok x r m n0 n1 n2 post).
Qed.
Print Assumptions C87_sum_into3.
(* destructive reductions: the first row (column, slice) becomes the sum, nothing outside the tensor changes *)
Theorem C87_reduce : forall (R : cring) v (m : mem (car R)) n0 n1, vwf v -> vdims v = [n0; n1] -> distinct_cells v -> readable m v ->
  (1 <= n0 -> (reg2 v = true -> n0 <> 1) -> exists m', rv2_reduce0 v m = Ok m' /\ untouched m m' v /\
     forall j, 0 <= j < n1 -> elem m' v [0; j] = Some (rsum (map (fun i => elem0 m v [i; j]) (zrange n0)))) /\
  (1 <= n1 -> (tra2 v = true -> n1 <> 1) -> exists m', rv2_reduce1 v m = Ok m' /\ untouched m m' v /\
     forall i, 0 <= i < n0 -> elem m' v [i; 0] = Some (rsum (map (fun j => elem0 m v [i; j]) (zrange n1)))).
Proof.
  intros R v m n0 n1 W D Hd Rv. split.
  - intros H1 H2. destruct (reduce0_ok v m n0 n1 W D Hd Rv (conj H1 H2)) as (m' & E & G & B & H). exists m'. split; [exact E|]. split; [apply B|].
    intros j Hj. rewrite (proj1 B) by (rewrite D; apply in_range_2; lia). now rewrite H.
  - intros H1 H2. destruct (reduce1_ok v m n0 n1 W D Hd Rv) as (m' & E & G & B & H).
    { split; [assumption|]. unfold reg2, rv2_transp, nd, sd. cbn. intro Q. apply H2. unfold tra2, nd, sd. rewrite andb_comm. exact Q. }
    exists m'. split; [exact E|]. split; [apply B|]. intros i Hi. rewrite (proj1 B) by (rewrite D; apply in_range_2; lia). now rewrite H.
Qed.
Print Assumptions C87_reduce.
(* a regular matrix with a single row: the row is doubled instead of being left alone *)
Theorem C87_reduce_refuted : forall (R : cring) v (m : mem (car R)) n1, vwf v -> vdims v = [1; n1] -> readable m v -> reg2 v = true ->
  exists m', rv2_reduce0 v m = Ok m' /\ untouched m m' v /\ forall j, 0 <= j < n1 -> elem m' v [0; j] = Some (cadd (elem0 m v [0; j]) (elem0 m v [0; j])).
Proof. intros R v m n1 W D Rv Hr. exact (reduce_one v 1 n1 W D Hr m Rv eq_refl). Qed.
Print Assumptions C87_reduce_refuted.
Theorem C87_reduce_into : forall (R : cring) v r (m : mem (car R)) n0 n1, vwf v -> vdims v = [n0; n1] -> distinct_cells v -> readable m v ->
  vwf r -> distinct_cells r -> readable m r -> disjoint_views r v ->
  (vdims r = [n1] -> 1 <= n0 -> (reg2 v = true -> n0 <> 1) -> exists m', rv2_reduce0_into v r m = Ok m' /\
     (forall j u, 0 <= j < n1 -> elem m r [j] = Some u -> elem m' r [j] = Some (cadd u (rsum (map (fun i => elem0 m v [i; j]) (zrange n0))))) /\ untouched2 m m' r v) /\
  (vdims r = [n0] -> 1 <= n1 -> (tra2 v = true -> n1 <> 1) -> exists m', rv2_reduce1_into v r m = Ok m' /\
     (forall i u, 0 <= i < n0 -> elem m r [i] = Some u -> elem m' r [i] = Some (cadd u (rsum (map (fun j => elem0 m v [i; j]) (zrange n1))))) /\ untouched2 m m' r v).
Proof.
  intros R v r m n0 n1 W D Hd Rv Wr Hdr Rr Dj. destruct (reduces_into_ok v r m n0 n1 W D Hd Rv Wr Hdr Rr Dj) as [A B]. split; [intros; apply A; [assumption|now split]|].
  intros Dr H1 H2. apply B; [assumption|]. split; [assumption|]. unfold reg2, rv2_transp, nd, sd. cbn. intro Q. apply H2. unfold tra2, nd, sd. rewrite andb_comm. exact Q.
Qed.
Print Assumptions C87_reduce_into.
Theorem C87_reduce3 : forall (R : cring) v (m : mem (car R)) n0 n1 n2, vwf v -> vdims v = [n0; n1; n2] -> distinct_cells v -> readable m v ->
  (reg3 v = true -> 2 <= n0 -> exists m', rv3_reduce0 v m = Ok m' /\ untouched m m' v /\
     forall j k, 0 <= j < n1 -> 0 <= k < n2 -> elem m' v [0; j; k] = Some (rsum (map (fun i => elem0 m v [i; j; k]) (zrange n0)))) /\
  (1 <= n1 -> (reg3 v = true -> n1 <> 1) -> exists m', rv3_reduce1 v m = Ok m' /\ untouched m m' v /\
     forall i k, 0 <= i < n0 -> 0 <= k < n2 -> elem m' v [i; 0; k] = Some (rsum (map (fun j => elem0 m v [i; j; k]) (zrange n1)))) /\
  (reg3 v = true -> 1 <= n2 -> n0 * n1 * n2 <> 1 -> exists m', rv3_reduce2 v m = Ok m' /\ untouched m m' v /\
     forall i j, 0 <= i < n0 -> 0 <= j < n1 -> elem m' v [i; j; 0] = Some (rsum (map (fun k => elem0 m v [i; j; k]) (zrange n2)))).
Proof.
  intros R v m n0 n1 n2 W D Hd Rv. split; [|split].
  - intros Hr Hn. destruct (reduce3_0_ok v m n0 n1 n2 W D Hd Rv Hr Hn) as (m' & E & G & B & H). exists m'. split; [exact E|]. split; [apply B|]. intros j k Hj Hk. rewrite (proj1 B) by (rewrite D; apply in_range_3; lia). now rewrite H.
  - intros Hn Hr. destruct (reduce3_1_ok v m n0 n1 n2 W D Hd Rv Hn Hr) as (m' & E & G & B & H). exists m'. split; [exact E|]. split; [apply B|]. intros j k Hj Hk. rewrite (proj1 B) by (rewrite D; apply in_range_3; lia). now rewrite H.
  - intros Hr Hn Hn1. destruct (reduce3_2_ok v m n0 n1 n2 W D Hd Rv Hr Hn Hn1) as (m' & E & G & B & H). exists m'. split; [exact E|]. split; [apply B|]. intros j k Hj Hk. rewrite (proj1 B) by (rewrite D; apply in_range_3; lia). now rewrite H.
Qed.
Print Assumptions C87_reduce3.
Theorem C87_reduce3_into : forall (R : cring) v r (m : mem (car R)) n0 n1 n2, vwf v -> vdims v = [n0; n1; n2] -> distinct_cells v -> readable m v ->
  vwf r -> distinct_cells r -> readable m r -> disjoint_views r v ->
  (vdims r = [n1; n2] -> reg3 v = true -> 2 <= n0 -> exists m', rv3_reduce0_into v r m = Ok m' /\
     (forall j k u, 0 <= j < n1 -> 0 <= k < n2 -> elem m r [j; k] = Some u -> elem m' r [j; k] = Some (cadd u (rsum (map (fun i => elem0 m v [i; j; k]) (zrange n0))))) /\ untouched2 m m' r v) /\
  (vdims r = [n0; n2] -> 1 <= n1 -> (reg3 v = true -> n1 <> 1) -> exists m', rv3_reduce1_into v r m = Ok m' /\
     (forall i k u, 0 <= i < n0 -> 0 <= k < n2 -> elem m r [i; k] = Some u -> elem m' r [i; k] = Some (cadd u (rsum (map (fun j => elem0 m v [i; j; k]) (zrange n1))))) /\ untouched2 m m' r v) /\
  (vdims r = [n0; n1] -> reg3 v = true -> 1 <= n2 -> n0 * n1 * n2 <> 1 -> exists m', rv3_reduce2_into v r m = Ok m' /\
     (forall i j u, 0 <= i < n0 -> 0 <= j < n1 -> elem m r [i; j] = Some u -> elem m' r [i; j] = Some (cadd u (rsum (map (fun k => elem0 m v [i; j; k]) (zrange n2))))) /\ untouched2 m m' r v).
Proof. exact @reduces3_into_ok. Qed.
Print Assumptions C87_reduce3_into.
Example C87_case : operands (View 0 3 [3] [4]) [View 1 4 [5; 3] [1; 9]] ex_mem /\ operands (View 0 3 [3; 2] [4; 1]) [View 1 4 [5; 3; 2] [1; 9; 30]] ex_mem.
Proof. split; opnd. Qed.
Example C87_case_reduce : let v := View 1 4 [5; 3] [3; 1] in let w := View 1 4 [5; 3; 2] [6; 2; 1] in
  vwf v /\ distinct_cells v /\ readable ex_mem v /\ reg2 v = true /\ vwf w /\ distinct_cells w /\ readable ex_mem w /\ reg3 w = true /\ disjoint_views (View 0 3 [3] [4]) v /\ disjoint_views (View 0 3 [3; 2] [4; 1]) w.
Proof. repeat split; try (ops; fail); try (repeat constructor; lia). Qed.
Example C87_case_refuted : let v := View 1 4 [1; 3] [3; 1] in vwf v /\ readable ex_mem v /\ reg2 v = true /\
  exists m', rv2_reduce0 (R := ZRing) v ex_mem = Ok m' /\ elem ex_mem v [0; 2] = Some 106 /\ elem m' v [0; 2] = Some 212.
Proof. split; [wf|]. split; [by_check|]. split; [reflexivity|]. eexists. split; [vm_compute; reflexivity|]. split; reflexivity. Qed.

(* ---- C88 ---- *)
Theorem C88_broadcast : forall (R : cring) v x (m : mem (car R)) n0 n1, operands v [x] m -> vdims v = [n0; n1] ->
  (vdims x = [n1] -> 1 <= n0 \/ reg2 v && reg1 x = false -> exists m', rv2_broadcast0 v x m = Ok m' /\ becomes v (fun ix => elem0 m x [nth 1 ix 0]) m m') /\
  (vdims x = [n0] -> exists m', rv2_broadcast1 v x m = Ok m' /\ becomes v (fun ix => elem0 m x [nth 0 ix 0]) m m').
Proof. intros R v x m n0 n1 O D. split; intros; [now apply (broadcast0_ok v x m n0 n1)|now apply (broadcast1_ok v x m n0 n1)]. Qed.
Print Assumptions C88_broadcast.
(* a regular matrix without rows: broadcast0 writes outside it *)
Theorem C88_no_rows_refuted : exists v x (m m' : mem Z), operands v [x] m /\ vdims v = [0; 3] /\ vdims x = [3] /\
  rv2_broadcast0 (R := ZRing) v x m = Ok m' /\ m 0 7 = Some 7 /\ m' 0 7 = Some 102.
Proof.
  exists (View 0 5 [0; 3] [3; 1]), (View 1 0 [3] [1]), ex_mem. eexists. split.
  - opnd.
  - do 2 (split; [reflexivity|]). split; [vm_compute; reflexivity|]. split; reflexivity.
Qed.
Print Assumptions C88_no_rows_refuted.
Theorem C88_add : forall (R : cring) v x (m : mem (car R)) n0 n1, operands v [x] m -> vdims v = [n0; n1] -> vdims x = [n1] ->
  exists m', rv2_add_broadcast0 v x c1 m = Ok m' /\ gains v (fun ix => elem0 m x [nth 1 ix 0]) m m'.
Proof. intros R v x m n0 n1 O D Dx. now apply (add_broadcast0_ok v x c1 m n0 n1). Qed.
Print Assumptions C88_add.
(* the factor alpha has no effect *)
Theorem C88_alpha_refuted : forall (R : cring) v x alpha (m : mem (car R)) n0 n1, operands v [x] m -> vdims v = [n0; n1] -> vdims x = [n1] ->
  exists m', rv2_add_broadcast0 v x alpha m = Ok m' /\ gains v (fun ix => elem0 m x [nth 1 ix 0]) m m'.
Proof. intros R v x alpha m n0 n1 O D Dx. now apply (add_broadcast0_ok v x alpha m n0 n1). Qed.
Print Assumptions C88_alpha_refuted.
Theorem C88_broadcast3 : forall (R : cring) v x (m : mem (car R)) n0 n1 n2, operands v [x] m -> vdims v = [n0; n1; n2] ->
  (vdims x = [n1; n2] -> reg3 v = true -> sd x 0 = n2 * sd x 1 -> 1 <= n0 -> exists m', rv3_broadcast0 v x m = Ok m' /\ becomes v (fun ix => elem0 m x [nth 1 ix 0; nth 2 ix 0]) m m') /\
  (vdims x = [n0; n2] -> 1 <= n1 -> exists m', rv3_broadcast1 v x m = Ok m' /\ becomes v (fun ix => elem0 m x [nth 0 ix 0; nth 2 ix 0]) m m') /\
  (vdims x = [n0; n1] -> reg3 v = true -> sd x 0 = n1 * sd x 1 -> exists m', rv3_broadcast2 v x m = Ok m' /\ becomes v (fun ix => elem0 m x [nth 0 ix 0; nth 1 ix 0]) m m').
Proof. exact @broadcasts3_ok. Qed.
Print Assumptions C88_broadcast3.
(* a source matrix whose rows do not follow each other in memory is read at the wrong places *)
Theorem C88_strided_refuted : exists v x (m m' m'' : mem Z), operands v [x] m /\ vdims v = [2; 2; 3] /\ reg3 v = true /\ vdims x = [2; 3] /\
  rv3_broadcast0 (R := ZRing) v x m = Ok m' /\ elem m x [1; 0] = Some 110 /\ elem m' v [0; 1; 0] = Some 103 /\
  rv3_broadcast2 (R := ZRing) (View 0 0 [2; 3; 2] [6; 2; 1]) x m = Ok m'' /\ elem m'' (View 0 0 [2; 3; 2] [6; 2; 1]) [1; 0; 0] = Some 103.
Proof.
  exists (View 0 0 [2; 2; 3] [6; 3; 1]), (View 1 0 [2; 3] [10; 1]), ex_mem. eexists. eexists. split.
  - opnd.
  - do 3 (split; [reflexivity|]). split; [vm_compute; reflexivity|]. do 2 (split; [reflexivity|]). split; [vm_compute; reflexivity|reflexivity].
Qed.
Print Assumptions C88_strided_refuted.
Example C88_case : operands (View 0 3 [5; 3] [3; 1]) [View 1 4 [3] [1]] ex_mem /\ operands (View 0 3 [5; 3] [4; 1]) [View 1 4 [3] [2]] ex_mem /\
  operands (View 0 3 [5; 3; 2] [6; 2; 1]) [View 1 4 [3; 2] [2; 1]] ex_mem /\ reg3 (View 0 3 [5; 3; 2] [6; 2; 1]) = true.
Proof. repeat match goal with |- _ /\ _ => split end; first [opnd | reflexivity]. Qed.

(* ---- C89 ---- *)
Theorem C89_views2 : forall v n0 n1, vwf v -> vdims v = [n0; n1] ->
  (forall i0 i1 m0 m1, 0 <= i0 -> 0 <= i1 -> i0 <= n0 -> i1 <= n1 -> (0 <= m0 -> i0 + m0 <= n0) -> (0 <= m1 -> i1 + m1 <= n1) ->
     vwf (rv2_block v i0 i1 m0 m1) /\ vdims (rv2_block v i0 i1 m0 m1) = [if m0 <? 0 then n0 - i0 else m0; if m1 <? 0 then n1 - i1 else m1] /\
     shows (rv2_block v i0 i1 m0 m1) v (fun ix => [i0 + nth 0 ix 0; i1 + nth 1 ix 0])) /\
  (forall i k, 0 <= i <= n1 -> (0 <= k -> i + k <= n1) -> vwf (rv2_cols v i k) /\ vdims (rv2_cols v i k) = [n0; if k <? 0 then n1 - i else k] /\
     shows (rv2_cols v i k) v (fun ix => [nth 0 ix 0; i + nth 1 ix 0])) /\
  (forall i k, 0 <= i -> 0 <= k -> i + k <= n0 -> vwf (rv2_rows v i k) /\ vdims (rv2_rows v i k) = [k; n1] /\
     shows (rv2_rows v i k) v (fun ix => [i + nth 0 ix 0; nth 1 ix 0])) /\
  (vwf (rv2_transp v) /\ vdims (rv2_transp v) = [n1; n0] /\ shows (rv2_transp v) v (fun ix => [nth 1 ix 0; nth 0 ix 0])) /\
  (forall p, 0 <= p < n0 -> vwf (rv2_slice0 v p) /\ vdims (rv2_slice0 v p) = [n1] /\ shows (rv2_slice0 v p) v (fun ix => p :: ix)) /\
  (forall p, 0 <= p < n1 -> vwf (rv2_slice1 v p) /\ vdims (rv2_slice1 v p) = [n0] /\ shows (rv2_slice1 v p) v (fun ix => ix ++ [p])) /\
  (n0 = n1 -> exists w, rv2_diag v = Ok w /\ vwf w /\ vdims w = [n0] /\ shows w v (fun ix => [nth 0 ix 0; nth 0 ix 0])) /\
  (sd v 0 = n1 * sd v 1 -> vwf (rv2_fuse01 v) /\ vdims (rv2_fuse01 v) = [n0 * n1] /\ shows (rv2_fuse01 v) v (fun ix => [nth 0 ix 0 / n1; nth 0 ix 0 mod n1])).
Proof.
  intros v n0 n1 W D. split; [intros; now apply (block2_shows v n0 n1)|]. split; [intros i k; apply (cols_rows_shows v n0 n1 i k W D)|]. split; [intros i k; apply (cols_rows_shows v n0 n1 i k W D)|].
  split; [now apply transp_shows|]. destruct (slices2_shows v n0 n1 W D) as [A B]. split; [exact A|]. split; [exact B|]. split; [intros <-; now apply diag2_shows|]. now apply fuse2_shows.
Qed.
Print Assumptions C89_views2.
(* fuse01 of a matrix whose rows do not follow each other in memory: element n1 is not element (1,0) *)
Theorem C89_fuse_refuted : forall v n0 n1, vwf v -> vdims v = [n0; n1] -> 2 <= n0 -> 1 <= n1 -> sd v 0 <> n1 * sd v 1 ->
  vdims (rv2_fuse01 v) = [n0 * n1] /\ in_range [n1] (vdims (rv2_fuse01 v)) /\ vaddr (rv2_fuse01 v) [n1] <> vaddr v [1; 0].
Proof.
  intros v n0 n1 W D H0 H1 Hs. assert (Df : vdims (rv2_fuse01 v) = [n0 * n1]) by (unfold rv2_fuse01; cbn; now rewrite !(nd_eq v _ _ D)). split; [exact Df|]. split; [rewrite Df; constructor; [nia|constructor]|].
  assert (Wf : vwf (rv2_fuse01 v)) by (unfold rv2_fuse01; rewrite !(nd_eq v _ _ D); cbn [nth]; split; [reflexivity|cbn [vdims]; constructor; [nia|constructor]]).
  rewrite (vaddr1 _ n1 (n0 * n1) Wf Df), (vaddr2 v 1 0 n0 n1 W D). change (sd (rv2_fuse01 v) 0) with (sd v 1). change (voff (rv2_fuse01 v)) with (voff v). change (vblk (rv2_fuse01 v)) with (vblk v). intro E. assert (Q : voff v + n1 * sd v 1 = voff v + 1 * sd v 0 + 0 * sd v 1) by congruence. apply Hs. lia.
Qed.
Print Assumptions C89_fuse_refuted.
Theorem C89_views3 : forall v n0 n1 n2, vwf v -> vdims v = [n0; n1; n2] ->
  (forall p, 0 <= p < n0 -> vwf (rv3_slice0 v p) /\ vdims (rv3_slice0 v p) = [n1; n2] /\ shows (rv3_slice0 v p) v (fun ix => p :: ix)) /\
  (forall p, 0 <= p < n1 -> vwf (rv3_slice1 v p) /\ vdims (rv3_slice1 v p) = [n0; n2] /\ shows (rv3_slice1 v p) v (fun ix => [nth 0 ix 0; p; nth 1 ix 0])) /\
  (forall p, 0 <= p < n2 -> vwf (rv3_slice2 v p) /\ vdims (rv3_slice2 v p) = [n0; n1] /\ shows (rv3_slice2 v p) v (fun ix => ix ++ [p])) /\
  (vwf (rv3_transp01 v) /\ vdims (rv3_transp01 v) = [n1; n0; n2] /\ shows (rv3_transp01 v) v (fun ix => [nth 1 ix 0; nth 0 ix 0; nth 2 ix 0])) /\
  (n0 = n1 -> exists w, rv3_diag01 v = Ok w /\ vwf w /\ vdims w = [n0; n2] /\ shows w v (fun ix => [nth 0 ix 0; nth 0 ix 0; nth 1 ix 0])) /\
  (n0 = n2 -> exists w, rv3_diag02 v = Ok w /\ vwf w /\ vdims w = [n0; n1] /\ shows w v (fun ix => [nth 0 ix 0; nth 1 ix 0; nth 0 ix 0])) /\
  (n1 = n2 -> exists w, rv3_diag12 v = Ok w /\ vwf w /\ vdims w = [n0; n1] /\ shows w v (fun ix => [nth 0 ix 0; nth 1 ix 0; nth 1 ix 0])) /\
  (reg3 v = true -> exists w, rv3_fuse01 v = Ok w /\ vdims w = [n0 * n1; n2] /\ vwf w /\ shows w v (fun ix => [nth 0 ix 0 / n1; nth 0 ix 0 mod n1; nth 1 ix 0])) /\
  (reg3 v = true -> exists w, rv3_fuse12 v = Ok w /\ vdims w = [n0; n1 * n2] /\ vwf w /\ shows w v (fun ix => [nth 0 ix 0; nth 1 ix 0 / n2; nth 1 ix 0 mod n2])) /\
  (reg3 v = false -> rv3_fuse01 v = Throw /\ rv3_fuse12 v = Throw) /\
  (forall i0 i1 i2 m0 m1 m2, 0 <= i0 <= n0 -> 0 <= i1 <= n1 -> 0 <= i2 <= n2 ->
     (m0 = -1 \/ 0 <= m0 /\ i0 + m0 <= n0) -> (m1 = -1 \/ 0 <= m1 /\ i1 + m1 <= n1) -> (m2 = -1 \/ 0 <= m2 /\ i2 + m2 <= n2) ->
     vwf (rv3_block v i0 i1 i2 m0 m1 m2) /\
     vdims (rv3_block v i0 i1 i2 m0 m1 m2) = [if m0 =? -1 then n0 - i0 else m0; if m1 =? -1 then n1 - i1 else m1; if m2 =? -1 then n2 - i2 else m2] /\
     shows (rv3_block v i0 i1 i2 m0 m1 m2) v (fun ix => [i0 + nth 0 ix 0; i1 + nth 1 ix 0; i2 + nth 2 ix 0])).
Proof.
  intros v n0 n1 n2 W D. destruct (slices3_shows v n0 n1 n2 W D) as (A & B & C). split; [exact A|]. split; [exact B|]. split; [exact C|]. split; [now apply transp01_shows|].
  destruct (diag3_shows v n0 n1 n2 W D) as (E & F & G). split; [exact E|]. split; [exact F|]. split; [exact G|].
  split; [intro Hr; destruct (fuse3_shows v n0 n1 n2 W D Hr) as [(w & E1 & -> & E3 & E4) _]; eexists; split; [exact E1|]; auto|].
  split; [intro Hr; destruct (fuse3_shows v n0 n1 n2 W D Hr) as [_ (w & E1 & -> & E3 & E4)]; eexists; split; [exact E1|]; auto|].
  split; [intro Hr; unfold rv3_fuse01, rv3_fuse12; rewrite Hr; auto|]. intros. now apply (block3_shows v n0 n1 n2).
Qed.
Print Assumptions C89_views3.
Theorem C89_from_matrix : forall v n0 n1, vwf v -> vdims v = [n0; n1] ->
  (forall p q, 0 <= p -> 0 <= q -> p * q = n0 -> exists w, rv_split0 v p q = Ok w /\ vwf w /\ vdims w = [p; q; n1] /\ shows w v (fun ix => [nth 0 ix 0 * q + nth 1 ix 0; nth 2 ix 0])) /\
  (forall p q, 0 <= p -> 0 <= q -> p * q = n1 -> exists w, rv_split1 v p q = Ok w /\ vwf w /\ vdims w = [n0; p; q] /\ shows w v (fun ix => [nth 0 ix 0; nth 1 ix 0 * q + nth 2 ix 0])) /\
  (forall n, 0 <= n ->
    (vwf (rv_repeat0 v n) /\ vdims (rv_repeat0 v n) = [n; n0; n1] /\ shows (rv_repeat0 v n) v (fun ix => [nth 1 ix 0; nth 2 ix 0])) /\
    (vwf (rv_repeat1 v n) /\ vdims (rv_repeat1 v n) = [n0; n; n1] /\ shows (rv_repeat1 v n) v (fun ix => [nth 0 ix 0; nth 2 ix 0])) /\
    (vwf (rv_repeat2 v n) /\ vdims (rv_repeat2 v n) = [n0; n1; n] /\ shows (rv_repeat2 v n) v (fun ix => [nth 0 ix 0; nth 1 ix 0]))).
Proof.
  intros v n0 n1 W D. split; [intros p q Hp Hq; apply (split_shows v n0 n1 p q W D Hp Hq)|]. split; [intros p q Hp Hq; apply (split_shows v n0 n1 p q W D Hp Hq)|]. intros n Hn. now apply repeat_shows.
Qed.
Print Assumptions C89_from_matrix.
Theorem C89_vector_block : forall v n0 i0 m0, vwf v -> vdims v = [n0] -> 0 <= i0 -> 0 <= m0 -> i0 + m0 <= n0 ->
  vwf (rv1_block v i0 m0) /\ vdims (rv1_block v i0 m0) = [m0] /\ shows (rv1_block v i0 m0) v (fun ix => [i0 + nth 0 ix 0]).
Proof. intros v n0 i0 m0 W D H1 H2 H3. now apply (block1_shows v n0). Qed.
Print Assumptions C89_vector_block.
Example C89_case : let v := View 1 4 [4; 3] [10; 2] in let w := View 1 4 [2; 3; 2] [6; 2; 1] in vwf v /\ vwf w /\ reg3 w = true /\ 2 * 2 = 4 /\ sd v 0 <> 3 * sd v 1 /\
  (exists u, rv_split0 v 2 2 = Ok u /\ vaddr u [1; 0; 2] = vaddr v [2; 2]).
Proof. split; [wf|]. split; [wf|]. do 2 (split; [reflexivity|]). split; [discriminate|]. eexists. split; reflexivity. Qed.

(* ---- C90 ---- *)
Theorem C90_givens : forall (R : cring) v (m : mem (car R)) n0 n1 ops, vwf v -> distinct_cells v -> vdims v = [n0; n1] -> readable m v ->
  (forall p q ab, In (p, q, ab) ops -> 0 <= p < n0 /\ 0 <= q < n0 /\ p <> q) ->
  exists m', rv2_givens v ops m = Ok m' /\ becomes v (fold_left (fun M op => rotated c1 op M) ops (elem0 m v)) m m'.
Proof. exact @givens2_ok. Qed.
Print Assumptions C90_givens.
(* on 3-tensors the second slice gets the opposite sign: reflections instead of rotations *)
Theorem C90_givens_rank3_refuted : forall (R : cring) v (m : mem (car R)) n0 n1 n2 ops, vwf v -> distinct_cells v -> vdims v = [n0; n1; n2] -> readable m v ->
  (forall p q ab, In (p, q, ab) ops -> 0 <= p < n0 /\ 0 <= q < n0 /\ p <> q) ->
  exists m', rv3_givens v ops m = Ok m' /\ becomes v (fold_left (fun M op => rotated (copp c1) op M) ops (elem0 m v)) m m'.
Proof. exact @givens3_ok. Qed.
Print Assumptions C90_givens_rank3_refuted.
(* with a*a+b*b = 1 both keep the sum of squares of every line *)
Theorem C90_isometry : forall (R : cring) v (m : mem (car R)) ops n0 dims m' jx, vwf v -> distinct_cells v -> vdims v = n0 :: dims -> readable m v -> in_range jx dims ->
  (forall p q ab, In (p, q, ab) ops -> 0 <= p < n0 /\ 0 <= q < n0 /\ p <> q) -> (forall p q a b, In (p, q, (a, b)) ops -> cadd (cmul a a) (cmul b b) = c1) ->
  (length dims = 1%nat /\ rv2_givens v ops m = Ok m' \/ length dims = 2%nat /\ rv3_givens v ops m = Ok m') ->
  sqsum n0 (elem0 m' v) jx = sqsum n0 (elem0 m v) jx.
Proof.
  intros R v m ops n0 dims m' jx W Hd D Rv Hj Hg Hu H.
  assert (Q : forall s, cmul s s = c1 -> becomes v (fold_left (fun M op => rotated s op M) ops (elem0 m v)) m m' -> sqsum n0 (elem0 m' v) jx = sqsum n0 (elem0 m v) jx).
  { intros s Es B. rewrite <- (rotations_sqsum s n0 ops Es Hg Hu (elem0 m v) jx). destruct (becomes_end _ _ _ _ B) as (_ & _ & E). unfold sqsum. apply rsum_ext. intros i Hi. apply in_zrange in Hi.
    rewrite E by (rewrite D; now constructor). reflexivity. }
  pose proof (@neg1_sq R) as Sq.
  destruct H as [[L E]|[L E]].
  - destruct dims as [|n1 [|? ?]]; try discriminate. destruct (givens2_ok v m n0 n1 ops W Hd D Rv Hg) as (m2 & E2 & B). rewrite E in E2. injection E2 as ->. apply (Q c1); [apply (Rmul_1_l (cth R))|exact B].
  - destruct dims as [|n1 [|n2 [|? ?]]]; try discriminate. destruct (givens3_ok v m n0 n1 n2 ops W Hd D Rv Hg) as (m2 & E2 & B). rewrite E in E2. injection E2 as ->. now apply (Q (copp c1)).
Qed.
Print Assumptions C90_isometry.
Theorem C90_scale : forall (R : cring) v (m : mem (car R)) ops, vwf v -> distinct_cells v -> readable m v -> (forall n0 dims p c, vdims v = n0 :: dims -> In (p, c) ops -> 0 <= p < n0) ->
  (forall n0 n1, vdims v = [n0; n1] -> exists m', rv2_scale v ops m = Ok m' /\ becomes v (fold_left (fun M op => scaled op M) ops (elem0 m v)) m m') /\
  (forall n0 n1 n2, vdims v = [n0; n1; n2] -> exists m', rv3_scale v ops m = Ok m' /\ becomes v (fold_left (fun M op => scaled op M) ops (elem0 m v)) m m').
Proof. exact @scale_ok. Qed.
Print Assumptions C90_scale.
Example C90_case : let v := View 1 4 [4; 3] [10; 2] in let ops := [(0, 2, (0, 1)); (3, 1, (-1, 0))] in vwf v /\ distinct_cells v /\ readable ex_mem v /\
  (forall p q ab, In (p, q, ab) ops -> 0 <= p < 4 /\ 0 <= q < 4 /\ p <> q) /\ (forall p q a b, In (p, q, (a, b)) ops -> a * a + b * b = 1) /\
  exists m', rv2_givens (R := ZRing) v ops ex_mem = Ok m' /\ elem m' v [0; 1] = Some 126 /\ elem m' v [2; 1] = Some (-106) /\ elem m' v [3; 1] = Some (-136).
Proof.
  split; [wf|]. split; [by_check|]. split; [by_check|]. split; [intros p q ab [E|[E|[]]]; injection E as <- <- <-; lia|]. split; [intros p q a b [E|[E|[]]]; injection E as <- <- <- <-; lia|].
  eexists. split; [vm_compute; reflexivity|]. repeat split.
Qed.
(* on the 3-tensor the same rotation gives the second slice the other sign *)
Example C90_case_refuted : let v := View 1 4 [4; 3; 1] [10; 2; 1] in exists m', rv3_givens (R := ZRing) v [(0, 2, (0, 1))] ex_mem = Ok m' /\ elem m' v [0; 1; 0] = Some 126 /\ elem m' v [2; 1; 0] = Some 106.
Proof. eexists. split; [vm_compute; reflexivity|]. split; reflexivity. Qed.
