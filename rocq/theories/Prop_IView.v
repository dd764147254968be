(* Prop_IView.v -- C149..C152: the fixed-rank integer views, tensor1_view and the integer tensors made from them.  Elements are in
   an arbitrary commutative ring R (overflow of int is not modelled). *)
From Verif Require Import Base BaseFacts Model_Index Model_View Model_Tensor Model_Ops Model_RView Model_Column Model_IView Spec_Index Spec_View Spec_Tensor Spec_Ops
  Proofs_Axes Proofs_Index Proofs_View Proofs_View2 Proofs_Tensor Proofs_Tensor2 Proofs_Tensor3 Proofs_Ops Proofs_Ops2 Proofs_Convolve2 Spec_RView Proofs_RView Proofs_RView2 Proofs_RView3 Proofs_IView Checks Prop_Tensor Prop_RView.
Local Open Scope Z_scope.

(* ---- C149 ---- *)
Theorem C149_fill : forall (R : cring) r (v : R) (m : mem (car R)) n0, vwf r -> distinct_cells r -> readable m r -> vdims r = [n0] ->
  (exists m', t1_fill r v m = Ok m' /\ becomes r (fun _ => v) m m') /\ (exists m', t1_addv r v m = Ok m' /\ gains r (fun _ => v) m m') /\
  (sd r 0 = 1 -> exists m', iv1_broadcast r v m = Ok m' /\ becomes r (fun _ => v) m m') /\ (sd r 0 <> 1 -> iv1_broadcast r v m = Throw).
Proof.
  intros R r v m n0 W Hd Rr D. split; [exact (proj1 (C85_fill R r v m W Hd Rr) n0 D)|]. split; [exact (proj1 (C85_add_scalar R r v m W Hd Rr) n0 D)|]. split.
  - intro E. apply (broadcast1_ok r v m n0); try assumption. unfold ireg1. lia.
  - intro E. unfold iv1_broadcast, ireg1. now replace (sd r 0 =? 1) with false by lia.
Qed.
Print Assumptions C149_fill.
Theorem C149_set : forall (R : cring) r x (m : mem (car R)), zipable r x m ->
  (forall n0, vdims r = [n0] -> (exists m', iv1_set r x m = Ok m' /\ updates (fun _ w => w) r x m m') /\ (exists m', t1_assign r x m = Ok m' /\ updates (fun _ w => w) r x m m')) /\
  (forall n0 n1, vdims r = [n0; n1] -> exists m', iv2_set r x m = Ok m' /\ updates (fun _ w => w) r x m m') /\
  (forall n0 n1 n2, vdims r = [n0; n1; n2] -> exists m', iv3_set r x m = Ok m' /\ updates (fun _ w => w) r x m m').
Proof. exact C85_set. Qed.
Print Assumptions C149_set.
(* vectors whose elements are contiguous, matrices and 3-tensors *)
Theorem C149_add : forall (R : cring) r x (m : mem (car R)), zipable r x m ->
  (forall n0, vdims r = [n0] -> sd r 0 = 1 -> sd x 0 = 1 -> exists m', iv1_add r x m = Ok m' /\ updates cadd r x m m') /\
  (forall n0 n1, vdims r = [n0; n1] -> exists m', iv2_add r x m = Ok m' /\ updates cadd r x m m') /\
  (forall n0 n1 n2, vdims r = [n0; n1; n2] -> exists m', iv3_add r x m = Ok m' /\ updates cadd r x m m').
Proof.
  intros R r x m Z. split; [|split].
  - intros n0 D E1 E2. destruct (iadd1_ok r x m n0 Z D) as (m' & E & H). exists m'. split; [exact E|]. unfold ireg1 in H. rewrite E1, E2 in H. exact H.
  - intros n0 n1 D. now apply (iadd2_ok r x m n0 n1).
  - intros n0 n1 n2 D. exact (proj2 (proj2 (C85_add R r x m Z)) n0 n1 n2 D).
Qed.
Print Assumptions C149_add.
(* if either vector is strided, add copies: the old value of r is lost *)
Theorem C149_add_refuted : forall (R : cring) r x (m : mem (car R)) n0, zipable r x m -> vdims r = [n0] -> sd r 0 <> 1 \/ sd x 0 <> 1 ->
  exists m', iv1_add r x m = Ok m' /\ updates (fun _ w => w) r x m m' /\
    (forall ix v w, in_range ix (vdims r) -> elem m r ix = Some v -> elem m x ix = Some w -> v <> c0 -> elem m' r ix <> Some (cadd v w)).
Proof.
  intros R r x m n0 Z D H. destruct (iadd1_ok r x m n0 Z D) as (m' & E & U). exists m'. split; [exact E|].
  assert (U' : updates (fun _ w => w) r x m m'). { replace (ireg1 r && ireg1 x) with false in U; [exact U|]. symmetry. unfold ireg1. lia. }
  split; [exact U'|]. intros ix v w Hix Hv Hw Hn Q. rewrite (proj1 U' ix v w Hix Hv Hw) in Q. apply Hn. injection Q as Q.
  pose proof (cth R) as T. transitivity (cadd (cadd v w) (copp w)); [now rewrite <- (Radd_assoc T), (Ropp_def T), (Radd_comm T), (Radd_0_l T)|]. rewrite <- Q. apply (Ropp_def T).
Qed.
Print Assumptions C149_add_refuted.
Theorem C149_add_scaled : forall (R : cring) r x c (m : mem (car R)), zipable r x m ->
  (forall n0, vdims r = [n0] -> exists m', iv1_addc r x c m = Ok m' /\ updates (fun v w => cadd v (cmul c w)) r x m m') /\
  (forall n0 n1, vdims r = [n0; n1] -> exists m', iv2_addc r x c m = Ok m' /\ updates (fun v w => cadd v (cmul c w)) r x m m').
Proof.
  intros R r x c m Z. split; [exact (proj1 (C85_add_scaled R r x c m Z))|]. intros n0 n1 D. now apply (iaddc2_ok r x c m n0 n1).
Qed.
Print Assumptions C149_add_scaled.
(* a 3-tensor smaller than r: only the corner that both have changes *)
Theorem C149_corner : forall (R : cring) r x (m : mem (car R)) n0 n1 n2 k0 k1 k2, vwf r -> vwf x -> vdims r = [n0; n1; n2] -> vdims x = [k0; k1; k2] -> k0 <= n0 -> k1 <= n1 -> k2 <= n2 ->
  vdims x <> vdims r -> distinct_cells r -> readable m r -> readable m x -> no_clobber r x ->
  (exists m', iv3_set r x m = Ok m' /\
    (forall ix w, in_range ix (vdims x) -> elem m x ix = Some w -> elem m' r ix = Some w) /\
    (forall ix, in_range ix (vdims r) -> ~ in_range ix (vdims x) -> elem m' r ix = elem m r ix) /\ untouched m m' r) /\
  (exists m', iv3_add r x m = Ok m' /\
    (forall ix v w, in_range ix (vdims x) -> elem m r ix = Some v -> elem m x ix = Some w -> elem m' r ix = Some (cadd v w)) /\
    (forall ix, in_range ix (vdims r) -> ~ in_range ix (vdims x) -> elem m' r ix = elem m r ix) /\ untouched m m' r).
Proof. exact C85_corner. Qed.
Print Assumptions C149_corner.
Theorem C149_sizes : forall (R : cring) r x c (m : mem (car R)),
  (forall n k, vdims r = [n] -> vdims x = [k] -> k <> n -> iv1_set r x m = Throw /\ t1_assign r x m = Throw /\ iv1_add r x m = Throw /\ iv1_addc r x c m = Throw) /\
  (forall n0 n1 k0 k1, vdims r = [n0; n1] -> vdims x = [k0; k1] -> (k0 <> n0 \/ k1 <> n1) -> iv2_set r x m = Throw /\ iv2_add r x m = Throw /\ iv2_addc r x c m = Throw).
Proof.
  intros R r x c m. split.
  - intros n k D Dx H. unfold iv1_set, t1_assign, iv1_add, iv1_addc. rewrite !(nd_eq r _ _ D), !(nd_eq x _ _ Dx). cbn [nth]. replace (k =? n) with false by lia. replace (n =? k) with false by lia. auto.
  - intros n0 n1 k0 k1 D Dx H. unfold iv2_set, iv2_add, iv2_addc. rewrite !(nd_eq r _ _ D), !(nd_eq x _ _ Dx). cbn [nth]. destruct (k0 =? n0) eqn:E; [|auto]. replace (k1 =? n1) with false by lia. auto.
Qed.
Print Assumptions C149_sizes.
Example C149_case : zipable ex_r ex_x ex_mem /\ zipable (View 0 3 [2; 3] [20; 2]) (View 1 4 [2; 3] [3; 1]) ex_mem /\ zipable (View 0 3 [4] [1]) (View 1 4 [4] [1]) ex_mem /\
  zipable (View 0 3 [4] [3]) (View 1 4 [4] [1]) ex_mem.
Proof. repeat split; try (ops; fail); try (repeat constructor; lia). Qed.
Example C149_case_corner : let x := View 1 0 [1; 2; 2] [4; 2; 1] in vwf x /\ vdims x <> vdims ex_r /\ readable ex_mem x /\ no_clobber ex_r x.
Proof. split; [wf|]. split; [discriminate|]. ops. Qed.

(* ---- C150 ---- *)
Theorem C150_matmul : forall (R : cring) r x y (m : mem (car R)) a n b, operands r [x; y] m -> vdims r = [a; b] -> vdims x = [a; n] -> vdims y = [n; b] ->
  exists m', iv2_AA r x y m = Ok m' /\ gains r (fun ix => rsum (map (fun k => cmul (elem0 m x [nth 0 ix 0; k]) (elem0 m y [k; nth 1 ix 0])) (zrange n))) m m'.
Proof. intros R r x y m a n b O D Dx Dy. exact (proj1 (C86_matmul R r x y m a n b O D) Dx Dy). Qed.
Print Assumptions C150_matmul.
Theorem C150_matmul_sizes : forall (R : cring) r x y (m : mem (car R)) a b a' n n' b', vdims r = [a; b] -> vdims x = [a'; n] -> vdims y = [n'; b'] -> ~ (a' = a /\ b' = b /\ n' = n) -> iv2_AA r x y m = Throw.
Proof.
  intros R r x y m a b a' n n' b' D Dx Dy H. unfold iv2_AA. rewrite !(nd_eq r _ _ D), !(nd_eq x _ _ Dx), !(nd_eq y _ _ Dy). cbn [nth].
  destruct (Z.eqb_spec a' a); [|reflexivity]. destruct (Z.eqb_spec b' b); [|reflexivity]. destruct (Z.eqb_spec n' n); [|reflexivity]. exfalso. auto.
Qed.
Print Assumptions C150_matmul_sizes.
(* the batched product of a 3-tensor x and a matrix y, when there are as many batches as rows and columns *)
Theorem C150_batched : forall (R : cring) r x y (m : mem (car R)) a n, operands r [x; y] m -> vdims r = [a; a; a] -> vdims x = [a; a; n] -> vdims y = [n; a] ->
  exists m', iv3_AA r x y m = Ok m' /\ gains r (fun ix => rsum (map (fun k => cmul (elem0 m x [nth 0 ix 0; nth 1 ix 0; k]) (elem0 m y [k; nth 2 ix 0])) (zrange n))) m m'.
Proof.
  intros R r x y m a n O D Dx Dy. destruct (iAA3_ok r x y m a a n O D Dx Dy ltac:(lia)) as (m' & E & A & B & C). exists m'. split; [exact E|]. split; [|exact C].
  intros ix v Hix Hv. rewrite D in Hix. apply in_range_3_inv in Hix as (t & i & j & -> & ? & ? & ?). now apply A.
Qed.
Print Assumptions C150_batched.
(* with fewer batches than rows only as many rows as there are batches receive the product; the others keep their values *)
Theorem C150_batched_rows_refuted : forall (R : cring) r x y (m : mem (car R)) nb a n, operands r [x; y] m -> vdims r = [nb; a; a] -> vdims x = [nb; a; n] -> vdims y = [n; a] -> nb <= a ->
  exists m', iv3_AA r x y m = Ok m' /\
    (forall t i j v, 0 <= t < nb -> 0 <= i < nb -> 0 <= j < a -> elem m r [t; i; j] = Some v ->
       elem m' r [t; i; j] = Some (cadd v (rsum (map (fun k => cmul (elem0 m x [t; i; k]) (elem0 m y [k; j])) (zrange n))))) /\
    (forall t i j, 0 <= t < nb -> nb <= i < a -> 0 <= j < a -> elem m' r [t; i; j] = elem m r [t; i; j]) /\ untouched m m' r.
Proof. exact @iAA3_ok. Qed.
Print Assumptions C150_batched_rows_refuted.
(* results that are not square are rejected *)
Theorem C150_batched_refuted : forall (R : cring) r x y (m : mem (car R)) nb a n b, vdims r = [nb; a; b] -> vdims x = [nb; a; n] -> vdims y = [n; b] -> a <> b -> iv3_AA r x y m = Throw.
Proof. exact C86_batched_AA_refuted. Qed.
Print Assumptions C150_batched_refuted.
(* with more batches than rows the loop runs into the rows of the next batch: r[1][0][0], which should gain 3*7=21, gains 21+21 *)
Theorem C150_batched_many_refuted : exists r x y (m m' : mem Z), operands r [x; y] m /\ vdims r = [3; 1; 1] /\ vdims x = [3; 1; 1] /\ vdims y = [1; 1] /\
  iv3_AA (R := ZRing) r x y m = Ok m' /\ elem m r [1; 0; 0] = Some 0 /\ elem m x [1; 0; 0] = Some 3 /\ elem m y [0; 0] = Some 7 /\ elem m' r [1; 0; 0] = Some 42.
Proof.
  exists (View 0 0 [3; 1; 1] [1; 1; 1]), (View 1 0 [3; 1; 1] [1; 1; 1]), (View 2 0 [1; 1] [1; 1]), (fun b a => if b =? 0 then Some 0 else if b =? 1 then Some 3 else Some 7). eexists. split; [opnd|]. do 3 (split; [reflexivity|]). split; [vm_compute; reflexivity|]. repeat split; reflexivity.
Qed.
Print Assumptions C150_batched_many_refuted.
(* the same product of the real views, C86 *)
Theorem C86_batched_AA_rows : forall (R : cring) r x y (m : mem (car R)) nb a n, operands r [x; y] m -> vdims r = [nb; a; a] -> vdims x = [nb; a; n] -> vdims y = [n; a] -> nb <= a ->
  exists m', rv3_AA r x y m = Ok m' /\
    (forall t i j v, 0 <= t < nb -> 0 <= i < nb -> 0 <= j < a -> elem m r [t; i; j] = Some v ->
       elem m' r [t; i; j] = Some (cadd v (rsum (map (fun k => cmul (elem0 m x [t; i; k]) (elem0 m y [k; j])) (zrange n))))) /\
    (forall t i j, 0 <= t < nb -> nb <= i < a -> 0 <= j < a -> elem m' r [t; i; j] = elem m r [t; i; j]) /\ untouched m m' r.
Proof. exact @iAA3_ok. Qed.
Print Assumptions C86_batched_AA_rows.
Example C150_case : operands (View 0 3 [2; 4] [20; 2]) [View 1 4 [2; 3] [1; 2]; View 2 1 [3; 4] [5; 1]] ex_mem /\
  operands (View 0 0 [2; 2; 2] [4; 2; 1]) [View 1 0 [2; 2; 3] [6; 3; 1]; View 2 0 [3; 2] [2; 1]] ex_mem /\
  operands (View 0 0 [2; 3; 3] [9; 3; 1]) [View 1 0 [2; 3; 2] [6; 2; 1]; View 2 0 [2; 3] [3; 1]] ex_mem.
Proof. split; [opnd|]. split; opnd. Qed.
Example C150_case_sizes : ~ (2 = 2 /\ 3 = 4 /\ 5 = 5).
Proof. lia. Qed.

(* ---- C151 ---- *)
Theorem C151_vector : forall v n0, vwf v -> vdims v = [n0] ->
  (forall i0 m0, 0 <= i0 -> 0 <= m0 -> i0 + m0 <= n0 -> vwf (iv1_block v i0 m0) /\ vdims (iv1_block v i0 m0) = [m0] /\ shows (iv1_block v i0 m0) v (fun ix => [i0 + nth 0 ix 0])) /\
  (forall i j, 0 <= i -> 0 < j -> i * j = n0 -> exists w, iv_split v i j = Ok w /\ vwf w /\ vdims w = [i; j] /\ shows w v (fun ix => [nth 0 ix 0 * j + nth 1 ix 0])) /\
  (forall i j, i * j <> n0 -> iv_split v i j = Throw).
Proof.
  intros v n0 W D. split; [intros i0 m0 H1 H2 H3; exact (C89_vector_block v n0 i0 m0 W D H1 H2 H3)|]. split; [intros i j; now apply vsplit_shows|].
  intros i j H. unfold iv_split. rewrite (nd_eq v _ 0 D). cbn [nth]. now replace (i * j =? n0) with false by lia.
Qed.
Print Assumptions C151_vector.
Theorem C151_matrix : forall v n0 n1, vwf v -> vdims v = [n0; n1] ->
  (forall i0 i1 m0 m1, 0 <= i0 -> 0 <= i1 -> i0 <= n0 -> i1 <= n1 -> (0 <= m0 -> i0 + m0 <= n0) -> (0 <= m1 -> i1 + m1 <= n1) ->
     vwf (iv2_block_const v i0 i1 m0 m1) /\ vdims (iv2_block_const v i0 i1 m0 m1) = [if m0 <? 0 then n0 - i0 else m0; if m1 <? 0 then n1 - i1 else m1] /\
     shows (iv2_block_const v i0 i1 m0 m1) v (fun ix => [i0 + nth 0 ix 0; i1 + nth 1 ix 0])) /\
  (forall i0 i1 m0 m1, 0 <= i0 -> 0 <= i1 -> i0 <= n0 -> i1 <= n1 -> (m0 = -1 \/ 0 <= m0 /\ i0 + m0 <= n0) -> (m1 = -1 \/ 0 <= m1 /\ i1 + m1 <= n1) ->
     vwf (iv2_block v i0 i1 m0 m1) /\ vdims (iv2_block v i0 i1 m0 m1) = [if m0 =? -1 then n0 - i0 else m0; if m1 =? -1 then n1 - i1 else m1] /\
     shows (iv2_block v i0 i1 m0 m1) v (fun ix => [i0 + nth 0 ix 0; i1 + nth 1 ix 0])) /\
  (forall i k, 0 <= i -> 0 <= k -> i + k <= n0 -> vwf (iv2_rows v i k) /\ vdims (iv2_rows v i k) = [k; n1] /\
     shows (iv2_rows v i k) v (fun ix => [i + nth 0 ix 0; nth 1 ix 0])) /\
  (vwf (iv2_transp v) /\ vdims (iv2_transp v) = [n1; n0] /\ shows (iv2_transp v) v (fun ix => [nth 1 ix 0; nth 0 ix 0])) /\
  (forall p, 0 <= p < n0 -> vwf (iv2_slice0 v p) /\ vdims (iv2_slice0 v p) = [n1] /\ shows (iv2_slice0 v p) v (fun ix => p :: ix)) /\
  (forall p, 0 <= p < n1 -> vwf (iv2_slice1 v p) /\ vdims (iv2_slice1 v p) = [n0] /\ shows (iv2_slice1 v p) v (fun ix => ix ++ [p])) /\
  (n0 = n1 -> exists w, iv2_diag v = Ok w /\ vwf w /\ vdims w = [n0] /\ shows w v (fun ix => [nth 0 ix 0; nth 0 ix 0])) /\
  (n0 <> n1 -> iv2_diag v = Throw) /\
  (sd v 0 = n1 * sd v 1 -> vwf (iv2_fuse01 v) /\ vdims (iv2_fuse01 v) = [n0 * n1] /\ shows (iv2_fuse01 v) v (fun ix => [nth 0 ix 0 / n1; nth 0 ix 0 mod n1])) /\
  (forall p q, 0 <= p -> 0 <= q -> p * q = n0 -> exists w, iv_split0 v p q = Ok w /\ vwf w /\ vdims w = [p; q; n1] /\ shows w v (fun ix => [nth 0 ix 0 * q + nth 1 ix 0; nth 2 ix 0])) /\
  (forall p q, 0 <= p -> 0 <= q -> p * q = n1 -> exists w, iv_split1 v p q = Ok w /\ vwf w /\ vdims w = [n0; p; q] /\ shows w v (fun ix => [nth 0 ix 0; nth 1 ix 0 * q + nth 2 ix 0])) /\
  (forall p q, (p * q <> n0 -> iv_split0 v p q = Throw) /\ (p * q <> n1 -> iv_split1 v p q = Throw)).
Proof.
  intros v n0 n1 W D. destruct (C89_views2 v n0 n1 W D) as (A1 & _ & A3 & A4 & A5 & A6 & A7 & A8). destruct (C89_from_matrix v n0 n1 W D) as (B1 & B2 & _).
  split; [exact A1|]. split; [intros; now apply block2m_shows|]. split; [exact A3|]. split; [exact A4|]. split; [exact A5|]. split; [exact A6|]. split; [exact A7|].
  split; [intro H; unfold iv2_diag; rewrite !(nd_eq v _ _ D); cbn [nth]; now replace (n0 =? n1) with false by lia|]. split; [exact A8|]. split; [exact B1|]. split; [exact B2|].
  intros p q. split; intro H; [unfold iv_split0|unfold iv_split1]; rewrite !(nd_eq v _ _ D); cbn [nth]; [now replace (p * q =? n0) with false by lia|now replace (p * q =? n1) with false by lia].
Qed.
Print Assumptions C151_matrix.
(* fuse01 does not test that the rows follow each other: otherwise entry n1 of the result is not element (1,0) *)
Theorem C151_fuse_refuted : forall v n0 n1, vwf v -> vdims v = [n0; n1] -> 2 <= n0 -> 1 <= n1 -> sd v 0 <> n1 * sd v 1 ->
  vdims (iv2_fuse01 v) = [n0 * n1] /\ in_range [n1] (vdims (iv2_fuse01 v)) /\ vaddr (iv2_fuse01 v) [n1] <> vaddr v [1; 0].
Proof. exact C89_fuse_refuted. Qed.
Print Assumptions C151_fuse_refuted.
Theorem C151_tensor : forall v n0 n1 n2, vwf v -> vdims v = [n0; n1; n2] ->
  (forall p, 0 <= p < n0 -> vwf (iv3_slice0 v p) /\ vdims (iv3_slice0 v p) = [n1; n2] /\ shows (iv3_slice0 v p) v (fun ix => p :: ix)) /\
  (forall p, 0 <= p < n1 -> vwf (iv3_slice1 v p) /\ vdims (iv3_slice1 v p) = [n0; n2] /\ shows (iv3_slice1 v p) v (fun ix => [nth 0 ix 0; p; nth 1 ix 0])) /\
  (forall p, 0 <= p < n2 -> vwf (iv3_slice2 v p) /\ vdims (iv3_slice2 v p) = [n0; n1] /\ shows (iv3_slice2 v p) v (fun ix => ix ++ [p])) /\
  (ireg3 v = true -> exists w, iv3_fuse01 v = Ok w /\ vdims w = [n0 * n1; n2] /\ vwf w /\ shows w v (fun ix => [nth 0 ix 0 / n1; nth 0 ix 0 mod n1; nth 1 ix 0])) /\
  (ireg3 v = true -> exists w, iv3_fuse12 v = Ok w /\ vdims w = [n0; n1 * n2] /\ vwf w /\ shows w v (fun ix => [nth 0 ix 0; nth 1 ix 0 / n2; nth 1 ix 0 mod n2])) /\
  (ireg3 v = false -> iv3_fuse01 v = Throw /\ iv3_fuse12 v = Throw) /\ (ireg3 v = true <-> vstr v = [n1 * n2; n2; 1]) /\
  (forall i0 i1 i2 m0 m1 m2, 0 <= i0 <= n0 -> 0 <= i1 <= n1 -> 0 <= i2 <= n2 ->
     (m0 = -1 \/ 0 <= m0 /\ i0 + m0 <= n0) -> (m1 = -1 \/ 0 <= m1 /\ i1 + m1 <= n1) -> (m2 = -1 \/ 0 <= m2 /\ i2 + m2 <= n2) ->
     vwf (iv3_block v i0 i1 i2 m0 m1 m2) /\
     vdims (iv3_block v i0 i1 i2 m0 m1 m2) = [if m0 =? -1 then n0 - i0 else m0; if m1 =? -1 then n1 - i1 else m1; if m2 =? -1 then n2 - i2 else m2] /\
     shows (iv3_block v i0 i1 i2 m0 m1 m2) v (fun ix => [i0 + nth 0 ix 0; i1 + nth 1 ix 0; i2 + nth 2 ix 0])).
Proof.
  intros v n0 n1 n2 W D. destruct (C89_views3 v n0 n1 n2 W D) as (A1 & A2 & A3 & _ & _ & _ & _ & A4 & A5 & A6 & A7).
  split; [exact A1|]. split; [exact A2|]. split; [exact A3|]. split; [exact A4|]. split; [exact A5|]. split; [exact A6|]. split; [|exact A7].
  rewrite (str3 v n0 n1 n2 W D). unfold ireg3. rewrite !(nd_eq v _ _ D). cbn [nth]. split.
  - intro H. apply andb_true_iff in H as [H H3]. apply andb_true_iff in H as [H1 H2]. repeat f_equal; nia.
  - intro H. injection H as -> -> ->. rewrite !Z.eqb_refl. reflexivity.
Qed.
Print Assumptions C151_tensor.
Example C151_case : let u := View 1 4 [6] [3] in let v := View 1 4 [4; 3] [10; 2] in let w := View 1 4 [2; 3; 2] [6; 2; 1] in
  vwf u /\ vwf v /\ vwf w /\ ireg3 w = true /\ 2 * 3 = 6 /\ sd v 0 <> 3 * sd v 1.
Proof. cbn. repeat split; try reflexivity; try (repeat constructor; lia); lia. Qed.

(* ---- C152 ---- *)
Theorem C152_copies : forall (R : cring) (z : R) b x (m : mem (car R)), vwf x -> readable m x -> (forall a, m b a = None) ->
  (forall n0, vdims x = [n0] -> (exists r m', iv1_gtensor z b x m = Ok (r, m') /\ makes b m m' r (vdims x) (elem0 m x)) /\
     (exists r m', it_of1 b x m = Ok (r, m') /\ makes b m m' r (vdims x) (elem0 m x))) /\
  (forall n0 n1, vdims x = [n0; n1] -> (exists r m', iv2_gtensor z b x m = Ok (r, m') /\ makes b m m' r (vdims x) (elem0 m x)) /\
     (exists r m', it_of2 b x m = Ok (r, m') /\ makes b m m' r (vdims x) (elem0 m x))) /\
  (forall n0 n1 n2, vdims x = [n0; n1; n2] -> (exists r m', iv3_gtensor z b x m = Ok (r, m') /\ makes b m m' r (vdims x) (elem0 m x)) /\
     (exists r m', it_of3 b x m = Ok (r, m') /\ makes b m m' r (vdims x) (elem0 m x))).
Proof.
  intros R z b x m W Rx Hb. destruct (gt_gen z b x m W Rx Hb) as (m' & E & M). split; [|split].
  - intros n0 D. split; [|now apply (of1_ok b x m n0)]. exists (fresh_view b (vdims x)), m'. split; [|exact M]. unfold iv1_gtensor. rewrite !(nd_eq x _ _ D). cbn [nth zeros]. rewrite nest1_fold, <- D, E. reflexivity.
  - intros n0 n1 D. split; [|now apply (of2_ok b x m n0 n1)]. exists (fresh_view b (vdims x)), m'. split; [|exact M]. unfold iv2_gtensor. rewrite !(nd_eq x _ _ D). cbn [nth zeros]. rewrite nest2_fold, <- D, E. reflexivity.
  - intros n0 n1 n2 D. split; [|now apply (of3_ok b x m n0 n1 n2)]. exists (fresh_view b (vdims x)), m'. split; [|exact M]. unfold iv3_gtensor. rewrite !(nd_eq x _ _ D). cbn [nth zeros]. rewrite nest3_fold, <- D, E. reflexivity.
Qed.
Print Assumptions C152_copies.
Theorem C152_reduce : forall (R : cring) x (m : mem (car R)) n0, vwf x -> vdims x = [n0] -> readable m x ->
  iv1_reduce x m = Ok (rsum (map (fun i => elem0 m x [i]) (zrange n0))).
Proof.
  intros R x m n0 W D Rx. change (iv1_reduce x m) with (rv1_sum x m). rewrite (sum1_ok x m n0 W D Rx). do 2 f_equal. rewrite D. cbn [all_indices]. rewrite flat_map_concat_map, concat_map, map_map. cbn [map]. induction (zrange n0) as [|a l IH]; [reflexivity|]. cbn. now rewrite IH.
Qed.
Print Assumptions C152_reduce.
(* one value shown n times *)
Theorem C152_repeat : forall (V : Type) b (x : V) n (m : mem V), 0 <= n -> let '(r, m') := t1_repeat0 b x n m in
  vdims r = [n] /\ vwf r /\ (forall i, 0 <= i < n -> elem m' r [i] = Some x) /\ (forall b' a, b' <> b -> m' b' a = m b' a) /\
  (forall i j y m2, 0 <= i < n -> 0 <= j < n -> put_at r [i] y m' = Ok m2 -> elem m2 r [j] = Some y).
Proof.
  intros V b x n m Hn. cbn [t1_repeat0]. set (r := View b 0 [n] [0]). assert (W : vwf r) by (split; [reflexivity|repeat constructor; assumption]). split; [reflexivity|]. split; [exact W|].
  assert (Ea : forall i, vaddr r [i] = Ok (b, 0)) by (intro i; rewrite (vaddr1 r i n W eq_refl); cbn; do 2 f_equal; lia).
  split; [intros i Hi; unfold elem; rewrite Ea; apply alloc_in; lia|]. split; [intros b' a H; now apply alloc_other|].
  intros i j y m2 Hi Hj E. unfold put_at in E. rewrite Ea in E. cbn [bind fst snd] in E. unfold elem. rewrite Ea. unfold store in E. rewrite alloc_in in E by lia. injection E as <-. unfold upd. now rewrite !Z.eqb_refl.
Qed.
Print Assumptions C152_repeat.
(* vectors of equal length with equal entries have equal hash codes, whatever their strides *)
Theorem C152_hash : forall (V : Type) (hi : Z -> Z) (hv : V -> Z) x y (m m2 : mem V) n, vwf x -> vwf y -> vdims x = [n] -> vdims y = [n] -> readable m x -> readable m2 y ->
  (forall i, 0 <= i < n -> elem m x [i] = elem m2 y [i]) -> exists h, t1_hash hi hv x m = Ok h /\ t1_hash hi hv y m2 = Ok h.
Proof.
  intros V hi hv x y m m2 n Wx Wy Dx Dy Rx Ry H. rewrite (t1_hash_eq hi hv x m n), (t1_hash_eq hi hv y m2 n) by assumption.
  assert (E : forall t l, (forall ix, In ix l -> in_range ix [n]) -> exists h, foldM (fun ix t => match elem m x ix with Some v => Ok (mix t (hv v)) | None => UB end) l t = Ok h /\
     foldM (fun ix t => match elem m2 y ix with Some v => Ok (mix t (hv v)) | None => UB end) l t = Ok h).
  { intros t l; revert t. induction l as [|ix l IH]; intros t Hl; [now exists t|]. cbn [foldM]. assert (Hi : in_range ix [n]) by (apply Hl; now left). specialize (Rx ix). rewrite Dx in Rx. specialize (Rx Hi).
    assert (He : elem m x ix = elem m2 y ix). { inversion Hi as [|i ? l' ? Hi' Hl']; subst. inversion Hl'; subst. now apply H. }
    rewrite <- He. destruct (elem m x ix) as [v|]; [|congruence]. cbn [bind]. apply IH. intros jx Hj. apply Hl. now right. }
  apply E. intros ix Hix. now apply in_all_indices.
Qed.
Print Assumptions C152_hash.
Example C152_case : let m : mem Z := fun b a => if b =? 7 then None else ex_mem b a in let x := View 1 4 [2; 3] [1; 2] in let u := View 1 4 [3] [2] in let v := View 0 3 [2; 2; 2] [1; 2; 9] in
  vwf x /\ readable m x /\ vwf u /\ readable m u /\ vwf v /\ readable m v /\ (forall a, m 7 a = None).
Proof. cbn zeta. repeat match goal with |- _ /\ _ => split; [first [wf|by_check]|] end. reflexivity. Qed.
Example C152_case_hash : let m : mem Z := fun b a => Some (if b =? 0 then 5 * a + 2 else a) in let x := View 0 0 [3] [1] in let y := View 1 2 [3] [5] in
  vwf x /\ vwf y /\ readable m x /\ readable m y /\ (forall i, 0 <= i < 3 -> elem m x [i] = elem m y [i]) /\ t1_hash (fun v => v) (fun v => v) x m = Ok 12.
Proof.
  cbn zeta. split; [wf|]. split; [wf|]. split; [by_check|]. split; [by_check|]. split; [|vm_compute; reflexivity].
  intros i Hi. assert (i = 0 \/ i = 1 \/ i = 2) as [-> | [-> | ->]] by lia; reflexivity.
Qed.
