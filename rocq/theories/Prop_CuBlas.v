(* Prop_CuBlas.v -- C185 and C186: products and sums of fixed-rank views on a device by cuBLAS. *)
From Verif Require Import Base BaseFacts Model_Index Model_View Model_Tensor Model_Ops Model_RView Model_Cuda Model_CuConv Model_CuBlas Spec_Index Spec_View Spec_Tensor Spec_Cuda
  Proofs_Index Proofs_Tensor Proofs_Cuda Spec_RView Proofs_CuConv Proofs_CuBlas.
Local Open Scope Z_scope.

(* ---- C185 ---- *)
(* Rows of any distance at least their length (and at least 1), elements of a row next to each other: x*y, x*y^T and x^T*y are added, in whatever order the
   elements are updated *)
Theorem C185_matmul_partial {R : cring} r x y (m : mem (car R)) a n b rs xs ys : operands r [x; y] m -> vdims r = [a; b] -> vstr r = [rs; 1] -> vstr x = [xs; 1] -> vstr y = [ys; 1] ->
  Z.max 1 b <= rs -> Z.max 1 (nth 1 (vdims x) 0) <= xs -> Z.max 1 (nth 1 (vdims y) 0) <= ys ->
  (vdims x = [a; n] -> vdims y = [n; b] -> exists plan, cu_matmul_AA r x y = Ok plan /\ forall order, Permutation order plan -> exists m', cu_exec (f_gemm c1) [order] m = Ok m' /\
     gains r (fun ix => rsum (map (fun k => cmul (elem0 m x [nth 0 ix 0; k]) (elem0 m y [k; nth 1 ix 0])) (zrange n))) m m') /\
  (vdims x = [a; n] -> vdims y = [b; n] -> exists plan, cu_matmul_AT r x y = Ok plan /\ forall order, Permutation order plan -> exists m', cu_exec (f_gemm c1) [order] m = Ok m' /\
     gains r (fun ix => rsum (map (fun k => cmul (elem0 m x [nth 0 ix 0; k]) (elem0 m y [nth 1 ix 0; k])) (zrange n))) m m') /\
  (vdims x = [n; a] -> vdims y = [n; b] -> exists plan, cu_matmul_TA r x y = Ok plan /\ forall order, Permutation order plan -> exists m', cu_exec (f_gemm c1) [order] m = Ok m' /\
     gains r (fun ix => rsum (map (fun k => cmul (elem0 m x [k; nth 0 ix 0]) (elem0 m y [k; nth 1 ix 0])) (zrange n))) m m').
Proof.
  intros O Dr Sr Sx Sy Lr Lx Ly. repeat split; intros Dx Dy; rewrite Dx in Lx; rewrite Dy in Ly; cbn [nth] in Lx, Ly.
  - exact (AA_ok r x y m a n b rs xs ys O Dr Sr Dx Sx Dy Sy Lr Lx Ly).
  - exact (AT_ok r x y m a n b rs xs ys O Dr Sr Dx Sx Dy Sy Lr Lx Ly).
  - exact (TA_ok r x y m a n b rs xs ys O Dr Sr Dx Sx Dy Sy Lr Lx Ly).
Qed.
Print Assumptions C185_matmul_partial.
(* add_mprod of matrices that are not empty *)
Theorem C185_mprod_partial {R : cring} r x y (m : mem (car R)) a n b : operands r [x; y] m -> vdims r = [a; b] -> vdims x = [a; n] -> vdims y = [n; b] -> 1 <= a -> 1 <= b -> 1 <= n ->
  reg2 r = true -> (reg2 x = true /\ reg2 y = true) \/ (reg2 x = true /\ tra2 y = true) \/ (tra2 x = true /\ reg2 y = true) ->
  exists plan, cu_mprod2 r x y = Ok plan /\ forall order, Permutation order plan -> exists m', cu_exec (f_gemm c1) [order] m = Ok m' /\
    gains r (fun ix => rsum (map (fun k => cmul (elem0 m x [nth 0 ix 0; k]) (elem0 m y [k; nth 1 ix 0])) (zrange n))) m m'.
Proof. exact (mprod2_device r x y m a n b). Qed.
Print Assumptions C185_mprod_partial.
(* a matrix times every matrix of a batch *)
Theorem C185_batch_partial {R : cring} r x y (m : mem (car R)) B a n c r0 r1 y0 y1 : operands r [x; y] m -> vdims r = [B; a; c] -> vdims x = [a; n] -> vdims y = [B; n; c] -> vstr r = [r0; r1; 1] -> vstr y = [y0; y1; 1] ->
  1 <= n -> 1 <= a -> Z.max 1 c <= r1 -> Z.max 1 c <= y1 -> reg2 x = true \/ tra2 x = true ->
  exists plan, cu_mprod3 r x y = Ok plan /\ forall order, Permutation order plan -> exists m', cu_exec (f_gemm c1) [order] m = Ok m' /\
    gains r (fun ix => rsum (map (fun k => cmul (elem0 m x [nth 1 ix 0; k]) (elem0 m y [nth 0 ix 0; k; nth 2 ix 0])) (zrange n))) m m'.
Proof. exact (mprod3_device r x y m B a n c r0 r1 y0 y1). Qed.
Print Assumptions C185_batch_partial.
(* Refuted where rows are closer than their length: a factor that repeats one row (stride 0, as a broadcast does), or a product over an empty range, ends the
   program; on the host both are added *)
Theorem C185_repeated_refuted r x y a n b rs ys : vdims r = [a; b] -> vstr r = [rs; 1] -> vdims x = [a; n] -> vstr x = [0; 1] -> vdims y = [n; b] -> vstr y = [ys; 1] -> cu_matmul_AA r x y = Throw.
Proof.
  intros Dr Sr Dx Sx Dy Sy. unfold cu_matmul_AA, nd, sd. rewrite Dr, Sr, Dx, Sx, Dy, Sy. cbn [nth]. rewrite !Z.eqb_refl. cbn [assrt]. unfold gemm, gemms. replace (Z.max 1 n <=? 0) with false by lia. rewrite !andb_false_r. reflexivity.
Qed.
Print Assumptions C185_repeated_refuted.
Theorem C185_empty_refuted r x y a b : vdims r = [a; b] -> vdims x = [a; 0] -> vdims y = [0; b] -> reg2 r = true -> reg2 x = true -> reg2 y = true -> cu_mprod2 r x y = Throw.
Proof.
  intros Dr Dx Dy Rr Rx Ry. unfold cu_mprod2. rewrite Rr, Rx, Ry. cbn [andb]. unfold reg2, nd in Rx. rewrite Dx in Rx. cbn [nth] in Rx. unfold cu_matmul_AA, nd. rewrite Dr, Dx, Dy. cbn [nth]. rewrite !Z.eqb_refl. cbn [assrt].
  unfold reg2 in Rr, Ry. replace (sd r 1 =? 1) with true by lia. replace (sd x 1 =? 1) with true by lia. replace (sd y 1 =? 1) with true by lia. cbn [assrt]. unfold gemm, gemms. replace (Z.max 1 0 <=? sd x 0) with false by lia. rewrite !andb_false_r. reflexivity.
Qed.
Print Assumptions C185_empty_refuted.
(* Refuted for other layouts: add_mprod adds nothing if r is not regular, or (batches) if x is neither regular nor transposed; and in batches the last strides of r and y are
   taken to be 1 without a check *)
Theorem C185_layout_refuted {R : cring} r x y (m : mem (car R)) : (reg2 r = false -> exists plan, cu_mprod2 r x y = Ok plan /\ forall order, Permutation order plan -> cu_exec (f_gemm c1) [order] m = Ok m) /\
  (forall B a n c, vdims r = [B; a; c] -> vdims x = [a; n] -> vdims y = [B; n; c] -> reg2 x = false -> tra2 x = false ->
     exists plan, cu_mprod3 r x y = Ok plan /\ forall order, Permutation order plan -> cu_exec (f_gemm c1) [order] m = Ok m).
Proof.
  assert (N : forall order, Permutation order [] -> cu_exec (f_gemm c1) [order] m = Ok m) by (intros order P; apply Permutation_sym, Permutation_nil in P; now subst).
  split.
  - intro E. exists []. split; [|exact N]. unfold cu_mprod2. now rewrite E.
  - intros B a n c Dr Dx Dy E1 E2. exists []. split; [|exact N]. unfold cu_mprod3. rewrite E1, E2. unfold nd. rewrite Dr, Dx, Dy. cbn [nth]. now rewrite !Z.eqb_refl.
Qed.
Print Assumptions C185_layout_refuted.
Theorem C185_stride_refuted rb ro yb yo B a n c r0 r1 r2 r2' y0 y1 y2 y2' x : cu_mprod3 (View rb ro [B; a; c] [r0; r1; r2]) x (View yb yo [B; n; c] [y0; y1; y2]) = cu_mprod3 (View rb ro [B; a; c] [r0; r1; r2']) x (View yb yo [B; n; c] [y0; y1; y2']).
Proof. reflexivity. Qed.
Print Assumptions C185_stride_refuted.

(* ---- C186 ---- *)
(* r+=c*x for vectors with any strides that are not negative *)
Theorem C186_add {R : cring} al r x (m : mem (car R)) n rs xs : operands r [x] m -> vdims r = [n] -> vdims x = [n] -> vstr r = [rs] -> vstr x = [xs] -> 0 <= rs -> 0 <= xs ->
  exists plan, cu_add1 r x = Ok plan /\ forall order, Permutation order plan -> exists m', cu_exec (f_axpy al) [order] m = Ok m' /\ gains r (fun ix => cmul al (elem0 m x ix)) m m'.
Proof. exact (add1_device al r x m n rs xs). Qed.
Print Assumptions C186_add.
(* c*x added to every row of r *)
Theorem C186_broadcast_partial {R : cring} al r x one (m : mem (car R)) a b rs : operands r [x] m -> vdims r = [a; b] -> vdims x = [b] -> vstr r = [rs; 1] -> vstr x = [1] -> 1 <= b ->
  m (fst one) (snd one) = Some c1 -> (forall ix, in_range ix (vdims r) -> vaddr r ix <> Ok one) ->
  exists plan, cu_broadcast0 one r x = Ok plan /\ forall order, Permutation order plan -> exists m', cu_exec (f_gemm al) [order] m = Ok m' /\ gains r (fun ix => cmul al (elem0 m x [nth 1 ix 0])) m m'.
Proof.
  intros O Dr Dx Sr Sx Pb H1 No. apply (broadcast_device al r x one m a b rs); auto. intros ix I E. apply (No ix I). rewrite vaddr_cell by (apply O || assumption). now rewrite E.
Qed.
Print Assumptions C186_broadcast_partial.
(* sum() of a vector, integer elements: the absolute values are added up; right if no element is negative *)
Lemma asum_fold (m : mem Z) v n s L t : vdims v = [n] -> vstr v = [s] -> readable m v -> (forall i, In i L -> 0 <= i < n) ->
  foldM (fun i t => do a <- loadA m (shift (arr v) (i * sd v 0)); Ok (t + Z.abs a)) L t = Ok (t + fold_right Z.add 0 (map (fun i => Z.abs (@elem0 ZRing m v [i])) L)).
Proof.
  intros D S Rd. revert t. induction L as [|i L IH]; intros t H; [cbn; f_equal; lia|]. cbn [foldM map fold_right].
  assert (W : vwf v) by (split; [now rewrite D, S|unfold nonneg; rewrite D; specialize (H i (or_introl eq_refl)); repeat constructor; lia]). specialize (H i (or_introl eq_refl)) as Hi.
  assert (I : in_range [i] (vdims v)) by (rewrite D; repeat constructor; lia). pose proof (load_elem0 (R := ZRing) m v [i] W Rd I) as E.
  replace (shift (arr v) (i * sd v 0)) with (cell v [i]) by (unfold cell, shift, arr, sd; rewrite S; cbn [fst snd dot nth]; f_equal; lia). assert (E2 : @loadA Z m (cell v [i]) = Ok (@elem0 ZRing m v [i])) by exact (loadA_some _ _ _ E). rewrite E2. cbn [bind]. rewrite IH by (intros j J; apply H; now right). f_equal. lia.
Qed.
Theorem C186_sum_partial (m : mem Z) v n s : vdims v = [n] -> vstr v = [s] -> 0 < s -> readable m v -> (forall i, 0 <= i < n -> 0 <= @elem0 ZRing m v [i]) ->
  cu_reduce1 v m = Ok (fold_right Z.add 0 (map (fun i => @elem0 ZRing m v [i]) (zrange n))).
Proof.
  intros D S P Rd H. unfold cu_reduce1. assert (E0 : nd v 0 = n) by (unfold nd; now rewrite D). assert (E1 : sd v 0 = s) by (unfold sd; now rewrite S). rewrite E0. replace (sd v 0 <=? 0) with false by lia. rewrite orb_false_r.
  destruct (n <=? 0) eqn:En; [rewrite zrange_nil by lia; reflexivity|]. rewrite (asum_fold m v n s _ _ D S Rd) by (intros i I; now apply in_zrange). rewrite Z.add_0_l. do 2 f_equal. apply map_ext_in. intros i I. apply in_zrange in I. specialize (H i I). lia.
Qed.
Print Assumptions C186_sum_partial.
Theorem C186_sum_refuted : exists (m : mem Z) v, vdims v = [2] /\ vstr v = [1] /\ readable m v /\ elem m v [0] = Some 3 /\ elem m v [1] = Some (-3) /\ cu_reduce1 v m = Ok 6.
Proof.
  exists (fun b a => if a =? 0 then Some 3 else Some (-3)), (View 0 0 [2] [1]). split; [reflexivity|]. split; [reflexivity|]. split; [|split; [reflexivity|split; [reflexivity|vm_compute; reflexivity]]].
  intros ix I. cbn [vdims] in I. rng. unfold elem, vaddr. cbn. now destruct (i =? 0); destruct (_ =? 0).
Qed.
Print Assumptions C186_sum_refuted.
(* inplace_times(c): c times the vector is added to it, so that it is multiplied by 1+c *)
Theorem C186_times_refuted {R : cring} c v (m : mem (car R)) n : vwf v -> vdims v = [n] -> vstr v = [1] -> readable m v ->
  exists plan, cu_times v = Ok plan /\ forall order, Permutation order plan -> exists m', cu_exec (f_axpy c) [order] m = Ok m' /\ gains v (fun ix => cmul c (elem0 m v ix)) m m'.
Proof. exact (times_device c v m n). Qed.
Print Assumptions C186_times_refuted.
(* ... and a vector with a stride over 1 is left as it was *)
Theorem C186_times_strided_refuted {R : cring} c v (m : mem (car R)) n s : vdims v = [n] -> vstr v = [s] -> 1 < s -> exists plan, cu_times v = Ok plan /\ cu_exec (f_axpy c) [plan] m = Ok m.
Proof.
  intros D S H. exists []. split; [|reflexivity]. unfold cu_times, is_contiguous, is_regular, npos. rewrite D, S. cbn [length Nat.eqb assrt regular_aux filter]. replace (0 <? s) with true by lia. cbn [length bind contig_loop find_take].
  replace (s =? 1) with false by lia. reflexivity.
Qed.
Print Assumptions C186_times_strided_refuted.
(* add with a negative stride: the library starts at the other end of the array, so that element i is read at i+1-n strides from element 0, outside the vector for n>1 *)
Theorem C186_negative_refuted r x n : vdims r = [n] -> vdims x = [n] -> vstr r = [1] -> sd x 0 < 0 ->
  cu_add1 r x = Ok (map (fun i => ((vblk r, voff r + i), [(vblk x, voff x + (i - (n - 1)) * sd x 0)])) (zrange n)).
Proof.
  intros Dr Dx Sr H. unfold cu_add1. assert (Er : sd r 0 = 1) by (unfold sd; now rewrite Sr). assert (Nr : nd r 0 = n) by (unfold nd; now rewrite Dr). assert (Nx : nd x 0 = n) by (unfold nd; now rewrite Dx).
  rewrite Nr, Nx, Z.eqb_refl. cbn [assrt]. replace (reg1 r && reg1 x) with false by (symmetry; apply andb_false_iff; right; unfold reg1; lia). rewrite Er. unfold axpy, axat, shift, arr. cbn [fst snd]. f_equal. apply map_ext. intro i.
  replace (0 <=? sd x 0) with false by lia. change (0 <=? 1) with true. cbv iota. f_equal; [f_equal; lia|f_equal; f_equal; lia].
Qed.
Print Assumptions C186_negative_refuted.

(* concrete cases *)
Definition cb_ramp : mem (car ZRing) := fun b a => if (0 <=? b) && (b <? 4) && (0 <=? a) && (a <? 40) then Some (10 * b + a) else None.
Lemma cb_read b d s : 0 <= b < 4 -> length s = length d -> (forall ix, in_range ix d -> 0 <= dot s ix < 40) -> readable cb_ramp (View b 0 d s).
Proof.
  intros Hb L H ix I. cbn [vdims] in I. rewrite elem_cell by assumption. unfold at_, cell, cb_ramp. cbn [vblk voff vstr fst snd]. specialize (H ix I).
  replace ((0 <=? b) && (b <? 4) && (0 <=? 0 + dot s ix) && (0 + dot s ix <? 40)) with true by lia. discriminate.
Qed.
Ltac cb_op := split; [split; [reflexivity|unfold nonneg; repeat constructor; lia]|split; [intros ix jx I J E; rewrite !vaddr_cell in E by (reflexivity || assumption); cbn [vdims] in *; rng; unfold cell in E; cbn [vblk voff vstr dot] in E;
    apply (f_equal (fun q => match q with Ok p => snd p | _ => 0 end)) in E; cbn [snd] in E; repeat (f_equal; try lia)|split; [apply cb_read; [lia|reflexivity|intros ix I; rng; cbn [dot]; lia]|
    repeat (apply Forall_cons || apply Forall_nil); (split; [split; [reflexivity|unfold nonneg; repeat constructor; lia]|split; [apply cb_read; [lia|reflexivity|intros ix I; rng; cbn [dot]; lia]|
      intros ix jx I J E; rewrite !vaddr_cell in E by (reflexivity || assumption); discriminate]])]]].
Example C185_case_operands : operands (View 0 0 [2; 3] [4; 1]) [View 1 0 [2; 2] [2; 1]; View 2 0 [2; 3] [5; 1]] cb_ramp.
Proof. cb_op. Qed.
Example C185_case : exists plan m', cu_matmul_AA (View 0 0 [2; 3] [4; 1]) (View 1 0 [2; 2] [2; 1]) (View 2 0 [2; 3] [5; 1]) = Ok plan /\ cu_exec (@f_gemm ZRing 1) [rev plan] cb_ramp = Ok m' /\ m' 0 5 = Some (5 + (12 * 21 + 13 * 26)).
Proof. eexists. eexists. split; [vm_compute; reflexivity|]. split; [cbn -[Z.add Z.mul]; reflexivity|]. vm_compute. reflexivity. Qed.
Example C185_case_batch : operands (View 0 0 [2; 2; 2] [4; 2; 1]) [View 1 0 [2; 3] [1; 2]; View 2 0 [2; 3; 2] [6; 2; 1]] cb_ramp /\ tra2 (View 1 0 [2; 3] [1; 2]) = true /\
  exists plan m', cu_mprod3 (View 0 0 [2; 2; 2] [4; 2; 1]) (View 1 0 [2; 3] [1; 2]) (View 2 0 [2; 3; 2] [6; 2; 1]) = Ok plan /\ cu_exec (@f_gemm ZRing 1) [rev plan] cb_ramp = Ok m' /\ m' 0 6 = Some (6 + (11 * 26 + 13 * 28 + 15 * 30)).
Proof. split; [cb_op|]. split; [reflexivity|]. eexists. eexists. split; [vm_compute; reflexivity|]. split; [cbn -[Z.add Z.mul]; reflexivity|]. vm_compute. reflexivity. Qed.
Example C186_case : operands (View 0 0 [3] [2]) [View 1 0 [3] [0]] cb_ramp /\ exists plan m', cu_add1 (View 0 0 [3] [2]) (View 1 0 [3] [0]) = Ok plan /\ cu_exec (@f_axpy ZRing 7) [rev plan] cb_ramp = Ok m' /\ m' 0 4 = Some 74 /\ m' 0 5 = Some 5.
Proof. split; [cb_op|]. eexists. eexists. split; [vm_compute; reflexivity|]. split; [cbn -[Z.add Z.mul]; reflexivity|]. vm_compute. split; reflexivity. Qed.
Example C186_case_broadcast : operands (View 0 0 [2; 3] [4; 1]) [View 1 0 [3] [1]] (upd cb_ramp 5 0 1) /\ (forall ix, in_range ix [2; 3] -> vaddr (View 0 0 [2; 3] [4; 1]) ix <> Ok (5, 0)) /\
  exists plan m', cu_broadcast0 (5, 0) (View 0 0 [2; 3] [4; 1]) (View 1 0 [3] [1]) = Ok plan /\ cu_exec (@f_gemm ZRing 7) [rev plan] (upd cb_ramp 5 0 1) = Ok m' /\ m' 0 5 = Some (5 + 7 * 11).
Proof.
  assert (Up : forall v, vblk v <> 5 -> vwf v -> readable cb_ramp v -> readable (upd cb_ramp 5 0 1) v).
  { intros v N W Rd ix I. specialize (Rd ix I). rewrite elem_cell in * by (apply W || assumption). unfold at_, cell, upd in *. cbn [fst snd] in *. now replace (vblk v =? 5) with false by lia. }
  assert (O : operands (View 0 0 [2; 3] [4; 1]) [View 1 0 [3] [1]] cb_ramp) by cb_op. split; [|split].
  - destruct O as (A & B & C & F). inversion F as [|? ? (X & Y & Z0) _]; subst. split; [exact A|]. split; [exact B|]. split; [apply Up; [discriminate|exact A|exact C]|]. apply Forall_cons; [|apply Forall_nil]. split; [exact X|]. split; [apply Up; [discriminate|exact X|exact Y]|exact Z0].
  - intros ix I E. rewrite vaddr_cell in E by (reflexivity || assumption). discriminate.
  - eexists. eexists. split; [vm_compute; reflexivity|]. split; [cbn -[Z.add Z.mul]; reflexivity|]. vm_compute. reflexivity.
Qed.
Example C186_case_times : exists plan m', cu_times (View 0 1 [3] [1]) = Ok plan /\ cu_exec (@f_axpy ZRing 2) [rev plan] cb_ramp = Ok m' /\ m' 0 1 = Some 3 /\ m' 0 2 = Some 6.
Proof. eexists. eexists. split; [vm_compute; reflexivity|]. split; [cbn -[Z.add Z.mul]; reflexivity|]. vm_compute. split; reflexivity. Qed.
Example C186_case_strided : cu_times (View 0 0 [3] [2]) = Ok [] /\ cu_add1 (View 0 0 [3] [1]) (View 1 9 [3] [-2]) = Ok [((0, 0), [(1, 13)]); ((0, 1), [(1, 11)]); ((0, 2), [(1, 9)])].
Proof. split; vm_compute; reflexivity. Qed.
