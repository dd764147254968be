(* Prop_CuReduce.v -- C180: summing a device view along its middle axis, in place. *)
From Verif Require Import Base BaseFacts Model_Index Model_View Model_Tensor Model_Cuda Model_CuReduce Spec_Index Spec_View Spec_Tensor Spec_Cuda
  Proofs_Index Proofs_Tensor Proofs_Cuda Proofs_CuReduce.
Local Open Scope Z_scope.

(* For every number of rows from two on, and every order of the threads of each launch: row 0 becomes the sum of the rows, and nothing outside
   the view changes *)
Theorem C180_reduce {R : cring} b o n0 n1 n2 s0 (m : mem (car R)) (x := View b o [n0; n1; n2] [s0; n2; 1]) :
  1 <= n0 <= 2147483647 -> 2 <= n1 -> 1 <= n2 -> reduce_fits n1 n2 -> distinct_cells x -> readable m x ->
  exists plan, reduce1_plan x = Ok plan /\ forall orders, any_order plan orders -> exists m', cu_exec f_add1 orders m = Ok m' /\
    untouched m m' x /\
    forall i t, 0 <= i < n0 -> 0 <= t < n2 -> elem0 m' x [i; 0; t] = rsum (map (fun j => elem0 m x [i; j; t]) (zrange n1)).
Proof. exact (reduce_ok b o n0 n1 n2 s0 m). Qed.
Print Assumptions C180_reduce.

(* Refuted for one row: it is doubled *)
Theorem C180_single_refuted {R : cring} b o n0 n2 s0 (m : mem (car R)) (x := View b o [n0; 1; n2] [s0; n2; 1]) :
  1 <= n0 <= 2147483647 -> 1 <= n2 <= 1024 -> distinct_cells x -> readable m x ->
  exists plan, reduce1_plan x = Ok plan /\ forall orders, any_order plan orders -> exists m', cu_exec f_add1 orders m = Ok m' /\
    forall i t, 0 <= i < n0 -> 0 <= t < n2 -> elem0 m' x [i; 0; t] = cadd (elem0 m x [i; 0; t]) (elem0 m x [i; 0; t]).
Proof. exact (reduce_single b o n0 n2 s0 m). Qed.
Print Assumptions C180_single_refuted.

(* Refuted for two rows longer than 1024 and not of a multiple of 1024: the ends of the rows are not summed *)
Theorem C180_long_refuted {R : cring} b o n0 n2 s0 (m : mem (car R)) (x := View b o [n0; 2; n2] [s0; n2; 1]) :
  1 <= n0 <= 2147483647 -> 1024 < n2 -> n2 mod 1024 <> 0 -> distinct_cells x -> readable m x ->
  exists plan, reduce1_plan x = Ok plan /\ forall orders, any_order plan orders -> exists m', cu_exec f_add1 orders m = Ok m' /\
    forall i t, 0 <= i < n0 -> 1024 * (n2 / 1024) <= t < n2 -> elem m' x [i; 0; t] = elem m x [i; 0; t].
Proof. exact (reduce_long b o n0 n2 s0 m). Qed.
Print Assumptions C180_long_refuted.

(* Refuted for other layouts: the stride of the middle axis is not used at all *)
Theorem C180_stride_refuted b o n0 n1 n2 s0 s1 s1' s2 : reduce1_plan (View b o [n0; n1; n2] [s0; s1; s2]) = reduce1_plan (View b o [n0; n1; n2] [s0; s1'; s2]).
Proof. reflexivity. Qed.
Print Assumptions C180_stride_refuted.

(* concrete cases *)
Definition rd_x := View 0 2 [2; 5; 3] [20; 3; 1].
Definition rd_m : mem Z := fun b a => if (b =? 0) && (0 <=? a) && (a <? 40) then Some a else None.
Lemma rd_addr i j t : vaddr rd_x [i; j; t] = Ok (0, 2 + (20 * i + (3 * j + (1 * t + 0)))). Proof. reflexivity. Qed.
Example C180_case_hyps : reduce_fits 5 3 /\ reduce_fits 7 2048 /\ reduce_fits 2 1024 /\ distinct_cells rd_x /\ readable rd_m rd_x.
Proof.
  split; [left; lia|]. split; [right; split; [reflexivity|lia]|]. split; [left; lia|]. split.
  - intros ix jx I J E. cbn [vdims rd_x] in *. rng. rewrite !rd_addr in E. assert (X : 2 + (20 * i2 + (3 * i3 + (1 * i4 + 0))) = 2 + (20 * i + (3 * i0 + (1 * i1 + 0)))) by congruence. assert (i2 = i) by lia. assert (i3 = i0) by lia. assert (i4 = i1) by lia. congruence.
  - intros ix I. cbn [vdims rd_x] in *. rng. unfold elem. rewrite rd_addr. unfold rd_m. rewrite Z.eqb_refl. cbn [andb]. set (a := 2 + _). replace (0 <=? a) with true by (unfold a; lia). replace (a <? 40) with true by (unfold a; lia). discriminate.
Qed.
Example C180_case_run : exists plan, reduce1_plan rd_x = Ok plan /\ length plan = 3%nat /\ any_order plan (map (@rev _) plan) /\
  (do m <- cu_exec (@f_add1 ZRing) (map (@rev _) plan) rd_m; loads m (map (fun a => (0, a)) [1; 2; 3; 4; 22; 23; 24; 37])) = Ok [1; 40; 45; 50; 140; 145; 150; 37].
Proof.
  eexists. split; [vm_compute; reflexivity|]. split; [reflexivity|]. split; [repeat constructor; apply Permutation_sym, Permutation_rev|]. vm_compute. reflexivity.
Qed.
Example C180_case_single : exists plan, reduce1_plan (View 0 0 [1; 1; 2] [2; 2; 1]) = Ok plan /\
  (do m <- cu_exec (@f_add1 ZRing) plan rd_m; loads m [(0, 0); (0, 1); (0, 2)]) = Ok [0; 2; 2].
Proof. eexists. split; [vm_compute; reflexivity|]. vm_compute. reflexivity. Qed.
(* a view whose middle stride is 10: row 0 is not the sum of the rows *)
Example C180_case_layout : exists plan, reduce1_plan (View 0 1 [1; 2; 3] [20; 10; 1]) = Ok plan /\
  (do m <- cu_exec (@f_add1 ZRing) plan rd_m; loads m [(0, 1); (0, 2); (0, 3)]) = Ok [1 + 4; 2 + 5; 3 + 6].
Proof. eexists. split; [vm_compute; reflexivity|]. vm_compute. reflexivity. Qed.
