(* Prop_Tensor.v -- C13..C21: operations on tensor contents. Elements are in an arbitrary commutative
   ring R (floating-point rounding is not modelled); memory is a map from cells to elements. *)
From Verif Require Import Base BaseFacts Model_Index Model_View Model_Tensor Spec_Index Spec_View Spec_Tensor
  Proofs_Tensor Proofs_Tensor2 Proofs_Tensor3 Proofs_Tensor4 Checks.
Local Open Scope Z_scope.

(* ---- the cases used in the examples: cells 0..99 of blocks 0,1,2 hold 100*block+offset ---- *)
Definition ex_mem : mem Z := fun b a =>
  if (0 <=? b) && (b <? 3) && (0 <=? a) && (a <? 100) then Some (100 * b + a) else None.
Definition ex_r : view := View 0 3 [2; 3; 2] [20; 2; 7].     (* strided, not mergeable *)
Definition ex_x : view := View 1 1 [2; 3; 2] [6; 1; 3].      (* permuted *)
Definition ex_y : view := View 2 0 [2; 3; 2] [6; 2; 1].      (* row-major *)
Lemma ex_r_plain : plain_layout ex_r.
Proof. repeat split; try (repeat constructor; unfold INT_MAX; lia). Qed.
Lemma ex_r_wf : vwf ex_r. Proof. split; [reflexivity|repeat constructor; lia]. Qed.
Lemma ex_x_wf : vwf ex_x. Proof. split; [reflexivity|repeat constructor; lia]. Qed.
Lemma ex_y_wf : vwf ex_y. Proof. split; [reflexivity|repeat constructor; lia]. Qed.

(* C13 *)
Theorem C13_add : forall (R : cring) r x (m : mem (car R)), plain_layout r -> vwf x -> vdims x = vdims r ->
  distinct_cells r -> readable m r -> readable m x -> no_clobber r x ->
  exists m', tv_add r x m = Ok m' /\
    (forall ix v w, in_range ix (vdims r) -> elem m r ix = Some v -> elem m x ix = Some w ->
       elem m' r ix = Some (cadd v w)) /\ untouched m m' r.
Proof. exact @add_ok. Qed.
Print Assumptions C13_add.
Example C13_case : plain_layout ex_r /\ vwf ex_x /\ vdims ex_x = vdims ex_r /\ distinct_cells ex_r /\
  readable ex_mem ex_r /\ readable ex_mem ex_x /\ no_clobber ex_r ex_x.
Proof. split; [apply ex_r_plain|]. split; [apply ex_x_wf|]. split; [reflexivity|]. repeat split; by_check. Qed.
(* the excluded layout: a one-element tensor all of whose strides are 0 (what insert_dim(0,1) makes of a
   rank-0 tensor) is left unchanged *)
Theorem C13_zero_stride_refuted : exists r x (m : mem Z), vwf r /\ vwf x /\ vdims x = vdims r /\
  distinct_cells r /\ readable m r /\ readable m x /\ no_clobber r x /\
  insert_dim 0 1 (fresh_view 0 []) = Ok r /\
  tv_add (R := ZRing) r x m = Ok m /\ elem m r [0] = Some 0 /\ elem m x [0] = Some 1.
Proof.
  exists (View 0 0 [1] [0]), (View 1 0 [1] [0]), (fun b a => if a =? 0 then Some b else None).
  split; [split; [reflexivity|repeat constructor; lia]|]. split; [split; [reflexivity|repeat constructor; lia]|].
  repeat split; try by_check.
Qed.
Print Assumptions C13_zero_stride_refuted.

(* C14 *)
Theorem C14_assign : forall V r x (m : mem V), plain_layout r -> vwf x -> vdims x = vdims r ->
  distinct_cells r -> readable m r -> readable m x -> no_clobber r x ->
  exists m', tv_assign r x m = Ok m' /\
    (forall ix, in_range ix (vdims r) -> elem m' r ix = elem m x ix) /\ untouched m m' r.
Proof. exact @assign_ok. Qed.
Print Assumptions C14_assign.
Theorem C14_copy : forall V (z : V) b x (m : mem V), vwf x -> readable m x ->
  Forall (fun s => s < INT_MAX) (strides_of 1 (vdims x)) -> (forall a, m b a = None) ->
  exists r m', tv_copy z b x m = Ok (r, m') /\ vdims r = vdims x /\
    (forall ix, in_range ix (vdims x) -> elem m' r ix = elem m x ix) /\
    disjoint_views r x /\ distinct_cells r /\ (forall b' a, b' <> b -> m' b' a = m b' a).
Proof. exact @copy_ok. Qed.
Print Assumptions C14_copy.
Example C14_case : vwf ex_x /\ readable ex_mem ex_x /\
  Forall (fun s => s < INT_MAX) (strides_of 1 (vdims ex_x)) /\ (forall a, ex_mem 5 a = None).
Proof.
  split; [apply ex_x_wf|]. split; [by_check|]. split; [repeat constructor|]. reflexivity.
Qed.

(* C15 *)
Theorem C15_add_scaled : forall (R : cring) r x (c : R) (m : mem (car R)), vwf r -> vwf x -> vdims x = vdims r ->
  distinct_cells r -> readable m r -> readable m x -> no_clobber r x ->
  exists m', tv_addc r x c m = Ok m' /\
    (forall ix v w, in_range ix (vdims r) -> elem m r ix = Some v -> elem m x ix = Some w ->
       elem m' r ix = Some (cadd v (cmul c w))) /\ untouched m m' r.
Proof.
  intros R r x c m Wr Wx D Hd Rr Rx Nc. unfold tv_addc. rewrite asz_refl by assumption. cbn [assrt].
  destruct (reg_or_each_ok (f_addc c) r [x] m) as (m' & E & W); auto.
  exists m'. split; [exact E|]. split; [|apply W]. exact (ew1 _ r x m m' W).
Qed.
Print Assumptions C15_add_scaled.
Theorem C15_subtract : forall (R : cring) r x (m : mem (car R)), vwf r -> vwf x -> vdims x = vdims r ->
  distinct_cells r -> readable m r -> readable m x -> no_clobber r x ->
  exists m', tv_sub r x m = Ok m' /\
    (forall ix v w, in_range ix (vdims r) -> elem m r ix = Some v -> elem m x ix = Some w ->
       elem m' r ix = Some (csub v w)) /\ untouched m m' r.
Proof.
  intros R r x m Wr Wx D Hd Rr Rx Nc. unfold tv_sub. rewrite asz_refl by assumption. cbn [assrt].
  destruct (reg_or_each_ok f_sub r [x] m) as (m' & E & W); auto.
  exists m'. split; [exact E|]. split; [|apply W]. exact (ew1 _ r x m m' W).
Qed.
Print Assumptions C15_subtract.
Theorem C15_subtract_scaled : forall (R : cring) r x (c : R) (m : mem (car R)), vwf r -> vwf x -> vdims x = vdims r ->
  distinct_cells r -> readable m r -> readable m x -> no_clobber r x ->
  exists m', tv_subc r x c m = Ok m' /\
    (forall ix v w, in_range ix (vdims r) -> elem m r ix = Some v -> elem m x ix = Some w ->
       elem m' r ix = Some (csub v (cmul c w))) /\ untouched m m' r.
Proof.
  intros R r x c m Wr Wx D Hd Rr Rx Nc. unfold tv_subc. rewrite asz_refl by assumption. cbn [assrt].
  destruct (reg_or_each_ok (f_subc c) r [x] m) as (m' & E & W); auto.
  exists m'. split; [exact E|]. split; [|apply W]. exact (ew1 _ r x m m' W).
Qed.
Print Assumptions C15_subtract_scaled.
Theorem C15_add_prod : forall (R : cring) r x y (m : mem (car R)), vwf r -> vwf x -> vwf y ->
  vdims x = vdims r -> vdims y = vdims r -> distinct_cells r -> readable m r -> readable m x -> readable m y ->
  no_clobber r x -> no_clobber r y ->
  exists m', tv_add_prod r x y m = Ok m' /\
    (forall ix v w u, in_range ix (vdims r) -> elem m r ix = Some v -> elem m x ix = Some w -> elem m y ix = Some u ->
       elem m' r ix = Some (cadd v (cmul w u))) /\ untouched m m' r.
Proof.
  intros R r x y m Wr Wx Wy Dx Dy Hd Rr Rx Ry Nx Ny.
  destruct (reg_or_each_ok f_prod r [x; y] m) as (m' & E & W); auto 6.
  exists m'. split; [exact E|]. split; [|apply W]. exact (ew2 _ r x y m m' W).
Qed.
Print Assumptions C15_add_prod.
Example C15_case : vwf ex_r /\ vwf ex_x /\ vwf ex_y /\ vdims ex_x = vdims ex_r /\ vdims ex_y = vdims ex_r /\
  distinct_cells ex_r /\ readable ex_mem ex_r /\ readable ex_mem ex_x /\ readable ex_mem ex_y /\
  no_clobber ex_r ex_x /\ no_clobber ex_r ex_y.
Proof.
  split; [apply ex_r_wf|]. split; [apply ex_x_wf|]. split; [apply ex_y_wf|]. do 2 (split; [reflexivity|]).
  repeat split; by_check.
Qed.

(* C16 *)
Theorem C16_add_sum : forall (R : cring) r d x n (m : mem (car R)), plain_layout r -> vwf x ->
  nth_error (vdims x) d = Some n -> vdims r = del d (vdims x) -> distinct_cells r -> readable m r -> readable m x ->
  disjoint_views r x ->
  exists m', tv_add_sum r (Z.of_nat d) x m = Ok m' /\
    (forall ix v, in_range ix (vdims r) -> elem m r ix = Some v ->
       elem m' r ix = Some (cadd v (rsum (map (fun i => elem0 m x (ins d i ix)) (zrange n))))) /\
    untouched m m' r.
Proof. exact @add_sum_ok. Qed.
Print Assumptions C16_add_sum.
Example C16_case : let r := View 0 3 [2; 2] [1; 20] in plain_layout r /\ vwf ex_x /\
  nth_error (vdims ex_x) 1 = Some 3 /\ vdims r = del 1 (vdims ex_x) /\ distinct_cells r /\
  readable ex_mem r /\ readable ex_mem ex_x /\ disjoint_views r ex_x.
Proof.
  cbv zeta. split. { repeat split; try (repeat constructor; unfold INT_MAX; lia). }
  split; [apply ex_x_wf|]. split; [reflexivity|]. split; [reflexivity|]. repeat split; by_check.
Qed.

(* C17 *)
Theorem C17_matrix_product : forall (R : cring) r x y a n b (m : mem (car R)), vwf r -> vwf x -> vwf y ->
  vdims r = [a; b] -> vdims x = [a; n] -> vdims y = [n; b] -> distinct_cells r ->
  readable m r -> readable m x -> readable m y -> disjoint_views r x -> disjoint_views r y ->
  exists m', tv_add_mprod r x y m = Ok m' /\
    (forall i j v, 0 <= i < a -> 0 <= j < b -> elem m r [i; j] = Some v ->
       elem m' r [i; j] = Some (cadd v (rsum (map (fun k => cmul (elem0 m x [i; k]) (elem0 m y [k; j])) (zrange n))))) /\
    untouched m m' r.
Proof. exact @mprod_ok. Qed.
Print Assumptions C17_matrix_product.
Theorem C17_matrix_product_AT : forall (R : cring) r x y a n b (m : mem (car R)), vwf r -> vwf x -> vwf y ->
  vdims r = [a; b] -> vdims x = [a; n] -> vdims y = [b; n] -> distinct_cells r ->
  readable m r -> readable m x -> readable m y -> disjoint_views r x -> disjoint_views r y ->
  exists m', tv_add_mprod_AT r x y m = Ok m' /\
    (forall i j v, 0 <= i < a -> 0 <= j < b -> elem m r [i; j] = Some v ->
       elem m' r [i; j] = Some (cadd v (rsum (map (fun k => cmul (elem0 m x [i; k]) (elem0 m y [j; k])) (zrange n))))) /\
    untouched m m' r.
Proof. exact @mprod_AT_ok. Qed.
Print Assumptions C17_matrix_product_AT.
Theorem C17_matrix_vector : forall (R : cring) r x y a n (m : mem (car R)), vwf r -> vwf x -> vwf y ->
  vdims r = [a] -> vdims x = [a; n] -> vdims y = [n] -> distinct_cells r ->
  readable m r -> readable m x -> readable m y -> disjoint_views r x -> disjoint_views r y ->
  exists m', tv_add_mvprod r x y m = Ok m' /\
    (forall i v, 0 <= i < a -> elem m r [i] = Some v ->
       elem m' r [i] = Some (cadd v (rsum (map (fun k => cmul (elem0 m x [i; k]) (elem0 m y [k])) (zrange n))))) /\
    untouched m m' r.
Proof. exact @mvprod_ok. Qed.
Print Assumptions C17_matrix_vector.
(* the transposed product, on square matrices only *)
Theorem C17_matrix_vector_T_partial : forall (R : cring) r x y n (m : mem (car R)), vwf r -> vwf x -> vwf y ->
  vdims r = [n] -> vdims x = [n; n] -> vdims y = [n] -> distinct_cells r ->
  readable m r -> readable m x -> readable m y -> disjoint_views r x -> disjoint_views r y ->
  exists m', tv_add_mvprod_T r x y m = Ok m' /\
    (forall i v, 0 <= i < n -> elem m r [i] = Some v ->
       elem m' r [i] = Some (cadd v (rsum (map (fun k => cmul (elem0 m x [k; i]) (elem0 m y [k])) (zrange n))))) /\
    untouched m m' r.
Proof. exact @mvprod_T_ok. Qed.
Print Assumptions C17_matrix_vector_T_partial.
Theorem C17_adjoint_partial : forall (R : cring) r s x y w n (m : mem (car R)), vwf r -> vwf s -> vwf x -> vwf y -> vwf w ->
  vdims r = [n] -> vdims s = [n] -> vdims x = [n; n] -> vdims y = [n] -> vdims w = [n] ->
  distinct_cells r -> distinct_cells s -> readable m r -> readable m s -> readable m x -> readable m y -> readable m w ->
  disjoint_views r x -> disjoint_views r y -> disjoint_views s x -> disjoint_views s w ->
  (forall i, 0 <= i < n -> elem m r [i] = Some c0) -> (forall i, 0 <= i < n -> elem m s [i] = Some c0) ->
  exists m1 m2, tv_add_mvprod r x y m = Ok m1 /\ tv_add_mvprod_T s x w m = Ok m2 /\
    rsum (map (fun i => cmul (elem0 m1 r [i]) (elem0 m w [i])) (zrange n)) =
    rsum (map (fun k => cmul (elem0 m y [k]) (elem0 m2 s [k])) (zrange n)).
Proof. exact @adjoint_ok. Qed.
Print Assumptions C17_adjoint_partial.
(* a 1 x 2 matrix: the loop runs past its only row, and past the argument *)
Theorem C17_matrix_vector_T_wide_refuted : exists r x y (m : mem Z),
  vwf r /\ vwf x /\ vwf y /\ vdims r = [2] /\ vdims x = [1; 2] /\ vdims y = [1] /\ distinct_cells r /\
  readable m r /\ readable m x /\ readable m y /\ disjoint_views r x /\ disjoint_views r y /\
  tv_add_mvprod_T (R := ZRing) r x y m = UB.
Proof.
  exists (fresh_view 0 [2]), (fresh_view 1 [1; 2]), (fresh_view 2 [1]),
    (alloc 0 0 2 (alloc 1 1 2 (alloc 1 2 1 (fun _ _ => None)))).
  do 3 (split; [split; [reflexivity|repeat constructor; lia]|]). do 3 (split; [reflexivity|]).
  repeat split; try by_check.
Qed.
Print Assumptions C17_matrix_vector_T_wide_refuted.
(* a 2 x 1 matrix of ones applied to (1,1): the answer should be 2, the code gives 1 *)
Theorem C17_matrix_vector_T_tall_refuted : exists r x y (m m' : mem Z),
  vwf r /\ vwf x /\ vwf y /\ vdims r = [1] /\ vdims x = [2; 1] /\ vdims y = [2] /\ distinct_cells r /\
  readable m r /\ readable m x /\ readable m y /\ disjoint_views r x /\ disjoint_views r y /\
  tv_add_mvprod_T (R := ZRing) r x y m = Ok m' /\ elem m r [0] = Some 0 /\ elem m' r [0] = Some 1 /\
  rsum (R := ZRing) (map (fun k => elem0 (R := ZRing) m x [k; 0] * elem0 (R := ZRing) m y [k]) (zrange 2)) = 2.
Proof.
  exists (fresh_view 0 [1]), (fresh_view 1 [2; 1]), (fresh_view 2 [2]),
    (alloc 0 0 1 (alloc 1 1 2 (alloc 1 2 2 (fun _ _ => None)))).
  eexists. do 3 (split; [split; [reflexivity|repeat constructor; lia]|]). do 3 (split; [reflexivity|]).
  repeat split; try by_check.
Qed.
Print Assumptions C17_matrix_vector_T_tall_refuted.
Example C17_case : let r := View 0 3 [2; 2] [1; 20] in let x := View 1 3 [2; 3] [1; 5] in let y := View 2 0 [3; 2] [2; 1] in
  vwf r /\ vwf x /\ vwf y /\ distinct_cells r /\
  readable ex_mem r /\ readable ex_mem x /\ readable ex_mem y /\ disjoint_views r x /\ disjoint_views r y.
Proof.
  cbv zeta. do 3 (split; [split; [reflexivity|repeat constructor; lia]|]). repeat split; by_check.
Qed.
Example C17_adjoint_case : let m := alloc 0 3 3 (alloc 0 4 3 ex_mem) in
  let r := fresh_view 3 [3] in let s := fresh_view 4 [3] in let x := View 0 5 [3; 3] [1; 10] in
  let y := View 1 7 [3] [2] in let w := View 2 1 [3] [4] in
  vwf r /\ vwf s /\ vwf x /\ vwf y /\ vwf w /\ distinct_cells r /\ distinct_cells s /\
  readable m r /\ readable m s /\ readable m x /\ readable m y /\ readable m w /\
  disjoint_views r x /\ disjoint_views r y /\ disjoint_views s x /\ disjoint_views s w.
Proof.
  cbv zeta. do 5 (split; [split; [reflexivity|repeat constructor; lia]|]). repeat split; by_check.
Qed.

(* C18 *)
Theorem C18_set_zero_partial : forall (R : cring) r (m : mem (car R)), vwf r -> nonneg (vstr r) -> distinct_cells r ->
  readable m r -> is_contiguous (vstr r) (vdims r) = Ok true ->
  exists m', tv_set_zero r m = Ok m' /\ (forall ix, in_range ix (vdims r) -> elem m' r ix = Some c0) /\ untouched m m' r.
Proof. exact @set_zero_ok. Qed.
Print Assumptions C18_set_zero_partial.
Theorem C18_times : forall (R : cring) r (c : R) (m : mem (car R)), vwf r -> nonneg (vstr r) -> distinct_cells r -> readable m r ->
  exists m', tv_times r c m = Ok m' /\
    (forall ix v, in_range ix (vdims r) -> elem m r ix = Some v -> elem m' r ix = Some (cmul v c)) /\ untouched m m' r.
Proof. exact @times_ok. Qed.
Print Assumptions C18_times.
Theorem C18_add_scalar : forall (R : cring) eq0 r (x : R) (m : mem (car R)), vwf r ->
  Forall (fun s => s < INT_MAX) (vstr r) -> vdims r <> [] -> distinct_cells r -> readable m r ->
  (eq0 x = true -> x = c0) ->
  exists m', tv_add_scalar eq0 r x m = Ok m' /\
    (forall ix v, in_range ix (vdims r) -> elem m r ix = Some v -> elem m' r ix = Some (cadd v x)) /\ untouched m m' r.
Proof.
  intros R eq0 r x m Wr Hs Hn Hd Rr H0. destruct (add_scalar_ok eq0 r x m Wr Hs Hn Hd Rr H0) as (m' & E & W).
  exists m'. split; [exact E|]. split; [|apply W]. exact (ew0 _ r m m' W).
Qed.
Print Assumptions C18_add_scalar.
Theorem C18_sum : forall (R : cring) r (m : mem (car R)), vwf r -> nonneg (vstr r) -> distinct_cells r -> readable m r ->
  tv_sum r m = Ok (rsum (map (elem0 m r) (all_indices (vdims r)))).
Proof. exact @sum_ok. Qed.
Print Assumptions C18_sum.
Theorem C18_norm2 : forall (R : cring) r (m : mem (car R)), vwf r -> nonneg (vstr r) -> distinct_cells r -> readable m r ->
  tv_norm2 r m = Ok (rsum (map (fun ix => cmul (elem0 m r ix) (elem0 m r ix)) (all_indices (vdims r)))).
Proof. exact @norm2_ok. Qed.
Print Assumptions C18_norm2.
(* the inner product needs no separate cells, so it also covers broadcast views *)
Theorem C18_inp : forall (R : cring) x y (m : mem (car R)), vwf x -> vwf y -> vdims y = vdims x -> readable m x -> readable m y ->
  tv_inp x y m = Ok (rsum (map (fun ix => cmul (elem0 m x ix) (elem0 m y ix)) (all_indices (vdims x)))).
Proof. exact @inp_ok. Qed.
Print Assumptions C18_inp.
Theorem C18_max : forall r (m : mem Z), vwf r -> nonneg (vstr r) -> distinct_cells r -> readable m r -> positive (vdims r) ->
  exists v, tv_max (R := ZRing) Z.gtb r m = Ok v /\
    (forall ix, in_range ix (vdims r) -> exists w, elem m r ix = Some w /\ w <= v) /\
    (exists ix, in_range ix (vdims r) /\ elem m r ix = Some v).
Proof. exact max_ok. Qed.
Print Assumptions C18_max.
(* set_zero leaves a transposed-window (non-contiguous) view as it was *)
Theorem C18_set_zero_strided_refuted : exists r (m : mem Z), vwf r /\ nonneg (vstr r) /\ distinct_cells r /\ readable m r /\
  cols 0 1 (fresh_view 0 [2; 2]) = Ok r /\
  tv_set_zero (R := ZRing) r m = Ok m /\ elem m r [1; 0] = Some 7.
Proof.
  exists (View 0 0 [2; 1] [2; 1]), (alloc 7 0 4 (fun _ _ => None)).
  split; [split; [reflexivity|repeat constructor; lia]|]. split; [repeat constructor; lia|]. repeat split; by_check.
Qed.
Print Assumptions C18_set_zero_strided_refuted.
(* on a broadcast view every whole-tensor operation that tests is_contiguous runs out of bounds *)
Theorem C18_broadcast_refuted : exists r (m : mem Z), vwf r /\ nonneg (vstr r) /\ readable m r /\
  insert_dim 0 3 (fresh_view 0 []) = Ok r /\
  tv_set_zero (R := ZRing) r m = UB /\ tv_times (R := ZRing) r 2 m = UB /\ tv_sum (R := ZRing) r m = UB /\
  tv_max (R := ZRing) Z.gtb r m = UB.
Proof.
  exists (View 0 0 [3] [0]), (alloc 7 0 1 (fun _ _ => None)).
  split; [split; [reflexivity|repeat constructor; lia]|]. split; [repeat constructor; lia|]. repeat split; by_check.
Qed.
Print Assumptions C18_broadcast_refuted.
Theorem C18_add_scalar_rank0_refuted : exists r (m : mem Z), r = fresh_view 0 [] /\ readable m r /\
  tv_add_scalar (R := ZRing) (Z.eqb 0) r 5 m = Ok m /\ elem m r [] = Some 7.
Proof. exists (fresh_view 0 []), (alloc 7 0 1 (fun _ _ => None)). repeat split; by_check. Qed.
Print Assumptions C18_add_scalar_rank0_refuted.
Example C18_case : vwf ex_r /\ nonneg (vstr ex_r) /\ distinct_cells ex_r /\ readable ex_mem ex_r /\ positive (vdims ex_r) /\
  is_contiguous (vstr ex_x) (vdims ex_x) = Ok true /\ is_contiguous (vstr ex_r) (vdims ex_r) = Ok false.
Proof.
  split; [apply ex_r_wf|]. split; [repeat constructor; lia|]. split; [by_check|]. split; [by_check|].
  split; [repeat constructor; lia|]. split; reflexivity.
Qed.

(* C19 *)
Theorem C19_equality_row_major_partial : forall V (eqv : V -> V -> bool) x y (m : mem V),
  (forall a b, eqv a b = true <-> a = b) -> vwf x -> vwf y -> readable m x -> readable m y ->
  vstr x = strides_of 1 (vdims x) -> vstr y = strides_of 1 (vdims y) ->
  exists b, tv_eq eqv x y m = Ok b /\
    (b = true <-> vdims x = vdims y /\ forall ix, in_range ix (vdims x) -> elem m x ix = elem m y ix).
Proof. exact @eq_ok. Qed.
Print Assumptions C19_equality_row_major_partial.
(* any two tensors of one shape are "equal" as soon as one is not row-major *)
Theorem C19_layout_refuted : exists x y (m : mem Z), vwf x /\ vwf y /\ vdims x = vdims y /\ readable m x /\ readable m y /\
  transp (fresh_view 0 [2; 2]) = Ok x /\
  tv_eq Z.eqb x y m = Ok true /\ elem m x [0; 1] <> elem m y [0; 1].
Proof.
  exists (View 0 0 [2; 2] [1; 2]), (fresh_view 1 [2; 2]), ex_mem.
  do 2 (split; [split; [reflexivity|repeat constructor; lia]|]). repeat split; try by_check. vm_compute. discriminate.
Qed.
Print Assumptions C19_layout_refuted.
Example C19_case : readable ex_mem (fresh_view 0 [2; 3]) /\ readable ex_mem (View 1 6 [2; 3] [3; 1]) /\
  vstr (View 1 6 [2; 3] [3; 1]) = strides_of 1 [2; 3] /\
  tv_eq Z.eqb (fresh_view 0 [2; 3]) (View 1 6 [2; 3] [3; 1]) ex_mem = Ok false /\
  tv_eq Z.eqb (fresh_view 0 [2; 3]) (fresh_view 0 [2; 3]) ex_mem = Ok true.
Proof. repeat split; by_check. Qed.

(* C20 *)
Theorem C20_stack : forall (R : cring) b d (l : list view) x0 (m : mem (car R)),
  hd_error l = Some x0 -> Forall vwf l -> Forall (readable m) l ->
  Forall (fun x => (d < length (vdims x))%nat /\ del d (vdims x) = del d (vdims x0)) l ->
  Forall (fun s => s < INT_MAX) (strides_of 1 (set_nth d (total_side d l) (vdims x0))) ->
  (forall a, m b a = None) ->
  exists r m', tv_stack b (Z.of_nat d) l m = Ok (r, m') /\ vdims r = set_nth d (total_side d l) (vdims x0) /\
    distinct_cells r /\ (forall b' a, b' <> b -> m' b' a = m b' a) /\
    forall pre x post ix, l = pre ++ x :: post -> in_range ix (vdims x) ->
      in_range (set_nth d (total_side d pre + nth d ix 0) ix) (vdims r) /\
      elem m' r (set_nth d (total_side d pre + nth d ix 0) ix) = elem m x ix.
Proof. exact @stack_ok. Qed.
Print Assumptions C20_stack.
Example C20_case : let l := [View 0 3 [2; 2] [1; 20]; View 1 0 [2; 3] [3; 1]; View 2 9 [2; 1] [8; 1]] in
  Forall vwf l /\ Forall (readable ex_mem) l /\
  Forall (fun x => (1 < length (vdims x))%nat /\ del 1 (vdims x) = del 1 [2; 2]) l /\
  Forall (fun s => s < INT_MAX) (strides_of 1 (set_nth 1 (total_side 1 l) [2; 2])) /\ (forall a, ex_mem 3 a = None).
Proof.
  cbv zeta. split; [repeat constructor; cbn; lia|]. split; [repeat (apply Forall_cons; [by_check|]); constructor|].
  split; [repeat constructor|]. split; [repeat constructor|reflexivity].
Qed.

(* C21 *)
(* A.add(A.transp()) on a 2x2 matrix (0 1; 2 3): the off-diagonal elements should both become 3, but the
   second one is computed from the already updated first one *)
Theorem C21_self_transpose_refuted : exists r x (m m' : mem Z), r = fresh_view 0 [2; 2] /\ transp r = Ok x /\
  readable m r /\ tv_add (R := ZRing) r x m = Ok m' /\
  elem m r [0; 1] = Some 1 /\ elem m r [1; 0] = Some 2 /\ elem m' r [0; 1] = Some 3 /\ elem m' r [1; 0] = Some 5.
Proof.
  exists (fresh_view 0 [2; 2]), (View 0 0 [2; 2] [1; 2]), ex_mem. eexists. repeat split; by_check.
Qed.
Print Assumptions C21_self_transpose_refuted.
(* adding a tensor to itself, index by index, doubles it *)
Theorem C21_self_same_index_partial : forall (R : cring) r (m : mem (car R)), plain_layout r -> distinct_cells r -> readable m r ->
  exists m', tv_add r r m = Ok m' /\
    (forall ix v, in_range ix (vdims r) -> elem m r ix = Some v -> elem m' r ix = Some (cadd v v)) /\ untouched m m' r.
Proof.
  intros R r m P Hd Rr. destruct (add_ok r r m) as (m' & E & A & B); try assumption; auto.
  - split; apply P.
  - exists m'. split; [exact E|]. split; [|exact B]. intros ix v Hix Hv. now apply A.
Qed.
Print Assumptions C21_self_same_index_partial.
