(* Prop_View.v -- C07..C12: views of tensors. *)
From Verif Require Import Base Model_Index Spec_Index Model_View Spec_View Proofs_View Proofs_View2.
Local Open Scope Z_scope.

(* C07 *)
Theorem C07_transpose : forall v, vwf v -> (2 <= length (vdims v))%nat ->
  exists v', transp v = Ok v' /\ transp v' = Ok v /\ vblk v' = vblk v /\
    (forall p m n, vdims v = p ++ [m; n] -> vdims v' = p ++ [n; m]) /\
    (forall p i j, length (p ++ [i; j]) = length (vdims v) -> vaddr v' (p ++ [i; j]) = vaddr v (p ++ [j; i])).
Proof. exact C07_transp_l. Qed.
Print Assumptions C07_transpose.

Theorem C07_transpose_ab : forall v a b, vwf v -> 0 <= a < ndims v -> 0 <= b < ndims v ->
  exists v', transp_ab a b v = Ok v' /\ transp_ab a b v' = Ok v /\ vblk v' = vblk v /\
    exchanged (Z.to_nat a) (Z.to_nat b) (vdims v) (vdims v') /\
    forall ix jx, in_range ix (vdims v') -> exchanged (Z.to_nat a) (Z.to_nat b) ix jx ->
      in_range jx (vdims v) /\ vaddr v' ix = vaddr v jx.
Proof. exact C07_transp_ab_l. Qed.
Print Assumptions C07_transpose_ab.

Theorem C07_permute : forall v p, vwf v -> is_perm p -> length p = length (vdims v) ->
  exists v', permute_indices p v = Ok v' /\ vblk v' = vblk v /\ permuted p (vdims v) (vdims v') /\
    (forall ix jx, in_range ix (vdims v) -> permuted p ix jx -> in_range jx (vdims v') /\ vaddr v' jx = vaddr v ix) /\
    (forall jx, in_range jx (vdims v') -> exists ix, in_range ix (vdims v) /\ permuted p ix jx) /\
    (forall q, is_perm q -> inverse_perm p q -> permute_indices q v' = Ok v).
Proof. exact C07_permute_l. Qed.
Print Assumptions C07_permute.

(* a strided, offset, non-contiguous rank-3 view *)
Definition ex_view : view := View 7 5 [2; 3; 4] [50; 1; 6].
Example ex_view_wf : vwf ex_view /\ (2 <= length (vdims ex_view))%nat.
Proof. split; [split; [reflexivity|repeat constructor; lia]|cbn; lia]. Qed.
Example ex_perm : is_perm [2; 0; 1] /\ permute_indices [2; 0; 1] ex_view = Ok (View 7 5 [4; 2; 3] [6; 50; 1]).
Proof.
  split; [|reflexivity]. unfold is_perm. change (zrange (Z.of_nat (length [2; 0; 1]))) with [0; 1; 2].
  apply NoDup_Permutation; try (repeat constructor; cbn; intuition lia). cbn; intuition lia.
Qed.
Example ex_transp : transp ex_view = Ok (View 7 5 [2; 4; 3] [50; 6; 1]) /\
  transp_ab 0 2 ex_view = Ok (View 7 5 [4; 3; 2] [6; 1; 50]).
Proof. split; reflexivity. Qed.

(* C08 *)
Theorem C08_slice : forall v d i n, vwf v -> nth_error (vdims v) d = Some n -> 0 <= i < n ->
  exists v', slice (Z.of_nat d) i v = Ok v' /\ vblk v' = vblk v /\ vdims v' = del d (vdims v) /\ vwf v' /\
    forall ix, in_range ix (vdims v') -> in_range (ins d i ix) (vdims v) /\ vaddr v' ix = vaddr v (ins d i ix).
Proof. exact C08_slice_l. Qed.
Print Assumptions C08_slice.

Theorem C08_slices : forall v d i n m, vwf v -> nth_error (vdims v) d = Some m -> 0 <= i -> 0 <= n -> i + n <= m ->
  exists v', slices (Z.of_nat d) i n v = Ok v' /\ vblk v' = vblk v /\
    length (vdims v') = length (vdims v) /\ (forall k, nth k (vdims v') 0 = if (k =? d)%nat then n else nth k (vdims v) 0) /\ vwf v' /\
    forall ix, in_range ix (vdims v') -> exists jx, in_range jx (vdims v) /\ vaddr v' ix = vaddr v jx /\
      forall k, nth k jx 0 = if (k =? d)%nat then i + nth k ix 0 else nth k ix 0.
Proof. exact C08_slices_l. Qed.
Print Assumptions C08_slices.

Theorem C08_slice_prefix : forall v p dp dq, vwf v -> vdims v = dp ++ dq -> in_range p dp ->
  exists v', slice_prefix p v = Ok v' /\ vblk v' = vblk v /\ vdims v' = dq /\ vwf v' /\
    forall ix, in_range ix dq -> in_range (p ++ ix) (vdims v) /\ vaddr v' ix = vaddr v (p ++ ix).
Proof. exact C08_slice_prefix_l. Qed.
Print Assumptions C08_slice_prefix.

Theorem C08_rows_and_columns : forall v d0 d1 s0 s1, vwf v -> vdims v = [d0; d1] -> vstr v = [s0; s1] ->
  (forall i, 0 <= i < d0 -> exists v', row i v = Ok v' /\ vblk v' = vblk v /\ vdims v' = [d1] /\
     forall j, 0 <= j < d1 -> vaddr v' [j] = vaddr v [i; j]) /\
  (forall j, 0 <= j < d1 -> exists v', col j v = Ok v' /\ vblk v' = vblk v /\ vdims v' = [d0] /\
     forall i, 0 <= i < d0 -> vaddr v' [i] = vaddr v [i; j]) /\
  (forall i n, 0 <= i -> 0 <= n -> i + n <= d0 -> exists v', rows i n v = Ok v' /\ vblk v' = vblk v /\ vdims v' = [n; d1] /\
     forall k j, 0 <= k < n -> 0 <= j < d1 -> vaddr v' [k; j] = vaddr v [i + k; j]) /\
  (forall j n, 0 <= j -> 0 <= n -> j + n <= d1 -> exists v', cols j n v = Ok v' /\ vblk v' = vblk v /\ vdims v' = [d0; n] /\
     forall i k, 0 <= i < d0 -> 0 <= k < n -> vaddr v' [i; k] = vaddr v [i; j + k]) /\
  (forall i, d0 <= i -> row i v = Throw) /\ (forall j, d1 <= j -> col j v = Throw) /\
  (forall i n, d0 < i + n -> rows i n v = Throw) /\ (forall j n, d1 < j + n -> cols j n v = Throw).
Proof. exact C08_rows_cols_l. Qed.
Print Assumptions C08_rows_and_columns.

Theorem C08_block : forall v d off, vwf v -> nonneg d -> nonneg off -> length off = length d ->
  Forall2 Z.le (zipadd off d) (vdims v) ->
  exists v', block_at d off v = Ok v' /\ vblk v' = vblk v /\ vdims v' = d /\ vwf v' /\
    forall ix, in_range ix d -> in_range (zipadd off ix) (vdims v) /\ vaddr v' ix = vaddr v (zipadd off ix).
Proof. exact C08_block_l. Qed.
Print Assumptions C08_block.

Example ex_slice : slice 1 2 ex_view = Ok (View 7 7 [2; 4] [50; 6]) /\ slices 2 1 3 ex_view = Ok (View 7 11 [2; 3; 3] [50; 1; 6])
  /\ slice_prefix [1; 2] ex_view = Ok (View 7 57 [4] [6]) /\ block_at [1; 2; 2] [1; 1; 2] ex_view = Ok (View 7 68 [1; 2; 2] [50; 1; 6]).
Proof. repeat split. Qed.
Example ex_rows : rows 1 2 (View 0 3 [4; 5] [7; 2]) = Ok (View 0 10 [2; 5] [7; 2]) /\ row 4 (View 0 3 [4; 5] [7; 2]) = Throw.
Proof. split; reflexivity. Qed.

(* C09 *)
Theorem C09_reshape : forall v nd, vwf v -> nonneg nd -> vstr v = strides_of 1 (vdims v) -> prod nd = prod (vdims v) ->
  exists v', reshape nd v = Ok v' /\ vdims v' = nd /\ vblk v' = vblk v /\ vwf v' /\ same_order v' v.
Proof. exact C09_reshape_l. Qed.
Print Assumptions C09_reshape.

Theorem C09_squeeze : forall v d, vwf v -> (d < length (vdims v))%nat -> nth d (vdims v) 0 = 1 ->
  exists v', squeeze (Z.of_nat d) v = Ok v' /\ vdims v' = del d (vdims v) /\ vblk v' = vblk v /\ vwf v' /\ same_order v' v.
Proof. exact C09_squeeze_l. Qed.
Print Assumptions C09_squeeze.

Theorem C09_unsqueeze : forall v d, vwf v -> (1 <= d <= length (vdims v))%nat ->
  exists v', unsqueeze (Z.of_nat d) v = Ok v' /\ vdims v' = ins d 1 (vdims v) /\ vblk v' = vblk v /\ vwf v' /\ same_order v' v.
Proof. exact C09_unsqueeze_l. Qed.
Print Assumptions C09_unsqueeze.

Theorem C09_unsqueeze_front_refuted : exists v, vwf v /\ (0 < length (vdims v))%nat /\ unsqueeze 0 v = UB.
Proof. exact C09_unsqueeze0_refuted_l. Qed.
Print Assumptions C09_unsqueeze_front_refuted.

Theorem C09_split : forall v p q a b, vwf v -> vdims v = p ++ a * b :: q -> 0 <= a -> 0 < b ->
  (exists v', split (Z.of_nat (length p)) b v = Ok v' /\ vdims v' = p ++ a :: b :: q /\ vblk v' = vblk v /\ vwf v' /\ same_order v' v) /\
  (length p = 0%nat -> exists v', split0 a b v = Ok v' /\ vdims v' = p ++ a :: b :: q /\ vblk v' = vblk v /\ vwf v' /\ same_order v' v) /\
  (length p = 1%nat -> exists v', split1 a b v = Ok v' /\ vdims v' = p ++ a :: b :: q /\ vblk v' = vblk v /\ vwf v' /\ same_order v' v).
Proof. exact C09_split_l. Qed.
Print Assumptions C09_split.

Theorem C09_fuse : forall v p m n q sp s t sq, vwf v -> vdims v = p ++ m :: n :: q -> vstr v = sp ++ s :: t :: sq ->
  length sp = length p -> s = n * t -> t < s ->
  let w := View (vblk v) (voff v) (p ++ m * n :: q) (sp ++ t :: sq) in
  fuse_ab (Z.of_nat (length p)) (Z.of_nat (length p) + 1) v = Ok w /\
  fuse_ab (Z.of_nat (length p) + 1) (Z.of_nat (length p)) v = Ok w /\
  vwf w /\ same_order w v.
Proof. exact C09_fuse_l. Qed.
Print Assumptions C09_fuse.

Theorem C09_fuse01 : forall v m n q s t sq, vwf v -> vdims v = m :: n :: q -> vstr v = s :: t :: sq -> s = n * t ->
  exists w, fuse01 v = Ok w /\ vdims w = m * n :: q /\ vblk w = vblk v /\ vwf w /\ same_order w v.
Proof. exact C09_fuse01_l. Qed.
Print Assumptions C09_fuse01.

(* the stride condition is not checked by fuse01 *)
Theorem C09_fuse01_unchecked_refuted : exists v w,
  vwf v /\ fuse01 v = Ok w /\ asize (vdims w) = asize (vdims v) /\ ~ part_of w v.
Proof. exact C09_fuse01_refuted_l. Qed.
Print Assumptions C09_fuse01_unchecked_refuted.

Example ex_reshape : reshape [4; 6] (fresh_view 3 [2; 3; 4]) = Ok (View 3 0 [4; 6] [6; 1]) /\
  prod [4; 6] = prod [2; 3; 4].
Proof. split; reflexivity. Qed.
Example ex_split : vdims ex_view = [2; 3] ++ 2 * 2 :: [] /\ split 2 2 ex_view = Ok (View 7 5 [2; 3; 2; 2] [50; 1; 12; 6]).
Proof. split; reflexivity. Qed.
Example ex_fuse : fuse_ab 1 2 (View 0 1 [2; 3; 4] [100; 20; 5]) = Ok (View 0 1 [2; 12] [100; 5]) /\ 20 = 4 * 5 /\ 5 < 20.
Proof. split; [reflexivity|]. lia. Qed.

(* C10 *)
Theorem C10_insert_dim : forall v d n, vwf v -> (d <= length (vdims v))%nat -> 0 <= n ->
  exists v', insert_dim (Z.of_nat d) n v = Ok v' /\ vdims v' = ins d n (vdims v) /\ vblk v' = vblk v /\ vwf v' /\
    forall ix k, in_range ix (vdims v) -> 0 <= k < n -> in_range (ins d k ix) (vdims v') /\ vaddr v' (ins d k ix) = vaddr v ix.
Proof. exact C10_insert_dim_l. Qed.
Print Assumptions C10_insert_dim.

Theorem C10_cinflate : forall v d n, vwf v -> (d < length (vdims v))%nat -> nth d (vdims v) 0 = 1 -> 0 <= n ->
  exists v', cinflate (Z.of_nat d) n v = Ok v' /\ vblk v' = vblk v /\ vwf v' /\
    length (vdims v') = length (vdims v) /\ (forall k, nth k (vdims v') 0 = if (k =? d)%nat then n else nth k (vdims v) 0) /\
    forall ix jx, in_range ix (vdims v') -> in_range jx (vdims v) ->
      (forall k, k <> d -> nth k ix 0 = nth k jx 0) -> vaddr v' ix = vaddr v jx.
Proof. exact C10_cinflate_l. Qed.
Print Assumptions C10_cinflate.

Theorem C10_cinflate_rejects : forall v d n, vwf v -> (d < length (vdims v))%nat ->
  nth d (vdims v) 0 <> 1 -> nth d (vdims v) 0 <> n -> cinflate (Z.of_nat d) n v = Throw.
Proof. exact C10_cinflate_throw_l. Qed.
Print Assumptions C10_cinflate_rejects.

Theorem C10_diag : forall v d s0 s1, vdims v = [d; d] -> vstr v = [s0; s1] ->
  exists v', diag v = Ok v' /\ vdims v' = [d] /\ vblk v' = vblk v /\
    forall i, 0 <= i < d -> vaddr v' [i] = vaddr v [i; i].
Proof. exact C10_diag_l. Qed.
Print Assumptions C10_diag.

(* generalised diagonal over positions a < js: the entry at position a is repeated at positions js *)
Theorem C10_diag_many : forall v a js n, vwf v -> (a < length (vdims v))%nat -> nth a (vdims v) 0 = n ->
  incr_from (S a) js -> Forall (fun j => (j < length (vdims v))%nat /\ nth j (vdims v) 0 = n) js ->
  exists v', diag_ix (map Z.of_nat (a :: js)) v = Ok v' /\ vblk v' = vblk v /\ vdims v' = dels js (vdims v) /\
    forall ix, in_range ix (vdims v') ->
      in_range (inss js (nth a ix 0) ix) (vdims v) /\ vaddr v' ix = vaddr v (inss js (nth a ix 0) ix).
Proof. exact C10_diag_ix_l. Qed.
Print Assumptions C10_diag_many.

(* when the smallest position is not listed first the view leaves the tensor *)
Theorem C10_diag_order_refuted : exists v v', vwf v /\ v = fresh_view 0 (vdims v) /\
  diag_ix [2; 0] v = UB /\ diag_ix [1; 0] v = Ok v' /\ ~ part_of v' v.
Proof. exact C10_diag_ix_refuted_l. Qed.
Print Assumptions C10_diag_order_refuted.

Example ex_insert_dim : insert_dim 1 9 ex_view = Ok (View 7 5 [2; 9; 3; 4] [50; 0; 1; 6]).
Proof. reflexivity. Qed.
Example ex_cinflate : cinflate 1 9 (View 0 0 [2; 1; 4] [4; 4; 1]) = Ok (View 0 0 [2; 9; 4] [4; 0; 1]).
Proof. reflexivity. Qed.
Example ex_diag : diag_ix [0; 2; 3] (fresh_view 0 [3; 2; 3; 3]) = Ok (View 0 0 [3; 2] [22; 9]) /\ incr_from 1 [2; 3]%nat.
Proof. split; [reflexivity|]. cbn. lia. Qed.

(* C11 *)
Theorem C11_chain_safe : forall l b dims v, nonneg dims -> valid_run l (fresh_view b dims) v ->
  inside v b (asize dims) /\ vwf v /\
  (forallb (fun o => negb (is_broadcast o)) l = true -> distinct_cells v).
Proof. exact C11_l. Qed.
Print Assumptions C11_chain_safe.

Example ex_chain : exists v, valid_run [OTransp; OSlice 0 1; OSplit 0 2; OBlock [1; 2; 3] [0; 0; 1]; OInsertDim 1 5]
  (fresh_view 4 [5; 4; 4]) v /\ (0 < length (vdims v))%nat /\ asize (vdims v) = 30.
Proof.
  eexists. split.
  - repeat (eapply vr_cons; [|reflexivity|]); cbn; try exact I; try lia.
    + exists 5. split; [reflexivity|lia].
    + split; repeat constructor; lia.
    + apply vr_nil.
  - split; [vm_compute; lia|reflexivity].
Qed.

(* C12 *)
Theorem C12_block_offsets_checked : forall v d off, vwf v -> nonneg d -> nonneg off ->
  (exists v', block_at d off v = Ok v' /\ part_of v' v /\ vdims v' = d) \/ block_at d off v = Throw.
Proof. exact C12_block_at_l. Qed.
Print Assumptions C12_block_offsets_checked.

(* block(dims): the shape comparison is lexicographic, so a block leaving the tensor is accepted *)
Theorem C12_block_dims_refuted : exists v d v', vwf v /\ nonneg d /\ length d = length (vdims v) /\
  v = fresh_view 0 (vdims v) /\ block_dims d v = Ok v' /\ ~ part_of v' v /\
  exists ix a, in_range ix (vdims v') /\ vaddr v' ix = Ok (0, a) /\ asize (vdims v) <= a.
Proof. exact C12_block_dims_refuted_l. Qed.
Print Assumptions C12_block_dims_refuted.

(* negative offsets are not rejected *)
Theorem C12_negative_offset_refuted : exists v d off v', vwf v /\ nonneg d /\ v = fresh_view 0 (vdims v) /\
  block_at d off v = Ok v' /\ exists ix a, in_range ix (vdims v') /\ vaddr v' ix = Ok (0, a) /\ a < 0.
Proof. exact C12_negative_refuted_l. Qed.
Print Assumptions C12_negative_offset_refuted.

Example ex_block_rejected : block_at [2; 3; 4] [1; 0; 0] ex_view = Throw.
Proof. reflexivity. Qed.
