(* Prop_Index.v -- C01-C06: shapes, flat positions, strides. *)
From Coq Require Import Sorted.
From Verif Require Import Base Model_Index Spec_Index Proofs_Index.
Local Open Scope Z_scope.

(* C01: flat position -> multi-index -> flat position *)
Theorem C01_flat_multi_flat : forall dims a,
  positive dims -> 0 <= a < prod dims ->
  exists ix, unflat a dims = Ok ix /\ in_range ix dims /\ to_int ix dims = Ok a.
Proof. exact C01_flat_multi_l. Qed.
Print Assumptions C01_flat_multi_flat.
Example C01_flat_multi_flat_ex : positive [2;3;4] /\ 0 <= 17 < prod [2;3;4] /\
  unflat 17 [2;3;4] = Ok [1;1;1].
Proof. repeat split; try (vm_compute; congruence). repeat constructor. Qed.

(* C01: multi-index -> flat position -> multi-index, and the position is below the element count *)
Theorem C01_multi_flat_multi : forall dims ix,
  in_range ix dims ->
  exists a, to_int ix dims = Ok a /\ 0 <= a < asize dims /\ unflat a dims = Ok ix.
Proof. exact C01_multi_flat_l. Qed.
Print Assumptions C01_multi_flat_multi.
Example C01_multi_flat_multi_ex : in_range [1;2;3] [2;3;4] /\ to_int [1;2;3] [2;3;4] = Ok 23.
Proof. split; [repeat constructor; lia|reflexivity]. Qed.

(* the specification's element count is the number of in-range indices *)
Theorem C01_element_count : forall dims, nonneg dims ->
  asize dims = Z.of_nat (length (all_indices dims)) /\
  NoDup (all_indices dims) /\ (forall ix, In ix (all_indices dims) <-> in_range ix dims).
Proof.
  exact (fun dims H => conj (eq_trans (asize_prod dims) (eq_sym (all_indices_length dims H)))
                            (conj (all_indices_nodup dims) (in_all_indices dims))).
Qed.
Print Assumptions C01_element_count.
Example C01_element_count_ex : nonneg [2;0;5] /\ asize [2;0;5] = 0 /\ asize [2;3] = 6.
Proof. repeat split; repeat constructor; discriminate. Qed.

(* C02: rank >= 1 *)
Theorem C02_index_iteration : forall dims, nonneg dims -> dims <> [] ->
  exists visits : list (list Z),
    (forall (S : Type) (f : list Z -> S -> res S) st, foreach_index dims f st = foldM f visits st) /\
    StronglySorted lex_lt visits /\ NoDup visits /\
    (forall ix, In ix visits <-> in_range ix dims).
Proof. exact C02_l. Qed.
Print Assumptions C02_index_iteration.
Example C02_index_iteration_ex :
  nonneg [2;2] /\ [2;2] <> [] /\
  foreach_index [2;2] (fun ix l => Ok (l ++ [ix])) [] = Ok [[0;0];[0;1];[1;0];[1;1]].
Proof. repeat split; [repeat constructor; discriminate|discriminate]. Qed.

(* C02 at rank 0: the single (empty) index is in range but the callback is never called *)
Theorem C02_rank0_refuted :
  in_range [] [] /\ asize [] = 1 /\
  forall (S : Type) (f : list Z -> S -> res S) st, foreach_index [] f st = Ok st.
Proof. exact (conj (Forall2_nil _) (conj eq_refl (fun _ _ _ => eq_refl))). Qed.
Print Assumptions C02_rank0_refuted.

(* C03 *)
Theorem C03_row_major_bijection : forall dims, nonneg dims ->
  (forall ix, in_range ix dims -> exists a, offs (strides_of 1 dims) ix = Ok a /\ to_int ix dims = Ok a
                                           /\ 0 <= a < asize dims) /\
  (forall ix jx, in_range ix dims -> in_range jx dims ->
     offs (strides_of 1 dims) ix = offs (strides_of 1 dims) jx -> ix = jx) /\
  (forall a, 0 <= a < asize dims -> exists ix, in_range ix dims /\ offs (strides_of 1 dims) ix = Ok a).
Proof. exact C03_l. Qed.
Print Assumptions C03_row_major_bijection.
Example C03_row_major_bijection_ex : nonneg [2;3;4] /\ strides_of 1 [2;3;4] = [12;4;1] /\
  offs (strides_of 1 [2;3;4]) [1;2;3] = Ok 23.
Proof. repeat split; repeat constructor; discriminate. Qed.

(* C04: positive strides *)
Theorem C04_contiguous_solid : forall s dims,
  length s = length dims -> nonneg dims -> positive s -> is_contiguous s dims = Ok true ->
  memsize s dims = Ok (asize dims) /\
  (forall ix, in_range ix dims -> exists a, offs s ix = Ok a /\ 0 <= a < asize dims) /\
  (forall ix jx, in_range ix dims -> in_range jx dims -> offs s ix = offs s jx -> ix = jx) /\
  (forall a, 0 <= a < asize dims -> exists ix, in_range ix dims /\ offs s ix = Ok a).
Proof. exact C04_contiguous_l. Qed.
Print Assumptions C04_contiguous_solid.
Example C04_contiguous_solid_ex :   (* a permuted, hence non-regular, layout *)
  is_contiguous [1;8;2] [2;3;4] = Ok true /\ is_regular [1;8;2] [2;3;4] = Ok false /\
  positive [1;8;2] /\ nonneg [2;3;4].
Proof. repeat split; repeat constructor; discriminate. Qed.

Theorem C04_regular_is_row_major : forall s dims, length s = length dims ->
  (is_regular s dims = Ok true <-> s = strides_of 1 dims) /\
  (s = strides_of 1 dims -> is_contiguous s dims = Ok true).
Proof. exact C04_regular_l. Qed.
Print Assumptions C04_regular_is_row_major.
Example C04_regular_is_row_major_ex : is_regular [12;4;1] [2;3;4] = Ok true.
Proof. reflexivity. Qed.

(* C04 fails for broadcast layouts: a 3x4 view with strides (0,1) is reported contiguous although
   two different elements share a cell and it spans 4 cells, not 12 *)
Theorem C04_contiguous_broadcast_refuted : exists s dims ix jx,
  length s = length dims /\ nonneg dims /\ nonneg s /\ is_contiguous s dims = Ok true /\
  in_range ix dims /\ in_range jx dims /\ ix <> jx /\ offs s ix = offs s jx /\
  memsize s dims = Ok 4 /\ asize dims = 12.
Proof.
  exists [0;1], [3;4], [0;0], [1;0].
  repeat split; try discriminate; repeat constructor; try lia; discriminate.
Qed.
Print Assumptions C04_contiguous_broadcast_refuted.

(* C05 *)
Theorem C05_cat_counts : forall a b, asize (vcat a b) = asize a * asize b.
Proof. exact C05_cat_l. Qed.
Print Assumptions C05_cat_counts.
Theorem C05_insert_then_remove : forall (j x : Z) l, 0 <= j <= Z.of_nat (length l) ->
  exists l', vinsert j x l = Ok l' /\ zget l' j = Ok x /\ vremove j l' = Ok l.
Proof. exact (@C05_insert_remove_l Z). Qed.
Print Assumptions C05_insert_then_remove.
Theorem C05_remove_then_insert : forall (j : Z) (l : list Z), 0 <= j < Z.of_nat (length l) ->
  exists x l', zget l j = Ok x /\ vremove j l = Ok l' /\ vinsert j x l' = Ok l.
Proof. exact (@C05_remove_insert_l Z). Qed.
Print Assumptions C05_remove_then_insert.
Theorem C05_chunks_cat : forall j (l : list Z), 0 <= j <= Z.of_nat (length l) ->
  exists a b, vchunk 0 j l = Ok a /\ vchunk j (-1) l = Ok b /\ vcat a b = l.
Proof. exact (@C05_chunks_l Z). Qed.
Print Assumptions C05_chunks_cat.
Theorem C05_permute_inverse : forall p q (l : list Z),
  is_perm p -> is_perm q -> inverse_perm p q -> length p = length l ->
  exists l', vpermute p l = Ok l' /\ vpermute q l' = Ok l.
Proof. exact (@C05_permute_l Z). Qed.
Print Assumptions C05_permute_inverse.
Theorem C05_permute_count : forall p l l', is_perm p -> vpermute p l = Ok l' -> asize l' = asize l.
Proof. exact C05_permute_asize_l. Qed.
Print Assumptions C05_permute_count.
(* fuse: the fused shape has the same element count and, for row-major strides, the fused strides are the row-major strides of the fused shape *)
Theorem C05_fuse : forall p q t, exists l', dims_fuse (Z.of_nat (length p)) (Z.of_nat (length q)) (p ++ q ++ t) = Ok l' /\ l' = p ++ prod q :: t /\ prod l' = prod (p ++ q ++ t) /\
  (q <> [] -> strides_fuse (Z.of_nat (length p)) (Z.of_nat (length q)) (strides_of 1 (p ++ q ++ t)) = Ok (strides_of 1 l')).
Proof. exact C05_fuse_l. Qed.
Print Assumptions C05_fuse.
Example C05_fuse_ex : dims_fuse 1 2 [2;3;4;5] = Ok [2;12;5] /\ strides_fuse 1 2 [60;20;5;1] = Ok [60;5;1].
Proof. split; reflexivity. Qed.
Example C05_ex : vinsert 1 9 [2;3;4] = Ok [2;9;3;4] /\ vremove 2 [2;3;4] = Ok [2;3] /\
  vchunk 1 (-1) [2;3;4] = Ok [3;4] /\ vpermute [2;0;1] [5;6;7] = Ok [7;5;6] /\
  vpermute [1;2;0] [7;5;6] = Ok [5;6;7] /\ asize (vcat [2;3] [4;5]) = 120.
Proof. repeat split. Qed.
Example C05_perm_ex : is_perm [2;0;1] /\ is_perm [1;2;0] /\ inverse_perm [2;0;1] [1;2;0].
Proof.
  split; [|split].
  - change (Permutation ([2] ++ [0;1]) ([0;1] ++ [2])). apply Permutation_app_comm.
  - change (Permutation ([1;2] ++ [0]) ([0] ++ [1;2])). apply Permutation_app_comm.
  - split; [reflexivity|]. intros i j H. unfold zget in H. destruct (i <? 0) eqn:E; [discriminate|].
    assert (i = 0 \/ i = 1 \/ i = 2 \/ 3 <= i) as [->|[->|[->|Hi]]] by lia;
      [injection H as <-; reflexivity ..|].
    replace (Z.to_nat i) with (3 + Z.to_nat (i - 3))%nat in H by lia.
    unfold vget in H. cbn in H. destruct (Z.to_nat (i - 3)); discriminate H.
Qed.

(* C06 *)
Theorem C06_symmetric : forall n i j, symm_index n i j = symm_index n j i.
Proof. exact C06_sym_l. Qed.
Print Assumptions C06_symmetric.
Theorem C06_injective : forall n i j k l,
  0 <= i < n -> 0 <= j < n -> 0 <= k < n -> 0 <= l < n ->
  symm_index n i j = symm_index n k l -> (i = k /\ j = l) \/ (i = l /\ j = k).
Proof. exact C06_inj_l. Qed.
Print Assumptions C06_injective.
Theorem C06_in_bounds : forall n i j, 0 <= i <= j -> j < n ->
  0 <= symm_index n i j < Z.quot (n * (n + 1)) 2.
Proof. exact symm_range. Qed.
Print Assumptions C06_in_bounds.
Theorem C06_covers : forall n a, 0 <= n -> 0 <= a < Z.quot (n * (n + 1)) 2 ->
  exists i j, 0 <= i <= j /\ j < n /\ symm_index n i j = a.
Proof. exact C06_surj_l. Qed.
Print Assumptions C06_covers.
Example C06_ex : map (fun p => symm_index 3 (fst p) (snd p)) [(0,0);(0,1);(0,2);(1,1);(2,1);(2,2)] = [0;1;2;3;4;5].
Proof. reflexivity. Qed.
