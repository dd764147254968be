(* Prop_Shape.v -- C167-C174: stride vectors, shapes of products, joining and reading lists, multi-indices. *)
From Coq Require Import ZArith List Bool Lia Permutation.
Import ListNotations.
From Verif Require Import Base BaseFacts Model_Index Model_View Model_Tensor Model_Groups Model_Shape Spec_Index Spec_Shape
  Proofs_Index Proofs_Shape Proofs_Shape2 Proofs_Shape3 Proofs_Shape4.
Local Open Scope Z_scope.

(* ---- C167.  place s ix is the distance from the start of a tensor with strides s to element ix (Spec_Shape) ---- *)
Theorem C167_strides chk dims s0 : dims <> [] -> exists s, gs_new chk dims s0 = Ok s /\ length s = length dims /\
  (forall p d r, dims = p ++ d :: r -> zget s (zlen p) = Ok (s0 * prod r)) /\
  (forall ix, in_range ix dims -> gs_call s ix = Ok (s0 * flat ix dims)) /\
  (0 < s0 -> forall ix jx, in_range ix dims -> in_range jx dims -> gs_call s ix = gs_call s jx -> ix = jx).
Proof.
  intro N. exists (strides_of s0 dims). split; [now apply gs_new_ok|]. split; [apply strides_of_length|].
  assert (E : forall ix, in_range ix dims -> gs_call (strides_of s0 dims) ix = Ok (s0 * flat ix dims)).
  { intros ix I. pose proof (in_range_length _ _ I) as L. rewrite gs_call_ok by (rewrite strides_of_length; lia). rewrite <- dot_place, dot_strides_of by lia. reflexivity. }
  split; [|split; [exact E|]].
  - intros p d r ->. clear. induction p as [|x p IH].
    + cbn [app length Z.of_nat]. rewrite strides_of_cons. apply (zget_app [] (s0 * prod r)).
    + change ((x :: p) ++ d :: r) with (x :: (p ++ d :: r)). rewrite strides_of_cons. rewrite <- IH. unfold zget, vget. cbn [length]. ifF. ifF.
      replace (Z.to_nat (Z.of_nat (S (length p)))) with (S (length p)) by lia. rewrite Nat2Z.id. reflexivity.
  - intros P ix jx I J H. rewrite !E in H by assumption. injection H as H. apply (flat_inj ix jx dims I J). nia.
Qed.
Theorem C167_regular s dims : (length s = length dims -> dims <> [] -> (gs_regular s dims = Ok true <-> gs_new true dims 1 = Ok s)) /\
  (length s <> length dims -> gs_regular s dims = Throw).
Proof.
  split.
  - intros L N. rewrite gs_regular_ok, is_regular_iff, gs_new_ok by assumption. split; [intros ->; reflexivity|intro H; now injection H].
  - intro L. unfold gs_regular. now replace (length s =? length dims)%nat with false by (symmetry; now apply Nat.eqb_neq).
Qed.
(* the check answers yes or no whenever the lengths agree *)
Theorem C167_regular_total s dims : length s = length dims -> exists b, gs_regular s dims = Ok b.
Proof. intro L. rewrite gs_regular_ok. unfold is_regular. rewrite L, Nat.eqb_refl. cbn [assrt]. eauto. Qed.
Theorem C167_call s ix : ((length ix <= length s)%nat -> gs_call s ix = Ok (place s ix) /\ gs_offs s ix = Ok (place s ix)) /\
  ((length s < length ix)%nat -> gs_call s ix = Throw).
Proof. split; [intro L; split; [now apply gs_call_ok|now apply gs_offs_ok]|apply gs_call_throw]. Qed.
Theorem C167_up_to_five a b c d e : gs_1 a = Ok [a] /\ gs_2 a b = Ok [a; b] /\ gs_3 a b c = Ok [a; b; c] /\ gs_4 a b c d = Ok [a; b; c; d] /\ gs_5 a b c d e = Ok [a; b; c; d; e].
Proof. repeat split. Qed.
Theorem C167_six_refuted a b c d e f : gs_6 a b c d e f = UB.
Proof. reflexivity. Qed.
Theorem C167_no_axes_refuted s0 : gs_new true [] s0 = Throw /\ gs_new false [] s0 = UB.
Proof. split; reflexivity. Qed.
Example C167_case : gs_new true [2; 3; 4] 5 = Ok [60; 20; 5] /\ gs_call [60; 20; 5] [1; 2; 3] = Ok 115 /\ gs_regular [12; 4; 1] [2; 3; 4] = Ok true /\ gs_regular [12; 1; 4] [2; 3; 4] = Ok false.
Proof. repeat split. Qed.
Print Assumptions C167_strides.
Print Assumptions C167_regular.
Print Assumptions C167_regular_total.
Print Assumptions C167_call.
Print Assumptions C167_up_to_five.
Print Assumptions C167_six_refuted.
Print Assumptions C167_no_axes_refuted.

(* ---- C168 ---- *)
Theorem C168_sound s dims : length s = length dims -> nonneg dims -> positive s -> gs_contig s dims = Ok true -> solid s dims.
Proof. intros L H P C. rewrite gs_contig_ok in C. now apply contig_solid. Qed.
Theorem C168_complete s dims : length s = length dims -> positive s -> Forall (fun d => 2 <= d) dims -> solid s dims -> gs_contig s dims = Ok true.
Proof. intros L P H C. rewrite gs_contig_ok. now apply solid_contiguous. Qed.
(* an axis of side one whose stride does not fit the chain *)
Theorem C168_side_one_refuted : solid [1; 1; 2] [2; 1; 2] /\ gs_contig [1; 1; 2] [2; 1; 2] = Ok false.
Proof.
  assert (T : forall ix, in_range ix [2; 1; 2] -> exists i k, ix = [i; 0; k] /\ 0 <= i < 2 /\ 0 <= k < 2).
  { intros ix I. inversion I as [|i ? ? ? Hi I1]; subst. inversion I1 as [|j ? ? ? Hj I2]; subst. inversion I2 as [|k ? ? ? Hk I3]; subst. inversion I3; subst.
    exists i, k. assert (j = 0) by lia. subst j. auto. }
  split; [|reflexivity]. split; [|split].
  - intros ix I. destruct (T ix I) as (i & k & -> & Hi & Hk). change (prod [2; 1; 2]) with 4. unfold place. cbn [combine map fst snd fold_right]. lia.
  - intros ix jx I J E. destruct (T ix I) as (i & k & -> & Hi & Hk). destruct (T jx J) as (i' & k' & -> & Hi' & Hk'). unfold place in E. cbn [combine map fst snd fold_right] in E.
    assert (i = i') by lia. assert (k = k') by lia. now subst.
  - intros a A. change (prod [2; 1; 2]) with 4 in A. exists [a mod 2; 0; a / 2]. pose proof (Z.div_mod a 2 ltac:(lia)). pose proof (Z.mod_pos_bound a 2 ltac:(lia)).
    split; [repeat constructor; lia|]. unfold place. cbn [combine map fst snd fold_right]. lia.
Qed.
(* memsize is larger than every offset when the axes, in some order, step over one another *)
Theorem C168_memsize s dims ax : length s = length dims -> positive s -> Permutation (combine s dims) ax -> stepping ax -> dims <> [] ->
  exists n, gs_memsize s dims = Ok n /\ forall ix, in_range ix dims -> 0 <= place s ix < n.
Proof. intros L P E S N. eexists. split; [now apply gs_memsize_ok|]. intros ix I. now apply (memsize_bound s dims ax ix). Qed.
(* it is the largest stride times side, or 0 *)
Theorem C168_memsize_is s dims : (length s = length dims -> exists n, gs_memsize s dims = Ok n /\ 0 <= n /\
    (forall x d, In (x, d) (combine s dims) -> x * d <= n) /\ (n = 0 \/ exists x d, In (x, d) (combine s dims) /\ n = x * d)) /\
  (length s <> length dims -> gs_memsize s dims = Throw).
Proof.
  split.
  - intro L. exists (max_extent s dims 0). split; [now apply gs_memsize_ok|].
    assert (G : forall s dims t, t <= max_extent s dims t /\ (max_extent s dims t = t \/ exists x d, In (x, d) (combine s dims) /\ max_extent s dims t = x * d)).
    { clear. induction s as [|x s IH]; intros [|d ds] t; cbn [max_extent]; try (split; [lia|now left]).
      destruct (IH ds (Z.max t (x * d))) as (A & B). split; [lia|]. destruct B as [B|(y & e & I & B)].
      - destruct (Z.max_spec t (x * d)) as [(C & D)|(C & D)]; rewrite B, D; [right; exists x, d; split; [now left|reflexivity]|now left].
      - right. exists y, e. split; [now right|exact B]. }
    destruct (G s dims 0) as (A & B). split; [exact A|]. split; [|exact B]. intros x d I. now apply max_extent_in.
  - intro L. unfold gs_memsize. now replace (length s =? length dims)%nat with false by (symmetry; now apply Nat.eqb_neq).
Qed.
Theorem C168_memsize_refuted : exists s dims ix n, positive s /\ in_range ix dims /\ gs_memsize s dims = Ok n /\ n <= place s ix.
Proof. exists [1; 1], [3; 3], [2; 2], 3. split; [repeat constructor|]. split; [repeat constructor; lia|]. split; [reflexivity|]. cbn. lia. Qed.
Theorem C168_no_axes_refuted : gs_memsize [] [] = Ok 0 /\ in_range [] [] /\ place [] [] = 0.
Proof. repeat split. constructor. Qed.
Example C168_case : positive [1; 6; 2] /\ gs_contig [1; 6; 2] [2; 4; 3] = Ok true /\ gs_memsize [1; 6; 2] [2; 4; 3] = Ok 24 /\
  Permutation (combine [1; 6; 2] [2; 4; 3]) [(6, 4); (2, 3); (1, 2)] /\ stepping [(6, 4); (2, 3); (1, 2)].
Proof.
  split; [repeat constructor|]. split; [reflexivity|]. split; [reflexivity|]. split; [|cbn; lia].
  cbn [combine]. apply (Permutation_trans (l' := [(6, 4); (1, 2); (2, 3)])); [apply perm_swap|]. apply perm_skip, perm_swap.
Qed.
Print Assumptions C168_sound.
Print Assumptions C168_complete.
Print Assumptions C168_side_one_refuted.
Print Assumptions C168_memsize.
Print Assumptions C168_memsize_is.
Print Assumptions C168_memsize_refuted.
Print Assumptions C168_no_axes_refuted.

(* ---- C169 ---- *)
Theorem C169_convert chk source s dims ix : length s = length dims -> greedy source dims -> in_range ix dims ->
  gs_convert chk (place source ix) source s = Ok (place s ix).
Proof. apply convert_ok. Qed.
(* there and back *)
Theorem C169_round_trip chk source s dims ix j : greedy s dims -> greedy source dims -> in_range ix dims ->
  gs_convert chk (place source ix) source s = Ok j -> gs_convert chk j s source = Ok (place source ix).
Proof. intros G1 G2 I H. rewrite (convert_ok chk source s dims ix) in H by (try apply greedy_length; assumption). injection H as <-. apply (convert_ok chk s source dims ix); try apply greedy_length; assumption. Qed.
(* row-major strides qualify, so a place in the row-major order is turned into the place in the given layout *)
Theorem C169_from_row_major chk s dims ix source : length s = length dims -> positive dims -> dims <> [] -> gs_new chk dims 1 = Ok source -> in_range ix dims ->
  greedy source dims /\ gs_convert chk (flat ix dims) source s = Ok (place s ix).
Proof.
  intros L P N E I. rewrite gs_new_ok in E by assumption. injection E as <-. split; [now apply greedy_row_major|].
  rewrite <- (Z.mul_1_l (flat ix dims)), <- dot_strides_of, dot_place by (now apply in_range_length). apply (convert_ok chk _ s dims ix); auto. now apply greedy_row_major.
Qed.
Theorem C169_zero_stride_refuted chk j source s : length source = length s -> In 0 source -> gs_convert chk j source s = UB.
Proof. apply convert_zero. Qed.
Theorem C169_lengths source s j : length source <> length s -> gs_convert true j source s = Throw.
Proof. intro L. unfold gs_convert, passert. now replace (length source =? length s)%nat with false by (symmetry; now apply Nat.eqb_neq). Qed.
(* a source laid out column by column is not converted: element (0,1) of a k by m matrix is sent to m*k instead of 1 *)
Theorem C169_column_major_refuted chk k m : 2 <= k -> 2 <= m -> in_range [0; 1] [k; m] /\ solid [1; k] [k; m] /\
  gs_convert chk (place [1; k] [0; 1]) [1; k] [m; 1] = Ok (m * k) /\ place [m; 1] [0; 1] = 1.
Proof.
  intros K M. split; [repeat constructor; lia|]. split; [|split].
  - apply contig_solid; [reflexivity|repeat constructor; lia|repeat constructor; lia|]. rewrite <- gs_contig_ok. unfold gs_contig. cbn [length Nat.eqb assrt].
    rewrite gs_regular_ok. destruct (is_regular [1; k] [k; m]) as [[|]| |] eqn:E; [reflexivity| |discriminate|discriminate]. cbn [bind filter].
    change (0 <? 1) with true. replace (0 <? k) with true by lia. cbn [length gs_eat first_eq option_map Z.eqb Pos.eqb vget nth_error bind set_nth].
    rewrite Z.mul_1_l. destruct k; try lia. cbn. now rewrite Pos.eqb_refl.
  - rewrite conv_loop by reflexivity. unfold place. cbn [combine map fst snd fold_right foldM bind]. unfold conv_step. cbn [fst snd]. unfold cdiv. change (1 =? 0) with false. replace (k =? 0) with false by lia. cbn [bind].
    rewrite Z.quot_1_r. replace (1 * 0 + (k * 1 + 0) - (1 * 0 + (k * 1 + 0)) * 1) with 0 by lia. rewrite Z.quot_0_l by lia. f_equal. lia.
  - cbn. lia.
Qed.
Example C169_case : greedy [20; 5; 1] [2; 3; 4] /\ in_range [1; 2; 3] [2; 3; 4] /\ gs_convert true 33 [20; 5; 1] [1; 2; 6] = Ok 23.
Proof.
  split; [|split; [repeat constructor; lia|reflexivity]]. assert (I : forall ix d, in_range ix d -> in_range ix d) by auto.
  cbn [greedy]. split; [lia|]. split; [|split; [lia|split; [|split; [lia|split; [|exact Logic.I]]]]].
  - intros ix H. inversion H as [|i ? ? ? ? H1]; subst. inversion H1 as [|j ? ? ? ? H2]; subst. inversion H2; subst. unfold place. cbn [combine map fst snd fold_right]. lia.
  - intros ix H. inversion H as [|i ? ? ? ? H1]; subst. inversion H1; subst. unfold place. cbn [combine map fst snd fold_right]. lia.
  - intros ix H. inversion H; subst. reflexivity.
Qed.
Print Assumptions C169_convert.
Print Assumptions C169_round_trip.
Print Assumptions C169_from_row_major.
Print Assumptions C169_zero_stride_refuted.
Print Assumptions C169_lengths.
Print Assumptions C169_column_major_refuted.

(* ---- C170 ---- *)
(* fusing axes that can be walked as one: the fused index is the row-major rank of the indices it replaces *)
Theorem C170_fuse p q x r dq : run (q ++ [x]) dq -> exists s', gs_fuse (zlen p) (zlen (q ++ [x])) (p ++ (q ++ [x]) ++ r) = Ok s' /\
  forall ip iq ir, length ip = length p -> in_range iq dq -> place s' (ip ++ flat iq dq :: ir) = place (p ++ (q ++ [x]) ++ r) (ip ++ iq ++ ir).
Proof. intro H. exists (p ++ x :: r). split; [apply gs_fuse_ok|]. intros. now apply fuse_place. Qed.
(* removing an axis: the elements whose index on that axis is i lie i strides further on *)
Theorem C170_remove chk p x r : p ++ r <> [] -> exists s', gs_remove chk (zlen p) (p ++ x :: r) = Ok s' /\ gs_remove false (- 1 - zlen r) (p ++ x :: r) = Ok s' /\
  forall ip i ir, length ip = length p -> place (p ++ x :: r) (ip ++ i :: ir) = place s' (ip ++ ir) + x * i.
Proof.
  intro N. exists (p ++ r). split; [now apply gs_remove_ok|]. split; [now apply gs_remove_neg|]. intros ip i ir L. rewrite (remove_place p x r ip i ir L). lia.
Qed.
(* the documented negative positions are refused when asserts are on *)
Theorem C170_remove_negative_refuted j s : j < 0 -> gs_remove true j s = Throw.
Proof. intro H. apply gs_remove_throw. lia. Qed.
Theorem C170_remove_outside j s : zlen s <= j -> gs_remove true j s = Throw.
Proof. intro H. apply gs_remove_throw. lia. Qed.
(* removing the only axis leaves an axis of stride one *)
Theorem C170_remove_last_refuted chk x : gs_remove chk 0 [x] = Ok [1].
Proof. apply gs_remove_one. Qed.
Theorem C170_append x s : gs_append x s = s ++ [x] /\ forall ix i, length ix = length s -> place (gs_append x s) (ix ++ [i]) = place s ix + x * i.
Proof. split; [reflexivity|]. intros ix i L. unfold gs_append. rewrite place_app by lia. cbn. lia. Qed.
Theorem C170_chunk p q r : gs_chunk (zlen p) (zlen q) (p ++ q ++ r) = Ok q /\ gs_chunk (zlen p) (-1) (p ++ q) = Ok q.
Proof. split; [apply gs_chunk_ok|apply gs_chunk_end]. Qed.
(* combine(v) is the stride of the diagonal along the axes in v *)
Theorem C170_combine chk s v : NoDup v -> Forall (fun p => 0 <= p < zlen s) v -> exists c, gs_combine chk s v = Ok c /\
  forall i, place s (map (fun k => if existsb (Z.eqb k) v then i else 0) (zrange (zlen s))) = i * c.
Proof.
  intros D H. exists (fold_right Z.add 0 (map (fun p => nth (Z.to_nat p) s 0) v)). split; [|intro i; now apply diagonal_place].
  unfold gs_combine. rewrite combine_loop by assumption. now rewrite Z.add_0_l.
Qed.
Theorem C170_combine_outside s p v : ~ (0 <= p < zlen s) -> gs_combine true s (p :: v) = Throw.
Proof. intro H. unfold gs_combine. cbn [foldM]. unfold passert, below. now replace ((0 <=? p) && (p <? zlen s)) with false by lia. Qed.
Example C170_case : gs_fuse 1 2 [60; 20; 5; 1] = Ok [60; 5; 1] /\ run [20; 5] [3; 4] /\ gs_remove true 1 [60; 20; 5] = Ok [60; 5] /\ gs_chunk 1 2 [60; 20; 5; 1] = Ok [20; 5] /\
  gs_combine true [60; 20; 5] [0; 2] = Ok 65.
Proof. repeat split. Qed.
Print Assumptions C170_fuse.
Print Assumptions C170_remove.
Print Assumptions C170_remove_negative_refuted.
Print Assumptions C170_remove_outside.
Print Assumptions C170_remove_last_refuted.
Print Assumptions C170_append.
Print Assumptions C170_chunk.
Print Assumptions C170_combine.
Print Assumptions C170_combine_outside.

(* ---- C171 ---- *)
Theorem C171_products xs ys k l : gd_mprod (xs ++ [k]) (l :: ys) = Ok (xs ++ ys) /\ gd_mprod_AT (xs ++ [k]) (ys ++ [l]) = Ok (xs ++ ys) /\
  gd_mprod_TA (k :: xs) (l :: ys) = Ok (xs ++ ys) /\ gd_mprod_TT (k :: xs) (ys ++ [l]) = Ok (xs ++ ys).
Proof. split; [apply mprod_ok|]. split; [apply mprod_AT_ok|]. split; [apply mprod_TA_ok|apply mprod_TT_ok]. Qed.
(* for matrices the four products are one product of transposed arguments *)
Theorem C171_transposes chk a b c d : gd_transpose chk [a; b] = Ok [b; a] /\ gd_mprod_AT [a; b] [c; d] = gd_mprod [a; b] [d; c] /\
  gd_mprod_TA [a; b] [c; d] = gd_mprod [b; a] [c; d] /\ gd_mprod_TT [a; b] [c; d] = gd_mprod [b; a] [d; c].
Proof. repeat split. destruct chk; reflexivity. Qed.
Theorem C171_transpose_rank x : length x <> 2%nat -> gd_transpose true x = Throw.
Proof. intro H. unfold gd_transpose, passert. now replace (zlen x =? 2) with false by lia. Qed.
(* the inner sides are never compared, and for a tensor without axes the loop runs out of its vector *)
Theorem C171_unequal_refuted k l : k <> l -> gd_mprod [2; k] [l; 3] = Ok [2; 3].
Proof. reflexivity. Qed.
Theorem C171_no_axes_refuted a b y : gd_mprod [] [a] = Throw /\ gd_mprod [] (a :: b :: y) = UB.
Proof. split; [reflexivity|]. unfold gd_mprod, mprod_loops. rewrite raw_ok by (cbn [length]; lia). reflexivity. Qed.
Theorem C171_matrix_vector x y r : gd_mvprod x y = Ok r <-> exists b n m, x = b ++ [n; m] /\ y = b ++ [m] /\ r = b ++ [n].
Proof. apply mvprod_iff. Qed.
Theorem C171_matrix_vector_else x y : (forall b n m, x = b ++ [n; m] -> y <> b ++ [m]) -> gd_mvprod x y = Throw.
Proof.
  intro H. destruct (gd_mvprod x y) as [r| |] eqn:E; [|reflexivity|now apply mvprod_safe in E]. apply mvprod_iff in E. destruct E as (b & n & m & -> & -> & _). now destruct (H b n m eq_refl).
Qed.
(* o is an element of the convolution of x with a window y exactly when the window, moved to o, lies inside x *)
Theorem C171_convolve chk x y : length x = length y -> positive y -> exists r, gd_convolve chk x y = Ok r /\ length r = length x /\
  forall o, in_range o r <-> length o = length x /\ forall w, in_range w y -> in_range (shift o w) x.
Proof.
  intros L P. exists (conv_sides x y). split; [now apply convolve_ok|]. split; [unfold conv_sides; rewrite map_length, combine_length; lia|]. intro o. now apply conv_sides_iff.
Qed.
Theorem C171_convolve_ranks x y : length x <> length y -> gd_convolve true x y = Throw.
Proof. apply convolve_throw. Qed.
Example C171_case : gd_mprod_TA [3; 2] [3; 4; 5] = Ok [2; 4; 5] /\ gd_mvprod [7; 2; 3] [7; 3] = Ok [7; 2] /\ gd_mvprod [7; 2; 3] [7; 2] = Throw /\ gd_convolve true [8; 9] [3; 3] = Ok [6; 7] /\ positive [3; 3].
Proof. repeat split. repeat constructor. Qed.
Print Assumptions C171_products.
Print Assumptions C171_transposes.
Print Assumptions C171_transpose_rank.
Print Assumptions C171_unequal_refuted.
Print Assumptions C171_no_axes_refuted.
Print Assumptions C171_matrix_vector.
Print Assumptions C171_matrix_vector_else.
Print Assumptions C171_convolve.
Print Assumptions C171_convolve_ranks.

(* ---- C172 ---- *)
Theorem C172_join x y v : gd_join x y = Ok (x ++ y) /\ gv_join x y = Ok (x ++ y) /\ gv_mid x v y = Ok (x ++ v :: y) /\ gv_front v x y = Ok (v :: x ++ y) /\ gd_extend x y = x ++ y.
Proof. split; [apply join_ok|]. split; [apply join_ok|]. split; [apply mid_ok|]. split; [apply front_ok|apply extend_ok]. Qed.
Theorem C172_concat ls : gd_concat ls = Ok (concat ls).
Proof. apply gd_concat_ok. Qed.
(* arguments that are integers count as lists of one *)
Theorem C172_cat a0 args : gv_cat_args a0 args = concat (map (fun a => match a with inl d => [d] | inr l => l end) (a0 :: args)).
Proof. apply cat_args_ok. Qed.
Theorem C172_insert p q x n v : gv_insert_list (zlen p) x (p ++ q) = Ok (p ++ x ++ q) /\ (0 <= n -> gv_insert_n (zlen p) n v (p ++ q) = Ok (p ++ repeat v (Z.to_nat n) ++ q)).
Proof. split; [apply insert_list_ok|apply insert_n_ok]. Qed.
Theorem C172_insert_outside_refuted j x n v l : j < 0 \/ zlen l < j -> gv_insert_list j x l = UB /\ gv_insert_n j n v l = UB.
Proof. intro H. unfold gv_insert_list, gv_insert_n. replace ((j <? 0) || (zlen l <? j)) with true by lia. auto. Qed.
Theorem C172_unsqueeze p q : gd_unsqueeze (zlen p) (p ++ q) = Ok (p ++ 1 :: q) /\ prod (p ++ 1 :: q) = prod (p ++ q).
Proof.
  split; [|rewrite !prod_app, prod_cons; ring]. unfold gd_unsqueeze. rewrite insert_ok by (rewrite app_length; lia). rewrite Nat2Z.id, firstn_app, skipn_app, Nat.sub_diag, firstn_all, skipn_all. cbn [firstn skipn app]. now rewrite app_nil_r.
Qed.
Example C172_case : gv_cat_args (inl 2) [inr [3; 4]; inl 5] = [2; 3; 4; 5] /\ gv_insert_list 1 [7; 8] [1; 2] = Ok [1; 7; 8; 2] /\ gv_insert_n 2 2 9 [1; 2; 3] = Ok [1; 2; 9; 9; 3].
Proof. repeat split. Qed.
Print Assumptions C172_join.
Print Assumptions C172_concat.
Print Assumptions C172_cat.
Print Assumptions C172_insert.
Print Assumptions C172_insert_outside_refuted.
Print Assumptions C172_unsqueeze.

(* ---- C173 ---- *)
Theorem C173_entries p a r : at_end (p ++ a :: r) (zlen p) = Ok a /\ at_end (p ++ a :: r) (- 1 - zlen r) = Ok a /\ at_back (p ++ a :: r) (zlen r) = Ok a.
Proof. destruct (at_end_ok p a r) as (A & B). split; [exact A|]. split; [exact B|apply at_back_ok]. Qed.
Theorem C173_outside_refuted l i : ~ (- zlen l <= i < zlen l) -> at_end l i = UB.
Proof. apply at_end_ub. Qed.
Theorem C173_set_back p a r x : gv_set_back (zlen r) x (p ++ a :: r) = Ok (p ++ x :: r).
Proof. apply set_back_ok. Qed.
Theorem C173_first_last a p : gv_first (a :: p) = Ok a /\ gv_last (p ++ [a]) = Ok a /\ gv_first [] = UB /\ gv_last [] = UB.
Proof. split; [reflexivity|]. split; [|split; reflexivity]. unfold gv_last. rewrite app_length. cbn [length]. replace (Z.of_nat (length p + 1) - 1) with (zlen p) by lia. apply zget_snoc. Qed.
Theorem C173_max_min l : l <> [] -> exists M m, gv_max l = Ok M /\ gv_min l = Ok m /\ In M l /\ In m l /\ forall x, In x l -> m <= x <= M.
Proof.
  destruct l as [|a r]; [easy|]. intros _. destruct (max_ok a r) as (M & E & I & H). destruct (min_ok a r) as (m & E' & I' & H'). exists M, m. repeat split; auto.
Qed.
Theorem C173_empty_refuted : gv_max [] = UB /\ gv_min [] = UB.
Proof. split; reflexivity. Qed.
Theorem C173_times x l : gv_times x l = Ok (map (fun a => a * x) l) /\ gv_to_vector l = Ok l.
Proof. split; [apply times_ok|apply to_vector_ok]. Qed.
Example C173_case : at_end [4; 5; 6] (-1) = Ok 6 /\ at_back [4; 5; 6] 2 = Ok 4 /\ gv_set_back 0 9 [4; 5; 6] = Ok [4; 5; 9] /\ gv_max [4; 7; 2] = Ok 7 /\ gv_min [4; 7; 2] = Ok 2 /\ gv_times 3 [1; 2] = Ok [3; 6].
Proof. repeat split. Qed.
Print Assumptions C173_entries.
Print Assumptions C173_outside_refuted.
Print Assumptions C173_set_back.
Print Assumptions C173_first_last.
Print Assumptions C173_max_min.
Print Assumptions C173_empty_refuted.
Print Assumptions C173_times.

(* ---- C174 ---- *)
Theorem C174_cat x y dx dy : length x = length dx -> exists z, gi_cat x y = Ok z /\ flat z (dx ++ dy) = flat x dx * prod dy + flat y dy.
Proof. intro L. exists (x ++ y). split; [apply join_ok|now apply flat_app]. Qed.
(* building from a vector drops the negative entries and keeps the order of the others *)
Theorem C174_of x : gi_of x = filter (fun p => 0 <=? p) x /\ (nonneg x -> gi_of x = x).
Proof.
  split; [apply gi_of_ok|]. intro H. rewrite gi_of_ok. induction H as [|a l Ha H IH]; [reflexivity|]. cbn [filter]. replace (0 <=? a) with true by lia. now rewrite IH.
Qed.
Theorem C174_dot chk ix s : ((length ix <= length s)%nat -> gi_dot chk ix s = Ok (place s ix)) /\ ((length s < length ix)%nat -> gi_dot true ix s = Throw).
Proof. split; [apply gi_dot_ok|]. intro L. unfold gi_dot, passert. now replace (length ix <=? length s)%nat with false by (symmetry; now apply Nat.leb_gt). Qed.
Theorem C174_eq x y : exists b, gi_eq x y = Ok b /\ (b = true <-> x = y).
Proof. apply gi_eq_ok. Qed.
Example C174_case : gi_cat [1; 2] [3] = Ok [1; 2; 3] /\ gi_of [3; -1; 0] = [3; 0] /\ gi_dot true [1; 2; 3] [60; 20; 5] = Ok 115 /\ gi_eq [1; 2] [1; 3] = Ok false.
Proof. repeat split. Qed.
Print Assumptions C174_cat.
Print Assumptions C174_of.
Print Assumptions C174_dot.
Print Assumptions C174_eq.
