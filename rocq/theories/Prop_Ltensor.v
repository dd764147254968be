(* Prop_Ltensor.v -- C101 to C104: tensors with labelled batch and grid dimensions.  [lshape x B g c] (Spec_Ltensor) says that x has the batch
   dimension B (None: none), then the grid dimensions g, then the cell dimensions c, and is labelled so. *)
From Verif Require Import Base BaseFacts Model_Index Model_View Model_Tensor Model_Ops Model_RView Model_Ltensor Spec_Index Spec_View Spec_Tensor Spec_RView Spec_Ltensor Checks
  Proofs_Index Proofs_View Proofs_View2 Proofs_Tensor Proofs_Tensor2 Proofs_Tensor3 Proofs_Tensor4 Prop_View Prop_Tensor Proofs_Ltensor Proofs_Ltensor2 Proofs_Ltensor3 Model_Ltensor.
Local Open Scope Z_scope.

(* ---- C101 ---- *)
Theorem C101_shape : forall x B g c, lshape x B g c ->
  nbatch x = Ok match B with Some b => b | None => 1 end /\ gdims x = Ok g /\ cdims x = Ok c /\
  ncdims x = Z.of_nat (length c) /\ (forall i, (i < length c)%nat -> cdim (Z.of_nat i) x = Ok (nth i c 0)) /\
  (forall i, Z.of_nat (length c) <= i -> cdim i x = Throw /\ cstride i x = Throw).
Proof.
  intros x B g c S. split; [eapply nbatch_ok; exact S|]. split; [eapply gdims_ok; exact S|]. split; [eapply cdims_ok; exact S|]. split; [eapply ncdims_ok; exact S|]. split; [intros; eapply cdim_ok; eassumption|].
  intros i Hi. unfold cdim, cstride. rewrite (nbgdims_ok _ _ _ _ S). destruct S as (_ & D & _). unfold ndims. rewrite D. replace (_ <? _) with false by (rewrite !app_length; lia). split; reflexivity.
Qed.
Print Assumptions C101_shape.
Theorem C101_batch : forall x B g c i, lshape x (Some B) g c -> 0 <= i < B ->
  exists y, batch i x = Ok y /\ lshape y None g c /\ shows (lview y) (lview x) (cons i).
Proof. exact batch_ok. Qed.
Print Assumptions C101_batch.
Theorem C101_cell : forall x g c ix, lshape x None g c -> in_range ix g ->
  exists y, cell ix x = Ok y /\ lshape y None [] c /\ shows (lview y) (lview x) (app ix).
Proof. exact cell_ok. Qed.
Print Assumptions C101_cell.
Theorem C101_cell_of_batch : forall x B g c b ix, lshape x (Some B) g c -> 0 <= b < B -> in_range ix g ->
  exists y, cell_b b ix x = Ok y /\ lshape y None [] c /\ shows (lview y) (lview x) (fun jx => b :: ix ++ jx).
Proof. exact cell_b_ok. Qed.
Print Assumptions C101_cell_of_batch.
Theorem C101_batched_cell : forall x B g c ix, lshape x B g c -> in_range ix g ->
  exists y, batched_cell ix x = Ok y /\ lshape y B [] c /\
    shows (lview y) (lview x) (fun jx => match B with Some _ => hd 0 jx :: ix ++ tl jx | None => ix ++ jx end).
Proof. exact batched_cell_ok. Qed.
Print Assumptions C101_batched_cell.
(* the traversals visit every batch, every cell, once, in row-major order of their indices; g must not be empty *)
Theorem C101_visits_partial :
  (forall x B g c, lshape x (Some B) g c -> exists visits, map fst visits = zrange B /\ Forall (fun p => batch (fst p) x = Ok (snd p)) visits /\
     forall S (f : Z -> ltensor -> S -> res S) st, for_each_batch f x st = foldM (fun p => f (fst p) (snd p)) visits st) /\
  (forall x g c, lshape x None g c -> g <> [] -> exists visits, map fst visits = all_indices g /\ Forall (fun p => cell (fst p) x = Ok (snd p)) visits /\
     forall S (f : list Z -> ltensor -> S -> res S) st, for_each_cell f x st = foldM (fun p => f (fst p) (snd p)) visits st) /\
  (forall x B g c, lshape x (Some B) g c -> g <> [] ->
     exists visits, map fst visits = list_prod (zrange B) (all_indices g) /\ Forall (fun p => cell_b (fst (fst p)) (snd (fst p)) x = Ok (snd p)) visits /\
     forall S (f : Z -> list Z -> ltensor -> S -> res S) st, for_each_cell_b f x st = foldM (fun p => f (fst (fst p)) (snd (fst p)) (snd p)) visits st).
Proof. split; [exact each_batch_ok|]. split; [exact each_cell_ok|exact each_cell_b_ok]. Qed.
Print Assumptions C101_visits_partial.
(* every element belongs to exactly one cell, at exactly one place *)
Theorem C101_partition : forall x B g c jx, lshape x (Some B) g c -> in_range jx (vdims (lview x)) ->
  exists b ix kx y, 0 <= b < B /\ in_range ix g /\ in_range kx c /\ cell_b b ix x = Ok y /\ vaddr (lview y) kx = vaddr (lview x) jx /\
    forall b' ix' kx', length ix' = length ix -> b' :: ix' ++ kx' = jx -> b' = b /\ ix' = ix /\ kx' = kx.
Proof.
  intros x B g c jx S Hj. pose proof S as (_ & D & _). rewrite D in Hj. cbn [olist app] in Hj. inversion Hj as [|b ? r ? Hb Hr]; subst. apply in_range_app_e in Hr as (ix & kx & -> & Hi & Hk).
  destruct (cell_b_ok x B g c b ix S Hb Hi) as (y & E & Sy & Sh). exists b, ix, kx, y. repeat (split; [assumption|]). split; [apply Sh; destruct Sy as (_ & -> & _); exact Hk|].
  intros b' ix' kx' L Eq. injection Eq as -> Eq. apply app_inj_pre in Eq as [-> ->]; auto.
Qed.
Print Assumptions C101_partition.
Theorem C101_rejects : forall x B g c, lshape x B g c ->
  (B = None -> forall i ix, batch i x = Throw /\ cell_b i ix x = Throw) /\
  (B <> None -> forall ix, cell ix x = Throw) /\
  (forall b ix, Z.of_nat (length ix) <> Z.of_nat (length g) -> cell ix x = Throw /\ cell_b b ix x = Throw /\ batched_cell ix x = Throw) /\
  (forall b ix n, B = Some n -> n <= b -> cell_b b ix x = Throw).
Proof.
  intros x B g c S. pose proof (nbatch_ok _ _ _ _ S) as EN. destruct S as (_ & D & Lb & Lg). split; [|split; [|split]].
  - intros -> i ix. unfold batch, cell_b. now rewrite Lb.
  - intros HB ix. unfold cell. rewrite Lb. now destruct B.
  - intros b ix H. unfold cell, cell_b, batched_cell. rewrite Lb, Lg, EN. replace (Z.of_nat (length ix) =? _) with false by lia. destruct B; cbn [negb assrt bind]; split; auto. split; [|reflexivity]. now destruct (_ <? _).
  - intros b ix n -> Hb. unfold cell_b. rewrite Lb, EN. cbn [assrt bind]. now replace (b <? n) with false by lia.
Qed.
Print Assumptions C101_rejects.
(* an unbatched tensor counts one batch, which cannot be visited *)
Theorem C101_unbatched_refuted : forall x g c S (f : Z -> ltensor -> S -> res S) st, lshape x None g c -> nbatch x = Ok 1 /\ for_each_batch f x st = Throw.
Proof.
  intros x g c S f st Sh. pose proof (nbatch_ok _ _ _ _ Sh) as EN. split; [exact EN|]. unfold for_each_batch. rewrite EN. cbn [bind]. unfold forZ. change (zrange 1) with [0]. cbn [foldM]. rewrite batch_throw by (now destruct Sh as (_ & _ & -> & _)). reflexivity.
Qed.
Print Assumptions C101_unbatched_refuted.
(* a tensor without grid is one cell, which is not visited *)
Theorem C101_no_grid_refuted : forall x c S (f : list Z -> ltensor -> S -> res S) st, lshape x None [] c ->
  (exists y, cell [] x = Ok y /\ vdims (lview y) = vdims (lview x)) /\ for_each_cell f x st = Ok st.
Proof.
  intros x c S f st Sh. split.
  - destruct (cell_ok x [] c [] Sh) as (y & E & (_ & Dy & _) & _); [constructor|]. exists y. split; [exact E|]. destruct Sh as (_ & D & _). now rewrite D, Dy.
  - unfold for_each_cell. rewrite (gdims_ok _ _ _ _ Sh). destruct Sh as (_ & _ & -> & _). reflexivity.
Qed.
Print Assumptions C101_no_grid_refuted.
(* grid positions, and negative batches, are not checked: the cell returned lies outside the tensor *)
Theorem C101_outside_refuted : exists x y z, lshape x (Some 2) [2] [3] /\ ~ in_range [5] [2] /\ cell_b 0 [5] x = Ok y /\ ~ part_of (lview y) (lview x) /\ cell_b (-1) [0] x = Ok z /\ ~ part_of (lview z) (lview x).
Proof.
  exists (lt_bg 0 2 [2] [3]), (LT (View 0 15 [3] [1]) (DL false 0)), (LT (View 0 (-6) [3] [1]) (DL false 0)). split; [apply lt_bg_ok; [lia|repeat constructor; lia..]|].
  assert (IN := fresh_inside 0 [2; 2; 3]). destruct IN as [IN _]; [repeat constructor; lia|].
  split; [intro H; inversion H; lia|]. split; [reflexivity|]. split; [|split; [reflexivity|]]; intro H; destruct (H [0]) as (jx & Hj & E); try (constructor; [lia|constructor]); destruct (IN jx Hj) as (a & Ea & Ha); change (lview (lt_bg 0 2 [2] [3])) with (fresh_view 0 [2; 2; 3]) in E; rewrite Ea in E; injection E as E; subst a; vm_compute in Ha; destruct Ha; discriminate || congruence.
Qed.
Print Assumptions C101_outside_refuted.
Example C101_case : lshape (LT (View 7 5 [2; 3; 4] [50; 1; 6]) (DL true 1)) (Some 2) [3] [4] /\ in_range [2] [3] /\
  cell_b 1 [2] (LT (View 7 5 [2; 3; 4] [50; 1; 6]) (DL true 1)) = Ok (LT (View 7 57 [4] [6]) (DL false 0)).
Proof. split; [|split; [repeat constructor; lia|reflexivity]]. split; [split; [reflexivity|repeat constructor; lia]|]. now repeat split. Qed.

(* ---- C102 ---- *)
Theorem C102_batch_and_grid : forall blk b g d, 0 < b -> nonneg g -> nonneg d -> lshape (lt_bg blk b g d) (Some b) g d /\ lshape (lt_b blk b d) (Some b) [] d.
Proof. intros. split; [now apply lt_bg_ok|now apply lt_b_ok]. Qed.
Print Assumptions C102_batch_and_grid.
Theorem C102_spec : forall b s, 0 <= sbatch s -> nonneg (sgrid s) -> nonneg (sdims s) ->
  lshape (lt_spec b s) (if 0 <? sbatch s then Some (sbatch s) else None) (sgrid s) (sdims s) /\ vblk (lview (lt_spec b s)) = b.
Proof. exact lt_spec_ok. Qed.
Print Assumptions C102_spec.
(* a tensor built from the specification of x has the shape and the labels of x, if x has batches or is not batched *)
Theorem C102_spec_round_trip : forall b x B g c, lshape x B g c -> B <> Some 0 ->
  exists s, spec_of (vdims (lview x)) (llab x) = Ok s /\ vdims (lview (lt_spec b s)) = vdims (lview x) /\ llab (lt_spec b s) = llab x.
Proof.
  intros b x B g c Sh HB. eexists. split; [eapply spec_of_ok; exact Sh|]. destruct Sh as ((_ & N) & D & L1 & L2). rewrite D in *. unfold lt_spec, lt_labelled, spec_dims, spec_labels. cbn [lview llab fresh_view vdims sbatch sgrid sdims].
  destruct B as [n|]; cbn [olist] in *.
  - assert (0 < n) by (inversion N; subst; assert (n <> 0) by congruence; lia). replace (0 <? n) with true by lia. split; [reflexivity|]. destruct (llab x). cbn in *. congruence.
  - split; [reflexivity|]. destruct (llab x). cbn in *. congruence.
Qed.
Print Assumptions C102_spec_round_trip.
Theorem C102_spec_zero_refuted : forall b x g c, lshape x (Some 0) g c ->
  exists s, spec_of (vdims (lview x)) (llab x) = Ok s /\ vdims (lview (lt_spec b s)) <> vdims (lview x) /\ batched (llab (lt_spec b s)) = false.
Proof.
  intros b x g c Sh. eexists. split; [eapply spec_of_ok; exact Sh|]. destruct Sh as (_ & D & _). rewrite D. split; [|reflexivity]. cbn. intro E. apply (f_equal (@length Z)) in E. cbn in E. lia.
Qed.
Print Assumptions C102_spec_zero_refuted.
(* with no batches asked for, the tensor gets a batch dimension of length 0: it has no elements, and is labelled unbatched with as many grid dimensions as asked for *)
Theorem C102_no_batch_refuted : forall blk g d, nonneg g -> nonneg d -> vdims (lview (lt_bg blk 0 g d)) = 0 :: g ++ d /\ (forall ix, ~ in_range ix (vdims (lview (lt_bg blk 0 g d)))) /\
  asize (vdims (lview (lt_bg blk 0 g d))) = 0 /\ batched (llab (lt_bg blk 0 g d)) = false /\ (g <> [] -> gdims (lt_bg blk 0 g d) = Ok (0 :: removelast g)).
Proof.
  intros blk g d _ _. cbn [lt_bg lview fresh_view vdims bgdims llab batched]. split; [reflexivity|]. split; [intros ix H; inversion H; lia|]. split; [rewrite asize_prod; reflexivity|]. split; [reflexivity|]. intro Hg. destruct (bg_last g Hg) as (p & k & ->). rewrite removelast_last.
  unfold gdims, dl_grid. cbn [lt_bg lview fresh_view vdims bgdims llab batched narray Z.eqb negb b2z]. replace (bgdims 0 (p ++ [k]) d) with ((0 :: p) ++ k :: d) by (unfold bgdims; cbn; now rewrite <- app_assoc). replace (length (p ++ [k])) with (length (0 :: p)) by (rewrite app_length; cbn; lia). apply chunk_begin.
Qed.
Print Assumptions C102_no_batch_refuted.
(* what a new tensor holds, with the fill flags zero, ones, sequential, gaussian *)
Theorem C102_filled : forall V (zero one : V) of_int rnd junk b dims (m : mem V) ix, nonneg dims -> in_range ix dims ->
  let el k := elem (new_mem zero one of_int rnd junk (fill_code k) b (asize dims) m) (fresh_view b dims) ix in
  el 0%nat = Some zero /\ el 2%nat = Some one /\ el 3%nat = Some (of_int (flat ix dims)) /\ el 4%nat = Some (rnd (flat ix dims)) /\
  elem (new_mem zero one of_int rnd junk code_zero b (asize dims) m) (fresh_view b dims) ix = Some zero /\
  elem (new_mem zero one of_int rnd junk code_gaussian b (asize dims) m) (fresh_view b dims) ix = Some (rnd (flat ix dims)).
Proof. intros V zero one of_int rnd junk b dims m ix N H el. unfold el. rewrite !new_mem_ok by assumption. now repeat split. Qed.
Print Assumptions C102_filled.
(* the static function ones returns what the memory held *)
Theorem C102_ones_refuted : forall V (zero one : V) of_int rnd junk b dims (m : mem V) ix, nonneg dims -> in_range ix dims ->
  elem (new_mem zero one of_int rnd junk code_ones b (asize dims) m) (fresh_view b dims) ix = Some (junk (flat ix dims)).
Proof. intros. now rewrite new_mem_ok. Qed.
Print Assumptions C102_ones_refuted.
Theorem C102_copy : forall V (z : V) b x (m : mem V) B g c, lshape x B g c -> readable m (lview x) ->
  Forall (fun s => s < INT_MAX) (strides_of 1 (vdims (lview x))) -> (forall a, m b a = None) ->
  exists r m', lt_copy z b x m = Ok (r, m') /\ lshape r B g c /\
    (forall ix, in_range ix (vdims (lview x)) -> elem m' (lview r) ix = elem m (lview x) ix) /\
    disjoint_views (lview r) (lview x) /\ (forall b' a, b' <> b -> m' b' a = m b' a).
Proof. exact @copy_lt_ok. Qed.
Print Assumptions C102_copy.
Example C102_case : let x := LT (View 0 3 [2; 2; 3] [1; 40; 6]) (DL true 1) in lshape x (Some 2) [2] [3] /\ readable ex_mem (lview x) /\
  Forall (fun s => s < INT_MAX) (strides_of 1 (vdims (lview x))) /\ (forall a, ex_mem 5 a = None) /\ spec_of (vdims (lview x)) (llab x) = Ok (LS 2 [2] [3]).
Proof. cbv zeta. split; [split; [split; [reflexivity|repeat constructor; lia]|now repeat split]|]. split; [by_check|]. split; [repeat constructor|]. split; [intro a; reflexivity|reflexivity]. Qed.

(* ---- C103 ---- *)
(* when batch and grid are evenly spaced in memory, the fused views show cell ix at the row-major position of ix *)
Theorem C103_fused_partial : forall x B g c s, lshape x B g c -> evenly_spaced x (olist B ++ g) s -> 0 < s -> positive (olist B ++ g) ->
  total_bgdims x = Ok (prod (olist B ++ g)) /\
  (forall n, c = [n] -> exists w, bg_fused2 x = Ok w /\ vdims w = [prod (olist B ++ g); n] /\
     forall ix k, in_range ix (olist B ++ g) -> 0 <= k < n -> vaddr w [flat ix (olist B ++ g); k] = vaddr (lview x) (ix ++ [k])) /\
  (forall n l, c = [n; l] -> exists w, bg_fused3 x = Ok w /\ vdims w = [prod (olist B ++ g); n; l] /\
     forall ix k j, in_range ix (olist B ++ g) -> 0 <= k < n -> 0 <= j < l -> vaddr w [flat ix (olist B ++ g); k; j] = vaddr (lview x) (ix ++ [k; j])).
Proof.
  intros x B g c s Sh Ev Hs P. split; [apply (total_ok x B g c s Sh Ev); lia|]. split.
  - intros n ->. destruct (fused2_ok x B g n s Sh Ev Hs P) as (w & A & A' & _ & H). eauto.
  - intros n l ->. destruct (fused3_ok x B g n l s Sh Ev Hs P) as (w & A & A' & _ & H). eauto.
Qed.
Print Assumptions C103_fused_partial.
Theorem C103_fused_rejects : forall x B g c, lshape x B g c -> (length c <> 1%nat -> bg_fused2 x = Throw) /\ (length c <> 2%nat -> bg_fused3 x = Throw).
Proof. intros x B g c Sh. unfold bg_fused2, bg_fused3. rewrite (ncdims_ok _ _ _ _ Sh). split; intro H; [now replace (_ =? 1) with false by lia|now replace (_ =? 2) with false by lia]. Qed.
Print Assumptions C103_fused_rejects.
(* the product of every cell of x, a matrix, with the first cell of y; the rows of all the cells of x must be evenly spaced *)
Theorem C103_mult_partial : forall (R : cring) x y (m : mem (car R)) b B g a n By gy k s, lshape x B g [a; n] -> lshape y By gy [n; k] ->
  evenly_spaced x (olist B ++ g ++ [a]) s -> 0 < s -> positive (olist B ++ g ++ [a]) -> 0 < k ->
  readable m (lview x) -> readable m (lview y) -> positive (olist By ++ gy) -> vblk (lview x) <> b -> vblk (lview y) <> b ->
  exists r m', lt_mult b x y m = Ok (r, m') /\ lshape r B g [a; k] /\ vblk (lview r) = b /\
    (forall ix i j, in_range ix (olist B ++ g) -> 0 <= i < a -> 0 <= j < k ->
       elem m' (lview r) (ix ++ [i; j]) = Some (rsum (map (fun l => cmul (elem0 m (lview x) (ix ++ [i; l])) (elem0 m (lview y) (repeat 0 (length (olist By ++ gy)) ++ [l; j]))) (zrange n)))) /\
    (forall b' p, b' <> b -> m' b' p = m b' p).
Proof. exact @mult_ok. Qed.
Print Assumptions C103_mult_partial.
(* a grid broadcast along its last dimension cannot be counted: the strides are divided by 0 *)
Theorem C103_broadcast_refuted : forall x B g n c, lshape x B (g ++ [n]) c -> nth (length (olist B ++ g)) (vstr (lview x)) 0 = 0 -> total_bgdims x = UB.
Proof.
  intros x B g n c Sh H0. unfold total_bgdims. rewrite (nbgdims_ok _ _ _ _ Sh). destruct Sh as ((L & _) & D & _). rewrite D in L. rewrite !app_length in *. cbn [length] in *. replace (_ =? 0) with false by lia.
  rewrite D. destruct (olist B ++ (g ++ [n]) ++ c) as [|d0 ds] eqn:Ed; [apply (f_equal (@length Z)) in Ed; rewrite !app_length in Ed; cbn in Ed; lia|]. destruct (vstr (lview x)) as [|s0 ss] eqn:Es; [cbn in L; lia|].
  change (zget (d0 :: ds) 0) with (Ok d0). change (zget (s0 :: ss) 0) with (Ok s0). cbn [bind]. rewrite zget_nth_ok by lia. replace (Z.to_nat _) with (length (olist B) + length g)%nat by lia. rewrite H0. reflexivity.
Qed.
Print Assumptions C103_broadcast_refuted.
(* a transposed grid of n times k cells is counted as one cell *)
Theorem C103_transposed_refuted : forall blk n k c, 0 < n -> 0 < k -> 0 < c -> let x := LT (View blk 0 [n; k; c] [c; n * c; 1]) (DL false 2) in
  lshape x None [n; k] [c] /\ distinct_cells (lview x) /\ total_bgdims x = Ok 1.
Proof.
  intros blk n k c Hn Hk Hc x. split; [|split].
  - split; [split; [reflexivity|repeat constructor; lia]|now repeat split].
  - intros ix jx Hi Hj E. inversion Hi as [|i0 ? r0 ? H0 R0]; subst. inversion R0 as [|i1 ? r1 ? H1 R1]; subst. inversion R1 as [|i2 ? r2 ? H2 R2]; subst. inversion R2; subst.
    inversion Hj as [|j0 ? q0 ? G0 S0]; subst. inversion S0 as [|j1 ? q1 ? G1 S1]; subst. inversion S1 as [|j2 ? q2 ? G2 S2]; subst. inversion S2; subst.
    assert (W : vwf (lview x)) by (split; [reflexivity|repeat constructor; lia]). rewrite !vaddr_in_range in E by assumption. unfold x in E. cbn [vblk voff vstr lview dot] in E.
    assert (i2 = j2 /\ i0 + n * i1 = j0 + n * j1) as [-> E2].
    { assert (K : c * (i0 + n * i1) + i2 = c * (j0 + n * j1) + j2) by (assert (E' : 0 + (c * i0 + (n * c * i1 + (1 * i2 + 0))) = 0 + (c * j0 + (n * c * j1 + (1 * j2 + 0)))) by congruence; clear E; lia). clear -K H2 G2 Hc. destruct (Z.div_mod_unique c (i0 + n * i1) (j0 + n * j1) i2 j2) as [Q P]; [left; lia|left; lia|lia|auto]. }
    destruct (Z.div_mod_unique n i1 j1 i0 j0) as [-> ->]; [left; lia|left; lia|lia|reflexivity].
  - unfold x, total_bgdims, nbgdims. cbn [llab batched narray lview vdims vstr b2z Z.add Z.eqb]. change (zget [n; k; c] 0) with (Ok n). change (zget [c; n * c; 1] 0) with (Ok c). change (zget [c; n * c; 1] (2 - 1)) with (Ok (n * c)). cbn [bind]. unfold cdiv. replace (n * c =? 0) with false by nia. f_equal. apply Z.quot_same. nia.
Qed.
Print Assumptions C103_transposed_refuted.
Example C103_case : let x := LT (View 0 0 [2; 3; 2; 2] [12; 4; 2; 1]) (DL true 1) in let y := LT (View 1 0 [2; 2] [2; 1]) (DL false 0) in
  lshape x (Some 2) [3] [2; 2] /\ evenly_spaced x [2; 3; 2] 2 /\ evenly_spaced x [2; 3] 4 /\ positive [2; 3; 2] /\ lshape y None [] [2; 2] /\ readable ex_mem (lview x) /\ readable ex_mem (lview y).
Proof. cbv zeta. split; [split; [split; [reflexivity|repeat constructor; lia]|now repeat split]|]. split; [reflexivity|]. split; [reflexivity|]. split; [repeat constructor; lia|]. split; [split; [split; [reflexivity|repeat constructor; lia]|now repeat split]|]. split; by_check. Qed.

(* ---- C104 ---- *)
Theorem C104_columns : forall x p d, vwf (lview x) -> vdims (lview x) = p ++ [d] ->
  (forall i, 0 <= i < d -> exists y, lt_col i x = Ok y /\ vdims (lview y) = p /\ vwf (lview y) /\ vblk (lview y) = vblk (lview x) /\ shows (lview y) (lview x) (fun ix => ix ++ [i])) /\
  (forall i n, 0 <= i -> 0 <= n -> i + n <= d -> exists y, lt_cols i n x = Ok y /\ vdims (lview y) = p ++ [n] /\ vwf (lview y) /\ vblk (lview y) = vblk (lview x) /\
    forall ix k, in_range ix p -> 0 <= k < n -> vaddr (lview y) (ix ++ [k]) = vaddr (lview x) (ix ++ [i + k])) /\
  (forall i, d <= i -> lt_col i x = Throw) /\ (forall i n, d < i + n -> lt_cols i n x = Throw).
Proof.
  intros x p d W D. split; [intros; now apply (lt_col_ok x p d)|]. split; [intros; now apply (lt_cols_ok x p d)|]. unfold lt_col, lt_cols, ndims. destruct (last_split _ _ _ D) as [-> _]. rewrite D.
  split; intros; (replace (0 <? _) with true by (rewrite app_length; cbn; lia)); cbn [assrt]; [now replace (i <? d) with false by lia|now replace (i + n <=? d) with false by lia].
Qed.
Print Assumptions C104_columns.
Theorem C104_unsqueeze : forall x p n q, vwf (lview x) -> vdims (lview x) = p ++ n :: q ->
  exists y, lt_unsqueeze (Z.of_nat (length p)) x = Ok y /\ vdims (lview y) = p ++ 1 :: n :: q /\ vwf (lview y) /\ vblk (lview y) = vblk (lview x) /\
    forall ix jx, in_range ix p -> in_range jx (n :: q) -> in_range (ix ++ 0 :: jx) (vdims (lview y)) /\ vaddr (lview y) (ix ++ 0 :: jx) = vaddr (lview x) (ix ++ jx).
Proof. exact lt_unsqueeze_ok. Qed.
Print Assumptions C104_unsqueeze.
(* a dimension cannot be added at the end *)
Theorem C104_unsqueeze_end_refuted : forall x, lt_unsqueeze (ndims (lview x)) x = Throw.
Proof. intro x. unfold lt_unsqueeze. now rewrite Z.ltb_irrefl. Qed.
Print Assumptions C104_unsqueeze_end_refuted.
(* the remaining manipulations, row, rows, transp, diag, broadcast and split, are those of plain tensors (C07 to C10), and forget the labels *)
Theorem C104_split_broadcast : forall x, vwf (lview x) ->
  (forall p q a b, vdims (lview x) = p ++ a * b :: q -> 0 <= a -> 0 < b ->
     exists y, lt_split (Z.of_nat (length p)) b x = Ok y /\ vdims (lview y) = p ++ a :: b :: q /\ vblk (lview y) = vblk (lview x) /\ same_order (lview y) (lview x)) /\
  (forall d n, (d <= length (vdims (lview x)))%nat -> 0 <= n ->
     exists y, lt_broadcast (Z.of_nat d) n x = Ok y /\ vdims (lview y) = ins d n (vdims (lview x)) /\
       forall ix k, in_range ix (vdims (lview x)) -> 0 <= k < n -> vaddr (lview y) (ins d k ix) = vaddr (lview x) ix) /\
  ((2 <= length (vdims (lview x)))%nat -> exists y, lt_transp x = Ok y /\
     (forall p m n, vdims (lview x) = p ++ [m; n] -> vdims (lview y) = p ++ [n; m]) /\
     forall p i j, length (p ++ [i; j]) = length (vdims (lview x)) -> vaddr (lview y) (p ++ [i; j]) = vaddr (lview x) (p ++ [j; i])) /\
  (forall d0 d1 i n, vdims (lview x) = [d0; d1] -> 0 <= i -> 0 <= n -> i + n <= d0 ->
     exists y, lt_rows i n x = Ok y /\ vdims (lview y) = [n; d1] /\ forall k j, 0 <= k < n -> 0 <= j < d1 -> vaddr (lview y) [k; j] = vaddr (lview x) [i + k; j]) /\
  (forall d0 d1 i, vdims (lview x) = [d0; d1] -> 0 <= i < d0 ->
     exists y, lt_row i x = Ok y /\ vdims (lview y) = [d1] /\ forall j, 0 <= j < d1 -> vaddr (lview y) [j] = vaddr (lview x) [i; j]).
Proof.
  intros x W. split; [|split; [|split; [|split]]].
  - intros p q a b D Ha Hb. destruct (C09_split _ p q a b W D Ha Hb) as ((v & E & Dv & Bv & _ & O) & _). unfold lt_split. rewrite E. exists (plain v). auto.
  - intros d n Hd Hn. destruct (C10_insert_dim _ d n W Hd Hn) as (v & E & Dv & _ & _ & H). unfold lt_broadcast. rewrite E. exists (plain v). split; [reflexivity|]. split; [exact Dv|]. intros. now apply H.
  - intro H2. destruct (C07_transpose _ W H2) as (v & E & _ & _ & Dv & H). unfold lt_transp. rewrite E. exists (plain v). auto.
  - intros d0 d1 i n D Hi Hn Hd. pose proof W as [L _]. rewrite D in L. destruct (vstr (lview x)) as [|s0 [|s1 [|? ?]]] eqn:Es; try discriminate L. destruct (C08_rows_and_columns _ d0 d1 s0 s1 W D Es) as (_ & _ & H & _). destruct (H i n Hi Hn Hd) as (v & E & _ & Dv & Hv). unfold lt_rows. rewrite E. exists (plain v). auto.
  - intros d0 d1 i D Hi. pose proof W as [L _]. rewrite D in L. destruct (vstr (lview x)) as [|s0 [|s1 [|? ?]]] eqn:Es; try discriminate L. destruct (C08_rows_and_columns _ d0 d1 s0 s1 W D Es) as (H & _). destruct (H i Hi) as (v & E & _ & Dv & Hv). unfold lt_row. rewrite E. exists (plain v). auto.
Qed.
Print Assumptions C104_split_broadcast.
Theorem C104_diag : forall x a js n, vwf (lview x) -> (a < length (vdims (lview x)))%nat -> nth a (vdims (lview x)) 0 = n ->
  incr_from (S a) js -> Forall (fun j => (j < length (vdims (lview x)))%nat /\ nth j (vdims (lview x)) 0 = n) js ->
  exists y, lt_diag (map Z.of_nat (a :: js)) x = Ok y /\ vblk (lview y) = vblk (lview x) /\ vdims (lview y) = dels js (vdims (lview x)) /\
    shows (lview y) (lview x) (fun ix => inss js (nth a ix 0) ix).
Proof. intros x a js n W Ha Hn Hi Hj. destruct (C10_diag_many _ a js n W Ha Hn Hi Hj) as (v & E & Bv & Dv & H). unfold lt_diag. rewrite E. exists (plain v). auto. Qed.
Print Assumptions C104_diag.
(* two neighbouring dimensions are fused correctly when the first is the one that runs fastest *)
Theorem C104_fuse_partial : forall x p n k q sp s sq, vwf (lview x) -> vdims (lview x) = p ++ n :: k :: q -> vstr (lview x) = sp ++ s :: n * s :: sq -> length sp = length p ->
  exists y, lt_fuse [Z.of_nat (length p); Z.of_nat (length p) + 1] x = Ok y /\ vdims (lview y) = p ++ n * k :: q /\ vwf (lview y) /\
    forall ix i j jx, in_range ix p -> 0 <= i < n -> 0 <= j < k -> in_range jx q ->
      in_range (ix ++ i + n * j :: jx) (vdims (lview y)) /\ vaddr (lview y) (ix ++ i + n * j :: jx) = vaddr (lview x) (ix ++ i :: j :: jx).
Proof.
  intros x p n k q sp s sq W D E L. eexists. split; [apply fuse_pair with (t := n * s); eassumption|]. cbn [lview plain vdims]. split; [reflexivity|].
  pose proof W as [Lw N]. rewrite D, E, !app_length in Lw. cbn [length] in Lw. rewrite D, nonneg_app in N. destruct N as [N1 N2]. inversion N2 as [|? ? Hn N3]; subst. inversion N3 as [|? ? Hk N4]; subst.
  assert (W' : vwf (View (vblk (lview x)) (voff (lview x)) (p ++ n * k :: q) (sp ++ s :: sq))) by (split; [cbn; rewrite !app_length; cbn; lia|]; cbn; apply nonneg_app; split; [assumption|constructor; [nia|assumption]]).
  split; [exact W'|]. intros ix i j jx Hx Hi Hj Hq. assert (Hr : in_range (ix ++ i + n * j :: jx) (p ++ n * k :: q)) by (apply in_range_app_i; [assumption|constructor; [nia|assumption]]). split; [exact Hr|].
  rewrite !vaddr_in_range; try assumption; [|rewrite D; apply in_range_app_i; [assumption|constructor; [assumption|constructor; assumption]]]. cbn [voff vstr vblk]. rewrite E, !dot_app by (rewrite (in_range_length _ _ Hx); congruence). cbn [dot]. do 2 f_equal. ring.
Qed.
Print Assumptions C104_fuse_partial.
(* fusing the two dimensions of any new matrix gives a view that leaves it *)
Theorem C104_fuse_refuted : forall b n k, 1 < n -> 1 < k ->
  exists y, lt_fuse [0; 1] (plain (fresh_view b [n; k])) = Ok y /\ in_range [n * k - 1] (vdims (lview y)) /\ ~ part_of (lview y) (fresh_view b [n; k]).
Proof.
  intros b n k Hn Hk. assert (N : nonneg [n; k]) by (repeat constructor; lia). assert (W := fresh_wf b [n; k] N).
  assert (Es : vstr (fresh_view b [n; k]) = [k; 1]) by (unfold fresh_view; cbn [vstr]; rewrite !strides_of_cons; change (prod [k]) with (k * 1); change (prod []) with 1; change (strides_of 1 []) with (@nil Z); f_equal; lia).
  pose proof (fuse_pair (plain (fresh_view b [n; k])) [] n k [] [] k 1 [] W eq_refl Es eq_refl) as E. cbn [length Z.of_nat app] in E. eexists. split; [exact E|]. cbn [lview plain vdims].
  assert (Hr : in_range [n * k - 1] [n * k]) by (constructor; [nia|constructor]). split; [exact Hr|]. intro P. destruct (P [n * k - 1]) as (jx & Hj & Ej); [exact Hr|].
  destruct (fresh_inside b [n; k] N) as [IN _]. destruct (IN jx Hj) as (a & Ea & Ha). rewrite Ea in Ej. rewrite vaddr_in_range in Ej; [|split; [reflexivity|repeat constructor; nia]|exact Hr]. cbn [vblk voff vstr lview plain fresh_view dot] in Ej. assert (Ej' : 0 + (k * (n * k - 1) + 0) = a) by congruence. clear Ej. rewrite asize_prod in Ha. change (prod [n; k]) with (n * (k * 1)) in Ha. nia.
Qed.
Print Assumptions C104_fuse_refuted.
Theorem C104_stack : forall (R : cring) b d (l : list ltensor) x0 (m : mem (car R)),
  hd_error (map lview l) = Some x0 -> Forall vwf (map lview l) -> Forall (readable m) (map lview l) ->
  Forall (fun x => (d < length (vdims x))%nat /\ del d (vdims x) = del d (vdims x0)) (map lview l) ->
  Forall (fun s => s < INT_MAX) (strides_of 1 (set_nth d (total_side d (map lview l)) (vdims x0))) ->
  (forall a, m b a = None) ->
  exists r m', lt_stack b (Z.of_nat d) l m = Ok (r, m') /\ vdims (lview r) = set_nth d (total_side d (map lview l)) (vdims x0) /\
    (forall b' a, b' <> b -> m' b' a = m b' a) /\
    forall pre x post ix, l = pre ++ x :: post -> in_range ix (vdims (lview x)) ->
      elem m' (lview r) (set_nth d (total_side d (map lview pre) + nth d ix 0) ix) = elem m (lview x) ix.
Proof.
  intros R b d l x0 m H0 Hw Hr Hd Hs Hb. destruct (stack_ok b d (map lview l) x0 m H0 Hw Hr Hd Hs Hb) as (r & m' & E & Dr & _ & U & H). unfold lt_stack. rewrite E. cbn [bind]. exists (plain r), m'. split; [reflexivity|]. split; [exact Dr|]. split; [exact U|].
  intros pre x post ix -> Hx. apply (H (map lview pre) (lview x) (map lview post)); [now rewrite map_app|assumption].
Qed.
Print Assumptions C104_stack.
(* a list in braces is stacked along the first dimension, whatever dimension is given *)
Theorem C104_stack_list_refuted : forall (R : cring) b d l (m : mem (car R)), lt_stack_list b d l m = lt_stack b 0 l m.
Proof. reflexivity. Qed.
Print Assumptions C104_stack_list_refuted.
(* stacking references never succeeds *)
Theorem C104_stack_refs_refuted : forall (R : cring) b d l (m : mem (car R)) r, lt_stack_refs b d l m <> Ok r.
Proof.
  intros R b d l m r E. unfold lt_stack_refs in E. destruct (map lview l) as [|x0 xs]; [discriminate E|]. unfold assrt at 1 in E. destruct (d <? ndims x0) eqn:Ed; [|discriminate E].
  apply bind_ok in E as (rem & Er & E). apply bind_ok in E as (t & _ & E). apply bind_ok in E as (dd & Edd & E). cbv zeta in E. apply bind_ok in E as (s & Ef & _). cbn [foldM] in Ef.
  apply bind_ok in Ef as (s1 & Ef & _). apply bind_ok in Ef as (n & _ & Ef). apply bind_ok in Ef as (w & Ew & Ef). apply bind_ok in Ef as (m' & Ea & _).
  unfold vremove, assrt in Er. destruct (_ && _) eqn:Q in Er; [|discriminate Er]. injection Er as <-. unfold vset in Edd. destruct (_ || _) in Edd; [discriminate Edd|]. injection Edd as <-.
  unfold slices in Ew. apply bind_ok in Ew as (sw & _ & Ew). apply bind_ok in Ew as (dw & Edw & Ew). injection Ew as <-. unfold vset in Edw. destruct (_ || _) in Edw; [discriminate Edw|]. injection Edw as <-.
  unfold tv_add, assrt in Ea. cbn [vdims fresh_view] in Ea. destruct (eqlb _ _) eqn:Q2 in Ea; [|discriminate Ea]. apply eqlb_eq in Q2. apply (f_equal (@length Z)) in Q2. rewrite !set_nth_length, app_length, firstn_length in Q2. change (match vdims x0 with [] => [] | _ :: l0 => skipn (Z.to_nat d) l0 end) with (skipn (S (Z.to_nat d)) (vdims x0)) in Q2. rewrite skipn_length in Q2. lia.
Qed.
Print Assumptions C104_stack_refs_refuted.
Example C104_case : let x := LT (View 7 5 [2; 3; 4] [1; 2; 6]) (DL true 1) in vwf (lview x) /\ lt_col 3 x = Ok (plain (View 7 23 [2; 3] [1; 2])) /\
  lt_fuse [0; 1] x = Ok (plain (View 7 5 [6; 4] [1; 6])) /\ lt_unsqueeze 1 x = Ok (plain (View 7 5 [2; 1; 3; 4] [1; 2; 2; 6])).
Proof. cbv zeta. split; [split; [reflexivity|repeat constructor; lia]|]. now repeat split. Qed.
