(* Prop_Block.v -- C63, C64: block sparse matrices and the storage of sparse tensors. *)
From Coq Require Import ZArith List Bool Lia Permutation.
Import ListNotations.
From Verif Require Import Base BaseFacts Map Model_Containers Proofs_Containers Proofs_Containers2 Proofs_Containers4 Model_Index Model_View Model_Tensor
  Spec_Index Spec_View Spec_Tensor Proofs_Index Proofs_View Proofs_View2 Proofs_Tensor Proofs_Tensor2 Proofs_Tensor3 Model_Block Spec_Block Proofs_Block Proofs_Block2 Proofs_Block3.
Local Open Scope Z_scope.

(* ---- C63.  The matrix A stands for: bentry A m I J. ---- *)
Section C63.
Context {R : cring}.
Notation memR := (mem (car R)).
(* the listed blocks are the ones present, each with its own storage, and the matrix is zero outside them *)
Theorem C63_blocks A mask (m : memR) : made_from A mask ->
  (forall i j, bc_is_filled A i j = true <-> In (i, j) mask) /\
  (forall i j, In (i, j) mask -> exists v, bc_block A i j = Ok v /\ vdims v = [bbn A; bbm A] /\ forall a b, 0 <= a < bbn A -> 0 <= b < bbm A -> bentry A m (i * bbn A + a) (j * bbm A + b) = elem0 m v [a; b]) /\
  (forall i j a b, ~ In (i, j) mask -> 0 <= a < bbn A -> 0 <= b < bbm A -> bentry A m (i * bbn A + a) (j * bbm A + b) = c0).
Proof.
  intros (nb & mb & bn & bm & b0 & -> & Hbn & Hbm & Hnb & Hmb & Hm). set (A := bc_make nb mb bn bm mask b0). change (bbn A) with bn. change (bbm A) with bm.
  assert (F : forall i j, bc_is_filled A i j = match mom_find i j (otab mask) with Some _ => true | None => false end). { intros i j. unfold bc_is_filled, mom_find, mom_row. change (Model_Containers.rmap (boffs A)) with (otab mask). destruct (mfind i (otab mask)) as [r|]; reflexivity. }
  assert (Wm : vwf (bmx A)). { split; [reflexivity|]. change (vdims (bmx A)) with [zlen mask; bn; bm]. unfold zlen. repeat constructor; lia. }
  split; [|split].
  - intros i j. rewrite F. pose proof (otab_none mask i j) as N. destruct (mom_find i j (otab mask)) as [t|] eqn:E.
    + split; [|reflexivity]. intros _. apply otab_some in E as [_ E]. now apply nth_error_In in E.
    + split; [discriminate|]. intro H. exfalso. now apply N.
  - intros i j Hin. destruct (mom_find i j (otab mask)) as [t|] eqn:E; [|apply otab_none in E; contradiction].
    destruct (slice0_ok (bmx A) t (zlen mask) bn bm Wm eq_refl) as (v & Ev & _ & Dv & Av). exists v. split.
    + unfold bc_block. rewrite Forall_forall in Hm. specialize (Hm _ Hin). cbn in Hm. change (bnb A) with nb. change (bmb A) with mb. replace (i <? nb) with true by (symmetry; apply Z.ltb_lt; lia). replace (j <? mb) with true by (symmetry; apply Z.ltb_lt; lia). cbn [assrt].
      rewrite bc_offset_find. change (Model_Containers.rmap (boffs A)) with (otab mask). rewrite E. exact Ev.
    + split; [exact Dv|]. intros a b Ha Hb. unfold bentry. change (bbn A) with bn. change (bbm A) with bm. destruct (div_block i bn a Hbn Ha) as [-> ->]. destruct (div_block j bm b Hbm Hb) as [-> ->].
      rewrite bc_offset_find. change (Model_Containers.rmap (boffs A)) with (otab mask). rewrite E. unfold elem0, elem. now rewrite Av.
  - intros i j a b Hin Ha Hb. unfold bentry. change (bbn A) with bn. change (bbm A) with bm. destruct (div_block i bn a Hbn Ha) as [-> _]. destruct (div_block j bm b Hbm Hb) as [-> _].
    rewrite bc_offset_find. change (Model_Containers.rmap (boffs A)) with (otab mask). destruct (mom_find i j (otab mask)) as [t|] eqn:E; [|reflexivity]. exfalso. apply Hin. apply otab_some in E as [_ E]. now apply nth_error_In in E.
Qed.
Theorem C63_apply A mask r x C (m : memR) : made_from A mask -> operand m r (bnb A * bbn A) C -> operand m x (bmb A * bbm A) C -> readable m (bmx A) ->
  distinct_cells r -> disjoint_views r x -> disjoint_views r (bmx A) ->
  exists m', bc_apply A r x m = Ok m' /\ untouched m m' r /\
    forall I c, 0 <= I < bnb A * bbn A -> 0 <= c < C ->
      elem m' r [I; c] = Some (cadd (elem0 m r [I; c]) (rsum (map (fun J => cmul (bentry A m I J) (elem0 m x [J; c])) (zrange (bmb A * bbm A))))).
Proof. apply apply_ok. Qed.
Theorem C63_apply_transp A mask r x C (m : memR) : made_from A mask -> operand m r (bmb A * bbm A) C -> operand m x (bnb A * bbn A) C -> readable m (bmx A) ->
  distinct_cells r -> disjoint_views r x -> disjoint_views r (bmx A) ->
  exists m', bc_apply_transp A r x m = Ok m' /\ untouched m m' r /\
    forall J c, 0 <= J < bmb A * bbm A -> 0 <= c < C ->
      elem m' r [J; c] = Some (cadd (elem0 m r [J; c]) (rsum (map (fun I => cmul (bentry A m I J) (elem0 m x [I; c])) (zrange (bnb A * bbn A))))).
Proof. apply apply_transp_ok. Qed.
(* <Ax, y> = <x, A^T y>: r and s start as zeros, m1 is the memory after r = Ax, m2 the one after s = A^T y *)
Add Ring Rr3 : (cth R).
Theorem C63_adjoint A mask r x s y C (m m1 m2 : memR) : made_from A mask -> operand m r (bnb A * bbn A) C -> operand m x (bmb A * bbm A) C -> operand m s (bmb A * bbm A) C -> operand m y (bnb A * bbn A) C -> readable m (bmx A) ->
  distinct_cells r -> disjoint_views r x -> disjoint_views r (bmx A) -> distinct_cells s -> disjoint_views s y -> disjoint_views s (bmx A) ->
  (forall I c, elem0 m r [I; c] = c0) -> (forall J c, elem0 m s [J; c] = c0) ->
  bc_apply A r x m = Ok m1 -> bc_apply_transp A s y m = Ok m2 ->
  forall c d, 0 <= c < C -> 0 <= d < C ->
  rsum (map (fun I => cmul (elem0 m1 r [I; c]) (elem0 m y [I; d])) (zrange (bnb A * bbn A))) = rsum (map (fun J => cmul (elem0 m x [J; c]) (elem0 m2 s [J; d])) (zrange (bmb A * bbm A))).
Proof.
  intros HA Hr Hx Hs Hy Rm Dr Dx Dm Ds Dy Dsm Zr Zs E1 E2 c d Hc Hd.
  destruct (apply_ok A mask r x C m HA Hr Hx Rm Dr Dx Dm) as (m1' & E1' & _ & V1). rewrite E1 in E1'. injection E1' as <-.
  destruct (apply_transp_ok A mask s y C m HA Hs Hy Rm Ds Dy Dsm) as (m2' & E2' & _ & V2). rewrite E2 in E2'. injection E2' as <-.
  transitivity (rsum (map (fun I => rsum (map (fun J => cmul (cmul (bentry A m I J) (elem0 m x [J; c])) (elem0 m y [I; d])) (zrange (bmb A * bbm A)))) (zrange (bnb A * bbn A)))).
  - apply rsum_ext. intros I HI. apply in_zrange in HI. unfold elem0 at 1. rewrite V1 by assumption. rewrite Zr. rewrite rsum_map_mul_r. ring.
  - rewrite rsum_swap. apply rsum_ext. intros J HJ. apply in_zrange in HJ. unfold elem0 at 4. rewrite V2 by assumption. rewrite Zs.
    transitivity (cmul (elem0 m x [J; c]) (rsum (map (fun I => cmul (bentry A m I J) (elem0 m y [I; d])) (zrange (bnb A * bbn A))))); [|ring]. rewrite <- rsum_map_mul_l. apply rsum_ext. intros I _. ring.
Qed.
End C63.
Print Assumptions C63_adjoint.
(* a 4 by 4 matrix of 2 by 2 blocks with blocks (0,1) and (1,0), applied to one column *)
Definition c63_A : bcm := bc_make 2 2 2 2 [(0, 1); (1, 0)] 0.
Definition c63_m : mem (car ZRing) := fun b a =>
  if (b =? 0) && (0 <=? a) && (a <? 8) then Some (a + 1) else if (b =? 1) && (0 <=? a) && (a <? 4) then Some 0 else if (b =? 2) && (0 <=? a) && (a <? 4) then Some (10 ^ a) else None.
Definition c63_r := View 1 0 [4; 1] [1; 1]. Definition c63_x := View 2 0 [4; 1] [1; 1].
Example C63_case : made_from c63_A [(0, 1); (1, 0)] /\ match bc_apply (R := ZRing) c63_A c63_r c63_x c63_m with Ok m' => map (fun i => elem m' c63_r [i; 0]) (zrange 4) = [Some 2100; Some 4300; Some 65; Some 87] | _ => False end /\
  match bc_apply_transp (R := ZRing) c63_A c63_r c63_x c63_m with Ok m' => map (fun i => elem m' c63_r [i; 0]) (zrange 4) = [Some 7500; Some 8600; Some 31; Some 42] | _ => False end.
Proof.
  split; [exists 2, 2, 2, 2, 0; split; [reflexivity|]; repeat split; try lia; repeat constructor; cbn; lia|]. split; vm_compute; reflexivity.
Qed.

(* ---- C64.  l is the list of filled pairs given to the constructor. ---- *)
Theorem C64_listed_pairs_distinct l : sinf (si_make l) = Z.of_nat (length l) /\
  (forall i j, In (i, j) l -> 0 <= si_offset (si_make l) i j < Z.of_nat (length l) /\ nth_error l (Z.to_nat (si_offset (si_make l) i j)) = Some (i, j)) /\
  (forall i j i' j', In (i, j) l -> In (i', j') l -> si_offset (si_make l) i j = si_offset (si_make l) i' j' -> (i, j) = (i', j')) /\
  NoDup (map fst (si_calls (si_make l))) /\ (forall i j t, In (i, j, t) (si_calls (si_make l)) <-> In (i, j) l /\ t = si_offset (si_make l) i j).
Proof.
  assert (F : forall i j, In (i, j) l -> mom_find i j (otab l) = Some (si_offset (si_make l) i j)).
  { intros i j Hin. unfold si_offset. change (Model_Containers.rmap (sitab (si_make l))) with (otab l). destruct (mom_find i j (otab l)) as [t|] eqn:E; [|apply otab_none in E; contradiction].
    unfold mom_find, mom_row in E. unfold mom_get. destruct (mfind i (otab l)) as [r|]; [|discriminate]. now rewrite E. }
  assert (G : forall i j, In (i, j) l -> 0 <= si_offset (si_make l) i j < Z.of_nat (length l) /\ nth_error l (Z.to_nat (si_offset (si_make l) i j)) = Some (i, j)) by (intros i j Hin; now apply otab_some, F).
  split; [apply offsets_count|]. split; [exact G|]. split.
  - intros i j i' j' H H' E. destruct (G i j H) as [_ E1]. destruct (G i' j' H') as [_ E2]. rewrite E in E1. congruence.
  - destruct (otab_wf l) as [W _]. split; [now apply mom_calls_nodup|]. intros i j t. unfold si_calls. change (Model_Containers.rmap (sitab (si_make l))) with (otab l). rewrite mom_calls_in by exact W. split.
    + intro E. assert (Hin : In (i, j) l) by (apply otab_some in E as [_ E]; now apply nth_error_In in E). split; [exact Hin|]. rewrite (F i j Hin) in E. congruence.
    + intros [Hin ->]. now apply F.
Qed.
(* a pair that is not listed is reported as block 0, which belongs to a listed pair when none is listed twice *)
Theorem C64_unlisted_pair_refuted l i j : ~ In (i, j) l -> si_offset (si_make l) i j = 0 /\
  (NoDup l -> forall i0 j0 l', l = (i0, j0) :: l' -> si_offset (si_make l) i0 j0 = 0).
Proof.
  intro H. split.
  - unfold si_offset. change (Model_Containers.rmap (sitab (si_make l))) with (otab l). apply otab_none in H. unfold mom_find, mom_row in H. unfold mom_get. destruct (mfind i (otab l)) as [r|]; [now rewrite H|reflexivity].
  - intros N i0 j0 l' ->. destruct (C64_listed_pairs_distinct ((i0, j0) :: l')) as (_ & G & _). destruct (G i0 j0 (or_introl eq_refl)) as [B E]. set (t := si_offset _ i0 j0) in *.
    destruct (Z.to_nat t) as [|k] eqn:Ek; [lia|]. exfalso. cbn in E. apply nth_error_In in E. inversion N; contradiction.
Qed.
Print Assumptions C64_unlisted_pair_refuted.
(* the blocks of the tensor: the sides after position `split` are contiguous, the block number comes next, the sides before it outermost;
   every element of every listed block has a cell of its own inside the first (number of pairs)*(block size) cells *)
Theorem C64_blocks_tile_storage lo hi l b : hi <> [] -> exists T, stv_make (lo ++ hi) (Z.of_nat (length lo)) l b = Ok T /\
  (nonneg (lo ++ hi) -> forall i j, vwf (stv_block T i j)) /\
  (forall i j ix, In (i, j) l -> in_range ix (lo ++ hi) -> exists o, vaddr (stv_block T i j) ix = Ok (b, o) /\ 0 <= o < Z.of_nat (length l) * prod (lo ++ hi)) /\
  (forall i j ix i' j' ix', In (i, j) l -> In (i', j') l -> in_range ix (lo ++ hi) -> in_range ix' (lo ++ hi) ->
     vaddr (stv_block T i j) ix = vaddr (stv_block T i' j') ix' -> i = i' /\ j = j' /\ ix = ix').
Proof.
  intro Hh. destruct (stv_shape lo hi l b Hh) as (T & E & Ed & Es & Ess & Ei & Eb). exists T. split; [exact E|].
  destruct (C64_listed_pairs_distinct l) as (_ & G & Inj & _).
  assert (Ad : forall i j a c, In (i, j) l -> in_range a lo -> in_range c hi -> vaddr (stv_block T i j) (a ++ c) = Ok (b, (flat a lo * zlen l + si_offset (si_make l) i j) * prod hi + flat c hi)).
  { intros i j a c Hin Ha Hc. unfold stv_block. rewrite vaddr_ok; cbn [vblk voff vstr vdims].
    - rewrite Eb, Ess, Es, Ei. do 2 f_equal. now apply stv_addr.
    - rewrite Es, !app_length, !strides_of_length. now rewrite (in_range_length _ _ Ha), (in_range_length _ _ Hc). }
  split; [|split].
  - intros N i j. unfold vwf, stv_block. cbn [vdims vstr]. rewrite Es, Ed. split; [|exact N]. now rewrite !app_length, !strides_of_length.
  - intros i j ix Hin Hix. apply in_range_split in Hix as (a & c & -> & Ha & Hc). eexists. split; [now apply Ad|]. destruct (G i j Hin) as [B _]. pose proof (flat_range _ _ Ha). pose proof (flat_range _ _ Hc). rewrite prod_app. unfold zlen.
    set (t := si_offset _ i j) in *. set (n := Z.of_nat (length l)) in *. assert (0 <= flat a lo * n + t < prod lo * n) by nia. nia.
  - intros i j ix i' j' ix' Hin Hin' Hix Hix' Ea. apply in_range_split in Hix as (a & c & -> & Ha & Hc). apply in_range_split in Hix' as (a' & c' & -> & Ha' & Hc'). rewrite !Ad in Ea by assumption. injection Ea as Ea.
    destruct (G i j Hin) as [B _]. destruct (G i' j' Hin') as [B' _]. pose proof (flat_range _ _ Hc) as Rc. pose proof (flat_range _ _ Hc') as Rc'. unfold zlen in Ea.
    set (t := si_offset _ i j) in *. set (t' := si_offset _ i' j') in *. set (n := Z.of_nat (length l)) in *. set (f := flat a lo) in *. set (f' := flat a' lo) in *.
    assert (E1 : f * n + t = f' * n + t' /\ flat c hi = flat c' hi). { apply (Z.div_mod_unique (prod hi)); [left; exact Rc|left; exact Rc'|lia]. }
    destruct E1 as [E1 E2]. assert (E3 : f = f' /\ t = t') by (apply (Z.div_mod_unique n); [left; lia|left; lia|lia]). destruct E3 as [E3 E4].
    apply (flat_inj c c' hi Hc Hc') in E2. apply (flat_inj a a' lo Ha Ha') in E3. pose proof (Inj i j i' j' Hin Hin' E4) as Ep. injection Ep as -> ->. rewrite E2, E3. now repeat split.
Qed.
Print Assumptions C64_blocks_tile_storage.
Example C64_case : let l := [(0, 3); (2, 1); (5, 5)] in NoDup l /\ si_offset (si_make l) 2 1 = 1 /\ si_offset (si_make l) 5 5 = 2 /\ si_offset (si_make l) 4 4 = 0 /\ si_offset (si_make l) 0 3 = 0 /\
  match stv_make [2; 3; 2] 1 l 9 with Ok T => sds T = [18; 2; 1] /\ sss T = 6 | _ => False end.
Proof. cbn zeta. split; [repeat constructor; cbn; intuition congruence|]. vm_compute. repeat split. Qed.
