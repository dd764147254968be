(* Proofs_Convolve2D2.v -- two-dimensional convolution computes correlations. *)
From Verif Require Import Base BaseFacts Model_Index Model_View Model_Tensor Model_Einsum Model_Convolve Model_Convolve2D Spec_Index Spec_View Spec_Tensor Spec_Convolve Spec_Convolve2D
  Proofs_Index Proofs_View Proofs_Tensor Proofs_Tensor2 Proofs_Tensor3 Proofs_Einsum6 Proofs_Einsum7 Proofs_Convolve Proofs_Convolve2 Proofs_Convolve3 Proofs_Convolve2D.
Local Open Scope Z_scope.

Lemma in_range_4 i j k l a b c d : 0 <= i < a -> 0 <= j < b -> 0 <= k < c -> 0 <= l < d -> in_range [i; j; k; l] [a; b; c; d].
Proof. intros. repeat constructor; lia. Qed.
Lemma in_range_4_inv ix a b c d : in_range ix [a; b; c; d] -> exists i j k l, ix = [i; j; k; l] /\ 0 <= i < a /\ 0 <= j < b /\ 0 <= k < c /\ 0 <= l < d.
Proof. intro H. inversion H as [|i ? t ? Hi Hl]; subst. apply in_range_3_inv in Hl as (j & k & l & -> & Hj & Hk & Hl). eauto 12. Qed.
Lemma foldM_nest {S A B} (F : A -> B -> S -> res S) l0 l1 s : foldM (fun a => foldM (F a) l1) l0 s = foldM (fun p => F (fst p) (snd p)) (flat_map (fun a => map (pair a) l1) l0) s.
Proof. rewrite foldM_flat_map. apply foldM_ext. intros a s' _. now rewrite foldM_map. Qed.

Section S.
Context {R : cring}.
Add Ring RrCv2D2 : (cth R).
Notation memR := (mem (car R)).

(* ---- one channel: the result is set *)
Lemma set_loop_gen {A} r (l : list A) (ix : A -> list Z) (T : A -> memR -> res R) (g : list Z -> R) (m : memR) : vwf r -> distinct_cells r -> readable m r ->
  (forall a, In a l -> in_range (ix a) (vdims r)) -> (forall a m', In a l -> untouched m m' r -> T a m' = Ok (g (ix a))) ->
  exists m', foldM (fun a m => do t <- T a m; set_at r (ix a) t m) l m = Ok m' /\ (forall a, In a l -> elem m' r (ix a) = Some (g (ix a))) /\ untouched m m' r.
Proof.
  intros [Lr Nr] Hd Rr Hin HT.
  destruct (foldM_inv (fun done (m' : memR) => readable m' r /\ (forall a, In a done -> elem m' r (ix a) = Some (g (ix a))) /\ untouched m m' r)
    (fun a m => do t <- T a m; set_at r (ix a) t m) l m) as (m' & E & A1 & B & C).
  - split; [exact Rr|]. split; [intros i []|]. intros b a _; reflexivity.
  - intros done i rest m1 El (A1 & B & C).
    assert (Hi : In i l) by (rewrite El; apply in_or_app; right; now left).
    rewrite (HT i m1 Hi C). cbn [bind]. unfold set_at. pose proof (Hin i Hi) as Hr. rewrite vaddr_cell by assumption. cbn [bind].
    pose proof (A1 _ Hr) as Ai. destruct (elem m1 r (ix i)) as [u|] eqn:Eu; [|congruence]. rewrite elem_cell in Eu by assumption.
    unfold rmw. rewrite (loadA_some _ _ _ Eu). cbn [bind loads]. unfold store. unfold at_ in Eu. rewrite Eu. eexists. split; [reflexivity|].
    set (m2 := upd m1 _ _ _).
    assert (Hoth : forall k, in_range k (vdims r) -> k <> ix i -> elem m2 r k = elem m1 r k).
    { intros k Hk Hne. rewrite !elem_cell by auto. apply at_upd_other. intro Ec. apply Hne. apply Hd; auto. rewrite !vaddr_cell by auto. now rewrite Ec. }
    assert (Hsame : elem m2 r (ix i) = Some (g (ix i))) by (rewrite elem_cell by assumption; apply at_upd_same).
    assert (Hdec : forall k, {k = ix i} + {k <> ix i}) by (intro; apply (list_eq_dec Z.eq_dec)).
    split; [|split].
    + intros k Hk. destruct (Hdec k) as [->|N]; [congruence|]. rewrite Hoth by assumption. now apply A1.
    + intros k Hk. apply in_app_or in Hk as [Hk|[<-|[]]]; [|exact Hsame]. destruct (Hdec (ix k)) as [->|N]; [exact Hsame|].
      rewrite Hoth; [now apply B| |assumption]. apply Hin. rewrite El. apply in_or_app. now left.
    + intros b a Hn. rewrite <- C by assumption. apply (at_upd_other m1 (cell r (ix i)) (b, a)). intro Ec. apply (Hn (ix i) Hr). rewrite vaddr_cell by assumption. now f_equal.
  - exists m'. split; [exact E|]. split; [exact B|exact C].
Qed.
Lemma conv2_2_ok rec r x w N0 N1 X0 X1 W0 W1 (m : memR) : vwf r -> vwf x -> vwf w -> vdims r = [N0; N1] -> vdims x = [X0; X1] -> vdims w = [W0; W1] -> distinct_cells r ->
  readable m r -> readable m x -> readable m w -> disjoint_views r x -> disjoint_views r w ->
  exists m', conv2_lvl rec r x w m = Ok m' /\ (forall i j, 0 <= i < N0 -> 0 <= j < N1 -> elem m' r [i; j] =
    Some (corr2 X0 X1 W0 W1 (centred N0 X0 W0) (centred N1 X1 W1) (fun a b => elem0 m x [a; b]) (fun a b => elem0 m w [a; b]) i j)) /\ untouched m m' r.
Proof.
  intros Wr Wx Ww Er Ex Ew Dr Rr Rx Rw Dx Dw. unfold conv2_lvl, ndims. rewrite Er, Ex. cbn [length Z.of_nat Z.eqb Pos.eqb Pos.of_succ_nat Pos.succ assrt].
  unfold conv2_2, ndims. destruct (gdim2 r _ _ _ Er) as [-> ->], (gdim2 x _ _ _ Ex) as [-> ->], (gdim2 w _ _ _ Ew) as [-> ->]. cbn [bind]. rewrite Ew. cbn [length Z.of_nat Z.eqb Pos.eqb Pos.of_succ_nat Pos.succ assrt]. cbv zeta.
  change (pad0 N0 X0 W0) with (centred N0 X0 W0). change (pad0 N1 X1 W1) with (centred N1 X1 W1). set (p0 := centred N0 X0 W0). set (p1 := centred N1 X1 W1).
  unfold forZ. rewrite foldM_nest.
  set (g := fun ix => corr2 X0 X1 W0 W1 p0 p1 (fun a b => elem0 m x [a; b]) (fun a b => elem0 m w [a; b]) (nth 0 ix 0) (nth 1 ix 0)).
  set (T := fun (p : Z * Z) (m : memR) => forR (jlo p0 (fst p)) (jhi p0 (fst p) X0 W0) (fun j0 => forR (jlo p1 (snd p)) (jhi p1 (snd p) X1 W1) (fun j1 t =>
         do a <- vaddr x [fst p + j0 - p0; snd p + j1 - p1]; do u <- loadA m a; do b <- vaddr w [j0; j1]; do v <- loadA m b; Ok (cadd t (cmul u v)))) c0).
  destruct (set_loop_gen r (flat_map (fun a => map (pair a) (zrange N1)) (zrange N0)) (fun p => [fst p; snd p]) T g m) as (m' & E & V & U); try assumption.
  - intros [i j] Hp. apply in_flat_map in Hp as (i' & Hi & Hp). apply in_map_iff in Hp as (j' & Q & Hj). injection Q as -> ->. apply in_zrange in Hi, Hj. rewrite Er. now apply in_range_2.
  - intros [i0 i1] m1 _ U. unfold T, g. cbn [fst snd nth]. pose proof (keep_readable r x m m1 Dx U Rx) as Rx1. pose proof (keep_readable r w m m1 Dw U Rw) as Rw1. rewrite forR_wlist.
    rewrite (sum_loop _ _ (fun j0 => rsum (map (fun j1 => cmul (elem0 m x [i0 + j0 - p0; i1 + j1 - p1]) (elem0 m w [j0; j1])) (wlist p1 i1 X1 W1)))).
    + f_equal. match goal with |- cadd c0 ?a = _ => transitivity a; [ring|] end. rewrite (sum_wlist2 p0 i0 X0 W0 p1 i1 X1 W1 (fun j0 j1 q0 q1 => cmul (elem0 m x [q0; q1]) (elem0 m w [j0; j1]))).
      unfold corr2. apply grid_ext. intros j0 j1 _ _. now rewrite zpad2_mul_r.
    + intros j0 t Hj0. apply in_wlist in Hj0 as [Hj0 Hq0]. rewrite forR_wlist. apply (sum_loop (wlist p1 i1 X1 W1) _ (fun j1 => cmul (elem0 m x [i0 + j0 - p0; i1 + j1 - p1]) (elem0 m w [j0; j1]))).
      intros j1 t1 Hj1. apply in_wlist in Hj1 as [Hj1 Hq1].
      assert (H1 : in_range [i0 + j0 - p0; i1 + j1 - p1] (vdims x)) by (rewrite Ex; now apply in_range_2). assert (H2 : in_range [j0; j1] (vdims w)) by (rewrite Ew; now apply in_range_2).
      destruct Wx as [Lx _], Ww as [Lw _]. rewrite !vaddr_cell by assumption. cbn [bind].
      pose proof (readable_elem m1 x _ Rx1 H1) as E1. pose proof (readable_elem m1 w _ Rw1 H2) as E2. rewrite elem_cell in E1 by assumption. rewrite elem_cell in E2 by assumption.
      rewrite (loadA_some _ _ _ E1). cbn [bind]. rewrite (loadA_some _ _ _ E2). cbn [bind]. now rewrite (keep_elem0 r x m m1), (keep_elem0 r w m m1).
  - exists m'. split; [exact E|]. split; [|exact U]. intros i j Hi Hj. apply (V (i, j)). apply in_flat_map. exists i. split; [now apply in_zrange|]. apply in_map. now apply in_zrange.
Qed.

(* ---- several channels *)
Definition cterm3 (X0 X1 W0 W1 p0 p1 A : Z) (x w : list Z -> R) (ix : list Z) : R :=
  sum_to A (fun a => corr2 X0 X1 W0 W1 p0 p1 (fun q0 q1 => x [q0; q1; a]) (fun j0 j1 => w [j0; j1; nth 2 ix 0; a]) (nth 0 ix 0) (nth 1 ix 0)).
Definition cterm4 (X0 X1 W0 W1 p0 p1 A : Z) (x w : list Z -> R) (ix : list Z) : R :=
  sum_to A (fun a => corr2 X0 X1 W0 W1 p0 p1 (fun q0 q1 => x [q0; q1; a; nth 3 ix 0]) (fun j0 j1 => w [j0; j1; nth 2 ix 0; a]) (nth 0 ix 0) (nth 1 ix 0)).
Lemma conv2_3_ok rec r x w N0 N1 X0 X1 W0 W1 A B (m : memR) : vwf r -> vwf x -> vwf w -> vdims r = [N0; N1; B] -> vdims x = [X0; X1; A] -> vdims w = [W0; W1; B; A] -> distinct_cells r ->
  readable m r -> readable m x -> readable m w -> disjoint_views r x -> disjoint_views r w ->
  exists m', conv2_lvl rec r x w m = Ok m' /\ gains m m' r (cterm3 X0 X1 W0 W1 (centred N0 X0 W0) (centred N1 X1 W1) A (elem0 m x) (elem0 m w)).
Proof.
  intros Wr Wx Ww Er Ex Ew Dr Rr Rx Rw Dx Dw. unfold conv2_lvl, ndims. rewrite Er, Ex. cbn [length Z.of_nat Z.eqb Pos.eqb Pos.of_succ_nat assrt Pos.succ].
  destruct (gdim2 w _ _ _ Ew) as [-> ->]. cbn [bind].
  destruct (conv2_channels tv_add_mvprod (fun f g t => match t with [b] => sum_to A (fun a => cmul (f [b; a]) (g [a])) | _ => c0 end) r x w N0 N1 X0 X1 W0 W1 [B] [A] [B; A] m) as (m' & E & G); try assumption; try reflexivity.
  - intros rr ww xx m1 W2 W3 W4 E1 E2 E3 D1 R1 R2 R3 D2 D3. destruct (mvprod_ok rr ww xx B A m1 W2 W3 W4 E1 E2 E3 D1 R1 R2 R3 D2 D3) as (m2 & E & V & U). exists m2. split; [exact E|]. split; [|exact U].
    intros ix v Hix Ev. rewrite E1 in Hix. apply in_range_1_inv in Hix as (b & -> & Hb). now apply V.
  - intros f f' g g' t Ht Hf Hg. apply in_range_1_inv in Ht as (b & -> & Hb). apply sum_ext. intros a Ha. rewrite Hf by now apply in_range_2. rewrite Hg by (repeat constructor; lia). reflexivity.
  - exists m'. split; [exact E|]. apply (gains_ext _ _ _ _ _ G). intros ix Hix. rewrite Er in Hix. apply in_range_3_inv in Hix as (i & j & b & -> & Hi & Hj & Hb). unfold cterm3. cbn [nth].
    erewrite grid_ext; [|intros j0 j1 _ _; apply zpad2_sum]. rewrite grid_swap3. apply sum_ext. intros a _. apply grid_ext. intros j0 j1 _ _. rewrite zpad2_mul_r. apply zpad2_ext. intros _ _. ring.
Qed.
Lemma conv2_4_ok rec r x w N0 N1 X0 X1 W0 W1 A B C (m : memR) : vwf r -> vwf x -> vwf w -> vdims r = [N0; N1; B; C] -> vdims x = [X0; X1; A; C] -> vdims w = [W0; W1; B; A] -> distinct_cells r ->
  readable m r -> readable m x -> readable m w -> disjoint_views r x -> disjoint_views r w ->
  exists m', conv2_lvl rec r x w m = Ok m' /\ gains m m' r (cterm4 X0 X1 W0 W1 (centred N0 X0 W0) (centred N1 X1 W1) A (elem0 m x) (elem0 m w)).
Proof.
  intros Wr Wx Ww Er Ex Ew Dr Rr Rx Rw Dx Dw. unfold conv2_lvl, ndims. rewrite Er, Ex. cbn [length Z.of_nat Z.eqb Pos.eqb Pos.of_succ_nat assrt Pos.succ].
  destruct (gdim2 w _ _ _ Ew) as [-> ->]. cbn [bind].
  destruct (conv2_channels tv_add_mprod (fun f g t => match t with [b; c] => sum_to A (fun a => cmul (f [b; a]) (g [a; c])) | _ => c0 end) r x w N0 N1 X0 X1 W0 W1 [B; C] [A; C] [B; A] m) as (m' & E & G); try assumption; try reflexivity.
  - intros rr ww xx m1 W2 W3 W4 E1 E2 E3 D1 R1 R2 R3 D2 D3. destruct (mprod_ok rr ww xx B A C m1 W2 W3 W4 E1 E2 E3 D1 R1 R2 R3 D2 D3) as (m2 & E & V & U). exists m2. split; [exact E|]. split; [|exact U].
    intros ix v Hix Ev. rewrite E1 in Hix. apply in_range_2_inv in Hix as (b & c & -> & Hb & Hc). now apply V.
  - intros f f' g g' t Ht Hf Hg. apply in_range_2_inv in Ht as (b & c & -> & Hb & Hc). apply sum_ext. intros a Ha. rewrite Hf by now apply in_range_2. rewrite Hg by now apply in_range_2. reflexivity.
  - exists m'. split; [exact E|]. apply (gains_ext _ _ _ _ _ G). intros ix Hix. rewrite Er in Hix. apply in_range_4_inv in Hix as (i & j & b & c & -> & Hi & Hj & Hb & Hc). unfold cterm4. cbn [nth].
    erewrite grid_ext; [|intros j0 j1 _ _; apply zpad2_sum]. rewrite grid_swap3. apply sum_ext. intros a _. apply grid_ext. intros j0 j1 _ _. rewrite zpad2_mul_r. apply zpad2_ext. intros _ _. ring.
Qed.
Lemma cterm4_ext X0 X1 W0 W1 p0 p1 A B C (x x' w w' : list Z -> R) ix n0 n1 : in_range ix [n0; n1; B; C] -> (forall jx, in_range jx [X0; X1; A; C] -> x jx = x' jx) -> (forall jx, in_range jx [W0; W1; B; A] -> w jx = w' jx) ->
  cterm4 X0 X1 W0 W1 p0 p1 A x w ix = cterm4 X0 X1 W0 W1 p0 p1 A x' w' ix.
Proof.
  intros Hix Hx Hw. apply in_range_4_inv in Hix as (i & j & b & c & -> & Hi & Hj & Hb & Hc). unfold cterm4. cbn [nth]. apply sum_ext. intros a Ha. apply corr2_ext; intros.
  - apply Hx. now apply in_range_4.
  - apply Hw. now apply in_range_4.
Qed.
Lemma cterm3_ext X0 X1 W0 W1 p0 p1 A B (x x' w w' : list Z -> R) ix n0 n1 : in_range ix [n0; n1; B] -> (forall jx, in_range jx [X0; X1; A] -> x jx = x' jx) -> (forall jx, in_range jx [W0; W1; B; A] -> w jx = w' jx) ->
  cterm3 X0 X1 W0 W1 p0 p1 A x w ix = cterm3 X0 X1 W0 W1 p0 p1 A x' w' ix.
Proof.
  intros Hix Hx Hw. apply in_range_3_inv in Hix as (i & j & b & -> & Hi & Hj & Hb). unfold cterm3. cbn [nth]. apply sum_ext. intros a Ha. apply corr2_ext; intros.
  - apply Hx. now apply in_range_3.
  - apply Hw. now apply in_range_4.
Qed.
(* batches *)
Lemma conv2_5_ok r x w M N0 N1 X0 X1 W0 W1 A B C (m : memR) : vwf r -> vwf x -> vwf w -> vdims r = [M; N0; N1; B; C] -> vdims x = [M; X0; X1; A; C] -> vdims w = [W0; W1; B; A] -> distinct_cells r ->
  readable m r -> readable m x -> readable m w -> disjoint_views r x -> disjoint_views r w ->
  exists m', convolve2 r x w m = Ok m' /\ gains m m' r (fun ix => match ix with e :: t => cterm4 X0 X1 W0 W1 (centred N0 X0 W0) (centred N1 X1 W1) A (fun t => elem0 m x (e :: t)) (elem0 m w) t | [] => c0 end).
Proof.
  intros Wr Wx Ww Er Ex Ew Dr Rr Rx Rw Dx Dw. unfold convolve2. unfold conv2_lvl at 1, ndims. rewrite Er, Ex. cbn [length Z.of_nat Z.eqb Pos.eqb Pos.of_succ_nat assrt Pos.succ].
  destruct (gdim2 w _ _ _ Ew) as [-> ->], (gdim2 r _ _ _ Er) as [-> _], (gdim2 x _ _ _ Ex) as [-> _]. cbn [bind]. rewrite Z.eqb_refl. cbn [assrt]. unfold forZ.
  set (p0 := centred N0 X0 W0). set (p1 := centred N1 X1 W1).
  destruct (gains_seq r (fun b m => do rr <- slice 0 b r; do xx <- slice 0 b x; conv2_lvl (fun _ _ _ m => Ok m) rr xx w m)
    (fun e => at_first e (cterm4 X0 X1 W0 W1 p0 p1 A (fun t => elem0 m x (e :: t)) (elem0 m w))) (zrange M) m Rr) as (m' & E & G).
  - intros e m1 He Rr1 U1. apply in_zrange in He. destruct (slice_first r e M _ Wr Er) as (rr & Es & Wrr & Err & Ear). destruct (slice_first x e M _ Wx Ex) as (xx & Et & Wxx & Exx & Eax). rewrite Es, Et. cbn [bind].
    assert (Fr : forall ix, in_range ix (vdims rr) -> in_range (e :: ix) (vdims r) /\ vaddr rr ix = vaddr r (e :: ix)).
    { intros ix Hix. rewrite Err in Hix. split; [rewrite Er; now apply in_range_cons|]. apply Ear. now apply in_range_length. }
    assert (Fx : forall ix, in_range ix (vdims xx) -> in_range (e :: ix) (vdims x) /\ vaddr xx ix = vaddr x (e :: ix)).
    { intros ix Hix. rewrite Exx in Hix. split; [rewrite Ex; now apply in_range_cons|]. apply Eax. now apply in_range_length. }
    pose proof (keep_readable r x m m1 Dx U1 Rx) as Rx1. pose proof (keep_readable r w m m1 Dw U1 Rw) as Rw1.
    destruct (conv2_4_ok (fun _ _ _ m => Ok m) rr xx w N0 N1 X0 X1 W0 W1 A B C m1) as (m2 & E2 & G2); try assumption.
    + apply (sub_distinct rr r _ Fr); [|exact Dr]. intros; congruence.
    + now apply (sub_readable m1 rr r _ Fr).
    + now apply (sub_readable m1 xx x _ Fx).
    + intros t t' Ht Ht'. destruct (Fr t Ht) as [H1 H2], (Fx t' Ht') as [H3 H4]. rewrite H2, H4. now apply Dx.
    + intros t t' Ht Ht'. destruct (Fr t Ht) as [H1 H2]. rewrite H2. now apply Dw.
    + exists m2. split; [exact E2|]. apply (gains_slice r M _ e rr m1 m2 _ Wr Er Dr He Err Ear). apply (gains_ext _ _ _ _ _ G2). intros ix Hix. rewrite Err in Hix. apply (cterm4_ext _ _ _ _ _ _ _ B C _ _ _ _ _ N0 N1 Hix).
      * intros jx Hj. rewrite <- Exx in Hj. destruct (Fx jx Hj) as [H1 H2]. rewrite <- (keep_elem0 r x m m1) by assumption. unfold elem0, elem. now rewrite H2.
      * intros jx Hj. rewrite <- Ew in Hj. now apply keep_elem0 with (r := r).
  - exists m'. split; [exact E|]. apply (gains_ext _ _ _ _ _ G). intros ix Hix. rewrite Er in Hix. destruct ix as [|e t]; [inversion Hix|]. apply in_range_cons in Hix as [He Ht]. cbn [at_first].
    rewrite (sum_delta M e (fun e => cterm4 X0 X1 W0 W1 p0 p1 A (fun t => elem0 m x (e :: t)) (elem0 m w) t)). unfold zpad. now replace ((0 <=? e) && (e <? M)) with true by lia.
Qed.

(* ---- convolve2d *)
Lemma conv2_result_ok b dims x w (m : memR) G : nonneg dims -> vwf x -> vwf w -> readable m x -> readable m w -> vblk x <> b -> vblk w <> b ->
  (forall m0, readable m0 (fresh_view b dims) -> readable m0 x -> readable m0 w -> (forall ix, elem0 m0 x ix = elem0 m x ix) -> (forall ix, elem0 m0 w ix = elem0 m w ix) ->
     vwf (fresh_view b dims) -> distinct_cells (fresh_view b dims) -> disjoint_views (fresh_view b dims) x -> disjoint_views (fresh_view b dims) w ->
     (forall ix, in_range ix dims -> elem m0 (fresh_view b dims) ix = Some c0) ->
     exists m', convolve2 (fresh_view b dims) x w m0 = Ok m' /\ (forall ix, in_range ix dims -> elem m' (fresh_view b dims) ix = Some (G ix)) /\ untouched m0 m' (fresh_view b dims)) ->
  exists m', conv2_result b dims x w m = Ok (fresh_view b dims, m') /\ (forall ix, in_range ix dims -> elem m' (fresh_view b dims) ix = Some (G ix)) /\ forall b' a, b' <> b -> m' b' a = m b' a.
Proof.
  intros Hn Wx Ww Rx Rw Bx Bw H. unfold conv2_result. rewrite forallb_nonneg by assumption.
  destruct (fresh_conv b dims m x Hn Wx Bx Rx) as (Wr & Dr & Rr & Zr & Rx0 & Dx & Kx). destruct (fresh_conv b dims m w Hn Ww Bw Rw) as (_ & _ & _ & _ & Rw0 & Dw & Kw).
  destruct (H (alloc c0 b (asize dims) m)) as (m' & E & V & U); try assumption. rewrite E. cbn [bind]. exists m'. split; [reflexivity|]. split; [exact V|]. now apply (untouched_fresh b dims).
Qed.
Lemma gains_fresh (m0 m' : memR) r dims G G' : vdims r = dims -> (forall ix, in_range ix dims -> elem m0 r ix = Some c0) -> gains m0 m' r G -> (forall ix, in_range ix dims -> G ix = G' ix) -> (forall ix, in_range ix dims -> elem m' r ix = Some (G' ix)) /\ untouched m0 m' r.
Proof. intros <- Z0 [V U] Hg. split; [|exact U]. intros ix Hix. rewrite (V ix c0 Hix (Z0 ix Hix)). f_equal. rewrite <- Hg by assumption. ring. Qed.
End S.
