(* Proofs_Convolve2.v -- one-dimensional convolution computes correlations; its gradients. *)
From Verif Require Import Base BaseFacts Model_Index Model_View Model_Tensor Model_Einsum Model_Convolve Spec_Index Spec_View Spec_Tensor Spec_Convolve
  Proofs_Index Proofs_View Proofs_Tensor Proofs_Tensor2 Proofs_Tensor3 Proofs_Einsum6 Proofs_Einsum7 Proofs_Convolve.
Local Open Scope Z_scope.

Section S.
Context {R : cring}.
Add Ring RrCv2 : (cth R).
Notation memR := (mem (car R)).

(* ---- sums *)
Lemma zpad_ext n (f g : Z -> R) i : (0 <= i < n -> f i = g i) -> zpad n f i = zpad n g i.
Proof. intro H. unfold zpad. destruct ((0 <=? i) && (i <? n)) eqn:E; [apply H; lia|reflexivity]. Qed.
Lemma zpad_mul_r n (f : Z -> R) c i : cmul (zpad n f i) c = zpad n (fun k => cmul (f k) c) i.
Proof. unfold zpad. destruct ((0 <=? i) && (i <? n)); [reflexivity|ring]. Qed.
Lemma zpad_mul_l n (f : Z -> R) c i : cmul c (zpad n f i) = zpad n (fun k => cmul c (f k)) i.
Proof. unfold zpad. destruct ((0 <=? i) && (i <? n)); [reflexivity|ring]. Qed.
Lemma zpad_sum n K (f : Z -> Z -> R) i : zpad n (fun q => sum_to K (f q)) i = sum_to K (fun k => zpad n (fun q => f q k) i).
Proof. unfold zpad. destruct ((0 <=? i) && (i <? n)); [reflexivity|]. symmetry. apply rsum_zero. reflexivity. Qed.
Lemma sum_ext n (f g : Z -> R) : (forall i, 0 <= i < n -> f i = g i) -> sum_to n f = sum_to n g.
Proof. intro H. apply rsum_ext. intros i Hi. apply H. now apply in_zrange. Qed.
Lemma sum_swap n k (f : Z -> Z -> R) : sum_to n (fun i => sum_to k (f i)) = sum_to k (fun j => sum_to n (fun i => f i j)).
Proof. apply rsum_swap. Qed.
Lemma sum_mul_l n c (f : Z -> R) : cmul c (sum_to n f) = sum_to n (fun i => cmul c (f i)).
Proof. unfold sum_to. now rewrite rsum_map_mul_l. Qed.
Lemma sum_mul_r n c (f : Z -> R) : cmul (sum_to n f) c = sum_to n (fun i => cmul (f i) c).
Proof. unfold sum_to. now rewrite rsum_map_mul_r. Qed.
Lemma corr_ext X W pad (x x' w w' : Z -> R) i : (forall q, 0 <= q < X -> x q = x' q) -> (forall j, 0 <= j < W -> w j = w' j) -> corr X W pad x w i = corr X W pad x' w' i.
Proof. intros Hx Hw. apply sum_ext. intros j Hj. rewrite (Hw j Hj). f_equal. apply zpad_ext. intro. now apply Hx. Qed.
(* a correlation summed over x *)
Lemma corr_alt X W pad (x w : Z -> R) i : corr X W pad x w i = sum_to X (fun q => cmul (x q) (zpad W w (q - i + pad))).
Proof.
  unfold corr. transitivity (sum_to W (fun j => sum_to X (fun q => if (i + j - pad) =? q then cmul (x q) (w j) else c0))).
  - apply sum_ext. intros j _. rewrite zpad_mul_r. unfold sum_to. now rewrite (sum_delta X (i + j - pad) (fun q => cmul (x q) (w j))).
  - rewrite sum_swap. apply sum_ext. intros q _. rewrite zpad_mul_l. unfold sum_to. rewrite <- sum_delta. apply rsum_ext. intros j _.
    destruct (Z.eqb_spec (i + j - pad) q), (Z.eqb_spec (q - i + pad) j); reflexivity || lia.
Qed.
Lemma corr_flip N W pad (g w : Z -> R) i : corr N W pad g (fun j => w (W - 1 - j)) i = corr_dx N W (W - 1 - pad) g w i.
Proof.
  rewrite corr_alt. apply sum_ext. intros p _. f_equal. unfold zpad. destruct ((0 <=? p - i + pad) && (p - i + pad <? W)) eqn:E1; destruct ((0 <=? i - p + (W - 1 - pad)) && (i - p + (W - 1 - pad) <? W)) eqn:E2; try lia; [|reflexivity]. f_equal. lia.
Qed.
Lemma corr_swap N X pad (g x : Z -> R) j : corr X N pad x g j = corr_dw N X pad g x j.
Proof. apply sum_ext. intros p _. replace (j + p - pad) with (p + j - pad) by lia. ring. Qed.
(* adjoints *)
Lemma adjoint_x N X W pad (g x w : Z -> R) : sum_to N (fun p => cmul (g p) (corr X W pad x w p)) = sum_to X (fun i => cmul (x i) (corr_dx N W pad g w i)).
Proof.
  erewrite sum_ext; [|intros p _; rewrite corr_alt, sum_mul_l; reflexivity]. rewrite sum_swap. apply sum_ext. intros i _. unfold corr_dx. rewrite sum_mul_l. apply sum_ext. intros p _. ring.
Qed.
Lemma adjoint_w N X W pad (g x w : Z -> R) : sum_to N (fun p => cmul (g p) (corr X W pad x w p)) = sum_to W (fun j => cmul (w j) (corr_dw N X pad g x j)).
Proof.
  unfold corr. erewrite sum_ext; [|intros p _; rewrite sum_mul_l; reflexivity]. rewrite sum_swap. apply sum_ext. intros j _. unfold corr_dw. rewrite sum_mul_l. apply sum_ext. intros p _. ring.
Qed.

(* ---- one channel: the result is set *)
Lemma set_loop r n (T : Z -> memR -> res R) (g : Z -> R) (m : memR) : vwf r -> vdims r = [n] -> distinct_cells r -> readable m r ->
  (forall i m', 0 <= i < n -> untouched m m' r -> T i m' = Ok (g i)) ->
  exists m', forZ n (fun i m => do t <- T i m; set_at r [i] t m) m = Ok m' /\ (forall i, 0 <= i < n -> elem m' r [i] = Some (g i)) /\ untouched m m' r.
Proof.
  intros [Lr Nr] Er Hd Rr HT.
  assert (In1 : forall i, 0 <= i < n -> in_range [i] (vdims r)) by (intros; rewrite Er; repeat constructor; lia).
  destruct (foldM_inv (fun done (m' : memR) => (forall i, 0 <= i < n -> elem m' r [i] <> None) /\ (forall i, In i done -> elem m' r [i] = Some (g i)) /\ untouched m m' r)
    (fun i m => do t <- T i m; set_at r [i] t m) (zrange n) m) as (m' & E & A & B & C).
  - split; [intros i Hi; now apply Rr, In1|]. split; [intros i []|]. intros b a _; reflexivity.
  - intros done i rest m1 El (A & B & C).
    assert (Hi : 0 <= i < n) by (apply in_zrange; rewrite El; apply in_or_app; right; now left).
    rewrite (HT i m1 Hi C). cbn [bind]. unfold set_at. pose proof (In1 i Hi) as Hr. rewrite vaddr_cell by assumption. cbn [bind].
    pose proof (A i Hi) as Ai. destruct (elem m1 r [i]) as [u|] eqn:Eu; [|congruence]. rewrite elem_cell in Eu by assumption.
    unfold rmw. rewrite (loadA_some _ _ _ Eu). cbn [bind loads]. unfold store. unfold at_ in Eu. rewrite Eu. eexists. split; [reflexivity|].
    set (m2 := upd m1 _ _ _).
    assert (Hoth : forall k, 0 <= k < n -> k <> i -> elem m2 r [k] = elem m1 r [k]).
    { intros k Hk Hne. rewrite !elem_cell by auto. apply at_upd_other. intro Ec. apply Hne.
      assert (Q : [k] = [i]) by (apply Hd; auto; rewrite !vaddr_cell by auto; now rewrite Ec). congruence. }
    assert (Hsame : elem m2 r [i] = Some (g i)) by (rewrite elem_cell by assumption; apply at_upd_same).
    split; [|split].
    + intros k Hk. destruct (Z.eq_dec k i) as [->|N]; [congruence|]. rewrite Hoth by assumption. now apply A.
    + intros k Hk. apply in_app_or in Hk as [Hk|[<-|[]]]; [|exact Hsame]. destruct (Z.eq_dec k i) as [->|N]; [exact Hsame|].
      rewrite Hoth; [now apply B| |assumption]. apply in_zrange. rewrite El. apply in_or_app. now left.
    + intros b a Hn. rewrite <- C by assumption. apply (at_upd_other m1 (cell r [i]) (b, a)). intro Ec. apply (Hn [i] Hr). rewrite vaddr_cell by assumption. now f_equal.
  - exists m'. split; [exact E|]. split; [|exact C]. intros i Hi. apply B. now apply in_zrange.
Qed.
Lemma gdim_at v i d : 0 <= i -> nth_error (vdims v) (Z.to_nat i) = Some d -> gdim v i = Ok d.
Proof. intros Hi E. unfold gdim. destruct (Z.ltb_spec i 0); [lia|]. unfold zget, vget. destruct (Z.ltb_spec i 0); [lia|]. now rewrite E. Qed.
Lemma conv1_ok r x w N X W (m : memR) : vwf r -> vwf x -> vwf w -> vdims r = [N] -> vdims x = [X] -> vdims w = [W] -> distinct_cells r ->
  readable m r -> readable m x -> readable m w -> disjoint_views r x -> disjoint_views r w ->
  exists m', convolve r x w m = Ok m' /\ (forall i, 0 <= i < N -> elem m' r [i] = Some (corr X W (centred N X W) (fun q => elem0 m x [q]) (fun j => elem0 m w [j]) i)) /\ untouched m m' r.
Proof.
  intros Wr Wx Ww Er Ex Ew Dr Rr Rx Rw Dx Dw. unfold convolve, conv_lvl, ndims. rewrite Er, Ex. cbn [length Z.of_nat Z.eqb Pos.eqb Pos.of_succ_nat assrt].
  rewrite (gdim_at w 0 W) by (rewrite ?Ew; cbn; lia || reflexivity). cbn [bind]. unfold conv_1, ndims. rewrite Ew. cbn [length Z.of_nat Z.eqb Pos.eqb Pos.of_succ_nat assrt].
  rewrite (gdim_at r 0 N), (gdim_at x 0 X), (gdim_at w 0 W) by (rewrite ?Er, ?Ex, ?Ew; cbn; lia || reflexivity). cbn [bind]. change (pad0 N X W) with (centred N X W). set (p := centred N X W).
  apply set_loop; try assumption. intros i m1 Hi U. rewrite forR_list.
  pose proof (keep_readable r x m m1 Dx U Rx) as Rx1. pose proof (keep_readable r w m m1 Dw U Rw) as Rw1.
  rewrite (sum_loop _ _ (fun j => cmul (elem0 m x [i + j - p]) (elem0 m w [j]))).
  - f_equal. rewrite (sum_window W) by (unfold jlo, jhi; lia). unfold corr, sum_to. transitivity (rsum (map (fun j => cmul (zpad X (fun q => elem0 m x [q]) (i + j - p)) (elem0 m w [j])) (zrange W))); [|reflexivity].
    match goal with |- cadd c0 ?a = ?b => transitivity a; [ring|] end. apply rsum_ext. intros j Hj. apply in_zrange in Hj.
    rewrite <- (window_zpad p i j X W (fun q => elem0 m x [q]) Hj). destruct (win _ _ j); [reflexivity|ring].
  - intros j t Hj. apply in_map_iff in Hj as (k & <- & Hk). apply in_zrange in Hk. set (j := jlo p i + k) in *.
    assert (Hj : 0 <= j < W /\ 0 <= i + j - p < X) by (unfold j, jlo, jhi in *; lia). destruct Hj as [Hj Hq].
    assert (H1 : in_range [i + j - p] (vdims x)) by (rewrite Ex; repeat constructor; lia). assert (H2 : in_range [j] (vdims w)) by (rewrite Ew; repeat constructor; lia).
    destruct Wx as [Lx _], Ww as [Lw _]. rewrite !vaddr_cell by assumption. cbn [bind].
    pose proof (readable_elem m1 x _ Rx1 H1) as E1. pose proof (readable_elem m1 w _ Rw1 H2) as E2. rewrite elem_cell in E1 by assumption. rewrite elem_cell in E2 by assumption.
    rewrite (loadA_some _ _ _ E1). cbn [bind]. rewrite (loadA_some _ _ _ E2). cbn [bind]. now rewrite (keep_elem0 r x m m1), (keep_elem0 r w m m1).
Qed.

(* ---- several channels *)
Lemma conv2_ok r x w N X W A B (m : memR) : vwf r -> vwf x -> vwf w -> vdims r = [N; B] -> vdims x = [X; A] -> vdims w = [W; B; A] -> distinct_cells r ->
  readable m r -> readable m x -> readable m w -> disjoint_views r x -> disjoint_views r w ->
  exists m', convolve r x w m = Ok m' /\ (forall i b v, 0 <= i < N -> 0 <= b < B -> elem m r [i; b] = Some v ->
    elem m' r [i; b] = Some (cadd v (sum_to A (fun a => corr X W (centred N X W) (fun q => elem0 m x [q; a]) (fun j => elem0 m w [j; b; a]) i)))) /\ untouched m m' r.
Proof.
  intros Wr Wx Ww Er Ex Ew Dr Rr Rx Rw Dx Dw. unfold convolve, conv_lvl, ndims. rewrite Er, Ex. cbn [length Z.of_nat Z.eqb Pos.eqb Pos.of_succ_nat assrt Pos.succ].
  rewrite (gdim_at w 0 W) by (rewrite ?Ew; cbn; lia || reflexivity). cbn [bind].
  destruct (conv_channels tv_add_mvprod (fun f g t => match t with [b] => sum_to A (fun a => cmul (f [b; a]) (g [a])) | _ => c0 end) r x w N X W [B] [A] [B; A] m) as (m' & E & G); try assumption; try reflexivity.
  - intros rr ww xx m1 W1 W2 W3 E1 E2 E3 D1 R1 R2 R3 D2 D3. destruct (mvprod_ok rr ww xx B A m1 W1 W2 W3 E1 E2 E3 D1 R1 R2 R3 D2 D3) as (m2 & E & V & U). exists m2. split; [exact E|]. split; [|exact U].
    intros ix v Hix Ev. rewrite E1 in Hix. apply in_range_1_inv in Hix as (b & -> & Hb). now apply V.
  - intros f f' g g' t Ht Hf Hg. apply in_range_1_inv in Ht as (b & -> & Hb). apply sum_ext. intros a Ha. rewrite Hf by now apply in_range_2. rewrite Hg by (repeat constructor; lia). reflexivity.
  - exists m'. split; [exact E|]. split; [|apply G]. intros i b v Hi Hb Ev. rewrite (proj1 G [i; b] v) by (rewrite ?Er; auto using in_range_2). do 2 f_equal.
    erewrite sum_ext; [|intros j _; apply zpad_sum]. rewrite sum_swap. apply sum_ext. intros a _. apply sum_ext. intros j _. rewrite zpad_mul_r. apply zpad_ext. intros _. ring.
Qed.
Lemma in_range_3 i j k a b c : 0 <= i < a -> 0 <= j < b -> 0 <= k < c -> in_range [i; j; k] [a; b; c].
Proof. intros. repeat constructor; lia. Qed.
Lemma in_range_3_inv ix a b c : in_range ix [a; b; c] -> exists i j k, ix = [i; j; k] /\ 0 <= i < a /\ 0 <= j < b /\ 0 <= k < c.
Proof. intro H. inversion H as [|i ? l ? Hi Hl]; subst. apply in_range_2_inv in Hl as (j & k & -> & Hj & Hk). eauto 10. Qed.
Lemma conv3_ok r x w N X W A B C (m : memR) : vwf r -> vwf x -> vwf w -> vdims r = [N; B; C] -> vdims x = [X; A; C] -> vdims w = [W; B; A] -> distinct_cells r ->
  readable m r -> readable m x -> readable m w -> disjoint_views r x -> disjoint_views r w ->
  exists m', convolve r x w m = Ok m' /\ (forall i b c v, 0 <= i < N -> 0 <= b < B -> 0 <= c < C -> elem m r [i; b; c] = Some v ->
    elem m' r [i; b; c] = Some (cadd v (sum_to A (fun a => corr X W (centred N X W) (fun q => elem0 m x [q; a; c]) (fun j => elem0 m w [j; b; a]) i)))) /\ untouched m m' r.
Proof.
  intros Wr Wx Ww Er Ex Ew Dr Rr Rx Rw Dx Dw. unfold convolve, conv_lvl, ndims. rewrite Er, Ex. cbn [length Z.of_nat Z.eqb Pos.eqb Pos.of_succ_nat assrt Pos.succ].
  rewrite (gdim_at w 0 W) by (rewrite ?Ew; cbn; lia || reflexivity). cbn [bind].
  destruct (conv_channels tv_add_mprod (fun f g t => match t with [b; c] => sum_to A (fun a => cmul (f [b; a]) (g [a; c])) | _ => c0 end) r x w N X W [B; C] [A; C] [B; A] m) as (m' & E & G); try assumption; try reflexivity.
  - intros rr ww xx m1 W1 W2 W3 E1 E2 E3 D1 R1 R2 R3 D2 D3. destruct (mprod_ok rr ww xx B A C m1 W1 W2 W3 E1 E2 E3 D1 R1 R2 R3 D2 D3) as (m2 & E & V & U). exists m2. split; [exact E|]. split; [|exact U].
    intros ix v Hix Ev. rewrite E1 in Hix. apply in_range_2_inv in Hix as (b & c & -> & Hb & Hc). now apply V.
  - intros f f' g g' t Ht Hf Hg. apply in_range_2_inv in Ht as (b & c & -> & Hb & Hc). apply sum_ext. intros a Ha. rewrite Hf by now apply in_range_2. rewrite Hg by now apply in_range_2. reflexivity.
  - exists m'. split; [exact E|]. split; [|apply G]. intros i b c v Hi Hb Hc Ev. rewrite (proj1 G [i; b; c] v) by (rewrite ?Er; auto using in_range_3). do 2 f_equal.
    erewrite sum_ext; [|intros j _; apply zpad_sum]. rewrite sum_swap. apply sum_ext. intros a _. apply sum_ext. intros j _. rewrite zpad_mul_r. apply zpad_ext. intros _. ring.
Qed.
End S.
