(* Proofs_Convolve2D.v -- two-dimensional convolution: sums and loops. *)
From Verif Require Import Base BaseFacts Model_Index Model_View Model_Tensor Model_Einsum Model_Convolve Model_Convolve2D Spec_Index Spec_View Spec_Tensor Spec_Convolve Spec_Convolve2D
  Proofs_Index Proofs_View Proofs_Tensor Proofs_Tensor2 Proofs_Tensor3 Proofs_Einsum6 Proofs_Einsum7 Proofs_Convolve Proofs_Convolve2 Proofs_Convolve3.
Local Open Scope Z_scope.

Lemma slice2_first v i j n0 n1 ds : vwf v -> vdims v = n0 :: n1 :: ds ->
  exists v1 v', slice 0 i v = Ok v1 /\ slice2 i j v = Ok v' /\ vwf v1 /\ vwf v' /\ vdims v1 = n1 :: ds /\ vdims v' = ds /\
    (forall t, length t = length (n1 :: ds) -> vaddr v1 t = vaddr v (i :: t)) /\
    (forall t, length t = length ds -> vaddr v' t = vaddr v1 (j :: t)) /\ forall t, length t = length ds -> vaddr v' t = vaddr v (i :: j :: t).
Proof.
  intros W E. destruct (slice_first v i n0 _ W E) as (v1 & E1 & W1 & D1 & A1). destruct (slice_first v1 j n1 ds W1 D1) as (v2 & E2 & W2 & D2 & A2).
  exists v1, v2. split; [exact E1|]. split; [unfold slice2; rewrite E1; exact E2|]. do 4 (split; [assumption|]). split; [exact A1|]. split; [exact A2|].
  intros t Ht. rewrite A2 by assumption. apply A1. cbn. now rewrite Ht.
Qed.
Lemma slice2_sub v i j n0 n1 ds v' : 0 <= i < n0 -> 0 <= j < n1 -> vdims v = n0 :: n1 :: ds -> vdims v' = ds -> (forall t, length t = length ds -> vaddr v' t = vaddr v (i :: j :: t)) ->
  forall t, in_range t (vdims v') -> in_range (i :: j :: t) (vdims v) /\ vaddr v' t = vaddr v (i :: j :: t).
Proof.
  intros Hi Hj E E' A t Ht. rewrite E' in Ht. split; [rewrite E; apply in_range_cons; split; [assumption|]; now apply in_range_cons|]. apply A. now apply in_range_length.
Qed.

Section S.
Context {R : cring}.
Add Ring RrCv2D : (cth R).
Notation memR := (mem (car R)).

(* ---- sums *)
Lemma grid_ext n0 n1 (f g : Z -> Z -> R) : (forall i j, 0 <= i < n0 -> 0 <= j < n1 -> f i j = g i j) -> sum_grid n0 n1 f = sum_grid n0 n1 g.
Proof. intro H. apply sum_ext. intros i Hi. apply sum_ext. intros j Hj. now apply H. Qed.
Lemma zpad2_ext n0 n1 (f g : Z -> Z -> R) i j : (0 <= i < n0 -> 0 <= j < n1 -> f i j = g i j) -> zpad2 n0 n1 f i j = zpad2 n0 n1 g i j.
Proof. intro H. apply zpad_ext. intro Hi. apply zpad_ext. intro Hj. now apply H. Qed.
Lemma zpad2_mul_r n0 n1 (f : Z -> Z -> R) c i j : cmul (zpad2 n0 n1 f i j) c = zpad2 n0 n1 (fun a b => cmul (f a b) c) i j.
Proof. unfold zpad2. rewrite zpad_mul_r. apply zpad_ext. intros _. apply zpad_mul_r. Qed.
Lemma zpad2_sum n0 n1 K (f : Z -> Z -> Z -> R) i j : zpad2 n0 n1 (fun a b => sum_to K (f a b)) i j = sum_to K (fun k => zpad2 n0 n1 (fun a b => f a b k) i j).
Proof. unfold zpad2. rewrite <- zpad_sum. apply zpad_ext. intros _. apply zpad_sum. Qed.
Lemma zpad2_in n0 n1 (f : Z -> Z -> R) i j : 0 <= i < n0 -> 0 <= j < n1 -> zpad2 n0 n1 f i j = f i j.
Proof. intros Hi Hj. unfold zpad2, zpad. now replace ((0 <=? i) && (i <? n0)) with true by lia; replace ((0 <=? j) && (j <? n1)) with true by lia. Qed.
Lemma corr2_ext X0 X1 W0 W1 p0 p1 (x x' w w' : Z -> Z -> R) i j : (forall a b, 0 <= a < X0 -> 0 <= b < X1 -> x a b = x' a b) -> (forall a b, 0 <= a < W0 -> 0 <= b < W1 -> w a b = w' a b) ->
  corr2 X0 X1 W0 W1 p0 p1 x w i j = corr2 X0 X1 W0 W1 p0 p1 x' w' i j.
Proof. intros Hx Hw. apply grid_ext. intros a b Ha Hb. rewrite (Hw a b Ha Hb). f_equal. apply zpad2_ext. intros. now apply Hx. Qed.
Lemma grid_swap3 n0 n1 K (f : Z -> Z -> Z -> R) : sum_grid n0 n1 (fun i j => sum_to K (f i j)) = sum_to K (fun k => sum_grid n0 n1 (fun i j => f i j k)).
Proof. unfold sum_grid. erewrite sum_ext; [|intros i _; apply sum_swap]. apply sum_swap. Qed.
Lemma grid_swap n0 n1 k0 k1 (f : Z -> Z -> Z -> Z -> R) : sum_grid n0 n1 (fun i j => sum_grid k0 k1 (f i j)) = sum_grid k0 k1 (fun a b => sum_grid n0 n1 (fun i j => f i j a b)).
Proof. unfold sum_grid at 2. rewrite grid_swap3. apply sum_ext. intros a _. apply grid_swap3. Qed.
Lemma grid_mul_l n0 n1 c (f : Z -> Z -> R) : cmul c (sum_grid n0 n1 f) = sum_grid n0 n1 (fun i j => cmul c (f i j)).
Proof. unfold sum_grid. rewrite sum_mul_l. apply sum_ext. intros i _. apply sum_mul_l. Qed.
(* a correlation summed over x *)
Lemma corr2_alt X0 X1 W0 W1 p0 p1 (x w : Z -> Z -> R) i0 i1 : corr2 X0 X1 W0 W1 p0 p1 x w i0 i1 = sum_grid X0 X1 (fun q0 q1 => cmul (x q0 q1) (zpad2 W0 W1 w (q0 - i0 + p0) (q1 - i1 + p1))).
Proof.
  transitivity (sum_to W0 (fun j0 => zpad X0 (fun q0 => corr X1 W1 p1 (x q0) (w j0) i1) (i0 + j0 - p0))).
  { apply sum_ext. intros j0 _. unfold corr. rewrite zpad_sum. apply sum_ext. intros j1 _. unfold zpad2. now rewrite zpad_mul_r. }
  transitivity (sum_to X1 (fun q1 => corr X0 W0 p0 (fun q0 => x q0 q1) (fun j0 => zpad W1 (w j0) (q1 - i1 + p1)) i0)).
  { unfold corr at 2. rewrite sum_swap. apply sum_ext. intros j0 _. rewrite (zpad_ext X0 _ (fun q0 => sum_to X1 (fun q1 => cmul (x q0 q1) (zpad W1 (w j0) (q1 - i1 + p1))))) by (intros _; apply corr_alt). rewrite zpad_sum. apply sum_ext. intros q1 _. now rewrite zpad_mul_r. }
  unfold sum_grid. rewrite sum_swap. apply sum_ext. intros q1 _. rewrite corr_alt. apply sum_ext. intros q0 _. reflexivity.
Qed.
Lemma corr2_flip N0 N1 W0 W1 p0 p1 (g w : Z -> Z -> R) i0 i1 : corr2 N0 N1 W0 W1 p0 p1 g (fun j0 j1 => w (W0 - 1 - j0) (W1 - 1 - j1)) i0 i1 = corr2_dx N0 N1 W0 W1 (W0 - 1 - p0) (W1 - 1 - p1) g w i0 i1.
Proof.
  rewrite corr2_alt. apply grid_ext. intros k0 k1 _ _. f_equal.
  assert (Z1 : forall W f i, @zpad R W (fun k => f (W - 1 - k)) i = zpad W f (W - 1 - i)).
  { intros W f i. unfold zpad. destruct ((0 <=? i) && (i <? W)) eqn:E1; destruct ((0 <=? W - 1 - i) && (W - 1 - i <? W)) eqn:E2; try lia; reflexivity. }
  unfold zpad2. replace (i0 - k0 + (W0 - 1 - p0)) with (W0 - 1 - (k0 - i0 + p0)) by lia. rewrite <- Z1. apply zpad_ext. intros _.
  replace (i1 - k1 + (W1 - 1 - p1)) with (W1 - 1 - (k1 - i1 + p1)) by lia. now rewrite <- Z1.
Qed.
Lemma corr2_swap N0 N1 X0 X1 p0 p1 (g x : Z -> Z -> R) j0 j1 : corr2 X0 X1 N0 N1 p0 p1 x g j0 j1 = corr2_dw N0 N1 X0 X1 p0 p1 g x j0 j1.
Proof. apply grid_ext. intros k0 k1 _ _. replace (j0 + k0 - p0) with (k0 + j0 - p0) by lia. replace (j1 + k1 - p1) with (k1 + j1 - p1) by lia. ring. Qed.
Lemma adjoint2_x N0 N1 X0 X1 W0 W1 p0 p1 (g x w : Z -> Z -> R) :
  sum_grid N0 N1 (fun k0 k1 => cmul (g k0 k1) (corr2 X0 X1 W0 W1 p0 p1 x w k0 k1)) = sum_grid X0 X1 (fun i0 i1 => cmul (x i0 i1) (corr2_dx N0 N1 W0 W1 p0 p1 g w i0 i1)).
Proof.
  transitivity (sum_grid N0 N1 (fun k0 k1 => sum_grid X0 X1 (fun q0 q1 => cmul (g k0 k1) (cmul (x q0 q1) (zpad2 W0 W1 w (q0 - k0 + p0) (q1 - k1 + p1)))))).
  { apply grid_ext. intros k0 k1 _ _. now rewrite corr2_alt, grid_mul_l. }
  rewrite grid_swap. apply grid_ext. intros i0 i1 _ _. unfold corr2_dx. rewrite grid_mul_l. apply grid_ext. intros k0 k1 _ _. ring.
Qed.
Lemma adjoint2_w N0 N1 X0 X1 W0 W1 p0 p1 (g x w : Z -> Z -> R) :
  sum_grid N0 N1 (fun k0 k1 => cmul (g k0 k1) (corr2 X0 X1 W0 W1 p0 p1 x w k0 k1)) = sum_grid W0 W1 (fun j0 j1 => cmul (w j0 j1) (corr2_dw N0 N1 X0 X1 p0 p1 g x j0 j1)).
Proof.
  transitivity (sum_grid N0 N1 (fun k0 k1 => sum_grid W0 W1 (fun j0 j1 => cmul (g k0 k1) (cmul (zpad2 X0 X1 x (k0 + j0 - p0) (k1 + j1 - p1)) (w j0 j1))))).
  { apply grid_ext. intros k0 k1 _ _. unfold corr2. now rewrite grid_mul_l. }
  rewrite grid_swap. apply grid_ext. intros i0 i1 _ _. unfold corr2_dw. rewrite grid_mul_l. apply grid_ext. intros k0 k1 _ _. ring.
Qed.
(* sums over the windows of the loops *)
Definition wlist (p i X W : Z) : list Z := map (Z.add (jlo p i)) (zrange (jhi p i X W - jlo p i)).
Lemma in_wlist p i X W j : In j (wlist p i X W) -> 0 <= j < W /\ 0 <= i + j - p < X.
Proof. intro H. apply in_map_iff in H as (k & <- & Hk). apply in_zrange in Hk. unfold jlo, jhi in *. lia. Qed.
Lemma sum_wlist p i X W (f : Z -> R) : rsum (map f (wlist p i X W)) = sum_to W (fun j => zpad X (fun _ => f j) (i + j - p)).
Proof.
  unfold wlist. rewrite (sum_window W) by (unfold jlo, jhi; lia). apply sum_ext. intros j Hj. apply (window_zpad p i j X W (fun _ => f j) Hj).
Qed.
Lemma sum_wlist2 p0 i0 X0 W0 p1 i1 X1 W1 (f : Z -> Z -> Z -> Z -> R) :
  rsum (map (fun j0 => rsum (map (fun j1 => f j0 j1 (i0 + j0 - p0) (i1 + j1 - p1)) (wlist p1 i1 X1 W1))) (wlist p0 i0 X0 W0)) =
  sum_grid W0 W1 (fun j0 j1 => zpad2 X0 X1 (f j0 j1) (i0 + j0 - p0) (i1 + j1 - p1)).
Proof.
  rewrite sum_wlist. apply sum_ext. intros j0 _. rewrite (zpad_ext X0 _ (fun _ => sum_to W1 (fun j1 => zpad X1 (fun _ => f j0 j1 (i0 + j0 - p0) (i1 + j1 - p1)) (i1 + j1 - p1)))) by (intros _; apply sum_wlist). rewrite zpad_sum. apply sum_ext. intros j1 _.
  unfold zpad2, zpad. destruct ((0 <=? i0 + j0 - p0) && (i0 + j0 - p0 <? X0)); [|reflexivity]. now destruct ((0 <=? i1 + j1 - p1) && (i1 + j1 - p1 <? X1)).
Qed.
Lemma forR_wlist {S} p i X W (f : Z -> S -> res S) s : forR (jlo p i) (jhi p i X W) f s = foldM f (wlist p i X W) s.
Proof. apply forR_list. Qed.

(* ---- nested loops that add *)
Lemma gains_seq2 r (step : Z -> Z -> memR -> res memR) (G : Z -> Z -> list Z -> R) l0 (l1 : list Z) (m : memR) : readable m r ->
  (forall a b m', In a l0 -> In b l1 -> readable m' r -> untouched m m' r -> exists m'', step a b m' = Ok m'' /\ gains m' m'' r (G a b)) ->
  exists m', foldM (fun a => foldM (step a) l1) l0 m = Ok m' /\ gains m m' r (fun ix => rsum (map (fun a => rsum (map (fun b => G a b ix) l1)) l0)).
Proof.
  intros Rr H. apply (gains_seq r (fun a => foldM (step a) l1) (fun a ix => rsum (map (fun b => G a b ix) l1)) l0 m Rr).
  intros a m1 Ha R1 U1. apply (gains_seq r (step a) (fun b => G a b) l1 m1 R1). intros b m2 Hb R2 U2. apply H; try assumption. now apply (untouched_trans m m1).
Qed.

(* ---- several channels *)
Lemma gdim2 v n0 n1 ds : vdims v = n0 :: n1 :: ds -> gdim v 0 = Ok n0 /\ gdim v 1 = Ok n1.
Proof. intro E. unfold gdim. rewrite E. split; reflexivity. Qed.
Lemma conv2_channels prod (Gp : (list Z -> R) -> (list Z -> R) -> list Z -> R) r x w N0 N1 X0 X1 W0 W1 dr dx dw (m : memR) :
  vwf r -> vwf x -> vwf w -> vdims r = N0 :: N1 :: dr -> vdims x = X0 :: X1 :: dx -> vdims w = W0 :: W1 :: dw -> length dw = 2%nat ->
  distinct_cells r -> readable m r -> readable m x -> readable m w -> disjoint_views r x -> disjoint_views r w ->
  (forall rr ww xx m, vwf rr -> vwf ww -> vwf xx -> vdims rr = dr -> vdims ww = dw -> vdims xx = dx -> distinct_cells rr -> readable m rr -> readable m ww -> readable m xx ->
     disjoint_views rr ww -> disjoint_views rr xx -> exists m', prod rr ww xx m = Ok m' /\ gains m m' rr (Gp (elem0 m ww) (elem0 m xx))) ->
  (forall f f' g g' t, in_range t dr -> (forall ix, in_range ix dw -> f ix = f' ix) -> (forall ix, in_range ix dx -> g ix = g' ix) -> Gp f g t = Gp f' g' t) ->
  exists m', conv2_34 prod r x w m = Ok m' /\
    gains m m' r (fun ix => match ix with i0 :: i1 :: t => sum_grid W0 W1 (fun j0 j1 =>
       zpad2 X0 X1 (fun q0 q1 => Gp (fun ix => elem0 m w (j0 :: j1 :: ix)) (fun ix => elem0 m x (q0 :: q1 :: ix)) t) (i0 + j0 - centred N0 X0 W0) (i1 + j1 - centred N1 X1 W1)) | _ => c0 end).
Proof.
  intros Wr Wx Ww Er Ex Ew Lw Dr Rr Rx Rw Dx Dw Hprod Hext. set (p0 := centred N0 X0 W0). set (p1 := centred N1 X1 W1).
  unfold conv2_34. replace (ndims w =? 4) with true by (unfold ndims; rewrite Ew; cbn [length]; rewrite Lw; reflexivity). cbn [assrt].
  destruct (gdim2 r _ _ _ Er) as [-> ->], (gdim2 x _ _ _ Ex) as [-> ->], (gdim2 w _ _ _ Ew) as [-> ->]. cbn [bind]. cbv zeta. change (pad0 N0 X0 W0) with p0. change (pad0 N1 X1 W1) with p1.
  set (GG := fun i0 i1 j0 j1 t => Gp (fun ix => elem0 m w (j0 :: j1 :: ix)) (fun ix => elem0 m x (i0 + j0 - p0 :: i1 + j1 - p1 :: ix)) t).
  unfold forZ.
  edestruct (gains_seq2 r (fun i0 i1 m => do rr <- slice2 i0 i1 r; forR (jlo p0 i0) (jhi p0 i0 X0 W0) (fun j0 => forR (jlo p1 i1) (jhi p1 i1 X1 W1) (fun j1 m => do ww <- slice2 j0 j1 w; do xx <- slice2 (i0 + j0 - p0) (i1 + j1 - p1) x; prod rr ww xx m)) m)
    (fun i0 i1 => at_first i0 (at_first i1 (fun t => rsum (map (fun j0 => rsum (map (fun j1 => GG i0 i1 j0 j1 t) (wlist p1 i1 X1 W1))) (wlist p0 i0 X0 W0))))) (zrange N0) (zrange N1) m Rr) as (m' & E & G).
  - intros i0 i1 m1 Hi0 Hi1 Rr1 U1. apply in_zrange in Hi0, Hi1. destruct (slice2_first r i0 i1 N0 N1 dr Wr Er) as (r1 & rr & Es1 & Es & Wr1 & Wrr & Er1 & Err & Ea1 & Ea2 & Ea). rewrite Es. cbn [bind].
    pose proof (slice2_sub r i0 i1 N0 N1 dr rr Hi0 Hi1 Er Err Ea) as Prr. rewrite forR_wlist.
    edestruct (gains_seq2 rr (fun j0 j1 m => do ww <- slice2 j0 j1 w; do xx <- slice2 (i0 + j0 - p0) (i1 + j1 - p1) x; prod rr ww xx m) (fun j0 j1 => GG i0 i1 j0 j1) (wlist p0 i0 X0 W0) (wlist p1 i1 X1 W1) m1) as (m2 & E2 & G2).
    + now apply (sub_readable m1 rr r (fun t => i0 :: i1 :: t)).
    + intros j0 j1 m2 Hj0 Hj1 Rr2 U2. apply in_wlist in Hj0 as [Hj0 Hq0]. apply in_wlist in Hj1 as [Hj1 Hq1].
      destruct (slice2_first w j0 j1 W0 W1 dw Ww Ew) as (w1 & ww & _ & Esw & _ & Www & _ & Eww & _ & _ & Eaw). destruct (slice2_first x (i0 + j0 - p0) (i1 + j1 - p1) X0 X1 dx Wx Ex) as (x1 & xx & _ & Esx & _ & Wxx & _ & Exx & _ & _ & Eax).
      rewrite Esw, Esx. cbn [bind].
      assert (U12 : untouched m m2 r).
      { apply (untouched_trans m m1); [exact U1|]. intros b a Hn. apply U2. intros t Ht Hc. destruct (Prr t Ht) as [H1 H2]. apply (Hn _ H1). congruence. }
      pose proof (slice2_sub w j0 j1 W0 W1 dw ww Hj0 Hj1 Ew Eww Eaw) as Pw. pose proof (slice2_sub x _ _ X0 X1 dx xx Hq0 Hq1 Ex Exx Eax) as Px.
      pose proof (keep_readable r x m m2 Dx U12 Rx) as Rx2. pose proof (keep_readable r w m m2 Dw U12 Rw) as Rw2.
      destruct (Hprod rr ww xx m2) as (m3 & E3 & G3); try assumption.
      * apply (sub_distinct rr r _ Prr); [|exact Dr]. intros; congruence.
      * now apply (sub_readable m2 ww w _ Pw).
      * now apply (sub_readable m2 xx x _ Px).
      * intros t t' Ht Ht'. destruct (Prr t Ht) as [H1 H2], (Pw t' Ht') as [H3 H4]. rewrite H2, H4. now apply Dw.
      * intros t t' Ht Ht'. destruct (Prr t Ht) as [H1 H2], (Px t' Ht') as [H3 H4]. rewrite H2, H4. now apply Dx.
      * exists m3. split; [exact E3|]. apply (gains_ext _ _ _ _ _ G3). intros t Ht. rewrite Err in Ht. unfold GG. apply Hext; try assumption.
        -- intros ix Hix. rewrite <- Eww in Hix. destruct (Pw ix Hix) as [H1 H2]. rewrite <- (keep_elem0 r w m m2) by assumption. unfold elem0, elem. now rewrite H2.
        -- intros ix Hix. rewrite <- Exx in Hix. destruct (Px ix Hix) as [H1 H2]. rewrite <- (keep_elem0 r x m m2) by assumption. unfold elem0, elem. now rewrite H2.
    + exists m2. split; [|apply (gains_slice r N0 _ i0 r1 m1 m2 _ Wr Er Dr Hi0 Er1 Ea1); apply (gains_slice r1 N1 dr i1 rr m1 m2 _ Wr1 Er1); try assumption].
      * rewrite <- E2. apply foldM_ext. intros j0 s _. apply forR_wlist.
      * intros t t' Ht Ht' Ec. rewrite Er1 in Ht, Ht'. rewrite !Ea1 in Ec by now apply in_range_length. apply Dr in Ec; [congruence| |]; rewrite Er; now apply in_range_cons.
  - exists m'. split; [exact E|]. apply (gains_ext _ _ _ _ _ G). intros ix Hix. rewrite Er in Hix. destruct ix as [|i0 ix]; [inversion Hix|]. apply in_range_cons in Hix as [Hi0 Hix]. destruct ix as [|i1 t]; [inversion Hix|]. apply in_range_cons in Hix as [Hi1 Ht].
    cbn [at_first].
    transitivity (rsum (map (fun a => if i0 =? a then rsum (map (fun b => if i1 =? b then rsum (map (fun j0 => rsum (map (fun j1 => GG a b j0 j1 t) (wlist p1 b X1 W1))) (wlist p0 a X0 W0)) else c0) (zrange N1)) else c0) (zrange N0))).
    { apply rsum_ext. intros a _. destruct (i0 =? a); [reflexivity|]. apply rsum_zero. reflexivity. }
    rewrite (sum_delta N0 i0 (fun a => rsum (map (fun b => if i1 =? b then rsum (map (fun j0 => rsum (map (fun j1 => GG a b j0 j1 t) (wlist p1 b X1 W1))) (wlist p0 a X0 W0)) else c0) (zrange N1)))). unfold zpad at 1. replace ((0 <=? i0) && (i0 <? N0)) with true by lia.
    rewrite (sum_delta N1 i1 (fun b => rsum (map (fun j0 => rsum (map (fun j1 => GG i0 b j0 j1 t) (wlist p1 b X1 W1))) (wlist p0 i0 X0 W0)))). unfold zpad at 1. replace ((0 <=? i1) && (i1 <? N1)) with true by lia.
    apply (sum_wlist2 p0 i0 X0 W0 p1 i1 X1 W1 (fun j0 j1 q0 q1 => Gp (fun ix => elem0 m w (j0 :: j1 :: ix)) (fun ix => elem0 m x (q0 :: q1 :: ix)) t)).
Qed.
End S.
