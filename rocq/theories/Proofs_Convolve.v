(* Proofs_Convolve.v -- one-dimensional convolution: the loops. *)
From Verif Require Import Base BaseFacts Model_Index Model_View Model_Tensor Model_Einsum Model_Convolve Spec_Index Spec_View Spec_Tensor Spec_Convolve
  Proofs_Index Proofs_View Proofs_Tensor Proofs_Tensor3 Proofs_Einsum7.
Local Open Scope Z_scope.

(* ---- slices of the first dimension *)
Lemma slice_first v i n ds : vwf v -> vdims v = n :: ds ->
  exists v', slice 0 i v = Ok v' /\ vwf v' /\ vdims v' = ds /\ forall t, length t = length ds -> vaddr v' t = vaddr v (i :: t).
Proof.
  intros [L Nn] E. destruct v as [b o dd ss]. cbn in *. subst dd. destruct ss as [|s0 ss]; [discriminate|]. inversion Nn as [|? ? N0 Nn']; subst.
  unfold slice, vremove. cbn [vstr vdims vblk voff length]. change (zget (s0 :: ss) 0) with (Ok s0). cbn [bind].
  replace ((0 <=? 0) && (0 <? Z.of_nat (S (length ds)))) with true by lia. replace ((0 <=? 0) && (0 <? Z.of_nat (S (length ss)))) with true by lia. cbn [assrt bind firstn skipn Z.to_nat app].
  eexists. split; [reflexivity|]. cbn in L. split; [split; cbn; [lia|exact Nn']|]. split; [reflexivity|].
  intros t Ht. rewrite !vaddr_ok by (cbn; lia). cbn [vblk voff vstr dot]. do 2 f_equal. lia.
Qed.
Lemma in_range_cons i t n ds : in_range (i :: t) (n :: ds) <-> (0 <= i < n) /\ in_range t ds.
Proof. split; [intro H; inversion H; subst; tauto|intros [H1 H2]; constructor; assumption]. Qed.

Section S.
Context {R : cring}.
Add Ring RrCv : (cth R).
Notation memR := (mem (car R)).

(* every element of r has G added *)
Definition gains (m m' : memR) (r : view) (G : list Z -> R) : Prop :=
  (forall ix v, in_range ix (vdims r) -> elem m r ix = Some v -> elem m' r ix = Some (cadd v (G ix))) /\ untouched m m' r.
Lemma untouched_refl (m : memR) r : untouched m m r. Proof. intros b a _. reflexivity. Qed.
Lemma untouched_trans (m m1 m2 : memR) r : untouched m m1 r -> untouched m1 m2 r -> untouched m m2 r.
Proof. intros H K b a Hn. now rewrite K, H. Qed.
Lemma gains_readable m m' r G : gains m m' r G -> readable m r -> readable m' r.
Proof. intros [A _] Rr ix Hix. specialize (Rr ix Hix). destruct (elem m r ix) as [v|] eqn:E; [|congruence]. now rewrite (A ix v Hix E). Qed.
Lemma gains_zero (m : memR) r : gains m m r (fun _ => c0).
Proof. split; [|apply untouched_refl]. intros ix v _ ->. f_equal. ring. Qed.
Lemma gains_ext m m' r G G' : gains m m' r G -> (forall ix, in_range ix (vdims r) -> G ix = G' ix) -> gains m m' r G'.
Proof. intros [A U] H. split; [|exact U]. intros ix v Hix E. rewrite <- H by assumption. now apply A. Qed.
Lemma gains_seq {A} r (step : A -> memR -> res memR) (G : A -> list Z -> R) l : forall m, readable m r ->
  (forall a m', In a l -> readable m' r -> untouched m m' r -> exists m'', step a m' = Ok m'' /\ gains m' m'' r (G a)) ->
  exists m', foldM step l m = Ok m' /\ gains m m' r (fun ix => rsum (map (fun a => G a ix) l)).
Proof.
  induction l as [|a l IH]; intros m Rr H.
  - exists m. split; [reflexivity|]. apply (gains_ext _ _ _ _ _ (gains_zero m r)). intros. cbn. now rewrite rsum_nil.
  - destruct (H a m (or_introl eq_refl) Rr (untouched_refl m r)) as (m1 & E1 & G1). cbn [foldM]. rewrite E1. cbn [bind].
    destruct (IH m1 (gains_readable _ _ _ _ G1 Rr)) as (m2 & E2 & G2).
    + intros b m' Hb Rr' U'. apply H; [now right|assumption|]. apply (untouched_trans m m1); [apply G1|assumption].
    + exists m2. split; [exact E2|]. split; [|apply (untouched_trans m m1); [apply G1|apply G2]]. intros ix v Hix E. cbn [map]. rewrite rsum_cons.
      rewrite (proj1 G2 ix (cadd v (G a ix)) Hix (proj1 G1 ix v Hix E)). f_equal. ring.
Qed.
(* what a slice gains *)
Definition at_first (i : Z) (G : list Z -> R) (ix : list Z) : R := match ix with k :: t => if k =? i then G t else c0 | [] => c0 end.
Lemma gains_slice r n ds i rr (m m' : memR) G : vwf r -> vdims r = n :: ds -> distinct_cells r -> 0 <= i < n -> vdims rr = ds ->
  (forall t, length t = length ds -> vaddr rr t = vaddr r (i :: t)) -> gains m m' rr G -> gains m m' r (at_first i G).
Proof.
  intros W E Dd Hi Ed Ea [A U]. split.
  - intros ix v Hix Ev. destruct ix as [|k t]; [rewrite E in Hix; inversion Hix|]. pose proof Hix as Hix0. rewrite E in Hix. apply in_range_cons in Hix as [Hk Ht].
    cbn [at_first]. destruct (Z.eqb_spec k i) as [->|N].
    + pose proof (in_range_length _ _ Ht) as Hl. unfold elem in *. rewrite <- Ea in * by congruence. apply A; [now rewrite Ed|exact Ev].
    + replace (cadd v c0) with v by ring. rewrite <- Ev. unfold elem. destruct (vaddr r (k :: t)) as [[b a]| |] eqn:Ec; [|reflexivity..].
      apply U. intros t' Ht' Ec'. rewrite Ed in Ht'. pose proof (in_range_length _ _ Ht') as Hl. rewrite Ea in Ec' by congruence. rewrite <- Ec' in Ec. apply Dd in Ec; [congruence|exact Hix0|]. rewrite E. apply in_range_cons. tauto.
  - intros b a Hn. apply U. intros t Ht Ec. rewrite Ed in Ht. pose proof (in_range_length _ _ Ht) as Hl. apply (Hn (i :: t)); [rewrite E; apply in_range_cons; tauto|]. now rewrite <- Ea by congruence.
Qed.
(* sums with one term *)
Lemma sum_delta n k (f : Z -> R) : rsum (map (fun i => if k =? i then f i else c0) (zrange n)) = zpad n f k.
Proof.
  unfold zpad. destruct ((0 <=? k) && (k <? n)) eqn:E.
  - rewrite rsum_single with (a := k); [now rewrite Z.eqb_refl|apply zrange_nodup|apply in_zrange; lia|]. intros i _ N. destruct (Z.eqb_spec k i); [congruence|reflexivity].
  - apply rsum_zero. intros i Hi. apply in_zrange in Hi. destruct (Z.eqb_spec k i); [lia|reflexivity].
Qed.
Lemma sum_window n lo hi (f : Z -> R) : 0 <= lo -> hi <= n -> rsum (map f (map (Z.add lo) (zrange (hi - lo)))) = rsum (map (fun j => if win lo hi j then f j else c0) (zrange n)).
Proof.
  intros H1 H2. rewrite (zrange_window lo hi n) by assumption. generalize (zrange n). intro l. induction l as [|i l IH]; [reflexivity|]. cbn. fold (win lo hi i). destruct (win lo hi i); cbn; rewrite ?rsum_cons, IH; [reflexivity|ring].
Qed.
Lemma forR_list {S} lo hi (f : Z -> S -> res S) s : forR lo hi f s = foldM f (map (Z.add lo) (zrange (hi - lo))) s.
Proof. unfold forR, forZ. symmetry. apply foldM_map. Qed.
Lemma window_zpad p i j X W (f : Z -> R) : 0 <= j < W -> (if win (jlo p i) (jhi p i X W) j then f (i + j - p) else c0) = zpad X f (i + j - p).
Proof.
  intro Hj. unfold win, jlo, jhi, zpad. destruct ((Z.max 0 (p - i) <=? j) && (j <? Z.min W (X - i + p))) eqn:E1; destruct ((0 <=? i + j - p) && (i + j - p <? X)) eqn:E2; try reflexivity; lia.
Qed.

(* ---- several channels *)
Lemma conv_channels prod (Gp : (list Z -> R) -> (list Z -> R) -> list Z -> R) r x w N X W dr dx dw (m : memR) :
  vwf r -> vwf x -> vwf w -> vdims r = N :: dr -> vdims x = X :: dx -> vdims w = W :: dw -> length dw = 2%nat ->
  distinct_cells r -> readable m r -> readable m x -> readable m w -> disjoint_views r x -> disjoint_views r w ->
  (forall rr ww xx m, vwf rr -> vwf ww -> vwf xx -> vdims rr = dr -> vdims ww = dw -> vdims xx = dx -> distinct_cells rr -> readable m rr -> readable m ww -> readable m xx ->
     disjoint_views rr ww -> disjoint_views rr xx -> exists m', prod rr ww xx m = Ok m' /\ gains m m' rr (Gp (elem0 m ww) (elem0 m xx))) ->
  (forall f f' g g' t, in_range t dr -> (forall ix, in_range ix dw -> f ix = f' ix) -> (forall ix, in_range ix dx -> g ix = g' ix) -> Gp f g t = Gp f' g' t) ->
  exists m', conv_23 prod r x w m = Ok m' /\
    gains m m' r (fun ix => match ix with i :: t => sum_to W (fun j =>
       zpad X (fun q => Gp (fun ix => elem0 m w (j :: ix)) (fun ix => elem0 m x (q :: ix)) t) (i + j - centred N X W)) | [] => c0 end).
Proof.
  intros Wr Wx Ww Er Ex Ew Lw Dr Rr Rx Rw Dx Dw Hprod Hext. set (p := centred N X W).
  assert (Gd : forall v n ds, vdims v = n :: ds -> gdim v 0 = Ok n). { intros v n ds E. unfold gdim. rewrite E. reflexivity. }
  unfold conv_23. replace (ndims w =? 3) with true by (unfold ndims; rewrite Ew; cbn [length]; rewrite Lw; reflexivity). cbn [assrt].
  rewrite (Gd r N dr Er), (Gd x X dx Ex), (Gd w W dw Ew). cbn [bind]. fold p. change (pad0 N X W) with p.
  set (GG := fun i j t => Gp (fun ix => elem0 m w (j :: ix)) (fun ix => elem0 m x (i + j - p :: ix)) t).
  unfold forZ.
  destruct (gains_seq r (fun i m => do rr <- slice 0 i r; forR (jlo p i) (jhi p i X W) (fun j m => do ww <- slice 0 j w; do xx <- slice 0 (i + j - p) x; prod rr ww xx m) m)
    (fun i => at_first i (fun t => rsum (map (fun j => GG i j t) (map (Z.add (jlo p i)) (zrange (jhi p i X W - jlo p i)))))) (zrange N) m Rr) as (m' & E & G).
  - intros i m1 Hi Rr1 U1. apply in_zrange in Hi. destruct (slice_first r i N dr Wr Er) as (rr & Es & Wrr & Err & Ea). rewrite Es. cbn [bind]. rewrite forR_list.
    assert (Prr : forall t, in_range t (vdims rr) -> in_range (i :: t) (vdims r) /\ vaddr rr t = vaddr r (i :: t)).
    { intros t Ht. rewrite Err in Ht. split; [rewrite Er; now apply in_range_cons|]. apply Ea. now apply in_range_length. }
    destruct (gains_seq rr (fun j m => do ww <- slice 0 j w; do xx <- slice 0 (i + j - p) x; prod rr ww xx m) (fun j => GG i j) (map (Z.add (jlo p i)) (zrange (jhi p i X W - jlo p i))) m1) as (m2 & E2 & G2).
    + intros t Ht. destruct (Prr t Ht) as [H1 H2]. unfold elem. rewrite H2. now apply Rr1.
    + intros j m2 Hj Rr2 U2. apply in_map_iff in Hj as (k & <- & Hk). apply in_zrange in Hk. set (j := jlo p i + k) in *.
      assert (Hj : 0 <= j < W /\ 0 <= i + j - p < X) by (unfold j, jlo, jhi in *; lia). destruct Hj as [Hj Hq].
      destruct (slice_first w j W dw Ww Ew) as (ww & Esw & Www & Eww & Eaw). destruct (slice_first x (i + j - p) X dx Wx Ex) as (xx & Esx & Wxx & Exx & Eax).
      rewrite Esw, Esx. cbn [bind].
      assert (U12 : untouched m m2 r).
      { apply (untouched_trans m m1); [exact U1|]. intros b a Hn. apply U2. intros t Ht Hc. destruct (Prr t Ht) as [H1 H2]. apply (Hn _ H1). congruence. }
      assert (Pw : forall t, in_range t dw -> in_range (j :: t) (vdims w) /\ vaddr ww t = vaddr w (j :: t)).
      { intros t Ht. split; [rewrite Ew; now apply in_range_cons|]. apply Eaw. now apply in_range_length. }
      assert (Px : forall t, in_range t dx -> in_range (i + j - p :: t) (vdims x) /\ vaddr xx t = vaddr x (i + j - p :: t)).
      { intros t Ht. split; [rewrite Ex; now apply in_range_cons|]. apply Eax. now apply in_range_length. }
      pose proof (keep_readable r x m m2 Dx U12 Rx) as Rx2. pose proof (keep_readable r w m m2 Dw U12 Rw) as Rw2.
      destruct (Hprod rr ww xx m2) as (m3 & E3 & G3); try assumption.
      * intros t t' Ht Ht' Ec. destruct (Prr t Ht) as [H1 H2], (Prr t' Ht') as [H3 H4]. rewrite H2, H4 in Ec. apply Dr in Ec; [congruence|assumption..].
      * intros t Ht. rewrite Eww in Ht. destruct (Pw t Ht) as [H1 H2]. unfold elem. rewrite H2. now apply Rw2.
      * intros t Ht. rewrite Exx in Ht. destruct (Px t Ht) as [H1 H2]. unfold elem. rewrite H2. now apply Rx2.
      * intros t t' Ht Ht'. rewrite Eww in Ht'. destruct (Prr t Ht) as [H1 H2], (Pw t' Ht') as [H3 H4]. rewrite H2, H4. now apply Dw.
      * intros t t' Ht Ht'. rewrite Exx in Ht'. destruct (Prr t Ht) as [H1 H2], (Px t' Ht') as [H3 H4]. rewrite H2, H4. now apply Dx.
      * exists m3. split; [exact E3|]. apply (gains_ext _ _ _ _ _ G3). intros t Ht. rewrite Err in Ht. unfold GG. apply Hext; try assumption.
        -- intros ix Hix. destruct (Pw ix Hix) as [H1 H2]. unfold elem0, elem. rewrite H2. fold (elem m2 w (j :: ix)). fold (elem m w (j :: ix)). now rewrite (disjoint_keep r w m m2).
        -- intros ix Hix. destruct (Px ix Hix) as [H1 H2]. unfold elem0, elem. rewrite H2. fold (elem m2 x (i + j - p :: ix)). fold (elem m x (i + j - p :: ix)). now rewrite (disjoint_keep r x m m2).
    + exists m2. split; [exact E2|]. apply (gains_slice r N dr i rr m1 m2 _ Wr Er Dr Hi Err Ea G2).
  - exists m'. split; [exact E|]. apply (gains_ext _ _ _ _ _ G). intros ix Hix. rewrite Er in Hix. destruct ix as [|i t]; [inversion Hix|]. apply in_range_cons in Hix as [Hi Ht].
    cbn [at_first]. rewrite (sum_delta N i (fun i => rsum (map (fun j => GG i j t) (map (Z.add (jlo p i)) (zrange (jhi p i X W - jlo p i)))))). unfold zpad at 1. replace ((0 <=? i) && (i <? N)) with true by lia.
    rewrite (sum_window W) by (unfold jlo, jhi; lia). unfold sum_to. apply rsum_ext. intros j Hj. apply in_zrange in Hj. unfold GG.
    apply (window_zpad p i j X W (fun q => Gp (fun ix => elem0 m w (j :: ix)) (fun ix => elem0 m x (q :: ix)) t) Hj).
Qed.
End S.
