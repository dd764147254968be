(* Proofs_Gtensor3.v -- stand-alone tensors: views, slices, elementwise operations, sums, products. *)
From Verif Require Import Base BaseFacts Model_Index Model_View Model_Tensor Model_Gtensor
  Spec_Index Spec_View Spec_Tensor Spec_Gtensor Proofs_Index Proofs_View2 Proofs_Sparse Proofs_Gtensor Proofs_Gtensor2.
Local Open Scope Z_scope.

Lemma prod_one n : prod [n] = n. Proof. cbv [prod fold_right]. ring. Qed.
Section Gen.
Context {V : Type}.
Notation heapV := (heap V).

(* ---- views ---- *)
Lemma reshape_ok (h : heapV) x dims dims' : plain h x dims -> dims' <> [] -> nonneg dims' -> prod dims' = prod dims ->
  exists v, greshape_view x dims' = Ok v /\ plain h v dims' /\ garr v = garr x /\ gisview v = true /\
    forall ix jx, same_place ix dims jx dims' -> vaddr (gview v) jx = vaddr (gview x) ix /\ forall h' : heapV, gel h' v jx = gel h' x ix.
Proof.
  intros HP Hd Hn Hp. pose proof HP as (_ & _ & _ & _ & Hs & Ha & Hm & Hc). unfold greshape_view. rewrite (strides_ok dims' Hd). cbn [bind]. rewrite Ha, Hp, Z.eqb_refl. cbn [assrt].
  eexists. split; [reflexivity|]. split; [|split; [reflexivity|split; [reflexivity|]]].
  - split; [exact Hd|split; [exact Hn|split; [reflexivity|split; [reflexivity|split; [reflexivity|split; [now symmetry|split; [cbn; congruence|]]]]]]].
    destruct Hc as (b & Hb & Hl & Hcs). exists b. split; [exact Hb|split; [exact Hl|]]. intro a. rewrite Hp. apply Hcs.
  - intros ix jx (Hi & Hj & E). destruct Hc as (b & Hb & _). destruct (plain_dot h x dims ix HP Hi) as (E1 & L1).
    assert (L2 : length jx = length (strides_of 1 dims')) by (rewrite strides_of_length; now apply in_range_length).
    match goal with |- vaddr (gview ?v) _ = _ /\ _ => assert (Hv : vaddr (gview v) jx = vaddr (gview x) ix) end.
    { rewrite (vaddr_g x b ix Hb L1), E1, E. match goal with |- vaddr (gview ?v) _ = _ => rewrite (vaddr_g v b jx Hb L2) end. cbn [gstr]. rewrite dot_strides_of by (now apply in_range_length). do 2 f_equal. ring. }
    split; [exact Hv|]. intro h'. unfold gel, elem. rewrite Hv. reflexivity.
Qed.
Lemma reshape_throws (x : gtensor) dims' : dims' <> [] -> prod dims' <> gasize x -> greshape_view x dims' = Throw.
Proof. intros Hd Hp. unfold greshape_view. rewrite (strides_ok dims' Hd). cbn [bind]. now destruct (Z.eqb_spec (prod dims') (gasize x)). Qed.

(* ---- slices ---- *)
Lemma slice_ok (junk : V) (h : heapV) t d1 d2 s1 ix : heap_ok h -> laid h t (d1 ++ d2) -> length s1 = length d1 -> gstr t = s1 ++ strides_of 1 d2 -> in_range ix d1 -> d2 <> [] ->
  exists r h', gslice junk t ix h = Ok (r, h') /\ plain h' r d2 /\ adds_array h r h' /\ forall jx, in_range jx d2 -> gel h' r jx = gel h t (ix ++ jx).
Proof.
  intros Hok HL Ls Es Hi Hd2. pose proof HL as (Hd & Hk & Hls & Hnn & Hc & _ & Hin). pose proof (in_range_length _ _ Hi) as Li. apply Forall_app in Hnn. destruct Hnn as (Hn1 & Hn2).
  unfold gslice. rewrite Hd.
  assert (Ech : vchunk (Z.of_nat (length ix)) (-1) (d1 ++ d2) = Ok d2).
  { unfold vchunk. replace (Z.of_nat (length ix) <? 0) with false by lia. change (-1 =? -1) with true. cbn iota. rewrite app_length, Li. cbn.
    replace (Z.of_nat (length d1 + length d2) - Z.of_nat (length d1)) with (Z.of_nat (length d2)) by lia.
    match goal with |- (if ?c then _ else _) = _ => replace c with false by lia end. rewrite !Nat2Z.id. rewrite skipn_app, skipn_all, Nat.sub_diag. cbn. now rewrite firstn_all. }
  rewrite Ech. cbn [bind]. destruct (new_plain junk d2 h Hd2 Hn2 Hok) as (r & h1 & b & E & HP & HA & Hb & Hv & Hj). rewrite E. cbn [bind].
  rewrite off_from0 by (auto; rewrite Es, app_length; lia). cbn [bind]. rewrite Es. replace (dot (s1 ++ strides_of 1 d2) ix) with (dot s1 ix) by (rewrite <- (app_nil_r ix) at 2; rewrite dot_app, dot_nil_r by lia; ring).
  unfold copy_arr. rewrite asize_prod. pose proof HP as (_ & _ & _ & _ & _ & _ & _ & Hcr).
  assert (Hadr : forall jx, in_range jx d2 -> dot (gstr t) (ix ++ jx) = dot s1 ix + flat jx d2).
  { intros jx Hjx. rewrite Es, dot_app by lia. rewrite dot_strides_of by (now apply in_range_length). ring. }
  assert (Nb : garr t <> Some b). { destruct Hc as (bt & Hbt & Hlt & _). destruct HA as (b' & Hb' & _ & Nf & _). intro Ex. assert (bt = b') by congruence. subst. contradiction. }
  destruct (loop_ok h1 r b 0 (prod d2) (prod d2) (fun i => cellv junk h t (dot s1 ix + i)) (fun i h' => rd h' t (dot s1 ix + i))) as (h2 & E2 & P2); try assumption; try lia.
  { now apply prod_nonneg. }
  { intros i h' Hir P'. rewrite (rd_other b 0 i _ h1 h' t _ P') by (now left). destruct (flat_surj d2 i Hn2 Hir) as (jx & Hjx & <-).
    assert (Hrg : in_range (ix ++ jx) (d1 ++ d2)) by (now apply Forall2_app). specialize (Hin _ Hrg). rewrite Hadr in Hin by assumption.
    rewrite (rd_cellv junk h1 t (gmemsize t)); [|now apply (adds_has h r h1)|exact Hin]. f_equal. unfold cellv. destruct Hc as (bt & Hbt & Hlt & Hcs). rewrite Hbt.
    rewrite (adds_mem h r h1 t (gmemsize t) bt _ HA ltac:(now exists bt) Hbt). reflexivity. }
  rewrite E2. cbn [bind]. exists r, h2. split; [reflexivity|]. pose proof (cells_in h1 r b 0 (prod d2) (prod d2) Hcr Hb ltac:(lia) ltac:(lia)) as Hci.
  pose proof (painted_plain _ _ _ _ _ _ _ _ P2 Hci HP) as HP2. split; [exact HP2|split; [exact (paint_adds h r h1 h2 b _ _ HA Hb P2 Hci)|]].
  intros jx Hjx. rewrite (painted_gel h1 h2 b _ r d2 jx P2 HP2 Hb Hjx). assert (Hrg : in_range (ix ++ jx) (d1 ++ d2)) by (now apply Forall2_app).
  destruct (laid_rd h t _ _ HL Hrg) as (bt & v & Hbt & Hgv & _ & Hmv). rewrite Hgv. f_equal. unfold cellv. rewrite Hbt, <- Hadr by assumption. now rewrite Hmv.
Qed.
Lemma slice_whole_ub (junk : V) (h : heapV) t dims ix : laid h t dims -> length ix = length dims -> gslice junk t ix h = UB.
Proof.
  intros HL Li. pose proof HL as (Hd & _). unfold gslice. rewrite Hd.
  assert (Ech : vchunk (Z.of_nat (length ix)) (-1) dims = Ok []).
  { unfold vchunk. replace (Z.of_nat (length ix) <? 0) with false by lia. change (-1 =? -1) with true. cbn iota. rewrite Li. cbn.
    replace (Z.of_nat (length dims) - Z.of_nat (length dims)) with 0 by lia.
    match goal with |- (if ?c then _ else _) = _ => replace c with false by lia end. reflexivity. }
  rewrite Ech. reflexivity.
Qed.
Lemma set_slice_ok (d : V) (h : heapV) t d1 d2 s1 ix x : laid h t (d1 ++ d2) -> length s1 = length d1 -> gstr t = s1 ++ strides_of 1 d2 -> in_range ix d1 -> plain h x d2 -> apart t x ->
  exists h', gset_slice t ix x h = Ok h' /\ only_at h h' t (fun jx => exists kx, jx = ix ++ kx /\ in_range kx d2) /\
    (forall jx, in_range jx d2 -> gel h' t (ix ++ jx) = gel h x jx) /\
    (forall iy jx, in_range iy d1 -> in_range jx d2 -> iy <> ix -> gel h' t (iy ++ jx) = gel h t (iy ++ jx)).
Proof.
  intros HL Ls Es Hi HX Hap. pose proof HL as (Hd & Hk & Hls & Hnn & Hc & Hdist & Hin). pose proof (in_range_length _ _ Hi) as Li. apply Forall_app in Hnn. destruct Hnn as (Hn1 & Hn2).
  pose proof HX as (_ & _ & _ & _ & _ & Hxa & _ & Hcx). pose proof Hc as (b & Hb & Hlb & Hcs).
  assert (Hadr : forall iy jx, length iy = length d1 -> in_range jx d2 -> dot (gstr t) (iy ++ jx) = dot s1 iy + flat jx d2).
  { intros iy jx Hl Hjx. rewrite Es, dot_app by lia. rewrite dot_strides_of by (now apply in_range_length). ring. }
  assert (Len : forall iy jx, length iy = length d1 -> in_range jx d2 -> length (iy ++ jx) = length (gstr t)).
  { intros iy jx Hl Hjx. rewrite Es, !app_length, strides_of_length, (in_range_length _ _ Hjx). lia. }
  unfold gset_slice. rewrite off_from0 by (auto; rewrite Es, app_length; lia). cbn [bind]. replace (dot (gstr t) ix) with (dot s1 ix) by (rewrite Es; rewrite <- (app_nil_r ix) at 2; rewrite dot_app, dot_nil_r by lia; ring).
  unfold copy_arr. rewrite Hxa.
  assert (Hcell : forall i, 0 <= i < prod d2 -> exists jx, in_range jx d2 /\ flat jx d2 = i /\ 0 <= dot s1 ix + i < gmemsize t).
  { intros i Hir. destruct (flat_surj d2 i Hn2 Hir) as (jx & Hjx & Ef). exists jx. split; [exact Hjx|split; [exact Ef|]].
    assert (Hrg : in_range (ix ++ jx) (d1 ++ d2)) by (now apply Forall2_app). specialize (Hin _ Hrg). rewrite Hadr in Hin by assumption. lia. }
  assert (Hci : forall i, 0 <= i < prod d2 -> hmem h b (dot s1 ix + i) <> None).
  { intros i Hir. destruct (Hcell i Hir) as (jx & _ & _ & B). now apply Hcs. }
  destruct (paint b (dot s1 ix) (fun i => cellv d h x i) h (prod d2) (fun i h0 => do v <- rd h0 x (0 + i); wr t (dot s1 ix + i) v h0) (prod_nonneg _ Hn2)) as (h2 & E2 & P2).
  { intros i h' Hir P'. rewrite (rd_other b (dot s1 ix) i _ h h' x _ P') by (left; unfold apart in Hap; congruence). change (0 + i) with i. rewrite (rd_cellv d h x (prod d2)) by assumption. cbn [bind].
    apply wr_painted; [lia|exact P'|exact Hb|now apply Hci|reflexivity]. }
  exists h2. split; [exact E2|]. split; [|split].
  - destruct P2 as (Q1 & Q2 & Q3). split; [exact Q1|split; [exact Q2|]]. intros b' a Hno. rewrite Q3. destruct (Z.eqb_spec b' b); [|reflexivity].
    destruct (Z.leb_spec (dot s1 ix) a), (Z.ltb_spec a (dot s1 ix + prod d2)); cbn; try reflexivity. exfalso. subst b'. destruct (Hcell (a - dot s1 ix) ltac:(lia)) as (jx & Hjx & Ef & _).
    apply (Hno (ix ++ jx)); [now exists jx|]. rewrite (vaddr_g t b (ix ++ jx) Hb (Len ix jx Li Hjx)). rewrite Hadr by assumption. do 2 f_equal. lia.
  - intros jx Hjx. rewrite (gel_eq h2 t b (ix ++ jx) Hb (Len ix jx Li Hjx)). rewrite Hadr by assumption.
    rewrite (painted_in b _ _ _ h h2 _ P2) by (now apply flat_range). now rewrite (plain_cellv d h x d2 jx HX Hjx).
  - intros iy jx Hiy Hjx Hne. pose proof (in_range_length _ _ Hiy) as Liy. pose proof (Len iy jx Liy Hjx) as Lx.
    rewrite !(gel_eq _ t b) by assumption. apply (painted_out b (dot s1 ix) (prod d2) _ h h2 _ P2). rewrite Hadr by assumption.
    destruct (Z_lt_le_dec (dot s1 iy + flat jx d2) (dot s1 ix)); [now left|]. destruct (Z_le_gt_dec (dot s1 ix + prod d2) (dot s1 iy + flat jx d2)); [now right|]. exfalso.
    destruct (Hcell (dot s1 iy + flat jx d2 - dot s1 ix) ltac:(lia)) as (kx & Hkx & Ef & _). apply Hne.
    assert (Hr1 : in_range (iy ++ jx) (d1 ++ d2)) by (now apply Forall2_app). assert (Hr2 : in_range (ix ++ kx) (d1 ++ d2)) by (now apply Forall2_app).
    assert (Eq : iy ++ jx = ix ++ kx).
    { apply Hdist; [cbn; now rewrite Hd|cbn; now rewrite Hd|]. rewrite (vaddr_g t b (iy ++ jx) Hb Lx), (vaddr_g t b (ix ++ kx) Hb (Len ix kx Li Hkx)). rewrite !Hadr by assumption. do 2 f_equal. lia. }
    apply (f_equal (firstn (length d1))) in Eq. rewrite !firstn_app, Liy, Li, Nat.sub_diag, !firstn_O, !app_nil_r, <- Liy, firstn_all, Liy, <- Li, firstn_all in Eq. exact Eq.
Qed.

(* ---- elementwise ---- *)
Lemma cellv_adds d (h : heapV) r h1 x n a : adds_array h r h1 -> has_cells h x n -> cellv d h1 x a = cellv d h x a.
Proof. intros HA Hc. pose proof Hc as (b & Hb & _). unfold cellv. rewrite Hb. now rewrite (adds_mem h r h1 x n b a HA Hc Hb). Qed.
Lemma adds_apart (h : heapV) r h1 x n b : adds_array h r h1 -> garr r = Some b -> has_cells h x n -> garr x <> Some b.
Proof. intros (b' & Hb' & _ & Nf & _) Hb (bx & Hbx & Hlx & _) E. assert (bx = b') by congruence. subst. contradiction. Qed.
Lemma map_ok (junk : V) f (h : heapV) t dims : heap_ok h -> plain h t dims -> exists r h', gmap junk f t h = Ok (r, h') /\ plain h' r dims /\ adds_array h r h' /\
  forall ix, in_range ix dims -> gel h' r ix = opt1 f (gel h t ix).
Proof.
  intros Hok HT. pose proof HT as (Hd & Hn & Hgd & _ & _ & Ha & _ & Hc). unfold gmap. rewrite Hgd. destruct (new_plain junk dims h Hd Hn Hok) as (r & h1 & b & E & HP & HA & Hb & Hv & Hj). rewrite E. cbn [bind]. rewrite Ha.
  pose proof HP as (_ & _ & _ & _ & _ & _ & _ & Hcr). pose proof (cells_in h1 r b 0 (prod dims) (prod dims) Hcr Hb ltac:(lia) ltac:(lia)) as Hci. pose proof (adds_apart h r h1 t _ b HA Hb Hc) as Nt.
  destruct (paint b 0 (fun i => f (cellv junk h t i)) h1 (prod dims) (fun i h0 => do v <- rd h0 t i; wr r i (f v) h0) (prod_nonneg _ Hn)) as (h2 & E2 & P2).
  { intros i h' Hir P'. rewrite (rd_other b 0 i _ h1 h' t _ P') by (now left). rewrite (rd_cellv junk h1 t (prod dims)) by (try assumption; now apply (adds_has h r h1)). cbn [bind].
    apply wr_painted0; [lia|exact P'|exact Hb|exact (Hci i Hir)|]. now rewrite (cellv_adds junk h r h1 t (prod dims)). }
  rewrite E2. cbn [bind]. exists r, h2. split; [reflexivity|]. pose proof (painted_plain _ _ _ _ _ _ _ _ P2 Hci HP) as HP2. split; [exact HP2|split; [exact (paint_adds h r h1 h2 b _ _ HA Hb P2 Hci)|]].
  intros ix Hr. rewrite (painted_gel h1 h2 b _ r dims ix P2 HP2 Hb Hr), (plain_cellv junk h t dims ix HT Hr). reflexivity.
Qed.
Lemma map2_ok (junk : V) f (h : heapV) t x dims dims' : heap_ok h -> plain h t dims -> plain h x dims' -> prod dims = prod dims' -> exists r h', gmap2 junk f t x h = Ok (r, h') /\ plain h' r dims /\ adds_array h r h' /\
  forall ix jx, same_place ix dims jx dims' -> gel h' r ix = opt2 f (gel h t ix) (gel h x jx).
Proof.
  intros Hok HT HX Hpp. pose proof HT as (Hd & Hn & Hgd & _ & _ & Ha & _ & Hc). pose proof HX as (_ & _ & _ & _ & _ & _ & _ & Hcx). rewrite <- Hpp in Hcx.
  unfold gmap2. rewrite Hgd. destruct (new_plain junk dims h Hd Hn Hok) as (r & h1 & b & E & HP & HA & Hb & Hv & Hj). rewrite E. cbn [bind]. rewrite Ha.
  pose proof HP as (_ & _ & _ & _ & _ & _ & _ & Hcr). pose proof (cells_in h1 r b 0 (prod dims) (prod dims) Hcr Hb ltac:(lia) ltac:(lia)) as Hci.
  pose proof (adds_apart h r h1 t _ b HA Hb Hc) as Nt. pose proof (adds_apart h r h1 x _ b HA Hb Hcx) as Nx.
  destruct (paint b 0 (fun i => f (cellv junk h t i) (cellv junk h x i)) h1 (prod dims) (fun i h0 => do v <- rd h0 t i; do w <- rd h0 x i; wr r i (f v w) h0) (prod_nonneg _ Hn)) as (h2 & E2 & P2).
  { intros i h' Hir P'. rewrite (rd_other b 0 i _ h1 h' t _ P') by (now left). rewrite (rd_other b 0 i _ h1 h' x _ P') by (now left).
    rewrite (rd_cellv junk h1 t (prod dims)) by (try assumption; now apply (adds_has h r h1)). rewrite (rd_cellv junk h1 x (prod dims)) by (try assumption; now apply (adds_has h r h1)). cbn [bind].
    apply wr_painted0; [lia|exact P'|exact Hb|exact (Hci i Hir)|]. now rewrite (cellv_adds junk h r h1 t (prod dims)), (cellv_adds junk h r h1 x (prod dims)). }
  rewrite E2. cbn [bind]. exists r, h2. split; [reflexivity|]. pose proof (painted_plain _ _ _ _ _ _ _ _ P2 Hci HP) as HP2. split; [exact HP2|split; [exact (paint_adds h r h1 h2 b _ _ HA Hb P2 Hci)|]].
  intros ix jx (Hr & Hj' & Ef). rewrite (painted_gel h1 h2 b _ r dims ix P2 HP2 Hb Hr), (plain_cellv junk h t dims ix HT Hr), (plain_cellv junk h x dims' jx HX Hj'). cbn [opt2]. now rewrite Ef.
Qed.
Lemma upd_ok (d : V) f (h : heapV) t dims : plain h t dims -> exists h', gupd f t h = Ok h' /\ only_at h h' t (fun ix => in_range ix dims) /\
  forall ix, in_range ix dims -> gel h' t ix = opt1 f (gel h t ix).
Proof.
  intros HT. pose proof HT as (Hd & Hn & Hgd & _ & _ & Ha & _ & Hc). unfold gupd. rewrite Ha. pose proof Hc as (b & Hb & _). pose proof (cells_in h t b 0 (prod dims) (prod dims) Hc Hb ltac:(lia) ltac:(lia)) as Hci.
  destruct (paint b 0 (fun i => f (cellv d h t i)) h (prod dims) (fun i h0 => do v <- rd h0 t i; wr t i (f v) h0) (prod_nonneg _ Hn)) as (h2 & E2 & P2).
  { intros i h' Hir P'. rewrite (rd_other b 0 i _ h h' t _ P') by (right; lia). rewrite (rd_cellv d h t (prod dims)) by assumption. cbn [bind]. apply wr_painted0; [lia|exact P'|exact Hb|exact (Hci i Hir)|reflexivity]. }
  exists h2. split; [exact E2|]. pose proof (painted_plain _ _ _ _ _ _ _ _ P2 Hci HT) as HP2. split; [exact (painted_only h h2 b _ t dims P2 HT Hb)|].
  intros ix Hr. now rewrite (painted_gel h h2 b _ t dims ix P2 HP2 Hb Hr), (plain_cellv d h t dims ix HT Hr).
Qed.
Lemma upd2_ok (d : V) f (h : heapV) t x dims dims' : plain h t dims -> plain h x dims' -> prod dims = prod dims' -> exists h', gupd2 f t x h = Ok h' /\ only_at h h' t (fun ix => in_range ix dims) /\
  forall ix jx, same_place ix dims jx dims' -> gel h' t ix = opt2 f (gel h t ix) (gel h x jx).
Proof.
  intros HT HX Hpp. pose proof HT as (Hd & Hn & Hgd & _ & _ & Ha & _ & Hc). pose proof HX as (_ & _ & _ & _ & _ & _ & _ & Hcx). rewrite <- Hpp in Hcx. unfold gupd2. rewrite Ha. pose proof Hc as (b & Hb & _).
  pose proof (cells_in h t b 0 (prod dims) (prod dims) Hc Hb ltac:(lia) ltac:(lia)) as Hci.
  destruct (paint b 0 (fun i => f (cellv d h t i) (cellv d h x i)) h (prod dims) (fun i h0 => do v <- rd h0 t i; do w <- rd h0 x i; wr t i (f v w) h0) (prod_nonneg _ Hn)) as (h2 & E2 & P2).
  { intros i h' Hir P'. rewrite (rd_other b 0 i _ h h' t _ P'), (rd_other b 0 i _ h h' x _ P') by (right; lia). rewrite (rd_cellv d h t (prod dims)), (rd_cellv d h x (prod dims)) by assumption. cbn [bind].
    apply wr_painted0; [lia|exact P'|exact Hb|exact (Hci i Hir)|reflexivity]. }
  exists h2. split; [exact E2|]. pose proof (painted_plain _ _ _ _ _ _ _ _ P2 Hci HT) as HP2. split; [exact (painted_only h h2 b _ t dims P2 HT Hb)|].
  intros ix jx (Hr & Hj & Ef). rewrite (painted_gel h h2 b _ t dims ix P2 HP2 Hb Hr), (plain_cellv d h t dims ix HT Hr), (plain_cellv d h x dims' jx HX Hj). cbn [opt2]. now rewrite Ef.
Qed.
Lemma upd3_ok (d : V) f (h : heapV) t x y dims dims' dims'' : plain h t dims -> plain h x dims' -> plain h y dims'' -> prod dims = prod dims' -> prod dims = prod dims'' ->
  exists h', gupd3 f t x y h = Ok h' /\ only_at h h' t (fun ix => in_range ix dims) /\
  forall ix jx kx, same_place ix dims jx dims' -> same_place ix dims kx dims'' -> gel h' t ix = opt3 f (gel h t ix) (gel h x jx) (gel h y kx).
Proof.
  intros HT HX HY Hpp Hpq. pose proof HT as (Hd & Hn & Hgd & _ & _ & Ha & _ & Hc). pose proof HX as (_ & _ & _ & _ & _ & _ & _ & Hcx). pose proof HY as (_ & _ & _ & _ & _ & _ & _ & Hcy).
  rewrite <- Hpp in Hcx. rewrite <- Hpq in Hcy. unfold gupd3. rewrite Ha. pose proof Hc as (b & Hb & _).
  pose proof (cells_in h t b 0 (prod dims) (prod dims) Hc Hb ltac:(lia) ltac:(lia)) as Hci.
  destruct (paint b 0 (fun i => f (cellv d h t i) (cellv d h x i) (cellv d h y i)) h (prod dims) (fun i h0 => do v <- rd h0 t i; do w <- rd h0 x i; do u <- rd h0 y i; wr t i (f v w u) h0) (prod_nonneg _ Hn)) as (h2 & E2 & P2).
  { intros i h' Hir P'. rewrite (rd_other b 0 i _ h h' t _ P'), (rd_other b 0 i _ h h' x _ P'), (rd_other b 0 i _ h h' y _ P') by (right; lia).
    rewrite (rd_cellv d h t (prod dims)), (rd_cellv d h x (prod dims)), (rd_cellv d h y (prod dims)) by assumption. cbn [bind].
    apply wr_painted0; [lia|exact P'|exact Hb|exact (Hci i Hir)|reflexivity]. }
  exists h2. split; [exact E2|]. pose proof (painted_plain _ _ _ _ _ _ _ _ P2 Hci HT) as HP2. split; [exact (painted_only h h2 b _ t dims P2 HT Hb)|].
  intros ix jx kx (Hr & Hj & Ef) (_ & Hk & Eg). rewrite (painted_gel h h2 b _ t dims ix P2 HP2 Hb Hr), (plain_cellv d h t dims ix HT Hr), (plain_cellv d h x dims' jx HX Hj), (plain_cellv d h y dims'' kx HY Hk).
  cbn [opt3]. now rewrite <- Ef, <- Eg.
Qed.
(* cells from asize on are never touched in place *)
Lemma upd2_beyond f (h : heapV) t x h' b a : garr t = Some b -> gupd2 f t x h = Ok h' -> gasize t <= a -> 0 <= a -> hmem h' b a = hmem h b a.
Proof.
  intros Hb E Ha Ha0. unfold gupd2, forZ in E.
  assert (G : forall l h0 h1, (forall i, In i l -> i < a) -> foldM (fun i h0 => do v <- rd h0 t i; do w <- rd h0 x i; wr t i (f v w) h0) l h0 = Ok h1 -> hmem h1 b a = hmem h0 b a).
  { induction l as [|i l IH]; intros h0 h1 Hl E1; cbn in E1; [injection E1 as ->; reflexivity|]. destruct (rd h0 t i) as [v| |] eqn:R1; try discriminate. cbn in E1. destruct (rd h0 x i) as [w| |] eqn:R2; try discriminate. cbn in E1.
    destruct (wr t i (f v w) h0) as [h2| |] eqn:W; try discriminate. cbn in E1. rewrite (IH h2 h1 ltac:(intros; apply Hl; now right) E1). unfold wr in W. rewrite Hb in W. unfold store in W.
    destruct (hmem h0 b i); try discriminate. cbn in W. injection W as <-. cbn. apply upd_other. intro Q. injection Q as Q. specialize (Hl i (or_introl eq_refl)). lia. }
  apply (G (zrange (gasize t)) h h'); [|exact E]. intros i Hi. apply in_zrange in Hi. lia.
Qed.
(* ---- equality ---- *)
Lemma eq_ok (d : V) eqv (h : heapV) t x dims dims' : (forall v w, eqv v w = true <-> v = w) -> plain h t dims -> plain h x dims' ->
  exists r, geq eqv t x h = Ok r /\ (r = true <-> prod dims = prod dims' /\ forall ix jx, same_place ix dims jx dims' -> gel h t ix = gel h x jx).
Proof.
  intros He HT HX. pose proof HT as (_ & Hn & _ & _ & _ & Ha & _ & Hc). pose proof HX as (_ & Hn' & _ & _ & _ & Hxa & _ & Hcx). unfold geq. rewrite Ha, Hxa. destruct (Z.eqb_spec (prod dims') (prod dims)) as [Ep|Np].
  2:{ exists false. split; [reflexivity|]. split; [discriminate|]. intros (Q & _). now rewrite Q in Np. }
  assert (G : forall l, (forall i, In i l -> 0 <= i < prod dims) -> exists r, eq_loop eqv t x l h = Ok r /\ (r = true <-> forall i, In i l -> cellv d h t i = cellv d h x i)).
  { induction l as [|i l IH]; intro Hl; [exists true; split; [reflexivity|]; split; [intros _ i []|reflexivity]|]. cbn [eq_loop].
    rewrite (rd_cellv d h t (prod dims) i Hc), (rd_cellv d h x (prod dims') i Hcx) by (rewrite ?Ep; apply Hl; now left). cbn [bind]. destruct (eqv (cellv d h t i) (cellv d h x i)) eqn:Ev.
    - destruct (IH ltac:(intros; apply Hl; now right)) as (r & Er & Hr). exists r. split; [exact Er|]. rewrite Hr. apply He in Ev. split; [intros Q j [<-|Hj]; auto|intros Q j Hj; apply Q; now right].
    - exists false. split; [reflexivity|]. split; [discriminate|]. intro Q. specialize (Q i (or_introl eq_refl)). apply He in Q. congruence. }
  destruct (G (zrange (prod dims))) as (r & Er & Hr); [intros i Hi; now apply in_zrange|]. exists r. split; [exact Er|]. rewrite Hr. split.
  - intro Q. split; [now symmetry|]. intros ix jx (Hi & Hj & Ef). rewrite (plain_cellv d h t dims ix HT Hi), (plain_cellv d h x dims' jx HX Hj). f_equal. rewrite <- Ef. apply Q. apply in_zrange. now apply flat_range.
  - intros (_ & Q) i Hi. apply in_zrange in Hi. destruct (flat_surj dims i Hn Hi) as (ix & Hix & Ei). destruct (flat_surj dims' i Hn' ltac:(lia)) as (jx & Hjx & Ej).
    specialize (Q ix jx ltac:(split; [exact Hix|split; [exact Hjx|congruence]])). rewrite (plain_cellv d h t dims ix HT Hix), (plain_cellv d h x dims' jx HX Hjx), Ei, Ej in Q. now injection Q.
Qed.
End Gen.

Section Rings.
Context {R : cring}.
Notation heapR := (heap (car R)).
Lemma sum_range (P : Z) (f : Z -> res R) (v : Z -> R) : (forall p, 0 <= p < P -> f p = Ok (v p)) -> gdotp P f = Ok (rsum (map v (zrange P))).
Proof.
  intro H. unfold gdotp, forZ. assert (G : forall l t0, (forall p, In p l -> f p = Ok (v p)) -> foldM (fun p t => do w <- f p; Ok (cadd t w)) l t0 = Ok (cadd t0 (rsum (map v l)))).
  { induction l as [|p l IH]; intros t0 Hl; cbn [foldM map]; [unfold rsum; cbn; f_equal; destruct (cth R); rewrite Radd_comm; now rewrite Radd_0_l|].
    rewrite (Hl p (or_introl eq_refl)). cbn [bind]. rewrite IH by (intros; apply Hl; now right). f_equal. unfold rsum. cbn [fold_right]. destruct (cth R). now rewrite Radd_assoc. }
  rewrite G by (intros p Hp; apply H; now apply in_zrange). f_equal. destruct (cth R). now rewrite Radd_0_l.
Qed.
Lemma gel0_cellv (h : heapR) t dims ix : plain h t dims -> in_range ix dims -> gel0 h t ix = cellv c0 h t (flat ix dims).
Proof. intros HP Hr. unfold gel0. now rewrite (plain_cellv c0 h t dims ix HP Hr). Qed.
Lemma sum2_ok f (h : heapR) t x dims : plain h t dims -> plain h x dims -> gsum2 cadd c0 f t x h = Ok (rsum (map (fun ix => f (gel0 h t ix) (gel0 h x ix)) (all_indices dims))).
Proof.
  intros HT HX. pose proof HT as (_ & Hn & _ & _ & _ & Ha & _ & Hc). pose proof HX as (_ & _ & _ & _ & _ & _ & _ & Hcx). unfold gsum2. rewrite Ha.
  transitivity (gdotp (prod dims) (fun i => do v <- rd h t i; do w <- rd h x i; Ok (f v w))).
  { unfold gdotp, forZ. apply foldM_ext. intros i s Hi. apply in_zrange in Hi. now rewrite (rd_cellv c0 h t (prod dims)), (rd_cellv c0 h x (prod dims)) by assumption. }
  rewrite (sum_range _ _ (fun i => f (cellv c0 h t i) (cellv c0 h x i))).
  - f_equal. rewrite <- (flat_all_indices dims Hn), map_map. f_equal. apply map_ext_in. intros ix Hix. apply in_all_indices in Hix. now rewrite !(gel0_cellv h _ dims ix) by assumption.
  - intros i Hi. now rewrite (rd_cellv c0 h t (prod dims)), (rd_cellv c0 h x (prod dims)) by assumption.
Qed.

(* ---- products ---- *)
Lemma paint2 {V} b (g : Z -> V) h I J (f : Z -> Z -> heap V -> res (heap V)) : 0 <= I -> 0 <= J ->
  (forall i j h', 0 <= i < I -> 0 <= j < J -> painted b 0 (i * J + j) g h h' -> exists h'', f i j h' = Ok h'' /\ painted b 0 (i * J + j + 1) g h h'') ->
  exists h', forZ I (fun i => forZ J (fun j => f i j)) h = Ok h' /\ painted b 0 (I * J) g h h'.
Proof.
  intros HI HJ Hs. destruct (forZ_inv (fun i h' => painted b 0 (i * J) g h h') I (fun i => forZ J (fun j => f i j)) h) as (h' & E & P); [exact HI|apply painted_0| |eauto].
  intros i h' Hi HP. destruct (paint_from b 0 g h (i * J) J (f i) h' HJ HP) as (h'' & E & P).
  - intros j h2 Hj P2. now apply Hs.
  - exists h''. split; [exact E|]. now replace ((i + 1) * J) with (i * J + J) by ring.
Qed.
Lemma laid_get_n (h : heapR) t dims ix : laid h t dims -> in_range ix dims -> gget_n t ix h = Ok (gel0 h t ix).
Proof.
  intros HL Hr. destruct (laid_len h t dims ix HL Hr) as (L & K). destruct (laid_rd h t dims ix HL Hr) as (b & v & Hb & Hv & Hrd & _). unfold gget_n. rewrite goff_n_ok by (auto; lia). cbn [bind]. unfold gel0. now rewrite Hv.
Qed.
Lemma get_n_other b n (g : Z -> R) h1 (h' : heapR) t ix : painted b 0 n g h1 h' -> garr t <> Some b -> gget_n t ix h' = gget_n t ix h1.
Proof. intros P N. unfold gget_n. destruct (goff_n t ix); try reflexivity. cbn. apply (rd_other b 0 n g h1 h' t _ P). now left. Qed.
Lemma gel0_adds (h : heapR) r h1 x dims ix : adds_array h r h1 -> laid h x dims -> in_range ix dims -> gel0 h1 x ix = gel0 h x ix.
Proof. intros HA HL Hr. unfold gel0. now rewrite (adds_gel h r h1 x dims ix HA HL Hr). Qed.
Lemma adds_laid (h : heapR) r h1 x dims : adds_array h r h1 -> laid h x dims -> laid h1 x dims.
Proof. intros HA (H1 & H2 & H3 & H4 & H5 & H6). repeat (split; [assumption|]). split; [now apply (adds_has h r h1)|exact H6]. Qed.

(* a fresh n x m matrix filled element by element *)
Lemma fill_matrix (junk : R) (h : heapR) n m (S : Z -> Z -> R) (F : Z -> Z -> heapR -> res R) : 0 <= n -> 0 <= m -> heap_ok h ->
  (forall r h1 b g k h' i j, adds_array h r h1 -> garr r = Some b -> painted b 0 k g h1 h' -> 0 <= i < n -> 0 <= j < m -> F i j h' = Ok (S i j)) ->
  exists r h', (do ' (r, h1) <- gnew junk [n; m] h; do h2 <- forZ n (fun i => forZ m (fun j h => do s <- F i j h; gset_n r [i; j] s h)) h1; Ok (r, h2)) = Ok (r, h') /\
    plain h' r [n; m] /\ adds_array h r h' /\ forall i j, 0 <= i < n -> 0 <= j < m -> gel h' r [i; j] = Some (S i j).
Proof.
  intros Hn Hm Hok HF. assert (Hnn : nonneg [n; m]) by (repeat constructor; assumption). destruct (new_plain junk [n; m] h ltac:(easy) Hnn Hok) as (r & h1 & b & E & HP & HA & Hb & _ & _). rewrite E. cbn [bind].
  assert (Epr : prod [n; m] = n * m) by (cbv [prod fold_right]; ring). pose proof HP as (_ & _ & _ & Hk & Hs & _ & _ & Hc). pose proof (cells_in h1 r b 0 (prod [n; m]) (prod [n; m]) Hc Hb ltac:(lia) ltac:(lia)) as Hci.
  destruct (paint2 b (fun a => S (a / m) (a mod m)) h1 n m (fun i j h => do s <- F i j h; gset_n r [i; j] s h) Hn Hm) as (h2 & E2 & P2).
  { intros i j h' Hi Hj P'. rewrite (HF r h1 b _ _ h' i j HA Hb P' Hi Hj). cbn [bind]. unfold gset_n. rewrite goff_n_ok by (rewrite ?Hk, ?Hs; reflexivity). cbn [bind]. rewrite Hs.
    replace (dot (strides_of 1 [n; m]) [i; j]) with (i * m + j) by (rewrite dot_strides_of by reflexivity; cbn [flat]; cbv [prod fold_right]; lia). apply wr_painted0; [nia|exact P'|exact Hb|apply (Hci (i * m + j)); rewrite Epr; nia|].
    rewrite Z.add_comm, Z.div_add, Z.div_small, Z.mod_add, Z.mod_small by lia. reflexivity. }
  rewrite E2. cbn [bind]. exists r, h2. split; [reflexivity|]. rewrite <- Epr in P2. pose proof (painted_plain _ _ _ _ _ _ _ _ P2 Hci HP) as HP2. split; [exact HP2|split; [exact (paint_adds h r h1 h2 b _ _ HA Hb P2 Hci)|]].
  intros i j Hi Hj. rewrite (painted_gel h1 h2 b _ r [n; m] [i; j] P2 HP2 Hb) by (repeat constructor; lia). replace (flat [i; j] [n; m]) with (j + i * m) by (cbn [flat]; cbv [prod fold_right]; lia).
  now rewrite Z.div_add, Z.div_small, Z.mod_add, Z.mod_small by lia.
Qed.
Lemma prod_term (h : heapR) r h1 b g k h' t x dt dx ix jx : adds_array h r h1 -> garr r = Some b -> painted b 0 k g h1 h' -> laid h t dt -> laid h x dx -> in_range ix dt -> in_range jx dx ->
  gprod2 (gget_n t ix h') (gget_n x jx h') = Ok (cmul (gel0 h t ix) (gel0 h x jx)).
Proof.
  intros HA Hb P HT HX Hi Hj. assert (Nt : garr t <> Some b) by (apply (adds_apart h r h1 t (gmemsize t) b HA Hb); apply HT). assert (Nx : garr x <> Some b) by (apply (adds_apart h r h1 x (gmemsize x) b HA Hb); apply HX).
  rewrite !(get_n_other b k g h1 h') by assumption. rewrite (laid_get_n h1 t dt ix (adds_laid h r h1 t dt HA HT) Hi), (laid_get_n h1 x dx jx (adds_laid h r h1 x dx HA HX) Hj). cbn.
  now rewrite (gel0_adds h r h1 t dt ix HA HT Hi), (gel0_adds h r h1 x dx jx HA HX Hj).
Qed.
Lemma matmul_ok (junk : R) (h : heapR) t x n k m : heap_ok h -> laid h t [n; k] -> laid h x [k; m] -> exists r h', gmatmul junk t x h = Ok (r, h') /\ plain h' r [n; m] /\ adds_array h r h' /\
  forall i j, 0 <= i < n -> 0 <= j < m -> gel h' r [i; j] = Some (rsum (map (fun p => cmul (gel0 h t [i; p]) (gel0 h x [p; j])) (zrange k))).
Proof.
  intros Hok HT HX. pose proof HT as (Hdt & _ & _ & Hnt & _). pose proof HX as (Hdx & _ & _ & Hnx & _). unfold gmatmul. rewrite Hdt, Hdx. cbn [length].
  change (Z.of_nat 2 =? 2) with true. change (Z.of_nat 2 =? 1) with false. cbn [assrt]. change (zget [n; k] 0) with (Ok n). change (zget [n; k] 1) with (Ok k). change (zget [k; m] 0) with (Ok k). change (zget [k; m] 1) with (Ok m). cbn [bind].
  rewrite Z.eqb_refl. cbn [assrt]. inversion Hnt as [|? ? N1 N1']; subst. inversion Hnx as [|? ? N2 N2']; subst. inversion N2' as [|? ? N3 _]; subst.
  apply (fill_matrix junk h n m (fun i j => rsum (map (fun p => cmul (gel0 h t [i; p]) (gel0 h x [p; j])) (zrange k)))); try assumption.
  intros r h1 b g q h' i j HA Hb P Hi Hj. apply sum_range. intros p Hp. apply (prod_term h r h1 b g q h' t x [n; k] [k; m]); try assumption; repeat constructor; lia.
Qed.
Lemma matmul_TA_ok (junk : R) (h : heapR) t x n k m : heap_ok h -> laid h t [k; n] -> laid h x [k; m] -> exists r h', gmatmul_TA junk t x h = Ok (r, h') /\ plain h' r [n; m] /\ adds_array h r h' /\
  forall i j, 0 <= i < n -> 0 <= j < m -> gel h' r [i; j] = Some (rsum (map (fun p => cmul (gel0 h t [p; i]) (gel0 h x [p; j])) (zrange k))).
Proof.
  intros Hok HT HX. pose proof HT as (Hdt & _ & _ & Hnt & _). pose proof HX as (Hdx & _ & _ & Hnx & _). unfold gmatmul_TA. rewrite Hdt, Hdx. cbn [length].
  change (Z.of_nat 2 =? 2) with true. cbn [assrt]. change (zget [k; n] 0) with (Ok k). change (zget [k; n] 1) with (Ok n). change (zget [k; m] 0) with (Ok k). change (zget [k; m] 1) with (Ok m). cbn [bind].
  rewrite Z.eqb_refl. cbn [assrt]. inversion Hnt as [|? ? N1 N1']; subst. inversion N1' as [|? ? N4 _]; subst. inversion Hnx as [|? ? N2 N2']; subst. inversion N2' as [|? ? N3 _]; subst.
  apply (fill_matrix junk h n m (fun i j => rsum (map (fun p => cmul (gel0 h t [p; i]) (gel0 h x [p; j])) (zrange k)))); try assumption.
  intros r h1 b g q h' i j HA Hb P Hi Hj. apply sum_range. intros p Hp. apply (prod_term h r h1 b g q h' t x [k; n] [k; m]); try assumption; repeat constructor; lia.
Qed.
Lemma matvec_ok (junk : R) (h : heapR) t x n k : heap_ok h -> laid h t [n; k] -> laid h x [k] -> exists r h', gmatmul junk t x h = Ok (r, h') /\ plain h' r [n] /\ adds_array h r h' /\
  forall i, 0 <= i < n -> gel h' r [i] = Some (rsum (map (fun p => cmul (gel0 h t [i; p]) (gel0 h x [p])) (zrange k))).
Proof.
  intros Hok HT HX. pose proof HT as (Hdt & _ & _ & Hnt & _). pose proof HX as (Hdx & _ & _ & Hnx & _). unfold gmatmul. rewrite Hdt, Hdx. cbn [length].
  change (Z.of_nat 2 =? 2) with true. change (Z.of_nat 1 =? 1) with true. cbn [assrt]. change (zget [n; k] 0) with (Ok n). change (zget [n; k] 1) with (Ok k). change (zget [k] 0) with (Ok k). cbn [bind].
  rewrite Z.eqb_refl. cbn [assrt]. inversion Hnt as [|? ? N1 N1']; subst.
  destruct (new_plain junk [n] h ltac:(easy) ltac:(now repeat constructor) Hok) as (r & h1 & b & E & HP & HA & Hb & _ & _). rewrite E. cbn [bind].
  pose proof HP as (_ & _ & _ & Hk & Hs & _ & _ & Hc). rewrite prod_one in Hc. pose proof (cells_in h1 r b 0 n n Hc Hb ltac:(lia) ltac:(lia)) as Hci.
  destruct (paint b 0 (fun i => rsum (map (fun p => cmul (gel0 h t [i; p]) (gel0 h x [p])) (zrange k))) h1 n (fun i h => do s <- gdotp k (fun p => gprod2 (gget_n t [i; p] h) (gget_n x [p] h)); gset_n r [i] s h) N1) as (h2 & E2 & P2).
  { intros i h' Hi P'. rewrite (sum_range k _ (fun p => cmul (gel0 h t [i; p]) (gel0 h x [p]))).
    - cbn [bind]. unfold gset_n. rewrite goff_n_ok by (rewrite ?Hk, ?Hs; reflexivity). cbn [bind]. rewrite Hs. replace (dot (strides_of 1 [n]) [i]) with i by (rewrite dot_strides_of by reflexivity; cbn [flat]; cbv [prod fold_right]; lia). apply wr_painted0; [lia|exact P'|exact Hb|exact (Hci i Hi)|reflexivity].
    - intros p Hp. apply (prod_term h r h1 b _ i h' t x [n; k] [k] [i; p] [p] HA Hb P'); try assumption; repeat constructor; lia. }
  rewrite E2. cbn [bind]. exists r, h2. split; [reflexivity|]. pose proof (painted_plain _ _ _ _ _ _ _ _ P2 Hci HP) as HP2. split; [exact HP2|split; [exact (paint_adds h r h1 h2 b _ _ HA Hb P2 Hci)|]].
  intros i Hi. rewrite <- (prod_one n) in P2. rewrite (painted_gel h1 h2 b _ r [n] [i] P2 HP2 Hb) by (repeat constructor; lia). do 4 f_equal.
  - cbn [flat]. change (prod []) with 1. now rewrite Z.mul_1_r, Z.add_0_r.
Qed.
End Rings.
