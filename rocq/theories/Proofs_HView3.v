(* Proofs_HView3.v -- reductions and broadcasts along an axis, and tensors made from a view. *)
From Verif Require Import Base BaseFacts Model_Index Model_View Model_Tensor Model_Ops Model_RView Model_Gtensor Model_HView Spec_Index Spec_View Spec_Tensor Spec_Ops Spec_RView Spec_Gtensor Spec_HView
  Proofs_Axes Proofs_Index Proofs_View Proofs_Ltensor Proofs_Tensor Proofs_Tensor2 Proofs_Tensor3 Proofs_Convolve2 Proofs_Ops2 Proofs_Ops3 Proofs_RView Proofs_RView2 Proofs_RView3 Proofs_RView4 Proofs_RView5 Proofs_RView6 Proofs_Block Proofs_Block3 Proofs_HView Proofs_HView2
  Proofs_Gtensor Proofs_Gtensor2 Proofs_Gtensor3.
Local Open Scope Z_scope.

Section Ring.
Context {R : cring}.
Notation memR := (mem (car R)).
Implicit Types m : memR.

Lemma two_in a b jx : in_range jx [a; b] -> exists i j, jx = [i; j] /\ 0 <= i < a /\ 0 <= j < b.
Proof. intro H. inversion H as [|i ? jx' ? Hi H2]; subst. inversion H2 as [|j ? jx'' ? Hj H3]; subst. inversion H3; subst. now exists i, j. Qed.
Lemma base0 v m n0 n1 n2 : red_ready 0 0 v m -> vdims v = [n0; n1; n2] -> 2 <= n0 -> exists m', rv3_reduce0 v m = Ok m' /\ red rsum 0 v m m'.
Proof.
  intros (W & L & _ & _ & Hd & Rv & J & Hr) D H. destruct (reduce3_0_ok v m n0 n1 n2 W D Hd Rv (rowm_reg3 v L (Hr (or_introl eq_refl))) H) as (m' & E & G & B & HG).
  exists m'. split; [exact E|]. exists G. split; [exact B|]. rewrite D. cbn [del nth]. intros jx Hj. destruct (two_in _ _ _ Hj) as (j & k & -> & H1 & H2). cbn [ins]. now apply HG.
Qed.
Lemma base1 v m n0 n1 n2 : red_ready 0 1 v m -> vdims v = [n0; n1; n2] -> 2 <= n1 -> exists m', rv3_reduce1 v m = Ok m' /\ red rsum 1 v m m'.
Proof.
  intros (W & L & _ & _ & Hd & Rv & J & Hr) D H. destruct (reduce3_1_ok v m n0 n1 n2 W D Hd Rv ltac:(lia) ltac:(lia)) as (m' & E & G & B & HG).
  exists m'. split; [exact E|]. exists G. split; [exact B|]. rewrite D. cbn [del nth]. intros jx Hj. destruct (two_in _ _ _ Hj) as (j & k & -> & H1 & H2). cbn [ins]. now apply HG.
Qed.
Lemma base2 v m n0 n1 n2 : red_ready 0 2 v m -> vdims v = [n0; n1; n2] -> 2 <= n2 -> exists m', rv3_reduce2 v m = Ok m' /\ red rsum 2 v m m'.
Proof.
  intros (W & L & _ & _ & Hd & Rv & J & Hr) D H. destruct (reduce3_2_ok v m n0 n1 n2 W D Hd Rv (rowm_reg3 v L (Hr (or_intror eq_refl))) ltac:(lia)) as (m' & E & G & B & HG).
  { intro Q. assert (Dv : (n2 | 1)) by (exists (n0 * n1); lia). apply Z.divide_1_r in Dv. lia. }
 
  exists m'. split; [exact E|]. exists G. split; [exact B|]. rewrite D. cbn [del nth]. intros jx Hj. destruct (two_in _ _ _ Hj) as (j & k & -> & H1 & H2). cbn [ins]. now apply HG.
Qed.
Lemma hreduce_ok k a v m : red_ready k a v m -> 2 <= nth a (vdims v) 0 -> exists m', hv_reduce k a v m = Ok m' /\ red rsum a v m m'.
Proof.
  intros H Hn. apply (hreduce_gen rsum (fun n => 2 <= n) (fun _ _ => True)); try easy; intros; [eapply base0|eapply base1|eapply base2]; eassumption.
Qed.
(* a single slice along axis 0 is added to itself *)
Lemma base0_one v m n0 n1 n2 : red_ready 0 0 v m -> vdims v = [n0; n1; n2] -> n0 = 1 -> exists m', rv3_reduce0 v m = Ok m' /\ red (fun l => cadd (rsum l) (rsum l)) 0 v m m'.
Proof.
  intros (W & L & _ & _ & Hd & Rv & J & Hr) D ->. pose proof (rowm_reg3 v L (Hr (or_introl eq_refl))) as Er. destruct (fuse3_shows v 1 n1 n2 W D Er) as [_ (w & Ew & Ew2 & Ww & S)]. unfold rv3_reduce0. rewrite Ew. cbn [bind].
  assert (Dw : vdims w = [1; n1 * n2]) by now rewrite Ew2. assert (Hw : reg2 w = true). { rewrite Ew2. unfold reg2, nd, sd. cbn [vdims vstr nth]. now rewrite !Z.eqb_refl. }
  destruct (reduce_one w 1 (n1 * n2) Ww Dw Hw m (shows_readable m _ _ _ S Rv) eq_refl) as (m' & E & U & H). exists m'. split; [exact E|].
  pose (F := fun ix : list Z => cadd (elem0 m w [0; nth 1 ix 0]) (elem0 m w [0; nth 1 ix 0])). assert (B : becomes w F m m').
  { split; [|exact U]. rewrite Dw. intros ix Hi. destruct (two_in _ _ _ Hi) as (i & j & -> & Hi1 & Hj). assert (i = 0) by lia. subst i. now apply H. }
  exists (fun ix => F [nth 0 ix 0; nth 1 ix 0 * n2 + nth 2 ix 0]). split.
  - apply (whole_becomes m m' w v _ (fun ix => [nth 0 ix 0; nth 1 ix 0 * n2 + nth 2 ix 0]) F S); [|assumption]. rewrite D, Dw. cbn [nth]. apply fuse12_inv.
  - rewrite D. cbn [del nth]. intros jx Hj. destruct (two_in _ _ _ Hj) as (j & k & -> & H1 & H2). unfold F. cbn [ins nth]. change (zrange 1) with [0]. cbn [map]. rewrite rsum_one.
    rewrite (shows_elem0 m _ _ _ [0; j * n2 + k] S) by (rewrite Dw; apply in_range_2; [lia|nia]). cbn [nth]. destruct (dm_at n2 j k H2) as [-> ->]. reflexivity.
Qed.
Lemma hreduce_one k v m : red_ready k 0 v m -> nth 0 (vdims v) 0 = 1 -> exists m', hv_reduce k 0 v m = Ok m' /\ red (fun l => cadd (rsum l) (rsum l)) 0 v m m'.
Proof.
  intros H Hn. apply (hreduce_gen (fun l => cadd (rsum l) (rsum l)) (fun n => n = 1) (fun _ a => a = 0%nat)); try easy. intros v0 m0 n0 n1 n2 A B _ C. now apply (base0_one v0 m0 n0 n1 n2).
Qed.
Lemma hreduce_into k a v r m : red_ready k a v m -> 2 <= nth a (vdims v) 0 -> vwf r -> vdims r = del a (vdims v) -> distinct_cells r -> readable m r -> disjoint_views r v ->
  exists m', hv_reduce_into k a v r m = Ok m' /\
    (forall jx u, in_range jx (vdims r) -> elem m r jx = Some u -> elem m' r jx = Some (cadd u (rsum (map (fun i => elem0 m v (ins a i jx)) (zrange (nth a (vdims v) 0)))))) /\ untouched2 m m' r v.
Proof.
  intros Hv Hn Wr Dr Hd Rr Dj. destruct (hreduce_ok k a v m Hv Hn) as (m1 & E1 & G & B & HG). unfold hv_reduce_into. rewrite E1. cbn [bind]. destruct Hv as (W & L & _ & A & _).
  destruct (slice_shows a v 0 W ltac:(lia) ltac:(lia)) as (Ws & Ds & S).
  destruct (then_add r v (hv_slice a v 0) (ins a 0) m m1 G (add_any r (hv_slice a v 0)) S Ws Wr) as (m' & E & H & U); try assumption; [congruence|apply add_any_ok|].
  exists m'. split; [exact E|]. split; [|exact U]. intros jx u Hj Hu. rewrite (H jx u Hj Hu). rewrite HG; [reflexivity|now rewrite <- Dr].
Qed.

(* ---- broadcasts ---- *)
Definition cast_ready (k a : nat) (v x : view) m : Prop :=
  operands v [x] m /\ length (vdims v) = (3 + k)%nat /\ (a < 3 + k)%nat /\ vdims x = del a (vdims v) /\ joined_except a v /\ (a = 0%nat \/ a = (2 + k)%nat -> rowm v) /\ rowm x /\ 1 <= nth a (vdims v) 0.
Lemma merge_del f d a (l : list Z) : a <> d -> a <> S d -> (S d < length l)%nat -> (a < length l)%nat -> del (lower a d) (merge f d l) = merge f (lower2 a d) (del a l).
Proof.
  intros N1 N2 H1 H2. rewrite <- (ins_del a l) at 1 by assumption. assert (LL : (S (lower2 a d) < length (del a l))%nat) by (rewrite del_length by assumption; unfold lower2; destruct (Nat.ltb_spec a d); lia).
  rewrite merge_ins; try assumption; try (rewrite del_length by assumption; lia). apply del_ins. pose proof (merge_length f _ _ LL) as M. rewrite del_length in M by assumption. unfold lower. destruct (Nat.ltb_spec a d); lia.
Qed.
Lemma fuse_src_ok k d x : vwf x -> length (vdims x) = (3 + k)%nat -> rowm x -> (d = 0%nat \/ d = S k) -> fuse_src d x = Ok (hv_fuse d x).
Proof.
  intros W L Hx Hd. unfold fuse_src. rewrite L. destruct k as [|k]; [|reflexivity]. cbn [Nat.add Nat.eqb]. destruct (three _ L) as (n0 & n1 & n2 & D). pose proof (rowm_reg3 x L Hx) as Er. destruct W as [Ws _]. destruct x as [b o ds ss]. cbn [vdims vstr] in *. subst ds. destruct ss as [|s0 [|s1 [|s2 [|? ?]]]]; try discriminate.
  unfold hv_fuse. destruct Hd as [-> | ->]; [unfold rv3_fuse01|unfold rv3_fuse12]; rewrite Er; reflexivity.
Qed.
Lemma cast_fuse k a d v x m m' : cast_ready (S k) a v x m -> (S d < length (vdims v))%nat -> a <> d -> a <> S d -> (lower a d < 3 + k)%nat -> (lower a d = 0%nat -> a = 0%nat) -> (lower a d = (2 + k)%nat -> a = (3 + k)%nat) ->
  cast_ready k (lower a d) (hv_fuse d v) (hv_fuse (lower2 a d) x) m /\
  (becomes (hv_fuse d v) (fun ix => elem0 m (hv_fuse (lower2 a d) x) (del (lower a d) ix)) m m' -> becomes v (fun ix => elem0 m x (del a ix)) m m').
Proof.
  intros ((W & Hd & Rv & F) & L & A & Dx & J & Hr & Hx & Hn) H N1 N2 L1 L2 L3. inversion F as [|? ? (Wx & Rx & Dj) _]; subst. assert (Jd : joined v d) by (apply J; lia).
  assert (Lx : length (vdims x) = (3 + k)%nat) by (rewrite Dx, del_length; lia). assert (Hx2 : (S (lower2 a d) < length (vdims x))%nat) by (rewrite Lx; unfold lower2; destruct (Nat.ltb_spec a d); lia).
  pose proof (proj1 Hx _ Hx2) as Jx. destruct (fuse_shows d v W H Jd) as (Wf & _ & S & I). destruct (fuse_shows _ x Wx Hx2 Jx) as (Wy & _ & Sx & Ix).
  assert (Eq : nth (Datatypes.S (lower2 a d)) (vdims x) 0 = nth (Datatypes.S d) (vdims v) 0) by (rewrite Dx; now apply lower2_nth). rewrite Eq in *. set (q := nth (Datatypes.S d) (vdims v) 0) in *.
  pose proof (merge_length Z.mul d (vdims v) H) as M. split.
  - split; [|split; [rewrite fuse_dims; lia|split; [assumption|split; [|split; [now apply fuse_joined|split; [|split; [now apply fuse_rowm|now rewrite lower_nth]]]]]]].
    + apply operands1; try assumption; [now apply fuse_distinct|now apply (shows_readable m _ v _ S)|now apply (shows_readable m _ x _ Sx)|]. eapply shows_disjoint_l; [exact S|]. eapply shows_disjoint_r; [exact Sx|exact Dj].
    + rewrite !fuse_dims, Dx. symmetry. apply merge_del; try assumption. lia.
    + intros [Q|Q]; apply fuse_rowm; try assumption; apply Hr; [left|right]; [now apply L2|]. rewrite L3 by assumption. lia.
  - intro B. pose proof (whole_becomes m m' _ v _ (fused d q) _ S I B) as [B1 B2]. split; [|exact B2]. intros ix Hix. rewrite B1 by assumption. f_equal. pose proof (in_range_length _ _ Hix) as Li.
    rewrite fused_merge, merge_del by (try assumption; lia). rewrite <- fused_merge. assert (Hj : in_range (del a ix) (vdims x)) by (rewrite Dx; now apply in_range_del).
    destruct (Ix _ Hj) as [I1 I2]. rewrite (shows_elem0 m _ _ _ _ Sx I1). now rewrite I2.
Qed.
Lemma hcast_ok : forall k a v x m, cast_ready k a v x m -> exists m', hv_broadcast k a v x m = Ok m' /\ becomes v (fun ix => elem0 m x (del a ix)) m m'.
Proof.
  induction k as [|k IH]; intros a v x m Hv.
  - pose proof Hv as (O & L & A & Dx & J & Hr & Hx & Hn). destruct (three _ L) as (n0 & n1 & n2 & D). rewrite D in Dx, Hn.
    assert (Ex : length (vdims x) = 2%nat -> sd x 0 = nd x 1 * sd x 1) by (intro Lx; apply (proj1 Hx 0%nat); lia).
    destruct (broadcasts3_ok v x m n0 n1 n2 O D) as (B0 & B1 & B2). destruct a as [|[|[|a]]]; [| | |lia]; cbn [del nth] in Dx, Hn; cbn [hv_broadcast]; specialize (Ex ltac:(now rewrite Dx)); rewrite (nd_eq x _ 1 Dx) in Ex; cbn [nth] in Ex.
    + destruct (B0 Dx (rowm_reg3 v L (Hr (or_introl eq_refl))) Ex Hn) as (m' & E & B). exists m'. split; [exact E|]. destruct B as [B U]. split; [|exact U]. intros ix Hi. rewrite B by assumption. rewrite D in Hi. do 2 f_equal.
      inversion Hi as [|i ? jx ? _ Hj]; subst. destruct (two_in _ _ _ Hj) as (j & l & -> & _). reflexivity.
    + destruct (B1 Dx Hn) as (m' & E & B). exists m'. split; [exact E|]. destruct B as [B U]. split; [|exact U]. intros ix Hi. rewrite B by assumption. rewrite D in Hi. do 2 f_equal.
      inversion Hi as [|i ? jx ? _ Hj]; subst. destruct (two_in _ _ _ Hj) as (j & l & -> & _). reflexivity.
    + destruct (B2 Dx (rowm_reg3 v L (Hr (or_intror eq_refl))) Ex) as (m' & E & B). exists m'. split; [exact E|]. destruct B as [B U]. split; [|exact U]. intros ix Hi. rewrite B by assumption. rewrite D in Hi. do 2 f_equal.
      inversion Hi as [|i ? jx ? _ Hj]; subst. destruct (two_in _ _ _ Hj) as (j & l & -> & _). reflexivity.
  - pose proof Hv as ((W & Hd & Rv & F) & L & A & Dx & J & Hr & Hx & Hn). inversion F as [|? ? (Wx & Rx & Dj) _]; subst. assert (Lx : length (vdims x) = (3 + k)%nat) by (rewrite Dx, del_length; lia).
    assert (Go : forall d, (S d < length (vdims v))%nat -> a <> d -> a <> S d -> (lower a d < 3 + k)%nat -> (lower a d = 0%nat -> a = 0%nat) -> (lower a d = (2 + k)%nat -> a = (3 + k)%nat) -> (lower2 a d = 0%nat \/ lower2 a d = S k) ->
      exists m', (do y <- fuse_src (lower2 a d) x; hv_broadcast k (lower a d) (hv_fuse d v) y m) = Ok m' /\ becomes v (fun ix => elem0 m x (del a ix)) m m').
    { intros d H N1 N2 L1 L2 L3 L4. rewrite (fuse_src_ok k) by assumption. cbn [bind]. destruct (cast_fuse k a d v x m m Hv H N1 N2 L1 L2 L3) as [Rd _]. destruct (IH _ _ _ m Rd) as (m' & E & B).
      exists m'. split; [exact E|]. now apply (cast_fuse k a d v x m m'). }
    cbn [hv_broadcast]. rewrite but_del, Dx, eqlb_refl. cbn [assrt]. destruct a as [|[|a]].
    + apply (Go (S (S k))); unfold lower, lower2; cbn [Nat.ltb Nat.leb pred]; try lia.
    + apply (Go (S (S k))); unfold lower, lower2; cbn [Nat.ltb Nat.leb pred]; try lia.
    + apply (Go 0%nat); unfold lower, lower2; cbn [Nat.ltb Nat.leb pred]; try lia.
Qed.
Lemma hcast_refuses k a v x m : vdims x <> del a (vdims v) -> hv_broadcast (S k) a v x m = Throw.
Proof.
  intro N. cbn [hv_broadcast]. destruct (eqlb (vdims x) (but a (vdims v))) eqn:E; [|reflexivity]. exfalso. apply N. rewrite <- but_del. now apply eqlb_eq.
Qed.

(* ---- tensors made from a view ---- *)
Lemma zrange_at n i x : 0 <= i < n -> nth (Z.to_nat i) (zrange n) x = i.
Proof. intro H. apply nth_error_nth. now apply zrange_nth. Qed.
Lemma indices_at dims : nonneg dims -> all_indices dims = map (fun p => nth (Z.to_nat p) (all_indices dims) []) (zrange (prod dims)).
Proof.
  intro N. rewrite <- all_indices_length by assumption. generalize (all_indices dims). intro l. apply (nth_ext _ _ [] []); [rewrite map_length, zrange_length; lia|].
  intros n Hn. rewrite (nth_indep (map _ _) [] (nth (Z.to_nat 0) l [])) by (rewrite map_length, zrange_length; lia). rewrite (map_nth (fun p => nth (Z.to_nat p) l [])). rewrite <- (Nat2Z.id n) at 2. rewrite zrange_at by lia. now rewrite Nat2Z.id.
Qed.
Lemma indices_pos dims p : nonneg dims -> 0 <= p < prod dims -> in_range (nth (Z.to_nat p) (all_indices dims) []) dims /\ flat (nth (Z.to_nat p) (all_indices dims) []) dims = p.
Proof.
  intros N H. pose proof (all_indices_length dims N) as L. split; [apply in_all_indices; apply nth_In; lia|]. pose proof (flat_all_indices dims N) as F.
  apply (f_equal (fun l => nth (Z.to_nat p) l (flat [] dims))) in F. rewrite (map_nth (fun ix => flat ix dims)) in F. rewrite F.
  now apply zrange_at.
Qed.
Lemma hgtensor_ok (junk : R) v m (h : heap (car R)) : vwf v -> vdims v <> [] -> readable m v -> heap_ok h ->
  exists t h', hv_gtensor junk v m h = Ok (t, h') /\ plain h' t (vdims v) /\ adds_array h t h' /\ forall ix, in_range ix (vdims v) -> gel h' t ix = elem m v ix.
Proof.
  intros W Nd Rv Hok. pose proof (proj2 W) as Nn. destruct (new_plain junk (vdims v) h Nd Nn Hok) as (t & h1 & b & E & HP & HA & Hb & _ & _). unfold hv_gtensor, hv_gtensor_as. rewrite E. cbn [bind].
  pose proof HP as (_ & _ & _ & Hk & Hs & _ & _ & Hc). pose proof (cells_in h1 t b 0 (prod (vdims v)) (prod (vdims v)) Hc Hb ltac:(lia) ltac:(lia)) as Hci.
  rewrite nestL_fold, indices_at, foldM_map by assumption.
  destruct (paint b 0 (fun p => elem0 m v (nth (Z.to_nat p) (all_indices (vdims v)) [])) h1 (prod (vdims v)) (fun p h => do x <- get_at v (nth (Z.to_nat p) (all_indices (vdims v)) []) m; gset_n t (nth (Z.to_nat p) (all_indices (vdims v)) []) x h) (prod_nonneg _ Nn)) as (h2 & E2 & P2).
  { intros p h' Hp P'. destruct (indices_pos _ p Nn Hp) as [Ip Fp]. set (ix := nth (Z.to_nat p) (all_indices (vdims v)) []) in *. pose proof (in_range_length _ _ Ip) as Li.
    assert (G : get_at v ix m = Ok (elem0 m v ix)). { unfold get_at. rewrite (vaddr_in_range v ix W Ip). cbn [bind]. pose proof (Rv ix Ip) as Q. unfold elem0, elem in *. rewrite (vaddr_in_range v ix W Ip) in *. unfold loadA, load. cbn in *. now destruct (m _ _). }
    rewrite G. cbn [bind]. unfold gset_n. rewrite goff_n_ok by (rewrite ?Hk, ?Hs, ?strides_of_length; lia). cbn [bind]. rewrite Hs. rewrite dot_strides_of by lia. rewrite Fp. rewrite Z.mul_1_l. apply wr_painted0; [lia|exact P'|exact Hb|now apply (Hci p)|reflexivity]. }
  unfold forZ in E2. rewrite E2. cbn [bind]. exists t, h2. split; [reflexivity|]. pose proof (painted_plain _ _ _ _ _ _ _ _ P2 Hci HP) as HP2. split; [exact HP2|]. split; [exact (paint_adds h t h1 h2 b _ _ HA Hb P2 Hci)|].
  intros ix Hi. rewrite (painted_gel h1 h2 b _ t (vdims v) ix P2 HP2 Hb Hi). pose proof (flat_range ix (vdims v) Hi) as Fb. destruct (indices_pos _ _ Nn Fb) as [I1 F1]. rewrite (flat_inj _ _ (vdims v) I1 Hi F1). symmetry. now apply readable_elem.
Qed.
(* the tensor made from a view with seven axes has six: its first element write fails *)
Lemma rv7_gtensor_throws (junk : R) v m (h : heap (car R)) : vwf v -> length (vdims v) = 7%nat -> positive (vdims v) -> readable m v -> heap_ok h -> rv7_gtensor junk v m h = Throw.
Proof.
  intros W L Pv Rv Hok. pose proof (proj2 W) as Nn. assert (N6 : nonneg (firstn 6 (vdims v))). { rewrite <- (firstn_skipn 6 (vdims v)) in Nn. now apply nonneg_app in Nn as [? _]. }
  assert (L6 : length (firstn 6 (vdims v)) = 6%nat) by (rewrite firstn_length; lia). assert (Q6 : firstn 6 (vdims v) <> []) by (intro Q; rewrite Q in L6; discriminate).
  destruct (new_plain junk _ h Q6 N6 Hok) as (t & h1 & b & E & HP & _). unfold rv7_gtensor, hv_gtensor_as. rewrite E. cbn [bind]. rewrite nestL_fold. pose proof (all_indices_length _ Nn) as La.
  destruct (all_indices (vdims v)) as [|ix l] eqn:Ea. { exfalso. pose proof (prod_pos _ Pv). cbn in La. lia. }
  assert (Ix : in_range ix (vdims v)) by (apply in_all_indices; rewrite Ea; now left). cbn [foldM]. unfold get_at. rewrite (vaddr_in_range v ix W Ix). cbn [bind]. pose proof (Rv ix Ix) as Q. unfold elem in Q. rewrite (vaddr_in_range v ix W Ix) in Q. cbn in Q.
  unfold loadA, load. cbn. destruct (m _ _) as [x|]; [|congruence]. cbn [bind]. destruct HP as (_ & _ & _ & Hk & _). unfold gset_n, goff_n. rewrite Hk, L6, (in_range_length _ _ Ix), L. reflexivity.
Qed.
End Ring.
