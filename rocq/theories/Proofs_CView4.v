(* Proofs_CView4.v -- addition of complex matrices and rank-3 tensors, products through fused views, contraction and
   expansion. *)
From Verif Require Import Base BaseFacts Model_Index Model_View Model_Tensor Model_Ops Model_RView Model_CView Spec_Index Spec_View Spec_Tensor Spec_RView Spec_CView
  Proofs_Axes Proofs_Index Proofs_View Proofs_Tensor Proofs_Tensor2 Proofs_Tensor3 Proofs_Convolve2 Proofs_Ops2 Proofs_Ops3 Proofs_RView Proofs_RView2 Proofs_RView3 Proofs_RView4 Proofs_RView5 Proofs_RView6 Proofs_CView Proofs_CView2 Proofs_CView3.
Local Open Scope Z_scope.

Section Cx.
Context {R : cring}.
Add Ring RrCV4 : (cth R).
Notation memR := (mem (car R)).
Notation C := (CxRing R).
Add Ring RcCV4 : (cth C).
Implicit Types (v w r x y : view) (m : memR) (M : list Z -> R).

Lemma cgains_ext r dims (g h : list Z -> C) m m' : (forall ix, in_range ix dims -> g ix = h ix) -> cgains r dims g m m' -> cgains r dims h m m'.
Proof. intros E (A & B & U). split; [exact A|]. split; [|exact U]. intros ix Hix. rewrite B by assumption. now rewrite E. Qed.
Lemma cbecomes_ext r dims (g h : list Z -> C) m m' : (forall ix, in_range ix dims -> g ix = h ix) -> cbecomes r dims g m m' -> cbecomes r dims h m m'.
Proof. intros E (A & B & U). split; [exact A|]. split; [|exact U]. intros ix Hix. rewrite B by assumption. now rewrite E. Qed.

(* ---- addition ---- *)
Lemma flat_add_loop n x r m : flat_add n (vblk x) (voff x) (vblk r) (voff r) m = flat_loop f_add1 r [x] n m.
Proof.
  unfold flat_add, flat_loop, forZ. apply foldM_ext. intros i s _. unfold rmw. cbn [map loads]. unfold loadA, load. cbn [fst snd]. destruct (s (vblk x) (voff x + i)) as [u|]; cbn [bind]; destruct (s (vblk r) (voff r + i)); reflexivity.
Qed.
Lemma cadd_flat r x m dims : zipable r x m -> cshape r dims -> vstr r = strides_of 1 (vdims r) -> vstr x = strides_of 1 (vdims x) ->
  exists m', flat_add (prod (vdims r)) (vblk x) (voff x) (vblk r) (voff r) m = Ok m' /\ cgains r dims (celem m x) m m'.
Proof.
  intros Z Sr Er Ex. rewrite flat_add_loop. destruct (zipable_flat f_add1 r x m Z Er Ex) as (m' & E & H). exists m'. split; [exact E|].
  destruct (ew_updates f_add1 cadd r x m m' ltac:(reflexivity) H) as [A U]. destruct Z as (Wr & Wx & D & Hd & Rr & Rx & _).
  assert (G : forall ix, in_range ix (vdims r) -> elem m' r ix = Some (cadd (elem0 m r ix) (elem0 m x ix))).
  { intros ix Hix. apply A; [assumption|now apply readable_elem|]. apply readable_elem; [assumption|now rewrite D]. }
  split; [|split; [|exact U]].
  - intros ix Hix. rewrite G by assumption. discriminate.
  - intros ix Hix. unfold celem. unfold elem0 at 1 2. rewrite !G by (rewrite (proj2 Sr); apply in_range_snoc; [assumption|lia]). reflexivity.
Qed.
Lemma cadd_each r x m dims : zipable r x m -> cshape r dims ->
  exists m', foldM (fun ix m => do u <- cget x ix m; cinc r ix u m) (all_indices dims) m = Ok m' /\ cgains r dims (celem m x) m m'.
Proof.
  intros (Wr & Wx & D & Hd & Rr & Rx & Nc) Sr. assert (Sx : cshape x dims) by (split; [assumption|rewrite D; apply Sr]).
  apply (cacc r dims (fun ix m => cget x ix m)); try assumption. intros ix m' Hix Q. now apply (cget_zip r x dims m m').
Qed.
Lemma cadd_none r x m dims : zipable r x m -> (forall ix, ~ in_range ix dims) -> cgains r dims (celem m x) m m.
Proof. intros (_ & _ & _ & _ & Rr & _) H. split; [exact Rr|]. split; [|apply untouched_same]. intros ix Hix. now apply H in Hix. Qed.
Lemma creg2_str v a b : cshape v [a; b] -> creg2 v = true -> vstr v = strides_of 1 (vdims v) /\ a * sd v 0 = prod (vdims v).
Proof.
  intro S. parts v S. unfold creg2, coffs, nd, sd. cbn [last nth vstr vdims]. intro E. apply andb_true_iff in E as [E E3]. apply andb_true_iff in E as [E1 E2]. apply Z.eqb_eq in E1, E2, E3. subst.
  change (strides_of 1 [a; b; 2]) with [1 * 2 * b; 1 * 2; 1]. split; [f_equal; lia|]. cbv [prod fold_right]. lia.
Qed.
Lemma creg3_str v a b c : cshape v [a; b; c] -> creg3 v = true -> vstr v = strides_of 1 (vdims v) /\ a * sd v 0 = prod (vdims v).
Proof.
  intro S. parts v S. unfold creg3, coffs, nd, sd. cbn [last nth vstr vdims]. intro E. apply andb_true_iff in E as [E E4]. apply andb_true_iff in E as [E E3]. apply andb_true_iff in E as [E1 E2]. apply Z.eqb_eq in E1, E2, E3, E4. subst.
  change (strides_of 1 [a; b; c; 2]) with [1 * 2 * c * b; 1 * 2 * c; 1 * 2; 1]. split; [f_equal; lia|]. cbv [prod fold_right]. lia.
Qed.
Ltac sides := repeat match goal with H : cshape ?v ?d |- context [nd ?v ?k] => rewrite (cnd v d k H) by (cbn; lia) end; cbn [nth]; rewrite ?Z.eqb_refl; cbn [assrt].
Lemma cv2_add_ok r x m a b : zipable r x m -> cshape r [a; b] -> exists m', cv2_add r x m = Ok m' /\ cgains r [a; b] (celem m x) m m'.
Proof.
  intros Z Sr. assert (Sx : cshape x [a; b]) by (split; [apply Z|rewrite (zip_dims r x m Z); apply Sr]). unfold cv2_add. sides. destruct (Z.eqb_spec (a * b) 0) as [E0|E0].
  - exists m. split; [reflexivity|]. apply cadd_none; [assumption|]. intros ix Hix. apply in_range_2_inv in Hix as (i & j & _ & Hi & Hj). nia.
  - destruct (creg2 r && creg2 x) eqn:E.
    + apply andb_true_iff in E as [E1 E2]. destruct (creg2_str r a b Sr E1) as [Er ->]. destruct (creg2_str x a b Sx E2) as [Ex _]. now apply cadd_flat.
    + rewrite nest2_fold. now apply cadd_each.
Qed.
Lemma cv3_add_ok r x m a b c : zipable r x m -> cshape r [a; b; c] -> exists m', cv3_add r x m = Ok m' /\ cgains r [a; b; c] (celem m x) m m'.
Proof.
  intros Z Sr. assert (Sx : cshape x [a; b; c]) by (split; [apply Z|rewrite (zip_dims r x m Z); apply Sr]). unfold cv3_add. sides. destruct (Z.eqb_spec (a * b) 0) as [E0|E0].
  - exists m. split; [reflexivity|]. apply cadd_none; [assumption|]. intros ix Hix. apply in_range_3_inv in Hix as (i & j & k & _ & Hi & Hj & _). nia.
  - destruct (creg3 r && creg3 x) eqn:E.
    + apply andb_true_iff in E as [E1 E2]. destruct (creg3_str r a b c Sr E1) as [Er ->]. destruct (creg3_str x a b c Sx E2) as [Ex _]. now apply cadd_flat.
    + rewrite nest3_fold. now apply cadd_each.
Qed.

(* ---- through another view of the whole of r ---- *)
Lemma celem_shows m w v f dims ix jx : cshape w dims -> shows w v f -> in_range ix dims -> (forall k, 0 <= k < 2 -> f (ix ++ [k]) = jx ++ [k]) -> celem m w ix = celem m v jx.
Proof.
  intros [W D] S Hix H. unfold celem. rewrite !(shows_elem0 m w v f _ S) by (rewrite D; apply in_range_snoc; [assumption|lia]). now rewrite !H by lia.
Qed.
Lemma cgains_whole w v f h dw dv (g : list Z -> C) m m' : cshape w dw -> cshape v dv -> shows w v f ->
  (forall ix, in_range ix dv -> in_range (h ix) dw /\ forall k, 0 <= k < 2 -> f (h ix ++ [k]) = ix ++ [k]) ->
  cgains w dw g m m' -> cgains v dv (fun ix => g (h ix)) m m'.
Proof.
  intros Sw Sv S H (A & B & U). split; [|split; [|eapply sub_untouched; eassumption]].
  - intros jx Hj. rewrite (proj2 Sv) in Hj. apply in_range_snoc_inv in Hj as (ix & k & -> & Hix & Hk). destruct (H ix Hix) as [I E]. rewrite <- E by assumption.
    assert (Iw : in_range (h ix ++ [k]) (vdims w)) by (rewrite (proj2 Sw); now apply in_range_snoc). rewrite <- (window_elem m' w v f S _ Iw). now apply A.
  - intros ix Hix. destruct (H ix Hix) as [I E]. rewrite <- (celem_shows m' w v f dw (h ix) ix Sw S I E), <- (celem_shows m w v f dw (h ix) ix Sw S I E). now apply B.
Qed.
(* operands seen through other views *)
Lemma operands_through r x y m rw xw fr fx : operands r [x; y] m -> shows rw r fr -> shows xw x fx -> vwf rw -> vwf xw ->
  (forall ix jx, in_range ix (vdims rw) -> in_range jx (vdims rw) -> fr ix = fr jx -> ix = jx) -> operands rw [xw; y] m.
Proof.
  intros (Wr & Hd & Rr & F) Sr Sx Ww Wxw Hi. inversion F as [|? ? (Wx & Rx & Bx) F']; subst; inversion F' as [|? ? (Wy & Ry & By) _]; subst.
  split; [assumption|]. split; [eapply shows_distinct; eassumption|]. split; [eapply shows_readable; eassumption|]. repeat constructor; try assumption.
  - apply Wxw. - apply Wxw. - eapply shows_readable; eassumption. - eapply shows_disjoint_l; [eassumption|]. eapply shows_disjoint_r; eassumption. - apply Wy. - apply Wy. - eapply shows_disjoint_l; eassumption.
Qed.
(* ---- products of the last axis: rows of the fused views ---- *)
Lemma fuse01_back a b c ix : in_range ix [a; b; c] -> in_range [nth 0 ix 0 * b + nth 1 ix 0; nth 2 ix 0] [a * b; c] /\
  forall k, (fun jx => [nth 0 jx 0 / b; nth 0 jx 0 mod b; nth 1 jx 0; nth 2 jx 0]) ([nth 0 ix 0 * b + nth 1 ix 0; nth 2 ix 0] ++ [k]) = ix ++ [k].
Proof.
  intro H. apply in_range_3_inv in H as (i & j & l & -> & Hi & Hj & Hl). cbn [nth app]. split; [apply in_range_2; [nia|assumption]|]. intro k. now destruct (dm_at b i j Hj) as [-> ->].
Qed.
Lemma fuse01_inj a b c ix jx : 0 <= b -> in_range ix [a * b; c; 2] -> in_range jx [a * b; c; 2] ->
  [nth 0 ix 0 / b; nth 0 ix 0 mod b; nth 1 ix 0; nth 2 ix 0] = [nth 0 jx 0 / b; nth 0 jx 0 mod b; nth 1 jx 0; nth 2 jx 0] -> ix = jx.
Proof.
  intros Hb Hi Hj E. apply in_range_3_inv in Hi as (i & j & l & -> & Hi & _ & _). apply in_range_3_inv in Hj as (i' & j' & l' & -> & _ & _ & _). cbn [nth] in E. injection E as E1 E2 -> ->. f_equal. apply (div_mod_inj b); try assumption. nia.
Qed.
Lemma cpos v dims k : cshape v dims -> (k < length dims)%nat -> 0 <= nth k dims 0.
Proof. intros [[_ N] D] H. rewrite D in N. unfold nonneg in N. rewrite Forall_forall in N. apply N. apply in_or_app. left. now apply nth_In. Qed.
Lemma cmix2_ok r x y m a b n c : operands r [x; y] m -> cshape r [a; b; c] -> cshape x [a; b; n] -> sd r 0 = b * sd r 1 -> sd x 0 = b * sd x 1 ->
  (cshape y [n; c] -> exists m', cv3_mix_2_0 r x y m = Ok m' /\
     cgains r [a; b; c] (fun ix => rsum (map (fun k => cmul (celem m x [nth 0 ix 0; nth 1 ix 0; k]) (celem m y [k; nth 2 ix 0])) (zrange n))) m m') /\
  (cshape y [c; n] -> exists m', cv3_mix_2_H r x y m = Ok m' /\
     cgains r [a; b; c] (fun ix => rsum (map (fun k => cmul (celem m x [nth 0 ix 0; nth 1 ix 0; k]) (conj (celem m y [nth 2 ix 0; k]))) (zrange n))) m m').
Proof.
  intros O Sr Sx Er Ex. destruct (cfuse3 r a b c Sr) as [Fr _]. destruct (Fr Er) as [Swr Shr]. destruct (cfuse3 x a b n Sx) as [Fx _]. destruct (Fx Ex) as [Swx Shx].
  pose proof (cpos r _ 1 Sr ltac:(cbn; lia)) as Hb. cbn [nth] in Hb.
  assert (O' : operands (cv3_fuse01 r) [cv3_fuse01 x; y] m).
  { eapply operands_through; try eassumption; [apply Swr|apply Swx|]. intros ix jx Hi Hj E. rewrite (proj2 Swr) in Hi, Hj. exact (fuse01_inj a b c ix jx Hb Hi Hj E). }
  destruct (cprods_ok (cv3_fuse01 r) (cv3_fuse01 x) y m (a * b) n c O' Swr) as (P0 & P1 & _).
  assert (Ee : forall ix k, in_range ix [a; b; c] -> 0 <= k < n -> celem m (cv3_fuse01 x) [nth 0 ix 0 * b + nth 1 ix 0; k] = celem m x [nth 0 ix 0; nth 1 ix 0; k]).
  { intros ix k Hix Hk. apply in_range_3_inv in Hix as (i & j & l & -> & Hi & Hj & Hl). cbn [nth]. apply (celem_shows m _ x _ [a * b; n] _ _ Swx Shx); [apply in_range_2; [nia|assumption]|]. intros z Hz. cbn [nth app]. now destruct (dm_at b i j Hj) as [-> ->]. }
  assert (Bk : forall ix, in_range ix [a; b; c] -> in_range [nth 0 ix 0 * b + nth 1 ix 0; nth 2 ix 0] [a * b; c] /\ forall k, 0 <= k < 2 ->
     (fun jx => [nth 0 jx 0 / b; nth 0 jx 0 mod b; nth 1 jx 0; nth 2 jx 0]) ([nth 0 ix 0 * b + nth 1 ix 0; nth 2 ix 0] ++ [k]) = ix ++ [k]).
  { intros ix Hix. destruct (fuse01_back a b c ix Hix) as [I E']. split; [exact I|]. intros k _. apply E'. }
  split; intro Sy.
  - destruct (P0 Swx Sy) as (m' & E & G). exists m'. split; [exact E|]. pose proof (cgains_whole _ r _ (fun ix => [nth 0 ix 0 * b + nth 1 ix 0; nth 2 ix 0]) _ _ _ m m' Swr Sr Shr Bk G) as G'. revert G'. apply cgains_ext.
    intros ix Hix. cbn [nth]. f_equal. apply map_ext_in. intros k Hk. apply in_zrange in Hk. now rewrite Ee.
  - destruct (P1 Swx Sy) as (m' & E & G). exists m'. split; [exact E|]. pose proof (cgains_whole _ r _ (fun ix => [nth 0 ix 0 * b + nth 1 ix 0; nth 2 ix 0]) _ _ _ m m' Swr Sr Shr Bk G) as G'. revert G'. apply cgains_ext.
    intros ix Hix. cbn [nth]. f_equal. apply map_ext_in. intros k Hk. apply in_zrange in Hk. now rewrite Ee.
Qed.

(* ---- rank 4 ---- *)
Lemma in4_inv ix a b c d : in_range ix [a; b; c; d] -> exists i j k l, ix = [i; j; k; l] /\ 0 <= i < a /\ 0 <= j < b /\ 0 <= k < c /\ 0 <= l < d.
Proof. intro H. inversion H as [|i ? jx ? Hi Hj]; subst. apply in_range_3_inv in Hj as (j & k & l & -> & Hj & Hk & Hl). now exists i, j, k, l. Qed.
Lemma in3 i j k a b c : 0 <= i < a -> 0 <= j < b -> 0 <= k < c -> in_range [i; j; k] [a; b; c].
Proof. intros. repeat constructor; lia. Qed.
Lemma cmix1_4_ok r x y m a b n c d : operands r [x; y] m -> cshape r [a; b; c; d] -> cshape x [a; n; c; d] -> sd r 2 = d * sd r 3 -> sd x 2 = d * sd x 3 ->
  (cshape y [n; b] -> exists m', cv4_mix_1_0 r x y m = Ok m' /\
     cgains r [a; b; c; d] (fun ix => rsum (map (fun k => cmul (celem m x [nth 0 ix 0; k; nth 2 ix 0; nth 3 ix 0]) (celem m y [k; nth 1 ix 0])) (zrange n))) m m') /\
  (cshape y [b; n] -> exists m', cv4_mix_1_H r x y m = Ok m' /\
     cgains r [a; b; c; d] (fun ix => rsum (map (fun k => cmul (celem m x [nth 0 ix 0; k; nth 2 ix 0; nth 3 ix 0]) (conj (celem m y [nth 1 ix 0; k]))) (zrange n))) m m').
Proof.
  intros O Sr Sx Er Ex. destruct (cfuse4 r a b c d Sr) as [_ [Fr _]]. destruct (Fr Er) as [Swr Shr]. destruct (cfuse4 x a n c d Sx) as [_ [Fx _]]. destruct (Fx Ex) as [Swx Shx].
  pose proof (cpos r _ 3 Sr ltac:(cbn; lia)) as Hd. cbn [nth] in Hd.
  assert (O' : operands (cv4_fuse23 r) [cv4_fuse23 x; y] m).
  { eapply operands_through; try eassumption; [apply Swr|apply Swx|]. intros ix jx Hi Hj E. rewrite (proj2 Swr) in Hi, Hj. cbn [app] in Hi, Hj. apply in4_inv in Hi as (i0 & j0 & k0 & l0 & -> & _ & _ & Hk & _). apply in4_inv in Hj as (i1 & j1 & k1 & l1 & -> & _). cbn [nth] in E. injection E as -> -> E1 E2 ->. do 2 f_equal. f_equal. apply (div_mod_inj d); try assumption. nia. }
  destruct (cmix1_ok (cv4_fuse23 r) (cv4_fuse23 x) y m a n b (c * d) O' Swr Swx) as (P0 & P1).
  assert (Ee : forall ix k, in_range ix [a; b; c; d] -> 0 <= k < n -> celem m (cv4_fuse23 x) [nth 0 ix 0; k; nth 2 ix 0 * d + nth 3 ix 0] = celem m x [nth 0 ix 0; k; nth 2 ix 0; nth 3 ix 0]).
  { intros ix k Hix Hk. apply in4_inv in Hix as (i & j & l & z & -> & Hi & Hj & Hl & Hz). cbn [nth]. apply (celem_shows m _ x _ [a; n; c * d] _ _ Swx Shx); [apply in3; try assumption; nia|]. intros u Hu. cbn [nth app]. now destruct (dm_at d l z Hz) as [-> ->]. }
  assert (Bk : forall ix, in_range ix [a; b; c; d] -> in_range [nth 0 ix 0; nth 1 ix 0; nth 2 ix 0 * d + nth 3 ix 0] [a; b; c * d] /\ forall k, 0 <= k < 2 ->
     (fun jx => [nth 0 jx 0; nth 1 jx 0; nth 2 jx 0 / d; nth 2 jx 0 mod d; nth 3 jx 0]) ([nth 0 ix 0; nth 1 ix 0; nth 2 ix 0 * d + nth 3 ix 0] ++ [k]) = ix ++ [k]).
  { intros ix Hix. apply in4_inv in Hix as (i & j & l & z & -> & Hi & Hj & Hl & Hz). cbn [nth app]. split; [apply in3; try assumption; nia|]. intros k _. now destruct (dm_at d l z Hz) as [-> ->]. }
  split; intro Sy.
  - destruct (P0 Sy) as (m' & E & G). exists m'. split; [exact E|]. pose proof (cgains_whole _ r _ (fun ix => [nth 0 ix 0; nth 1 ix 0; nth 2 ix 0 * d + nth 3 ix 0]) _ _ _ m m' Swr Sr Shr Bk G) as G'. revert G'. apply cgains_ext.
    intros ix Hix. cbn [nth]. f_equal. apply map_ext_in. intros k Hk. apply in_zrange in Hk. now rewrite Ee.
  - destruct (P1 Sy) as (m' & E & G). exists m'. split; [exact E|]. pose proof (cgains_whole _ r _ (fun ix => [nth 0 ix 0; nth 1 ix 0; nth 2 ix 0 * d + nth 3 ix 0]) _ _ _ m m' Swr Sr Shr Bk G) as G'. revert G'. apply cgains_ext.
    intros ix Hix. cbn [nth]. f_equal. apply map_ext_in. intros k Hk. apply in_zrange in Hk. now rewrite Ee.
Qed.
Lemma cmix3_4_ok r x y m a b c n d : operands r [x; y] m -> cshape r [a; b; c; d] -> cshape x [a; b; c; n] ->
  sd r 0 = b * sd r 1 -> sd r 1 = c * sd r 2 -> sd x 0 = b * sd x 1 -> sd x 1 = c * sd x 2 ->
  (cshape y [n; d] -> exists m', cv4_mix_3_0 r x y m = Ok m' /\
     cgains r [a; b; c; d] (fun ix => rsum (map (fun k => cmul (celem m x [nth 0 ix 0; nth 1 ix 0; nth 2 ix 0; k]) (celem m y [k; nth 3 ix 0])) (zrange n))) m m') /\
  (cshape y [d; n] -> exists m', cv4_mix_3_H r x y m = Ok m' /\
     cgains r [a; b; c; d] (fun ix => rsum (map (fun k => cmul (celem m x [nth 0 ix 0; nth 1 ix 0; nth 2 ix 0; k]) (conj (celem m y [nth 3 ix 0; k]))) (zrange n))) m m').
Proof.
  intros O Sr Sx Er Er1 Ex Ex1. destruct (cfuse4 r a b c d Sr) as [Fr _]. destruct (Fr Er) as [Swr Shr]. destruct (cfuse4 x a b c n Sx) as [Fx _]. destruct (Fx Ex) as [Swx Shx].
  pose proof (cpos r _ 1 Sr ltac:(cbn; lia)) as Hb. cbn [nth] in Hb.
  assert (O' : operands (cv4_fuse01 r) [cv4_fuse01 x; y] m).
  { eapply operands_through; try eassumption; [apply Swr|apply Swx|]. intros ix jx Hi Hj E. rewrite (proj2 Swr) in Hi, Hj. cbn [app] in Hi, Hj. apply in4_inv in Hi as (i0 & j0 & k0 & l0 & -> & Hi & _). apply in4_inv in Hj as (i1 & j1 & k1 & l1 & -> & _). cbn [nth] in E. injection E as E1 E2 -> -> ->. f_equal. apply (div_mod_inj b); try assumption. nia. }
  destruct (cmix2_ok (cv4_fuse01 r) (cv4_fuse01 x) y m (a * b) c n d O' Swr Swx) as (P0 & P1); [exact Er1|exact Ex1|].
  assert (Ee : forall ix k, in_range ix [a; b; c; d] -> 0 <= k < n -> celem m (cv4_fuse01 x) [nth 0 ix 0 * b + nth 1 ix 0; nth 2 ix 0; k] = celem m x [nth 0 ix 0; nth 1 ix 0; nth 2 ix 0; k]).
  { intros ix k Hix Hk. apply in4_inv in Hix as (i & j & l & z & -> & Hi & Hj & Hl & Hz). cbn [nth]. apply (celem_shows m _ x _ [a * b; c; n] _ _ Swx Shx); [apply in3; try assumption; nia|]. intros u Hu. cbn [nth app]. now destruct (dm_at b i j Hj) as [-> ->]. }
  assert (Bk : forall ix, in_range ix [a; b; c; d] -> in_range [nth 0 ix 0 * b + nth 1 ix 0; nth 2 ix 0; nth 3 ix 0] [a * b; c; d] /\ forall k, 0 <= k < 2 ->
     (fun jx => [nth 0 jx 0 / b; nth 0 jx 0 mod b; nth 1 jx 0; nth 2 jx 0; nth 3 jx 0]) ([nth 0 ix 0 * b + nth 1 ix 0; nth 2 ix 0; nth 3 ix 0] ++ [k]) = ix ++ [k]).
  { intros ix Hix. apply in4_inv in Hix as (i & j & l & z & -> & Hi & Hj & Hl & Hz). cbn [nth app]. split; [apply in3; try assumption; nia|]. intros k _. now destruct (dm_at b i j Hj) as [-> ->]. }
  split; intro Sy.
  - destruct (P0 Sy) as (m' & E & G). exists m'. split; [exact E|]. pose proof (cgains_whole _ r _ (fun ix => [nth 0 ix 0 * b + nth 1 ix 0; nth 2 ix 0; nth 3 ix 0]) _ _ _ m m' Swr Sr Shr Bk G) as G'. revert G'. apply cgains_ext.
    intros ix Hix. cbn [nth]. f_equal. apply map_ext_in. intros k Hk. apply in_zrange in Hk. now rewrite Ee.
  - destruct (P1 Sy) as (m' & E & G). exists m'. split; [exact E|]. pose proof (cgains_whole _ r _ (fun ix => [nth 0 ix 0 * b + nth 1 ix 0; nth 2 ix 0; nth 3 ix 0]) _ _ _ m m' Swr Sr Shr Bk G) as G'. revert G'. apply cgains_ext.
    intros ix Hix. cbn [nth]. f_equal. apply map_ext_in. intros k Hk. apply in_zrange in Hk. now rewrite Ee.
Qed.
End Cx.
