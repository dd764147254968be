(* Proofs_IView.v -- the fixed-rank integer views and tensor1_view. *)
From Verif Require Import Base BaseFacts Model_Index Model_View Model_Tensor Model_Ops Model_RView Model_Column Model_IView Spec_Index Spec_View Spec_Tensor Spec_Ops Spec_RView
  Proofs_Axes Proofs_Index Proofs_View Proofs_Tensor Proofs_Tensor2 Proofs_Tensor3 Proofs_Ops Proofs_Ops2 Proofs_Convolve2 Spec_RView Proofs_RView Proofs_RView2 Proofs_RView3.
Local Open Scope Z_scope.

Section P.
Context {R : cring}.
Add Ring RrIV : (cth R).
Notation memR := (mem (car R)).
Implicit Types (m : memR).

Lemma nd_same r x m k : zipable r x m -> nd x k = nd r k.
Proof. intro Z. unfold nd. now rewrite (zip_dims r x m Z). Qed.

(* the strided branch of add copies *)
Lemma iadd1_ok r x m n0 : zipable r x m -> vdims r = [n0] ->
  exists m', iv1_add r x m = Ok m' /\ (if ireg1 r && ireg1 x then updates cadd r x m m' else updates (fun _ w => w) r x m m').
Proof.
  intros Z D. unfold iv1_add. rewrite (nd_same r x m 0 Z), Z.eqb_refl. cbn [assrt].
  pose proof (zip1_ok f_add1 r x m n0 Z D) as H1. pose proof (zip1_ok f_set r x m n0 Z D) as H2. change (reg1) with ireg1 in *.
  destruct (ireg1 r && ireg1 x).
  - destruct H1 as (m' & E & H). exists m'. split; [exact E|]. now apply (ew_updates f_add1).
  - destruct H2 as (m' & E & H). exists m'. split; [exact E|]. now apply (ew_updates f_set).
Qed.
Lemma izip2 (f : R -> list R -> R) r x m n0 n1 : zipable r x m -> vdims r = [n0; n1] ->
  exists m', (if ireg2 r && ireg2 x then flat_loop f r [x] (n0 * sd r 0) m else nest2 n0 n1 (zip_each f r x) m) = Ok m' /\ elementwise f r [x] m m'.
Proof.
  intros Z D. destruct (zip2_view_ok f r x m n0 n1 Z D) as (m' & E & H). exists m'. split; [|exact H]. change reg2 with ireg2 in E.
  destruct (ireg2 r) eqn:Er; [|exact E]. cbn [andb] in *. rewrite (flat2 r (proj1 Z) Er n0 n1 D). exact E.
Qed.
Lemma iadd2_ok r x m n0 n1 : zipable r x m -> vdims r = [n0; n1] -> exists m', iv2_add r x m = Ok m' /\ updates cadd r x m m'.
Proof.
  intros Z D. unfold iv2_add. rewrite !(nd_same r x m _ Z), !Z.eqb_refl. cbn [assrt]. rewrite !(nd_eq r _ _ D). cbn [nth].
  destruct (izip2 f_add1 r x m n0 n1 Z D) as (m' & E & H). exists m'. split; [exact E|]. now apply (ew_updates f_add1).
Qed.
Lemma iaddc2_ok r x c m n0 n1 : zipable r x m -> vdims r = [n0; n1] -> exists m', iv2_addc r x c m = Ok m' /\ updates (fun v w => cadd v (cmul c w)) r x m m'.
Proof.
  intros Z D. unfold iv2_addc. rewrite !(nd_same r x m _ Z), !Z.eqb_refl. cbn [assrt]. rewrite !(nd_eq r _ _ D). cbn [nth].
  destruct (izip2 (f_addc c) r x m n0 n1 Z D) as (m' & E & H). exists m'. split; [exact E|]. now apply (ew_updates (f_addc c)).
Qed.

(* the batched product: rows below the number of batches receive the product, the others keep their values *)
Lemma iAA3_ok r x y m nb a n : operands r [x; y] m -> vdims r = [nb; a; a] -> vdims x = [nb; a; n] -> vdims y = [n; a] -> nb <= a ->
  exists m', iv3_AA r x y m = Ok m' /\
    (forall t i j v, 0 <= t < nb -> 0 <= i < nb -> 0 <= j < a -> elem m r [t; i; j] = Some v ->
       elem m' r [t; i; j] = Some (cadd v (rsum (map (fun k => cmul (elem0 m x [t; i; k]) (elem0 m y [k; j])) (zrange n))))) /\
    (forall t i j, 0 <= t < nb -> nb <= i < a -> 0 <= j < a -> elem m' r [t; i; j] = elem m r [t; i; j]) /\ untouched m m' r.
Proof.
  intros (Wr & Hd & Rr & F) Dr Dx Dy Hn. inversion F as [|? ? (Wx & Rx & Bx) F']; subst. inversion F' as [|? ? (Wy & Ry & By) _]; subst.
  unfold iv3_AA. rewrite !(nd_eq r _ _ Dr), !(nd_eq x _ _ Dx), !(nd_eq y _ _ Dy). cbn [nth]. rewrite !Z.eqb_refl. cbn [assrt].
  match goal with |- context [forZ nb ?b m] => replace (forZ nb b m) with
    (nest3 nb nb a (fun ix m => do t <- dotloop n (fun i => vaddr x [nth 0 ix 0; nth 1 ix 0; i]) (fun i => vaddr y [i; nth 2 ix 0]) m; inc_at r ix t m) m) by reflexivity end.
  rewrite nest3_fold.
  destruct (acc_loop r (all_indices [nb; nb; a]) (fun ix m => dotloop n (fun i => vaddr x [nth 0 ix 0; nth 1 ix 0; i]) (fun i => vaddr y [i; nth 2 ix 0]) m)
     (fun ix => rsum (map (fun k => cmul (elem0 m x [nth 0 ix 0; nth 1 ix 0; k]) (elem0 m y [k; nth 2 ix 0])) (zrange n))) m) as (m' & E & A & B & C); try assumption.
  - apply all_indices_nodup.
  - intros ix Hix. apply in_all_indices, in_range_3_inv in Hix as (t & i & j & -> & ? & ? & ?). rewrite Dr. apply in_range_3; lia.
  - intros ix m' Hix U. apply in_all_indices, in_range_3_inv in Hix as (t & i & j & -> & ? & ? & ?). cbn [nth].
    apply (dot_keep r x y n (fun k => [t; i; k]) (fun k => [k; j])); try assumption. intros k Hk. rewrite Dx, Dy. split; [apply in_range_3|apply in_range_2]; lia.
  - exists m'. split; [exact E|]. split; [|split; [|exact C]].
    + intros t i j v Ht Hi Hj Hv. apply (A [t; i; j] v); [|exact Hv]. apply in_all_indices, in_range_3; assumption.
    + intros t i j Ht Hi Hj. apply B; [rewrite Dr; apply in_range_3; lia|]. intro Q. apply in_all_indices, in_range_3_inv in Q as (t' & i' & j' & Q & ? & ? & ?). injection Q as <- <- <-. lia.
Qed.

(* ---- conversions ---- *)
Lemma gt_gen (z : R) b x m : vwf x -> readable m x -> (forall a, m b a = None) ->
  exists m', foldM (fun ix m => do v <- get_at x ix m; put_at (fresh_view b (vdims x)) ix v m) (all_indices (vdims x)) (alloc z b (asize (vdims x)) m) = Ok m' /\
    makes b m m' (fresh_view b (vdims x)) (vdims x) (elem0 m x).
Proof.
  intros Wx Rx Hb. assert (Hn : nonneg (vdims x)) by apply Wx. destruct (fresh_beside z b (vdims x) m x Hn Wx Rx Hb) as (Dj & _ & Ex & Rx').
  destruct (put_loop (fresh_view b (vdims x)) (all_indices (vdims x)) (fun ix => ix) (fun ix m => get_at x ix m) (elem0 m x) (alloc z b (asize (vdims x)) m)) as (m' & E & A & B & C).
  - now apply fresh_vwf.
  - now apply fresh_distinct.
  - now apply fresh_rd.
  - intros ix Hix. now apply in_all_indices.
  - intros ix m' Hix U. apply in_all_indices in Hix. rewrite (keep_get (fresh_view b (vdims x)) x (alloc z b (asize (vdims x)) m) m' ix Wx Rx' Dj U Hix). unfold elem0. now rewrite Ex.
  - exists m'. split; [exact E|]. apply (makes_fresh z); [assumption|assumption|]. intros ix Hix. apply A. now apply in_all_indices.
Qed.
Lemma fresh_zip b x m : vwf x -> readable m x -> (forall a, m b a = None) -> zipable (fresh_view b (vdims x)) x (alloc c0 b (asize (vdims x)) m).
Proof.
  intros Wx Rx Hb. assert (Hn : nonneg (vdims x)) by apply Wx. destruct (fresh_beside c0 b (vdims x) m x Hn Wx Rx Hb) as (Dj & Nc & Ex & Rx').
  split; [now apply fresh_vwf|]. split; [assumption|]. split; [reflexivity|]. split; [now apply fresh_distinct|]. split; [now apply fresh_rd|]. split; assumption.
Qed.
Lemma made_by b x m m' (g : R -> R -> R) : vwf x -> readable m x -> (forall a, m b a = None) -> (forall w, g c0 w = w) ->
  updates g (fresh_view b (vdims x)) x (alloc c0 b (asize (vdims x)) m) m' -> makes b m m' (fresh_view b (vdims x)) (vdims x) (elem0 m x).
Proof.
  intros Wx Rx Hb Hg [A B]. assert (Hn : nonneg (vdims x)) by apply Wx. destruct (fresh_beside c0 b (vdims x) m x Hn Wx Rx Hb) as (Dj & Nc & Ex & Rx').
  apply (makes_fresh c0); [assumption|assumption|]. intros ix Hix. rewrite <- (Hg (elem0 m x ix)). apply (A ix); [exact Hix|now apply fresh_readable|]. rewrite Ex by assumption. now apply readable_elem.
Qed.
Lemma of1_ok b x m n0 : vwf x -> vdims x = [n0] -> readable m x -> (forall a, m b a = None) ->
  exists r m', it_of1 b x m = Ok (r, m') /\ makes b m m' r (vdims x) (elem0 m x).
Proof.
  intros Wx D Rx Hb. destruct (iadd1_ok _ x _ n0 (fresh_zip b x m Wx Rx Hb) D) as (m' & E & H). exists (fresh_view b (vdims x)), m'. split.
  - unfold it_of1. rewrite (nd_eq x _ 0 D). cbn [nth zeros]. rewrite <- D, E. reflexivity.
  - destruct (ireg1 _ && ireg1 x); [apply (made_by b x m m' cadd)|apply (made_by b x m m' (fun _ w => w))]; try assumption; intro w; [ring|reflexivity].
Qed.
Lemma of2_ok b x m n0 n1 : vwf x -> vdims x = [n0; n1] -> readable m x -> (forall a, m b a = None) ->
  exists r m', it_of2 b x m = Ok (r, m') /\ makes b m m' r (vdims x) (elem0 m x).
Proof.
  intros Wx D Rx Hb. destruct (iadd2_ok _ x _ n0 n1 (fresh_zip b x m Wx Rx Hb) D) as (m' & E & H). exists (fresh_view b (vdims x)), m'. split.
  - unfold it_of2. rewrite !(nd_eq x _ _ D). cbn [nth zeros]. rewrite <- D, E. reflexivity.
  - apply (made_by b x m m' cadd); try assumption; intro w; ring.
Qed.
Lemma of3_ok b x m n0 n1 n2 : vwf x -> vdims x = [n0; n1; n2] -> readable m x -> (forall a, m b a = None) ->
  exists r m', it_of3 b x m = Ok (r, m') /\ makes b m m' r (vdims x) (elem0 m x).
Proof.
  intros Wx D Rx Hb. destruct (add3_ok _ x _ n0 n1 n2 (fresh_zip b x m Wx Rx Hb) D) as (m' & E & H). exists (fresh_view b (vdims x)), m'. split.
  - unfold it_of3. rewrite !(nd_eq x _ _ D). cbn [nth zeros]. rewrite <- D. change iv3_add with (@rv3_add R). rewrite E. reflexivity.
  - apply (made_by b x m m' cadd); try assumption; intro w; ring.
Qed.

Lemma broadcast1_ok r (v : R) m n0 : vwf r -> vdims r = [n0] -> ireg1 r = true -> readable m r -> distinct_cells r -> exists m', iv1_broadcast r v m = Ok m' /\ becomes r (fun _ => v) m m'.
Proof.
  intros W D E Rr Hd. destruct (fill_gen r v m W Hd Rr) as (m' & Em & B). exists m'. split; [|exact B]. unfold iv1_broadcast. rewrite E. cbn [assrt]. rewrite D, <- nest1_fold in Em. rewrite <- Em.
  rewrite (nd_eq r _ 0 D). cbn [nth]. unfold nest1, forZ. apply foldM_ext. intros i m1 _. unfold put_at. rewrite (vaddr1 r i n0 W D). cbn [bind]. unfold ireg1 in E. replace (sd r 0) with 1 by lia. now rewrite Z.mul_1_r.
Qed.
End P.

(* ---- split of a vector, blocks ---- *)
Lemma vsplit_shows v n0 i j : vwf v -> vdims v = [n0] -> 0 <= i -> 0 < j -> i * j = n0 ->
  exists w, iv_split v i j = Ok w /\ vwf w /\ vdims w = [i; j] /\ shows w v (fun ix => [nth 0 ix 0 * j + nth 1 ix 0]).
Proof.
  intros W D Hi Hj E. unfold iv_split. rewrite (nd_eq v _ 0 D). cbn [nth]. rewrite E, Z.eqb_refl. cbn [assrt]. eexists. split; [reflexivity|].
  assert (Ww : vwf (View (vblk v) (voff v) [i; j] [sd v 0 * j; sd v 0])) by (split; [reflexivity|cbn; repeat constructor; lia]). split; [exact Ww|]. split; [reflexivity|].
  intros ix Hix. cbn [vdims] in Hix. apply in_range_2_inv in Hix as (a & b & -> & Ha & Hb). cbn [nth]. split; [rewrite D; constructor; [nia|constructor]|].
  rewrite (vaddr2 _ a b i j Ww eq_refl), (vaddr1 v _ n0 W D). cbn. do 2 f_equal. ring.
Qed.
Lemma block2m_shows v n0 n1 i0 i1 m0 m1 : vwf v -> vdims v = [n0; n1] -> 0 <= i0 -> 0 <= i1 -> i0 <= n0 -> i1 <= n1 -> (m0 = -1 \/ 0 <= m0 /\ i0 + m0 <= n0) -> (m1 = -1 \/ 0 <= m1 /\ i1 + m1 <= n1) ->
  vwf (iv2_block v i0 i1 m0 m1) /\ vdims (iv2_block v i0 i1 m0 m1) = [if m0 =? -1 then n0 - i0 else m0; if m1 =? -1 then n1 - i1 else m1] /\
  shows (iv2_block v i0 i1 m0 m1) v (fun ix => [i0 + nth 0 ix 0; i1 + nth 1 ix 0]).
Proof.
  intros W D H1 H2 H3 H4 H5 H6. destruct (block2_shows v n0 n1 i0 i1 m0 m1 W D H1 H2 H3 H4) as (A & B & C); [lia|lia|].
  assert (E : iv2_block v i0 i1 m0 m1 = rv2_block v i0 i1 m0 m1).
  { unfold iv2_block, rv2_block. replace (m0 =? -1) with (m0 <? 0) by lia. replace (m1 =? -1) with (m1 <? 0) by lia. reflexivity. }
  rewrite E. split; [exact A|]. split; [|exact C]. rewrite B. replace (m0 =? -1) with (m0 <? 0) by lia. replace (m1 =? -1) with (m1 <? 0) by lia. reflexivity.
Qed.
(* hash: equal lengths and equal entries *)
Lemma t1_hash_eq {V} (hi : Z -> Z) (hv : V -> Z) x (m : mem V) n : vwf x -> vdims x = [n] -> readable m x ->
  t1_hash hi hv x m = foldM (fun ix t => match elem m x ix with Some v => Ok (mix t (hv v)) | None => UB end) (all_indices [n]) (hi n).
Proof.
  intros W D Rx. unfold t1_hash. rewrite (nd_eq x _ 0 D). cbn [nth]. rewrite <- nest1_fold. unfold nest1, forZ. apply foldM_ext. intros i t _. unfold elem, load. rewrite (vaddr1 x i n W D). cbn.
  destruct (m (vblk x) (voff x + i * sd x 0)); reflexivity.
Qed.
