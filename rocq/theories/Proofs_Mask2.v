(* Proofs_Mask2.v -- aggregation through fused axes; histories of masks; accessors. *)
From Coq Require Import Sorted.
From Verif Require Import Base BaseFacts Model_Index Model_View Model_Tensor Model_Ops Model_RView Model_CView Model_Mask Spec_Index Spec_View Spec_Tensor Spec_RView Spec_CView
  Proofs_Axes Proofs_Index Proofs_View Proofs_Tensor Proofs_Tensor2 Proofs_Tensor3 Proofs_Convolve2 Proofs_Ops2 Proofs_Ops3 Proofs_RView Proofs_RView2 Proofs_RView3 Proofs_RView4 Proofs_RView5 Proofs_RView6 Proofs_CView Proofs_CView2 Proofs_CView3 Proofs_CView4 Proofs_Mask.
From Verif Require Import Spec_RView Spec_Mask.
From Verif Require Proofs_Block3.
Local Open Scope Z_scope.

(* positions of the index tuples of a shape, both ways *)
Definition undo (ds : list Z) (t : Z) : list Z := nth (Z.to_nat t) (all_indices ds) [].
Lemma undo_ok ds t : nonneg ds -> 0 <= t < prod ds -> in_range (undo ds t) ds /\ flat (undo ds t) ds = t.
Proof.
  intros N H. pose proof (all_indices_length ds N) as L. assert (Ht : (Z.to_nat t < length (all_indices ds))%nat) by lia. unfold undo. split.
  - apply in_all_indices. now apply nth_In.
  - pose proof (flat_all_indices ds N) as E. assert (E' : nth (Z.to_nat t) (map (fun ix => flat ix ds) (all_indices ds)) (flat [] ds) = t).
    { rewrite E. rewrite (nth_indep _ _ 0) by (rewrite zrange_length; lia). unfold zrange. rewrite (nth_indep _ _ (Z.of_nat 0)) by (rewrite map_length, seq_length; lia). rewrite map_nth, seq_nth by lia. lia. }
    now rewrite (map_nth (fun ix => flat ix ds)) in E'.
Qed.
Lemma undo_flat ds ix : nonneg ds -> in_range ix ds -> undo ds (flat ix ds) = ix.
Proof. intros N H. pose proof (flat_range ix ds H). destruct (undo_ok ds (flat ix ds) N H0) as [A B]. now apply (flat_inj _ _ ds). Qed.
Lemma strides_of_last s d ds : last (strides_of s (d :: ds)) 0 = s.
Proof. revert d. induction ds as [|e ds IH]; intro d; [reflexivity|]. rewrite strides_of_cons. specialize (IH e). destruct (strides_of s (e :: ds)) eqn:E; [rewrite strides_of_cons in E; discriminate|]. cbn [last] in *. exact IH. Qed.

Section Agg.
Context {R : cring}.
Add Ring RrMask2 : (cth R).
Notation memR := (mem (car R)).
Notation C := (CxRing R).
Add Ring RcMask2 : (cth C).
Implicit Types (q : rmask (R := R)) (ts : list (Z * Z * R)) (r x v w : view) (m : memR).

(* w shows v (with axes d::ds) as a matrix with c columns *)
Definition fused w v d ds c := cshape w [d; c] /\ shows w v (fun ix => nth 0 ix 0 :: undo ds (nth 1 ix 0) ++ [nth 2 ix 0]).
Lemma agg_fused q r x m n nx ds rw xw : operands r [x] m -> cshape r (n :: ds) -> cshape x (nx :: ds) -> fused rw r n ds (prod ds) -> fused xw x nx ds (prod ds) -> within n nx (triples q) ->
  exists m', agg2 q rw xw m = Ok m' /\ cgains r (n :: ds) (mask_sum m x (triples q)) m m'.
Proof.
  intros (Wr & Hd & Rr & F) Sr Sx [Srw Hr] [Sxw Hx] Wn. inversion F as [|? ? (Wx & Rx & Bx) _]; subst.
  assert (Nds : nonneg ds). { pose proof (proj2 (proj1 Sr)) as N. rewrite (proj2 Sr) in N. cbn [app] in N. inversion N as [|? ? _ N']; subst. apply Forall_app in N'. tauto. }
  assert (Op : operands rw [xw] m).
  { split; [apply Srw|]. split; [|split; [eapply shows_readable; eassumption|]].
    - eapply shows_distinct; [exact Hr| |assumption]. intros ix jx I J E. rewrite (proj2 Srw) in I, J. cbn [app] in I, J.
      apply in_range_3_inv in I as (a & b & c & -> & Ia & Ib & Ic). apply in_range_3_inv in J as (a' & b' & c' & -> & Ja & Jb & Jc). cbn [nth] in E. injection E as E1 E2. apply snoc_cancel in E2 as [E2 E3].
      destruct (undo_ok ds b Nds Ib) as [_ U1], (undo_ok ds b' Nds Jb) as [_ U2]. congruence.
    - constructor; [|constructor]. split; [apply Sxw|]. split; [eapply shows_readable; eassumption|]. eapply shows_disjoint_l; [exact Hr|]. eapply shows_disjoint_r; eassumption. }
  destruct (agg2_ok q rw xw m n nx (prod ds) Srw Sxw Op Wn) as (m' & E & G). exists m'. split; [exact E|].
  pose proof (cgains_whole rw r _ (fun ix => [nth 0 ix 0; flat (tl ix) ds]) [n; prod ds] (n :: ds) (wsum m xw (triples q)) m m' Srw Sr Hr) as W. eapply cgains_ext; [|apply W; [|exact G]].
  - intros ix Hix. inversion Hix as [|i ? jx ? Hi Hj]; subst. cbn [nth tl]. unfold wsum, mask_sum. apply rsum_ext. intros t Ht. cbn [nth tl]. destruct (fst (fst t) =? i) eqn:Ei; [|reflexivity]. f_equal.
    unfold within in Wn. rewrite Forall_forall in Wn. destruct (Wn t Ht) as [_ Hjt]. apply (celem_shows m xw x _ [nx; prod ds] _ _ Sxw Hx).
    + apply in_range_2; [assumption|now apply flat_range].
    + intros k Hk. cbn [app nth]. now rewrite undo_flat.
  - intros ix Hix. inversion Hix as [|i ? jx ? Hi Hj]; subst. cbn [nth tl]. split; [apply in_range_2; [assumption|now apply flat_range]|]. intros k Hk. cbn [app nth]. now rewrite undo_flat.
Qed.

Lemma shows_trans u v w f g : shows u v f -> shows v w g -> shows u w (fun ix => g (f ix)).
Proof. intros A B ix Hix. destruct (A ix Hix) as [H1 E1], (B _ H1) as [H2 E2]. split; [exact H2|congruence]. Qed.
Lemma shows_ext u v f g : shows u v f -> (forall ix, in_range ix (vdims u) -> f ix = g ix) -> shows u v g.
Proof. intros A E ix Hix. rewrite <- E by assumption. now apply A. Qed.
Lemma undo2 b c t : 0 <= b -> 0 <= c -> 0 <= t < b * c -> undo [b; c] t = [t / c; t mod c].
Proof.
  intros Hb Hc Ht. destruct (fuse_at t b c Hb Hc Ht) as (A & B & E). assert (N : nonneg [b; c]) by (repeat constructor; lia).
  transitivity (undo [b; c] (flat [t / c; t mod c] [b; c])); [|apply undo_flat; [exact N|now apply in_range_2]]. f_equal. cbn [flat]. rewrite !prod_cons, prod_nil. lia.
Qed.
Lemma undo3 b c d t : 0 <= b -> 0 <= c -> 0 <= d -> 0 <= t < b * (c * d) -> undo [b; c; d] t = [t / (c * d); (t mod (c * d)) / d; (t mod (c * d)) mod d].
Proof.
  intros Hb Hc Hd Ht. destruct (fuse_at t b (c * d) Hb ltac:(nia) Ht) as (A & B & E). destruct (fuse_at _ c d Hc Hd B) as (A' & B' & E'). assert (N : nonneg [b; c; d]) by (repeat constructor; lia).
  transitivity (undo [b; c; d] (flat [t / (c * d); (t mod (c * d)) / d; (t mod (c * d)) mod d] [b; c; d])); [|apply undo_flat; [exact N|repeat constructor; lia]]. f_equal. cbn [flat]. rewrite !prod_cons, prod_nil. lia.
Qed.
Lemma cshape_nonneg v ds : cshape v ds -> nonneg ds.
Proof. intros [[_ N] E]. rewrite E in N. apply Forall_app in N. tauto. Qed.
Lemma fused3 v a b c : cshape v [a; b; c] -> sd v 1 = c * sd v 2 -> fused (cv3_fuse12 v) v a [b; c] (prod [b; c]).
Proof.
  intros S E. destruct (proj2 (cfuse3 v a b c S) E) as [S1 H]. pose proof (cshape_nonneg v _ S) as N. inversion N as [|? ? Ha N1]; subst. inversion N1 as [|? ? Hb N2]; subst. inversion N2 as [|? ? Hc _]; subst.
  assert (P : prod [b; c] = b * c) by (rewrite !prod_cons, prod_nil; ring). unfold fused. rewrite P. split; [exact S1|]. eapply shows_ext; [exact H|]. intros ix Hix. rewrite (proj2 S1) in Hix. apply in_range_3_inv in Hix as (i & t & k & -> & Hi & Ht & Hk).
  cbn [nth]. rewrite undo2 by lia. reflexivity.
Qed.
Lemma fused4 v a b c d : cshape v [a; b; c; d] -> sd v 2 = d * sd v 3 -> sd v 1 = c * sd v 2 -> fused (cv3_fuse12 (cv4_fuse23 v)) v a [b; c; d] (prod [b; c; d]).
Proof.
  intros S E1 E2. destruct (proj1 (proj2 (cfuse4 v a b c d S)) E1) as [S1 H1]. destruct (proj2 (cfuse3 _ a b (c * d) S1)) as [S2 H2].
  { unfold cv4_fuse23, sd in *. cbn [vstr nth]. rewrite E2, E1. ring. }
  pose proof (cshape_nonneg v _ S) as N. inversion N as [|? ? Ha N1]; subst. inversion N1 as [|? ? Hb N2]; subst. inversion N2 as [|? ? Hc N3]; subst. inversion N3 as [|? ? Hdd _]; subst.
  assert (P : prod [b; c; d] = b * (c * d)) by (rewrite !prod_cons, prod_nil; ring). unfold fused. rewrite P. split; [exact S2|]. eapply shows_ext; [eapply shows_trans; eassumption|]. intros ix Hix. rewrite (proj2 S2) in Hix. apply in_range_3_inv in Hix as (i & t & k & -> & Hi & Ht & Hk).
  cbn [nth]. rewrite undo3 by lia. reflexivity.
Qed.
Lemma fusedN v d ds : cshape v (d :: ds) -> evenly v (d :: ds) -> exists w, cfuse0X v = Ok w /\ fused w v d ds (prod ds).
Proof.
  intros S (s & Hs & E). pose proof (cshape_nonneg v _ S) as N. destruct S as [[L Nv] D]. destruct v as [b o vd vs]. cbn [vdims vstr vblk voff] in *. subst vd.
  assert (Vs : vs = strides_of s (d :: ds) ++ [last vs 0]). { rewrite <- E. apply app_removelast_last. intro; subst; rewrite app_length in L; cbn in L; lia. }
  set (e := last vs 0) in *. clearbody e. subst vs. clear E. inversion N as [|? ? Hd Nds]; subst.
  assert (Hv : forall i t k, 0 <= t < prod ds -> vaddr (View b o ((d :: ds) ++ [2]) (strides_of s (d :: ds) ++ [e])) (i :: undo ds t ++ [k]) = Ok (b, o + (s * prod ds * i + s * t + e * k))).
  { intros i t k Ht. destruct (undo_ok ds t Nds Ht) as [Ut Ft]. pose proof (in_range_length _ _ Ut) as Lu. unfold vaddr, offs. cbn [vstr vblk voff]. rewrite strides_of_cons. cbn [app length]. rewrite !app_length, strides_of_length, Lu. cbn [length]. rewrite Nat.leb_refl. cbn [assrt bind dot].
    rewrite Proofs_Block3.dot_app by (rewrite strides_of_length; lia). rewrite dot_strides_of by lia. rewrite Ft. cbn [dot]. do 2 f_equal. lia. }
  unfold cfuse0X. cbn [vdims vstr vblk voff]. rewrite !removelast_last. unfold coffs. cbn [vstr]. rewrite last_last.
  destruct ds as [|d1 ds].
  - change (strides_of s [d]) with [s]. change (zget [s] 0) with (@Ok Z s). cbn [bind]. eexists. split; [reflexivity|]. split.
    + split; [split; [reflexivity|cbn; repeat constructor; lia]|reflexivity].
    + intros ix Hix. apply in_range_3_inv in Hix as (i & t & k & -> & Hi & Ht & Hk). cbn [nth]. rewrite Hv by exact Ht. cbn [vdims]. assert (t = 0) by lia. subst t. split; [constructor; [exact Hi|]; constructor; [exact Hk|constructor]|]. unfold vaddr, offs. cbn [vstr vblk voff length Nat.leb assrt bind dot]. do 2 f_equal. change (prod []) with 1. lia.
  - destruct Hs as [Hs|Hs]; [|discriminate]. rewrite strides_of_last. rewrite (strides_of_cons s d) in *. change (zget (s * prod (d1 :: ds) :: strides_of s (d1 :: ds)) 0) with (@Ok Z (s * prod (d1 :: ds))). cbn [bind]. replace (s =? 0) with false by lia.
    rewrite (Z.mul_comm s (prod (d1 :: ds))) in *. rewrite Z.quot_mul by assumption. eexists. split; [reflexivity|]. pose proof (prod_nonneg _ Nds) as Np. split.
    + split; [split; [reflexivity|cbn [vdims]; repeat constructor; lia]|reflexivity].
    + intros ix Hix. apply in_range_3_inv in Hix as (i & t & k & -> & Hi & Ht & Hk). cbn [nth]. rewrite Hv by exact Ht. destruct (undo_ok _ t Nds Ht) as [Ut _]. split.
      * cbn [vdims]. change ((d :: d1 :: ds) ++ [2]) with (d :: ((d1 :: ds) ++ [2])). constructor; [assumption|]. now apply in_range_snoc.
      * unfold vaddr, offs. cbn [vstr vblk voff length Nat.leb assrt bind dot]. do 2 f_equal. lia.
Qed.

(* ---- histories *)
Lemma grown_made ts q : grown ts q -> made ts q.
Proof. induction 1; now constructor. Qed.
Lemma inverse_keeps q : rm_lists (snd (rm_inverse q)) = rm_lists q /\ rm_N (snd (rm_inverse q)) = rm_N q /\ rm_M (snd (rm_inverse q)) = rm_M q.
Proof. unfold rm_inverse. destruct (rm_inv q), (rm_cur q); now repeat split. Qed.
Lemma made_cache ts q : made ts q -> rm_cur q = true -> rm_inv q = Some (rm_make_inverse q).
Proof.
  induction 1 as [| |ts q M IH| |]; intro E; try discriminate. unfold rm_inverse in *. destruct (rm_inv q) eqn:I, (rm_cur q) eqn:Cu; cbn [snd rm_cur rm_inv] in *; try reflexivity. rewrite I. now apply IH.
Qed.
Lemma made_inverse ts q : made ts q -> fst (rm_inverse q) = rm_make_inverse q.
Proof. intro M. unfold rm_inverse. destruct (rm_inv q) eqn:I, (rm_cur q) eqn:Cu; cbn [fst]; try reflexivity. pose proof (made_cache ts q M Cu). congruence. Qed.
Lemma made_triples ts q : made ts q -> Permutation (triples q) ts /\ StronglySorted Z.lt (keys (rm_lists q)) /\
  forall i, row (rm_lists q) i = map (fun t => (snd (fst t), snd t)) (filter (fun t => fst (fst t) =? i) ts).
Proof.
  induction 1 as [|ts q i j v M (P & S & Rw)|ts q M IH|ts q M IH|ts q M IH].
  - split; [reflexivity|]. split; [constructor|reflexivity].
  - split; [|split].
    + unfold triples. cbn [rm_lists rm_push]. rewrite lpush_triples. cbn [fst snd]. fold (triples q). rewrite P. apply Permutation_cons_append.
    + cbn [rm_lists rm_push]. now apply lpush_sorted.
    + intro k. cbn [rm_lists rm_push]. rewrite lpush_row by assumption. rewrite filter_app, map_app. cbn [filter fst snd]. rewrite (Z.eqb_sym i k). destruct (k =? i) eqn:E; cbn [map app fst snd]; [apply Z.eqb_eq in E; subst; now rewrite Rw|now rewrite app_nil_r, Rw].
  - unfold triples. rewrite (proj1 (inverse_keeps q)). exact IH.
  - exact IH.
  - exact IH.
Qed.
Lemma pushes_grown us ts q : grown ts q -> grown (ts ++ us) (pushes us q).
Proof.
  revert ts q. induction us as [|[[i j] v] us IH]; intros ts q G; [now rewrite app_nil_r|]. cbn [pushes fold_left fst snd]. replace (ts ++ (i, j, v) :: us) with ((ts ++ [(i, j, v)]) ++ us) by now rewrite <- app_assoc. apply IH. now constructor.
Qed.
Lemma inverse_grown ts q : made ts q -> grown (map swap (triples q)) (fst (rm_inverse q)).
Proof. intro M. rewrite (made_inverse ts q M), make_inverse_pushes. apply (pushes_grown _ [] rm_new). constructor. Qed.
Lemma grown_bounds ts q : grown ts q -> least (rm_N q) (map (fun t => fst (fst t)) ts) /\ least (rm_M q) (map (fun t => snd (fst t)) ts).
Proof.
  unfold least. induction 1 as [|ts q i j v M IH|ts q M IH].
  - cbn. repeat split; try lia; try (intros ? []); now left.
  - destruct IH as [(A & B & D) (A' & B' & D')]. rewrite !map_app. cbn [map fst snd rm_N rm_M rm_push]. split.
    + destruct (rm_N q <=? i) eqn:E.
      * split; [intros k Hk; apply in_app_or in Hk as [Hk|[<-|[]]]; [specialize (A k Hk); lia|lia]|]. split; [lia|]. right. apply in_or_app. right. left. lia.
      * split; [intros k Hk; apply in_app_or in Hk as [Hk|[<-|[]]]; [now apply A|lia]|]. split; [lia|]. destruct D as [D|D]; [now left|right; apply in_or_app; now left].
    + destruct (rm_M q <=? j) eqn:E.
      * split; [intros k Hk; apply in_app_or in Hk as [Hk|[<-|[]]]; [specialize (A' k Hk); lia|lia]|]. split; [lia|]. right. apply in_or_app. right. left. lia.
      * split; [intros k Hk; apply in_app_or in Hk as [Hk|[<-|[]]]; [now apply A'|lia]|]. split; [lia|]. destruct D' as [D'|D']; [now left|right; apply in_or_app; now left].
  - destruct (inverse_keeps q) as (_ & -> & ->). exact IH.
Qed.
Lemma mask_sum_perm m x ts us ix : Permutation ts us -> mask_sum m x ts ix = mask_sum m x us ix.
Proof. intro P. unfold mask_sum. apply rsum_perm. now apply Permutation_map. Qed.
Lemma within_perm n nx ts us : Permutation ts us -> within n nx ts -> within n nx us.
Proof. intros P W. unfold within in *. rewrite Forall_forall in *. intros t Ht. apply W. eapply Permutation_in; [symmetry; exact P|exact Ht]. Qed.
End Agg.
