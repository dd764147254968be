(* Proofs_Ltensor3.v -- construction and index manipulations of labelled tensors. *)
From Verif Require Import Base BaseFacts Model_Index Model_View Model_Tensor Model_Ops Model_RView Model_Ltensor Spec_Index Spec_View Spec_Tensor
  Proofs_Axes Proofs_Index Proofs_View Proofs_View2 Proofs_Tensor Proofs_Tensor2 Proofs_Tensor3 Spec_Ltensor Proofs_Ltensor Proofs_Ltensor2.
Local Open Scope Z_scope.

Lemma spec_of_ok x B g c : lshape x B g c -> spec_of (vdims (lview x)) (llab x) = Ok (LS match B with Some b => b | None => 0 end g c).
Proof.
  intros S. pose proof (gdims_ok _ _ _ _ S) as G. pose proof (cdims_ok _ _ _ _ S) as C. unfold gdims, cdims, dl_grid, dl_cell in G, C.
  unfold spec_of. rewrite G, C. destruct S as (_ & D & -> & _). destruct B; rewrite ?D; reflexivity.
Qed.
Lemma lt_spec_ok b s : 0 <= sbatch s -> nonneg (sgrid s) -> nonneg (sdims s) ->
  lshape (lt_spec b s) (if 0 <? sbatch s then Some (sbatch s) else None) (sgrid s) (sdims s) /\ vblk (lview (lt_spec b s)) = b.
Proof.
  intros H G D. unfold lt_spec, lt_labelled, spec_dims, spec_labels. split; [|reflexivity]. split; [|split; [|split]]; cbn.
  - apply fresh_wf. apply nonneg_app. split; [destruct (0 <? sbatch s) eqn:E; repeat constructor; lia|]. apply nonneg_app. auto.
  - now destruct (0 <? sbatch s).
  - now destruct (0 <? sbatch s).
  - reflexivity.
Qed.
Lemma lt_bg_ok blk b g d : 0 < b -> nonneg g -> nonneg d -> lshape (lt_bg blk b g d) (Some b) g d.
Proof.
  intros H G D. unfold lt_bg, bgdims. split; [|split; [|split]]; cbn; [|reflexivity| |reflexivity].
  - apply fresh_wf. constructor; [lia|]. now apply nonneg_app.
  - now replace (b =? 0) with false by lia.
Qed.
Lemma lt_b_ok blk b d : 0 < b -> nonneg d -> lshape (lt_b blk b d) (Some b) [] d.
Proof.
  intros H D. unfold lt_b, bdims. split; [|split; [|split]]; cbn; [|reflexivity| |reflexivity].
  - apply fresh_wf. constructor; [lia|assumption].
  - now replace (b =? 0) with false by lia.
Qed.

Lemma new_mem_ok {V} (zero one : V) of_int rnd junk fcode b dims (m : mem V) ix : nonneg dims -> in_range ix dims ->
  elem (new_mem zero one of_int rnd junk fcode b (asize dims) m) (fresh_view b dims) ix = Some (new_cell zero one of_int rnd junk fcode (flat ix dims)).
Proof.
  intros N H. unfold elem. rewrite vaddr_in_range by (try assumption; now apply fresh_wf). cbn [vblk voff vstr fresh_view]. rewrite dot_strides_of by (now apply in_range_length).
  unfold new_mem. rewrite Z.eqb_refl. pose proof (flat_range _ _ H) as F. rewrite asize_prod. replace (_ && _) with true by lia. do 2 f_equal. lia.
Qed.
Lemma copy_lt_ok {V} (z : V) b x (m : mem V) B g c : lshape x B g c -> readable m (lview x) ->
  Forall (fun s => s < INT_MAX) (strides_of 1 (vdims (lview x))) -> (forall a, m b a = None) ->
  exists r m', lt_copy z b x m = Ok (r, m') /\ lshape r B g c /\
    (forall ix, in_range ix (vdims (lview x)) -> elem m' (lview r) ix = elem m (lview x) ix) /\
    disjoint_views (lview r) (lview x) /\ (forall b' a, b' <> b -> m' b' a = m b' a).
Proof.
  intros Sh Rx Hs Hb. pose proof Sh as (W & D & L1 & L2). destruct (copy_ok z b (lview x) m W Rx Hs Hb) as (r & m' & E & Dr & El & Dj & _ & U).
  unfold tv_copy in E. unfold lt_copy. apply bind_ok in E as (m2 & Em & E). injection E as <- <-. rewrite Em. cbn [bind]. exists (LT (fresh_view b (vdims (lview x))) (llab x)), m2. split; [reflexivity|].
  split; [|now repeat split]. split; [apply fresh_wf; apply W|]. split; [exact D|]. now split.
Qed.

(* ---- columns ---- *)
Lemma last_split (l : list Z) p d : l = p ++ [d] -> last l 0 = d /\ Z.of_nat (length l) - 1 = Z.of_nat (length p).
Proof. intros ->. rewrite last_last, app_length. cbn. split; [reflexivity|lia]. Qed.
Lemma str_last v p d : vwf v -> vdims v = p ++ [d] -> exists sp s, vstr v = sp ++ [s] /\ length sp = length p.
Proof.
  intros [L _] D. rewrite D, app_length in L. cbn in L. destruct (bg_last (vstr v)) as (sp & s & E); [destruct (vstr v); cbn in *; [lia|discriminate]|].
  exists sp, s. split; [exact E|]. rewrite E, app_length in L. cbn in L. lia.
Qed.
Lemma lt_col_ok x p d i : vwf (lview x) -> vdims (lview x) = p ++ [d] -> 0 <= i < d ->
  exists y, lt_col i x = Ok y /\ vdims (lview y) = p /\ vwf (lview y) /\ vblk (lview y) = vblk (lview x) /\ shows (lview y) (lview x) (fun ix => ix ++ [i]).
Proof.
  intros W D Hi. destruct (str_last _ _ _ W D) as (sp & s & E & L). unfold lt_col, ndims. destruct (last_split _ _ _ D) as [L1 L2]. destruct (last_split _ _ _ E) as [_ L4]. rewrite L1, L2, L4. pose proof W as [_ N].
  rewrite D, E. replace (0 <? Z.of_nat (length (p ++ [d]))) with true by (rewrite app_length; cbn; lia). replace (i <? d) with true by lia. cbn [assrt].
  rewrite chunk_begin. cbn [bind]. rewrite <- L. rewrite chunk_begin, zget_at. cbn [bind]. eexists. split; [reflexivity|]. cbn [lview plain vdims vblk]. split; [reflexivity|].
  assert (W' : vwf (View (vblk (lview x)) (voff (lview x) + s * i) p sp)) by (split; [exact L|]; rewrite D, nonneg_app in N; apply N).
  split; [exact W'|]. split; [reflexivity|]. apply shows_fix; [assumption|assumption|reflexivity|]. intros jx Hj. cbn [vdims] in Hj. split; [rewrite D; apply in_range_app_i; [assumption|apply in_range1; eauto]|].
  cbn [voff vstr]. rewrite E, dot_app by (rewrite (in_range_length _ _ Hj); congruence). cbn. ring.
Qed.
Lemma lt_cols_ok x p d i n : vwf (lview x) -> vdims (lview x) = p ++ [d] -> 0 <= i -> 0 <= n -> i + n <= d ->
  exists y, lt_cols i n x = Ok y /\ vdims (lview y) = p ++ [n] /\ vwf (lview y) /\ vblk (lview y) = vblk (lview x) /\
    forall ix k, in_range ix p -> 0 <= k < n -> vaddr (lview y) (ix ++ [k]) = vaddr (lview x) (ix ++ [i + k]).
Proof.
  intros W D Hi Hn Hd. destruct (str_last _ _ _ W D) as (sp & s & E & L). unfold lt_cols, ndims. destruct (last_split _ _ _ D) as [L1 L2]. destruct (last_split _ _ _ E) as [_ L4]. rewrite L1, L2, L4. pose proof W as [_ N].
  rewrite D, E. replace (0 <? Z.of_nat (length (p ++ [d]))) with true by (rewrite app_length; cbn; lia). replace (i + n <=? d) with true by lia. cbn [assrt].
  unfold vset. replace (_ || _) with false by (symmetry; rewrite app_length; cbn [length]; apply orb_false_iff; split; lia). rewrite Nat2Z.id.
  assert (Sn : set_nth (length p) n (p ++ [d]) = p ++ [n]) by (clear; induction p; cbn; [reflexivity|now rewrite IHp]). rewrite Sn. cbn [bind]. rewrite zget_at. cbn [bind].
  eexists. split; [reflexivity|]. cbn [lview plain vdims vblk]. split; [reflexivity|].
  assert (W' : vwf (View (vblk (lview x)) (voff (lview x) + s * i) (p ++ [n]) (sp ++ [s]))) by (split; [cbn; rewrite !app_length; cbn; lia|]; rewrite D, nonneg_app in N; apply nonneg_app; split; [apply N|repeat constructor; lia]).
  split; [exact W'|]. split; [reflexivity|]. intros ix k Hx Hk. rewrite !vaddr_in_range; try assumption.
  - cbn [voff vstr vblk]. rewrite E, !dot_app by (rewrite (in_range_length _ _ Hx); congruence). do 2 f_equal. cbn. ring.
  - rewrite D. apply in_range_app_i; [assumption|]. apply in_range1. exists (i + k). split; [reflexivity|lia].
  - apply in_range_app_i; [assumption|]. apply in_range1. eauto.
Qed.
Lemma vinsert_at (p q : list Z) x : vinsert (Z.of_nat (length p)) x (p ++ q) = Ok (p ++ x :: q).
Proof.
  unfold vinsert. replace (_ || _) with false by (symmetry; rewrite app_length; apply orb_false_iff; split; lia).
  now rewrite Nat2Z.id, firstn_app, firstn_all, Nat.sub_diag, firstn_O, app_nil_r, skipn_app, skipn_all, Nat.sub_diag, skipn_O.
Qed.
Lemma lt_unsqueeze_ok x p n q : vwf (lview x) -> vdims (lview x) = p ++ n :: q ->
  exists y, lt_unsqueeze (Z.of_nat (length p)) x = Ok y /\ vdims (lview y) = p ++ 1 :: n :: q /\ vwf (lview y) /\ vblk (lview y) = vblk (lview x) /\
    forall ix jx, in_range ix p -> in_range jx (n :: q) -> in_range (ix ++ 0 :: jx) (vdims (lview y)) /\ vaddr (lview y) (ix ++ 0 :: jx) = vaddr (lview x) (ix ++ jx).
Proof.
  intros W D. pose proof W as [L N]. rewrite D, app_length in L. cbn [length] in L.
  set (sp := firstn (length p) (vstr (lview x))). assert (Ls : length sp = length p) by (unfold sp; rewrite firstn_length; lia).
  destruct (skipn (length p) (vstr (lview x))) as [|s sq] eqn:Es; [apply (f_equal (@length Z)) in Es; rewrite skipn_length in Es; cbn in Es; lia|].
  assert (E : vstr (lview x) = sp ++ s :: sq) by (rewrite <- Es; unfold sp; symmetry; apply firstn_skipn).
  assert (Lq : length sq = length q) by (rewrite E, app_length in L; cbn in L; lia).
  unfold lt_unsqueeze, ndims. rewrite D, E. replace (_ <? _) with true by (rewrite app_length; cbn [length]; lia). cbn [assrt]. rewrite vinsert_at. cbn [bind].
  assert (Zs : zget (sp ++ s :: sq) (Z.of_nat (length p)) = Ok s) by (rewrite <- Ls; apply zget_at). rewrite Zs. cbn [bind].
  assert (Zi : vinsert (Z.of_nat (length p)) s (sp ++ s :: sq) = Ok (sp ++ s :: s :: sq)) by (rewrite <- Ls; apply vinsert_at). rewrite Zi. cbn [bind].
  eexists. split; [reflexivity|]. cbn [lview plain vdims vblk]. split; [reflexivity|]. rewrite D, nonneg_app in N. destruct N as [N1 N2].
  assert (W' : vwf (View (vblk (lview x)) (voff (lview x)) (p ++ 1 :: n :: q) (sp ++ s :: s :: sq))) by (split; [cbn; rewrite !app_length; cbn; lia|]; cbn; apply nonneg_app; split; [assumption|constructor; [lia|assumption]]).
  split; [exact W'|]. split; [reflexivity|]. intros ix jx Hi Hj. assert (Hr : in_range (ix ++ 0 :: jx) (p ++ 1 :: n :: q)) by (apply in_range_app_i; [assumption|constructor; [lia|assumption]]).
  split; [exact Hr|]. rewrite !vaddr_in_range; try assumption; [|rewrite D; now apply in_range_app_i]. cbn [voff vstr vblk]. rewrite E, !dot_app by (rewrite (in_range_length _ _ Hi); congruence). cbn [dot]. do 2 f_equal. ring.
Qed.

(* ---- fuse ---- *)
Lemma fuse_pair x p n k q sp s t sq : vwf (lview x) -> vdims (lview x) = p ++ n :: k :: q -> vstr (lview x) = sp ++ s :: t :: sq -> length sp = length p ->
  lt_fuse [Z.of_nat (length p); Z.of_nat (length p) + 1] x = Ok (plain (View (vblk (lview x)) (voff (lview x)) (p ++ n * k :: q) (sp ++ s :: sq))).
Proof.
  intros W D E L. assert (Lq : length sq = length q) by (destruct W as [L1 _]; rewrite D, E, !app_length in L1; cbn in L1; lia).
  unfold lt_fuse, ndims. rewrite D, E. replace (Z.of_nat (length p) <? _) with true by (rewrite app_length; cbn [length]; lia). cbn [assrt]. rewrite zget_at. cbn [bind]. assert (Zs : zget (sp ++ s :: t :: sq) (Z.of_nat (length p)) = Ok s) by (rewrite <- L; apply zget_at). rewrite Zs. cbn [bind fuse_scan].
  unfold ndims. rewrite D, E. replace (Z.of_nat (length p) + 1 <? _) with true by (rewrite app_length; cbn [length]; lia). cbn [assrt].
  assert (A1 : forall (a b c : Z) (l r : list Z), zget (l ++ a :: b :: r) (Z.of_nat (length l) + 1) = Ok b).
  { intros a b c l r. replace (l ++ a :: b :: r) with ((l ++ [a]) ++ b :: r) by (rewrite <- app_assoc; reflexivity). replace (Z.of_nat (length l) + 1) with (Z.of_nat (length (l ++ [a]))) by (rewrite app_length; cbn; lia). apply zget_at. }
  rewrite (A1 n k 0 p q). cbn [bind]. assert (Zt : zget (sp ++ s :: t :: sq) (Z.of_nat (length p) + 1) = Ok t) by (rewrite <- L; apply (A1 s t 0 sp sq)). rewrite Zt. cbn [bind].
  assert (A2 : forall (a b : Z) (l r : list Z), except (l ++ a :: b :: r) [Z.of_nat (length l) + 1] = Ok (l ++ a :: r)).
  { intros a b l r. unfold except. cbn [except_loop]. rewrite app_length. cbn [length]. replace (_ <? _) with true by lia. cbn [assrt]. cbv zeta. replace (_ <? 0) with false by lia.
    replace (Z.to_nat (Z.of_nat (length l) + 1 - 0)) with (length (l ++ [a])) by (rewrite app_length; cbn; lia). replace (l ++ a :: b :: r) with ((l ++ [a]) ++ b :: r) by (rewrite <- app_assoc; reflexivity).
    rewrite firstn_app, firstn_all, Nat.sub_diag, firstn_O, app_nil_r. rewrite skipn_app, skipn_all2 by lia. replace (S (length (l ++ [a])) - length (l ++ [a]))%nat with 1%nat by lia. cbn [skipn app].
    destruct (Z.of_nat (length l) + 1 + 1 <? _) eqn:Q; [now rewrite <- app_assoc|]. destruct r as [|? ?]; [now rewrite <- app_assoc|]. cbn [length] in Q. lia. }
  rewrite (A2 n k p q). cbn [bind]. unfold vset. replace (_ || _) with false by (symmetry; rewrite app_length; cbn [length]; apply orb_false_iff; split; lia). rewrite Nat2Z.id.
  assert (Sn : set_nth (length p) (n * k) (p ++ n :: q) = p ++ n * k :: q) by (clear; induction p; cbn; [reflexivity|now rewrite IHp]). rewrite Sn. cbn [bind]. rewrite <- L. rewrite (A2 s t sp sq). reflexivity.
Qed.
