(* Proofs_HView.v -- slices, fusions and blocks of views of any rank. *)
From Verif Require Import Base BaseFacts Model_Index Model_View Model_Tensor Model_Ops Model_RView Model_Gtensor Model_HView Spec_Index Spec_View Spec_Tensor Spec_RView Spec_HView
  Proofs_Axes Proofs_Index Proofs_View Proofs_Ltensor Proofs_Tensor Proofs_Tensor2 Proofs_Tensor3 Proofs_Convolve2 Proofs_Ops2 Proofs_Ops3 Proofs_RView Proofs_RView2 Proofs_RView3 Proofs_RView5 Proofs_RView6 Proofs_Block3.
Local Open Scope Z_scope.

Lemma but_del d (l : list Z) : but d l = del d l.
Proof. unfold but. revert d. induction l as [|a l IH]; intros [|d]; cbn [firstn skipn app del]; try reflexivity. now rewrite <- IH. Qed.
Lemma cut1 {A} (l : list A) d : (d < length l)%nat -> exists l1 p l2, l = l1 ++ p :: l2 /\ length l1 = d.
Proof.
  intro H. destruct (skipn d l) as [|p l2] eqn:E; [apply (f_equal (@length A)) in E; rewrite skipn_length in E; cbn in E; lia|].
  exists (firstn d l), p, l2. rewrite <- E, firstn_skipn. split; [reflexivity|]. rewrite firstn_length. lia.
Qed.
Lemma cut2 {A} (l : list A) d : (S d < length l)%nat -> exists l1 p q l2, l = l1 ++ p :: q :: l2 /\ length l1 = d.
Proof.
  intro H. destruct (cut1 l d) as (l1 & p & l2 & -> & L); [lia|]. rewrite app_length in H. cbn in H. destruct l2 as [|q l2]; [cbn in H; lia|]. now exists l1, p, q, l2.
Qed.
Lemma firstn_at {A} (l1 l2 : list A) d : length l1 = d -> firstn d (l1 ++ l2) = l1.
Proof. intros <-. rewrite firstn_app, Nat.sub_diag, firstn_all. cbn. now rewrite app_nil_r. Qed.
Lemma skipn_at {A} (l1 l2 : list A) d k : length l1 = d -> skipn (k + d) (l1 ++ l2) = skipn k l2.
Proof. intros <-. rewrite skipn_app, skipn_all2 by lia. cbn. f_equal. lia. Qed.
Lemma nth_at {A} (l1 l2 : list A) d k x : length l1 = d -> nth (k + d) (l1 ++ l2) x = nth k l2 x.
Proof. intros <-. rewrite app_nth2 by lia. f_equal. lia. Qed.
Lemma cut_in l1 l2 ix d : in_range ix (l1 ++ l2) -> length l1 = d -> exists j1 j2, ix = j1 ++ j2 /\ in_range j1 l1 /\ in_range j2 l2 /\ length j1 = d.
Proof.
  intros H L. destruct (in_range_app_e _ _ _ H) as (j1 & j2 & -> & A & B). exists j1, j2. repeat split; try assumption. rewrite <- L. now apply in_range_length.
Qed.
Lemma cut_cons n l ix : in_range ix (n :: l) -> exists i jx, ix = i :: jx /\ 0 <= i < n /\ in_range jx l.
Proof. intro H. inversion H; subst. eauto. Qed.

(* ---- slices ---- *)
Lemma slice_shows d v p : vwf v -> (d < length (vdims v))%nat -> 0 <= p < nth d (vdims v) 0 ->
  vwf (hv_slice d v p) /\ vdims (hv_slice d v p) = del d (vdims v) /\ shows (hv_slice d v p) v (ins d p).
Proof.
  intros [Ws Wn] Hd Hp. unfold hv_slice. rewrite !but_del. cbn [vdims]. assert (W : vwf (View (vblk v) (voff v + p * sd v d) (del d (vdims v)) (del d (vstr v)))).
  { split; cbn [vdims vstr]; [rewrite !del_length by lia; lia|]. now apply nonneg_del. }
  split; [exact W|]. split; [reflexivity|]. intros ix Hix. cbn [vdims] in Hix. pose proof (in_range_ins_del d p ix (vdims v) Hd Hix Hp) as I. split; [exact I|].
  rewrite (vaddr_in_range _ ix W Hix), (vaddr_in_range v _ (conj Ws Wn) I). cbn [vblk voff vstr]. rewrite dot_ins_r by (rewrite ?(in_range_length _ _ Hix), ?del_length; lia). unfold sd. do 2 f_equal. lia.
Qed.
Lemma del_del d e (l : list Z) : (d < e)%nat -> but d (but e l) = del d (del e l).
Proof. intros _. now rewrite !but_del. Qed.
Lemma slice2_as d e v i j : (d < e)%nat -> (e < length (vstr v))%nat -> hv_slice2 d e v i j = hv_slice d (hv_slice e v j) i.
Proof.
  intros H L. unfold hv_slice2, hv_slice. cbn [vblk voff vdims vstr]. f_equal. unfold sd. cbn [vstr]. rewrite but_del, nth_del. apply Nat.ltb_lt in H as ->. lia.
Qed.
Lemma slice2_shows d e v i j : vwf v -> (d < e)%nat -> (e < length (vdims v))%nat -> 0 <= i < nth d (vdims v) 0 -> 0 <= j < nth e (vdims v) 0 ->
  vwf (hv_slice2 d e v i j) /\ vdims (hv_slice2 d e v i j) = del d (del e (vdims v)) /\ shows (hv_slice2 d e v i j) v (fun ix => ins e j (ins d i ix)).
Proof.
  intros W Hde He Hi Hj. rewrite slice2_as by (destruct W; lia). destruct (slice_shows e v j W He Hj) as (W1 & D1 & S1).
  destruct (slice_shows d (hv_slice e v j) i W1) as (W2 & D2 & S2); [rewrite D1, del_length by lia; lia|rewrite D1, nth_del; apply Nat.ltb_lt in Hde as ->; exact Hi|].
  split; [exact W2|]. split; [now rewrite D2, D1|]. intros ix Hix. destruct (S2 ix Hix) as [I2 E2]. destruct (S1 _ I2) as [I1 E1]. split; [exact I1|]. now rewrite E2.
Qed.

(* ---- fusing two axes ---- *)
Lemma fuse_shape d v : vwf v -> (S d < length (vdims v))%nat -> exists l1 p q l2 t1 s t t2,
  vdims v = l1 ++ p :: q :: l2 /\ vstr v = t1 ++ s :: t :: t2 /\ length l1 = d /\ length t1 = d /\ length l2 = length t2 /\ 0 <= p /\ 0 <= q /\ nonneg l1 /\ nonneg l2 /\
  hv_fuse d v = View (vblk v) (voff v) (l1 ++ p * q :: l2) (t1 ++ t :: t2).
Proof.
  intros [Ws Wn] H. destruct (cut2 (vdims v) d H) as (l1 & p & q & l2 & D & L). destruct (cut2 (vstr v) d) as (t1 & s & t & t2 & T & M); [lia|].
  exists l1, p, q, l2, t1, s, t, t2. rewrite D in Wn. apply nonneg_app in Wn as [N1 N2]. inversion N2 as [|? ? Np N3]; subst. inversion N3 as [|? ? Nq N4]; subst.
  assert (Lt : length l2 = length t2) by (rewrite D, T, !app_length in Ws; cbn in Ws; lia). repeat split; try assumption.
  unfold hv_fuse, nd, sd, but. rewrite D, T. f_equal.
  - rewrite firstn_at by reflexivity. f_equal. rewrite (nth_at l1 _ (length l1) 0), (nth_at l1 _ (length l1) 1), (skipn_at l1 _ (length l1) 2) by reflexivity. reflexivity.
  - rewrite firstn_at by assumption. f_equal. rewrite <- M. now rewrite (skipn_at t1 _ (length t1) 1).
Qed.
Lemma fused_at d q j1 a b j2 : length j1 = d -> fused d q (j1 ++ a :: b :: j2) = j1 ++ a * q + b :: j2.
Proof.
  intro L. unfold fused. rewrite firstn_at by assumption. rewrite (nth_at j1 _ d 0), (nth_at j1 _ d 1), (skipn_at j1 _ d 2) by assumption. reflexivity.
Qed.
Lemma unfused_at d q j1 c j2 : length j1 = d -> unfused d q (j1 ++ c :: j2) = j1 ++ c / q :: c mod q :: j2.
Proof.
  intro L. unfold unfused. rewrite firstn_at by assumption. rewrite (nth_at j1 _ d 0), (skipn_at j1 _ d 1) by assumption. reflexivity.
Qed.
Lemma split_pos c p q : 0 <= c < p * q -> 0 <= p -> 0 <= q -> 0 <= c / q < p /\ 0 <= c mod q < q.
Proof. intros H Hp Hq. assert (0 < q) by nia. split; [split; [apply Z.div_pos; lia|apply Z.div_lt_upper_bound; lia]|now apply Z.mod_pos_bound]. Qed.
Lemma fuse_shows d v : vwf v -> (S d < length (vdims v))%nat -> joined v d ->
  let q := nth (S d) (vdims v) 0 in
  vwf (hv_fuse d v) /\ vdims (hv_fuse d v) = firstn d (vdims v) ++ (nth d (vdims v) 0 * q) :: skipn (S (S d)) (vdims v) /\
  shows (hv_fuse d v) v (unfused d q) /\
  forall ix, in_range ix (vdims v) -> in_range (fused d q ix) (vdims (hv_fuse d v)) /\ unfused d q (fused d q ix) = ix.
Proof.
  intros W H J q. destruct (fuse_shape d v W H) as (l1 & p & q' & l2 & t1 & s & t & t2 & D & T & L & M & Lt & Np & Nq & N1 & N2 & E). unfold joined in J. rewrite D, T in J.
  rewrite (nth_at t1 _ d 0), (nth_at t1 _ d 1), (nth_at l1 _ d 1) in J by assumption. cbn [nth] in J.
  assert (Eq : q = q') by (unfold q; rewrite D, (nth_at l1 _ d 1) by assumption; reflexivity). rewrite Eq in *. clear q Eq. rewrite E. cbn [vdims].
  assert (Wf : vwf (View (vblk v) (voff v) (l1 ++ p * q' :: l2) (t1 ++ t :: t2))).
  { split; cbn [vdims vstr]; [rewrite !app_length; cbn; lia|]. apply nonneg_app. split; [assumption|]. constructor; [nia|assumption]. }
  split; [exact Wf|]. split; [rewrite D, firstn_at, (nth_at l1 _ d 0), (skipn_at l1 _ d 2) by assumption; reflexivity|]. split.
  - intros ix Hix. cbn [vdims] in Hix. destruct (cut_in _ _ _ d Hix L) as (j1 & j2 & -> & A & B & K). apply cut_cons in B as (c & j3 & -> & Hc & B). rewrite unfused_at by assumption.
    destruct (split_pos c p q' Hc Np Nq) as [H1 H2].
    assert (I : in_range (j1 ++ c / q' :: c mod q' :: j3) (vdims v)). { rewrite D. apply in_range_app_i; [assumption|]. apply in_range_cons. split; [assumption|]. apply in_range_cons. now split. }
    split; [exact I|]. rewrite (vaddr_in_range _ _ Wf Hix), (vaddr_in_range _ _ W I). cbn [vblk voff vstr]. rewrite T, !dot_app by congruence. cbn [dot]. do 2 f_equal. rewrite J.
    pose proof (Z.div_mod c q' ltac:(nia)) as Q. rewrite Q at 1. ring.
  - intros ix Hix. rewrite D in Hix. destruct (cut_in _ _ _ d Hix L) as (j1 & j2 & -> & A & B & K). apply cut_cons in B as (a & j3 & -> & Ha & B). apply cut_cons in B as (b & j4 & -> & Hb & B).
    rewrite fused_at, unfused_at by assumption. destruct (dm_at q' a b Hb) as [-> ->]. split; [|reflexivity]. apply in_range_app_i; [assumption|]. apply in_range_cons. split; [nia|assumption].
Qed.
(* axes that do not follow each other: element (1,0) of the two axes is not element n_(d+1) of the fused one *)
Lemma fuse_apart d v ix : vwf v -> (S d < length (vdims v))%nat -> ~ joined v d -> in_range ix (vdims v) -> nth d ix 0 = 1 -> nth (S d) ix 0 = 0 ->
  vaddr (hv_fuse d v) (fused d (nth (S d) (vdims v) 0) ix) <> vaddr v ix.
Proof.
  intros W H J Hix I0 I1. destruct (fuse_shape d v W H) as (l1 & p & q & l2 & t1 & s & t & t2 & D & T & L & M & Lt & Np & Nq & N1 & N2 & E). unfold joined in J. rewrite D, T in J.
  rewrite (nth_at t1 _ d 0), (nth_at t1 _ d 1), (nth_at l1 _ d 1) in J by assumption. cbn [nth] in J. rewrite (vaddr_in_range v ix W Hix). rewrite D in Hix |- *. rewrite (nth_at l1 _ d 1) by assumption. cbn [nth].
  destruct (cut_in _ _ _ d Hix L) as (j1 & j2 & -> & A & B & K). apply cut_cons in B as (a & j3 & -> & Ha & B). apply cut_cons in B as (b & j4 & -> & Hb & B).
  rewrite (nth_at j1 _ d 0) in I0 by assumption. rewrite (nth_at j1 _ d 1) in I1 by assumption. cbn [nth] in I0, I1. subst a b.
  rewrite fused_at by assumption. rewrite E. rewrite vaddr_ok by (cbn [vstr]; rewrite !app_length; cbn; apply in_range_length in B; lia). cbn [vblk voff vstr]. rewrite T, !dot_app by congruence. cbn [dot].
  intro Q. apply J. assert (Q2 : forall a b c : Z, Ok (vblk v, a) = Ok (vblk v, b) -> a = b) by (intros; congruence). apply Q2 in Q; [nia|exact 0].
Qed.

(* ---- blocks ---- *)
Lemma block_off (i s : list Z) o : fold_left (fun o p => o + fst p * snd p) (combine i s) o = o + dot s i.
Proof.
  revert s o. induction i as [|a i IH]; intros [|b s] o; cbn [combine fold_left dot]; try lia. rewrite IH. cbn [fst snd]. lia.
Qed.
Lemma dot_shift s : forall i ix, length i = length s -> length ix = length s -> dot s (shifted i ix) = dot s i + dot s ix.
Proof.
  unfold shifted. induction s as [|a s IH]; intros [|b i] [|c ix] L1 L2; try discriminate; [reflexivity|]. cbn [combine map dot fst snd]. rewrite IH by (cbn in *; lia). ring.
Qed.
Lemma block_shows v i n : vwf v -> length i = length (vdims v) -> length n = length (vdims v) -> nonneg i -> nonneg n ->
  (forall k, (k < length (vdims v))%nat -> nth k i 0 + nth k n 0 <= nth k (vdims v) 0) ->
  vwf (hv_block v i n) /\ vdims (hv_block v i n) = n /\ shows (hv_block v i n) v (shifted i).
Proof.
  intros [Ws Wn] Li Ln Ni Nn H. assert (Wb : vwf (hv_block v i n)) by (split; [cbn; congruence|exact Nn]). split; [exact Wb|]. split; [reflexivity|]. intros ix Hix. cbn [vdims hv_block] in Hix.
  assert (I : in_range (shifted i ix) (vdims v)).
  { clear Ws Wb. unfold shifted. revert i n ix Li Ln Ni Nn H Hix Wn. generalize (vdims v). intro l. induction l as [|x l IH]; intros [|a i] [|b n] ix Li Ln Ni Nn H Hix Wn; try discriminate.
    - inversion Hix. constructor.
    - apply cut_cons in Hix as (c & jx & -> & Hc & Hj). cbn [combine map fst snd]. inversion Ni; subst. inversion Nn; subst. inversion Wn; subst. constructor.
      + specialize (H 0%nat ltac:(cbn; lia)). cbn in H. lia.
      + apply (IH i n); try assumption; try (cbn in *; lia). intros k Hk. apply (H (S k)). cbn. lia. }
  split; [exact I|]. rewrite (vaddr_in_range _ _ Wb Hix), (vaddr_in_range v _ (conj Ws Wn) I). cbn [vblk voff vstr hv_block]. rewrite block_off, dot_shift; [do 2 f_equal; lia|congruence|].
  apply in_range_length in Hix. congruence.
Qed.
