(* Proofs_XView.v -- RtensorView and CtensorView *)
From Verif Require Import Base BaseFacts Model_Index Model_View Model_Tensor Model_Groups Model_Shape Model_XView Spec_Index Proofs_Axes Proofs_Index Proofs_View
  Spec_Shape Proofs_Shape Proofs_Shape2 Proofs_Shape3 Proofs_Shape4 Spec_XView.
Local Open Scope Z_scope.

(* ---- the checks *)
Lemma in_range_zget ix d k : in_range ix d -> 0 <= k < zlen ix -> exists i n, zget ix k = Ok i /\ zget d k = Ok n /\ 0 <= i < n.
Proof.
  intro I. revert k. induction I as [|i n ix d Hi I IH]; intros k K; [cbn in K; lia|]. cbn [length] in K. destruct (Z.eq_dec k 0) as [->|N].
  - exists i, n. repeat split; auto; lia.
  - destruct (IH (k - 1)) as (a & b & A & B & C); [lia|]. exists a, b. replace k with (Z.succ (k - 1)) by lia. rewrite !zget_cons by lia. repeat split; auto; lia.
Qed.
Lemma check_pass rc d ix : in_range ix (firstn (length ix) d) -> xv_check rc d ix = Ok tt.
Proof.
  intro I. unfold xv_check. destruct rc; [|reflexivity]. cbn [negb].
  replace (existsb (fun i => i <? 0) ix) with false.
  2: { symmetry. apply not_true_iff_false. intro H. apply existsb_exists in H. destruct H as (i & H & N). clear - I H N. revert I; generalize (firstn (length ix) d) as e.
       induction ix as [|x ix IH]; intros e I; [easy|]. inversion I; subst. destruct H as [->|H]; [lia|]. eapply IH; eauto. }
  pose proof (in_range_length _ _ I) as L. rewrite firstn_length in L.
  rewrite (foldM_ext _ (fun _ _ => Ok tt)).
  - generalize (zrange (zlen ix)) as l. induction l as [|a l IH]; [reflexivity|exact IH].
  - intros k s K. apply in_zrange in K. destruct (in_range_zget _ _ k I ltac:(lia)) as (i & n & A & B & C). rewrite A. cbn [bind].
    assert (B' : zget d k = Ok n).
    { revert B. unfold zget, vget. destruct (k <? 0) eqn:F; [lia|]. intro B. rewrite <- (firstn_skipn (length ix) d). rewrite nth_error_app1 by (rewrite firstn_length; lia). exact B. }
    rewrite B'. cbn [bind]. now replace (n <=? i) with false by lia.
Qed.
Lemma check_full rc d ix : in_range ix d -> xv_check rc d ix = Ok tt.
Proof. intro I. apply check_pass. rewrite (in_range_length _ _ I), firstn_all. exact I. Qed.
Lemma check_throw d ix : (length ix <= length d)%nat -> ~ in_range ix (firstn (length ix) d) -> xv_check true d ix = Throw.
Proof.
  intros L N. unfold xv_check. cbn [negb]. destruct (existsb (fun i => i <? 0) ix) eqn:E; [reflexivity|].
  assert (P : nonneg ix). { apply Forall_forall. intros i I. destruct (i <? 0) eqn:F; [|lia]. exfalso. assert (T : existsb (fun i => i <? 0) ix = true) by (apply existsb_exists; eauto). congruence. }
  clear E. assert (G : forall ix d p q, nonneg ix -> length p = length q -> (length ix <= length d)%nat -> ~ in_range ix (firstn (length ix) d) ->
    foldM (fun k _ => do i <- zget (p ++ ix) k; do n <- zget (q ++ d) k; if n <=? i then Throw else Ok tt) (map (Z.add (zlen p)) (zrange (zlen ix))) tt = Throw).
  { clear. induction ix as [|i ix IH]; intros d p q P Q L N; [destruct N; constructor|]. destruct d as [|n d]; [cbn in L; lia|]. inversion P; subst. cbn [length firstn] in *.
    rewrite zrange_cons by lia. cbn [map foldM]. rewrite Z.add_0_r, zget_app. cbn [bind]. rewrite Q, zget_app. cbn [bind]. destruct (n <=? i) eqn:E; [reflexivity|]. cbn [bind].
    rewrite map_map. replace (Z.of_nat (S (length ix)) - 1) with (zlen ix) by lia.
    rewrite (map_ext _ (Z.add (zlen (p ++ [i])))) by (intro; rewrite app_length; cbn [length]; lia).
    specialize (IH d (p ++ [i]) (q ++ [n])). rewrite <- !app_assoc in IH. cbn [app] in IH. apply IH; auto; [rewrite !app_length; cbn; lia|lia|]. intro I. apply N. constructor; [lia|exact I]. }
  specialize (G ix d [] [] P eq_refl L N). cbn [app length Z.of_nat] in G. rewrite (map_ext (Z.add 0) (fun i => i)), map_id in G by (intro; lia). exact G.
Qed.
Lemma check1_pass rc p n r i : (rc = true -> 0 <= i < n) -> xv_check1 rc (p ++ n :: r) (zlen p) i = Ok tt.
Proof. intro H. unfold xv_check1. destruct rc; [|reflexivity]. specialize (H eq_refl). cbn [negb]. ifF. rewrite zget_app. cbn [bind]. now replace (n <=? i) with false by lia. Qed.
Lemma check1_throw p n r i : ~ (0 <= i < n) -> xv_check1 true (p ++ n :: r) (zlen p) i = Throw.
Proof. intro H. unfold xv_check1. cbn [negb]. destruct (i <? 0) eqn:E; [reflexivity|]. rewrite zget_app. cbn [bind]. now replace (n <=? i) with true by lia. Qed.
Lemma least_pass {A} rc n v (k : res A) : 0 <= n -> (rc = true -> n <= zlen (vdims v)) -> xv_least rc n v k = k.
Proof. intros H L. unfold xv_least. destruct rc; [|reflexivity]. specialize (L eq_refl). cbn [andb]. now replace ((n <? 0) || (zlen (vdims v) <? n)) with false by lia. Qed.

(* ---- access *)
Section Real.
Context {R : cring}.
Notation memR := (mem (car R)).
Lemma get_ok rc v ix (m : memR) a : in_range ix (firstn (length ix) (vdims v)) -> (length ix <= length (vstr v))%nat -> m (vblk v) (xcell v ix) = Some a -> xv_get rc v ix m = Ok a.
Proof. intros I L M. unfold xv_get. rewrite check_pass by assumption. cbn [bind]. rewrite gs_offs_ok by assumption. cbn [bind]. unfold load. unfold xcell in M. now rewrite M. Qed.
Lemma upd_replaced {V} (m : mem V) b a x : replaced m b a x (upd m b a x).
Proof.
  split; [unfold upd; now rewrite !Z.eqb_refl|]. intros b' a' H. unfold upd. destruct ((b' =? b) && (a' =? a)) eqn:E; [lia|reflexivity].
Qed.
Lemma set_ok rc v ix (m : memR) a x : in_range ix (firstn (length ix) (vdims v)) -> (length ix <= length (vstr v))%nat -> m (vblk v) (xcell v ix) = Some a ->
  exists m', xv_set rc v ix x m = Ok m' /\ replaced m (vblk v) (xcell v ix) x m'.
Proof. intros I L M. unfold xv_set. rewrite check_pass by assumption. cbn [bind]. rewrite gs_offs_ok by assumption. cbn [bind]. unfold store. unfold xcell in *. rewrite M. eexists. split; [reflexivity|apply upd_replaced]. Qed.
Lemma inc_ok rc v ix (m : memR) a x : in_range ix (firstn (length ix) (vdims v)) -> (length ix <= length (vstr v))%nat -> m (vblk v) (xcell v ix) = Some a ->
  exists m', xv_inc rc v ix x m = Ok m' /\ replaced m (vblk v) (xcell v ix) (cadd a x) m'.
Proof. intros I L M. unfold xv_inc. rewrite check_pass by assumption. cbn [bind]. rewrite gs_offs_ok by assumption. cbn [bind]. unfold load, store. unfold xcell in *. rewrite M. cbn [bind]. eexists. split; [reflexivity|apply upd_replaced]. Qed.
Lemma upd2_replaced {V} (m : mem V) b a a2 x x2 : a <> a2 -> replaced2 m b a a2 x x2 (upd (upd m b a x) b a2 x2).
Proof.
  intro N. unfold upd. split; [|split].
  - rewrite !Z.eqb_refl. replace (a =? a2) with false by lia. reflexivity.
  - now rewrite !Z.eqb_refl.
  - intros b' a' H. destruct ((b' =? b) && (a' =? a2)) eqn:E; [lia|]. destruct ((b' =? b) && (a' =? a)) eqn:F; [lia|reflexivity].
Qed.
Lemma xc_get_ok rc v co ix (m : memR) a b : in_range ix (firstn (length ix) (vdims v)) -> (length ix <= length (vstr v))%nat -> m (vblk v) (xcell v ix) = Some a ->
  m (vblk v) (xcell v ix + co) = Some b -> xc_get rc v co ix m = Ok (a, b).
Proof.
  intros I L M N. unfold xc_get. rewrite check_pass by assumption. cbn [bind]. rewrite gs_offs_ok by assumption. cbn [bind]. unfold load. unfold xcell in *. rewrite M. cbn [bind].
  replace (voff v + co + place (vstr v) ix) with (voff v + place (vstr v) ix + co) by ring. now rewrite N.
Qed.
Lemma check_range_pass ix d : in_range ix d -> check_range ix d = Ok tt.
Proof.
  intro I. unfold check_range. rewrite (in_range_length _ _ I), Nat.eqb_refl. cbn [negb].
  replace (forallb (fun i => negb (i <? 0)) ix) with true by (symmetry; induction I; cbn; [reflexivity|]; rewrite IHI; replace (_ <? 0) with false by lia; reflexivity). cbn [negb].
  replace (forallb (fun p => negb (snd p <=? fst p)) (combine ix d)) with true; [reflexivity|]. symmetry. induction I as [|i n ix d Hi I IH]; [reflexivity|]. cbn [combine forallb fst snd].
  rewrite IH. replace (n <=? i) with false by lia. reflexivity.
Qed.
Lemma xc_get_ix_ok chk rc v co ix (m : memR) a b : in_range ix (vdims v) -> length (vstr v) = length (vdims v) -> m (vblk v) (xcell v ix) = Some a ->
  m (vblk v) (xcell v ix + co) = Some b -> xc_get_ix chk rc v co ix m = Ok (a, b).
Proof.
  intros I L M N. unfold xc_get_ix. replace (if rc then check_range ix (vdims v) else Ok tt) with (Ok tt) by (destruct rc; [symmetry; now apply check_range_pass|reflexivity]). cbn [bind].
  rewrite gi_dot_ok by (rewrite L, (in_range_length _ _ I); lia). cbn [bind]. unfold load. unfold xcell in *. rewrite M. cbn [bind].
  replace (voff v + co + place (vstr v) ix) with (voff v + place (vstr v) ix + co) by ring. now rewrite N.
Qed.
Lemma xc_store2 v co ix (m : memR) a b x o : co <> 0 -> o = place (vstr v) ix -> m (vblk v) (xcell v ix) = Some a -> m (vblk v) (xcell v ix + co) = Some b ->
  exists m', (do m <- store m (vblk v) (voff v + o) (fst x); store m (vblk v) (voff v + co + o) (snd x)) = Ok m' /\ replaced2 m (vblk v) (xcell v ix) (xcell v ix + co) (fst x) (snd x) m'.
Proof.
  intros C -> M N. unfold xcell in *. unfold store at 1. rewrite M. cbn [bind]. unfold store, upd at 1.
  replace (voff v + co + place (vstr v) ix) with (voff v + place (vstr v) ix + co) by ring. rewrite Z.eqb_refl. replace (voff v + place (vstr v) ix + co =? voff v + place (vstr v) ix) with false by lia. cbn [andb].
  rewrite N. eexists. split; [reflexivity|]. apply upd2_replaced. lia.
Qed.
Lemma xc_set_ok rc v co ix (m : memR) a b x : (length ix <= 3)%nat -> co <> 0 -> in_range ix (firstn (length ix) (vdims v)) -> (length ix <= length (vstr v))%nat ->
  m (vblk v) (xcell v ix) = Some a -> m (vblk v) (xcell v ix + co) = Some b ->
  exists m', xc_set rc v co ix x m = Ok m' /\ replaced2 m (vblk v) (xcell v ix) (xcell v ix + co) (fst x) (snd x) m'.
Proof.
  intros T C I L M N. unfold xc_set. rewrite check_pass by assumption. cbn [bind]. rewrite firstn_all2 by assumption. rewrite gs_offs_ok by assumption. cbn [bind]. now apply (xc_store2 v co ix m a b x).
Qed.
Lemma xc_set_four rc v co i0 i1 i2 i3 (m : memR) a b x : co <> 0 -> in_range [i0; i1; i2; i3] (firstn 4 (vdims v)) -> (4 <= length (vstr v))%nat ->
  m (vblk v) (xcell v [i0; i1; i2; 0]) = Some a -> m (vblk v) (xcell v [i0; i1; i2; 0] + co) = Some b ->
  exists m', xc_set rc v co [i0; i1; i2; i3] x m = Ok m' /\ replaced2 m (vblk v) (xcell v [i0; i1; i2; 0]) (xcell v [i0; i1; i2; 0] + co) (fst x) (snd x) m'.
Proof.
  intros C I L M N. unfold xc_set. rewrite check_pass by assumption. cbn [bind firstn]. rewrite gs_offs_ok by (cbn; lia). cbn [bind]. apply (xc_store2 v co _ m a b x); auto.
  destruct (vstr v) as [|s0 [|s1 [|s2 [|s3 s]]]]; cbn in L; try lia. rewrite !place_cons, !place_nil_r. lia.
Qed.
Lemma xc_inc_ok rc v co ix (m : memR) a b x : co <> 0 -> in_range ix (firstn (length ix) (vdims v)) -> (length ix <= length (vstr v))%nat ->
  m (vblk v) (xcell v ix) = Some a -> m (vblk v) (xcell v ix + co) = Some b ->
  exists m', xc_inc rc v co ix x m = Ok m' /\ replaced2 m (vblk v) (xcell v ix) (xcell v ix + co) (cadd a (fst x)) (cadd b (snd x)) m'.
Proof.
  intros C I L M N. unfold xc_inc. rewrite check_pass by assumption. cbn [bind]. rewrite gs_offs_ok by assumption. cbn [bind]. unfold xcell in *. unfold load at 1. rewrite M. cbn [bind].
  unfold store at 1. rewrite M. cbn [bind]. set (m1 := upd m (vblk v) (voff v + place (vstr v) ix) (cadd a (fst x))).
  replace (voff v + co + place (vstr v) ix) with (voff v + place (vstr v) ix + co) by ring.
  assert (E : m1 (vblk v) (voff v + place (vstr v) ix + co) = Some b) by (unfold m1, upd; rewrite Z.eqb_refl; replace (_ + co =? _) with false by lia; exact N).
  unfold load. rewrite E. cbn [bind]. unfold store. rewrite E. eexists. split; [reflexivity|]. apply upd2_replaced. lia.
Qed.

(* ---- Gindex(a,strides) for row-major strides with base c *)
Lemma unflat_tail_ok c : 0 < c -> forall dims a, positive dims -> 0 <= a ->
  exists ix, unflat_str_tail a (c * prod dims) (strides_of c dims) = Ok ix /\ in_range ix dims /\ flat ix dims = (a mod (c * prod dims)) / c.
Proof.
  intro C. induction dims as [|d ds IH]; intros a P A.
  - exists []. split; [reflexivity|]. split; [constructor|]. cbn [flat]. change (prod []) with 1. rewrite Z.mul_1_r. rewrite Z.div_small; [reflexivity|]. now apply Z.mod_pos_bound.
  - inversion P as [|? ? Pd Pds]; subst. pose proof (prod_pos ds Pds) as Q. destruct (IH a Pds A) as (ix & E & I & F). rewrite strides_of_cons, prod_cons. cbn [unflat_str_tail].
    unfold crem, cdiv. replace (c * (d * prod ds) =? 0) with false by nia. cbn [bind]. replace (c * prod ds =? 0) with false by nia. cbn [bind]. rewrite E. cbn [bind].
    rewrite Z.rem_mod_nonneg by nia. pose proof (Z.mod_pos_bound a (c * (d * prod ds)) ltac:(nia)) as B.
    rewrite Z.quot_div_nonneg by nia. eexists. split; [reflexivity|]. set (r := a mod (c * (d * prod ds))) in *.
    assert (Rm : a mod (c * prod ds) = r mod (c * prod ds)).
    { unfold r. replace (c * (d * prod ds)) with ((c * prod ds) * d) by ring. rewrite (Z.rem_mul_r a (c * prod ds) d) by nia. rewrite (Z.mul_comm (c * prod ds) ((a / (c * prod ds)) mod d)), Z_mod_plus_full, Z.mod_mod by nia. reflexivity. }
    split.
    + constructor; [|exact I]. split; [apply Z.div_pos; nia|]. apply Z.div_lt_upper_bound; nia.
    + cbn [flat]. rewrite F, Rm. rewrite (Z.div_mod r (c * prod ds)) at 3 by nia.
      replace (c * prod ds * (r / (c * prod ds)) + r mod (c * prod ds)) with (r mod (c * prod ds) + (prod ds * (r / (c * prod ds))) * c) by ring. rewrite Z.div_add by lia. ring.
Qed.
Lemma unflat_str_ok c dims a : 0 < c -> positive dims -> dims <> [] -> 0 <= a < c * prod dims ->
  exists ix, unflat_str a (strides_of c dims) = Ok ix /\ in_range ix dims /\ flat ix dims = a / c.
Proof.
  intros C P N A. destruct (unflat_tail_ok c C dims a P ltac:(lia)) as (ix & E & I & F). rewrite Z.mod_small in F by lia.
  destruct dims as [|d ds]; [easy|]. exists ix. split; [|auto]. inversion P as [|? ? Pd Pds]; subst. pose proof (prod_pos ds Pds) as Q.
  rewrite strides_of_cons in *. rewrite prod_cons in *. cbn [unflat_str_tail unflat_str] in *. unfold crem in E. replace (c * (d * prod ds) =? 0) with false in E by nia. cbn [bind] in E.
  rewrite Z.rem_small in E by lia. exact E.
Qed.
Lemma gtensor_loop {A} (f : Z -> res A) g : forall l r, (forall i, In i l -> f i = Ok (g i)) -> foldM (fun i r => do z <- f i; Ok (r ++ [z])) l r = Ok (r ++ map g l).
Proof.
  induction l as [|i l IH]; intros r H; cbn [foldM map]; [now rewrite app_nil_r|]. rewrite (H i) by now left. cbn [bind]. rewrite IH by (intros; apply H; now right). now rewrite <- app_assoc.
Qed.
(* for strides that are row-major with base c, entry i is the element of rank i/c *)
Lemma gtensor_base chk rc v co (m : memR) c f : 0 < c -> positive (vdims v) -> vdims v <> [] -> vstr v = strides_of c (vdims v) ->
  (forall ix, in_range ix (vdims v) -> m (vblk v) (xcell v ix) = Some (fst (f (flat ix (vdims v)))) /\ m (vblk v) (xcell v ix + co) = Some (snd (f (flat ix (vdims v))))) ->
  xc_gtensor chk rc v co m = Ok (map (fun i => f (i / c)) (zrange (prod (vdims v)))).
Proof.
  intros C P N E H. unfold xc_gtensor. rewrite asize_prod.
  assert (F : forall i, In i (zrange (prod (vdims v))) -> (do ix <- unflat_str i (vstr v); xc_get_ix chk rc v co ix m) = Ok (f (i / c))).
  { intros i I. apply in_zrange in I. destruct (unflat_str_ok c (vdims v) i C P N) as (ix & U & J & K); [pose proof (prod_pos _ P); nia|]. rewrite E, U. cbn [bind].
    destruct (H ix J) as (A & B). rewrite K in A, B. rewrite (xc_get_ix_ok chk rc v co ix m _ _ J ltac:(rewrite E; apply strides_of_length) A B). now destruct (f (i / c)). }
  transitivity (@Ok (list (car R * car R)) ([] ++ map (fun i => f (i / c)) (zrange (prod (vdims v))))); [|reflexivity].
  rewrite <- (gtensor_loop _ (fun i => f (i / c)) (zrange (prod (vdims v))) [] F). apply foldM_ext. intros i s _. destruct (unflat_str i (vstr v)) as [ix| |]; reflexivity.
Qed.
End Real.
