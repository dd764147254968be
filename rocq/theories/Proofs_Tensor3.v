From Verif Require Import Base BaseFacts Model_Index Model_View Model_Tensor Spec_Index Spec_View Spec_Tensor
  Proofs_Axes Proofs_Index Proofs_View Proofs_View2 Proofs_Tensor Proofs_Tensor2.
Local Open Scope Z_scope.

Section RingFacts.
Context {R : cring}.
Add Ring Rr3 : (cth R).
Notation memR := (mem (car R)).

Lemma add_ok r x (m : memR) : plain_layout r -> vwf x -> vdims x = vdims r ->
  distinct_cells r -> readable m r -> readable m x -> no_clobber r x ->
  exists m', tv_add r x m = Ok m' /\
    (forall ix v w, in_range ix (vdims r) -> elem m r ix = Some v -> elem m x ix = Some w ->
       elem m' r ix = Some (cadd v w)) /\ untouched m m' r.
Proof.
  intros Pr Wx Dx Hd Rr Rx Nc. unfold tv_add. rewrite Dx, eqlb_refl. cbn [assrt].
  destruct (dispatch2_ok f_add1 r x m) as (m' & E & A & B); try assumption.
  exists m'. split; [exact E|]. split; [|exact B].
  intros ix v w Hix Hv Hw. destruct (A ix Hix) as (v' & us & Hv' & Hus & Hr).
  inversion Hus as [|? u ? us' Hu Hus' Heq]; subst. inversion Hus'; subst.
  rewrite Hr. cbn. congruence.
Qed.

Lemma ew1 (f : R -> list R -> R) r x (m m' : memR) : elementwise f r [x] m m' ->
  forall ix v w, in_range ix (vdims r) -> elem m r ix = Some v -> elem m x ix = Some w ->
       elem m' r ix = Some (f v [w]).
Proof.
  intros [A B] ix v w Hix Hv Hw. destruct (A ix Hix) as (v' & us & Hv' & Hus & Hr).
  inversion Hus as [|? u ? us' Hu Hus' Heq]; subst. inversion Hus'; subst. rewrite Hr. congruence.
Qed.
Lemma ew2 (f : R -> list R -> R) r x y (m m' : memR) : elementwise f r [x; y] m m' ->
  forall ix v w u, in_range ix (vdims r) -> elem m r ix = Some v -> elem m x ix = Some w -> elem m y ix = Some u ->
       elem m' r ix = Some (f v [w; u]).
Proof.
  intros [A B] ix v w u Hix Hv Hw Hu. destruct (A ix Hix) as (v' & us & Hv' & Hus & Hr).
  inversion Hus as [|? u1 ? us' Hu1 Hus' Heq]; subst. inversion Hus' as [|? u2 ? us'' Hu2 Hus'' Heq]; subst.
  inversion Hus''; subst. rewrite Hr. congruence.
Qed.
Lemma ew0 (f : R -> list R -> R) r (m m' : memR) : elementwise f r [] m m' ->
  forall ix v, in_range ix (vdims r) -> elem m r ix = Some v -> elem m' r ix = Some (f v []).
Proof.
  intros [A B] ix v Hix Hv. destruct (A ix Hix) as (v' & us & Hv' & Hus & Hr).
  inversion Hus; subst. rewrite Hr. congruence.
Qed.

Lemma asz_refl r x : vdims x = vdims r -> (asize (vdims r) =? asize (vdims x)) = true.
Proof. intros ->. apply Z.eqb_refl. Qed.

Lemma elem0_some (m : memR) v ix x : elem m v ix = Some x -> elem0 m v ix = x.
Proof. unfold elem0. now intros ->. Qed.
Lemma readable_elem (m : memR) v ix : readable m v -> in_range ix (vdims v) -> elem m v ix = Some (elem0 m v ix).
Proof. intros H Hix. specialize (H ix Hix). unfold elem0. destruct (elem m v ix); congruence. Qed.

Lemma disjoint_keep r x (m m' : memR) ix : disjoint_views r x -> untouched m m' r -> in_range ix (vdims x) ->
  elem m' x ix = elem m x ix.
Proof. intros Hd Hu Hix. apply (untouched_elem m m' r); try assumption. intros jx Hj. now apply Hd. Qed.

(* ---- add_sum ---- *)
Lemma add_sum_ok r d x n (m : memR) : plain_layout r -> vwf x -> nth_error (vdims x) d = Some n ->
  vdims r = del d (vdims x) -> distinct_cells r -> readable m r -> readable m x -> disjoint_views r x ->
  exists m', tv_add_sum r (Z.of_nat d) x m = Ok m' /\
    (forall ix v, in_range ix (vdims r) -> elem m r ix = Some v ->
       elem m' r ix = Some (cadd v (rsum (map (fun i => elem0 m x (ins d i ix)) (zrange n))))) /\
    untouched m m' r.
Proof.
  intros Pr Wx En Dr Hd Rr Rx Dis. unfold tv_add_sum.
  assert (Hdl : (d < length (vdims x))%nat) by (apply nth_error_Some; congruence).
  replace (Z.of_nat d <? ndims x) with true by (unfold ndims; lia). cbn [assrt].
  rewrite zget_nth_ok by lia. cbn [bind]. rewrite Nat2Z.id. rewrite (nth_error_nth _ _ 0 En).
  unfold forZ.
  destruct (foldM_inv (fun done (m' : memR) =>
     (forall ix v, in_range ix (vdims r) -> elem m r ix = Some v ->
       elem m' r ix = Some (cadd v (rsum (map (fun i => elem0 m x (ins d i ix)) done)))) /\ untouched m m' r)
     (fun i m => do s <- slice (Z.of_nat d) i x; tv_add r s m) (zrange n) m) as (m' & E & A & B).
  - split; [|intros b a _; reflexivity]. intros ix v Hix Hv. cbn [map]. rewrite rsum_nil, Hv. f_equal. ring.
  - intros done i rest m1 El [A B].
    assert (Hi : 0 <= i < n) by (apply in_zrange; rewrite El; apply in_or_app; right; now left).
    destruct (C08_slice_l x d i n Wx En Hi) as (s & Es & Hblk & Ds & Ws & Hs).
    rewrite Es. cbn [bind].
    assert (Hse : forall ix, in_range ix (vdims r) -> elem m1 s ix = Some (elem0 m x (ins d i ix))).
    { intros ix Hix. rewrite Dr, <- Ds in Hix. destruct (Hs ix Hix) as [Hin Hv].
      unfold elem. rewrite Hv. fold (elem m1 x (ins d i ix)). rewrite (disjoint_keep r x m m1) by assumption.
      now apply readable_elem. }
    destruct (add_ok r s m1) as (m2 & E2 & A2 & B2); try assumption.
    + congruence.
    + intros ix Hix. specialize (Rr ix Hix). destruct (elem m r ix) as [v|] eqn:Ev; [|congruence].
      rewrite (A ix v Hix Ev). discriminate.
    + intros ix Hix. rewrite Ds, <- Dr in Hix. rewrite Hse by assumption. discriminate.
    + intros ix jx Hix Hjx Eq. destruct (Hs jx Hjx) as [Hin Hv]. rewrite Hv in Eq. exfalso. now apply (Dis ix (ins d i jx)).
    + exists m2. split; [exact E2|]. split.
      * intros ix v Hix Hv. rewrite (A2 ix _ _ Hix (A ix v Hix Hv) (Hse ix Hix)).
        rewrite map_app, rsum_app. cbn [map]. rewrite rsum_cons, rsum_nil. f_equal. ring.
      * intros b a Hn. rewrite B2 by assumption. now apply B.
  - exists m'. split; [exact E|]. split; assumption.
Qed.

(* ---- loops that increment distinct elements of r ---- *)
Lemma acc_loop r (IX : list (list Z)) (T : list Z -> memR -> res R) (g : list Z -> R) (m : memR) :
  vwf r -> distinct_cells r -> readable m r -> NoDup IX ->
  (forall ix, In ix IX -> in_range ix (vdims r)) ->
  (forall ix m', In ix IX -> untouched m m' r -> T ix m' = Ok (g ix)) ->
  exists m', foldM (fun ix m => do t <- T ix m; inc_at r ix t m) IX m = Ok m' /\
    (forall ix v, In ix IX -> elem m r ix = Some v -> elem m' r ix = Some (cadd v (g ix))) /\
    (forall ix, in_range ix (vdims r) -> ~ In ix IX -> elem m' r ix = elem m r ix) /\ untouched m m' r.
Proof.
  intros [Lr Nr] Hd Rr Hnd Hin HT.
  destruct (foldM_inv (fun done (m' : memR) =>
    (forall ix v, In ix done -> elem m r ix = Some v -> elem m' r ix = Some (cadd v (g ix))) /\
    (forall ix, in_range ix (vdims r) -> ~ In ix done -> elem m' r ix = elem m r ix) /\ untouched m m' r)
    (fun ix m => do t <- T ix m; inc_at r ix t m) IX m) as (m' & E & A & B & C).
  - split; [intros ix v []|]. split; [reflexivity|]. intros b a _; reflexivity.
  - intros done ix rest m1 El (A & B & C).
    assert (Hix : In ix IX) by (rewrite El; apply in_or_app; right; now left).
    assert (Hnid : ~ In ix done).
    { rewrite El in Hnd. apply NoDup_remove_2 in Hnd. intro H. apply Hnd. apply in_or_app. now left. }
    rewrite (HT ix m1 Hix C). cbn [bind]. unfold inc_at. pose proof (Hin ix Hix) as Hr.
    rewrite vaddr_cell by assumption. cbn [bind].
    pose proof (readable_elem m r ix Rr Hr) as Hv. set (v := elem0 m r ix) in *.
    pose proof (B ix Hr Hnid) as Hv1. rewrite Hv in Hv1. rewrite elem_cell in Hv1 by assumption.
    unfold rmw. rewrite (loadA_some _ _ _ Hv1). cbn [bind loads]. unfold store. unfold at_ in Hv1. rewrite Hv1.
    eexists. split; [reflexivity|].
    assert (Hoth : forall jx, in_range jx (vdims r) -> jx <> ix ->
       elem (upd m1 (fst (cell r ix)) (snd (cell r ix)) (cadd v (g ix))) r jx = elem m1 r jx).
    { intros jx Hj Hne. rewrite !elem_cell by assumption. apply at_upd_other. intro Ec. apply Hne.
      apply Hd; try assumption. rewrite !vaddr_cell by assumption. now rewrite Ec. }
    split; [|split].
    + intros jx w Hj Hw. apply in_app_or in Hj as [Hj|[<-|[]]].
      * assert (Hjr : in_range jx (vdims r)) by (apply Hin; rewrite El; apply in_or_app; now left).
        rewrite Hoth; [now apply A|assumption|]. intros ->. contradiction.
      * rewrite elem_cell by assumption. rewrite at_upd_same. congruence.
    + intros jx Hj Hni. rewrite Hoth; [apply B; [assumption|]|assumption|].
      * intro H. apply Hni. apply in_or_app. now left.
      * intros ->. apply Hni. apply in_or_app. right. now left.
    + intros b a Hn. rewrite <- C by assumption. apply (at_upd_other m1 (cell r ix) (b, a)).
      intro Ec. apply (Hn ix Hr). rewrite vaddr_cell by assumption. now f_equal.
  - exists m'. auto.
Qed.

Lemma sum_loop {A} (l : list A) (T : A -> R -> res R) (g : A -> R) t0 :
  (forall a t, In a l -> T a t = Ok (cadd t (g a))) -> foldM T l t0 = Ok (cadd t0 (rsum (map g l))).
Proof.
  revert t0; induction l as [|a l IH]; intros t0 H; cbn [foldM map].
  - rewrite rsum_nil. f_equal. ring.
  - rewrite H by now left. cbn [bind]. rewrite IH by (intros; apply H; now right). rewrite rsum_cons. f_equal. ring.
Qed.
Lemma dotloop_ok n x y fx fy (m : memR) :
  (forall k, 0 <= k < n -> in_range (fx k) (vdims x) /\ in_range (fy k) (vdims y)) ->
  vwf x -> vwf y -> readable m x -> readable m y ->
  dotloop n (fun k => vaddr x (fx k)) (fun k => vaddr y (fy k)) m =
  Ok (rsum (map (fun k => cmul (elem0 m x (fx k)) (elem0 m y (fy k))) (zrange n))).
Proof.
  intros H [Lx _] [Ly _] Rx Ry. unfold dotloop, forZ.
  rewrite (sum_loop _ _ (fun k => cmul (elem0 m x (fx k)) (elem0 m y (fy k)))).
  - f_equal. ring.
  - intros k t Hk. apply in_zrange in Hk. destruct (H k Hk) as [H1 H2].
    rewrite !vaddr_cell by assumption. cbn [bind].
    pose proof (readable_elem m x _ Rx H1) as E1. pose proof (readable_elem m y _ Ry H2) as E2.
    rewrite elem_cell in E1 by assumption. rewrite elem_cell in E2 by assumption.
    rewrite (loadA_some _ _ _ E1). cbn [bind]. rewrite (loadA_some _ _ _ E2). cbn [bind]. reflexivity.
Qed.
Lemma keep_readable r x (m m' : memR) : disjoint_views r x -> untouched m m' r -> readable m x -> readable m' x.
Proof. intros Hd Hu Hr ix Hix. rewrite (disjoint_keep r x m m') by assumption. now apply Hr. Qed.
Lemma keep_elem0 r x (m m' : memR) ix : disjoint_views r x -> untouched m m' r -> in_range ix (vdims x) ->
  elem0 m' x ix = elem0 m x ix.
Proof. intros. unfold elem0. now rewrite (disjoint_keep r x m m'). Qed.

Lemma loop_2 {S} (body : list Z -> S -> res S) n0 n1 st :
  forZ n0 (fun a => forZ n1 (fun b => body [a; b])) st = foldM body (all_indices [n0; n1]) st.
Proof.
  cbn [all_indices]. rewrite foldM_flat_map. unfold forZ. apply foldM_ext. intros a s _.
  rewrite foldM_map, foldM_flat_map. apply foldM_ext. intros b s' _. cbn.
  destruct (body [a; b] s'); reflexivity.
Qed.
Lemma loop_1 {S} (body : list Z -> S -> res S) n0 st :
  forZ n0 (fun a => body [a]) st = foldM body (all_indices [n0]) st.
Proof.
  cbn [all_indices]. rewrite foldM_flat_map. unfold forZ. apply foldM_ext. intros a s _.
  cbn. destruct (body [a] s); reflexivity.
Qed.

Lemma product_ok r IX x y n fx fy (m : memR) : vwf r -> vwf x -> vwf y -> distinct_cells r ->
  readable m r -> readable m x -> readable m y -> disjoint_views r x -> disjoint_views r y ->
  IX = all_indices (vdims r) ->
  (forall ix k, in_range ix (vdims r) -> 0 <= k < n -> in_range (fx ix k) (vdims x) /\ in_range (fy ix k) (vdims y)) ->
  exists m', foldM (fun ix m => do t <- dotloop n (fun k => vaddr x (fx ix k)) (fun k => vaddr y (fy ix k)) m; inc_at r ix t m) IX m = Ok m' /\
    (forall ix v, in_range ix (vdims r) -> elem m r ix = Some v ->
       elem m' r ix = Some (cadd v (rsum (map (fun k => cmul (elem0 m x (fx ix k)) (elem0 m y (fy ix k))) (zrange n))))) /\
    untouched m m' r.
Proof.
  intros Wr Wx Wy Hd Rr Rx Ry Dx Dy -> Hin.
  destruct (acc_loop r (all_indices (vdims r))
     (fun ix m => dotloop n (fun k => vaddr x (fx ix k)) (fun k => vaddr y (fy ix k)) m)
     (fun ix => rsum (map (fun k => cmul (elem0 m x (fx ix k)) (elem0 m y (fy ix k))) (zrange n))) m)
     as (m' & E & A & _ & C); try assumption.
  - apply all_indices_nodup.
  - intros ix H. now apply in_all_indices.
  - intros ix m' H U. apply in_all_indices in H. rewrite dotloop_ok; try assumption.
    + f_equal. apply rsum_ext. intros k Hk. apply in_zrange in Hk. destruct (Hin ix k H Hk).
      now rewrite (keep_elem0 r x m m'), (keep_elem0 r y m m').
    + intros k Hk. now apply Hin.
    + now apply (keep_readable r x m m').
    + now apply (keep_readable r y m m').
  - exists m'. split; [exact E|]. split; [|exact C]. intros ix v Hix. apply A. now apply in_all_indices.
Qed.

Lemma in_range_2 i j a b : 0 <= i < a -> 0 <= j < b -> in_range [i; j] [a; b].
Proof. intros. repeat constructor; lia. Qed.
Lemma in_range_2_inv ix a b : in_range ix [a; b] -> exists i j, ix = [i; j] /\ 0 <= i < a /\ 0 <= j < b.
Proof.
  intro H. inversion H as [|i ? l ? Hi Hl]; subst. inversion Hl as [|j ? l' ? Hj Hl']; subst.
  inversion Hl'; subst. eauto.
Qed.
Lemma in_range_1_inv ix a : in_range ix [a] -> exists i, ix = [i] /\ 0 <= i < a.
Proof. intro H. inversion H as [|i ? l ? Hi Hl]; subst. inversion Hl; subst. eauto. Qed.

Lemma mprod_ok r x y a n b (m : memR) : vwf r -> vwf x -> vwf y ->
  vdims r = [a; b] -> vdims x = [a; n] -> vdims y = [n; b] -> distinct_cells r ->
  readable m r -> readable m x -> readable m y -> disjoint_views r x -> disjoint_views r y ->
  exists m', tv_add_mprod r x y m = Ok m' /\
    (forall i j v, 0 <= i < a -> 0 <= j < b -> elem m r [i; j] = Some v ->
       elem m' r [i; j] = Some (cadd v (rsum (map (fun k => cmul (elem0 m x [i; k]) (elem0 m y [k; j])) (zrange n))))) /\
    untouched m m' r.
Proof.
  intros Wr Wx Wy Er Ex Ey Hd Rr Rx Ry Dx Dy. unfold tv_add_mprod, is_mat. rewrite Er, Ex, Ey.
  rewrite !Z.eqb_refl. cbn [andb assrt length Nat.eqb].
  rewrite (loop_2 (fun ix m => do t <- dotloop n (fun k => vaddr x [nth 0 ix 0; k]) (fun k => vaddr y [k; nth 1 ix 0]) m; inc_at r ix t m)).
  destruct (product_ok r (all_indices [a; b]) x y n (fun ix k => [nth 0 ix 0; k]) (fun ix k => [k; nth 1 ix 0]) m)
    as (m' & E & A & B); try assumption; [now rewrite Er| |].
  - intros ix k Hix Hk. rewrite Er in Hix. apply in_range_2_inv in Hix as (i & j & -> & Hi & Hj).
    cbn. rewrite Ex, Ey. split; apply in_range_2; assumption.
  - exists m'. split; [exact E|]. split; [|exact B]. intros i j v Hi Hj. apply A. rewrite Er. now apply in_range_2.
Qed.
Lemma mprod_AT_ok r x y a n b (m : memR) : vwf r -> vwf x -> vwf y ->
  vdims r = [a; b] -> vdims x = [a; n] -> vdims y = [b; n] -> distinct_cells r ->
  readable m r -> readable m x -> readable m y -> disjoint_views r x -> disjoint_views r y ->
  exists m', tv_add_mprod_AT r x y m = Ok m' /\
    (forall i j v, 0 <= i < a -> 0 <= j < b -> elem m r [i; j] = Some v ->
       elem m' r [i; j] = Some (cadd v (rsum (map (fun k => cmul (elem0 m x [i; k]) (elem0 m y [j; k])) (zrange n))))) /\
    untouched m m' r.
Proof.
  intros Wr Wx Wy Er Ex Ey Hd Rr Rx Ry Dx Dy. unfold tv_add_mprod_AT, is_mat. rewrite Er, Ex, Ey.
  rewrite !Z.eqb_refl. cbn [andb assrt length Nat.eqb].
  rewrite (loop_2 (fun ix m => do t <- dotloop n (fun k => vaddr x [nth 0 ix 0; k]) (fun k => vaddr y [nth 1 ix 0; k]) m; inc_at r ix t m)).
  destruct (product_ok r (all_indices [a; b]) x y n (fun ix k => [nth 0 ix 0; k]) (fun ix k => [nth 1 ix 0; k]) m)
    as (m' & E & A & B); try assumption; [now rewrite Er| |].
  - intros ix k Hix Hk. rewrite Er in Hix. apply in_range_2_inv in Hix as (i & j & -> & Hi & Hj).
    cbn. rewrite Ex, Ey. split; apply in_range_2; assumption.
  - exists m'. split; [exact E|]. split; [|exact B]. intros i j v Hi Hj. apply A. rewrite Er. now apply in_range_2.
Qed.
Lemma mvprod_ok r x y a n (m : memR) : vwf r -> vwf x -> vwf y ->
  vdims r = [a] -> vdims x = [a; n] -> vdims y = [n] -> distinct_cells r ->
  readable m r -> readable m x -> readable m y -> disjoint_views r x -> disjoint_views r y ->
  exists m', tv_add_mvprod r x y m = Ok m' /\
    (forall i v, 0 <= i < a -> elem m r [i] = Some v ->
       elem m' r [i] = Some (cadd v (rsum (map (fun k => cmul (elem0 m x [i; k]) (elem0 m y [k])) (zrange n))))) /\
    untouched m m' r.
Proof.
  intros Wr Wx Wy Er Ex Ey Hd Rr Rx Ry Dx Dy. unfold tv_add_mvprod. rewrite Er, Ex, Ey.
  rewrite !Z.eqb_refl. cbn [andb assrt].
  rewrite (loop_1 (fun ix m => do t <- dotloop n (fun k => vaddr x [nth 0 ix 0; k]) (fun k => vaddr y [k]) m; inc_at r ix t m)).
  destruct (product_ok r (all_indices [a]) x y n (fun ix k => [nth 0 ix 0; k]) (fun ix k => [k]) m)
    as (m' & E & A & B); try assumption; [now rewrite Er| |].
  - intros ix k Hix Hk. rewrite Er in Hix. apply in_range_1_inv in Hix as (i & -> & Hi).
    cbn. rewrite Ex, Ey. split; [now apply in_range_2|]. repeat constructor; lia.
  - exists m'. split; [exact E|]. split; [|exact B]. intros i v Hi. apply A. rewrite Er. repeat constructor; lia.
Qed.
Lemma mvprod_T_ok r x y n (m : memR) : vwf r -> vwf x -> vwf y ->
  vdims r = [n] -> vdims x = [n; n] -> vdims y = [n] -> distinct_cells r ->
  readable m r -> readable m x -> readable m y -> disjoint_views r x -> disjoint_views r y ->
  exists m', tv_add_mvprod_T r x y m = Ok m' /\
    (forall i v, 0 <= i < n -> elem m r [i] = Some v ->
       elem m' r [i] = Some (cadd v (rsum (map (fun k => cmul (elem0 m x [k; i]) (elem0 m y [k])) (zrange n))))) /\
    untouched m m' r.
Proof.
  intros Wr Wx Wy Er Ex Ey Hd Rr Rx Ry Dx Dy. unfold tv_add_mvprod_T. rewrite Er, Ex, Ey.
  rewrite !Z.eqb_refl. cbn [andb assrt].
  rewrite (loop_1 (fun ix m => do t <- dotloop n (fun k => vaddr x [k; nth 0 ix 0]) (fun k => vaddr y [k]) m; inc_at r ix t m)).
  destruct (product_ok r (all_indices [n]) x y n (fun ix k => [k; nth 0 ix 0]) (fun ix k => [k]) m)
    as (m' & E & A & B); try assumption; [now rewrite Er| |].
  - intros ix k Hix Hk. rewrite Er in Hix. apply in_range_1_inv in Hix as (i & -> & Hi).
    cbn. rewrite Ex, Ey. split; [now apply in_range_2|]. repeat constructor; lia.
  - exists m'. split; [exact E|]. split; [|exact B]. intros i v Hi. apply A. rewrite Er. repeat constructor; lia.
Qed.
(* adjointness of the two matrix-vector products on square matrices: <A u, w> = <u, A^T w> *)
Lemma adjoint_sums n (A : Z -> Z -> R) (u w : Z -> R) :
  rsum (map (fun i => cmul (rsum (map (fun k => cmul (A i k) (u k)) (zrange n))) (w i)) (zrange n)) =
  rsum (map (fun k => cmul (u k) (rsum (map (fun i => cmul (A i k) (w i)) (zrange n)))) (zrange n)).
Proof.
  erewrite rsum_ext; [|intros i _; symmetry; apply rsum_map_mul_r].
  rewrite rsum_swap. apply rsum_ext. intros k _. rewrite <- rsum_map_mul_l. apply rsum_ext. intros i _. ring.
Qed.
Lemma adjoint_ok r s x y w n (m : memR) : vwf r -> vwf s -> vwf x -> vwf y -> vwf w ->
  vdims r = [n] -> vdims s = [n] -> vdims x = [n; n] -> vdims y = [n] -> vdims w = [n] ->
  distinct_cells r -> distinct_cells s -> readable m r -> readable m s -> readable m x -> readable m y -> readable m w ->
  disjoint_views r x -> disjoint_views r y -> disjoint_views s x -> disjoint_views s w ->
  (forall i, 0 <= i < n -> elem m r [i] = Some c0) -> (forall i, 0 <= i < n -> elem m s [i] = Some c0) ->
  exists m1 m2, tv_add_mvprod r x y m = Ok m1 /\ tv_add_mvprod_T s x w m = Ok m2 /\
    rsum (map (fun i => cmul (elem0 m1 r [i]) (elem0 m w [i])) (zrange n)) =
    rsum (map (fun k => cmul (elem0 m y [k]) (elem0 m2 s [k])) (zrange n)).
Proof.
  intros Wr Ws Wx Wy Ww Er Es Ex Ey Ew Hr Hs Rr Rs Rx Ry Rw D1 D2 D3 D4 Zr Zs.
  destruct (mvprod_ok r x y n n m) as (m1 & E1 & A1 & _); try assumption.
  destruct (mvprod_T_ok s x w n m) as (m2 & E2 & A2 & _); try assumption.
  exists m1, m2. split; [exact E1|]. split; [exact E2|].
  erewrite rsum_ext.
  2:{ intros i Hi. apply in_zrange in Hi. rewrite (elem0_some _ _ _ _ (A1 i c0 Hi (Zr i Hi))).
      replace (cadd c0 _) with (rsum (map (fun k => cmul (elem0 m x [i; k]) (elem0 m y [k])) (zrange n))) by ring. reflexivity. }
  rewrite adjoint_sums. apply rsum_ext. intros k Hk. apply in_zrange in Hk.
  rewrite (elem0_some _ _ _ _ (A2 k c0 Hk (Zs k Hk))). ring.
Qed.

(* ---- whole-tensor operations ---- *)
Lemma is_contiguous_ok s dims : length s = length dims -> exists b, is_contiguous s dims = Ok b.
Proof.
  intro L. unfold is_contiguous, is_regular. rewrite L, Nat.eqb_refl. cbn.
  destruct (regular_aux s dims); eauto.
Qed.
Lemma contiguous_solid_view r : vwf r -> nonneg (vstr r) -> distinct_cells r ->
  is_contiguous (vstr r) (vdims r) = Ok true ->
  Permutation (map (dot (vstr r)) (all_indices (vdims r))) (zrange (prod (vdims r))).
Proof.
  intros Wr Ns Hd Ec. destruct (nonneg_prod_cases (vdims r)) as [Hp|H0]; [apply Wr| |].
  - apply contiguous_gen; try assumption; [apply Wr|]. now apply distinct_zero.
  - rewrite all_indices_empty by (try apply Wr; assumption). rewrite H0. reflexivity.
Qed.
Lemma whole_ok (f : R -> R) r (m : memR) b : vwf r -> nonneg (vstr r) -> distinct_cells r -> readable m r ->
  is_contiguous (vstr r) (vdims r) = Ok b ->
  exists m', (if b then flat_loop (fun v _ => f v) r [] (asize (vdims r)) m else each (fun v _ => f v) r [] m) = Ok m' /\
    (forall ix v, in_range ix (vdims r) -> elem m r ix = Some v -> elem m' r ix = Some (f v)) /\ untouched m m' r.
Proof.
  intros Wr Ns Hd Rr Ec.
  assert (G : exists m', (if b then flat_loop (fun v _ => f v) r [] (asize (vdims r)) m else each (fun v _ => f v) r [] m) = Ok m' /\
     elementwise (fun v _ => f v) r [] m m').
  { destruct b.
    - rewrite flat_run. apply elementwise_of_run; try assumption; [constructor|].
      rewrite asize_prod. unfold entries. rewrite <- contiguous_solid_view by assumption. rewrite map_map. reflexivity.
    - rewrite each_run; [apply elementwise_of_run; try assumption; [constructor|reflexivity]|assumption| |constructor].
      intro D. destruct Wr as [Lr _]. rewrite D in *. destruct (vstr r); [|discriminate]. discriminate. }
  destruct G as (m' & E & W). exists m'. split; [exact E|]. split; [|apply W].
  intros ix v Hix Hv. apply (ew0 _ r m m' W ix v Hix Hv).
Qed.
Lemma set_zero_ok r (m : memR) : vwf r -> nonneg (vstr r) -> distinct_cells r -> readable m r ->
  is_contiguous (vstr r) (vdims r) = Ok true ->
  exists m', tv_set_zero r m = Ok m' /\ (forall ix, in_range ix (vdims r) -> elem m' r ix = Some c0) /\ untouched m m' r.
Proof.
  intros Wr Ns Hd Rr Ec. destruct (whole_ok (fun _ => c0) r m true Wr Ns Hd Rr Ec) as (m' & E & A & B).
  exists m'. unfold tv_set_zero. rewrite Ec. cbn [bind]. split; [exact E|]. split; [|exact B].
  intros ix Hix. apply (A ix (elem0 m r ix) Hix). now apply readable_elem.
Qed.
Lemma times_ok r c (m : memR) : vwf r -> nonneg (vstr r) -> distinct_cells r -> readable m r ->
  exists m', tv_times r c m = Ok m' /\
    (forall ix v, in_range ix (vdims r) -> elem m r ix = Some v -> elem m' r ix = Some (cmul v c)) /\ untouched m m' r.
Proof.
  intros Wr Ns Hd Rr. destruct (is_contiguous_ok (vstr r) (vdims r)) as [b Ec]; [apply Wr|].
  destruct (whole_ok (fun v => cmul v c) r m b Wr Ns Hd Rr Ec) as (m' & E & A & B).
  exists m'. unfold tv_times. rewrite Ec. cbn [bind]. auto.
Qed.
Lemma reduce_ok {A} (g : A -> R -> A) r t0 (m : memR) : vwf r -> nonneg (vstr r) -> distinct_cells r -> readable m r ->
  exists vals, reduce g r t0 m = Ok (fold_left g vals t0) /\
    Permutation vals (map (elem0 m r) (all_indices (vdims r))).
Proof.
  intros Wr Ns Hd Rr. destruct (is_contiguous_ok (vstr r) (vdims r)) as [b Ec]; [apply Wr|].
  assert (G : forall (B : Type) (l : list B) (T : B -> A -> res A) (h : B -> R) t,
     (forall a t, In a l -> T a t = Ok (g t (h a))) -> foldM T l t = Ok (fold_left g (map h l) t)).
  { intros B l T h. induction l as [|a l IH]; intros t H; [reflexivity|]. cbn. rewrite H by now left. cbn.
    apply IH. intros; apply H; now right. }
  unfold reduce. rewrite Ec. cbn [bind]. destruct b.
  - pose proof (contiguous_solid_view r Wr Ns Hd Ec) as P. rewrite asize_prod. unfold forZ.
    pose (h := fun i => match m (vblk r) (voff r + i) with Some v => v | None => c0 end).
    exists (map h (zrange (prod (vdims r)))). split.
    + apply G. intros i t Hi. rewrite <- P in Hi. apply in_map_iff in Hi as (ix & <- & Hix).
      apply in_all_indices in Hix. pose proof (readable_elem m r ix Rr Hix) as E.
      rewrite elem_cell in E by (try assumption; apply Wr). unfold at_, cell in E. cbn in E.
      unfold load, h. rewrite E. reflexivity.
    + rewrite <- P, map_map. erewrite map_ext_in; [reflexivity|]. intros ix Hix. apply in_all_indices in Hix.
      unfold h, elem0. rewrite elem_cell by (try assumption; apply Wr). reflexivity.
  - assert (Hne : vdims r <> []).
    { intro D. destruct Wr as [Lr _]. rewrite D in *. destruct (vstr r); [|discriminate]. discriminate. }
    exists (map (elem0 m r) (all_indices (vdims r))). split; [|reflexivity].
    rewrite foreach_index_fold by (try assumption; apply Wr).
    apply G. intros ix t Hix. apply in_all_indices in Hix. pose proof (readable_elem m r ix Rr Hix) as E.
    rewrite elem_cell in E by (try assumption; apply Wr).
    rewrite vaddr_cell by (try assumption; apply Wr). cbn [bind]. rewrite (loadA_some _ _ _ E). reflexivity.
Qed.
Lemma fold_left_sum {A} (h : A -> R) l t : fold_left (fun t v => cadd t (h v)) l t = cadd t (rsum (map h l)).
Proof.
  revert t; induction l as [|a l IH]; intro t; cbn [fold_left map]; [rewrite rsum_nil; ring|].
  rewrite IH, rsum_cons. ring.
Qed.
Lemma sum_ok r (m : memR) : vwf r -> nonneg (vstr r) -> distinct_cells r -> readable m r ->
  tv_sum r m = Ok (rsum (map (elem0 m r) (all_indices (vdims r)))).
Proof.
  intros Wr Ns Hd Rr. unfold tv_sum. rewrite asize_prod. destruct (prod (vdims r) =? 0) eqn:E0.
  - rewrite all_indices_empty by (try apply Wr; lia). reflexivity.
  - destruct (reduce_ok (fun t v => cadd t v) r c0 m) as (vals & -> & P); try assumption.
    rewrite (fold_left_sum (fun v => v)), map_id. rewrite (rsum_perm _ _ _ P). f_equal. ring.
Qed.
Lemma norm2_ok r (m : memR) : vwf r -> nonneg (vstr r) -> distinct_cells r -> readable m r ->
  tv_norm2 r m = Ok (rsum (map (fun ix => cmul (elem0 m r ix) (elem0 m r ix)) (all_indices (vdims r)))).
Proof.
  intros Wr Ns Hd Rr. unfold tv_norm2.
  destruct (reduce_ok (fun t v => cadd t (cmul v v)) r c0 m) as (vals & -> & P); try assumption.
  rewrite (fold_left_sum (fun v => cmul v v)).
  rewrite (rsum_perm _ _ _ (Permutation_map (fun v => cmul v v) P)). rewrite map_map. f_equal. ring.
Qed.
Lemma inp_ok x y (m : memR) : vwf x -> vwf y -> vdims y = vdims x -> readable m x -> readable m y ->
  tv_inp x y m = Ok (rsum (map (fun ix => cmul (elem0 m x ix) (elem0 m y ix)) (all_indices (vdims x)))).
Proof.
  intros Wx Wy D Rx Ry. unfold tv_inp. rewrite D, eqlb_refl. cbn [assrt].
  pose proof Wx as [Lx Nx]. pose proof Wy as [Ly Ny]. rewrite D in Ly.
  destruct (is_regular (vstr x) (vdims x)) as [a| |] eqn:Ea.
  2,3: unfold is_regular in Ea; rewrite Lx, Nat.eqb_refl in Ea; discriminate.
  destruct (is_regular (vstr y) (vdims x)) as [b| |] eqn:Eb.
  2,3: unfold is_regular in Eb; rewrite Ly, Nat.eqb_refl in Eb; discriminate.
  cbn [bind]. destruct (a && b) eqn:E.
  - apply andb_prop in E as [-> ->]. apply is_regular_iff in Ea; [|assumption]. apply is_regular_iff in Eb; [|assumption].
    unfold forZ. rewrite asize_prod, <- row_major_addrs by assumption. rewrite foldM_map.
    rewrite (sum_loop _ _ (fun ix => cmul (elem0 m x ix) (elem0 m y ix))); [f_equal; ring|].
    intros ix t Hix. apply in_all_indices in Hix.
    pose proof (readable_elem m x ix Rx Hix) as E1.
    assert (Hiy : in_range ix (vdims y)) by congruence. pose proof (readable_elem m y ix Ry Hiy) as E2.
    rewrite elem_cell in E1 by assumption. rewrite elem_cell in E2 by (try assumption; apply Wy).
    unfold at_, cell in E1, E2. cbn in E1, E2. rewrite Ea in E1. rewrite Eb in E2.
    unfold load. rewrite E1. cbn. rewrite E2. reflexivity.
  - assert (Hne : vdims x <> []).
    { intro Dn. rewrite Dn in Ea, Eb, Lx, Ly. destruct (vstr x), (vstr y); try discriminate.
      cbn in Ea, Eb. injection Ea as <-. injection Eb as <-. discriminate. }
    rewrite foreach_index_fold by assumption.
    rewrite (sum_loop _ _ (fun ix => cmul (elem0 m x ix) (elem0 m y ix))); [f_equal; ring|].
    intros ix t Hix. apply in_all_indices in Hix.
    pose proof (readable_elem m x ix Rx Hix) as E1.
    assert (Hiy : in_range ix (vdims y)) by congruence. pose proof (readable_elem m y ix Ry Hiy) as E2.
    rewrite elem_cell in E1 by assumption. rewrite elem_cell in E2 by (try assumption; apply Wy).
    rewrite !vaddr_cell by (try assumption; apply Wy). cbn [bind].
    rewrite (loadA_some _ _ _ E1). cbn [bind]. rewrite (loadA_some _ _ _ E2). reflexivity.
Qed.
End RingFacts.

Lemma max_ok r (m : mem Z) : vwf r -> nonneg (vstr r) -> distinct_cells r -> readable m r -> positive (vdims r) ->
  exists v, tv_max (R := ZRing) Z.gtb r m = Ok v /\
    (forall ix, in_range ix (vdims r) -> exists w, elem m r ix = Some w /\ w <= v) /\
    (exists ix, in_range ix (vdims r) /\ elem m r ix = Some v).
Proof.
  intros Wr Ns Hd Rr Hp. unfold tv_max. rewrite asize_prod. pose proof (prod_pos _ Hp) as Hpp.
  replace (prod (vdims r) =? 0) with false by lia.
  pose (z := repeat 0 (length (vdims r))).
  assert (Hz : in_range z (vdims r)).
  { unfold z. clear -Hp. induction Hp as [|x l Hx Hl IH]; cbn; constructor; [lia|exact IH]. }
  assert (Ez : elem m r z = m (vblk r) (voff r)).
  { rewrite elem_cell by (try assumption; apply Wr). unfold at_, cell. cbn. f_equal.
    enough (dot (vstr r) z = 0) by lia. unfold z. clear. generalize (length (vdims r)).
    induction (vstr r) as [|s l IH]; intros [|n]; cbn; try reflexivity. rewrite IH. lia. }
  pose proof (Rr z Hz) as Hv0. rewrite Ez in Hv0. destruct (m (vblk r) (voff r)) as [v0|] eqn:E0; [|congruence].
  unfold load. rewrite E0. cbn [bind].
  destruct (reduce_ok (R := ZRing) (fun t v => if v >? t then v else t) r v0 m) as (vals & Ered & P); try assumption.
  cbn [car ZRing] in *. rewrite Ered. eexists. split; [reflexivity|].
  assert (G : forall l t, let v := fold_left (fun t v => if v >? t then v else t) l t in
     t <= v /\ (forall x, In x l -> x <= v) /\ (v = t \/ In v l)).
  { induction l as [|a l IH]; intro t; cbn; [repeat split; [lia|intros ? []|now left]|].
    destruct (IH (if a >? t then a else t)) as (A & B & C). cbv zeta in *.
    set (v := fold_left _ l _) in *. clearbody v. destruct (a >? t) eqn:E.
    - repeat split; [lia| |]; [intros x [->|Hx]; [lia|now apply B]|]. destruct C; [right; left; congruence|now right; right].
    - repeat split; [lia| |]; [intros x [->|Hx]; [lia|now apply B]|]. destruct C; [now left|now right; right]. }
  destruct (G vals v0) as (A & B & C). cbv zeta in *. set (v := fold_left _ vals v0) in *. clearbody v.
  assert (Hin : forall ix, in_range ix (vdims r) -> In (elem0 (R := ZRing) m r ix) vals).
  { intros ix Hix. rewrite P. apply in_map. now apply in_all_indices. }
  split.
  - intros ix Hix. pose proof (readable_elem (R := ZRing) m r ix Rr Hix) as E. eexists. split; [exact E|]. now apply B, Hin.
  - destruct C as [->|Hv].
    + exists z. split; [assumption|]. now rewrite Ez.
    + rewrite P in Hv. apply in_map_iff in Hv as (ix & E & Hix). apply in_all_indices in Hix.
      exists ix. split; [assumption|]. rewrite <- E. now apply (readable_elem (R := ZRing)).
Qed.
