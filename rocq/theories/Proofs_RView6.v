(* Proofs_RView6.v -- destructive reductions and broadcasts of matrices and 3-tensors. *)
From Verif Require Import Base BaseFacts Model_Index Model_View Model_Tensor Model_Ops Model_RView Spec_Index Spec_View Spec_Tensor Spec_RView
  Proofs_Axes Proofs_Index Proofs_View Proofs_Tensor Proofs_Tensor2 Proofs_Tensor3 Proofs_Convolve2 Proofs_Ops2 Proofs_Ops3 Proofs_RView Proofs_RView2 Proofs_RView3 Proofs_RView4 Proofs_RView5.
Local Open Scope Z_scope.

Section Red.
Context {R : cring}.
Add Ring RrRV6 : (cth R).
Notation memR := (mem (car R)).
Implicit Types (v w r x : view) (m : memR) (M G : list Z -> R).

(* ---- what a view of v that changes does to v ---- *)
Lemma sub_untouched {V} (m m' : mem V) w v f : shows w v f -> untouched m m' w -> untouched m m' v.
Proof. intros S U b a H. apply U. intros ix Hix E. destruct (S ix Hix) as [I Ev]. apply (H (f ix) I). now rewrite <- Ev. Qed.
Lemma sub_becomes m0 m m' w v f M G M' : shows w v f -> distinct_cells v -> becomes v M m0 m -> becomes w G m m' ->
  (forall jx, in_range jx (vdims w) -> M' (f jx) = G jx) ->
  (forall ix, in_range ix (vdims v) -> (forall jx, in_range jx (vdims w) -> f jx <> ix) -> M' ix = M ix) -> becomes v M' m0 m'.
Proof.
  intros S Hd [A B] [Aw Bw] H1 H2. destruct (window_keeps m m' w v f S Hd Bw) as [K U]. split; [|eapply untouched_trans; eassumption].
  intros ix Hix. destruct (in_dec (list_eq_dec Z.eq_dec) ix (map f (all_indices (vdims w)))) as [I|N].
  - apply in_map_iff in I as (jx & <- & Hj). apply in_all_indices in Hj. rewrite <- (window_elem m' w v f S jx Hj), Aw by assumption. now rewrite H1.
  - rewrite K; [|assumption|].
    + rewrite A by assumption. f_equal. symmetry. apply H2; [assumption|]. intros jx Hj E. apply N. apply in_map_iff. exists jx. split; [assumption|now apply in_all_indices].
    + intros jx Hj E. apply N. apply in_map_iff. exists jx. split; [assumption|now apply in_all_indices].
Qed.
(* w shows exactly v, in another arrangement *)
Lemma whole_becomes m m' w v f h G : shows w v f -> (forall ix, in_range ix (vdims v) -> in_range (h ix) (vdims w) /\ f (h ix) = ix) ->
  becomes w G m m' -> becomes v (fun ix => G (h ix)) m m'.
Proof.
  intros S H [A B]. split; [|eapply sub_untouched; eassumption]. intros ix Hix. destruct (H ix Hix) as [I E]. rewrite <- E at 1. rewrite <- (window_elem m' w v f S (h ix) I). now apply A.
Qed.
Lemma whole_distinct w v f : shows w v f -> (forall ix jx, in_range ix (vdims w) -> in_range jx (vdims w) -> f ix = f jx -> ix = jx) -> distinct_cells v -> distinct_cells w.
Proof. apply shows_distinct. Qed.

(* ---- reduce0 ---- *)
Definition ok_rows (v : view) (n0 : Z) : Prop := 1 <= n0 /\ (reg2 v = true -> n0 <> 1).
Lemma reduce0_ok v m n0 n1 : vwf v -> vdims v = [n0; n1] -> distinct_cells v -> readable m v -> ok_rows v n0 ->
  exists m', rv2_reduce0 v m = Ok m' /\ exists G, becomes v G m m' /\ forall j, 0 <= j < n1 -> G [0; j] = rsum (map (fun i => elem0 m v [i; j]) (zrange n0)).
Proof.
  intros W D Hd Rv [Hn Hr]. destruct (reg2 v) eqn:Er.
  - specialize (Hr eq_refl). destruct (reduce_reg v n0 n1 W D Er m Rv) as (m' & E & R' & U & H); [lia|]. exists m'. split; [exact E|]. exists (elem0 m' v). split; [now apply becomes_read|exact H].
  - unfold rv2_reduce0. rewrite Er, !(nd_eq v _ _ D). cbn [nth]. rewrite nest1_fold.
    destruct (slicewise (fun ix m => do t <- line_sum v n0 (fun i => i :: ix) m; put_at v (0 :: ix) t m)
      (fun M ix => match ix with [] => M ix | i :: jx => if i =? 0 then rsum (map (fun k => M (k :: jx)) (zrange n0)) else M ix end) m v [n1] n0 D) with (M := elem0 m v) (m := m) as (m' & E & B).
    + intros M M' i jx H. destruct (i =? 0); [|apply H]. apply rsum_ext. intros k _. apply H.
    + intros jx M m1 Hj B. destruct (becomes_end _ _ _ _ B) as (R1 & _ & E1). rewrite line_sum_ok; [|assumption|assumption|intros i Hi; rewrite D; now constructor]. cbn [bind].
      rewrite (rsum_ext R _ (fun k => M (k :: jx))) by (intros i Hi; apply in_zrange in Hi; apply E1; rewrite D; now constructor).
      destruct (put_becomes m m1 v M (0 :: jx) (rsum (map (fun k => M (k :: jx)) (zrange n0))) W Hd B) as (m2 & E2 & B2); [rewrite D; constructor; [lia|assumption]|].
      exists m2. split; [exact E2|]. revert B2. apply becomes_ext. intros ix Hix. rewrite D in Hix. destruct ix as [|i kx]; [inversion Hix|]. cbn [eqlb tl].
      destruct (eqlb kx jx) eqn:Ek; rewrite ?andb_true_r, ?andb_false_r; [apply eqlb_eq in Ek as ->|reflexivity]. reflexivity.
    + now apply becomes_start.
    + exists m'. split; [exact E|]. eexists. split; [exact B|]. intros j Hj. reflexivity.
Qed.
Lemma transp_inv v n0 n1 : vwf v -> vdims v = [n0; n1] -> forall ix, in_range ix (vdims v) ->
  in_range [nth 1 ix 0; nth 0 ix 0] (vdims (rv2_transp v)) /\ (fun jx => [nth 1 jx 0; nth 0 jx 0]) [nth 1 ix 0; nth 0 ix 0] = ix.
Proof.
  intros W D ix Hix. destruct (transp_shows v n0 n1 W D) as (_ & Dt & _). rewrite Dt. rewrite D in Hix. apply in_range_2_inv in Hix as (i & j & -> & Hi & Hj). cbn [nth]. split; [now apply in_range_2|reflexivity].
Qed.
Lemma transp_distinct v n0 n1 : vwf v -> vdims v = [n0; n1] -> distinct_cells v -> distinct_cells (rv2_transp v).
Proof.
  intros W D Hd. destruct (transp_shows v n0 n1 W D) as (_ & Dt & S). apply (shows_distinct _ _ _ S); [|assumption]. rewrite Dt. intros ix jx Hi Hj E.
  apply in_range_2_inv in Hi as (i & j & -> & _ & _). apply in_range_2_inv in Hj as (k & l & -> & _ & _). cbn [nth] in E. congruence.
Qed.
Lemma reduce1_ok v m n0 n1 : vwf v -> vdims v = [n0; n1] -> distinct_cells v -> readable m v -> ok_rows (rv2_transp v) n1 ->
  exists m', rv2_reduce1 v m = Ok m' /\ exists G, becomes v G m m' /\ forall i, 0 <= i < n0 -> G [i; 0] = rsum (map (fun j => elem0 m v [i; j]) (zrange n1)).
Proof.
  intros W D Hd Rv Hk. destruct (transp_shows v n0 n1 W D) as (Wt & Dt & S). unfold rv2_reduce1.
  destruct (reduce0_ok (rv2_transp v) m n1 n0 Wt Dt (transp_distinct v n0 n1 W D Hd) (shows_readable m _ _ _ S Rv) Hk) as (m' & E & G & B & H). exists m'. split; [exact E|].
  exists (fun ix => G [nth 1 ix 0; nth 0 ix 0]). split; [exact (whole_becomes m m' _ v _ _ G S (transp_inv v n0 n1 W D) B)|]. intros i Hi. cbn [nth]. rewrite H by assumption. apply rsum_ext.
  intros j Hj. apply in_zrange in Hj. rewrite (shows_elem0 m _ _ _ [j; i] S) by (rewrite Dt; now apply in_range_2). reflexivity.
Qed.
Lemma then_add r v w f m m1 G (add : memR -> res memR) : shows w v f -> vwf w -> vwf r -> vdims r = vdims w -> distinct_cells r -> readable m r -> disjoint_views r v ->
  becomes v G m m1 -> (zipable r w m1 -> exists m', add m1 = Ok m' /\ updates cadd r w m1 m') ->
  exists m', add m1 = Ok m' /\ (forall ix u, in_range ix (vdims r) -> elem m r ix = Some u -> elem m' r ix = Some (cadd u (G (f ix)))) /\ untouched2 m m' r v.
Proof.
  intros S Ww Wr D Hd Rr Dj B Ha. destruct (becomes_end _ _ _ _ B) as (R1 & U1 & E1).
  assert (Dv : disjoint_views v r) by (intros ix jx Hi Hj E; now apply (Dj jx ix)).
  assert (Dw : disjoint_views r w) by (eapply shows_disjoint_r; eassumption).
  destruct Ha as (m' & E & H & U).
  - repeat split; try assumption; try apply Wr; try apply Ww; [congruence|now apply (keep_readable v r m m1)|now apply (shows_readable m1 w v f)|]. intros ix jx Hi Hj Ea. exfalso. now apply (Dw ix jx).
  - exists m'. split; [exact E|]. split.
    + intros ix u Hix Hu. apply H; [assumption|now rewrite (disjoint_keep v r m m1)|]. rewrite D in Hix. rewrite (window_elem m1 w v f S ix Hix). destruct (S ix Hix) as [I _]. rewrite (readable_elem m1 v (f ix) R1 I). now rewrite E1.
    + intros b a H1 H2. rewrite U by assumption. now apply U1.
Qed.
Lemma reduces_into_ok v r m n0 n1 : vwf v -> vdims v = [n0; n1] -> distinct_cells v -> readable m v -> vwf r -> distinct_cells r -> readable m r -> disjoint_views r v ->
  (vdims r = [n1] -> ok_rows v n0 -> exists m', rv2_reduce0_into v r m = Ok m' /\
     (forall j u, 0 <= j < n1 -> elem m r [j] = Some u -> elem m' r [j] = Some (cadd u (rsum (map (fun i => elem0 m v [i; j]) (zrange n0))))) /\ untouched2 m m' r v) /\
  (vdims r = [n0] -> ok_rows (rv2_transp v) n1 -> exists m', rv2_reduce1_into v r m = Ok m' /\
     (forall i u, 0 <= i < n0 -> elem m r [i] = Some u -> elem m' r [i] = Some (cadd u (rsum (map (fun j => elem0 m v [i; j]) (zrange n1))))) /\ untouched2 m m' r v).
Proof.
  intros W D Hd Rv Wr Hdr Rr Dj. destruct (slices2_shows v n0 n1 W D) as [S0 S1]. split; intros Dr Hk.
  - unfold rv2_reduce0_into. rewrite (nd_eq r _ _ Dr), !(nd_eq v _ _ D). cbn [nth]. rewrite Z.eqb_refl. cbn [assrt]. destruct (reduce0_ok v m n0 n1 W D Hd Rv Hk) as (m1 & -> & G & B & H). cbn [bind].
    destruct (S0 0) as (Ww & Dw & Sw); [destruct Hk; lia|].
    destruct (then_add r v _ _ m m1 G (rv1_add r (rv2_slice0 v 0)) Sw Ww Wr) as (m' & E & A & U); try assumption; [congruence|intro Z; now apply (add1_ok r _ m1 n1)|].
    exists m'. split; [exact E|]. split; [|exact U]. intros j u Hj Hu. rewrite (A [j] u); [|rewrite Dr; repeat constructor; lia|assumption]. now rewrite H.
  - unfold rv2_reduce1_into. rewrite (nd_eq r _ _ Dr), !(nd_eq v _ _ D). cbn [nth]. rewrite Z.eqb_refl. cbn [assrt]. destruct (reduce1_ok v m n0 n1 W D Hd Rv Hk) as (m1 & -> & G & B & H). cbn [bind].
    destruct (S1 0) as (Ww & Dw & Sw); [destruct Hk; lia|].
    destruct (then_add r v _ _ m m1 G (rv1_add r (rv2_slice1 v 0)) Sw Ww Wr) as (m' & E & A & U); try assumption; [congruence|intro Z; now apply (add1_ok r _ m1 n0)|].
    exists m'. split; [exact E|]. split; [|exact U]. intros j u Hj Hu. rewrite (A [j] u); [|rewrite Dr; repeat constructor; lia|assumption]. cbn [app]. now rewrite H.
Qed.

(* ---- 3-tensors ---- *)
Lemma dm_at n i j : 0 <= j < n -> (i * n + j) / n = i /\ (i * n + j) mod n = j.
Proof. intro H. split; [rewrite Z.div_add_l by lia; rewrite Z.div_small by lia; lia|]. rewrite Z.add_comm, Z_mod_plus_full. now apply Z.mod_small. Qed.
Lemma fuse12_inv n0 n1 n2 ix : in_range ix [n0; n1; n2] ->
  in_range [nth 0 ix 0; nth 1 ix 0 * n2 + nth 2 ix 0] [n0; n1 * n2] /\
  [nth 0 ix 0; (nth 1 ix 0 * n2 + nth 2 ix 0) / n2; (nth 1 ix 0 * n2 + nth 2 ix 0) mod n2] = ix.
Proof.
  intro Hix. apply in_range_3_inv in Hix as (i & j & k & -> & Hi & Hj & Hk). cbn [nth]. destruct (dm_at n2 j k Hk) as [-> ->]. split; [|reflexivity]. apply in_range_2; [assumption|nia].
Qed.
Lemma fuse01_inv n0 n1 n2 ix : in_range ix [n0; n1; n2] ->
  in_range [nth 0 ix 0 * n1 + nth 1 ix 0; nth 2 ix 0] [n0 * n1; n2] /\
  [(nth 0 ix 0 * n1 + nth 1 ix 0) / n1; (nth 0 ix 0 * n1 + nth 1 ix 0) mod n1; nth 2 ix 0] = ix.
Proof.
  intro Hix. apply in_range_3_inv in Hix as (i & j & k & -> & Hi & Hj & Hk). cbn [nth]. destruct (dm_at n1 i j Hj) as [-> ->]. split; [|reflexivity]. apply in_range_2; [nia|assumption].
Qed.
Lemma fused_distinct w v f n0 n1 : shows w v f -> vdims w = [n0; n1] -> (forall i j k l, 0 <= i < n0 -> 0 <= j < n1 -> 0 <= k < n0 -> 0 <= l < n1 -> f [i; j] = f [k; l] -> i = k /\ j = l) ->
  distinct_cells v -> distinct_cells w.
Proof.
  intros S D H Hd. apply (shows_distinct _ _ _ S); [|assumption]. rewrite D. intros ix jx Hi Hj E. apply in_range_2_inv in Hi as (i & j & -> & Hi & Hj'). apply in_range_2_inv in Hj as (k & l & -> & Hk & Hl).
  destruct (H i j k l) as [-> ->]; try assumption. reflexivity.
Qed.
Lemma div_mod_inj n a b : a / n = b / n -> a mod n = b mod n -> n <> 0 -> a = b.
Proof. intros H1 H2 Hn. rewrite (Z.div_mod a n Hn), (Z.div_mod b n Hn). congruence. Qed.
Lemma fuse01_distinct v n0 n1 n2 : vdims v = [n0; n1; n2] -> vwf v -> reg3 v = true -> distinct_cells v -> distinct_cells (View (vblk v) (voff v) [n0 * n1; n2] [n2; 1]).
Proof.
  intros D W Hr Hd. destruct (fuse3_shows v n0 n1 n2 W D Hr) as [(w & _ & -> & _ & S) _]. apply (fused_distinct _ v _ (n0 * n1) n2 S eq_refl); [|assumption]. cbn [nth]. intros i j k l Hi Hj Hk Hl E. injection E as E1 E2 E3.
  split; [|assumption]. apply (div_mod_inj n1); try assumption. intros ->. lia.
Qed.
Lemma fuse12_distinct v n0 n1 n2 : vdims v = [n0; n1; n2] -> vwf v -> reg3 v = true -> distinct_cells v -> distinct_cells (View (vblk v) (voff v) [n0; n1 * n2] [n1 * n2; 1]).
Proof.
  intros D W Hr Hd. destruct (fuse3_shows v n0 n1 n2 W D Hr) as [_ (w & _ & -> & _ & S)]. apply (fused_distinct _ v _ n0 (n1 * n2) S eq_refl); [|assumption]. cbn [nth]. intros i j k l Hi Hj Hk Hl E. injection E as E1 E2 E3.
  split; [assumption|]. apply (div_mod_inj n2); try assumption. intros ->. lia.
Qed.
Lemma reduce3_0_ok v m n0 n1 n2 : vwf v -> vdims v = [n0; n1; n2] -> distinct_cells v -> readable m v -> reg3 v = true -> 2 <= n0 ->
  exists m', rv3_reduce0 v m = Ok m' /\ exists G, becomes v G m m' /\ forall j k, 0 <= j < n1 -> 0 <= k < n2 -> G [0; j; k] = rsum (map (fun i => elem0 m v [i; j; k]) (zrange n0)).
Proof.
  intros W D Hd Rv Hr Hn. destruct (fuse3_shows v n0 n1 n2 W D Hr) as [_ (w & Ew & Ew2 & Ww & S)]. unfold rv3_reduce0. rewrite Ew. cbn [bind].
  pose proof (fuse12_distinct v n0 n1 n2 D W Hr Hd) as Hdw. rewrite <- Ew2 in Hdw. assert (Dw : vdims w = [n0; n1 * n2]) by now rewrite Ew2.
  destruct (reduce0_ok w m n0 (n1 * n2) Ww Dw Hdw (shows_readable m _ _ _ S Rv)) as (m' & E & G & B & H); [split; [lia|intros _; lia]|].
  exists m'. split; [exact E|]. exists (fun ix => G [nth 0 ix 0; nth 1 ix 0 * n2 + nth 2 ix 0]). split.
  - apply (whole_becomes m m' w v _ (fun ix => [nth 0 ix 0; nth 1 ix 0 * n2 + nth 2 ix 0]) G S); [|assumption]. rewrite D, Dw. cbn [nth]. apply fuse12_inv.
  - intros j k Hj Hk. cbn [nth]. rewrite H by nia. apply rsum_ext. intros i Hi. apply in_zrange in Hi. rewrite (shows_elem0 m _ _ _ [i; j * n2 + k] S) by (rewrite Dw; apply in_range_2; [assumption|nia]).
    cbn [nth]. destruct (dm_at n2 j k Hk) as [-> ->]. reflexivity.
Qed.
Lemma reduce3_2_ok v m n0 n1 n2 : vwf v -> vdims v = [n0; n1; n2] -> distinct_cells v -> readable m v -> reg3 v = true -> 1 <= n2 -> n0 * n1 * n2 <> 1 ->
  exists m', rv3_reduce2 v m = Ok m' /\ exists G, becomes v G m m' /\ forall i j, 0 <= i < n0 -> 0 <= j < n1 -> G [i; j; 0] = rsum (map (fun k => elem0 m v [i; j; k]) (zrange n2)).
Proof.
  intros W D Hd Rv Hr Hn Hn1. destruct (fuse3_shows v n0 n1 n2 W D Hr) as [(w & Ew & Ew2 & Ww & S) _]. unfold rv3_reduce2. rewrite Ew. cbn [bind].
  pose proof (fuse01_distinct v n0 n1 n2 D W Hr Hd) as Hdw. rewrite <- Ew2 in Hdw. assert (Dw : vdims w = [n0 * n1; n2]) by now rewrite Ew2.
  destruct (reduce1_ok w m (n0 * n1) n2 Ww Dw Hdw (shows_readable m _ _ _ S Rv)) as (m' & E & G & B & H).
  { split; [lia|]. rewrite Ew2. unfold reg2, rv2_transp, nd, sd. cbn [vdims vstr nth]. intros Q En. apply Hn1. rewrite En in *. apply andb_true_iff in Q as [Q1 Q2]. lia. }
  exists m'. split; [exact E|]. exists (fun ix => G [nth 0 ix 0 * n1 + nth 1 ix 0; nth 2 ix 0]). split.
  - apply (whole_becomes m m' w v _ (fun ix => [nth 0 ix 0 * n1 + nth 1 ix 0; nth 2 ix 0]) G S); [|assumption]. rewrite D, Dw. cbn [nth]. apply fuse01_inv.
  - intros i j Hi Hj. cbn [nth]. rewrite H by nia. apply rsum_ext. intros k Hk. apply in_zrange in Hk. rewrite (shows_elem0 m _ _ _ [i * n1 + j; k] S) by (rewrite Dw; apply in_range_2; [nia|assumption]).
    cbn [nth]. destruct (dm_at n1 i j Hj) as [-> ->]. reflexivity.
Qed.

(* slices: a loop over the first axis, each step changing its own slice *)
Lemma slice_loop v m n0 n1 n2 (step : Z -> memR -> res memR) (P : (list Z -> R) -> Z -> (list Z -> R) -> Prop) :
  vwf v -> vdims v = [n0; n1; n2] -> distinct_cells v -> readable m v ->
  (forall i m1, 0 <= i < n0 -> untouched m m1 v -> readable m1 (rv3_slice0 v i) -> exists m2, step i m1 = Ok m2 /\ exists G, becomes (rv3_slice0 v i) G m1 m2 /\ P (elem0 m1 (rv3_slice0 v i)) i G) ->
  (forall M M' i G, (forall ix, in_range ix [n1; n2] -> M ix = M' ix) -> P M i G -> P M' i G) ->
  exists m', forZ n0 step m = Ok m' /\ exists G, becomes v G m m' /\ forall i, 0 <= i < n0 -> exists Gi, P (fun ix => elem0 m v (i :: ix)) i Gi /\ forall jx, in_range jx [n1; n2] -> G (i :: jx) = Gi jx.
Proof.
  intros W D Hd Rv Hs Pe. destruct (slices3_shows v n0 n1 n2 W D) as [S0 _]. unfold forZ.
  destruct (foldM_inv (fun done m' => exists G, becomes v G m m' /\ (forall i, 0 <= i < n0 -> ~ In i done -> forall jx, in_range jx [n1; n2] -> G (i :: jx) = elem0 m v (i :: jx)) /\
     (forall i, In i done -> exists Gi, P (fun ix => elem0 m v (i :: ix)) i Gi /\ forall jx, in_range jx [n1; n2] -> G (i :: jx) = Gi jx)) step (zrange n0) m) as (m' & E & G & B & _ & H).
  - exists (elem0 m v). split; [now apply becomes_start|]. split; [reflexivity|]. intros i [].
  - intros done i rest m1 El (G & B & H1 & H2).
    assert (Hi : 0 <= i < n0) by (apply in_zrange; rewrite El; apply in_or_app; right; now left).
    assert (Hn : ~ In i done). { pose proof (zrange_nodup n0) as Nd. rewrite El in Nd. apply NoDup_remove_2 in Nd. intro I. apply Nd. apply in_or_app. now left. }
    destruct (becomes_end _ _ _ _ B) as (R1 & U1 & E1). destruct (S0 i Hi) as (Wi & Di & Si).
    destruct (Hs i m1 Hi U1 (shows_readable m1 _ _ _ Si R1)) as (m2 & E2 & Gi & Bi & Pi). exists m2. split; [exact E2|].
    exists (fun ix => match ix with [] => G ix | k :: jx => if k =? i then Gi jx else G ix end). split; [|split].
    + apply (sub_becomes m m1 m2 _ v _ G Gi _ Si Hd B Bi).
      * intros jx Hj. now rewrite Z.eqb_refl.
      * intros ix Hix Hno. destruct ix as [|k jx]; [reflexivity|]. destruct (k =? i) eqn:Ek; [|reflexivity]. apply Z.eqb_eq in Ek as ->. exfalso. rewrite D in Hix. inversion Hix; subst. apply (Hno jx); [now rewrite Di|reflexivity].
    + intros k Hk Nk jx Hj. replace (k =? i) with false; [apply H1; try assumption; intro I; apply Nk; apply in_or_app; now left|]. symmetry. apply Z.eqb_neq. intros ->. apply Nk. apply in_or_app. right. now left.
    + intros k Hk. apply in_app_or in Hk as [Hk|[<-|[]]].
      * destruct (H2 k Hk) as (Gk & Pk & Ek). exists Gk. split; [assumption|]. intros jx Hj. replace (k =? i) with false; [now apply Ek|]. symmetry. apply Z.eqb_neq. congruence.
      * exists Gi. split; [|intros jx Hj; now rewrite Z.eqb_refl]. revert Pi. apply Pe. intros ix Hix. rewrite (shows_elem0 m1 _ _ _ ix Si) by now rewrite Di. rewrite E1 by (rewrite D; now constructor). now apply H1.
  - exists m'. split; [exact E|]. exists G. split; [exact B|]. intros i Hi. apply H. now apply in_zrange.
Qed.
Lemma slice_distinct v n0 n1 n2 i : vwf v -> vdims v = [n0; n1; n2] -> distinct_cells v -> 0 <= i < n0 -> distinct_cells (rv3_slice0 v i).
Proof.
  intros W D Hd Hi. destruct (slices3_shows v n0 n1 n2 W D) as [S0 _]. destruct (S0 i Hi) as (_ & _ & S). apply (shows_distinct _ _ _ S); [|assumption]. intros ix jx _ _ E. now injection E.
Qed.
Lemma reduce3_1_ok v m n0 n1 n2 : vwf v -> vdims v = [n0; n1; n2] -> distinct_cells v -> readable m v -> 1 <= n1 -> (reg3 v = true -> n1 <> 1) ->
  exists m', rv3_reduce1 v m = Ok m' /\ exists G, becomes v G m m' /\ forall i k, 0 <= i < n0 -> 0 <= k < n2 -> G [i; 0; k] = rsum (map (fun j => elem0 m v [i; j; k]) (zrange n1)).
Proof.
  intros W D Hd Rv Hn Hr. unfold rv3_reduce1. rewrite !(nd_eq v _ _ D). cbn [nth]. destruct (slices3_shows v n0 n1 n2 W D) as [S0 _]. destruct (reg3 v) eqn:Er.
  - specialize (Hr eq_refl).
    destruct (slice_loop v m n0 n1 n2 (fun i => rv2_reduce0 (rv3_slice0 v i)) (fun M i G => forall k, 0 <= k < n2 -> G [0; k] = rsum (map (fun j => M [j; k]) (zrange n1))) W D Hd Rv) as (m' & E & G & B & H).
    + intros i m1 Hi U1 R1. destruct (S0 i Hi) as (Wi & Di & Si).
      destruct (reduce0_ok (rv3_slice0 v i) m1 n1 n2 Wi Di (slice_distinct v n0 n1 n2 i W D Hd Hi) R1) as (m2 & E2 & G & B2 & H2); [split; [lia|intros _; assumption]|]. exists m2. split; [exact E2|]. exists G. now split.
    + intros M M' i G He HP k Hk. rewrite HP by assumption. apply rsum_ext. intros j Hj. apply in_zrange in Hj. apply He. now apply in_range_2.
    + exists m'. split; [exact E|]. exists G. split; [exact B|]. intros i k Hi Hk. destruct (H i Hi) as (Gi & P & EG). rewrite EG by (apply in_range_2; lia). now apply P.
  - rewrite nest2_fold.
    (* lines along the middle axis: the first two axes exchanged *)
    destruct (transp01_shows v n0 n1 n2 W D) as (Wt & Dt & St). set (w := rv3_transp01 v) in *.
    assert (Hdw : distinct_cells w). { apply (shows_distinct _ _ _ St); [|assumption]. rewrite Dt. intros ix jx Hi Hj E. apply in_range_3_inv in Hi as (a & b & c & -> & _). apply in_range_3_inv in Hj as (a' & b' & c' & -> & _). cbn [nth] in E. congruence. }
    assert (Va : forall a b c, vaddr v [a; b; c] = vaddr w [b; a; c]).
    { intros a b c. rewrite (vaddr3 v a b c n0 n1 n2 W D), (vaddr3 w b a c n1 n0 n2 Wt Dt). unfold w, rv3_transp01, sd. cbn. do 2 f_equal. lia. }
    rewrite (foldM_ext _ (fun ix m => do t <- line_sum w n1 (fun i => i :: ix) m; put_at w (0 :: ix) t m)).
    2:{ intros ix s Hix. apply in_all_indices, in_range_2_inv in Hix as (a & b & -> & _ & _). cbn [nth]. unfold line_sum, put_at, get_at. rewrite Va. f_equal. unfold forZ. apply foldM_ext. intros i t _. now rewrite Va. }
    destruct (slicewise (fun ix m => do t <- line_sum w n1 (fun i => i :: ix) m; put_at w (0 :: ix) t m)
      (fun M ix => match ix with [] => M ix | i :: jx => if i =? 0 then rsum (map (fun k => M (k :: jx)) (zrange n1)) else M ix end) m w [n0; n2] n1 Dt) with (M := elem0 m w) (m := m) as (m' & E & B).
    + intros M M' i jx H. destruct (i =? 0); [|apply H]. apply rsum_ext. intros k _. apply H.
    + intros jx M m1 Hj B. destruct (becomes_end _ _ _ _ B) as (R1 & _ & E1). rewrite line_sum_ok; [|assumption|assumption|intros i Hi; rewrite Dt; now constructor]. cbn [bind].
      rewrite (rsum_ext R _ (fun k => M (k :: jx))) by (intros i Hi; apply in_zrange in Hi; apply E1; rewrite Dt; now constructor).
      destruct (put_becomes m m1 w M (0 :: jx) (rsum (map (fun k => M (k :: jx)) (zrange n1))) Wt Hdw B) as (m2 & E2 & B2); [rewrite Dt; constructor; [lia|assumption]|].
      exists m2. split; [exact E2|]. revert B2. apply becomes_ext. intros ix Hix. rewrite Dt in Hix. destruct ix as [|i kx]; [inversion Hix|]. cbn [eqlb tl].
      destruct (eqlb kx jx) eqn:Ek; rewrite ?andb_true_r, ?andb_false_r; [apply eqlb_eq in Ek as ->|reflexivity]. reflexivity.
    + apply becomes_start. now apply (shows_readable m _ _ _ St).
    + exists m'. split; [exact E|]. eexists. split.
      * refine (whole_becomes m m' w v _ (fun ix => [nth 1 ix 0; nth 0 ix 0; nth 2 ix 0]) _ St _ B). rewrite D, Dt. intros ix Hix. apply in_range_3_inv in Hix as (a & b & c & -> & Ha & Hb & Hc). cbn [nth]. split; [now apply in_range_3|reflexivity].
      * intros i k Hi Hk. cbn [nth]. rewrite Z.eqb_refl. apply rsum_ext. intros j Hj. apply in_zrange in Hj. rewrite (shows_elem0 m _ _ _ [j; i; k] St) by (rewrite Dt; now apply in_range_3). reflexivity.
Qed.
Lemma reduces3_into_ok v r m n0 n1 n2 : vwf v -> vdims v = [n0; n1; n2] -> distinct_cells v -> readable m v -> vwf r -> distinct_cells r -> readable m r -> disjoint_views r v ->
  (vdims r = [n1; n2] -> reg3 v = true -> 2 <= n0 -> exists m', rv3_reduce0_into v r m = Ok m' /\
     (forall j k u, 0 <= j < n1 -> 0 <= k < n2 -> elem m r [j; k] = Some u -> elem m' r [j; k] = Some (cadd u (rsum (map (fun i => elem0 m v [i; j; k]) (zrange n0))))) /\ untouched2 m m' r v) /\
  (vdims r = [n0; n2] -> 1 <= n1 -> (reg3 v = true -> n1 <> 1) -> exists m', rv3_reduce1_into v r m = Ok m' /\
     (forall i k u, 0 <= i < n0 -> 0 <= k < n2 -> elem m r [i; k] = Some u -> elem m' r [i; k] = Some (cadd u (rsum (map (fun j => elem0 m v [i; j; k]) (zrange n1))))) /\ untouched2 m m' r v) /\
  (vdims r = [n0; n1] -> reg3 v = true -> 1 <= n2 -> n0 * n1 * n2 <> 1 -> exists m', rv3_reduce2_into v r m = Ok m' /\
     (forall i j u, 0 <= i < n0 -> 0 <= j < n1 -> elem m r [i; j] = Some u -> elem m' r [i; j] = Some (cadd u (rsum (map (fun k => elem0 m v [i; j; k]) (zrange n2))))) /\ untouched2 m m' r v).
Proof.
  intros W D Hd Rv Wr Hdr Rr Dj. destruct (slices3_shows v n0 n1 n2 W D) as (S0 & S1 & S2). split; [|split].
  - intros Dr Hr Hn. unfold rv3_reduce0_into. destruct (reduce3_0_ok v m n0 n1 n2 W D Hd Rv Hr Hn) as (m1 & -> & G & B & H). cbn [bind]. destruct (S0 0) as (Ww & Dw & Sw); [lia|].
    destruct (then_add r v _ _ m m1 G (rv2_add r (rv3_slice0 v 0)) Sw Ww Wr) as (m' & E & A & U); try assumption; [congruence|intro Z; now apply (add2_ok r _ m1 n1 n2)|].
    exists m'. split; [exact E|]. split; [|exact U]. intros j k u Hj Hk Hu. rewrite (A [j; k] u); [|rewrite Dr; now apply in_range_2|assumption]. now rewrite H.
  - intros Dr Hn Hr. unfold rv3_reduce1_into. destruct (reduce3_1_ok v m n0 n1 n2 W D Hd Rv Hn Hr) as (m1 & -> & G & B & H). cbn [bind]. destruct (S1 0) as (Ww & Dw & Sw); [lia|].
    destruct (then_add r v _ _ m m1 G (rv2_add r (rv3_slice1 v 0)) Sw Ww Wr) as (m' & E & A & U); try assumption; [congruence|intro Z; now apply (add2_ok r _ m1 n0 n2)|].
    exists m'. split; [exact E|]. split; [|exact U]. intros j k u Hj Hk Hu. rewrite (A [j; k] u); [|rewrite Dr; now apply in_range_2|assumption]. cbn [nth]. now rewrite H.
  - intros Dr Hr Hn Hn1. unfold rv3_reduce2_into. destruct (reduce3_2_ok v m n0 n1 n2 W D Hd Rv Hr Hn Hn1) as (m1 & -> & G & B & H). cbn [bind]. destruct (S2 0) as (Ww & Dw & Sw); [lia|].
    destruct (then_add r v _ _ m m1 G (rv2_add r (rv3_slice2 v 0)) Sw Ww Wr) as (m' & E & A & U); try assumption; [congruence|intro Z; now apply (add2_ok r _ m1 n0 n1)|].
    exists m'. split; [exact E|]. split; [|exact U]. intros j k u Hj Hk Hu. rewrite (A [j; k] u); [|rewrite Dr; now apply in_range_2|assumption]. cbn [app]. now rewrite H.
Qed.

(* ---- broadcasts ---- *)
Lemma fill_line v m0 f n t : vwf v -> distinct_cells v -> (forall i, 0 <= i < n -> in_range (f i) (vdims v)) ->
  forall M m, becomes v M m0 m -> exists m', forZ n (fun i => put_at v (f i) t) m = Ok m' /\ becomes v (fun ix => if existsb (fun i => eqlb ix (f i)) (zrange n) then t else M ix) m0 m'.
Proof.
  intros W Hd Hf M m B. unfold forZ.
  destruct (foldM_inv (fun done m' => becomes v (fun ix => if existsb (fun i => eqlb ix (f i)) done then t else M ix) m0 m') (fun i => put_at v (f i) t) (zrange n) m) as (m' & E & H); [exact B| |eauto].
  intros done i rest m1 El B1. assert (Hi : 0 <= i < n) by (apply in_zrange; rewrite El; apply in_or_app; right; now left).
  destruct (put_becomes m0 m1 v _ (f i) t W Hd B1 (Hf i Hi)) as (m2 & E & B2). exists m2. split; [exact E|]. revert B2. apply becomes_ext. intros ix _. rewrite existsb_app. cbn [existsb]. rewrite orb_false_r.
  destruct (eqlb ix (f i)), (existsb (fun i0 => eqlb ix (f i0)) done); reflexivity.
Qed.
Lemma existsb_at n (P : Z -> bool) i : 0 <= i < n -> (forall k, P k = true <-> k = i) -> existsb P (zrange n) = true.
Proof. intros Hi H. apply existsb_exists. exists i. split; [now apply in_zrange|now apply H]. Qed.
Lemma broadcast0_ok v x m n0 n1 : operands v [x] m -> vdims v = [n0; n1] -> vdims x = [n1] -> (1 <= n0 \/ reg2 v && reg1 x = false) ->
  exists m', rv2_broadcast0 v x m = Ok m' /\ becomes v (fun ix => elem0 m x [nth 1 ix 0]) m m'.
Proof.
  intros (W & Hd & Rv & F) D Dx Hn. inversion F as [|? ? (Wx & Rx & Dj) _]; subst. destruct (reg2 v && reg1 x) eqn:Er.
  - apply andb_true_iff in Er as [E1 E2]. destruct Hn as [Hn|]; [|discriminate]. now apply (broadcast_reg v n0 n1).
  - unfold rv2_broadcast0. rewrite Er, !(nd_eq v _ _ D), !(nd_eq x _ _ Dx). cbn [nth]. rewrite Z.eqb_refl. cbn [assrt].
    change (forZ n1 (fun j m0 => do t <- get_at x [j] m0; forZ n0 (fun i => put_at v [i; j] t) m0) m) with
           (nest1 n1 (fun jx m0 => do t <- get_at x [nth 0 jx 0] m0; forZ n0 (fun i => put_at v [i; nth 0 jx 0] t) m0) m). rewrite nest1_fold.
    destruct (slicewise (fun jx m0 => do t <- get_at x [nth 0 jx 0] m0; forZ n0 (fun i => put_at v [i; nth 0 jx 0] t) m0) (fun _ ix => elem0 m x [nth 1 ix 0]) m v [n1] n0 D) with (M := elem0 m v) (m := m) as (m' & E & B); [reflexivity| |now apply becomes_start|eauto].
    intros jx M m1 Hj B. apply in_range_1_inv in Hj as (j & -> & Hj). cbn [nth]. rewrite (keep_get v x m m1 [j]); [|assumption|assumption|assumption|apply B|rewrite Dx; repeat constructor; lia]. cbn [bind].
    destruct (fill_line v m (fun i => [i; j]) n0 (elem0 m x [j]) W Hd) with (M := M) (m := m1) as (m2 & E2 & B2); [intros i Hi; rewrite D; now apply in_range_2|assumption|]. exists m2. split; [exact E2|].
    revert B2. apply becomes_ext. intros ix Hix. rewrite D in Hix. apply in_range_2_inv in Hix as (a & b & -> & Ha & Hb). cbn [tl nth eqlb]. rewrite !andb_true_r. destruct (b =? j) eqn:Eb.
    + apply Z.eqb_eq in Eb as ->. rewrite (existsb_at n0 _ a Ha); [reflexivity|]. intro k. rewrite andb_true_r. lia.
    + replace (existsb (fun i => (a =? i) && false) (zrange n0)) with false; [reflexivity|]. symmetry. apply not_true_is_false. intro Q. apply existsb_exists in Q as (? & _ & Q). rewrite andb_false_r in Q. discriminate.
Qed.
Lemma broadcast1_ok v x m n0 n1 : operands v [x] m -> vdims v = [n0; n1] -> vdims x = [n0] ->
  exists m', rv2_broadcast1 v x m = Ok m' /\ becomes v (fun ix => elem0 m x [nth 0 ix 0]) m m'.
Proof.
  intros (W & Hd & Rv & F) D Dx. inversion F as [|? ? (Wx & Rx & Dj) _]; subst. unfold rv2_broadcast1. rewrite !(nd_eq v _ _ D), !(nd_eq x _ _ Dx). cbn [nth]. rewrite Z.eqb_refl. cbn [assrt]. unfold forZ at 1.
  destruct (foldM_inv (fun done m' => becomes v (fun ix => if in_dec Z.eq_dec (nth 0 ix 0) done then elem0 m x [nth 0 ix 0] else elem0 m v ix) m m')
    (fun i m => do t <- get_at x [i] m; forZ n1 (fun j => put_at v [i; j] t) m) (zrange n0) m) as (m' & E & B).
  - now apply becomes_start.
  - intros done i rest m1 El B. assert (Hi : 0 <= i < n0) by (apply in_zrange; rewrite El; apply in_or_app; right; now left).
    rewrite (keep_get v x m m1 [i]); [|assumption|assumption|assumption|apply B|rewrite Dx; repeat constructor; lia]. cbn [bind].
    destruct (fill_line v m (fun j => [i; j]) n1 (elem0 m x [i]) W Hd) with (m := m1) (1 := B) as (m2 & E2 & B2) || (edestruct (fill_line v m (fun j => [i; j]) n1 (elem0 m x [i]) W Hd) as (m2 & E2 & B2); [intros j Hj; rewrite D; now apply in_range_2|exact B|]).
    exists m2. split; [exact E2|]. revert B2. apply becomes_ext. intros ix Hix. rewrite D in Hix. apply in_range_2_inv in Hix as (a & b & -> & Ha & Hb). cbn [nth eqlb].
    destruct (Z.eq_dec a i) as [->|Na].
    + rewrite (existsb_at n1 _ b Hb) by (intro k; rewrite Z.eqb_refl, andb_true_r; cbn [andb]; lia). destruct (in_dec Z.eq_dec i (done ++ [i])) as [_|N]; [reflexivity|]. exfalso. apply N. apply in_or_app. right. now left.
    + replace (existsb (fun i0 => (a =? i) && ((b =? i0) && true)) (zrange n1)) with false.
      * destruct (in_dec Z.eq_dec a done) as [I|I], (in_dec Z.eq_dec a (done ++ [i])) as [J|J]; try reflexivity; exfalso.
        -- apply J. apply in_or_app. now left.
        -- apply in_app_or in J as [J|[J|[]]]; [contradiction|congruence].
      * symmetry. apply not_true_is_false. intro Q. apply existsb_exists in Q as (? & _ & Q). lia.
  - exists m'. split; [exact E|]. revert B. apply becomes_ext. intros ix Hix. rewrite D in Hix. apply in_range_2_inv in Hix as (a & b & -> & Ha & Hb). cbn [nth].
    destruct (in_dec Z.eq_dec a (zrange n0)) as [_|N]; [reflexivity|]. exfalso. apply N. now apply in_zrange.
Qed.
Lemma becomes_gains v m m' (g : list Z -> R) : becomes v (fun ix => cadd (elem0 m v ix) (g ix)) m m' -> gains v g m m'.
Proof. intros [A B]. split; [|assumption]. intros ix u Hix Hu. rewrite A by assumption. unfold elem0. now rewrite Hu. Qed.
Lemma add_broadcast0_ok v x alpha m n0 n1 : operands v [x] m -> vdims v = [n0; n1] -> vdims x = [n1] ->
  exists m', rv2_add_broadcast0 v x alpha m = Ok m' /\ gains v (fun ix => elem0 m x [nth 1 ix 0]) m m'.
Proof.
  intros (W & Hd & Rv & F) D Dx. inversion F as [|? ? (Wx & Rx & Dj) _]; subst. unfold rv2_add_broadcast0. rewrite !(nd_eq v _ _ D), !(nd_eq x _ _ Dx). cbn [nth]. rewrite Z.eqb_refl. cbn [assrt].
  destruct ((sd x 0 =? 1) && (sd v 1 =? 1)) eqn:Er.
  - apply andb_true_iff in Er as [E1 E2]. apply Z.eqb_eq in E1, E2.
    destruct (acc_gains v (fun ix m => get_at x [nth 1 ix 0] m) (fun ix => elem0 m x [nth 1 ix 0]) m W Hd Rv) as (m' & E & G).
    + intros ix m1 Hix U. rewrite D in Hix. apply in_range_2_inv in Hix as (i & j & -> & Hi & Hj). cbn [nth]. apply (keep_get v x m m1); try assumption. rewrite Dx. repeat constructor; lia.
    + exists m'. split; [|exact G]. rewrite <- E, D, <- nest2_fold. unfold nest2, forZ. apply foldM_ext. intros i s _. unfold flat_add, forZ. apply foldM_ext. intros j s' _. cbn [nth].
      unfold get_at, inc_at. rewrite (vaddr1 x j n1 Wx Dx), (vaddr2 v i j n0 n1 W D), E1, E2. cbn [bind]. unfold loadA. cbn [fst snd]. rewrite !Z.mul_1_r. reflexivity.
  - change (forZ n1 (fun j m0 => do t <- get_at x [j] m0; forZ n0 (fun i => inc_at v [i; j] t) m0) m) with
           (nest1 n1 (fun jx m0 => do t <- get_at x [nth 0 jx 0] m0; forZ n0 (fun i => inc_at v [i; nth 0 jx 0] t) m0) m). rewrite nest1_fold.
    destruct (slicewise (fun jx m0 => do t <- get_at x [nth 0 jx 0] m0; forZ n0 (fun i => inc_at v [i; nth 0 jx 0] t) m0) (fun M ix => cadd (M ix) (elem0 m x [nth 1 ix 0])) m v [n1] n0 D) with (M := elem0 m v) (m := m) as (m' & E & B).
    + intros M M' i jx H. now rewrite H.
    + intros jx M m1 Hj B. apply in_range_1_inv in Hj as (j & -> & Hj). cbn [nth]. rewrite (keep_get v x m m1 [j]); [|assumption|assumption|assumption|apply B|rewrite Dx; repeat constructor; lia]. cbn [bind]. unfold forZ.
      destruct (foldM_inv (fun done m' => becomes v (fun ix => if eqlb (tl ix) [j] && (if in_dec Z.eq_dec (hd 0 ix) done then true else false) then cadd (M ix) (elem0 m x [nth 1 ix 0]) else M ix) m m')
        (fun i => inc_at v [i; j] (elem0 m x [j])) (zrange n0) m1) as (m2 & E2 & B2).
      * revert B. apply becomes_ext. intros ix _. cbn. now rewrite andb_false_r.
      * intros done i rest m2 El B2. assert (Hi : 0 <= i < n0) by (apply in_zrange; rewrite El; apply in_or_app; right; now left).
        assert (Hn : ~ In i done). { pose proof (zrange_nodup n0) as Nd. rewrite El in Nd. apply NoDup_remove_2 in Nd. intro I. apply Nd. apply in_or_app. now left. }
        destruct (inc_becomes m m2 v _ [i; j] (elem0 m x [j]) W Hd B2) as (m3 & E3 & B3); [rewrite D; now apply in_range_2|]. exists m3. split; [exact E3|]. revert B3. apply becomes_ext.
        intros ix Hix. rewrite D in Hix. apply in_range_2_inv in Hix as (a & b & -> & Ha & Hb). cbn [tl nth eqlb hd]. rewrite !andb_true_r, Z.eqb_refl. cbn [andb].
        destruct (b =? j) eqn:Eb; rewrite ?andb_true_r, ?andb_false_r; cbn [andb]; [|reflexivity]. apply Z.eqb_eq in Eb as ->. destruct (a =? i) eqn:Ea.
        -- apply Z.eqb_eq in Ea as ->. destruct (in_dec Z.eq_dec i done); [contradiction|]. destruct (in_dec Z.eq_dec i (done ++ [i])) as [_|N]; [reflexivity|]. exfalso. apply N. apply in_or_app. right. now left.
        -- destruct (in_dec Z.eq_dec a done) as [I|I], (in_dec Z.eq_dec a (done ++ [i])) as [J|J]; try reflexivity; exfalso.
           ++ apply J. apply in_or_app. now left.
           ++ apply in_app_or in J as [J|[J|[]]]; [contradiction|lia].
      * exists m2. split; [exact E2|]. revert B2. apply becomes_ext. intros ix Hix. rewrite D in Hix. apply in_range_2_inv in Hix as (a & b & -> & Ha & Hb). cbn [tl nth eqlb hd].
        destruct (in_dec Z.eq_dec a (zrange n0)) as [_|N]; [now rewrite andb_true_r|]. exfalso. apply N. now apply in_zrange.
    + now apply becomes_start.
    + exists m'. split; [exact E|]. now apply becomes_gains.
Qed.
Lemma fuse_operand r x m n0 n1 : vwf x -> readable m x -> disjoint_views r x -> vdims x = [n0; n1] -> sd x 0 = n1 * sd x 1 ->
  vwf (rv2_fuse01 x) /\ readable m (rv2_fuse01 x) /\ disjoint_views r (rv2_fuse01 x) /\ vdims (rv2_fuse01 x) = [n0 * n1] /\
  forall i j, 0 <= i < n0 -> 0 <= j < n1 -> elem0 m (rv2_fuse01 x) [i * n1 + j] = elem0 m x [i; j].
Proof.
  intros W Rx Dj D Es. destruct (fuse2_shows x n0 n1 W D Es) as (Wf & Df & Sf). split; [assumption|]. split; [eapply shows_readable; eassumption|]. split; [eapply shows_disjoint_r; eassumption|]. split; [assumption|].
  intros i j Hi Hj. rewrite (shows_elem0 m _ _ _ [i * n1 + j] Sf) by (rewrite Df; constructor; [nia|constructor]). cbn [nth]. destruct (dm_at n1 i j Hj) as [-> ->]. reflexivity.
Qed.
Lemma broadcasts3_ok v x m n0 n1 n2 : operands v [x] m -> vdims v = [n0; n1; n2] ->
  (vdims x = [n1; n2] -> reg3 v = true -> sd x 0 = n2 * sd x 1 -> 1 <= n0 -> exists m', rv3_broadcast0 v x m = Ok m' /\ becomes v (fun ix => elem0 m x [nth 1 ix 0; nth 2 ix 0]) m m') /\
  (vdims x = [n0; n2] -> 1 <= n1 -> exists m', rv3_broadcast1 v x m = Ok m' /\ becomes v (fun ix => elem0 m x [nth 0 ix 0; nth 2 ix 0]) m m') /\
  (vdims x = [n0; n1] -> reg3 v = true -> sd x 0 = n1 * sd x 1 -> exists m', rv3_broadcast2 v x m = Ok m' /\ becomes v (fun ix => elem0 m x [nth 0 ix 0; nth 1 ix 0]) m m').
Proof.
  intros (W & Hd & Rv & F) D. inversion F as [|? ? (Wx & Rx & Dj) _]; subst. split; [|split].
  - intros Dx Hr Es Hn. unfold rv3_broadcast0. rewrite !(nd_eq v _ _ D), !(nd_eq x _ _ Dx). cbn [nth]. rewrite !Z.eqb_refl. cbn [assrt].
    destruct (fuse3_shows v n0 n1 n2 W D Hr) as [_ (w & Ew & Ew2 & Ww & S)]. rewrite Ew. cbn [bind]. pose proof (fuse12_distinct v n0 n1 n2 D W Hr Hd) as Hdw. rewrite <- Ew2 in Hdw. assert (Dw : vdims w = [n0; n1 * n2]) by now rewrite Ew2.
    destruct (fuse_operand v x m n1 n2 Wx Rx Dj Dx Es) as (Wf & Rf & Djf & Df & Ef).
    destruct (broadcast0_ok w (rv2_fuse01 x) m n0 (n1 * n2)) as (m' & E & B); [|assumption|assumption|now left|].
    { apply operands1; try assumption; [eapply shows_readable; eassumption|]. eapply shows_disjoint_l; eassumption. }
    exists m'. split; [exact E|]. apply (becomes_ext m m' v (fun ix => elem0 m (rv2_fuse01 x) [nth 1 ix 0 * n2 + nth 2 ix 0])).
    + intros ix Hix. rewrite D in Hix. apply in_range_3_inv in Hix as (a & b & c & -> & Ha & Hb & Hc). cbn [nth]. now apply Ef.
    + refine (whole_becomes m m' w v _ (fun ix => [nth 0 ix 0; nth 1 ix 0 * n2 + nth 2 ix 0]) _ S _ B). rewrite D, Dw. cbn [nth]. apply fuse12_inv.
  - intros Dx Hn. unfold rv3_broadcast1. rewrite !(nd_eq v _ _ D), !(nd_eq x _ _ Dx). cbn [nth]. rewrite !Z.eqb_refl. cbn [assrt].
    destruct (slices3_shows v n0 n1 n2 W D) as [S0 _]. destruct (slices2_shows x n0 n2 Wx Dx) as [X0 _].
    destruct (slice_loop v m n0 n1 n2 (fun i => rv2_broadcast0 (rv3_slice0 v i) (rv2_slice0 x i)) (fun _ i G => forall jx, in_range jx [n1; n2] -> G jx = elem0 m x [i; nth 1 jx 0]) W D Hd Rv) as (m' & E & G & B & H).
    + intros i m1 Hi U1 R1. destruct (S0 i Hi) as (Wi & Di & Si). destruct (X0 i Hi) as (Wy & Dy & Sy).
      assert (Dv : disjoint_views v (rv2_slice0 x i)) by (eapply shows_disjoint_r; eassumption).
      destruct (broadcast0_ok (rv3_slice0 v i) (rv2_slice0 x i) m1 n1 n2) as (m2 & E2 & B2); [|assumption|assumption|now left|].
      { apply operands1; try assumption; [now apply (slice_distinct v n0 n1 n2)|apply (keep_readable v _ m m1); try assumption; eapply shows_readable; eassumption|eapply shows_disjoint_l; eassumption]. }
      exists m2. split; [exact E2|]. eexists. split; [exact B2|]. intros jx Hj. apply in_range_2_inv in Hj as (a & b & -> & Ha & Hb). cbn [nth].
      assert (Ib : in_range [b] (vdims (rv2_slice0 x i))) by (rewrite Dy; repeat constructor; lia).
      rewrite (keep_elem0 v _ m m1) by assumption. rewrite (shows_elem0 m _ _ _ [b] Sy) by assumption. reflexivity.
    + intros M M' i G _ HP. exact HP.
    + exists m'. split; [exact E|]. revert B. apply becomes_ext. intros ix Hix. rewrite D in Hix. apply in_range_3_inv in Hix as (a & b & c & -> & Ha & Hb & Hc). destruct (H a Ha) as (Ga & P & EG).
      rewrite EG by now apply in_range_2. rewrite P by now apply in_range_2. reflexivity.
  - intros Dx Hr Es. unfold rv3_broadcast2. rewrite !(nd_eq v _ _ D), !(nd_eq x _ _ Dx). cbn [nth]. rewrite !Z.eqb_refl. cbn [assrt].
    destruct (fuse3_shows v n0 n1 n2 W D Hr) as [(w & Ew & Ew2 & Ww & S) _]. rewrite Ew. cbn [bind]. pose proof (fuse01_distinct v n0 n1 n2 D W Hr Hd) as Hdw. rewrite <- Ew2 in Hdw. assert (Dw : vdims w = [n0 * n1; n2]) by now rewrite Ew2.
    destruct (fuse_operand v x m n0 n1 Wx Rx Dj Dx Es) as (Wf & Rf & Djf & Df & Ef).
    destruct (broadcast1_ok w (rv2_fuse01 x) m (n0 * n1) n2) as (m' & E & B); [|assumption|assumption|].
    { apply operands1; try assumption; [eapply shows_readable; eassumption|]. eapply shows_disjoint_l; eassumption. }
    exists m'. split; [exact E|]. apply (becomes_ext m m' v (fun ix => elem0 m (rv2_fuse01 x) [nth 0 ix 0 * n1 + nth 1 ix 0])).
    + intros ix Hix. rewrite D in Hix. apply in_range_3_inv in Hix as (a & b & c & -> & Ha & Hb & Hc). cbn [nth]. now apply Ef.
    + refine (whole_becomes m m' w v _ (fun ix => [nth 0 ix 0 * n1 + nth 1 ix 0; nth 2 ix 0]) _ S _ B). rewrite D, Dw. cbn [nth]. apply fuse01_inv.
Qed.
End Red.
