(* Proofs_View2.v -- statements of C07-C12 assembled from Proofs_View. *)
From Verif Require Import Base BaseFacts Model_Index Spec_Index Proofs_Axes Proofs_Index Model_View Spec_View Proofs_View.
Local Open Scope Z_scope.

(* ---- C07 ---- *)
Lemma swapn_exchanged a b ix : (a < length ix)%nat -> (b < length ix)%nat -> exchanged a b ix (swapn a b ix).
Proof.
  intros Ha Hb. unfold exchanged. rewrite swapn_length. split; [reflexivity|]. rewrite !nth_swapn by assumption.
  rewrite !Nat.eqb_refl. split; [|split; [reflexivity|]].
  - destruct (a =? b)%nat eqn:E; [apply Nat.eqb_eq in E; now subst|reflexivity].
  - intros k H1 H2. rewrite nth_swapn by assumption. apply Nat.eqb_neq in H1, H2. now rewrite H1, H2.
Qed.
Lemma exchanged_fun a b ix jx : (a < length ix)%nat -> (b < length ix)%nat -> exchanged a b ix jx -> jx = swapn a b ix.
Proof.
  intros Ha Hb (L & H1 & H2 & H3). apply list_nth0_ext; [now rewrite swapn_length|].
  intros k Hk. rewrite nth_swapn by assumption.
  destruct (k =? b)%nat eqn:E1; [apply Nat.eqb_eq in E1; now subst|].
  destruct (k =? a)%nat eqn:E2; [apply Nat.eqb_eq in E2; now subst|].
  apply Nat.eqb_neq in E1, E2. now apply H3.
Qed.
Lemma C07_transp_ab_l v a b : vwf v -> 0 <= a < ndims v -> 0 <= b < ndims v ->
  exists v', transp_ab a b v = Ok v' /\ transp_ab a b v' = Ok v /\ vblk v' = vblk v /\
    exchanged (Z.to_nat a) (Z.to_nat b) (vdims v) (vdims v') /\
    forall ix jx, in_range ix (vdims v') -> exchanged (Z.to_nat a) (Z.to_nat b) ix jx ->
      in_range jx (vdims v) /\ vaddr v' ix = vaddr v jx.
Proof.
  intros Hw Ha Hb. pose proof (transp_ab_ok a b v Hw Ha Hb) as E. eexists. split; [exact E|].
  destruct (transp_ab_embeds a b v _ Hw E) as (Hw' & Hs & _). unfold ndims in *. pose proof Hw as [L Hn].
  split; [|split; [reflexivity|split]].
  - rewrite transp_ab_ok; [| |unfold ndims; cbn; rewrite swapn_length; lia|unfold ndims; cbn; rewrite swapn_length; lia].
    + cbn. rewrite !swapn_invol by lia. now destruct v.
    + exact Hw'.
  - cbn. apply swapn_exchanged; lia.
  - intros ix jx Hr He. pose proof (in_range_length _ _ Hr) as Lx. cbn in Lx. rewrite swapn_length in Lx.
    rewrite (exchanged_fun (Z.to_nat a) (Z.to_nat b) ix jx) by (auto; lia). now apply Hs.
Qed.

Lemma permuted_gather p ix jx : is_perm p -> length p = length ix -> permuted p ix jx <-> gather ix p = Ok jx.
Proof.
  intros Hp L. assert (Bp := is_perm_bounds p Hp). split.
  - intros [Lj H]. destruct (gather_ok ix p) as (r & Er & Lr & _); [now rewrite <- L|].
    rewrite Er. f_equal. destruct (gather_nth _ _ _ Er) as [_ H']. apply list_nth0_ext; [lia|].
    intros k Hk. rewrite H' by lia. rewrite H by lia. reflexivity.
  - intro E. apply gather_nth in E. exact E.
Qed.
Lemma C07_permute_l v p : vwf v -> is_perm p -> length p = length (vdims v) ->
  exists v', permute_indices p v = Ok v' /\ vblk v' = vblk v /\ permuted p (vdims v) (vdims v') /\
    (forall ix jx, in_range ix (vdims v) -> permuted p ix jx -> in_range jx (vdims v') /\ vaddr v' jx = vaddr v ix) /\
    (forall jx, in_range jx (vdims v') -> exists ix, in_range ix (vdims v) /\ permuted p ix jx) /\
    (forall q, is_perm q -> inverse_perm p q -> permute_indices q v' = Ok v).
Proof.
  intros Hw Hp Lp. pose proof Hw as [L Hn]. assert (Bp := is_perm_bounds p Hp).
  destruct (gather_ok (vdims v) p) as (d & Ed & Ld & _); [now rewrite <- Lp|].
  destruct (gather_ok (vstr v) p) as (s & Es & Ls & _); [now rewrite L, <- Lp|].
  assert (E : permute_indices p v = Ok (View (vblk v) (voff v) d s)).
  { unfold permute_indices, vpermute. rewrite L, Lp, Nat.eqb_refl. cbn. rewrite Ed. cbn. rewrite Es. reflexivity. }
  exists (View (vblk v) (voff v) d s). split; [exact E|]. split; [reflexivity|].
  destruct (permute_embeds p v _ Hw Hp E) as (Hw' & Hs & _).
  split; [apply permuted_gather; auto|]. split; [|split].
  - intros ix jx Hr Hpm. pose proof (in_range_length _ _ Hr) as Lx.
    apply permuted_gather in Hpm; [|assumption|lia].
    assert (Hr' : in_range jx d) by (apply (in_range_gather p ix (vdims v) jx d); auto).
    split; [exact Hr'|]. rewrite (vaddr_in_range v) by assumption.
    rewrite vaddr_ok by (cbn; apply in_range_length in Hr'; lia). cbn. do 2 f_equal. f_equal.
    apply (dot_gather p (vstr v) ix s jx); auto; lia.
  - intros jx Hr. cbn in Hr. pose proof (in_range_length _ _ Hr). exists (unpermute p jx).
    destruct (Hs jx Hr) as [H1 _]. split; [exact H1|]. apply permuted_gather; auto.
    + unfold unpermute. now rewrite map_length, zrange_length, Nat2Z.id.
    + apply gather_unpermute; auto. lia.
  - intros q Hq Hinv.
    destruct (C05_permute_l p q (vdims v) Hp Hq Hinv Lp) as (d1 & E1 & E2).
    destruct (C05_permute_l p q (vstr v) Hp Hq Hinv) as (s1 & E3 & E4); [lia|].
    unfold vpermute in E1, E3. rewrite Lp, Nat.eqb_refl in E1. rewrite Lp, L, Nat.eqb_refl in E3. cbn in E1, E3.
    rewrite Ed in E1. rewrite Es in E3. injection E1 as <-. injection E3 as <-.
    unfold permute_indices. cbn [vdims vstr]. rewrite E2. cbn [bind]. rewrite E4. cbn. now destruct v.
Qed.

(* ---- C08 ---- *)
Lemma shows_part v' v f : shows v' v f -> part_of v' v.
Proof. intros H ix Hr. exists (f ix). now apply H. Qed.

Lemma C08_slice_l v d i n : vwf v -> nth_error (vdims v) d = Some n -> 0 <= i < n ->
  exists v', slice (Z.of_nat d) i v = Ok v' /\ vblk v' = vblk v /\ vdims v' = del d (vdims v) /\ vwf v' /\
    forall ix, in_range ix (vdims v') -> in_range (ins d i ix) (vdims v) /\ vaddr v' ix = vaddr v (ins d i ix).
Proof.
  intros Hw En Hi. pose proof Hw as [L Hn]. assert (Hd : (d < length (vdims v))%nat) by (apply nth_error_Some; congruence).
  apply nth_error_nth with (d := 0) in En.
  assert (E : slice (Z.of_nat d) i v = Ok (View (vblk v) (voff v + nth d (vstr v) 0 * i) (del d (vdims v)) (del d (vstr v)))).
  { unfold slice. rewrite zget_nth_ok by lia. cbn [bind]. rewrite !vremove_ok' by lia. cbn [bind]. now rewrite !Nat2Z.id. }
  eexists. split; [exact E|]. split; [reflexivity|]. split; [reflexivity|].
  destruct (insert_embeds v d i _ Hw Hd ltac:(lia) eq_refl) as (A & B & _). split; [exact A|]. exact B.
Qed.
Lemma C08_slices_l v d i n m : vwf v -> nth_error (vdims v) d = Some m -> 0 <= i -> 0 <= n -> i + n <= m ->
  exists v', slices (Z.of_nat d) i n v = Ok v' /\ vblk v' = vblk v /\
    length (vdims v') = length (vdims v) /\ (forall k, nth k (vdims v') 0 = if (k =? d)%nat then n else nth k (vdims v) 0) /\ vwf v' /\
    forall ix, in_range ix (vdims v') -> exists jx, in_range jx (vdims v) /\ vaddr v' ix = vaddr v jx /\
      forall k, nth k jx 0 = if (k =? d)%nat then i + nth k ix 0 else nth k ix 0.
Proof.
  intros Hw En Hi Hn0 Him. pose proof Hw as [L Hn]. assert (Hd : (d < length (vdims v))%nat) by (apply nth_error_Some; congruence).
  apply nth_error_nth with (d := 0) in En.
  assert (E : slices (Z.of_nat d) i n v = Ok (View (vblk v) (voff v + nth d (vstr v) 0 * i) (set_nth d n (vdims v)) (vstr v))).
  { unfold slices. rewrite zget_nth_ok by lia. cbn [bind]. rewrite vset_ok by lia. cbn [bind]. now rewrite !Nat2Z.id. }
  eexists. split; [exact E|]. split; [reflexivity|]. cbn [vdims]. rewrite set_nth_length. split; [reflexivity|].
  split; [intro k; now rewrite nth_set_nth|].
  assert (Ha : args_ok (OSlices (Z.of_nat d) i n) v).
  { exists m. split; [|lia]. rewrite zget_nth_ok by lia. now rewrite Nat2Z.id, En. }
  destruct (slices_embeds (Z.of_nat d) i n v _ Hw Ha E) as (A & B & _).
  rewrite Nat2Z.id in B. split; [exact A|]. intros ix Hr. destruct (B ix Hr) as [B1 B2].
  exists (shift_at d i ix). split; [exact B1|]. split; [exact B2|]. intro k. unfold shift_at.
  apply in_range_length in Hr. rewrite set_nth_length in Hr.
  rewrite nth_set_nth by lia. destruct (k =? d)%nat eqn:Ek; [apply Nat.eqb_eq in Ek; now subst|reflexivity].
Qed.
Lemma C08_slice_prefix_l v p dp dq : vwf v -> vdims v = dp ++ dq -> in_range p dp ->
  exists v', slice_prefix p v = Ok v' /\ vblk v' = vblk v /\ vdims v' = dq /\ vwf v' /\
    forall ix, in_range ix dq -> in_range (p ++ ix) (vdims v) /\ vaddr v' ix = vaddr v (p ++ ix).
Proof.
  intros Hw Ed Hp. pose proof Hw as [L Hn]. pose proof (in_range_length _ _ Hp) as Lp.
  assert (Ldd : length (vdims v) = (length dp + length dq)%nat) by (rewrite Ed; apply app_length).
  set (k := length p) in *.
  assert (G : forall l : list Z, (k <= length l)%nat -> vchunk (Z.of_nat k) (-1) l = Ok (skipn k l) /\ vchunk 0 (Z.of_nat k) l = Ok (firstn k l)).
  { intros l Hl. split.
    - unfold vchunk. replace (Z.of_nat k <? 0) with false by lia. change (-1 =? -1) with true. cbv iota zeta. ifF.
      f_equal. rewrite Nat2Z.id. apply firstn_all2. rewrite skipn_length. lia.
    - rewrite chunk_ok by lia. now rewrite Nat2Z.id. }
  destruct (G (vdims v) ltac:(lia)) as [G1 G2]. destruct (G (vstr v) ltac:(lia)) as [G3 G4].
  assert (E : slice_prefix p v = Ok (View (vblk v) (voff v + dot (firstn k (vstr v)) p) (skipn k (vdims v)) (skipn k (vstr v)))).
  { unfold slice_prefix. fold k. rewrite G4. cbn [bind]. unfold offs, assrt. rewrite firstn_length.
    replace (length p <=? Nat.min k (length (vstr v)))%nat with true by (symmetry; apply Nat.leb_le; unfold k in *; lia).
    cbn [bind]. rewrite G1, G3. reflexivity. }
  assert (Hk : in_range p (firstn k (vdims v))).
  { rewrite Ed, firstn_app. replace (k - length dp)%nat with 0%nat by lia. rewrite firstn_all2 by lia. now rewrite app_nil_r. }
  destruct (slice_prefix_embeds p v _ Hw Hk E) as (A & B & _).
  assert (Edq : skipn k (vdims v) = dq).
  { rewrite Ed, skipn_app. replace (k - length dp)%nat with 0%nat by lia. now rewrite skipn_all2 by lia. }
  eexists. split; [exact E|]. split; [reflexivity|]. split; [exact Edq|]. split; [exact A|].
  intros ix Hr. apply B. cbn. now rewrite Edq.
Qed.
Lemma C08_rows_cols_l v d0 d1 s0 s1 : vwf v -> vdims v = [d0; d1] -> vstr v = [s0; s1] ->
  (forall i, 0 <= i < d0 -> exists v', row i v = Ok v' /\ vblk v' = vblk v /\ vdims v' = [d1] /\
     forall j, 0 <= j < d1 -> vaddr v' [j] = vaddr v [i; j]) /\
  (forall j, 0 <= j < d1 -> exists v', col j v = Ok v' /\ vblk v' = vblk v /\ vdims v' = [d0] /\
     forall i, 0 <= i < d0 -> vaddr v' [i] = vaddr v [i; j]) /\
  (forall i n, 0 <= i -> 0 <= n -> i + n <= d0 -> exists v', rows i n v = Ok v' /\ vblk v' = vblk v /\ vdims v' = [n; d1] /\
     forall k j, 0 <= k < n -> 0 <= j < d1 -> vaddr v' [k; j] = vaddr v [i + k; j]) /\
  (forall j n, 0 <= j -> 0 <= n -> j + n <= d1 -> exists v', cols j n v = Ok v' /\ vblk v' = vblk v /\ vdims v' = [d0; n] /\
     forall i k, 0 <= i < d0 -> 0 <= k < n -> vaddr v' [i; k] = vaddr v [i; j + k]) /\
  (forall i, d0 <= i -> row i v = Throw) /\ (forall j, d1 <= j -> col j v = Throw) /\
  (forall i n, d0 < i + n -> rows i n v = Throw) /\ (forall j n, d1 < j + n -> cols j n v = Throw).
Proof.
  intros Hw Ed Es. unfold row, col, rows, cols. rewrite Ed, Es. unfold assrt.
  repeat split.
  - intros i Hi. ifT. eexists. repeat split. intros j Hj. unfold vaddr. cbn. rewrite Es. cbn. do 2 f_equal. ring.
  - intros i Hi. ifT. eexists. repeat split. intros j Hj. unfold vaddr. cbn. rewrite Es. cbn. do 2 f_equal. ring.
  - intros i n Hi Hn Hin. ifT. eexists. repeat split. intros k j Hk Hj. unfold vaddr. cbn. rewrite Es. cbn. do 2 f_equal. ring.
  - intros i n Hi Hn Hin. ifT. eexists. repeat split. intros k j Hk Hj. unfold vaddr. cbn. rewrite Es. cbn. do 2 f_equal. ring.
  - intros i Hi. ifF. reflexivity.
  - intros i Hi. ifF. reflexivity.
  - intros i n Hi. ifF. reflexivity.
  - intros i n Hi. ifF. reflexivity.
Qed.
Lemma Forall2_le_zipadd off d dims : length off = length d -> Forall2 Z.le (zipadd off d) dims ->
  length d = length dims.
Proof.
  intros L H. assert (G : forall x y, Forall2 Z.le x y -> length x = length y) by (induction 1; cbn; congruence).
  apply G in H. rewrite zipadd_length in H by assumption. lia.
Qed.
Lemma block_at_ok d off v : vwf v -> length off = length d -> Forall2 Z.le (zipadd off d) (vdims v) ->
  block_at d off v = Ok (View (vblk v) (voff v + dot (vstr v) off) d (vstr v)).
Proof.
  intros [L Hn] Lo H. unfold block_at, gvec_add, assrt. rewrite Lo, Nat.eqb_refl. cbn [bind].
  pose proof H as Hg. apply gindex_le_spec in Hg. rewrite Hg.
  pose proof (Forall2_le_zipadd off d (vdims v) Lo H).
  unfold offs, assrt. replace (length off <=? length (vstr v))%nat with true by (symmetry; apply Nat.leb_le; lia). reflexivity.
Qed.
Lemma C08_block_l v d off : vwf v -> nonneg d -> nonneg off -> length off = length d ->
  Forall2 Z.le (zipadd off d) (vdims v) ->
  exists v', block_at d off v = Ok v' /\ vblk v' = vblk v /\ vdims v' = d /\ vwf v' /\
    forall ix, in_range ix d -> in_range (zipadd off ix) (vdims v) /\ vaddr v' ix = vaddr v (zipadd off ix).
Proof.
  intros Hw Hd Ho Lo H. eexists. split; [now apply block_at_ok|]. split; [reflexivity|]. split; [reflexivity|].
  destruct (window_embeds v off d Hw Ho Hd Lo H) as (A & B & _). split; [exact A|]. exact B.
Qed.

(* ---- C12 ---- *)
Lemma C12_block_at_l v d off : vwf v -> nonneg d -> nonneg off ->
  (exists v', block_at d off v = Ok v' /\ part_of v' v /\ vdims v' = d) \/ block_at d off v = Throw.
Proof.
  intros Hw Hd Ho. destruct (length off =? length d)%nat eqn:El.
  2:{ right. unfold block_at, gvec_add, assrt. rewrite El. reflexivity. }
  destruct (gindex_le (zipadd off d) (vdims v)) eqn:Eg.
  2:{ right. unfold block_at, gvec_add, assrt. rewrite El. cbn [bind]. rewrite Eg. reflexivity. }
  apply Nat.eqb_eq in El. apply gindex_le_spec in Eg. left.
  destruct (C08_block_l v d off Hw Hd Ho El Eg) as (v' & E & _ & Ed & _ & H).
  exists v'. split; [exact E|]. split; [|exact Ed].
  intros ix Hr. rewrite Ed in Hr. exists (zipadd off ix). now apply H.
Qed.
Lemma C12_block_dims_refuted_l : exists v d v', vwf v /\ nonneg d /\ length d = length (vdims v) /\
  v = fresh_view 0 (vdims v) /\ block_dims d v = Ok v' /\ ~ part_of v' v /\
  exists ix a, in_range ix (vdims v') /\ vaddr v' ix = Ok (0, a) /\ asize (vdims v) <= a.
Proof.
  exists (fresh_view 0 [3; 3]), [2; 100], (View 0 0 [2; 100] [3; 1]).
  split; [split; [reflexivity|repeat constructor; lia]|]. split; [repeat constructor; lia|]. split; [reflexivity|].
  split; [reflexivity|]. split; [reflexivity|]. split.
  - intro H. destruct (H [0; 50]) as (jx & Hr & E); [repeat constructor; lia|].
    apply in_range2 in Hr as (i & j & -> & Hi & Hj).
    change (Ok (0, 50) = Ok (0, 0 + (3 * i + (1 * j + 0)))) in E.
    assert (50 = 0 + (3 * i + (1 * j + 0))) by congruence. lia.
  - exists [0; 50], 50. split; [repeat constructor; lia|]. split; [reflexivity|]. cbn. lia.
Qed.
Lemma C12_negative_refuted_l : exists v d off v', vwf v /\ nonneg d /\ v = fresh_view 0 (vdims v) /\
  block_at d off v = Ok v' /\ exists ix a, in_range ix (vdims v') /\ vaddr v' ix = Ok (0, a) /\ a < 0.
Proof.
  exists (fresh_view 0 [3; 3]), [2; 2], [-1; 0], (View 0 (-3) [2; 2] [3; 1]).
  split; [split; [reflexivity|repeat constructor; lia]|]. split; [repeat constructor; lia|].
  split; [reflexivity|]. split; [reflexivity|]. exists [0; 0], (-3). split; [repeat constructor; lia|]. split; [reflexivity|]. lia.
Qed.

(* ---- C09 ---- *)
Lemma same_order_intro v' v f : nonneg (vdims v') -> nonneg (vdims v) -> shows v' v f ->
  prod (vdims v') = prod (vdims v) ->
  (forall ix, in_range ix (vdims v') -> flat (f ix) (vdims v) = flat ix (vdims v')) -> same_order v' v.
Proof.
  intros Hn' Hn Hs Hp Hf. unfold same_order.
  assert (E : map f (all_indices (vdims v')) = all_indices (vdims v)).
  { assert (G : forall l m, (forall x, In x l -> in_range x (vdims v)) -> (forall x, In x m -> in_range x (vdims v)) ->
              map (fun x => flat x (vdims v)) l = map (fun x => flat x (vdims v)) m -> l = m).
    { induction l as [|x l IH]; intros [|y m] Hl Hm E; try discriminate; [reflexivity|].
      cbn in E. injection E as E1 E2. f_equal.
      - apply flat_inj with (vdims v); auto; [apply Hl|apply Hm]; now left.
      - apply IH; auto; intros z Hz; [apply Hl|apply Hm]; now right. }
    apply G.
    - intros x Hx. apply in_map_iff in Hx as (y & <- & Hy). apply Hs. now apply in_all_indices.
    - intros x Hx. now apply in_all_indices.
    - rewrite map_map. rewrite (map_ext_in _ (fun x => flat x (vdims v'))).
      + rewrite !flat_all_indices by assumption. now rewrite Hp.
      + intros x Hx. apply Hf. now apply in_all_indices. }
  rewrite <- E, map_map. apply map_ext_in. intros x Hx. apply Hs. now apply in_all_indices.
Qed.
Lemma flat_app p q dp dq : length p = length dp ->
  flat (p ++ q) (dp ++ dq) = flat p dp * prod dq + flat q dq.
Proof.
  revert dp; induction p as [|i p IH]; intros [|d dp] L; try discriminate; [cbn; lia|].
  cbn [app flat]. rewrite IH by (now injection L). rewrite prod_app. ring.
Qed.
Lemma ins_split d x l : (d <= length l)%nat -> ins d x l = firstn d l ++ x :: skipn d l.
Proof.
  revert l; induction d as [|d IH]; intros [|a l] H; try reflexivity.
  cbn [ins firstn skipn app]. rewrite IH by (cbn in H; lia). reflexivity.
Qed.
Lemma del_split d l : del d l = firstn d l ++ skipn (S d) l.
Proof.
  revert l; induction d as [|d IH]; intros [|a l]; try reflexivity.
  cbn [del firstn app]. rewrite IH. reflexivity.
Qed.
Lemma set_split d (x : Z) l : (d < length l)%nat -> set_nth d x l = firstn d l ++ x :: skipn (S d) l.
Proof.
  revert l; induction d as [|d IH]; intros [|a l] H; try reflexivity; try (cbn in H; lia).
  cbn [set_nth firstn app]. rewrite IH by (cbn in H; lia). reflexivity.
Qed.
Lemma nth_split' d (l : list Z) : (d < length l)%nat -> l = firstn d l ++ nth d l 0 :: skipn (S d) l.
Proof.
  revert l; induction d as [|d IH]; intros [|a l] H; try reflexivity; try (cbn in H; lia).
  cbn [firstn nth app]. rewrite <- IH by (cbn in H; lia). reflexivity.
Qed.
Lemma prod_ins d n dims : (d <= length dims)%nat -> prod (ins d n dims) = n * prod dims.
Proof.
  intro H. rewrite ins_split by assumption. rewrite prod_app, prod_cons.
  rewrite <- (firstn_skipn d dims) at 3. rewrite prod_app. ring.
Qed.
Lemma prod_del d dims : (d < length dims)%nat -> prod dims = nth d dims 0 * prod (del d dims).
Proof.
  intro H. rewrite (nth_split' d dims H) at 1. rewrite del_split, !prod_app, prod_cons. ring.
Qed.
Lemma flat_ins_unit d ix dims : (d < length dims)%nat -> nth d dims 0 = 1 -> length ix = length (del d dims) ->
  flat (ins d 0 ix) dims = flat ix (del d dims).
Proof.
  revert ix dims; induction d as [|d IH]; intros ix [|x dims] Hd H1 L; try (cbn in Hd; lia).
  - cbn [ins flat del]. cbn. lia.
  - destruct ix as [|i ix]; [discriminate|]. cbn [ins flat del]. cbn in H1, L, Hd.
    rewrite IH by (auto; lia). rewrite (prod_del d dims) by lia. rewrite H1. ring.
Qed.
Lemma flat_del_unit d ix dims : (d <= length dims)%nat -> in_range ix (ins d 1 dims) ->
  flat (del d ix) dims = flat ix (ins d 1 dims).
Proof.
  revert ix dims; induction d as [|d IH]; intros ix dims Hd Hr.
  - cbn in Hr. inversion Hr as [|i ? r ? Hi Hr']; subst. cbn [del ins flat]. replace i with 0 by lia. lia.
  - destruct dims as [|x dims]; [cbn in Hd; lia|]. cbn [ins] in Hr. inversion Hr as [|i ? r ? Hi Hr']; subst.
    cbn [del ins flat]. rewrite IH by (auto; cbn in Hd; lia). rewrite prod_ins by (cbn in Hd; lia). ring.
Qed.
(* shape after a split: p ++ [n] ++ q becomes p ++ [a; b] ++ q *)
Lemma split_shape p n q a b : set_nth (S (length p)) b (ins (length p) a (p ++ n :: q)) = p ++ a :: b :: q.
Proof. induction p as [|x p IH]; [reflexivity|]. cbn [length app ins set_nth]. f_equal. exact IH. Qed.
Lemma split_prod d a b dims : (d < length dims)%nat -> nth d dims 0 = a * b ->
  prod (set_nth (S d) b (ins d a dims)) = prod dims.
Proof.
  intros Hd H1. pose proof (nth_split' d dims Hd) as E. set (p := firstn d dims) in E.
  set (q := skipn (S d) dims) in E. clearbody q. assert (Lp : length p = d) by (unfold p; rewrite firstn_length; lia).
  clearbody p. rewrite H1 in E. subst dims d. rewrite split_shape, !prod_app, !prod_cons. ring.
Qed.
Lemma flat_merge d b a ix dims : (d < length dims)%nat -> nth d dims 0 = a * b -> length ix = S (length dims) ->
  flat (merge_at d b ix) dims = flat ix (set_nth (S d) b (ins d a dims)).
Proof.
  unfold merge_at. revert ix dims; induction d as [|d IH]; intros ix [|x dims] Hd H1 L; try (cbn in Hd; lia).
  - destruct ix as [|i [|j ix]]; try discriminate. cbn in H1. subst x.
    cbn [nth del set_nth ins flat]. rewrite prod_cons. ring.
  - destruct ix as [|i ix]; [discriminate|]. cbn [nth] in H1. cbn in Hd, L.
    change (flat (i :: set_nth d (nth d ix 0 * b + nth (S d) ix 0) (del d ix)) (x :: dims) =
            flat (i :: ix) (x :: set_nth (S d) b (ins d a dims))).
    cbn [flat]. rewrite (IH ix dims) by (auto; lia).
    assert (E : prod (set_nth (S d) b (ins d a dims)) = prod dims).
    { apply split_prod; [lia|assumption]. }
    rewrite E. reflexivity.
Qed.
Lemma C09_reshape_l v nd : vwf v -> nonneg nd -> vstr v = strides_of 1 (vdims v) -> prod nd = prod (vdims v) ->
  exists v', reshape nd v = Ok v' /\ vdims v' = nd /\ vblk v' = vblk v /\ vwf v' /\ same_order v' v.
Proof.
  intros Hw Hnd Hs Hp. pose proof Hw as [L Hn].
  assert (E : reshape nd v = Ok (View (vblk v) (voff v) nd (strides_of 1 nd))).
  { unfold reshape, assrt. rewrite !asize_prod, Hp, Z.eqb_refl.
    assert (R : is_regular (vstr v) (vdims v) = Ok true) by (apply is_regular_iff; auto). rewrite R. reflexivity. }
  eexists. split; [exact E|]. split; [reflexivity|]. split; [reflexivity|].
  destruct (reshape_embeds nd v _ Hw Hnd E) as (A & B & _). split; [exact A|].
  apply (same_order_intro _ _ _ (proj2 A) Hn B Hp). cbn. intros ix Hr. now apply reflat_ok.
Qed.
Lemma C09_squeeze_l v d : vwf v -> (d < length (vdims v))%nat -> nth d (vdims v) 0 = 1 ->
  exists v', squeeze (Z.of_nat d) v = Ok v' /\ vdims v' = del d (vdims v) /\ vblk v' = vblk v /\ vwf v' /\ same_order v' v.
Proof.
  intros Hw Hd H1. pose proof Hw as [L Hn].
  assert (E : squeeze (Z.of_nat d) v = Ok (View (vblk v) (voff v) (del d (vdims v)) (del d (vstr v)))).
  { unfold squeeze. rewrite zget_nth_ok by lia. rewrite Nat2Z.id, H1. cbn. rewrite !vremove_ok' by lia. cbn. now rewrite Nat2Z.id. }
  eexists. split; [exact E|]. split; [reflexivity|]. split; [reflexivity|].
  destruct (squeeze_embeds (Z.of_nat d) v _ Hw E) as (A & B & _). rewrite Nat2Z.id in B. split; [exact A|].
  apply (same_order_intro _ _ (ins d 0)); auto; [apply A| |].
  - cbn. rewrite (prod_del d (vdims v)), H1 by assumption. ring.
  - cbn. intros ix Hr. apply flat_ins_unit; auto. now apply in_range_length.
Qed.
Lemma C09_unsqueeze_l v d : vwf v -> (1 <= d <= length (vdims v))%nat ->
  exists v', unsqueeze (Z.of_nat d) v = Ok v' /\ vdims v' = ins d 1 (vdims v) /\ vblk v' = vblk v /\ vwf v' /\ same_order v' v.
Proof.
  intros Hw Hd. pose proof Hw as [L Hn].
  assert (exists m, memsize (vstr v) (vdims v) = Ok m) as [m Em].
  { unfold memsize. rewrite L, Nat.eqb_refl. destruct (vstr v); [eexists; reflexivity|].
    destruct (_ =? 0); eexists; reflexivity. }
  assert (exists s, unsqueeze (Z.of_nat d) v = Ok (View (vblk v) (voff v) (ins d 1 (vdims v)) (ins d s (vstr v)))) as [s E].
  { unfold unsqueeze. rewrite Em. cbn [bind]. rewrite zget_nth_ok by lia. cbn [bind].
    rewrite !vinsert_ok' by lia. cbn [bind]. rewrite Nat2Z.id. eexists. reflexivity. }
  eexists. split; [exact E|]. split; [reflexivity|]. split; [reflexivity|].
  destruct (drop_embeds v d 1 s Hw ltac:(lia) ltac:(lia) (or_introl eq_refl)) as (A & B & _).
  split; [exact A|]. apply (same_order_intro _ _ (del d)); auto; [apply A| |].
  - cbn. rewrite prod_ins by lia. ring.
  - cbn. intros ix Hr. apply flat_del_unit; [lia|assumption].
Qed.
Lemma C09_unsqueeze0_refuted_l : exists v, vwf v /\ (0 < length (vdims v))%nat /\ unsqueeze 0 v = UB.
Proof. exists (fresh_view 0 [2; 3]). repeat split; cbn; try lia. repeat constructor; lia. Qed.

Lemma split_view_order v d a b : vwf v -> (d < length (vdims v))%nat -> nth d (vdims v) 0 = a * b -> 0 <= a -> 0 <= b ->
  same_order (View (vblk v) (voff v) (set_nth (S d) b (ins d a (vdims v))) (ins d (nth d (vstr v) 0 * b) (vstr v))) v.
Proof.
  intros Hw Hd Hab Ha Hb. pose proof Hw as [L Hn].
  destruct (split_embeds v d a b Hw Hd Hab Ha Hb) as (A & B & _).
  apply (same_order_intro _ _ (merge_at d b)); auto; [apply A| |].
  - cbn [vdims]. apply split_prod; assumption.
  - cbn [vdims]. intros ix Hr. apply flat_merge; auto.
    apply in_range_length in Hr. rewrite set_nth_length, ins_length in Hr by lia. lia.
Qed.
Lemma C09_split_l v p q a b : vwf v -> vdims v = p ++ a * b :: q -> 0 <= a -> 0 < b ->
  (exists v', split (Z.of_nat (length p)) b v = Ok v' /\ vdims v' = p ++ a :: b :: q /\ vblk v' = vblk v /\ vwf v' /\ same_order v' v) /\
  (length p = 0%nat -> exists v', split0 a b v = Ok v' /\ vdims v' = p ++ a :: b :: q /\ vblk v' = vblk v /\ vwf v' /\ same_order v' v) /\
  (length p = 1%nat -> exists v', split1 a b v = Ok v' /\ vdims v' = p ++ a :: b :: q /\ vblk v' = vblk v /\ vwf v' /\ same_order v' v).
Proof.
  intros Hw Ed Ha Hb. pose proof Hw as [L Hn]. set (d := length p).
  assert (Hd : (d < length (vdims v))%nat) by (rewrite Ed, app_length; cbn; unfold d; lia).
  assert (Hab : nth d (vdims v) 0 = a * b) by (rewrite Ed, app_nth2 by (unfold d; lia); unfold d; now rewrite Nat.sub_diag).
  assert (Sh : set_nth (S d) b (ins d a (vdims v)) = p ++ a :: b :: q) by (rewrite Ed; apply split_shape).
  set (w := View (vblk v) (voff v) (set_nth (S d) b (ins d a (vdims v))) (ins d (nth d (vstr v) 0 * b) (vstr v))).
  assert (W : vdims w = p ++ a :: b :: q /\ vblk w = vblk v /\ vwf w /\ same_order w v).
  { split; [exact Sh|]. split; [reflexivity|]. split; [apply split_embeds; auto; lia|]. apply split_view_order; auto; lia. }
  split; [|split].
  - exists w. split; [|exact W]. unfold split, assrt, ndims. ifT. rewrite zget_nth_ok by lia. cbn [bind].
    rewrite Nat2Z.id, Hab. unfold crem. replace (b =? 0) with false by lia. cbn [bind].
    rewrite Z.rem_mul by lia. cbn [Z.eqb]. rewrite vinsert_ok' by lia. cbn [bind].
    unfold cdiv. replace (b =? 0) with false by lia. cbn [bind]. rewrite Z.quot_mul by lia.
    rewrite vset_ok by (rewrite ins_length; lia). cbn [bind]. rewrite zget_nth_ok by lia. cbn [bind].
    rewrite vinsert_ok' by lia. cbn [bind]. rewrite Nat2Z.id. replace (Z.to_nat (Z.of_nat d + 1)) with (S d) by lia.
    rewrite set_ins_swap by lia. reflexivity.
  - intro Hd0. exists w. split; [|exact W]. unfold d in Hd0. change (d = 0%nat) in Hd0. unfold split0, assrt, ndims. ifT.
    rewrite zget_nth_ok by lia. cbn [bind]. change (Z.to_nat 0) with 0%nat. rewrite Hd0 in Hab. rewrite Hab, Z.eqb_refl.
    rewrite vinsert_ok' by lia. cbn [bind]. rewrite vset_ok by (rewrite ins_length; lia). cbn [bind].
    rewrite zget_nth_ok by lia. cbn [bind]. rewrite vinsert_ok' by lia. unfold w. rewrite Hd0. reflexivity.
  - intro Hd0. exists w. split; [|exact W]. change (d = 1%nat) in Hd0. unfold split1, assrt, ndims. ifT.
    rewrite zget_nth_ok by lia. cbn [bind]. change (Z.to_nat 1) with 1%nat. rewrite Hd0 in Hab. rewrite Hab, Z.eqb_refl.
    rewrite vinsert_ok' by lia. cbn [bind]. rewrite vset_ok by (rewrite ins_length; lia). cbn [bind].
    rewrite zget_nth_ok by lia. cbn [bind]. rewrite vinsert_ok' by lia. unfold w. rewrite Hd0. reflexivity.
Qed.

Lemma del_set_shape p m n q x : del (length p) (set_nth (S (length p)) x (p ++ m :: n :: q)) = p ++ x :: q.
Proof. induction p as [|y p IH]; [reflexivity|]. cbn [length app set_nth del]. f_equal. exact IH. Qed.
Lemma del_shape p (m : Z) q : del (length p) (p ++ m :: q) = p ++ q.
Proof. induction p as [|y p IH]; [reflexivity|]. cbn [length app del]. f_equal. exact IH. Qed.
Lemma nth_shape p (m : Z) q : nth (length p) (p ++ m :: q) 0 = m.
Proof. rewrite app_nth2, Nat.sub_diag by lia. reflexivity. Qed.
Lemma nth_shape1 p (m n : Z) q : nth (S (length p)) (p ++ m :: n :: q) 0 = n.
Proof. rewrite app_nth2 by lia. replace (S (length p) - length p)%nat with 1%nat by lia. reflexivity. Qed.
Lemma unfuse_shape p k q da : 
  unfuse (S (length p)) (length p) da (p ++ k :: q) = p ++ k / da :: k mod da :: q.
Proof.
  unfold unfuse. replace (S (length p) <? length p)%nat with false by (symmetry; apply Nat.ltb_ge; lia). cbn [pred].
  rewrite nth_shape. induction p as [|y p IH]; [reflexivity|]. cbn [length app set_nth ins]. f_equal. exact IH.
Qed.
Lemma C09_fuse_l v p m n q sp s t sq : vwf v -> vdims v = p ++ m :: n :: q -> vstr v = sp ++ s :: t :: sq ->
  length sp = length p -> s = n * t -> t < s ->
  let w := View (vblk v) (voff v) (p ++ m * n :: q) (sp ++ t :: sq) in
  fuse_ab (Z.of_nat (length p)) (Z.of_nat (length p) + 1) v = Ok w /\
  fuse_ab (Z.of_nat (length p) + 1) (Z.of_nat (length p)) v = Ok w /\
  vwf w /\ same_order w v.
Proof.
  intros Hw Ed Es Lsp Hst Hlt w. pose proof Hw as [L Hn].
  assert (Hlen : length (vdims v) = (length p + 2 + length q)%nat) by (rewrite Ed, app_length; cbn; lia).
  set (d := length p) in *.
  assert (N1 : nth d (vdims v) 0 = m) by (rewrite Ed; apply nth_shape).
  assert (N2 : nth (S d) (vdims v) 0 = n) by (rewrite Ed; apply nth_shape1).
  assert (N3 : nth d (vstr v) 0 = s) by (rewrite Es; rewrite <- Lsp; apply nth_shape).
  assert (N4 : nth (S d) (vstr v) 0 = t) by (rewrite Es; rewrite <- Lsp; apply nth_shape1).
  assert (Sd : del d (set_nth (S d) (n * m) (vdims v)) = p ++ m * n :: q) by (rewrite Ed, (Z.mul_comm m n); apply del_set_shape).
  assert (Ss : del d (vstr v) = sp ++ t :: sq) by (rewrite Es, <- Lsp; apply del_shape).
  assert (G : w = View (vblk v) (voff v) (del d (set_nth (S d) (n * m) (vdims v))) (del d (vstr v))) by (now rewrite Sd, Ss).
  split; [|split].
  - unfold fuse_ab, assrt, ndims. do 2 ifT. rewrite !zget_nth_ok by lia. cbn [bind].
    replace (Z.to_nat (Z.of_nat d + 1)) with (S d) by lia. rewrite Nat2Z.id, N1, N2, N3, N4.
    replace (s <? t) with false by lia. replace (n * t =? s) with true by lia.
    rewrite vset_ok by lia. cbn [bind]. rewrite vremove_ok' by (rewrite ?set_nth_length; lia). cbn [bind].
    rewrite vremove_ok' by lia. cbn [bind]. replace (Z.to_nat (Z.of_nat d + 1)) with (S d) by lia. rewrite Nat2Z.id.
    rewrite G, (Z.mul_comm m n). reflexivity.
  - unfold fuse_ab, assrt, ndims. do 2 ifT. rewrite !zget_nth_ok by lia. cbn [bind].
    replace (Z.to_nat (Z.of_nat d + 1)) with (S d) by lia. rewrite Nat2Z.id, N1, N2, N3, N4.
    replace (t <? s) with true by lia. replace (n * t =? s) with true by lia.
    rewrite vset_ok by lia. cbn [bind]. rewrite vremove_ok' by (rewrite ?set_nth_length; lia). cbn [bind].
    rewrite vremove_ok' by lia. cbn [bind]. replace (Z.to_nat (Z.of_nat d + 1)) with (S d) by lia. rewrite Nat2Z.id.
    rewrite G. reflexivity.
  - destruct (fuse_embeds v (S d) d) as (A & B & _); auto; try lia.
    rewrite N2, N1 in A, B. rewrite <- G in A, B. split; [exact A|].
    apply (same_order_intro _ _ _ (proj2 A) Hn B).
    + cbn. rewrite Ed, !prod_app, !prod_cons. ring.
    + cbn. intros ix Hr. unfold in_range in Hr. apply Forall2_app_inv_r in Hr as (ip & ir & Hp & Hr & ->).
      destruct ir as [|k iq]; [inversion Hr|]. apply Forall2_cons_iff in Hr as [Hk Hq].
      pose proof (in_range_length _ _ Hp) as Lip.
      assert (0 <= n) by (rewrite <- N2; now apply nonneg_nth). assert (0 < n) by (now apply (pos_of_lt_mul k m)).
      unfold d. rewrite <- Lip, unfuse_shape. rewrite Ed, !flat_app by assumption. cbn [flat]. rewrite !prod_cons.
      rewrite (Z.div_mod k n) at 3 by lia. ring.
Qed.
Lemma C09_fuse01_l v m n q s t sq : vwf v -> vdims v = m :: n :: q -> vstr v = s :: t :: sq -> s = n * t ->
  exists w, fuse01 v = Ok w /\ vdims w = m * n :: q /\ vblk w = vblk v /\ vwf w /\ same_order w v.
Proof.
  intros Hw Ed Es Hst. pose proof Hw as [L Hn]. exists (View (vblk v) (voff v) (m * n :: q) (t :: sq)).
  split.
  - unfold fuse01, assrt, ndims. rewrite Ed, Es.
    replace (2 <=? Z.of_nat (length (m :: n :: q))) with true by (cbn [length]; lia).
    rewrite vremove_ok' by (cbn [length]; lia). cbn [bind]. change (del (Z.to_nat 1) (m :: n :: q)) with (m :: q).
    change (zget (m :: q) 0) with (Ok m). change (zget (m :: n :: q) 1) with (Ok n). cbn [bind].
    rewrite vset_ok by (cbn [length]; lia). cbn [bind]. rewrite vremove_ok' by (cbn [length]; lia). reflexivity.
  - split; [reflexivity|]. split; [reflexivity|].
    destruct (fuse_embeds v 1 0) as (A & B & _); auto; rewrite ?Ed, ?Es; cbn; try lia.
    cbn in A, B. rewrite Ed, Es in A, B. cbn in A, B. rewrite (Z.mul_comm m n). split; [exact A|].
    apply (same_order_intro _ _ _ (proj2 A) Hn B).
    + cbn. rewrite Ed, !prod_cons. ring.
    + cbn. intros ix Hr. destruct ix as [|k iq]; [inversion Hr|]. apply Forall2_cons_iff in Hr as [Hk Hq].
      assert (0 < n) by (rewrite Ed in Hn; inversion Hn as [|? ? Hm Hn']; inversion Hn'; subst; nia).
      change (unfuse 1 0 n (k :: iq)) with (k / n :: k mod n :: iq). rewrite Ed. cbn [flat]. rewrite !prod_cons.
      cbn [nth]. rewrite (Z.div_mod k n) at 3 by lia. ring.
Qed.
(* the stride condition is not checked by fuse01: on a transposed matrix it fuses anyway *)
Lemma C09_fuse01_refuted_l : exists v w, vwf v /\ fuse01 v = Ok w /\ asize (vdims w) = asize (vdims v) /\ ~ part_of w v.
Proof.
  exists (View 0 0 [2; 2] [1; 2]), (View 0 0 [4] [2]). split; [split; [reflexivity|repeat constructor; lia]|].
  split; [reflexivity|]. split; [reflexivity|]. intro H.
  destruct (H [3]) as (jx & Hr & E); [repeat constructor; lia|].
  apply in_range2 in Hr as (i & j & -> & Hi & Hj). change (Ok (0, 6) = Ok (0, 0 + (1 * i + (2 * j + 0)))) in E.
    assert (6 = 0 + (1 * i + (2 * j + 0))) by congruence. lia.
Qed.

(* ---- C10 ---- *)
Lemma C10_insert_dim_l v d n : vwf v -> (d <= length (vdims v))%nat -> 0 <= n ->
  exists v', insert_dim (Z.of_nat d) n v = Ok v' /\ vdims v' = ins d n (vdims v) /\ vblk v' = vblk v /\ vwf v' /\
    forall ix k, in_range ix (vdims v) -> 0 <= k < n -> in_range (ins d k ix) (vdims v') /\ vaddr v' (ins d k ix) = vaddr v ix.
Proof.
  intros Hw Hd Hn0. pose proof Hw as [L Hn].
  assert (E : insert_dim (Z.of_nat d) n v = Ok (View (vblk v) (voff v) (ins d n (vdims v)) (ins d 0 (vstr v)))).
  { unfold insert_dim. rewrite !vinsert_ok' by lia. cbn. now rewrite Nat2Z.id. }
  eexists. split; [exact E|]. split; [reflexivity|]. split; [reflexivity|].
  destruct (drop_embeds v d n 0 Hw Hd Hn0 (or_intror eq_refl)) as (A & B & _). split; [exact A|].
  intros ix k Hr Hk. pose proof (in_range_length _ _ Hr) as Lx.
  assert (Hr' : in_range (ins d k ix) (ins d n (vdims v))) by (apply in_range_ins; auto; lia).
  split; [exact Hr'|]. destruct (B (ins d k ix) Hr') as [_ B2]. rewrite del_ins in B2 by lia. exact B2.
Qed.
Lemma C10_cinflate_l v d n : vwf v -> (d < length (vdims v))%nat -> nth d (vdims v) 0 = 1 -> 0 <= n ->
  exists v', cinflate (Z.of_nat d) n v = Ok v' /\ vblk v' = vblk v /\ vwf v' /\
    length (vdims v') = length (vdims v) /\ (forall k, nth k (vdims v') 0 = if (k =? d)%nat then n else nth k (vdims v) 0) /\
    forall ix jx, in_range ix (vdims v') -> in_range jx (vdims v) ->
      (forall k, k <> d -> nth k ix 0 = nth k jx 0) -> vaddr v' ix = vaddr v jx.
Proof.
  intros Hw Hd H1 Hn0. pose proof Hw as [L Hn].
  destruct (Z.eq_dec n 1) as [->|Hne].
  - exists v. split.
    { unfold cinflate. rewrite zget_nth_ok by lia. rewrite Nat2Z.id, H1. reflexivity. }
    repeat split; auto.
    + intro k. destruct (k =? d)%nat eqn:E; [apply Nat.eqb_eq in E; now subst|reflexivity].
    + intros ix jx Hi Hj H. f_equal. apply list_nth0_ext; [apply in_range_length in Hi, Hj; lia|].
      intros k Hk. destruct (Nat.eq_dec k d) as [->|]; [|now apply H].
      apply in_range_nth in Hi as [Li Hi]. apply in_range_nth in Hj as [Lj Hj].
      specialize (Hi d ltac:(lia)). specialize (Hj d ltac:(lia)). rewrite H1 in *. lia.
  - eexists. split.
    { unfold cinflate. rewrite zget_nth_ok by lia. rewrite Nat2Z.id, H1. cbn [bind].
      unfold assrt. ifT. ifF.
      rewrite !vset_ok by lia. cbn. rewrite Nat2Z.id. reflexivity. }
    destruct (inflate_embeds v d n Hw Hd H1 Hn0) as [A B]. cbn in A, B.
    split; [reflexivity|]. split; [exact A|]. cbn. rewrite set_nth_length. split; [reflexivity|].
    split; [intro k; now rewrite nth_set_nth|]. intros ix jx Hi Hj H.
    destruct (B ix Hi) as [B1 B2]. rewrite B2. f_equal.
    apply in_range_length in Hi. rewrite set_nth_length in Hi. pose proof (in_range_length _ _ Hj) as Lj.
    apply list_nth0_ext; [rewrite set_nth_length; lia|]. intros k Hk. rewrite nth_set_nth by lia.
    destruct (k =? d)%nat eqn:E; [apply Nat.eqb_eq in E; subst|apply Nat.eqb_neq in E; now apply H].
    apply in_range_nth in Hj as [_ Hj]. specialize (Hj d ltac:(lia)). rewrite H1 in Hj. lia.
Qed.
Lemma C10_cinflate_throw_l v d n : vwf v -> (d < length (vdims v))%nat -> nth d (vdims v) 0 <> 1 -> nth d (vdims v) 0 <> n ->
  cinflate (Z.of_nat d) n v = Throw.
Proof.
  intros [L Hn] Hd H1 H2. unfold cinflate. rewrite zget_nth_ok by lia. rewrite Nat2Z.id. cbn [bind].
  unfold assrt. ifF. reflexivity.
Qed.
Lemma C10_diag_l v d s0 s1 : vdims v = [d; d] -> vstr v = [s0; s1] ->
  exists v', diag v = Ok v' /\ vdims v' = [d] /\ vblk v' = vblk v /\
    forall i, 0 <= i < d -> vaddr v' [i] = vaddr v [i; i].
Proof.
  intros Ed Es. unfold diag. rewrite Ed, Es. unfold assrt. rewrite Z.eqb_refl. eexists. repeat split.
  intros i Hi. unfold vaddr. cbn. rewrite Es. cbn. do 2 f_equal. ring.
Qed.

(* generalised diagonals *)
Lemma dels_shift js k p q : length p = k -> dels (map (fun j => (k + j)%nat) js) (p ++ q) = p ++ dels js q.
Proof.
  intro L. induction js as [|j js IH]; [reflexivity|]. cbn [map dels]. rewrite IH.
  clear IH. subst k. induction p as [|x p IH]; [reflexivity|]. cbn [length app plus del]. f_equal. exact IH.
Qed.
Lemma incr_from_shift m k js : incr_from (m + k) js -> exists js', js = map (fun j => (k + j)%nat) js' /\ incr_from m js'.
Proof.
  revert m; induction js as [|j js IH]; intros m H; [exists []; repeat split|].
  destruct H as [H1 H2]. replace (S j) with (S (j - k) + k)%nat in H2 by lia.
  destruct (IH _ H2) as (js' & -> & H3). exists ((j - k)%nat :: js'). cbn. split; [f_equal; lia|]. split; [lia|assumption].
Qed.
Lemma except_loop_dels js : forall m beg acc, incr_from m js ->
  Forall (fun j => (j < m + length beg)%nat) js ->
  except_loop (Z.of_nat (m + length beg)) (Z.of_nat m) (map Z.of_nat js) beg acc =
  Ok (acc ++ dels (map (fun j => (j - m)%nat) js) beg).
Proof.
  induction js as [|j js IH]; intros m beg acc Hi Hb.
  - cbn. do 2 f_equal. destruct (_ <? _) eqn:E; [reflexivity|]. destruct beg; [reflexivity|cbn in E; lia].
  - destruct Hi as [Hm Hi]. inversion Hb as [|? ? Hj Hb']; subst. cbn [map except_loop]. unfold assrt. ifT. ifF.
    replace (Z.to_nat (Z.of_nat j - Z.of_nat m)) with (j - m)%nat by lia.
    replace (Z.of_nat j + 1) with (Z.of_nat (S j)) by lia.
    replace (Z.of_nat (m + length beg)) with (Z.of_nat (S j + length (skipn (S (j - m)) beg))) by (rewrite skipn_length; lia).
    rewrite IH; [|assumption|].
    + rewrite <- app_assoc. do 2 f_equal. cbn [dels].
      change (S j) with (0 + S j)%nat in Hi. apply incr_from_shift in Hi as (js' & -> & _).
      rewrite !map_map.
      replace (map (fun x => (S j + x - m)%nat) js') with (map (fun x => (S (j - m) + x)%nat) js')
        by (apply map_ext; intro; lia).
      replace (map (fun x => (S j + x - S j)%nat) js') with js'
        by (rewrite <- (map_id js') at 1; apply map_ext; intro; lia).
      rewrite <- (firstn_skipn (S (j - m)) beg) at 3.
      rewrite <- (map_map (fun x => x) (fun x => (S (j - m) + x)%nat)), map_id.
      rewrite dels_shift by (rewrite firstn_length; lia).
      set (p := firstn (j - m) beg).
      assert (Ep : firstn (S (j - m)) beg = p ++ [nth (j - m) beg 0]).
      { unfold p. rewrite (nth_split' (j - m) beg) at 1 by lia. rewrite firstn_app, firstn_firstn, firstn_length, Nat.min_r by lia.
        replace (S (j - m) - Nat.min (j - m) (length beg))%nat with 1%nat by lia. reflexivity. }
      rewrite Ep, <- app_assoc. cbn [app]. generalize (nth (j - m) beg 0) as y, (dels js' (skipn (S (j - m)) beg)) as z.
      replace (j - m)%nat with (length p) by (unfold p; rewrite firstn_length; lia).
      intros y z. now rewrite del_shape.
    + rewrite skipn_length. apply Forall_forall. intros x Hx. rewrite Forall_forall in Hb'. specialize (Hb' x Hx). lia.
Qed.
Lemma except_dels js l : incr_from 0 js -> Forall (fun j => (j < length l)%nat) js ->
  except l (map Z.of_nat js) = Ok (dels js l).
Proof.
  intros Hi Hb. unfold except. pose proof (except_loop_dels js 0 l [] Hi Hb) as E. cbn [plus] in E.
  change (Z.of_nat 0) with 0 in E. rewrite E. cbn [app]. do 2 f_equal.
  rewrite <- (map_id js) at 2. apply map_ext. intro; lia.
Qed.
Lemma incr_from_weaken m m' js : (m' <= m)%nat -> incr_from m js -> incr_from m' js.
Proof. destruct js as [|j js]; [auto|]. cbn. intros H [H1 H2]. split; [lia|assumption]. Qed.
Lemma diag_sum_ok js : forall v n s, vwf v -> Forall (fun j => (j < length (vdims v))%nat /\ nth j (vdims v) 0 = n) js ->
  diag_sum n s (map Z.of_nat js) v = Ok (s + fold_right Z.add 0 (map (fun j => nth j (vstr v) 0) js)).
Proof.
  induction js as [|j js IH]; intros v n s Hw H; [cbn; f_equal; lia|].
  inversion H as [|? ? [Hj Hn] H']; subst. pose proof Hw as [L _].
  cbn [map diag_sum]. unfold assrt, ndims. ifT. rewrite zget_nth_ok by lia. cbn [bind]. rewrite Nat2Z.id, Z.eqb_refl.
  rewrite zget_nth_ok by lia. cbn [bind]. rewrite Nat2Z.id. rewrite IH by assumption. f_equal. cbn. lia.
Qed.
Lemma length_dels js l : incr_from 0 js -> Forall (fun j => (j < length l)%nat) js ->
  (length (dels js l) + length js = length l)%nat.
Proof.
  intros Hi Hb.
  assert (G : forall js m, incr_from m js -> Forall (fun j => (j < length l)%nat) js ->
     (length (dels js l) + length js = length l)%nat /\ (forall j, In j js -> (m <= j)%nat) /\ (m <= length l -> m + length js <= length l)%nat).
  { clear js Hi Hb. induction js as [|j js IH]; intros m Hi Hb; [cbn; repeat split; try lia; contradiction|].
    destruct Hi as [Hm Hi]. inversion Hb; subst. destruct (IH (S j) Hi) as (I1 & I2 & I3); [assumption|].
    specialize (I3 ltac:(lia)). cbn [dels length]. rewrite del_length by lia. split; [lia|]. split; [|lia].
    intros x [<-|Hx]; [lia|]. specialize (I2 x Hx). lia. }
  apply (G js 0%nat); assumption.
Qed.
(* dot product along re-inserted equal entries *)
Lemma inss_cons j js x l : inss (j :: js) x l = inss js x (ins j x l).
Proof. reflexivity. Qed.
Lemma dot_inss js : forall m a s ix, (a < m)%nat -> incr_from m js -> Forall (fun j => (j < length s)%nat) js ->
  (length ix + length js = length s)%nat -> (a < length ix)%nat ->
  length (inss js (nth a ix 0) ix) = length s /\
  dot s (inss js (nth a ix 0) ix) =
  dot (dels js s) ix + fold_right Z.add 0 (map (fun j => nth j s 0) js) * nth a ix 0.
Proof.
  induction js as [|j js IH]; intros m a s ix Ham Hi Hb L Hal.
  - cbn in *. split; lia.
  - destruct Hi as [Hm Hi]. inversion Hb as [|? ? Hj Hb']; subst. rewrite inss_cons.
    assert (Hlen : (length (dels js s) + length js = length s)%nat).
    { apply length_dels; [|assumption]. apply incr_from_weaken with (S j); [lia|assumption]. }
    cbn [length] in L.
    assert (Hjl : (j <= length ix)%nat).
    { assert (G : forall js m, incr_from m js -> Forall (fun j => (j < length s)%nat) js -> (m <= length s)%nat -> (m + length js <= length s)%nat).
      { clear. induction js as [|j js IH]; intros m Hi Hb Hm; [cbn; lia|]. destruct Hi as [H1 H2]. inversion Hb; subst.
        specialize (IH (S j) H2 ltac:(assumption) ltac:(lia)). cbn. lia. }
      specialize (G js (S j) Hi Hb' ltac:(lia)). lia. }
    set (ix1 := ins j (nth a ix 0) ix).
    assert (E1 : nth a ix1 0 = nth a ix 0).
    { unfold ix1. rewrite nth_ins_gen by lia. replace (a <? j)%nat with true by (symmetry; apply Nat.ltb_lt; lia). reflexivity. }
    assert (L1 : length ix1 = S (length ix)) by (unfold ix1; apply ins_length; lia).
    destruct (IH (S j) a s ix1) as [I1 I2]; auto; try lia. rewrite E1 in I1, I2.
    split; [exact I1|]. rewrite I2. cbn [dels map fold_right].
    unfold ix1. rewrite dot_ins_r by lia.
    assert (E2 : nth j (dels js s) 0 = nth j s 0).
    { clear -Hi. assert (G : forall js, incr_from (S j) js -> nth j (dels js s) 0 = nth j s 0).
      { clear. intros js Hi. assert (F : forall js m, (j < m)%nat -> incr_from m js -> nth j (dels js s) 0 = nth j s 0).
        { clear. induction js as [|i js IH]; intros m Hm Hi; [reflexivity|]. destruct Hi as [H1 H2]. cbn [dels].
          rewrite nth_del. replace (j <? i)%nat with true by (symmetry; apply Nat.ltb_lt; lia). apply (IH (S i)); [lia|assumption]. }
        apply (F js (S j)); [lia|assumption]. }
      now apply G. }
    rewrite E2. ring.
Qed.
Lemma nth_dels_low a js m l : (a < m)%nat -> incr_from m js -> nth a (dels js l) 0 = nth a l 0.
Proof.
  revert m; induction js as [|i js IH]; intros m Hm Hi; [reflexivity|]. destruct Hi as [H1 H2]. cbn [dels].
  rewrite nth_del. replace (a <? i)%nat with true by (symmetry; apply Nat.ltb_lt; lia). apply (IH (S i)); [lia|assumption].
Qed.
Lemma in_range_inss js : forall m a n dims ix, (a < m)%nat -> incr_from m js ->
  Forall (fun j => (j < length dims)%nat /\ nth j dims 0 = n) js ->
  in_range ix (dels js dims) -> 0 <= nth a ix 0 < n -> (a < length ix)%nat -> in_range (inss js (nth a ix 0) ix) dims.
Proof.
  induction js as [|j js IH]; intros m a n dims ix Ham Hi Hb Hr Hx Hal; [exact Hr|].
  destruct Hi as [Hm Hi]. inversion Hb as [|? ? [Hj Hjn] Hb']; subst. rewrite inss_cons. cbn [dels] in Hr.
  assert (Hb2 : Forall (fun j => (j < length dims)%nat) js) by (eapply Forall_impl; [|exact Hb']; cbn; tauto).
  assert (G : forall js m, incr_from m js -> Forall (fun j => (j < length dims)%nat) js -> (m <= length dims)%nat -> (m + length js <= length dims)%nat).
  { clear. induction js as [|j js IH]; intros m Hi Hb Hm; [cbn; lia|]. destruct Hi as [H1 H2]. inversion Hb; subst.
    specialize (IH (S j) H2 ltac:(assumption) ltac:(lia)). cbn. lia. }
  specialize (G js (S j) Hi Hb2 ltac:(lia)).
  assert (Hlen : (length (dels js dims) + length js = length dims)%nat).
  { apply length_dels; [|assumption]. apply incr_from_weaken with (S j); [lia|assumption]. }
  pose proof (in_range_length _ _ Hr) as Lr. rewrite del_length in Lr by lia.
  assert (E1 : nth a (ins j (nth a ix 0) ix) 0 = nth a ix 0).
  { rewrite nth_ins_gen by lia. replace (a <? j)%nat with true by (symmetry; apply Nat.ltb_lt; lia). reflexivity. }
  rewrite <- E1 at 1. eapply (IH (S j) a (nth j dims 0)); auto; try lia.
  - apply in_range_ins_del; [lia|assumption|]. rewrite (nth_dels_low j js (S j)) by (auto; lia). exact Hx.
  - rewrite ins_length by lia. lia.
Qed.
Lemma C10_diag_ix_l v a js n : vwf v -> (a < length (vdims v))%nat -> nth a (vdims v) 0 = n -> incr_from (S a) js ->
  Forall (fun j => (j < length (vdims v))%nat /\ nth j (vdims v) 0 = n) js ->
  exists v', diag_ix (map Z.of_nat (a :: js)) v = Ok v' /\ vblk v' = vblk v /\ vdims v' = dels js (vdims v) /\
    forall ix, in_range ix (vdims v') ->
      in_range (inss js (nth a ix 0) ix) (vdims v) /\ vaddr v' ix = vaddr v (inss js (nth a ix 0) ix).
Proof.
  intros Hw Ha Hn Hi Hb. pose proof Hw as [L Hnn].
  assert (Hb2 : Forall (fun j => (j < length (vdims v))%nat) js) by (eapply Forall_impl; [|exact Hb]; cbn; tauto).
  assert (Hb3 : Forall (fun j => (j < length (vstr v))%nat) js) by (now rewrite L).
  assert (Hi0 : incr_from 0 js) by (apply incr_from_weaken with (S a); [lia|assumption]).
  pose proof (length_dels js (vdims v) Hi0 Hb2) as Ld. pose proof (length_dels js (vstr v) Hi0 Hb3) as Ls.
  assert (G : forall js m, incr_from m js -> Forall (fun j => (j < length (vdims v))%nat) js -> (m <= length (vdims v))%nat -> (m + length js <= length (vdims v))%nat).
  { clear. induction js as [|j js IH]; intros m Hi Hb Hm; [cbn; lia|]. destruct Hi as [H1 H2]. inversion Hb; subst.
    specialize (IH (S j) H2 ltac:(assumption) ltac:(lia)). cbn. lia. }
  specialize (G js (S a) Hi Hb2 ltac:(lia)).
  set (S := nth a (vstr v) 0 + fold_right Z.add 0 (map (fun j => nth j (vstr v) 0) js)).
  exists (View (vblk v) (voff v) (dels js (vdims v)) (set_nth a S (dels js (vstr v)))). split.
  - cbn [map diag_ix]. unfold assrt at 1, ndims. ifT. rewrite !zget_nth_ok by lia. cbn [bind]. rewrite Nat2Z.id, Hn.
    rewrite diag_sum_ok by assumption. cbn [bind]. rewrite !except_dels by assumption. cbn [bind].
    rewrite vset_ok by lia. cbn [bind]. rewrite Nat2Z.id. reflexivity.
  - split; [reflexivity|]. split; [reflexivity|]. cbn [vdims]. intros ix Hr.
    pose proof (in_range_length _ _ Hr) as Lx.
    assert (Hx : 0 <= nth a ix 0 < n).
    { apply in_range_nth in Hr as [_ Hr]. specialize (Hr a ltac:(lia)).
      rewrite (nth_dels_low a js (Datatypes.S a)) in Hr by (auto; lia). now rewrite Hn in Hr. }
    assert (Hr2 : in_range (inss js (nth a ix 0) ix) (vdims v)).
    { eapply (in_range_inss js (Datatypes.S a) a n); auto; lia. }
    split; [exact Hr2|]. rewrite (vaddr_in_range v) by assumption.
    rewrite vaddr_ok by (cbn [vstr]; rewrite set_nth_length; lia). cbn [vblk voff vstr]. do 3 f_equal.
    destruct (dot_inss js (Datatypes.S a) a (vstr v) ix) as [_ E]; auto; try lia. rewrite E.
    rewrite dot_set_l by lia. rewrite (nth_dels_low a js (Datatypes.S a)) by (auto; lia). unfold S. ring.
Qed.
(* with the smallest position not first, diag(ix) puts the summed stride in the wrong place *)
Lemma C10_diag_ix_refuted_l : exists v v', vwf v /\ v = fresh_view 0 (vdims v) /\
  diag_ix [2; 0] v = UB /\ diag_ix [1; 0] v = Ok v' /\ ~ part_of v' v.
Proof.
  exists (fresh_view 0 [2; 2; 2]), (View 0 0 [2; 2] [2; 6]).
  split; [split; [reflexivity|repeat constructor; lia]|]. split; [reflexivity|]. split; [reflexivity|]. split; [reflexivity|].
  intro H. destruct (H [1; 1]) as (jx & Hr & E); [repeat constructor; lia|].
  inversion Hr as [|i ? r ? Hi Hr1]; subst. apply in_range2 in Hr1 as (j & k & -> & Hj & Hk).
  change (Ok (0, 8) = Ok (0, 0 + (4 * i + (2 * j + (1 * k + 0))))) in E.
    assert (8 = 0 + (4 * i + (2 * j + (1 * k + 0)))) by congruence. lia.
Qed.
