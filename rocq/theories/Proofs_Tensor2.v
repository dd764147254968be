From Verif Require Import Base BaseFacts Model_Index Model_View Model_Tensor Spec_Index Spec_View Spec_Tensor
  Proofs_Axes Proofs_Index Proofs_View Proofs_View2 Proofs_Tensor.
Local Open Scope Z_scope.

(* ---- the regular-or-for_each pattern ---- *)
Lemma all_regular_ok r xs : vwf r -> Forall (fun x => vwf x /\ vdims x = vdims r) xs ->
  exists b, all_regular r xs = Ok b /\
    (b = true -> vstr r = strides_of 1 (vdims r) /\ Forall (fun x => vstr x = vstr r) xs) /\
    (vdims r = [] -> b = true).
Proof.
  intros [Lr Nr] H. induction H as [|x xs [[Lx _] Dx] Hxs (b & E & Hb & Hnil)].
  - cbn. destruct (is_regular (vstr r) (vdims r)) as [b| |] eqn:E.
    2,3: unfold is_regular in E; rewrite Lr, Nat.eqb_refl in E; discriminate.
    exists b. split; [reflexivity|]. split.
    + intros ->. split; [now apply is_regular_iff|constructor].
    + intro D. rewrite D in *. destruct (vstr r); [|discriminate]. cbn in E. now injection E.
  - cbn. destruct (is_regular (vstr x) (vdims x)) as [a| |] eqn:Ea.
    2,3: unfold is_regular in Ea; rewrite Lx, Nat.eqb_refl in Ea; discriminate.
    cbn. rewrite E. cbn. eexists. split; [reflexivity|]. split.
    + intro Hall. apply andb_prop in Hall as [Hab Heq]. apply andb_prop in Hab as [-> ->].
      apply eqlb_eq in Heq. destruct (Hb eq_refl) as [A B]. split; [assumption|].
      constructor; [congruence|assumption].
    + intro D. rewrite (Hnil D). rewrite Dx, D in *. destruct (vstr x), (vstr r); try discriminate.
      cbn in Ea. injection Ea as <-. reflexivity.
Qed.

Lemma reg_or_each_ok {V} (f : V -> list V -> V) r xs m :
  vwf r -> distinct_cells r -> readable m r ->
  Forall (fun x => vwf x /\ vdims x = vdims r /\ readable m x /\ no_clobber r x) xs ->
  exists m', reg_or_each f r xs m = Ok m' /\ elementwise f r xs m m'.
Proof.
  intros Wr Hd Rr Hxs.
  assert (Hxs' : Forall (fun x => vwf x /\ vdims x = vdims r) xs) by (eapply Forall_impl; [|exact Hxs]; cbn; tauto).
  destruct (all_regular_ok r xs Wr Hxs') as (b & E & Hb & Hnil).
  unfold reg_or_each. rewrite E. cbn [bind]. destruct b.
  - destruct (Hb eq_refl) as [Er Hs]. rewrite flat_run. apply elementwise_of_run; try assumption.
    rewrite asize_prod. destruct Wr as [Lr Nr]. rewrite <- row_major_addrs by assumption. rewrite <- Er.
    unfold entries. rewrite map_map. erewrite map_ext; [reflexivity|]. intro ix. cbn.
    unfold cell. apply (f_equal (fun l => (_, l))). apply map_ext_in. intros x Hx. rewrite Forall_forall in Hs. now rewrite (Hs x Hx).
  - rewrite each_run; try assumption.
    + now apply elementwise_of_run.
    + intro D. now specialize (Hnil D).
Qed.

(* ---- scalar addition: scrunch + for_each ---- *)
Lemma merge_fst ax d s : 0 <= d -> Forall (fun p => 0 <= fst p) ax -> Forall (fun p => 0 <= fst p) (merge d s ax).
Proof.
  intros Hd H; revert d s Hd. induction H as [|[d' s'] ax Hd' Hax IH]; intros d s Hd; cbn.
  - repeat constructor; assumption.
  - cbn in Hd'. destruct (_ =? _); [apply IH; nia|]. constructor; [assumption|now apply IH].
Qed.
Lemma scrunch_ok r : vwf r -> Forall (fun s => s < INT_MAX) (vstr r) ->
  exists ax : list (Z * ZO),
    scrunch r = Ok (View (vblk r) (voff r) (map fst ax) (map snd ax)) /\
    Permutation (addrs ax) (map (dot (vstr r)) (all_indices (vdims r))) /\
    Forall (fun p => 0 <= fst p) ax /\ (vdims r <> [] -> ax <> []).
Proof.
  intros [Lr Nr] Hmax. unfold scrunch.
  pose (full := combine (vdims r) (vstr r) : list (Z * Z)).
  assert (Lf : length full = length (vstr r)) by (unfold full; rewrite combine_length; lia).
  pose (g := fun k => nth k full (0, 0)).
  pose proof (ordering_perm (vstr r) Hmax) as P.
  assert (Hg : forall k, (k < length (vstr r))%nat ->
     (do s <- vget (vstr r) k; do d <- vget (vdims r) k; Ok (d, s)) = Ok (g k)).
  { intros k Hk. rewrite (vget_nth _ k 0) by assumption. cbn.
    rewrite (vget_nth _ k 0) by lia. cbn. unfold g, full. rewrite combine_nth'; [reflexivity|lia]. }
  rewrite (mapM_ok _ g).
  2:{ apply Forall_forall. intros k Hk. apply Hg. rewrite P in Hk. apply in_seq in Hk. lia. }
  cbn [bind]. set (ax0 := map g (ordering (vstr r))).
  assert (P0 : Permutation ax0 full).
  { unfold ax0. rewrite P, <- Lf. unfold g. now rewrite map_nth_seq. }
  assert (F0 : Forall (fun p => 0 <= fst p) ax0).
  { rewrite P0. apply Forall_forall. intros [a b] Hin. unfold full in Hin. apply in_combine_l in Hin. cbn.
    unfold nonneg in Nr. rewrite Forall_forall in Nr. now apply Nr. }
  clearbody ax0.
  exists (rev (merge_all ax0)). split; [reflexivity|].
  assert (E : Permutation (addrs (merge_all ax0 : list (Z * ZO))) (addrs (ax0 : list (Z * ZO)))).
  { destruct ax0 as [|[d s] ax0]; [reflexivity|]. inversion F0; subst. cbn in *. now apply merge_addrs. }
  assert (F1 : Forall (fun p => 0 <= fst p) (merge_all ax0)).
  { destruct ax0 as [|[d s] ax0]; [constructor|]. inversion F0; subst. now apply merge_fst. }
  split; [|split].
  - rewrite (addrs_perm ZO _ _ (Permutation_sym (Permutation_rev _))).
    rewrite E, (addrs_perm ZO _ _ P0). unfold full. rewrite <- addrs_axes by assumption. reflexivity.
  - now apply Forall_rev.
  - intros Hne Hr. apply (f_equal (@length _)) in Hr. rewrite rev_length in Hr.
    destruct ax0 as [|[d s] ax0].
    + apply Permutation_nil in P0. apply Hne.
      apply (f_equal (@length _)) in P0. rewrite Lf in P0. cbn in P0.
      destruct (vdims r); [reflexivity|cbn in Lr; lia].
    + cbn in Hr. clear -Hr. revert d s Hr. induction ax0 as [|[d' a] l IH]; intros d s; cbn; [discriminate|].
      destruct (_ =? _); [apply IH|discriminate].
Qed.
Lemma each1_run {V} (f : V -> list V -> V) b ro (ax : list (Z * ZO)) m :
  Forall (fun p => 0 <= fst p) ax -> ax <> [] ->
  each1 f (View b ro (map fst ax) (map snd ax)) m = run f (map (fun o => ((b, ro + o), [])) (addrs ax)) m.
Proof.
  intros Fx Hne.
  assert (E1 : loops1 (map fst ax) (map snd ax) ro (fun a => rmw f (b, a) []) m =
          run f (map (fun o => ((b, ro + o), [])) (addrs ax)) m).
  { rewrite loops1_run by now rewrite !map_length. rewrite addrs1_axes. reflexivity. }
  assert (E2 : each f (View b ro (map fst ax) (map snd ax)) [] m =
          run f (map (fun o => ((b, ro + o), [])) (addrs ax)) m).
  { rewrite each_run.
    - f_equal. unfold entries. rewrite addrs1_axes, map_map. reflexivity.
    - split; cbn; [now rewrite !map_length|]. unfold nonneg. now apply Forall_map.
    - destruct ax; [congruence|discriminate].
    - constructor. }
  unfold each1. cbn [vdims vstr voff vblk].
  destruct (length (map fst ax)) as [|[|[|[|[|[|n]]]]]] eqn:El; try exact E1; try exact E2.
  destruct ax; [congruence|discriminate].
Qed.

Lemma add_scalar_ok {R : cring} eq0 r (x : R) m : vwf r -> Forall (fun s => s < INT_MAX) (vstr r) ->
  vdims r <> [] -> distinct_cells r -> readable m r -> (eq0 x = true -> x = c0) ->
  exists m', tv_add_scalar eq0 r x m = Ok m' /\ elementwise (fun v _ => cadd v x) r [] m m'.
Proof.
  intros Wr Hmax Hne Hd Rr H0. unfold tv_add_scalar. rewrite asize_prod.
  destruct (prod (vdims r) =? 0) eqn:E0.
  { destruct (elementwise_of_run (fun v _ => cadd v x) r [] m []) as (m' & A & B); try assumption; [constructor| |].
    - unfold entries. rewrite all_indices_empty by (try apply Wr; lia). reflexivity.
    - exists m. split; [reflexivity|]. cbn in A. injection A as ->. exact B. }
  destruct (eq0 x) eqn:Ex.
  - exists m. split; [reflexivity|]. rewrite (H0 eq_refl). split; [|intros b a _; reflexivity].
    intros ix Hix. specialize (Rr ix Hix). destruct (elem m r ix) as [v|] eqn:E; [|congruence].
    exists v, []. repeat split; [constructor|]. f_equal. destruct R as [C z o a mu su op th]. cbn in *.
    destruct th. rewrite Radd_comm. now rewrite Radd_0_l.
  - destruct (scrunch_ok r Wr Hmax) as (ax & -> & P & Fx & Hax). cbn [bind].
    rewrite each1_run by (try assumption; now apply Hax).
    apply elementwise_of_run; try assumption; [constructor|].
    unfold entries. rewrite P, map_map. reflexivity.
Qed.

(* ---- assignment and copy ---- *)
Lemma untouched_elem {V} (m m' : mem V) r x ix : untouched m m' r ->
  in_range ix (vdims x) -> (forall jx, in_range jx (vdims r) -> vaddr r jx <> vaddr x ix) ->
  elem m' x ix = elem m x ix.
Proof.
  intros Hu Hix Hn. unfold elem. destruct (vaddr x ix) as [[b a]| |] eqn:E; try reflexivity.
  apply Hu. intros jx Hj. now apply Hn.
Qed.
Lemma assign_ok {V} r x (m : mem V) :
  plain_layout r -> vwf x -> vdims x = vdims r ->
  distinct_cells r -> readable m r -> readable m x -> no_clobber r x ->
  exists m', tv_assign r x m = Ok m' /\
    (forall ix, in_range ix (vdims r) -> elem m' r ix = elem m x ix) /\ untouched m m' r.
Proof.
  intros Pr Wx Dx Hd Rr Rx Nc. unfold tv_assign. rewrite Dx, eqlb_refl. cbn [assrt].
  assert (G : forall m1 : mem V, readable m1 r -> readable m1 x ->
     (forall ix, in_range ix (vdims r) -> elem m1 x ix = elem m x ix) -> untouched m m1 r ->
     exists m', dispatch2 f_set r x m1 = Ok m' /\
      (forall ix, in_range ix (vdims r) -> elem m' r ix = elem m x ix) /\ untouched m m' r).
  { intros m1 R1 R2 Hsame U. destruct (dispatch2_ok f_set r x m1) as (m' & E & A & B); try assumption.
    exists m'. split; [exact E|]. split.
    - intros ix Hix. destruct (A ix Hix) as (v & us & Hv & Hus & Hr).
      inversion Hus as [|? u ? us' Hu Hus' Heq]; subst. inversion Hus'; subst.
      rewrite Hr. cbn. rewrite <- Hsame by assumption. now symmetry.
    - intros b a Hn. rewrite B by assumption. now apply U. }
  destruct (vdims r) as [|d ds] eqn:Er.
  - (* rank 0 *)
    destruct Pr as (Lr & _). destruct Wx as [Lx _]. rewrite Er in Lr. rewrite Dx in Lx.
    assert (I0 : in_range [] (vdims r)) by (rewrite Er; constructor).
    assert (I1 : in_range [] (vdims x)) by (rewrite Dx; constructor).
    pose proof (Rr [] I0) as H1. pose proof (Rx [] I1) as H2.
    unfold elem, vaddr in H1, H2. destruct (vstr r) eqn:Es; [|discriminate]. destruct (vstr x) eqn:Es'; [|discriminate].
    cbn in H1, H2. rewrite Z.add_0_r in H1, H2.
    destruct (m (vblk r) (voff r)) as [v|] eqn:Ev; [|congruence].
    destruct (m (vblk x) (voff x)) as [u|] eqn:Eu; [|congruence].
    unfold rmw. cbn. unfold loadA, load. cbn. rewrite Ev, Eu. cbn. unfold store. rewrite Ev. cbn.
    assert (G1 : forall (w : view) ix, in_range ix [] -> vstr w = [] -> vaddr w ix = Ok (vblk w, voff w)).
    { intros w ix Hix Hw. inversion Hix; subst. unfold vaddr. rewrite Hw. cbn. now rewrite Z.add_0_r. }
    assert (Hsame : forall ix, in_range ix [] ->
        elem (upd m (vblk r) (voff r) u) x ix = elem m x ix).
    { intros ix Hix. unfold elem. rewrite (G1 x) by assumption. unfold upd.
      destruct ((vblk x =? vblk r) && (voff x =? voff r)) eqn:Eq; [|reflexivity]. now rewrite Eu. }
    apply G.
    + intros ix Hix. rewrite Er in Hix. unfold elem. rewrite (G1 r) by assumption. rewrite upd_same. discriminate.
    + intros ix Hix. rewrite Dx in Hix. rewrite Hsame by assumption. apply Rx. now rewrite Dx.
    + exact Hsame.
    + intros b a Hn. unfold upd. destruct ((b =? vblk r) && (a =? voff r)) eqn:Eq; [|reflexivity].
      exfalso. rewrite Er in Hn. apply (Hn []); [constructor|]. rewrite (G1 r []); [|constructor|assumption].
      do 2 f_equal; lia.
  - rewrite <- Er. cbn [bind]. rewrite <- Er in G. apply G; try assumption; try reflexivity.
    intros b a _; reflexivity.
Qed.

Lemma fresh_plain b dims : nonneg dims -> Forall (fun s => s < INT_MAX) (strides_of 1 dims) ->
  plain_layout (fresh_view b dims).
Proof.
  intros Hn Hm. unfold plain_layout. cbn. split; [apply strides_of_length|]. split; [assumption|].
  assert (Hnn : nonneg (strides_of 1 dims)).
  { clear Hm. induction Hn as [|d ds Hd Hds IH]; [constructor|]. rewrite strides_of_cons. constructor; [|exact IH].
    pose proof (prod_nonneg ds Hds). lia. }
  split.
  - unfold nonneg in Hnn. rewrite Forall_forall in *. intros s Hs. specialize (Hm s Hs). specialize (Hnn s Hs). lia.
  - destruct dims as [|d ds]; [now left|right]. clear. revert d; induction ds as [|d' ds IH]; intro d; rewrite strides_of_cons.
    + left. cbn. unfold prod. cbn. lia.
    + right. apply IH.
Qed.
Lemma alloc_other {V} (z : V) b n m b' a : b' <> b -> alloc z b n m b' a = m b' a.
Proof. intro H. unfold alloc. now replace (b' =? b) with false by lia. Qed.
Lemma alloc_in {V} (z : V) b n m a : 0 <= a < n -> alloc z b n m b a = Some z.
Proof. intro H. unfold alloc. rewrite Z.eqb_refl. now replace ((0 <=? a) && (a <? n)) with true by lia. Qed.
Lemma fresh_readable {V} (z : V) b dims m ix : nonneg dims -> in_range ix dims ->
  elem (alloc z b (asize dims) m) (fresh_view b dims) ix = Some z.
Proof.
  intros Hn Hix. destruct (fresh_inside b dims Hn) as [H1 _].
  destruct (H1 ix Hix) as (a & E & Ha). unfold elem. rewrite E. now apply alloc_in.
Qed.
Lemma vaddr_blk v ix p : vaddr v ix = Ok p -> fst p = vblk v.
Proof. unfold vaddr. destruct (offs (vstr v) ix); cbn; intro H; try discriminate. now injection H as <-. Qed.

Lemma copy_ok {V} (z : V) b x (m : mem V) : vwf x -> readable m x ->
  Forall (fun s => s < INT_MAX) (strides_of 1 (vdims x)) -> (forall a, m b a = None) ->
  exists r m', tv_copy z b x m = Ok (r, m') /\ vdims r = vdims x /\
    (forall ix, in_range ix (vdims x) -> elem m' r ix = elem m x ix) /\
    disjoint_views r x /\ distinct_cells r /\ (forall b' a, b' <> b -> m' b' a = m b' a).
Proof.
  intros Wx Rx Hm Hb. unfold tv_copy. set (r := fresh_view b (vdims x)).
  set (m0 := alloc z b (asize (vdims x)) m).
  destruct Wx as [Lx Nx]. pose proof (fresh_inside b (vdims x) Nx) as [Hin Hd].
  assert (Hxb : forall ix, in_range ix (vdims x) -> exists a, vaddr x ix = Ok (vblk x, a) /\ vblk x <> b).
  { intros ix Hix. rewrite vaddr_cell by assumption. unfold cell. eexists. split; [reflexivity|].
    intro E. apply (Rx ix Hix). unfold elem. rewrite vaddr_cell by assumption. cbn. rewrite E. apply Hb. }
  assert (Hdis : disjoint_views r x).
  { intros ix jx Hix Hjx E. destruct (Hin ix Hix) as (a & Ea & _). destruct (Hxb jx Hjx) as (a' & Ea' & Hne).
    fold r in Ea. rewrite Ea, Ea' in E. injection E as E _. congruence. }
  assert (Hex : forall ix, in_range ix (vdims x) -> elem m0 x ix = elem m x ix).
  { intros ix Hix. destruct (Hxb ix Hix) as (a & Ea & Hne). unfold elem. rewrite Ea. unfold m0. now rewrite alloc_other. }
  destruct (assign_ok r x m0) as (m' & E & A & B).
  - now apply fresh_plain.
  - split; assumption.
  - reflexivity.
  - exact Hd.
  - intros ix Hix. unfold m0, r. rewrite fresh_readable; [discriminate|assumption|exact Hix].
  - intros ix Hix. rewrite Hex by assumption. now apply Rx.
  - intros ix jx Hix Hjx Eq. exfalso. now apply (Hdis ix jx).
  - exists r, m'. rewrite E. cbn. split; [reflexivity|]. split; [reflexivity|]. split.
    { intros ix Hix. rewrite A by assumption. now apply Hex. }
    split; [assumption|]. split; [assumption|].
    intros b' a Hne. rewrite B.
    + unfold m0. now rewrite alloc_other.
    + intros ix Hix Eq. destruct (Hin ix Hix) as (a' & Ea & _). fold r in Ea. rewrite Ea in Eq. congruence.
Qed.
