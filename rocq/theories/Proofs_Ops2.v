From Verif Require Import Base BaseFacts Model_Index Model_View Model_Tensor Model_Ops Spec_Index Spec_View Spec_Tensor Spec_Ops
  Proofs_Axes Proofs_Index Proofs_View Proofs_View2 Proofs_Tensor Proofs_Tensor2 Proofs_Tensor3 Proofs_Ops.
Local Open Scope Z_scope.

(* ---- nested loops run over the indices in row-major order ---- *)
Lemma loops1_fold {S} dims (body : Z -> S -> res S) : forall rs ro st, length rs = length dims ->
  loops1 dims rs ro body st = foldM (fun ix => body (ro + dot rs ix)) (all_indices dims) st.
Proof.
  induction dims as [|n dims IH]; intros [|r0 rs] ro st L; try discriminate.
  - cbn. rewrite Z.add_0_r. destruct (body ro st); reflexivity.
  - injection L as L. cbn [loops1 all_indices]. unfold forZ. rewrite foldM_flat_map. apply foldM_ext. intros i s _.
    rewrite IH by assumption. rewrite foldM_map. apply foldM_ext. intros ix s' _. cbn [dot]. f_equal. ring.
Qed.
Lemma loops2_fold {S} dims (body : Z -> Z -> S -> res S) : forall xs ys xo yo st, length xs = length dims -> length ys = length dims ->
  loops2 dims xs ys xo yo body st = foldM (fun ix => body (xo + dot xs ix) (yo + dot ys ix)) (all_indices dims) st.
Proof.
  induction dims as [|n dims IH]; intros [|x0 xs] [|y0 ys] xo yo st L1 L2; try discriminate.
  - cbn. rewrite !Z.add_0_r. destruct (body xo yo st); reflexivity.
  - injection L1 as L1. injection L2 as L2. cbn [loops2 all_indices]. unfold forZ. rewrite foldM_flat_map. apply foldM_ext. intros i s _.
    rewrite IH by assumption. rewrite foldM_map. apply foldM_ext. intros ix s' _. cbn [dot]. f_equal; ring.
Qed.
Lemma loops3_fold {S} dims (body : Z -> Z -> Z -> S -> res S) : forall xs ys zs xo yo zo st,
  length xs = length dims -> length ys = length dims -> length zs = length dims ->
  loops3 dims xs ys zs xo yo zo body st =
  foldM (fun ix => body (xo + dot xs ix) (yo + dot ys ix) (zo + dot zs ix)) (all_indices dims) st.
Proof.
  induction dims as [|n dims IH]; intros [|x0 xs] [|y0 ys] [|z0 zs] xo yo zo st L1 L2 L3; try discriminate.
  - cbn. rewrite !Z.add_0_r. destruct (body xo yo zo st); reflexivity.
  - injection L1 as L1. injection L2 as L2. injection L3 as L3. cbn [loops3 all_indices]. unfold forZ. rewrite foldM_flat_map. apply foldM_ext. intros i s _.
    rewrite IH by assumption. rewrite foldM_map. apply foldM_ext. intros ix s' _. cbn [dot]. f_equal; ring.
Qed.
Lemma rank_cases {A} (l : list Z) (a0 a1 a2 : A) : l <> [] ->
  (match length l with O => a0 | 1%nat | 2%nat | 3%nat | 4%nat | 5%nat => a1 | _ => a2 end) = a1 \/
  (match length l with O => a0 | 1%nat | 2%nat | 3%nat | 4%nat | 5%nat => a1 | _ => a2 end) = a2.
Proof.
  destruct l as [|? [|? [|? [|? [|? [|? l]]]]]]; intro H; [contradiction|left; reflexivity..|right; reflexivity].
Qed.
Lemma visit_ok {S} x (lambda : addr -> S -> res S) st : vwf x -> vdims x <> [] ->
  visit x lambda st = foldM (fun ix st => do p <- vaddr x ix; lambda p st) (all_indices (vdims x)) st.
Proof.
  intros [Lx Nx] Hne. unfold visit.
  match goal with |- match _ with O => ?a0 | _ => _ end = ?E =>
    destruct (rank_cases (vdims x) a0 (loops1 (vdims x) (vstr x) (voff x) (fun a => lambda (vblk x, a)) st)
       (foreach_index (vdims x) (fun ix st => do p <- vaddr x ix; lambda p st) st) Hne) as [Q|Q] end; rewrite Q.
  - rewrite loops1_fold by assumption. apply foldM_ext. intros ix s Hix. apply in_all_indices in Hix. now rewrite vaddr_cell.
  - now apply foreach_index_fold.
Qed.
Lemma zip2_ok {S} x y (lambda : addr -> addr -> S -> res S) st : vwf x -> vwf y -> vdims y = vdims x -> vdims x <> [] ->
  zip2 x y lambda st = foldM (fun ix st => do p <- vaddr x ix; do q <- vaddr y ix; lambda p q st) (all_indices (vdims x)) st.
Proof.
  intros [Lx Nx] [Ly Ny] D Hne. unfold zip2. rewrite D, eqlb_refl. cbn [assrt].
  match goal with |- match _ with O => ?a0 | _ => _ end = ?E =>
    destruct (rank_cases (vdims x) a0 (loops2 (vdims x) (vstr x) (vstr y) (voff x) (voff y) (fun a c => lambda (vblk x, a) (vblk y, c)) st)
       (foreach_index (vdims x) (fun ix st => do p <- vaddr x ix; do q <- vaddr y ix; lambda p q st) st) Hne) as [Q|Q] end; rewrite Q.
  - rewrite loops2_fold by congruence. apply foldM_ext. intros ix s Hix. apply in_all_indices in Hix.
    rewrite !vaddr_cell by congruence. reflexivity.
  - now apply foreach_index_fold.
Qed.
Lemma zip3_ok {S} x y z (lambda : addr -> addr -> addr -> S -> res S) st : vwf x -> vwf y -> vwf z ->
  vdims y = vdims x -> vdims z = vdims x -> vdims x <> [] ->
  zip3 x y z lambda st =
  foldM (fun ix st => do p <- vaddr x ix; do q <- vaddr y ix; do t <- vaddr z ix; lambda p q t st) (all_indices (vdims x)) st.
Proof.
  intros [Lx Nx] [Ly Ny] [Lz Nz] D1 D2 Hne. unfold zip3. rewrite D1, D2, eqlb_refl. cbn [assrt].
  match goal with |- match _ with O => ?a0 | _ => _ end = ?E =>
    destruct (rank_cases (vdims x) a0 (loops3 (vdims x) (vstr x) (vstr y) (vstr z) (voff x) (voff y) (voff z) (fun a c d => lambda (vblk x, a) (vblk y, c) (vblk z, d)) st)
       (foreach_index (vdims x) (fun ix st => do p <- vaddr x ix; do q <- vaddr y ix; do t <- vaddr z ix; lambda p q t st) st) Hne) as [Q|Q] end; rewrite Q.
  - rewrite loops3_fold by congruence. apply foldM_ext. intros ix s Hix. apply in_all_indices in Hix.
    rewrite !vaddr_cell by congruence. reflexivity.
  - now apply foreach_index_fold.
Qed.

(* ---- loops that set elements of r ---- *)
Lemma put_loop {V A} r (l : list A) (ix : A -> list Z) (T : A -> mem V -> res V) (g : list Z -> V) (m : mem V) :
  vwf r -> distinct_cells r -> readable m r -> (forall a, In a l -> in_range (ix a) (vdims r)) ->
  (forall a m', In a l -> untouched m m' r -> T a m' = Ok (g (ix a))) ->
  exists m', foldM (fun a m => do t <- T a m; put_at r (ix a) t m) l m = Ok m' /\
    (forall a, In a l -> elem m' r (ix a) = Some (g (ix a))) /\
    (forall jx, in_range jx (vdims r) -> (forall a, In a l -> ix a <> jx) -> elem m' r jx = elem m r jx) /\ untouched m m' r.
Proof.
  intros [Lr Nr] Hd Rr Hin HT.
  destruct (foldM_inv (fun done (m' : mem V) => readable m' r /\ (forall a, In a done -> elem m' r (ix a) = Some (g (ix a))) /\
    (forall jx, in_range jx (vdims r) -> (forall a, In a done -> ix a <> jx) -> elem m' r jx = elem m r jx) /\ untouched m m' r)
    (fun a m => do t <- T a m; put_at r (ix a) t m) l m) as (m' & E & A1 & B & C & D).
  - split; [exact Rr|]. split; [intros a []|]. split; [reflexivity|]. intros b a _; reflexivity.
  - intros done i rest m1 El (A1 & B & C & D).
    assert (Hi : In i l) by (rewrite El; apply in_or_app; right; now left).
    pose proof (Hin i Hi) as Hr. rewrite (HT i m1 Hi D). cbn [bind]. unfold put_at. rewrite vaddr_cell by assumption. cbn [bind].
    pose proof (A1 (ix i) Hr) as Hv. rewrite elem_cell in Hv by assumption. unfold at_ in Hv. unfold store.
    destruct (m1 (fst (cell r (ix i))) (snd (cell r (ix i)))) eqn:Ev; [|congruence].
    eexists. split; [reflexivity|].
    assert (Hs : elem (upd m1 (fst (cell r (ix i))) (snd (cell r (ix i))) (g (ix i))) r (ix i) = Some (g (ix i))).
    { rewrite elem_cell by assumption. apply at_upd_same. }
    assert (Ho : forall jx, in_range jx (vdims r) -> jx <> ix i ->
       elem (upd m1 (fst (cell r (ix i))) (snd (cell r (ix i))) (g (ix i))) r jx = elem m1 r jx).
    { intros jx Hj Hne. rewrite !elem_cell by assumption. apply at_upd_other. intro Ec. apply Hne.
      apply Hd; try assumption. rewrite !vaddr_cell by assumption. now rewrite Ec. }
    assert (Dec : forall jx, jx = ix i \/ jx <> ix i) by (intro jx; destruct (list_eq_dec Z.eq_dec jx (ix i)); auto).
    split; [|split; [|split]].
    + intros jx Hj. destruct (Dec jx) as [->|Hne]; [now rewrite Hs|]. rewrite Ho by assumption. now apply A1.
    + intros a Ha. apply in_app_or in Ha as [Ha|[<-|[]]]; [|exact Hs].
      destruct (Dec (ix a)) as [->|Hne]; [exact Hs|]. rewrite Ho; [now apply B| |assumption].
      apply Hin. rewrite El. apply in_or_app. now left.
    + intros jx Hj Hn. rewrite Ho; [apply C; [assumption|]|assumption|].
      * intros a Ha. apply Hn. apply in_or_app. now left.
      * intros ->. apply (Hn i); [|reflexivity]. apply in_or_app. right. now left.
    + intros b a Hn. rewrite <- D by assumption. apply (at_upd_other m1 (cell r (ix i)) (b, a)).
      intro Ec. apply (Hn (ix i) Hr). rewrite vaddr_cell by assumption. now f_equal.
  - exists m'. auto.
Qed.
(* every element of a fresh tensor is set *)
Lemma fill_new {V} (z : V) b dims (m : mem V) (T : list Z -> mem V -> res V) (g : list Z -> V) : nonneg dims ->
  (forall ix m', in_range ix dims -> untouched (alloc z b (asize dims) m) m' (fresh_view b dims) -> T ix m' = Ok (g ix)) ->
  exists m', foldM (fun ix m => do t <- T ix m; put_at (fresh_view b dims) ix t m) (all_indices dims) (alloc z b (asize dims) m) = Ok m' /\
    makes b m m' (fresh_view b dims) dims g.
Proof.
  intros Hn HT.
  destruct (put_loop (fresh_view b dims) (all_indices dims) (fun ix => ix) T g (alloc z b (asize dims) m)) as (m' & E & A & _ & U);
    auto using fresh_vwf, fresh_distinct, fresh_rd.
  - intros ix Hix. now apply in_all_indices in Hix.
  - intros ix m' Hix. apply in_all_indices in Hix. now apply HT.
  - exists m'. split; [exact E|]. eapply makes_fresh; eauto. intros ix Hix. apply A. now apply in_all_indices.
Qed.
(* map *)
Lemma map_new {V W} (z : W) b (f : list Z -> V -> W) x (m : mem V) (m0 : mem W) : vwf x -> readable m x -> vdims x <> [] ->
  exists r m', tv_map z b f x m m0 = Ok (r, m') /\
    vdims r = vdims x /\ vblk r = b /\ vwf r /\ distinct_cells r /\
    (forall ix v, in_range ix (vdims x) -> elem m x ix = Some v -> elem m' r ix = Some (f ix v)) /\
    (forall b' a, b' <> b -> m' b' a = m0 b' a).
Proof.
  intros [Lx Nx] Rx Hne. unfold tv_map, zeros. rewrite foreach_index_fold by assumption.
  destruct (list_eq_dec (list_eq_dec Z.eq_dec) (all_indices (vdims x)) []) as [Emp|Emp].
  - rewrite Emp. cbn [foldM bind]. eexists _, _. split; [reflexivity|]. split; [reflexivity|]. split; [reflexivity|].
    split; [now apply fresh_vwf|]. split; [now apply fresh_distinct|]. split.
    + intros ix v Hix. apply in_all_indices in Hix. rewrite Emp in Hix. destruct Hix.
    + intros b' a Hb. now apply alloc_other.
  - assert (exists w : W, True) as [w _] by now exists z.
    pose (g := fun ix => match elem m x ix with Some v => f ix v | None => w end).
    destruct (fill_new z b (vdims x) m0 (fun ix _ => do p <- vaddr x ix; do v <- loadA m p; Ok (f ix v)) g Nx) as (m' & E & A1 & A2 & A3 & A4 & A5 & A6).
    { intros ix m' Hix _. unfold g. specialize (Rx ix Hix). destruct (elem m x ix) as [v|] eqn:Ev; [|congruence].
      rewrite vaddr_cell by assumption. rewrite elem_cell in Ev by assumption. cbn [bind]. now rewrite (loadA_some _ _ _ Ev). }
    erewrite foldM_ext; [rewrite E|].
    + cbn [bind]. eexists _, m'. split; [reflexivity|]. do 4 (split; [assumption|]). split; [|assumption].
      intros ix v Hix Hv. rewrite A5 by assumption. unfold g. now rewrite Hv.
    + intros ix s Hix. apply in_all_indices in Hix. cbv beta. rewrite (vaddr_cell x) by assumption. cbn [bind].
      specialize (Rx ix Hix). destruct (elem m x ix) as [v|] eqn:Ev; [|congruence]. rewrite elem_cell in Ev by assumption.
      rewrite (loadA_some _ _ _ Ev). reflexivity.
Qed.

Section RingFacts.
Context {R : cring}.
Add Ring RrOps2 : (cth R).
Notation memR := (mem (car R)).
Lemma odot_new b x y (m : memR) : vwf x -> vwf y -> vdims y = vdims x -> readable m x -> readable m y -> vdims x <> [] ->
  (forall a, m b a = None) ->
  exists r m', op_odot b x y m = Ok (r, m') /\ makes b m m' r (vdims x) (fun ix => cmul (elem0 m x ix) (elem0 m y ix)).
Proof.
  intros Wx Wy D Rx Ry Hne Hb. unfold op_odot, zeros. pose proof (proj2 Wx) as Nx.
  destruct (fresh_beside c0 b (vdims x) m x Nx Wx Rx Hb) as (D1 & _ & E1 & R1).
  destruct (fresh_beside c0 b (vdims x) m y Nx Wy Ry Hb) as (D2 & _ & E2 & R2).
  rewrite zip3_ok; auto using fresh_vwf.
  set (m1 := alloc c0 b (asize (vdims x)) m) in *.
  destruct (fill_new c0 b (vdims x) m (fun ix m => do p <- vaddr x ix; do u <- loadA m p; do q <- vaddr y ix; do v <- loadA m q; Ok (cmul u v))
    (fun ix => cmul (elem0 m x ix) (elem0 m y ix)) Nx) as (m' & E & A).
  - intros ix m' Hix U. assert (Hiy : in_range ix (vdims y)) by now rewrite D.
    pose proof (readable_elem m x ix Rx Hix) as F1. pose proof (readable_elem m y ix Ry Hiy) as F2.
    rewrite <- E1, <- (disjoint_keep _ x m1 m' ix D1 U Hix) in F1 by assumption.
    rewrite <- E2, <- (disjoint_keep _ y m1 m' ix D2 U Hiy) in F2 by assumption.
    rewrite elem_cell in F1 by (try assumption; apply Wx). rewrite elem_cell in F2 by (try assumption; apply Wy).
    rewrite !vaddr_cell by (try assumption; first [apply Wx|apply Wy]). cbn [bind].
    rewrite (loadA_some _ _ _ F1). cbn [bind]. now rewrite (loadA_some _ _ _ F2).
  - erewrite foldM_ext; [fold m1 in E; rewrite E|].
    + cbn [bind]. eexists _, m'. split; [reflexivity|exact A].
    + intros ix s Hix. apply in_all_indices in Hix. unfold put_at.
      rewrite !vaddr_cell by (first [assumption|apply Wx|apply Wy|apply fresh_vwf; assumption|rewrite D; assumption]).
      cbn [bind]. destruct (loadA s (cell x ix)); cbn [bind]; [|reflexivity..]. destruct (loadA s (cell y ix)); reflexivity.
Qed.

(* ---- filling constructors ---- *)
Lemma fill_flat b dims (m : memR) (h : Z -> R) : nonneg dims ->
  exists m', forZ (asize dims) (fun i m => store m b i (h i)) (alloc c0 b (asize dims) m) = Ok m' /\
    makes b m m' (fresh_view b dims) dims (fun ix => h (flat ix dims)).
Proof.
  intro Hn. destruct (fill_new c0 b dims m (fun ix _ => Ok (h (flat ix dims))) (fun ix => h (flat ix dims)) Hn) as (m' & E & A); auto.
  exists m'. split; [|exact A]. rewrite <- E. unfold forZ. rewrite asize_prod at 1. rewrite <- row_major_addrs by assumption.
  rewrite foldM_map. apply foldM_ext. intros ix s Hix. apply in_all_indices in Hix. unfold put_at.
  rewrite vaddr_cell by (try assumption; apply strides_of_length). cbn.
  rewrite dot_strides_of by now apply in_range_length. now rewrite Z.mul_1_l.
Qed.
Lemma ones_new b dims (m : memR) : nonneg dims ->
  exists r m', mk_ones b dims m = Ok (r, m') /\ makes b m m' r dims (fun _ => c1).
Proof.
  intro Hn. unfold mk_ones, zeros. destruct (fill_flat b dims m (fun _ => c1) Hn) as (m' & E & A). rewrite E. cbn [bind]. eauto.
Qed.
Lemma constant_new v b dims (m : memR) : nonneg dims ->
  exists r m', mk_constant v b dims m = Ok (r, m') /\ makes b m m' r dims (fun _ => v).
Proof.
  intro Hn. unfold mk_constant, zeros. destruct (fill_flat b dims m (fun _ => v) Hn) as (m' & E & A). rewrite E. cbn [bind]. eauto.
Qed.
Lemma sequential_new of_int b dims (m : memR) : nonneg dims ->
  exists r m', mk_sequential of_int b dims m = Ok (r, m') /\ makes b m m' r dims (fun ix => of_int (flat ix dims)).
Proof.
  intro Hn. unfold mk_sequential, zeros. destruct (fill_flat b dims m of_int Hn) as (m' & E & A). rewrite E. cbn [bind]. eauto.
Qed.
Lemma identity_new b n (m : memR) : 0 <= n ->
  exists r m', mk_identity b [n; n] m = Ok (r, m') /\
    makes b m m' r [n; n] (fun ix => if nth 0 ix 0 =? nth 1 ix 0 then c1 else c0).
Proof.
  intro Hn. assert (Nn : nonneg [n; n]) by (unfold nonneg; auto). unfold mk_identity, zeros. rewrite Z.eqb_refl. cbn [assrt].
  destruct (put_loop (fresh_view b [n; n]) (zrange n) (fun i => [i; i]) (fun _ _ => Ok c1) (fun _ => c1) (alloc c0 b (asize [n; n]) m)) as (m' & E & A & B & U);
    auto using fresh_vwf, fresh_distinct, fresh_rd.
  { intros i Hi. apply in_zrange in Hi. now apply in_range_2. }
  cbn [bind] in E. unfold forZ. rewrite E. cbn [bind]. eexists _, m'. split; [reflexivity|]. eapply makes_fresh; eauto.
  intros ix Hix. destruct (in_range_2_inv _ _ _ Hix) as (i & j & -> & Hi & Hj). cbn [nth]. destruct (i =? j) eqn:Eq.
  - apply Z.eqb_eq in Eq as <-. apply A. now apply in_zrange.
  - rewrite B; [now apply fresh_readable|assumption|]. intros k _ [= -> ->]. lia.
Qed.
Lemma unit_new b n i (m : memR) : 0 <= i < n ->
  exists r m', mk_unit b n i m = Ok (r, m') /\ makes b m m' r [n] (fun ix => if nth 0 ix 0 =? i then c1 else c0).
Proof.
  intro Hi. assert (Nn : nonneg [n]) by (unfold nonneg; constructor; [lia|constructor]). unfold mk_unit, zeros.
  destruct (put_loop (fresh_view b [n]) [i] (fun i => [i]) (fun _ _ => Ok c1) (fun _ => c1) (alloc c0 b (asize [n]) m)) as (m' & E & A & B & U);
    auto using fresh_vwf, fresh_distinct, fresh_rd.
  { intros j [<-|[]]. constructor; [lia|constructor]. }
  cbn [foldM] in E. cbn [bind] in E. destruct (put_at _ _ _ _) as [m1| |]; try discriminate. injection E as ->. cbn [bind].
  eexists _, m'. split; [reflexivity|]. eapply makes_fresh; eauto.
  intros ix Hix. destruct (in_range_1_inv _ _ Hix) as (j & -> & Hj). cbn [nth]. destruct (j =? i) eqn:Eq.
  - apply Z.eqb_eq in Eq as ->. apply A. now left.
  - rewrite B; [now apply fresh_readable|assumption|]. intros k [<-|[]] [= ->]. lia.
Qed.
Lemma scalar_new b v (m : memR) : exists r m', mk_scalar b v m = Ok (r, m') /\ makes b m m' r [] (fun _ => v).
Proof.
  unfold mk_scalar, zeros. cbn. unfold store, alloc, asize. rewrite Z.eqb_refl. cbn [fold_left Z.leb Z.ltb andb Z.compare].
  eexists _, _. split; [reflexivity|]. assert (Nn : nonneg []) by constructor. split; [reflexivity|]. split; [reflexivity|]. split; [now apply fresh_vwf|].
  split; [now apply fresh_distinct|]. split.
  - intros ix Hix. inversion Hix; subst. unfold elem. cbn. unfold upd. now rewrite Z.eqb_refl.
  - intros b' a Hb. unfold upd. now replace (b' =? b) with false by lia.
Qed.

(* ---- from lists ---- *)
Fixpoint enum {A} (i0 : Z) (l : list A) : list (Z * A) :=
  match l with [] => [] | a :: l' => (i0, a) :: enum (i0 + 1) l' end.
Lemma in_enum {A} (l : list A) : forall i0 i a, In (i, a) (enum i0 l) <-> i0 <= i /\ nth_error l (Z.to_nat (i - i0)) = Some a.
Proof.
  induction l as [|x l IH]; intros i0 i a; cbn [enum In].
  - split; [intros []|]. intros [_ H]. now destruct (Z.to_nat (i - i0)).
  - rewrite IH. split.
    + intros [[= -> ->]|[H1 H2]]; [rewrite Z.sub_diag; split; [lia|reflexivity]|]. split; [lia|].
      replace (Z.to_nat (i - i0)) with (S (Z.to_nat (i - (i0 + 1)))) by lia. exact H2.
    + intros [H1 H2]. destruct (Z.eq_dec i i0) as [->|Hne].
      * rewrite Z.sub_diag in H2. cbn in H2. left. congruence.
      * right. split; [lia|]. replace (Z.to_nat (i - i0)) with (S (Z.to_nat (i - (i0 + 1)))) in H2 by lia. exact H2.
Qed.
Lemma foldM_enum {S A} (F : Z -> A -> S -> res S) (l : list A) : forall i0 s,
  foldM (fun p st => let '(i, m) := st in do m' <- F i p m; Ok (i + 1, m')) l (i0, s) =
  do m' <- foldM (fun ip m => F (fst ip) (snd ip) m) (enum i0 l) s; Ok (i0 + Z.of_nat (length l), m').
Proof.
  induction l as [|a l IH]; intros i0 s; cbn [foldM enum length fst snd bind].
  - now rewrite Z.add_0_r.
  - destruct (F i0 a s) as [s'| |]; cbn [bind]; [|reflexivity..]. rewrite IH.
    destruct (foldM _ (enum (i0 + 1) l) s'); cbn [bind]; [|reflexivity..]. do 2 f_equal. lia.
Qed.
Lemma vec_new b (l : list R) (m : memR) : l <> [] ->
  exists r m', mk_vec b l m = Ok (r, m') /\ makes b m m' r [Z.of_nat (length l)] (fun ix => nth (Z.to_nat (nth 0 ix 0)) l c0).
Proof.
  intro Hl. set (n := Z.of_nat (length l)). assert (Hn : 0 < n) by (unfold n; destruct l; [congruence|cbn [length]; lia]).
  assert (Nn : nonneg [n]) by (unfold nonneg; constructor; [lia|constructor]).
  unfold mk_vec. fold n. replace (0 <? n) with true by lia. cbn [assrt]. unfold zeros.
  rewrite (foldM_enum (fun i p m => put_at (fresh_view b [n]) [i] p m)).
  destruct (put_loop (fresh_view b [n]) (enum 0 l) (fun ip => [fst ip]) (fun ip _ => Ok (snd ip))
     (fun ix => nth (Z.to_nat (nth 0 ix 0)) l c0) (alloc c0 b (asize [n]) m)) as (m' & E & A & _ & U); auto using fresh_vwf, fresh_distinct, fresh_rd.
  - intros [i a] Ha. apply in_enum in Ha as [H1 H2]. rewrite Z.sub_0_r in H2. cbn [fst]. constructor; [|constructor].
    assert ((Z.to_nat i < length l)%nat) by (apply nth_error_Some; congruence). unfold n. lia.
  - intros [i a] m' Ha _. apply in_enum in Ha as [H1 H2]. rewrite Z.sub_0_r in H2. cbn [fst snd nth]. f_equal. symmetry. now apply nth_error_nth.
  - cbn [bind] in E. rewrite E. cbn [bind]. eexists _, m'. split; [reflexivity|]. eapply makes_fresh; eauto.
    intros ix Hix. destruct (in_range_1_inv _ _ Hix) as (i & -> & Hi).
    destruct (nth_error l (Z.to_nat i)) as [a|] eqn:Ea; [|apply nth_error_None in Ea; unfold n in Hi; lia].
    apply (A (i, a)). apply in_enum. rewrite Z.sub_0_r. split; [lia|assumption].
Qed.
Lemma mat_new b (l : list (list R)) n1 (m : memR) : l <> [] -> Forall (fun p => length p = n1) l ->
  exists r m', mk_mat b l m = Ok (r, m') /\
    makes b m m' r [Z.of_nat (length l); Z.of_nat n1] (fun ix => nth (Z.to_nat (nth 1 ix 0)) (nth (Z.to_nat (nth 0 ix 0)) l []) c0).
Proof.
  intros Hl Hr. unfold mk_mat. destruct l as [|l0 l']; [congruence|]. set (l := l0 :: l') in *.
  assert (Z.of_nat (length l0) = Z.of_nat n1) as -> by (inversion Hr; subst; reflexivity).
  set (n := Z.of_nat (length l)). set (k := Z.of_nat n1).
  assert (Nn : nonneg [n; k]) by (unfold nonneg; constructor; [lia|constructor; [lia|constructor]]). unfold zeros.
  set (r := fresh_view b [n; k]). set (m1 := alloc c0 b (asize [n; k]) m).
  set (F := fun (i : Z) (p : list R) (m : memR) => foldM (fun ip m => put_at r [i; fst ip] (snd ip) m) (enum 0 p) m).
  rewrite (foldM_ext _ (fun p st => let '(i, m) := st in do m' <- F i p m; Ok (i + 1, m'))).
  2:{ intros p [i mm] _. rewrite (foldM_enum (fun j q m => put_at r [i; j] q m)). unfold F. now destruct (foldM _ (enum 0 p) mm). }
  rewrite (foldM_enum F). unfold F.
  set (L := flat_map (fun ip => map (pair (fst ip)) (enum 0 (snd ip))) (enum 0 l)).
  assert (HL : forall i j q, In (i, (j, q)) L <-> 0 <= i /\ 0 <= j /\ exists p, nth_error l (Z.to_nat i) = Some p /\ nth_error p (Z.to_nat j) = Some q).
  { intros i j q. unfold L. rewrite in_flat_map. split.
    - intros ([i' p] & H1 & H2). apply in_map_iff in H2 as ([j' q'] & [= -> -> ->] & H2). apply in_enum in H1 as [? H1], H2 as [? H2].
      cbn [fst snd] in *. rewrite Z.sub_0_r in *. eauto.
    - intros (Hi & Hj & p & H1 & H2). exists (i, p). split; [apply in_enum; now rewrite Z.sub_0_r|].
      cbn [fst snd]. apply in_map, in_enum. now rewrite Z.sub_0_r. }
  destruct (put_loop r L (fun a => [fst a; fst (snd a)]) (fun a _ => Ok (snd (snd a)))
     (fun ix => nth (Z.to_nat (nth 1 ix 0)) (nth (Z.to_nat (nth 0 ix 0)) l []) c0) m1) as (m' & E & A & _ & U);
    try (unfold r, m1; auto using fresh_vwf, fresh_distinct, fresh_rd; fail).
  - intros [i [j q]] Ha. apply HL in Ha as (Hi & Hj & p & H1 & H2). cbn [fst snd].
    assert ((Z.to_nat i < length l)%nat) by (apply nth_error_Some; congruence).
    assert ((Z.to_nat j < length p)%nat) by (apply nth_error_Some; congruence).
    assert (length p = n1) by (rewrite Forall_forall in Hr; apply Hr; eapply nth_error_In; eauto).
    apply in_range_2; unfold n, k; lia.
  - intros [i [j q]] m' Ha _. apply HL in Ha as (Hi & Hj & p & H1 & H2). cbn [fst snd nth].
    rewrite (nth_error_nth _ _ [] H1), (nth_error_nth _ _ c0 H2). reflexivity.
  - unfold L in E. rewrite foldM_flat_map in E.
    rewrite (foldM_ext _ (fun (a : Z * list R) m => foldM (fun a0 m => do t <- Ok (snd (snd a0)); put_at r [fst a0; fst (snd a0)] t m) (map (pair (fst a)) (enum 0 (snd a))) m)).
    2:{ intros [i p] s _. now rewrite foldM_map. }
    rewrite E. cbn [bind]. eexists _, m'. split; [reflexivity|]. eapply makes_fresh; eauto.
    intros ix Hix. destruct (in_range_2_inv _ _ _ Hix) as (i & j & -> & Hi & Hj).
    destruct (nth_error l (Z.to_nat i)) as [p|] eqn:Ep; [|apply nth_error_None in Ep; unfold n in Hi; lia].
    assert (length p = n1) by (rewrite Forall_forall in Hr; apply Hr; eapply nth_error_In; eauto).
    destruct (nth_error p (Z.to_nat j)) as [q|] eqn:Eq; [|apply nth_error_None in Eq; unfold k in Hj; lia].
    apply (A (i, (j, q))). apply HL. split; [lia|]. split; [lia|]. eauto.
Qed.
End RingFacts.
