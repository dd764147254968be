From Verif Require Import Base BaseFacts Model_Index Model_View Model_Tensor Model_RView Model_CView Model_Column Spec_Index Spec_View Spec_Tensor
  Proofs_Axes Proofs_Index Proofs_View Proofs_View2 Proofs_Tensor Proofs_Tensor2 Proofs_Tensor3 Proofs_RView5 Spec_CView.
From Verif Require Import Spec_RView.
Local Open Scope Z_scope.

Section Cols.
Context {R : cring}.
Add Ring RrCol : (cth R).
Notation memR := (mem (car R)).
Implicit Types (m : memR) (r x y : view).

(* y repeated over n rows *)
Definition rep (n : Z) y : view := View (vblk y) (voff y) (n :: vdims y) (0 :: vstr y).
Lemma in_range2 i j n nc : 0 <= i < n -> 0 <= j < nc -> in_range [i; j] [n; nc].
Proof. intros A B. repeat constructor; lia. Qed.
Lemma in_range1 j nc : 0 <= j < nc -> in_range [j] [nc].
Proof. intro A. repeat constructor; lia. Qed.
Lemma range2_inv ix n nc : in_range ix [n; nc] -> exists i j, ix = [i; j] /\ 0 <= i < n /\ 0 <= j < nc.
Proof. intro H. inversion H as [|i a t b Hi Ht]; subst. inversion Ht as [|j a' t' b' Hj Ht']; subst. inversion Ht'; subst. exists i, j. auto. Qed.
Lemma col_loop_run (f : R -> list R -> R) r x y n nc m : vdims r = [n; nc] -> vstr r = [nc; 1] -> vstr x = [nc; 1] -> vstr y = [1] ->
  col_loop f r x y n nc m = run f (entries r [x; rep n y]) m.
Proof.
  intros Dr Sr Sx Sy. unfold col_loop, run, entries, forZ. rewrite Dr. cbn [all_indices]. rewrite map_flat_map, foldM_flat_map. apply foldM_ext. intros i s _.
  rewrite map_map, foldM_map, foldM_flat_map. apply foldM_ext. intros j s' _. cbn [map foldM all_indices]. unfold cell, rep. rewrite Sr, Sx. cbn [vblk voff vstr fst snd map dot]. rewrite Sy. cbn [dot].
  replace (nc * i + (1 * j + 0)) with (i * nc + j) by ring. replace (0 * i + (1 * j + 0)) with j by ring. destruct (rmw _ _ _ _); reflexivity.
Qed.
Lemma col_op_ok (f : R -> list R -> R) r x y n nc m : vdims r = [n; nc] -> vdims x = [n; nc] -> vdims y = [nc] -> vstr r = [nc; 1] -> vstr x = [nc; 1] -> vstr y = [1] ->
  0 <= n -> 0 <= nc -> readable m r -> readable m x -> readable m y -> no_clobber r x -> disjoint_views r y ->
  exists m', col_op f r x y m = Ok m' /\
    (forall i j, 0 <= i < n -> 0 <= j < nc -> elem m' r [i; j] = Some (f (elem0 m r [i; j]) [elem0 m x [i; j]; elem0 m y [j]])) /\ untouched m m' r.
Proof.
  intros Dr Dx Dy Sr Sx Sy Hn Hnc Rr Rx Ry Nc Dj. unfold col_op. rewrite Dx, Dy, Dr. cbn [length Nat.eqb assrt]. 
  change (zget [n; nc] 0) with (@Ok Z n). change (zget [n; nc] 1) with (@Ok Z nc). change (zget [nc] 0) with (@Ok Z nc). cbn [bind]. rewrite !Z.eqb_refl. cbn [andb assrt].
  rewrite col_loop_run by assumption.
  assert (Wr : vwf r) by (unfold vwf; rewrite Dr, Sr; split; [reflexivity|repeat constructor; lia]).
  assert (Hd : distinct_cells r).
  { intros ix jx Hi Hj E. rewrite !vaddr_cell in E by (try assumption; now rewrite Sr, Dr). unfold cell in E. rewrite Sr in E. rewrite Dr in Hi, Hj.
    apply range2_inv in Hi as (i & j & -> & ? & ?). apply range2_inv in Hj as (i' & j' & -> & ? & ?). cbn [dot] in E.
    assert (E' : nc * i + j = nc * i' + j') by (assert (voff r + (nc * i + (1 * j + 0)) = voff r + (nc * i' + (1 * j' + 0))) by congruence; lia). assert (i = i') by nia. subst. f_equal. f_equal. lia. }
  assert (Er : forall i j, 0 <= i < n -> 0 <= j < nc -> elem m (rep n y) [i; j] = elem m y [j]).
  { intros i j Hi Hj. rewrite !elem_cell; [|now rewrite Sy, Dy|rewrite Dy; now apply in_range1|cbn; now rewrite Sy, Dy|cbn [rep vdims]; rewrite Dy; now apply in_range2]. unfold cell, rep. cbn [vblk voff vstr dot]. f_equal. }
  destruct (elementwise_of_run f r [x; rep n y] m (entries r [x; rep n y])) as (m' & E & EW & U); [assumption..| | |].
  - constructor; [|constructor; [|constructor]].
    + split; [unfold vwf; rewrite Dx, Sx; split; [reflexivity|repeat constructor; lia]|]. split; [congruence|]. now split.
    + split; [unfold vwf, rep; cbn [vdims vstr]; rewrite Dy, Sy; split; [reflexivity|repeat constructor; lia]|]. split; [unfold rep; cbn [vdims]; congruence|]. split.
      * intros ix Hix. unfold rep in Hix. cbn [vdims] in Hix. rewrite Dy in Hix. apply range2_inv in Hix as (i & j & -> & Hi & Hj). rewrite Er by assumption. apply Ry. rewrite Dy. now apply in_range1.
      * intros ix jx Hi Hj Ec. exfalso. unfold rep in Hj. cbn [vdims] in Hj. rewrite Dy in Hj. pose proof Hj as Hj0. apply range2_inv in Hj as (i & j & -> & Hii & Hjj).
        apply (Dj ix [j]); [assumption|rewrite Dy; now apply in_range1|]. rewrite Ec. rewrite !vaddr_cell; [|now rewrite Sy, Dy|rewrite Dy; now apply in_range1|cbn; now rewrite Sy, Dy|cbn [rep vdims]; rewrite Dy; now apply in_range2]. reflexivity.
  - apply Permutation_refl.
  - exists m'. split; [exact E|]. split; [|exact U]. intros i j Hi Hj. destruct (EW [i; j]) as (v & us & Ev & F & Em); [rewrite Dr; now apply in_range2|].
    inversion F as [|a u l us' Ex F']; subst. inversion F' as [|a' u' l' us'' Ey F'']; subst. inversion F''; subst. rewrite Er in Ey by assumption. unfold elem0. rewrite Ev, Ex, Ey. exact Em.
Qed.

(* inner products of columns *)
Lemma column_inps_ok (cj : R -> R) r x y n nc m : vwf r -> vwf x -> vwf y -> vdims x = [n; nc] -> vdims y = [n; nc] -> vdims r = [nc] -> distinct_cells r ->
  readable m r -> readable m x -> readable m y -> disjoint_views r x -> disjoint_views r y ->
  exists m', tv_column_inps_XC cj r x y m = Ok m' /\
    (forall i, 0 <= i < nc -> elem m' r [i] = Some (rsum (map (fun j => cmul (elem0 m x [j; i]) (cj (elem0 m y [j; i]))) (zrange n)))) /\ untouched m m' r.
Proof.
  intros Wr Wx Wy Dx Dy Dr Hd Rr Rx Ry Nx Ny. unfold tv_column_inps_XC. rewrite Dr, Dx. cbn [length Nat.eqb assrt]. 
  change (zget [n; nc] 0) with (@Ok Z n). change (zget [n; nc] 1) with (@Ok Z nc). change (zget [nc] 0) with (@Ok Z nc). cbn [bind]. rewrite Z.eqb_refl. cbn [assrt].
  set (val := fun i => rsum (map (fun j => cmul (elem0 m x [j; i]) (cj (elem0 m y [j; i]))) (zrange n))).
  assert (Keep : forall v m1 ix, vwf v -> disjoint_views r v -> readable m v -> untouched m m1 r -> in_range ix (vdims v) -> exists p, vaddr v ix = Ok p /\ loadA m1 p = Ok (elem0 m v ix)).
  { intros v m1 ix [Lv _] Dj Rv U Hix. exists (cell v ix). rewrite vaddr_cell by assumption. split; [reflexivity|]. apply loadA_some. pose proof (Rv ix Hix) as K. rewrite elem_cell in K by assumption. unfold elem0. rewrite elem_cell by assumption.
    destruct (at_ m (cell v ix)) as [w|] eqn:E; [|congruence]. rewrite <- E. unfold at_. apply U. intros jx Hj Ec. apply (Dj jx ix Hj Hix). rewrite Ec. rewrite vaddr_cell by assumption. reflexivity. }
  assert (Dot : forall m1 i, untouched m m1 r -> 0 <= i < nc ->
    forZ n (fun j t => do p <- vaddr x [j; i]; do u <- loadA m1 p; do q <- vaddr y [j; i]; do v <- loadA m1 q; Ok (cadd t (cmul u (cj v)))) c0 = Ok (val i)).
  { intros m1 i U Hi. unfold forZ, val.
    assert (G : forall l t, (forall j, In j l -> 0 <= j < n) -> foldM (fun j t => do p <- vaddr x [j; i]; do u <- loadA m1 p; do q <- vaddr y [j; i]; do v <- loadA m1 q; Ok (cadd t (cmul u (cj v)))) l t =
      Ok (cadd t (rsum (map (fun j => cmul (elem0 m x [j; i]) (cj (elem0 m y [j; i]))) l)))).
    { induction l as [|j l IH]; intros t Hl; [cbn [foldM map]; rewrite rsum_nil; f_equal; ring|]. cbn [foldM map]. rewrite rsum_cons. assert (Hj : 0 <= j < n) by (apply Hl; now left).
      destruct (Keep x m1 [j; i] Wx Nx Rx U) as (p & -> & E1); [rewrite Dx; now apply in_range2|]. cbn [bind]. rewrite E1. cbn [bind].
      destruct (Keep y m1 [j; i] Wy Ny Ry U) as (q & -> & E2); [rewrite Dy; now apply in_range2|]. cbn [bind]. rewrite E2. cbn [bind]. rewrite IH by (intros; apply Hl; now right). f_equal. ring. }
    rewrite G by (intros j Hj; apply in_zrange in Hj; lia). f_equal. ring. }
  destruct (fold_becomes (R := R) (fun i m => do t <- forZ n (fun j t => do p <- vaddr x [j; i]; do u <- loadA m p; do q <- vaddr y [j; i]; do v <- loadA m q; Ok (cadd t (cmul u (cj v)))) c0;
          do p <- vaddr r [i]; rmw (fun _ _ => t) p [] m) (fun i M jx => if eqlb jx [i] then val i else M jx) m r (zrange nc)) with (M := elem0 m r) (m := m) as (m' & E & B).
  - intros i M m1 Hi Bm. apply in_zrange in Hi. rewrite (Dot m1 i (proj2 Bm) Hi). cbn [bind]. destruct (put_becomes m m1 r M [i] (val i) Wr Hd Bm) as (m2 & E2 & B2); [rewrite Dr; now apply in_range1|].
    exists m2. split; [|exact B2]. rewrite <- E2. unfold Model_Ops.put_at. pose proof (proj1 Bm [i]) as Ai. rewrite Dr in Ai. specialize (Ai (in_range1 _ _ Hi)). unfold elem in Ai. destruct (vaddr r [i]) as [[b a]| |]; try discriminate. cbn [bind]. unfold rmw, loadA, load. cbn [fst snd loads bind]. now rewrite Ai.
  - now apply becomes_start.
  - exists m'. split; [exact E|]. destruct B as [B1 B2]. split; [|exact B2]. intros i Hi. rewrite B1 by (rewrite Dr; now apply in_range1). f_equal.
    assert (G : forall l M, fold_left (fun M a jx => if eqlb jx [a] then val a else M jx) l M [i] = if existsb (Z.eqb i) l then val i else M [i]).
    { induction l as [|a l IH]; intro M; [reflexivity|]. cbn [fold_left existsb]. rewrite IH. destruct (existsb (Z.eqb i) l) eqn:El; [now rewrite orb_true_r|]. rewrite orb_false_r. cbn [eqlb]. rewrite andb_true_r. destruct (i =? a) eqn:Ea; [apply Z.eqb_eq in Ea; now subst|reflexivity]. }
    rewrite G. replace (existsb (Z.eqb i) (zrange nc)) with true; [reflexivity|]. symmetry. apply existsb_exists. exists i. split; [now apply in_zrange|apply Z.eqb_refl].
Qed.

(* a flat loop over row-major views *)
Lemma flat_ok (f : R -> list R -> R) r x m : vwf r -> vwf x -> vdims x = vdims r -> vstr r = strides_of 1 (vdims r) -> vstr x = strides_of 1 (vdims x) ->
  distinct_cells r -> readable m r -> readable m x -> no_clobber r x ->
  exists m', flat_loop f r [x] (asize (vdims r)) m = Ok m' /\ (forall ix, in_range ix (vdims r) -> elem m' r ix = Some (f (elem0 m r ix) [elem0 m x ix])) /\ untouched m m' r.
Proof.
  intros Wr Wx D Sr Sx Hd Rr Rx Nc. destruct (reg_or_each_ok f r [x] m Wr Hd Rr) as (m' & E & W); [constructor; [tauto|constructor]|]. exists m'. split; [|split; [|apply W]].
  - unfold reg_or_each in E. cbn [all_regular] in E. rewrite Sr, Sx, D in E. assert (Rg : is_regular (strides_of 1 (vdims r)) (vdims r) = Ok true) by (apply is_regular_iff; [apply strides_of_length|reflexivity]).
    rewrite Rg in E. cbn [bind andb] in E. rewrite eqlb_refl in E. exact E.
  - intros ix Hix. destruct (elem m r ix) as [v|] eqn:Ev; [|now apply Rr in Ev]. assert (Hx : in_range ix (vdims x)) by now rewrite D. destruct (elem m x ix) as [w|] eqn:Ew; [|now apply Rx in Ew].
    unfold elem0. rewrite Ev, Ew. exact (ew1 f r x m m' W ix v w Hix Ev Ew).
Qed.
Lemma mul_zero_l (v : R) : cmul c0 v = c0.
Proof. ring. Qed.
End Cols.

(* hash codes *)
Lemma hash_fold {V} hi (hv : V -> Z) x (m : mem V) : vwf x -> readable m x ->
  tv_hash hi hv x m = foldM (fun ix t => match elem m x ix with Some v => Ok (mix t (hv v)) | None => UB end) (all_indices (vdims x)) (hash_dims hi (vdims x)).
Proof.
  intros [L N] Rd. unfold tv_hash. destruct (is_regular (vstr x) (vdims x)) as [b| |] eqn:E; [|unfold is_regular in E; rewrite L, Nat.eqb_refl in E; discriminate..]. cbn [bind]. destruct b.
  - apply is_regular_iff in E; [|assumption]. unfold forZ. rewrite asize_prod, <- row_major_addrs, foldM_map by assumption. apply foldM_ext. intros ix s Hix. apply in_all_indices in Hix.
    pose proof (Rd ix Hix) as K. rewrite elem_cell in * by assumption. unfold cell, at_ in *. cbn [fst snd] in *. rewrite E in *. unfold load. destruct (m (vblk x) _); [reflexivity|congruence].
  - assert (Hne : vdims x <> []). { intro D. rewrite D in *. destruct (vstr x); [discriminate E|discriminate L]. }
    rewrite foreach_index_fold by assumption. apply foldM_ext. intros ix s Hix. apply in_all_indices in Hix. pose proof (Rd ix Hix) as K. rewrite vaddr_cell by assumption. cbn [bind]. rewrite elem_cell in * by assumption. unfold loadA, load. unfold at_ in *. destruct (m _ _); [reflexivity|congruence].
Qed.
Lemma hash_total {V} (hv : V -> Z) x (m : mem V) l t : (forall ix, In ix l -> elem m x ix <> None) ->
  exists h, foldM (fun ix t => match elem m x ix with Some v => Ok (mix t (hv v)) | None => UB end) l t = Ok h.
Proof.
  revert t. induction l as [|ix l IH]; intros t H; [eexists; reflexivity|]. cbn [foldM]. destruct (elem m x ix) as [v|] eqn:E; [|exfalso; now apply (H ix (or_introl eq_refl))]. cbn [bind]. apply IH. intros; apply H. now right.
Qed.
