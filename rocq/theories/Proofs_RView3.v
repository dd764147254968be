(* Proofs_RView3.v -- products and sums of the fixed-rank views. *)
From Verif Require Import Base BaseFacts Model_Index Model_View Model_Tensor Model_Ops Model_RView Spec_Index Spec_View Spec_Tensor Spec_RView
  Proofs_Axes Proofs_Index Proofs_View Proofs_Tensor Proofs_Tensor2 Proofs_Tensor3 Proofs_Convolve2 Proofs_Ops2 Proofs_Ops3 Proofs_RView Proofs_RView2.
Local Open Scope Z_scope.

Section Prod.
Context {R : cring}.
Add Ring RrRV3 : (cth R).
Notation memR := (mem (car R)).
Implicit Types (m : memR).

Lemma acc_gains r (T : list Z -> memR -> res R) (g : list Z -> R) (m : memR) : vwf r -> distinct_cells r -> readable m r ->
  (forall ix m', in_range ix (vdims r) -> untouched m m' r -> T ix m' = Ok (g ix)) ->
  exists m', foldM (fun ix m => do t <- T ix m; inc_at r ix t m) (all_indices (vdims r)) m = Ok m' /\ gains r g m m'.
Proof.
  intros W Hd Rr HT. destruct (acc_loop r (all_indices (vdims r)) T g m) as (m' & E & A & B & C); try assumption.
  - apply all_indices_nodup.
  - intros ix Hix. now apply in_all_indices.
  - intros ix m' Hix. apply in_all_indices in Hix. now apply HT.
  - exists m'. split; [exact E|]. split; [|exact C]. intros ix v Hix Hv. apply A; [|assumption]. now apply in_all_indices.
Qed.
Lemma gains_ext r (g h : list Z -> R) m m' : (forall ix, in_range ix (vdims r) -> g ix = h ix) -> gains r g m m' -> gains r h m m'.
Proof. intros H [A B]. split; [|exact B]. intros ix v Hix Hv. rewrite <- H by assumption. now apply A. Qed.


Lemma operands1 r x m : vwf r -> distinct_cells r -> readable m r -> vwf x -> readable m x -> disjoint_views r x -> operands r [x] m.
Proof. intros. unfold operands. auto 10. Qed.
Lemma operands2 r x y m : vwf r -> distinct_cells r -> readable m r -> vwf x -> readable m x -> disjoint_views r x -> vwf y -> readable m y -> disjoint_views r y -> operands r [x; y] m.
Proof. intros. unfold operands. auto 10. Qed.
Lemma dot_keep r x y n fx fy (m m' : memR) : vwf x -> vwf y -> readable m x -> readable m y -> disjoint_views r x -> disjoint_views r y -> untouched m m' r ->
  (forall k, 0 <= k < n -> in_range (fx k) (vdims x) /\ in_range (fy k) (vdims y)) ->
  dotloop n (fun k => vaddr x (fx k)) (fun k => vaddr y (fy k)) m' = Ok (rsum (map (fun k => cmul (elem0 m x (fx k)) (elem0 m y (fy k))) (zrange n))).
Proof.
  intros Wx Wy Rx Ry Bx By U H. rewrite dotloop_ok; try assumption; [|eapply keep_readable; eassumption|eapply keep_readable; eassumption].
  f_equal. f_equal. apply map_ext_in. intros k Hk. apply in_zrange in Hk. destruct (H k Hk). rewrite (keep_elem0 r x m m'), (keep_elem0 r y m m'); auto.
Qed.

Lemma AA_ok r x y m a n b : operands r [x; y] m -> vdims r = [a; b] -> vdims x = [a; n] -> vdims y = [n; b] ->
  exists m', rv2_AA r x y m = Ok m' /\ gains r (fun ix => rsum (map (fun k => cmul (elem0 m x [nth 0 ix 0; k]) (elem0 m y [k; nth 1 ix 0])) (zrange n))) m m'.
Proof.
  intros (Wr & Hd & Rr & F) Dr Dx Dy. inversion F as [|? ? (Wx & Rx & Bx) F']; subst. inversion F' as [|? ? (Wy & Ry & By) _]; subst.
  unfold rv2_AA. rewrite !(nd_eq r _ _ Dr), !(nd_eq x _ _ Dx), !(nd_eq y _ _ Dy). cbn [nth]. rewrite !Z.eqb_refl. cbn [assrt]. rewrite nest2_fold, <- Dr.
  apply (acc_gains r (fun ix m => dotloop n (fun i => vaddr x [nth 0 ix 0; i]) (fun i => vaddr y [i; nth 1 ix 0]) m)); try assumption.
  intros ix m' Hix U. rewrite Dr in Hix. apply in_range_2_inv in Hix as (i & j & -> & Hi & Hj). cbn [nth].
  apply (dot_keep r x y n (fun k => [i; k]) (fun k => [k; j])); try assumption. intros k Hk. rewrite Dx, Dy. split; now apply in_range_2.
Qed.
Lemma AT_ok r x y m a n b : operands r [x; y] m -> vdims r = [a; b] -> vdims x = [a; n] -> vdims y = [b; n] ->
  exists m', rv2_AT r x y m = Ok m' /\ gains r (fun ix => rsum (map (fun k => cmul (elem0 m x [nth 0 ix 0; k]) (elem0 m y [nth 1 ix 0; k])) (zrange n))) m m'.
Proof.
  intros (Wr & Hd & Rr & F) Dr Dx Dy. inversion F as [|? ? (Wx & Rx & Bx) F']; subst. inversion F' as [|? ? (Wy & Ry & By) _]; subst.
  unfold rv2_AT. rewrite !(nd_eq r _ _ Dr), !(nd_eq x _ _ Dx), !(nd_eq y _ _ Dy). cbn [nth]. rewrite !Z.eqb_refl. cbn [assrt]. rewrite nest2_fold, <- Dr.
  apply (acc_gains r (fun ix m => dotloop n (fun i => vaddr x [nth 0 ix 0; i]) (fun i => vaddr y [nth 1 ix 0; i]) m)); try assumption.
  intros ix m' Hix U. rewrite Dr in Hix. apply in_range_2_inv in Hix as (i & j & -> & Hi & Hj). cbn [nth].
  apply (dot_keep r x y n (fun k => [i; k]) (fun k => [j; k])); try assumption. intros k Hk. rewrite Dx, Dy. split; now apply in_range_2.
Qed.
Lemma TA_ok r x y m a n b : operands r [x; y] m -> vdims r = [a; b] -> vdims x = [n; a] -> vdims y = [n; b] ->
  exists m', rv2_TA r x y m = Ok m' /\ gains r (fun ix => rsum (map (fun k => cmul (elem0 m x [k; nth 0 ix 0]) (elem0 m y [k; nth 1 ix 0])) (zrange n))) m m'.
Proof.
  intros (Wr & Hd & Rr & F) Dr Dx Dy. inversion F as [|? ? (Wx & Rx & Bx) F']; subst. inversion F' as [|? ? (Wy & Ry & By) _]; subst.
  unfold rv2_TA. rewrite !(nd_eq r _ _ Dr), !(nd_eq x _ _ Dx), !(nd_eq y _ _ Dy). cbn [nth]. rewrite !Z.eqb_refl. cbn [assrt]. rewrite nest2_fold, <- Dr.
  apply (acc_gains r (fun ix m => dotloop n (fun i => vaddr x [i; nth 0 ix 0]) (fun i => vaddr y [i; nth 1 ix 0]) m)); try assumption.
  intros ix m' Hix U. rewrite Dr in Hix. apply in_range_2_inv in Hix as (i & j & -> & Hi & Hj). cbn [nth].
  apply (dot_keep r x y n (fun k => [k; i]) (fun k => [k; j])); try assumption. intros k Hk. rewrite Dx, Dy. split; now apply in_range_2.
Qed.

(* facts about views that show parts of other views *)
Lemma shows_readable (m : memR) w v f : shows w v f -> readable m v -> readable m w.
Proof. intros S Rv ix Hix. destruct (S ix Hix) as [H1 H2]. unfold elem. rewrite H2. now apply Rv. Qed.
Lemma shows_elem0 (m : memR) w v f ix : shows w v f -> in_range ix (vdims w) -> elem0 m w ix = elem0 m v (f ix).
Proof. intros S Hix. destruct (S ix Hix) as [H1 H2]. unfold elem0, elem. now rewrite H2. Qed.
Lemma shows_disjoint_r r w v f : shows w v f -> disjoint_views r v -> disjoint_views r w.
Proof. intros S B ix jx Hi Hj. destruct (S jx Hj) as [H1 ->]. now apply B. Qed.
Lemma shows_disjoint_l w v x f : shows w v f -> disjoint_views v x -> disjoint_views w x.
Proof. intros S B ix jx Hi Hj. destruct (S ix Hi) as [H1 ->]. now apply B. Qed.
Lemma shows_distinct w v f : shows w v f -> (forall ix jx, in_range ix (vdims w) -> in_range jx (vdims w) -> f ix = f jx -> ix = jx) -> distinct_cells v -> distinct_cells w.
Proof. intros S Hf Hd ix jx Hi Hj E. apply Hf; try assumption. destruct (S ix Hi) as [A1 A2], (S jx Hj) as [B1 B2]. apply Hd; congruence. Qed.

Lemma operands_transp r x y m a b : operands r [x; y] m ->
  (vdims y = [a; b] -> operands r [x; rv2_transp y] m) /\ (vdims x = [a; b] -> operands r [rv2_transp x; y] m).
Proof.
  intros (Wr & Hd & Rr & F). inversion F as [|? ? (Wx & Rx & Bx) F']; subst. inversion F' as [|? ? (Wy & Ry & By) _]; subst. split; intro D.
  - destruct (transp_shows y a b Wy D) as (W & _ & S). apply operands2; try assumption; [eapply shows_readable|eapply shows_disjoint_r]; eassumption.
  - destruct (transp_shows x a b Wx D) as (W & _ & S). apply operands2; try assumption; [eapply shows_readable|eapply shows_disjoint_r]; eassumption.
Qed.
Definition mm_layout (r x y : view) : bool := reg2 r && ((reg2 x && reg2 y) || (reg2 x && tra2 y) || (tra2 x && reg2 y)).
Lemma mprod2_ok r x y m a n b : operands r [x; y] m -> vdims r = [a; b] -> vdims x = [a; n] -> vdims y = [n; b] ->
  if mm_layout r x y
  then exists m', rv2_add_mprod r x y m = Ok m' /\ gains r (fun ix => rsum (map (fun k => cmul (elem0 m x [nth 0 ix 0; k]) (elem0 m y [k; nth 1 ix 0])) (zrange n))) m m'
  else rv2_add_mprod r x y m = Ok m.
Proof.
  intros O Dr Dx Dy. pose proof O as (Wr & Hd & Rr & F). inversion F as [|? ? (Wx & Rx & Bx) F']; subst. inversion F' as [|? ? (Wy & Ry & By) _]; subst.
  destruct (operands_transp r x y m n b O) as [Oy _]. destruct (operands_transp r x y m a n O) as [_ Ox]. specialize (Oy Dy). specialize (Ox Dx).
  destruct (transp_shows y n b Wy Dy) as (_ & Ty & Sy). destruct (transp_shows x a n Wx Dx) as (_ & Tx & Sx).
  unfold mm_layout, rv2_add_mprod. destruct (reg2 r); [|reflexivity]. cbn [andb]. destruct (reg2 x && reg2 y) eqn:E1; cbn [orb]; [now apply (AA_ok r x y m a n b)|].
  destruct (reg2 x && tra2 y) eqn:E2; cbn [orb].
  - destruct (AT_ok r x (rv2_transp y) m a n b Oy Dr Dx Ty) as (m' & E & G). exists m'. split; [exact E|]. eapply gains_ext; [|exact G].
    intros ix Hix. rewrite Dr in Hix. apply in_range_2_inv in Hix as (i & j & -> & Hi & Hj). cbn [nth]. f_equal. apply map_ext_in. intros k Hk. apply in_zrange in Hk.
    rewrite (shows_elem0 m _ y _ [j; k] Sy) by (rewrite Ty; now apply in_range_2). reflexivity.
  - destruct (tra2 x && reg2 y) eqn:E3; [|reflexivity].
    destruct (TA_ok r (rv2_transp x) y m a n b Ox Dr Tx Dy) as (m' & E & G). exists m'. split; [exact E|]. eapply gains_ext; [|exact G].
    intros ix Hix. rewrite Dr in Hix. apply in_range_2_inv in Hix as (i & j & -> & Hi & Hj). cbn [nth]. f_equal. apply map_ext_in. intros k Hk. apply in_zrange in Hk.
    rewrite (shows_elem0 m _ x _ [k; i] Sx) by (rewrite Tx; now apply in_range_2). reflexivity.
Qed.
Lemma mprod_to_ok a y x m n0 n1 : operands y [a; x] m -> vdims a = [n0; n1] -> vdims y = [n0] -> vdims x = [n1] ->
  exists m', rv2_add_mprod_to a y x m = Ok m' /\ gains y (fun ix => rsum (map (fun k => cmul (elem0 m a [nth 0 ix 0; k]) (elem0 m x [k])) (zrange n1))) m m'.
Proof.
  intros (Wr & Hd & Rr & F) Da Dy Dx. inversion F as [|? ? (Wa & Ra & Ba) F']; subst. inversion F' as [|? ? (Wx & Rx & Bx) _]; subst.
  unfold rv2_add_mprod_to. rewrite !(nd_eq a _ _ Da), !(nd_eq x _ _ Dx), !(nd_eq y _ _ Dy). cbn [nth]. rewrite !Z.eqb_refl. cbn [assrt]. rewrite nest1_fold, <- Dy.
  apply (acc_gains y (fun ix m => dotloop n1 (fun i => vaddr a [nth 0 ix 0; i]) (fun i => vaddr x [i]) m)); try assumption.
  intros ix m' Hix U. rewrite Dy in Hix. apply in_range_1_inv in Hix as (i & -> & Hi). cbn [nth].
  apply (dot_keep y a x n1 (fun k => [i; k]) (fun k => [k])); try assumption. intros k Hk. rewrite Da, Dx. split; [now apply in_range_2|]. repeat constructor; lia.
Qed.
Lemma keep_get r x (m m' : memR) ix : vwf x -> readable m x -> disjoint_views r x -> untouched m m' r -> in_range ix (vdims x) -> get_at x ix m' = Ok (elem0 m x ix).
Proof. intros W Rx B U Hix. rewrite get_at_ok; try assumption; [|eapply keep_readable; eassumption]. now rewrite (keep_elem0 r x m m'). Qed.
Lemma outer_ok r x y m n0 n1 : operands r [x; y] m -> vdims r = [n0; n1] -> vdims x = [n0] -> vdims y = [n1] ->
  exists m', rv2_add_outer r x y m = Ok m' /\ gains r (fun ix => cmul (elem0 m x [nth 0 ix 0]) (elem0 m y [nth 1 ix 0])) m m'.
Proof.
  intros (Wr & Hd & Rr & F) Dr Dx Dy. inversion F as [|? ? (Wx & Rx & Bx) F']; subst. inversion F' as [|? ? (Wy & Ry & By) _]; subst.
  unfold rv2_add_outer. rewrite !(nd_eq r _ _ Dr), !(nd_eq x _ _ Dx), !(nd_eq y _ _ Dy). cbn [nth]. rewrite !Z.eqb_refl. cbn [assrt]. rewrite nest2_fold, <- Dr.
  destruct (acc_gains r (fun ix m => do u <- get_at x [nth 0 ix 0] m; do v <- get_at y [nth 1 ix 0] m; Ok (cmul u v))
    (fun ix => cmul (elem0 m x [nth 0 ix 0]) (elem0 m y [nth 1 ix 0])) m) as (m' & E & G); try assumption.
  - intros ix m' Hix U. rewrite Dr in Hix. apply in_range_2_inv in Hix as (i & j & -> & Hi & Hj). cbn [nth].
    rewrite (keep_get r x m m') by (try assumption; rewrite Dx; repeat constructor; lia). cbn [bind].
    rewrite (keep_get r y m m') by (try assumption; rewrite Dy; repeat constructor; lia). reflexivity.
  - exists m'. split; [|exact G]. rewrite <- E. apply foldM_ext. intros ix s _. destruct (get_at x [nth 0 ix 0] s); cbn; try reflexivity. destruct (get_at y [nth 1 ix 0] s); reflexivity.
Qed.

(* batched product *)
Lemma bmprod_ok r x y m nb a n b : operands r [x; y] m -> vdims r = [nb; a; b] -> vdims x = [a; n] -> vdims y = [nb; n; b] ->
  exists m', rv3_add_mprod r x y m = Ok m' /\
    gains r (fun ix => rsum (map (fun k => cmul (elem0 m x [nth 1 ix 0; k]) (elem0 m y [nth 0 ix 0; k; nth 2 ix 0])) (zrange n))) m m'.
Proof.
  intros (Wr & Hd & Rr & F) Dr Dx Dy. inversion F as [|? ? (Wx & Rx & Bx) F']; subst. inversion F' as [|? ? (Wy & Ry & By) _]; subst.
  unfold rv3_add_mprod. rewrite !(nd_eq r _ _ Dr), !(nd_eq x _ _ Dx), !(nd_eq y _ _ Dy). cbn [nth]. rewrite !Z.eqb_refl. cbn [assrt]. unfold forZ.
  destruct (slices3_shows r nb a b Wr Dr) as (Sr & _ & _). destruct (slices3_shows y nb n b Wy Dy) as (Sy & _ & _).
  pose (g := fun ix => rsum (map (fun k => cmul (elem0 m x [nth 1 ix 0; k]) (elem0 m y [nth 0 ix 0; k; nth 2 ix 0])) (zrange n))).
  destruct (foldM_inv (fun done (m' : memR) => readable m' r /\ untouched m m' r /\
      (forall p i j v, 0 <= p < nb -> 0 <= i < a -> 0 <= j < b -> elem m r [p; i; j] = Some v ->
         elem m' r [p; i; j] = Some (if in_dec Z.eq_dec p done then cadd v (g [p; i; j]) else v)))
    (fun p => rv2_AA (rv3_slice0 r p) x (rv3_slice0 y p)) (zrange nb) m) as (m' & E & _ & U & A).
  - split; [exact Rr|]. split; [intros c d _; reflexivity|]. intros p i j v _ _ _ Hv. exact Hv.
  - intros done p rest m1 El (R1 & U1 & A1).
    assert (Hp : 0 <= p < nb) by (apply in_zrange; rewrite El; apply in_or_app; right; now left).
    assert (Hn : ~ In p done). { pose proof (zrange_nodup nb) as Nd. rewrite El in Nd. apply NoDup_remove_2 in Nd. intro I. apply Nd. apply in_or_app. now left. }
    destruct (Sr p Hp) as (Wr' & Dr' & S'). destruct (Sy p Hp) as (Wy' & Dy' & T').
    destruct (AA_ok (rv3_slice0 r p) x (rv3_slice0 y p) m1 a n b) as (m2 & E2 & G2 & U2); try assumption.
    { apply operands2; try assumption.
      - eapply shows_distinct; [exact S'| |exact Hd]. intros ix jx _ _ Q. now injection Q.
      - eapply shows_readable; eassumption.
      - eapply keep_readable; eassumption.
      - eapply shows_disjoint_l; eassumption.
      - eapply shows_readable; [exact T'|]. eapply keep_readable; eassumption.
      - eapply shows_disjoint_l; [exact S'|]. eapply shows_disjoint_r; eassumption. }
    exists m2. split; [exact E2|].
    assert (Sx : forall ix, in_range ix (vdims (rv3_slice0 r p)) -> in_range (p :: ix) (vdims r) /\ vaddr (rv3_slice0 r p) ix = vaddr r (p :: ix)) by exact S'.
    destruct (window_keeps m1 m2 (rv3_slice0 r p) r (fun ix => p :: ix) Sx Hd U2) as [K1 K2].
    assert (U12 : untouched m m2 r) by (eapply untouched_trans; eassumption).
    assert (A2 : forall q i j v, 0 <= q < nb -> 0 <= i < a -> 0 <= j < b -> elem m r [q; i; j] = Some v ->
         elem m2 r [q; i; j] = Some (if in_dec Z.eq_dec q (done ++ [p]) then cadd v (g [q; i; j]) else v)).
    { intros q i j v Hq Hi Hj Hv. destruct (Z.eq_dec q p) as [->|Nq].
      - assert (Hij : in_range [i; j] (vdims (rv3_slice0 r p))) by (rewrite Dr'; now apply in_range_2).
        rewrite <- (window_elem m2 (rv3_slice0 r p) r (fun ix => p :: ix) Sx [i; j] Hij).
        pose proof (A1 p i j v Hp Hi Hj Hv) as Q. destruct (in_dec Z.eq_dec p done); [contradiction|].
        rewrite (G2 [i; j] v Hij).
        + destruct (in_dec Z.eq_dec p (done ++ [p])) as [_|N]; [|exfalso; apply N; apply in_or_app; right; now left].
          f_equal. f_equal. unfold g. f_equal. apply map_ext_in. intros k Hk. apply in_zrange in Hk. cbn [nth].
          rewrite (keep_elem0 r x m m1) by (try assumption; rewrite Dx; now apply in_range_2).
          rewrite (shows_elem0 m1 _ y _ [k; j] T') by (rewrite Dy'; now apply in_range_2). rewrite (keep_elem0 r y m m1); try assumption; [reflexivity|]. rewrite Dy. now apply in_range_3.
        + rewrite (window_elem m1 (rv3_slice0 r p) r (fun ix => p :: ix) Sx [i; j] Hij). exact Q.
      - rewrite K1; [|rewrite Dr; now apply in_range_3|intros ix _ Q; congruence]. rewrite (A1 q i j v Hq Hi Hj Hv).
        destruct (in_dec Z.eq_dec q done), (in_dec Z.eq_dec q (done ++ [p])) as [I|I]; try reflexivity.
        + exfalso. apply I. apply in_or_app. now left.
        + exfalso. apply in_app_or in I as [I|[I|[]]]; [contradiction|congruence]. }
    split; [|split; [exact U12|exact A2]].
    intros ix Hix. rewrite Dr in Hix. apply in_range_3_inv in Hix as (q & i & j & -> & Hq & Hi & Hj).
    assert (Hr : in_range [q; i; j] (vdims r)) by (rewrite Dr; now apply in_range_3).
    rewrite (A2 q i j (elem0 m r [q; i; j]) Hq Hi Hj (readable_elem m r _ Rr Hr)). congruence.
  - exists m'. split; [exact E|]. split; [|exact U]. intros ix v Hix Hv. rewrite Dr in Hix. apply in_range_3_inv in Hix as (q & i & j & -> & Hq & Hi & Hj).
    rewrite (A q i j v Hq Hi Hj Hv). destruct (in_dec Z.eq_dec q (zrange nb)) as [_|N]; [reflexivity|]. exfalso. apply N. now apply in_zrange.
Qed.

(* sums *)
Lemma line_sum_ok (x : view) n f (m : memR) : vwf x -> readable m x -> (forall i, 0 <= i < n -> in_range (f i) (vdims x)) ->
  line_sum x n f m = Ok (rsum (map (fun i => elem0 m x (f i)) (zrange n))).
Proof.
  intros W Rx H. unfold line_sum, forZ. rewrite (sum_loop _ _ (fun i => elem0 m x (f i))); [f_equal; ring|].
  intros i t Hi. apply in_zrange in Hi. rewrite get_at_ok by auto. reflexivity.
Qed.
Lemma line_keep r x n f (m m' : memR) : vwf x -> readable m x -> disjoint_views r x -> untouched m m' r -> (forall i, 0 <= i < n -> in_range (f i) (vdims x)) ->
  line_sum x n f m' = Ok (rsum (map (fun i => elem0 m x (f i)) (zrange n))).
Proof.
  intros W Rx B U H. rewrite line_sum_ok; try assumption; [|eapply keep_readable; eassumption]. f_equal. f_equal. apply map_ext_in. intros k Hk. apply in_zrange in Hk. rewrite (keep_elem0 r x m m'); auto.
Qed.
Lemma line_gains r x n (post : R -> R) (f : list Z -> Z -> list Z) (m : memR) : operands r [x] m -> (forall ix i, in_range ix (vdims r) -> 0 <= i < n -> in_range (f ix i) (vdims x)) ->
  exists m', foldM (fun ix m => do t <- line_sum x n (f ix) m; inc_at r ix (post t) m) (all_indices (vdims r)) m = Ok m' /\
    gains r (fun ix => post (rsum (map (fun i => elem0 m x (f ix i)) (zrange n)))) m m'.
Proof.
  intros (Wr & Hd & Rr & F) H. inversion F as [|? ? (Wx & Rx & Bx) _]; subst.
  destruct (acc_gains r (fun ix m => do t <- line_sum x n (f ix) m; Ok (post t)) (fun ix => post (rsum (map (fun i => elem0 m x (f ix i)) (zrange n)))) m) as (m' & E & G); try assumption.
  - intros ix m' Hix U. rewrite (line_keep r x n (f ix) m m'); auto.
  - exists m'. split; [|exact G]. rewrite <- E. apply foldM_ext. intros ix s _. destruct (line_sum x n (f ix) s); reflexivity.
Qed.
Lemma sum1_ok x (m : memR) n0 : vwf x -> vdims x = [n0] -> readable m x -> rv1_sum x m = Ok (rsum (map (elem0 m x) (all_indices (vdims x)))).
Proof.
  intros W D Rx. unfold rv1_sum, get_sum, forZ. rewrite (nd_eq x _ 0 D). cbn [nth]. rewrite (sum_loop _ _ (fun i => elem0 m x [i])).
  - f_equal. rewrite D. cbn [all_indices]. rewrite flat_map_concat_map, concat_map, map_map. cbn [map].
    replace (concat (map (fun x0 => [elem0 m x [x0]]) (zrange n0))) with (map (fun i => elem0 m x [i]) (zrange n0)) by (induction (zrange n0); cbn; congruence). ring.
  - intros i t Hi. apply in_zrange in Hi. assert (Hr : in_range [i] (vdims x)) by (rewrite D; repeat constructor; lia).
    pose proof (readable_elem m x [i] Rx Hr) as E. unfold elem in E. rewrite (vaddr1 x i n0 W D) in E. unfold load. rewrite E. reflexivity.
Qed.
Lemma sum2_ok x (m : memR) n0 n1 : vwf x -> vdims x = [n0; n1] -> readable m x -> rv2_sum x m = Ok (rsum (map (elem0 m x) (all_indices (vdims x)))).
Proof.
  intros W D Rx. unfold rv2_sum. rewrite !(nd_eq x _ _ D). cbn [nth]. destruct (reg2 x) eqn:Er.
  - pose proof (reg2_str x n0 n1 W D Er) as Es. unfold get_sum, forZ. replace (n0 * n1) with (prod (vdims x)) by (rewrite D; cbv [prod fold_right]; lia).
    rewrite <- row_major_addrs by apply W. rewrite <- Es. rewrite foldM_map. rewrite (sum_loop _ _ (elem0 m x)); [f_equal; ring|].
    intros ix t Hix. apply in_all_indices in Hix. pose proof (readable_elem m x ix Rx Hix) as E. rewrite elem_cell in E by (try assumption; apply W). unfold at_, cell in E. cbn in E. unfold load. rewrite E. reflexivity.
  - rewrite nest2_fold, <- D. rewrite (sum_loop _ _ (elem0 m x)); [f_equal; ring|]. intros ix t Hix. apply in_all_indices in Hix. rewrite get_at_ok by assumption. reflexivity.
Qed.
Lemma sums2_ok x r m n0 n1 (dv : R -> Z -> R) : operands r [x] m -> vdims x = [n0; n1] ->
  (vdims r = [n1] -> exists m', rv2_sum0_into x r m = Ok m' /\ gains r (fun ix => rsum (map (fun i => elem0 m x [i; nth 0 ix 0]) (zrange n0))) m m') /\
  (vdims r = [n1] -> exists m', rv2_avg0_into dv x r m = Ok m' /\ gains r (fun ix => dv (rsum (map (fun i => elem0 m x [i; nth 0 ix 0]) (zrange n0))) n0) m m') /\
  (vdims r = [n0] -> exists m', rv2_sum1_into x r m = Ok m' /\ gains r (fun ix => rsum (map (fun j => elem0 m x [nth 0 ix 0; j]) (zrange n1))) m m') /\
  (vdims r = [n0] -> if n0 =? n1 then rv2_sum1_into_const x r m = rv2_sum1_into x r m else rv2_sum1_into_const x r m = Throw).
Proof.
  intros O D. split; [|split; [|split]]; intro Dr.
  - unfold rv2_sum0_into. rewrite !(nd_eq x _ _ D), !(nd_eq r _ _ Dr). cbn [nth]. rewrite Z.eqb_refl. cbn [assrt]. rewrite nest1_fold, <- Dr.
    apply (line_gains r x n0 (fun t => t) (fun ix i => [i; nth 0 ix 0]) m O). intros ix i Hix Hi. rewrite Dr in Hix. apply in_range_1_inv in Hix as (j & -> & Hj). rewrite D. now apply in_range_2.
  - unfold rv2_avg0_into. rewrite !(nd_eq x _ _ D), !(nd_eq r _ _ Dr). cbn [nth]. rewrite Z.eqb_refl. cbn [assrt]. rewrite nest1_fold, <- Dr.
    apply (line_gains r x n0 (fun t => dv t n0) (fun ix i => [i; nth 0 ix 0]) m O). intros ix i Hix Hi. rewrite Dr in Hix. apply in_range_1_inv in Hix as (j & -> & Hj). rewrite D. now apply in_range_2.
  - unfold rv2_sum1_into. rewrite !(nd_eq x _ _ D), !(nd_eq r _ _ Dr). cbn [nth]. rewrite Z.eqb_refl. cbn [assrt]. rewrite nest1_fold, <- Dr.
    apply (line_gains r x n1 (fun t => t) (fun ix i => [nth 0 ix 0; i]) m O). intros ix i Hix Hi. rewrite Dr in Hix. apply in_range_1_inv in Hix as (j & -> & Hj). rewrite D. now apply in_range_2.
  - unfold rv2_sum1_into_const, rv2_sum1_into. rewrite !(nd_eq x _ _ D), !(nd_eq r _ _ Dr). cbn [nth]. destruct (n0 =? n1) eqn:E; [rewrite Z.eqb_refl|]; reflexivity.
Qed.
Lemma sums3_ok x r m n0 n1 n2 (post : R -> R) : operands r [x] m -> vdims x = [n0; n1; n2] ->
  (vdims r = [n1; n2] -> exists m', rv3_sum0_into post x r m = Ok m' /\ gains r (fun ix => post (rsum (map (fun i => elem0 m x [i; nth 0 ix 0; nth 1 ix 0]) (zrange n0)))) m m') /\
  (vdims r = [n0; n2] -> exists m', rv3_sum1_into post x r m = Ok m' /\ gains r (fun ix => post (rsum (map (fun i => elem0 m x [nth 0 ix 0; i; nth 1 ix 0]) (zrange n1)))) m m') /\
  (vdims r = [n0; n1] -> exists m', rv3_sum2_into post x r m = Ok m' /\ gains r (fun ix => post (rsum (map (fun i => elem0 m x [nth 0 ix 0; nth 1 ix 0; i]) (zrange n2)))) m m').
Proof.
  intros O D. split; [|split]; intro Dr; unfold rv3_sum0_into, rv3_sum1_into, rv3_sum2_into; rewrite !(nd_eq x _ _ D), !(nd_eq r _ _ Dr); cbn [nth]; rewrite !Z.eqb_refl; cbn [assrt]; rewrite nest2_fold, <- Dr.
  - apply (line_gains r x n0 post (fun ix i => [i; nth 0 ix 0; nth 1 ix 0]) m O). intros ix i Hix Hi. rewrite Dr in Hix. apply in_range_2_inv in Hix as (j & k & -> & Hj & Hk). rewrite D. now apply in_range_3.
  - apply (line_gains r x n1 post (fun ix i => [nth 0 ix 0; i; nth 1 ix 0]) m O). intros ix i Hix Hi. rewrite Dr in Hix. apply in_range_2_inv in Hix as (j & k & -> & Hj & Hk). rewrite D. now apply in_range_3.
  - apply (line_gains r x n2 post (fun ix i => [nth 0 ix 0; nth 1 ix 0; i]) m O). intros ix i Hix Hi. rewrite Dr in Hix. apply in_range_2_inv in Hix as (j & k & -> & Hj & Hk). rewrite D. now apply in_range_3.
Qed.
Lemma sum01_ok x r m n0 n1 n2 (post : R -> R) : operands r [x] m -> vdims x = [n0; n1; n2] -> vdims r = [n2] ->
  exists m', rv3_sum01_into post x r m = Ok m' /\ gains r (fun ix => post (rsum (map (fun jx => elem0 m x (jx ++ ix)) (all_indices [n0; n1])))) m m'.
Proof.
  intros (Wr & Hd & Rr & F) D Dr. inversion F as [|? ? (Wx & Rx & Bx) _]; subst.
  unfold rv3_sum01_into. rewrite !(nd_eq x _ _ D), !(nd_eq r _ _ Dr). cbn [nth]. rewrite !Z.eqb_refl. cbn [assrt]. rewrite nest1_fold, <- Dr.
  destruct (acc_gains r (fun ix m => do t <- nest2 n0 n1 (fun jx t => do v <- get_at x (jx ++ ix) m; Ok (cadd t v)) c0; Ok (post t))
     (fun ix => post (rsum (map (fun jx => elem0 m x (jx ++ ix)) (all_indices [n0; n1])))) m) as (m' & E & G); try assumption.
  - intros ix m' Hix U. rewrite nest2_fold. rewrite (sum_loop _ _ (fun jx => elem0 m x (jx ++ ix))).
    + cbn [bind]. f_equal. f_equal. ring.
    + intros jx t Hj. apply in_all_indices in Hj. apply in_range_2_inv in Hj as (i & j & -> & Hi & Hj). rewrite Dr in Hix. apply in_range_1_inv in Hix as (k & -> & Hk). cbn [app].
      rewrite (keep_get r x m m') by (try assumption; rewrite D; now apply in_range_3). reflexivity.
  - exists m'. split; [|exact G]. rewrite <- E. apply foldM_ext. intros ix s _.
    match goal with |- (do _ <- ?a; _) = _ => destruct a end; reflexivity.
Qed.
End Prod.
