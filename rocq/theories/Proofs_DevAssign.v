(* Proofs_DevAssign.v -- tensors between host and device. *)
From Verif Require Import Base BaseFacts Model_Index Model_View Model_Tensor Model_Cuda Model_DevAssign Spec_Index Spec_View Spec_Tensor Spec_Cuda
  Proofs_Axes Proofs_Index Proofs_View Proofs_Tensor Proofs_Tensor2 Proofs_Cuda.
Local Open Scope Z_scope.

Section S.
Context {V : Type} (junk : V) (ord : list (addr * list addr) -> list (addr * list addr)).
Notation assign := (dev_assign junk ord).
Notation copy := (dev_copy junk ord).

Lemma assign_same f nb rd xd r x (m : mem V) : vdims r = vdims x -> vdims r <> [] -> vstr r = vstr x -> is_contiguous (vstr r) (vdims r) = Ok true ->
  assign (S f) nb rd xd r x m = tv_assign r x m.
Proof.
  intros D N E C. cbn [dev_assign]. unfold tv_assign, dispatch2. rewrite <- D, eqlb_refl. cbn [assrt]. destruct (vdims r) as [|d ds] eqn:Ed; [congruence|]. cbn [bind]. rewrite C, E, eqlb_refl. cbn [bind andb].
  unfold blit. rewrite <- D. reflexivity.
Qed.
Lemma copy_rows f nb d xd x (m : mem V) : vwf x -> readable m x -> vdims x <> [] -> vstr x = strides_of 1 (vdims x) -> Forall (fun s => s < INT_MAX) (vstr x) -> (forall a, m nb a = None) ->
  exists m', copy (S f) nb d xd x m = Ok (fresh_view nb (vdims x), m') /\ (forall ix, in_range ix (vdims x) -> elem m' (fresh_view nb (vdims x)) ix = elem m x ix) /\
    (forall b a, b <> nb -> m' b a = m b a).
Proof.
  intros W Rx N E M H. rewrite E in M. destruct (copy_ok junk nb x m W Rx M H) as (r & m' & C & _ & A & _ & _ & B). unfold tv_copy in C. unfold dev_copy.
  rewrite (assign_same f (nb + 1) d xd (fresh_view nb (vdims x)) x); cbn [fresh_view vdims vstr]; auto.
  - destruct (tv_assign _ x _) as [m1| |]; try discriminate. cbn [bind] in *. injection C as <- <-. exists m1. auto.
  - unfold is_contiguous. rewrite (proj2 (is_regular_iff _ _ (strides_of_length _ _))); reflexivity.
Qed.

(* ---- copying to the device never ends unless the source is stored row by row ---- *)
Lemma scrunch2_vector c o n s b o' t : s < INT_MAX -> co_scrunch (View c o [n] [s]) (View b o' [n] [t]) = Ok (View c o [n] [s], View b o' [n] [t]).
Proof. intro H. unfold co_scrunch. cbn [vdims vstr vblk voff eqlb]. rewrite Z.eqb_refl. reflexivity. Qed.
Lemma scrunch2_matrix c o n k b o' s t : 1 < k < INT_MAX -> co_scrunch (View c o [n; k] [k; 1]) (View b o' [n; k] [s; t]) =
  Ok (if s =? t * k then (View c o [k * n] [1], View b o' [k * n] [t]) else (View c o [n; k] [k; 1], View b o' [n; k] [s; t])).
Proof.
  intro H. unfold co_scrunch. cbn [vstr vdims vblk voff eqlb]. rewrite !Z.eqb_refl. cbn [andb assrt]. unfold ordering. cbn [length ordering_loop argmin argmin_aux]. replace (1 <? k) with true by lia. cbn [set_nth argmin argmin_aux].
  replace (INT_MAX <? k) with false by (unfold INT_MAX in *; lia). cbn [mapM vget nth_error bind co_merge_all co_merge fst snd]. replace (k =? 1 * k) with true by lia. cbn [andb]. destruct (s =? t * k); reflexivity.
Qed.
Lemma vector_forever fuel : forall nb c o n b o' s (m : mem V), 1 <= n -> s <> 1 -> assign fuel nb 1 0 (View c o [n] [1]) (View b o' [n] [s]) m = UB.
Proof.
  induction fuel as [|fuel IH]; intros nb c o n b o' s m Hn Hs; [reflexivity|]. cbn [dev_assign]. cbn [vdims vstr eqlb]. rewrite Z.eqb_refl. cbn [andb assrt bind]. rewrite asize_prod. unfold prod at 1. cbn [fold_right]. replace (n * 1 =? 0) with false by lia.
  replace (1 =? s) with false by lia. rewrite scrunch2_vector by (unfold INT_MAX; lia). change (is_contiguous [1] [n]) with (@Ok bool true). cbn [bind andb]. change (1 =? 0) with false. change (1 =? 1) with true. change (0 =? 0) with true. cbn [andb]. cbv iota zeta. cbn [vdims].
  unfold fresh_view. cbn [strides_of prod fold_right]. change (strides_of 1 [n]) with [1]. now rewrite IH.
Qed.
Lemma strides2 n k : strides_of 1 [n; k] = [k; 1].
Proof. unfold strides_of. cbn -[Z.mul]. repeat (f_equal; try lia). Qed.
Lemma contig2 n k : is_contiguous [k; 1] [n; k] = Ok true.
Proof. rewrite <- (strides2 n k). unfold is_contiguous. now rewrite (proj2 (is_regular_iff _ _ (strides_of_length _ _))). Qed.
Lemma matrix_forever fuel : forall nb c o n k b o' s t (m : mem V), 1 <= n -> 1 < k < INT_MAX -> ~ (s = k /\ t = 1) -> assign fuel nb 1 0 (View c o [n; k] [k; 1]) (View b o' [n; k] [s; t]) m = UB.
Proof.
  induction fuel as [|fuel IH]; intros nb c o n k b o' s t m Hn Hk Hs; [reflexivity|]. cbn [dev_assign]. cbn [vdims vstr eqlb]. rewrite !Z.eqb_refl. cbn [andb assrt bind]. rewrite asize_prod. unfold prod at 1. cbn [fold_right]. replace (n * (k * 1) =? 0) with false by nia.
  rewrite contig2, scrunch2_matrix by exact Hk. cbn [bind]. replace ((k =? s) && ((1 =? t) && true)) with false by lia. change (1 =? 0) with false. change (1 =? 1) with true. change (0 =? 0) with true. cbn [andb]. cbv iota zeta.
  destruct (s =? t * k) eqn:E; cbn [vdims]; unfold fresh_view.
  - change (strides_of 1 [k * n]) with [1]. rewrite vector_forever by nia. reflexivity.
  - rewrite strides2, IH by assumption. reflexivity.
Qed.
Lemma copy_forever fuel nb n k b o s t (m : mem V) : 1 <= n -> 1 < k < INT_MAX -> ~ (s = k /\ t = 1) -> copy fuel nb 1 0 (View b o [n; k] [s; t]) m = UB.
Proof. intros Hn Hk H. unfold dev_copy. cbn [vdims]. unfold fresh_view. rewrite strides2, matrix_forever by assumption. reflexivity. Qed.
Lemma copy_forever1 fuel nb n b o s (m : mem V) : 1 <= n -> s <> 1 -> copy fuel nb 1 0 (View b o [n] [s]) m = UB.
Proof. intros Hn H. unfold dev_copy. cbn [vdims]. unfold fresh_view. change (strides_of 1 [n]) with [1]. rewrite vector_forever by assumption. reflexivity. Qed.

(* ---- copying matrices from the device ---- *)
Context (Ho : forall l, Permutation (ord l) l).
Lemma any_ord plan : any_order plan (map ord plan).
Proof. induction plan as [|l plan IH]; constructor; auto. Qed.
Lemma kernel_set r x (m : mem V) : cu_fits (vdims r) -> vwf r -> distinct_cells r -> readable m r -> vwf x -> vdims x = vdims r -> readable m x -> disjoint_views r x ->
  exists m', kernel ord r x m = Ok m' /\ (forall ix, in_range ix (vdims r) -> elem m' r ix = elem m x ix) /\ untouched m m' r.
Proof.
  intros F W D Rr Wx Dx Rx Dj. destruct (launches_done f_set r [x] m F W D Rr) as (plan & E & P).
  { constructor; [|constructor]. repeat split; try assumption; try apply Wx. intros ix jx I J Q. exfalso. now apply (Dj ix jx). }
  destruct (P _ (any_ord plan)) as (m' & Em & A & B). exists m'. unfold kernel. rewrite E. cbn [bind]. split; [exact Em|]. split; [|exact B].
  intros ix I. destruct (A ix I) as (v & us & Ev & F2 & E2). inversion F2 as [|? u ? us' Eu F3]; subst. inversion F3; subst. cbn [f_set hd] in E2. now rewrite E2, Eu.
Qed.
Definition rows (b : Z) (D : list Z) : view := View b 0 D (strides_of 1 D).
(* the array z on the device, filled by a kernel, then copied to r *)
Lemma stage f nb D xp (m : mem V) : cu_fits D -> Forall (fun d => 0 < d) D -> D <> [] -> Forall (fun s => s < INT_MAX) (strides_of 1 D) -> vwf xp -> vdims xp = D -> readable m xp -> vblk xp <> nb -> vblk xp <> nb + 1 ->
  (forall ix, in_range ix D -> elem m (rows nb D) ix <> None) ->
  exists m', (do m1 <- kernel ord (rows (nb + 1) D) xp (alloc junk (nb + 1) (asize D) m); assign (S f) (nb + 2) 0 1 (rows nb D) (rows (nb + 1) D) m1) = Ok m' /\
    (forall ix, in_range ix D -> elem m' (rows nb D) ix = elem m xp ix) /\ (forall b a, b <> nb -> b <> nb + 1 -> m' b a = m b a).
Proof.
  intros F P N M Wx Dx Rx B0 B1 R0.
  assert (Nn : nonneg D) by (eapply Forall_impl; [|exact P]; cbn; lia).
  assert (W : forall b, vwf (rows b D)) by (intro b; split; [apply strides_of_length|exact Nn]).
  assert (Dd : forall b, distinct_cells (rows b D)) by (intro b; exact (proj2 (fresh_inside b D Nn))).
  assert (Other : forall v b n ix (m : mem V), vwf v -> in_range ix (vdims v) -> vblk v <> b -> elem (alloc junk b n m) v ix = elem m v ix).
  { intros v b n ix m0 Wv I Nb. rewrite !elem_cell by (apply Wv || exact I). unfold at_, cell, alloc. cbn [fst snd]. now replace (vblk v =? b) with false by lia. }
  assert (Dis : forall v w, vwf v -> vwf w -> vblk v <> vblk w -> disjoint_views v w).
  { intros v w Wv Ww Nb ix jx I J. rewrite !vaddr_cell by (apply Wv || apply Ww || assumption). unfold cell. congruence. }
  set (m0 := alloc junk (nb + 1) (asize D) m).
  destruct (kernel_set (rows (nb + 1) D) xp m0) as (m1 & E1 & A1 & U1); auto.
  - intros ix I. unfold m0. change (rows (nb + 1) D) with (fresh_view (nb + 1) D). rewrite fresh_readable; [discriminate|exact Nn|exact I].
  - intros ix I. unfold m0. rewrite Other by assumption. now apply Rx.
  - fold m0. rewrite E1. cbn [bind]. cbn [vdims rows] in A1.
    assert (K : forall v ix, vwf v -> in_range ix (vdims v) -> vblk v <> nb + 1 -> elem m1 v ix = elem m v ix).
    { intros v ix Wv I Nb. rewrite !elem_cell by (apply Wv || exact I). unfold at_, cell. cbn [fst snd]. rewrite U1.
      - unfold m0, alloc. now replace (vblk v =? nb + 1) with false by lia.
      - intros jx J. rewrite vaddr_cell by (apply W || exact J). unfold cell. cbn [rows vblk]. congruence. }
    rewrite assign_same; cbn [vdims vstr rows]; auto.
    2: { unfold is_contiguous. now rewrite (proj2 (is_regular_iff _ _ (strides_of_length _ _))). }
    destruct (assign_ok (rows nb D) (rows (nb + 1) D) m1) as (m2 & E2 & A2 & U2); auto.
    + now apply fresh_plain.
    + intros ix I. rewrite K; auto. cbn [rows vblk]. lia.
    + intros ix I. cbn [rows vdims] in I. rewrite A1 by exact I. unfold m0. rewrite Other; [|exact Wx|now rewrite Dx|exact B1]. apply Rx. now rewrite Dx.
    + intros ix jx I J Q. exfalso. revert Q. apply Dis; auto. cbn [rows vblk]. lia.
    + exists m2. split; [exact E2|]. split.
      * intros ix I. cbn [rows vdims] in A2. rewrite A2 by exact I. rewrite A1 by exact I. unfold m0. apply Other; [exact Wx|now rewrite Dx|exact B1].
      * intros b a Nb Nb1. rewrite U2, U1.
        -- unfold m0, alloc. now replace (b =? nb + 1) with false by lia.
        -- intros ix I. rewrite vaddr_cell by (apply W || exact I). unfold cell. cbn [rows vblk]. congruence.
        -- intros ix I. rewrite vaddr_cell by (apply W || exact I). unfold cell. cbn [rows vblk]. congruence.
Qed.
Lemma elem2 (m : mem V) b o n k s t i j : elem m (View b o [n; k] [s; t]) [i; j] = m b (o + (s * i + t * j)).
Proof. unfold elem, vaddr. cbn. f_equal. lia. Qed.
Lemma elem1 (m : mem V) b o n t i : elem m (View b o [n] [t]) [i] = m b (o + t * i).
Proof. unfold elem, vaddr. cbn. f_equal. lia. Qed.
(* unless copied as a whole, one launch covers the matrix *)
Definition one_launch (n k s t : Z) : Prop := s = k /\ t = 1 \/ s = t * k /\ cu_fits [k * n] \/ s <> t * k /\ cu_fits [n; k].
Lemma elem_rows2 (m : mem V) nb n k i j : 0 <= i < n -> 0 <= j < k -> elem m (rows nb [n; k]) [i; j] = m nb (i * k + j).
Proof.
  intros I J. rewrite elem_cell; [|apply strides_of_length|repeat constructor; lia]. unfold cell, rows. cbn [vblk voff vstr]. rewrite strides2. unfold at_. cbn [fst snd dot]. f_equal. lia.
Qed.
Lemma elem_rows1 (m : mem V) nb n i : 0 <= i < n -> elem m (rows nb [n]) [i] = m nb i.
Proof.
  intros I. rewrite elem_cell; [|apply strides_of_length|repeat constructor; lia]. unfold cell, rows. cbn [vblk voff vstr]. change (strides_of 1 [n]) with [1]. unfold at_. cbn [fst snd dot]. f_equal. lia.
Qed.
Lemma copy_back2 f nb n k b o s t (m : mem V) : 1 <= n -> 1 < k < INT_MAX -> one_launch n k s t -> ~ (s = k /\ t = 1) -> b <> nb -> b <> nb + 1 -> readable m (View b o [n; k] [s; t]) ->
  exists m', copy (S (S f)) nb 0 1 (View b o [n; k] [s; t]) m = Ok (fresh_view nb [n; k], m') /\ (forall ix, in_range ix [n; k] -> elem m' (fresh_view nb [n; k]) ix = elem m (View b o [n; k] [s; t]) ix) /\
    (forall b' a, b' <> nb -> b' <> nb + 1 -> m' b' a = m b' a).
Proof.
  intros Hn Hk L Ne B0 B1 Rx.
  assert (Wx : vwf (View b o [n; k] [s; t])) by (split; [reflexivity|unfold nonneg; repeat constructor; lia]).
  assert (Sm : prod [n; k] = k * n) by (unfold prod; cbn [fold_right]; lia).
  set (m0 := alloc junk nb (asize [n; k]) m).
  assert (Re : forall v ix, vwf v -> in_range ix (vdims v) -> vblk v = b -> elem m0 v ix = elem m v ix).
  { intros v ix Wv I Eb. rewrite !elem_cell by (apply Wv || exact I). unfold at_, cell, m0, alloc. cbn [fst snd]. rewrite Eb. now replace (b =? nb) with false by lia. }
  assert (Un : forall b' a, b' <> nb -> m0 b' a = m b' a) by (intros b' a N; unfold m0, alloc; now replace (b' =? nb) with false by lia).
  assert (St : copy (S (S f)) nb 0 1 (View b o [n; k] [s; t]) m = (do m1 <- (if s =? t * k then do m <- kernel ord (rows (nb + 1) [k * n]) (View b o [k * n] [t]) (alloc junk (nb + 1) (asize [k * n]) m0); assign (S f) (nb + 2) 0 1 (rows nb [k * n]) (rows (nb + 1) [k * n]) m
      else do m <- kernel ord (rows (nb + 1) [n; k]) (View b o [n; k] [s; t]) (alloc junk (nb + 1) (asize [n; k]) m0); assign (S f) (nb + 2) 0 1 (rows nb [n; k]) (rows (nb + 1) [n; k]) m); Ok (fresh_view nb [n; k], m1))).
  { unfold dev_copy. cbn [vdims]. fold m0. f_equal. remember (S f) as f' eqn:Ef. cbn [dev_assign]. unfold fresh_view. rewrite strides2. cbn [vdims vstr eqlb]. rewrite !Z.eqb_refl. cbn [andb assrt bind]. replace (asize [n; k] =? 0) with false by (rewrite asize_prod, Sm; nia).
    rewrite contig2, scrunch2_matrix by exact Hk. cbn [bind]. replace ((k =? s) && ((1 =? t) && true)) with false by lia. change (0 =? 0) with true. change (1 =? 0) with false. change (0 =? 1) with false. cbn [andb]. cbv iota zeta.
    unfold rows. replace (nb + 1 + 1) with (nb + 2) by lia. destruct (s =? t * k); cbn [vdims vstr vblk voff].
    - change (is_contiguous [1] [k * n]) with (@Ok bool true). change (strides_of 1 [k * n]) with [1].
      replace (memsize [1] [k * n]) with (Ok (asize [k * n])) by (unfold memsize; cbn [length Nat.eqb assrt]; rewrite asize_prod; unfold prod; cbn [fold_right max_extent]; replace (k * n * 1 =? 0) with false by nia; f_equal; nia). reflexivity.
    - rewrite contig2, strides2.
      replace (memsize [k; 1] [n; k]) with (Ok (asize [n; k])) by (unfold memsize; cbn [length Nat.eqb assrt]; rewrite asize_prod; unfold prod; cbn [fold_right max_extent]; replace (n * (k * 1) =? 0) with false by nia; f_equal; nia). reflexivity. }
  rewrite St. clear St. destruct (s =? t * k) eqn:E.
  - destruct L as [L|[[_ L]|[L _]]]; [tauto| |lia]. destruct (stage f nb [k * n] (View b o [k * n] [t]) m0) as (m' & E1 & A & U); auto.
    + repeat constructor; nia.
    + discriminate.
    + repeat constructor.
    + split; [reflexivity|unfold nonneg; repeat constructor; nia].
    + intros ix I. cbn [vdims] in I. rng. rewrite Re; [|split; [reflexivity|unfold nonneg; repeat constructor; nia]|repeat constructor; lia|reflexivity].
      intro X. apply (Rx [i / k; i mod k]).
      * cbn [vdims]. pose proof (Z.mod_pos_bound i k ltac:(lia)). repeat constructor; try lia; [apply Z.div_pos; lia|apply Z.div_lt_upper_bound; lia].
      * rewrite <- X. rewrite elem2, elem1. f_equal. apply Z.eqb_eq in E. rewrite E. assert (Q : i * t = (k * (i / k) + i mod k) * t) by (now rewrite <- Z_div_mod_eq_full). lia.
    + intros ix I. rng. rewrite elem_rows1 by lia. unfold m0, alloc. rewrite Z.eqb_refl, asize_prod, Sm. replace ((0 <=? i) && (i <? k * n)) with true by lia. discriminate.
    + rewrite E1. cbn [bind]. exists m'. split; [reflexivity|]. split; [|intros b' a N0 N1; now rewrite U, Un].
      intros ix I. rng. change (fresh_view nb [n; k]) with (rows nb [n; k]). rewrite elem_rows2, <- (elem_rows1 m' nb (k * n)) by nia. rewrite A by (repeat constructor; nia).
      rewrite Re; [|split; [reflexivity|unfold nonneg; repeat constructor; nia]|cbn [vdims]; repeat constructor; nia|reflexivity]. rewrite elem2, elem1. f_equal. apply Z.eqb_eq in E. rewrite E. lia.
  - destruct L as [L|[[L _]|[_ L]]]; [tauto|lia|]. destruct (stage f nb [n; k] (View b o [n; k] [s; t]) m0) as (m' & E1 & A & U); auto.
    + repeat constructor; lia.
    + discriminate.
    + rewrite strides2. repeat constructor; unfold INT_MAX in *; lia.
    + intros ix I. rewrite Re by auto. now apply Rx.
    + intros ix I. rng. rewrite elem_rows2 by lia. unfold m0, alloc. rewrite Z.eqb_refl, asize_prod, Sm. replace ((0 <=? i * k + i0) && (i * k + i0 <? k * n)) with true by nia. discriminate.
    + rewrite E1. cbn [bind]. exists m'. split; [reflexivity|]. split; [|intros b' a N0 N1; now rewrite U, Un].
      intros ix I. change (fresh_view nb [n; k]) with (rows nb [n; k]). rewrite A by exact I. now apply Re.
Qed.
Lemma copy_back f nb n k b o s t (m : mem V) : 1 <= n -> 1 < k < INT_MAX -> one_launch n k s t -> b <> nb -> b <> nb + 1 -> (forall a, m nb a = None) -> readable m (View b o [n; k] [s; t]) ->
  exists m', copy (S (S f)) nb 0 1 (View b o [n; k] [s; t]) m = Ok (fresh_view nb [n; k], m') /\ (forall ix, in_range ix [n; k] -> elem m' (fresh_view nb [n; k]) ix = elem m (View b o [n; k] [s; t]) ix) /\
    (forall b' a, b' <> nb -> b' <> nb + 1 -> m' b' a = m b' a).
Proof.
  intros Hn Hk L B0 B1 Hb Rx. destruct (Z.eq_dec s k) as [Es|Es]; [destruct (Z.eq_dec t 1) as [Et|Et]|].
  - subst s t. destruct (copy_rows (S f) nb 0 1 (View b o [n; k] [k; 1]) m) as (m' & E & A & U); auto.
    + split; [reflexivity|unfold nonneg; repeat constructor; lia].
    + discriminate.
    + symmetry. apply strides2.
    + repeat constructor; unfold INT_MAX in *; lia.
    + exists m'. repeat split; auto.
  - apply copy_back2; auto. tauto.
  - apply copy_back2; auto. tauto.
Qed.
(* move_to_device *)
Lemma move_rows f nb d xd x (m : mem V) : d <> xd -> vwf x -> readable m x -> vdims x <> [] -> vstr x = strides_of 1 (vdims x) -> Forall (fun s => s < INT_MAX) (vstr x) -> (forall a, m nb a = None) ->
  exists y m', dev_move junk ord (S f) nb d xd x m = Ok (y, m') /\ vdims y = vdims x /\ (forall ix, in_range ix (vdims x) -> elem m' y ix = elem m x ix) /\ (forall b a, b <> nb -> m' b a = m b a).
Proof.
  intros Nd W Rx N E M H. destruct (copy_rows f nb d xd x m W Rx N E M H) as (m' & Ec & A & U). unfold dev_move. replace (d =? xd) with false by lia. rewrite Ec. cbn [bind]. eexists. exists m'. split; [reflexivity|]. split; [reflexivity|]. split; [|exact U].
  intros ix I. cbn [vdims fresh_view vblk voff]. rewrite E. now apply A.
Qed.
Lemma move_columns f nb n k b o (m : mem V) : 1 < n -> 1 < k < INT_MAX -> cu_fits [n; k] -> b <> nb -> b <> nb + 1 -> readable m (View b o [n; k] [1; n]) ->
  exists y m', dev_move junk ord (S (S f)) nb 0 1 (View b o [n; k] [1; n]) m = Ok (y, m') /\ vdims y = [n; k] /\
    forall i j, 0 <= i < n -> 0 <= j < k -> elem m' y [i; j] = elem m (View b o [n; k] [1; n]) [(i + n * j) / k; (i + n * j) mod k].
Proof.
  intros Hn Hk F B0 B1 Rx. destruct (copy_back2 f nb n k b o 1 n m) as (m' & E & A & U); auto; [lia|right; right; split; [nia|exact F]|lia|].
  unfold dev_move. change (0 =? 1) with false. rewrite E. cbn [bind]. eexists. exists m'. split; [reflexivity|]. split; [reflexivity|]. intros i j I J. cbn [vdims fresh_view vblk voff vstr].
  assert (P : 0 <= i + n * j < n * k) by nia. pose proof (Z.mod_pos_bound (i + n * j) k ltac:(lia)). pose proof (Z_div_mod_eq_full (i + n * j) k).
  assert (Q : 0 <= (i + n * j) / k < n) by (split; [apply Z.div_pos; lia|apply Z.div_lt_upper_bound; lia]).
  rewrite <- A by (repeat constructor; lia). change (fresh_view nb [n; k]) with (rows nb [n; k]). rewrite elem_rows2 by lia. rewrite elem2. f_equal. lia.
Qed.
(* assigning on the host, and from the device to rows with gaps between them *)
Lemma assign_host f nb r x (m : mem V) : assign (S f) nb 0 0 r x m = tv_assign r x m.
Proof.
  unfold tv_assign, dispatch2. cbn [dev_assign]. change (0 =? 0) with true. cbn [andb]. destruct (eqlb (vdims r) (vdims x)); [|reflexivity]. cbn [assrt]. destruct (vdims r) eqn:D.
  - destruct (rmw f_set _ _ m); reflexivity.
  - reflexivity.
Qed.
Lemma scrunch2_gap c o n k b o' rs rt s t : 0 < rt -> rt < rs < INT_MAX -> rs <> rt * k ->
  co_scrunch (View c o [n; k] [rs; rt]) (View b o' [n; k] [s; t]) = Ok (View c o [n; k] [rs; rt], View b o' [n; k] [s; t]).
Proof.
  intros Ht Hs Ne. unfold co_scrunch. cbn [vstr vdims vblk voff eqlb]. rewrite !Z.eqb_refl. cbn [andb assrt]. unfold ordering. cbn [length ordering_loop argmin argmin_aux]. replace (rt <? rs) with true by lia. cbn [set_nth argmin argmin_aux].
  replace (INT_MAX <? rs) with false by lia. cbn [mapM vget nth_error bind co_merge_all co_merge fst snd]. replace (rs =? rt * k) with false by lia. reflexivity.
Qed.
Lemma contig_gap n k rs rt : 0 < k -> 0 < rt -> rt < rs -> rs <> rt * k -> is_contiguous [rs; rt] [n; k] = Ok false.
Proof.
  intros Hk Ht Hs Ne. unfold is_contiguous, is_regular, npos. cbn [length Nat.eqb assrt regular_aux filter]. replace (0 <? rs) with true by lia. replace (0 <? rt) with true by lia. cbn [length contig_loop find_take].
  replace (rs =? 1) with false by lia. destruct (rt =? 1) eqn:E; [|reflexivity]. replace (rs =? 1 * k) with false by nia. cbn [bind contig_loop find_take]. replace (rs =? 1 * k) with false by nia.
  replace (0 =? 1 * k) with false by lia. reflexivity.
Qed.
Lemma assign_gap f nb n k rb ro rs rt b o s t (m : mem V) : 1 <= n -> 1 < k < INT_MAX -> 0 < rt -> rt * k < rs < INT_MAX -> one_launch n k s t ->
  b <> nb -> b <> nb + 1 -> rb <> nb -> rb <> nb + 1 -> (forall a, m nb a = None) -> readable m (View b o [n; k] [s; t]) -> readable m (View rb ro [n; k] [rs; rt]) ->
  exists m', assign (S (S (S f))) nb 0 1 (View rb ro [n; k] [rs; rt]) (View b o [n; k] [s; t]) m = Ok m' /\
    (forall ix, in_range ix [n; k] -> elem m' (View rb ro [n; k] [rs; rt]) ix = elem m (View b o [n; k] [s; t]) ix) /\
    (forall b' a, b' <> nb -> b' <> nb + 1 -> (forall ix, in_range ix [n; k] -> vaddr (View rb ro [n; k] [rs; rt]) ix <> Ok (b', a)) -> m' b' a = m b' a).
Proof.
  intros Hn Hk Ht Hs L B0 B1 R0 R1 Hb Rx Rr. set (r := View rb ro [n; k] [rs; rt]) in *. set (x := View b o [n; k] [s; t]) in *.
  assert (Wr : vwf r) by (split; [reflexivity|unfold nonneg; repeat constructor; lia]).
  destruct (copy_back f nb n k b o s t m Hn Hk L B0 B1 Hb Rx) as (m1 & E1 & A1 & U1). fold x in E1, A1.
  assert (Ru : assign (S (S (S f))) nb 0 1 r x m = do m1 <- assign (S (S f)) (nb + 1) 0 1 (fresh_view nb [n; k]) x (alloc junk nb (asize [n; k]) m); assign (S (S f)) (nb + 1) 0 0 r (fresh_view nb [n; k]) m1).
  { remember (S (S f)) as f' eqn:Ef. cbn [dev_assign]. unfold r, x. cbn [vdims vstr eqlb]. rewrite !Z.eqb_refl. cbn [andb assrt bind]. replace (asize [n; k] =? 0) with false by (rewrite asize_prod; unfold prod; cbn [fold_right]; nia).
    rewrite contig_gap, scrunch2_gap by nia. cbn [bind andb]. change (0 =? 0) with true. change (1 =? 0) with false. change (0 =? 1) with false. cbn [andb vdims vstr]. rewrite contig_gap by nia. reflexivity. }
  unfold dev_copy in E1. replace (vdims x) with [n; k] in E1 by reflexivity. rewrite Ru. destruct (assign _ _ 0 1 _ x _) as [m1'| |]; try discriminate. cbn [bind] in *. injection E1 as ->. rewrite assign_host.
  assert (Wz : vwf (fresh_view nb [n; k])) by (split; [apply strides_of_length|unfold nonneg; repeat constructor; lia]).
  destruct (assign_ok r (fresh_view nb [n; k]) m1) as (m2 & E2 & A2 & U2); auto.
  - split; [reflexivity|]. split; [apply Wr|]. split; [repeat constructor; nia|]. right. apply Exists_cons_hd. nia.
  - intros ix jx I J E. rewrite !vaddr_cell in E by (apply Wr || assumption). unfold r in I, J. cbn [vdims] in I, J. rng. unfold cell, r in E. cbn [vblk voff vstr dot] in E.
    apply (f_equal (fun q => match q with Ok p => snd p | _ => 0 end)) in E. cbn [snd] in E. assert (i1 = i) by nia. subst. f_equal. f_equal. nia.
  - intros ix I. pose proof (Rr ix I) as Q. rewrite elem_cell in * by (apply Wr || exact I). unfold at_, cell, r in *. cbn [fst snd vblk] in *. now rewrite U1.
  - intros ix I. rewrite A1 by exact I. apply Rx. exact I.
  - intros ix jx I J E. exfalso. rewrite !vaddr_cell in E by (apply Wr || apply Wz || assumption). unfold cell, r in E. cbn [fresh_view vblk] in E. congruence.
  - exists m2. split; [exact E2|]. split.
    + intros ix I. rewrite A2 by exact I. now apply A1.
    + intros b' a N0 N1 F. rewrite U2 by exact F. now apply U1.
Qed.
End S.
