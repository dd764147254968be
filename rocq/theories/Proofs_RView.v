(* Proofs_RView.v -- assignment and accumulation on the fixed-rank views. *)
From Verif Require Import Base BaseFacts Model_Index Model_View Model_Tensor Model_Ops Model_RView Spec_Index Spec_View Spec_Tensor Spec_RView
  Proofs_Axes Proofs_Index Proofs_View Proofs_Tensor Proofs_Tensor2 Proofs_Tensor3 Proofs_Convolve2 Proofs_Ops2 Proofs_Ops3.
Local Open Scope Z_scope.

Lemma nd_eq v l k : vdims v = l -> nd v k = nth k l 0.
Proof. intro E. unfold nd. now rewrite E. Qed.
Lemma nest1_fold {S} n0 (body : list Z -> S -> res S) st : nest1 n0 body st = foldM body (all_indices [n0]) st.
Proof. apply loop_1. Qed.
Lemma nest2_fold {S} n0 n1 (body : list Z -> S -> res S) st : nest2 n0 n1 body st = foldM body (all_indices [n0; n1]) st.
Proof. apply loop_2. Qed.
Lemma nest3_fold {S} n0 n1 n2 (body : list Z -> S -> res S) st : nest3 n0 n1 n2 body st = foldM body (all_indices [n0; n1; n2]) st.
Proof. apply loop_3. Qed.

Lemma str1 v n0 : vwf v -> vdims v = [n0] -> vstr v = [sd v 0].
Proof. intros [L _] D. unfold sd. rewrite D in L. destruct (vstr v) as [|s0 [|? ?]]; try discriminate. reflexivity. Qed.
Lemma str2 v n0 n1 : vwf v -> vdims v = [n0; n1] -> vstr v = [sd v 0; sd v 1].
Proof. intros [L _] D. unfold sd. rewrite D in L. destruct (vstr v) as [|s0 [|s1 [|? ?]]]; try discriminate. reflexivity. Qed.
Lemma str3 v n0 n1 n2 : vwf v -> vdims v = [n0; n1; n2] -> vstr v = [sd v 0; sd v 1; sd v 2].
Proof. intros [L _] D. unfold sd. rewrite D in L. destruct (vstr v) as [|s0 [|s1 [|s2 [|? ?]]]]; try discriminate. reflexivity. Qed.

Lemma reg1_str v n0 : vwf v -> vdims v = [n0] -> reg1 v = true -> vstr v = strides_of 1 (vdims v).
Proof. intros W D E. rewrite (str1 v n0 W D), D. unfold reg1 in E. cbn. f_equal. lia. Qed.
Lemma reg2_str v n0 n1 : vwf v -> vdims v = [n0; n1] -> reg2 v = true -> vstr v = strides_of 1 (vdims v).
Proof.
  intros W D E. unfold reg2 in E. rewrite (nd_eq v _ 1 D) in E. cbn [nth] in E. apply andb_true_iff in E as [E1 E2].
  apply Z.eqb_eq in E1, E2. rewrite (str2 v n0 n1 W D), D, E1, E2. change (strides_of 1 [n0; n1]) with [1 * n1; 1]. f_equal. lia.
Qed.
Lemma reg3_str v n0 n1 n2 : vwf v -> vdims v = [n0; n1; n2] -> reg3 v = true -> vstr v = strides_of 1 (vdims v).
Proof.
  intros W D E. unfold reg3 in E. rewrite (nd_eq v _ 1 D), (nd_eq v _ 2 D) in E. cbn [nth] in E. apply andb_true_iff in E as [E E3]. apply andb_true_iff in E as [E1 E2].
  apply Z.eqb_eq in E1, E2, E3.
  rewrite (str3 v n0 n1 n2 W D), D, E3, E2, E1. change (strides_of 1 [n0; n1; n2]) with [1 * n2 * n1; 1 * n2; 1]. f_equal; [lia|]. f_equal. lia.
Qed.

Section Zip.
Context {R : cring}.
Add Ring RrRV : (cth R).
Notation memR := (mem (car R)).
Implicit Types (m : memR).

Lemma zip_dims r x (m : memR) : zipable r x m -> vdims x = vdims r.
Proof. now intros (_ & _ & D & _). Qed.
Lemma zipable_each (f : R -> list R -> R) r x m : zipable r x m ->
  exists m', foldM (zip_each f r x) (all_indices (vdims r)) m = Ok m' /\ elementwise f r [x] m m'.
Proof.
  intros (Wr & Wx & D & Hd & Rr & Rx & Nc).
  destruct (elementwise_of_run f r [x] m (entries r [x])) as (m' & E & H); try assumption; [repeat constructor; try assumption; apply Wx|reflexivity|].
  exists m'. split; [|exact H]. rewrite <- E. unfold run, entries. rewrite foldM_map. apply foldM_ext. intros ix s Hix. apply in_all_indices in Hix.
  unfold zip_each. rewrite (vaddr_cell r) by (try assumption; apply Wr). cbn [bind]. rewrite vaddr_cell; [reflexivity|apply Wx|now rewrite D].
Qed.
Lemma zipable_flat (f : R -> list R -> R) r x m : zipable r x m -> vstr r = strides_of 1 (vdims r) -> vstr x = strides_of 1 (vdims x) ->
  exists m', flat_loop f r [x] (prod (vdims r)) m = Ok m' /\ elementwise f r [x] m m'.
Proof.
  intros (Wr & Wx & D & Hd & Rr & Rx & Nc) Er Ex. rewrite flat_run. apply elementwise_of_run; try assumption; [repeat constructor; try assumption; apply Wx|].
  destruct Wr as [Lr Nr]. rewrite <- row_major_addrs by assumption. rewrite <- Er. unfold entries. rewrite map_map. erewrite map_ext; [reflexivity|].
  intro ix. cbn. unfold cell. apply (f_equal (fun l => (_, l))). rewrite Ex, D, <- Er. reflexivity.
Qed.
Lemma ew_updates (f : R -> list R -> R) (g : R -> R -> R) r x m m' : (forall v w, f v [w] = g v w) -> elementwise f r [x] m m' -> updates g r x m m'.
Proof. intros H E. split; [|apply E]. intros ix v w Hix Hv Hw. rewrite <- H. now apply (ew1 f r x m m' E). Qed.

(* the dispatch of each rank *)
Lemma zip1_ok (f : R -> list R -> R) r x m n0 : zipable r x m -> vdims r = [n0] ->
  exists m', (if reg1 r && reg1 x then flat_loop f r [x] (nd r 0) m else nest1 (nd r 0) (zip_each f r x) m) = Ok m' /\ elementwise f r [x] m m'.
Proof.
  intros Z D. pose proof Z as (Wr & Wx & Dx & _). rewrite (nd_eq r _ 0 D). cbn [nth]. destruct (reg1 r && reg1 x) eqn:E.
  - apply andb_true_iff in E as [E1 E2]. replace n0 with (prod (vdims r)) by (rewrite D; cbv [prod fold_right]; lia).
    apply zipable_flat; [assumption|exact (reg1_str r n0 Wr D E1)|apply (reg1_str x n0 Wx); [congruence|assumption]].
  - rewrite nest1_fold, <- D. now apply zipable_each.
Qed.
Lemma zip2_view_ok (f : R -> list R -> R) r x m n0 n1 : zipable r x m -> vdims r = [n0; n1] ->
  exists m', (if reg2 r && reg2 x then flat_loop f r [x] (n0 * n1) m else nest2 n0 n1 (zip_each f r x) m) = Ok m' /\ elementwise f r [x] m m'.
Proof.
  intros Z D. pose proof Z as (Wr & Wx & Dx & _). destruct (reg2 r && reg2 x) eqn:E.
  - apply andb_true_iff in E as [E1 E2]. replace (n0 * n1) with (prod (vdims r)) by (rewrite D; cbv [prod fold_right]; lia).
    apply zipable_flat; [assumption|exact (reg2_str r n0 n1 Wr D E1)|apply (reg2_str x n0 n1 Wx); [congruence|assumption]].
  - rewrite nest2_fold, <- D. now apply zipable_each.
Qed.
Lemma zip3_view_ok (f : R -> list R -> R) r x m n0 n1 n2 : zipable r x m -> vdims r = [n0; n1; n2] ->
  exists m', (if reg3 r && reg3 x then flat_loop f r [x] (n0 * n1 * n2) m else nest3 n0 n1 n2 (zip_each f r x) m) = Ok m' /\ elementwise f r [x] m m'.
Proof.
  intros Z D. pose proof Z as (Wr & Wx & Dx & _). destruct (reg3 r && reg3 x) eqn:E.
  - apply andb_true_iff in E as [E1 E2]. replace (n0 * n1 * n2) with (prod (vdims r)) by (rewrite D; cbv [prod fold_right]; lia).
    apply zipable_flat; [assumption|exact (reg3_str r n0 n1 n2 Wr D E1)|apply (reg3_str x n0 n1 n2 Wx); [congruence|assumption]].
  - rewrite nest3_fold, <- D. now apply zipable_each.
Qed.
Lemma same3_true r x : vdims x = vdims r -> same3 r x = true.
Proof. intro D. unfold same3, nd. rewrite D, !Z.eqb_refl. reflexivity. Qed.

Lemma set_updates (m : memR) r x m' : zipable r x m -> elementwise f_set r [x] m m' ->
  (forall ix, in_range ix (vdims r) -> elem m' r ix = elem m x ix) /\ untouched m m' r.
Proof.
  intros (_ & _ & D & _ & Rr & Rx & _) E. split; [|apply E]. intros ix Hix.
  assert (Hx : in_range ix (vdims x)) by now rewrite D.
  rewrite (readable_elem m x ix Rx Hx). apply (ew1 f_set r x m m' E ix (elem0 m r ix) (elem0 m x ix)); [assumption| |]; now apply readable_elem.
Qed.

Definition copied (r x : view) (m m' : memR) := (forall ix, in_range ix (vdims r) -> elem m' r ix = elem m x ix) /\ untouched m m' r.

Lemma set1_ok r x m n0 : zipable r x m -> vdims r = [n0] ->
  (exists m', rv1_set r x m = Ok m' /\ copied r x m m') /\ (exists m', rv1_assign r x m = Ok m' /\ copied r x m m').
Proof.
  intros Z D. assert (En : nd x 0 = nd r 0) by (unfold nd; destruct Z as (_ & _ & -> & _); reflexivity). split.
  - unfold rv1_set. rewrite En, Z.eqb_refl. cbn [assrt]. destruct (zip1_ok f_set r x m n0 Z D) as (m' & E & H). exists m'. split; [exact E|]. now apply set_updates.
  - unfold rv1_assign. rewrite En, Z.eqb_refl. cbn [assrt]. rewrite nest1_fold, (nd_eq r _ 0 D). cbn [nth]. rewrite <- D. destruct (zipable_each f_set r x m Z) as (m' & E & H). exists m'. split; [exact E|]. now apply set_updates.
Qed.
Lemma set2_ok r x m n0 n1 : zipable r x m -> vdims r = [n0; n1] -> exists m', rv2_set r x m = Ok m' /\ copied r x m m'.
Proof.
  intros Z D. assert (En : forall k, nd x k = nd r k) by (intro k; unfold nd; destruct Z as (_ & _ & -> & _); reflexivity).
  unfold rv2_set. rewrite !En, !Z.eqb_refl. cbn [assrt]. rewrite !(nd_eq r _ _ D). cbn [nth].
  destruct (zip2_view_ok f_set r x m n0 n1 Z D) as (m' & E & H). exists m'. split; [exact E|]. now apply set_updates.
Qed.
Lemma set3_ok r x m n0 n1 n2 : zipable r x m -> vdims r = [n0; n1; n2] -> exists m', rv3_set r x m = Ok m' /\ copied r x m m'.
Proof.
  intros Z D. assert (Dx : vdims x = vdims r) by exact (zip_dims r x m Z). unfold rv3_set. rewrite (same3_true r x Dx). cbn [andb]. rewrite !(nd_eq r _ _ D), !(nd_eq x (vdims r) _ Dx), D. cbn [nth].
  destruct (zip3_view_ok f_set r x m n0 n1 n2 Z D) as (m' & E & H). exists m'. split; [exact E|]. now apply set_updates.
Qed.
Lemma zero2 (f : R -> list R -> R) r x (m : memR) n0 n1 : vdims r = [n0; n1] -> n0 * n1 = 0 -> elementwise f r [x] m m.
Proof. intros D E. split; [|intros b a _; reflexivity]. rewrite D. intros ix Hix. apply in_range_2_inv in Hix as (i & j & _ & Hi & Hj). nia. Qed.
Lemma flat2 r : vwf r -> reg2 r = true -> forall n0 n1, vdims r = [n0; n1] -> n0 * sd r 0 = n0 * n1.
Proof. intros W E n0 n1 D. unfold reg2 in E. rewrite (nd_eq r _ 1 D) in E. cbn [nth] in E. f_equal. lia. Qed.

Lemma add1_ok r x m n0 : zipable r x m -> vdims r = [n0] -> exists m', rv1_add r x m = Ok m' /\ updates cadd r x m m'.
Proof.
  intros Z D. unfold rv1_add. rewrite (nd_eq x (vdims r) 0 (zip_dims r x m Z)). fold (nd r 0). rewrite Z.eqb_refl. cbn [assrt].
  destruct (zip1_ok f_add1 r x m n0 Z D) as (m' & E & H). exists m'. split; [exact E|]. now apply (ew_updates f_add1).
Qed.
Lemma addc1_ok r x c m n0 : zipable r x m -> vdims r = [n0] -> exists m', rv1_addc r x c m = Ok m' /\ updates (fun v w => cadd v (cmul c w)) r x m m'.
Proof.
  intros Z D. unfold rv1_addc. rewrite (nd_eq x (vdims r) 0 (zip_dims r x m Z)). fold (nd r 0). rewrite Z.eqb_refl. cbn [assrt].
  destruct (zip1_ok (f_addc c) r x m n0 Z D) as (m' & E & H). exists m'. split; [exact E|]. now apply (ew_updates (f_addc c)).
Qed.
Lemma add2_gen (f : R -> list R -> R) r x m n0 n1 : zipable r x m -> vdims r = [n0; n1] ->
  exists m', (if n0 * n1 =? 0 then Ok m else if reg2 r && reg2 x then flat_loop f r [x] (n0 * sd r 0) m else nest2 n0 n1 (zip_each f r x) m) = Ok m' /\ elementwise f r [x] m m'.
Proof.
  intros Z D. destruct (n0 * n1 =? 0) eqn:E0.
  - exists m. split; [reflexivity|]. apply (zero2 f r x m n0 n1 D). lia.
  - destruct (zip2_view_ok f r x m n0 n1 Z D) as (m' & E & H). exists m'. split; [|exact H]. rewrite <- E.
    destruct (reg2 r && reg2 x) eqn:Er; [|reflexivity]. apply andb_true_iff in Er as [Er _]. rewrite (flat2 r) with (n1 := n1) by (try assumption; apply Z). reflexivity.
Qed.
Lemma add2_ok r x m n0 n1 : zipable r x m -> vdims r = [n0; n1] -> exists m', rv2_add r x m = Ok m' /\ updates cadd r x m m'.
Proof.
  intros Z D. unfold rv2_add. rewrite !(nd_eq x (vdims r) _ (zip_dims r x m Z)). fold (nd r 0) (nd r 1). rewrite !Z.eqb_refl. cbn [assrt]. rewrite !(nd_eq r _ _ D). cbn [nth].
  destruct (add2_gen f_add1 r x m n0 n1 Z D) as (m' & E & H). exists m'. split; [exact E|]. now apply (ew_updates f_add1).
Qed.
Lemma addc2_ok r x c m n0 n1 : zipable r x m -> vdims r = [n0; n1] -> exists m', rv2_addc r x c m = Ok m' /\ updates (fun v w => cadd v (cmul c w)) r x m m'.
Proof.
  intros Z D. unfold rv2_addc. rewrite !(nd_eq x (vdims r) _ (zip_dims r x m Z)). fold (nd r 0) (nd r 1). rewrite !Z.eqb_refl. cbn [assrt]. rewrite !(nd_eq r _ _ D). cbn [nth].
  destruct (add2_gen (f_addc c) r x m n0 n1 Z D) as (m' & E & H). exists m'. split; [exact E|]. now apply (ew_updates (f_addc c)).
Qed.
Lemma add3_ok r x m n0 n1 n2 : zipable r x m -> vdims r = [n0; n1; n2] -> exists m', rv3_add r x m = Ok m' /\ updates cadd r x m m'.
Proof.
  intros Z D. assert (Dx : vdims x = vdims r) by exact (zip_dims r x m Z). unfold rv3_add. rewrite (same3_true r x Dx). cbn [andb]. rewrite !(nd_eq r _ _ D), !(nd_eq x (vdims r) _ Dx), D. cbn [nth].
  destruct (zip3_view_ok f_add1 r x m n0 n1 n2 Z D) as (m' & E & H). exists m'. split; [exact E|]. now apply (ew_updates f_add1).
Qed.
(* add(x,c) of rank 3: the factor is dropped exactly when both views are regular *)
Lemma addc3_ok r x c m n0 n1 n2 : zipable r x m -> vdims r = [n0; n1; n2] ->
  exists m', rv3_addc r x c m = Ok m' /\ updates (fun v w => if reg3 r && reg3 x then cadd v w else cadd v (cmul c w)) r x m m'.
Proof.
  intros Z D. assert (Dx : vdims x = vdims r) by exact (zip_dims r x m Z). unfold rv3_addc. rewrite (same3_true r x Dx). cbn [andb]. rewrite !(nd_eq r _ _ D), !(nd_eq x (vdims r) _ Dx), D. cbn [nth].
  pose proof (zip3_view_ok f_add1 r x m n0 n1 n2 Z D) as H1. pose proof (zip3_view_ok (f_addc c) r x m n0 n1 n2 Z D) as H2.
  destruct (reg3 r && reg3 x).
  - destruct H1 as (m' & E & H). exists m'. split; [exact E|]. now apply (ew_updates f_add1).
  - destruct H2 as (m' & E & H). exists m'. split; [exact E|]. now apply (ew_updates (f_addc c)).
Qed.

(* a smaller 3-tensor: only the leading corner is affected *)
Lemma corner_ok (f : R -> list R -> R) r x m : vwf r -> vwf x -> length (vdims x) = length (vdims r) -> Forall2 Z.le (vdims x) (vdims r) ->
  distinct_cells r -> readable m r -> readable m x -> no_clobber r x ->
  exists m', foldM (zip_each f r x) (all_indices (vdims x)) m = Ok m' /\
    (forall ix v w, in_range ix (vdims x) -> elem m r ix = Some v -> elem m x ix = Some w -> elem m' r ix = Some (f v [w])) /\
    (forall ix, in_range ix (vdims r) -> ~ in_range ix (vdims x) -> elem m' r ix = elem m r ix) /\ untouched m m' r.
Proof.
  intros Wr Wx Ld Le Hd Rr Rx Nc. pose (r' := View (vblk r) (voff r) (vdims x) (vstr r)).
  assert (In1 : forall ix, in_range ix (vdims x) -> in_range ix (vdims r)).
  { clear -Le. unfold in_range. induction Le as [|a b la lb H Hl IH]; intros ix Hix; [assumption|]. inversion Hix as [|i ? l ? Hi Hl']; subst. constructor; [lia|]. now apply IH. }
  assert (Va : forall ix, vaddr r' ix = vaddr r ix) by reflexivity.
  assert (Ee : forall (m0 : memR) ix, elem m0 r' ix = elem m0 r ix) by reflexivity.
  assert (Z : zipable r' x m).
  { split; [split; [cbn; rewrite Ld; apply Wr|apply Wx]|]. split; [assumption|]. split; [reflexivity|]. split; [|split; [|split; [assumption|]]].
    - intros ix jx Hi Hj E. apply Hd; auto.
    - intros ix Hi. rewrite Ee. apply Rr. auto.
    - intros ix jx Hi Hj E. apply Nc; auto. }
  destruct (zipable_each f r' x m Z) as (m' & E & H). exists m'. split; [exact E|].
  destruct (window_keeps m m' r' r (fun ix => ix)) as [K1 K2]; [intros ix Hix; split; [now apply In1|reflexivity]|assumption|apply H|].
  split; [|split].
  - intros ix v w Hix Hv Hw. apply (ew1 f r' x m m' H ix v w Hix Hv Hw).
  - intros ix Hix Hn. apply K1; [assumption|]. intros jx Hj <-. contradiction.
  - exact K2.
Qed.

(* fill and add a scalar *)
Lemma fill_gen r (v : R) m : vwf r -> distinct_cells r -> readable m r ->
  exists m', foldM (fun ix => put_at r ix v) (all_indices (vdims r)) m = Ok m' /\ becomes r (fun _ => v) m m'.
Proof.
  intros W Hd Rr. destruct (put_loop r (all_indices (vdims r)) (fun ix => ix) (fun _ _ => Ok v) (fun _ => v) m) as (m' & E & A & B & C); try assumption.
  - intros ix Hix. now apply in_all_indices.
  - reflexivity.
  - exists m'. split; [exact E|]. split; [|exact C]. intros ix Hix. apply (A ix). now apply in_all_indices.
Qed.
Lemma addv_gen r (v : R) m : vwf r -> distinct_cells r -> readable m r ->
  exists m', foldM (fun ix => inc_at r ix v) (all_indices (vdims r)) m = Ok m' /\ gains r (fun _ => v) m m'.
Proof.
  intros W Hd Rr. destruct (acc_loop r (all_indices (vdims r)) (fun _ _ => Ok v) (fun _ => v) m) as (m' & E & A & B & C); try assumption.
  - apply all_indices_nodup.
  - intros ix Hix. now apply in_all_indices.
  - reflexivity.
  - exists m'. split; [exact E|]. split; [|exact C]. intros ix u Hix Hu. apply A; [|assumption]. now apply in_all_indices.
Qed.

(* ReLU *)
Lemma get_at_ok (m : memR) v ix : vwf v -> readable m v -> in_range ix (vdims v) -> get_at v ix m = Ok (elem0 m v ix).
Proof.
  intros [L _] Rv Hix. unfold get_at. rewrite vaddr_cell by assumption. cbn [bind]. apply loadA_some. rewrite <- elem_cell by assumption. now apply readable_elem.
Qed.
Lemma relu_gen gt0 r x g alpha (m : memR) n0 : vwf r -> vwf x -> vwf g -> vdims r = [n0] -> vdims x = [n0] -> vdims g = [n0] ->
  distinct_cells r -> readable m r -> readable m x -> readable m g -> disjoint_views r x -> disjoint_views r g ->
  exists m', nest1 n0 (fun ix m => do s <- get_at x ix m; do v <- get_at g ix m; inc_at r ix (cmul (relu_slope gt0 alpha s) v) m) m = Ok m' /\
    gains r (fun ix => cmul (if gt0 (elem0 m x ix) then c1 else alpha) (elem0 m g ix)) m m'.
Proof.
  intros Wr Wx Wg Dr Dx Dg Hd Rr Rx Rg Bx Bg. rewrite nest1_fold.
  assert (HS : forall s : R, relu_slope gt0 alpha s = (if gt0 s then c1 else alpha)) by (intro s; unfold relu_slope; destruct (gt0 s); ring).
  destruct (acc_loop r (all_indices [n0]) (fun ix m => do s <- get_at x ix m; do v <- get_at g ix m; Ok (cmul (relu_slope gt0 alpha s) v))
     (fun ix => cmul (if gt0 (elem0 m x ix) then c1 else alpha) (elem0 m g ix)) m) as (m' & E & A & B & C); try assumption.
  - apply all_indices_nodup.
  - intros ix Hix. rewrite Dr. now apply in_all_indices.
  - intros ix m' Hix U. apply in_all_indices in Hix.
    pose proof (keep_readable r x m m' Bx U Rx). pose proof (keep_readable r g m m' Bg U Rg).
    assert (Ix : in_range ix (vdims x)) by now rewrite Dx. assert (Ig : in_range ix (vdims g)) by now rewrite Dg.
    rewrite (get_at_ok m' x) by assumption. cbn [bind].
    rewrite (get_at_ok m' g) by assumption. cbn [bind].
    rewrite HS. rewrite (keep_elem0 r x m m'), (keep_elem0 r g m m'); try assumption; reflexivity.
  - exists m'. split.
    + rewrite <- E. apply foldM_ext. intros ix s _. destruct (get_at x ix s); cbn; try reflexivity. destruct (get_at g ix s); reflexivity.
    + split; [|exact C]. intros ix v Hix Hv. apply A; [|assumption]. apply in_all_indices. now rewrite <- Dr.
Qed.
End Zip.
