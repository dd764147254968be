(* Proofs_CuColumns.v -- reductions, broadcasts and scaled columns on a device. *)
From Verif Require Import Base BaseFacts Model_Index Model_View Model_Tensor Model_Ops Model_RView Model_Einsum Model_Convolve Model_Cuda Model_CuConv Model_CuBlas Model_Containers Model_CuGather Model_CuRtensor Model_CuColumns Spec_Index Spec_View Spec_Tensor Spec_Cuda Spec_CuRtensor
  Proofs_Axes Proofs_Index Proofs_View Proofs_Tensor Proofs_Tensor2 Proofs_Tensor3 Proofs_Convolve2 Proofs_Ops2 Proofs_Ops3 Proofs_Cuda Spec_RView Proofs_RView Proofs_RView2 Proofs_RView3 Proofs_RView4 Proofs_CuConv Proofs_CuBlas Proofs_CuRtensor.
Local Open Scope Z_scope.

Lemma exec_cons {V} (f : V -> list V -> V) o os m : cu_exec f (o :: os) m = do m1 <- cu_exec f [o] m; cu_exec f os m1.
Proof. rewrite !exec_run. cbn [concat]. rewrite app_nil_r. unfold run. rewrite foldM_app. destruct (foldM _ o m) as [m1| |]; cbn [bind]; [|reflexivity|reflexivity]. now rewrite exec_run. Qed.
Lemma exec_nil {V} (f : V -> list V -> V) m : cu_exec f [] m = Ok m.
Proof. reflexivity. Qed.
Lemma axpy1 n x y : axpy n x 1 y 1 = map (fun i => (shift y i, [shift x i])) (zrange n).
Proof. unfold axpy, axat. apply map_ext. intro i. change (0 <=? 1) with true. cbv iota. now rewrite Z.mul_1_r. Qed.
(* one launch over n cells in a row, the sources elsewhere or the cells themselves *)
Lemma flat_dev {V} (f : V -> list V -> V) (g : V -> V -> V) n sb so db d (m : mem V) (fs fd : Z -> V) order : (forall v w, f v [w] = g v w) ->
  (forall i, 0 <= i < n -> m sb (so + i) = Some (fs i)) -> (forall i, 0 <= i < n -> m db (d + i) = Some (fd i)) ->
  (sb = db -> d + n <= so \/ so + n <= d \/ so = d) -> Permutation order (axpy n (sb, so) 1 (db, d) 1) ->
  exists m', cu_exec f [order] m = Ok m' /\ (forall i, 0 <= i < n -> m' db (d + i) = Some (g (fd i) (fs i))) /\ (forall b a, ~ (b = db /\ d <= a < d + n) -> m' b a = m b a).
Proof.
  intros Eg Hs Hd Hov P. rewrite axpy1 in P. rewrite exec_run. cbn [concat]. rewrite app_nil_r.
  destruct (run_perm f order _ m P) as (m' & Em & A & B).
  - rewrite map_map. cbn [fst]. apply FinFun.Injective_map_NoDup; [|apply zrange_nodup]. intros i j E. unfold shift in E. injection E. lia.
  - intros e I. apply in_map_iff in I as (i & <- & I). apply in_zrange in I. cbn [fst snd]. unfold at_, shift. cbn [fst snd]. split; [rewrite Hd by exact I; discriminate|]. repeat constructor. cbn [fst snd]. rewrite Hs by exact I. discriminate.
  - intros e e' I J K. apply in_map_iff in I as (i & <- & I). apply in_map_iff in J as (j & <- & J). apply in_zrange in I, J. cbn [fst snd] in K. destruct K as [K|[]]. unfold shift in K. cbn [fst snd] in K. injection K as K1 K2.
    assert (i = j) by (destruct (Hov K1) as [?|[?|?]]; lia). now subst.
  - exists m'. split; [exact Em|]. split.
    + intros i I. destruct (A (shift (db, d) i, [shift (sb, so) i])) as (v & us & Ev & Eu & E); [apply in_map_iff; exists i; split; [reflexivity|now apply in_zrange]|]. unfold at_, shift in Ev, E. cbn [fst snd] in *. rewrite E. rewrite Hd in Ev by exact I. injection Ev as <-.
      cbn [loads] in Eu. unfold loadA, load, shift in Eu. cbn [fst snd] in Eu. rewrite Hs in Eu by exact I. cbn [bind] in Eu. injection Eu as <-. now rewrite Eg.
    + intros b a Hn. specialize (B (b, a)). unfold at_ in B. cbn [fst snd] in B. apply B. intro I. apply in_map_iff in I as (e & Ee & I). apply in_map_iff in I as (i & <- & I). apply in_zrange in I. unfold shift in Ee. cbn [fst snd] in Ee. injection Ee as <- <-. apply Hn. split; [reflexivity|lia].
Qed.

Section Rows.
Context {R : cring}.
Add Ring RrCuR : (cth R).
Notation memR := (mem (car R)).
Variables (v : view) (n0 n1 : Z).
Hypotheses (W : vwf v) (D : vdims v = [n0; n1]) (Hr : reg2 v = true).
Variable f : R -> list R -> R.
Notation el := (elem0 (R := R)).

Lemma add_rows_dev (m : memR) a c order : (forall u w, f u [w] = cadd u w) -> readable m v -> 0 <= c <= a \/ a = 0 /\ 0 <= c -> a + c <= n0 -> Permutation order (axpy (c * n1) (shift (arr v) (a * n1)) 1 (arr v) 1) ->
  exists m', cu_exec f [order] m = Ok m' /\ readable m' v /\ untouched m m' v /\
    forall i j, 0 <= i < n0 -> 0 <= j < n1 -> el m' v [i; j] = if i <? c then cadd (el m v [i; j]) (el m v [a + i; j]) else el m v [i; j].
Proof.
  intros Ef Rv Hc Hac P. pose proof (pos2 v n0 n1 W D) as [P0 P1].
  destruct (flat_dev f cadd (c * n1) (vblk v) (voff v + a * n1) (vblk v) (voff v) m
     (fun t => el m v [(a * n1 + t) / n1; (a * n1 + t) mod n1]) (fun t => el m v [t / n1; t mod n1]) order Ef) as (m' & E & A & B).
  - intros t Ht. rewrite <- (reg_cell v n0 n1 W D Hr); [f_equal; lia|assumption|nia].
  - intros t Ht. apply (reg_cell v n0 n1 W D Hr); [assumption|nia].
  - intros _. destruct Hc as [Hc|[-> Hc]]; [left; nia|right; right; lia].
  - exact P.
  - exists m'. split; [exact E|].
    assert (Q : forall i j, 0 <= i < n0 -> 0 <= j < n1 -> elem m' v [i; j] = Some (if i <? c then cadd (el m v [i; j]) (el m v [a + i; j]) else el m v [i; j])).
    { intros i j Hi Hj. rewrite (reg_elem v n0 n1 W D Hr). destruct (i <? c) eqn:Ei.
      - rewrite A by nia. destruct (divmod_at v n1 Hr i j Hj) as [-> ->]. replace (a * n1 + (i * n1 + j)) with ((a + i) * n1 + j) by ring. destruct (divmod_at v n1 Hr (a + i) j Hj) as [-> ->]. reflexivity.
      - rewrite B by nia. rewrite <- (reg_elem v n0 n1 W D Hr). apply readable_elem; [assumption|]. rewrite D. now apply in_range_2. }
    split; [|split].
    + intros ix Hix. rewrite D in Hix. apply in_range_2_inv in Hix as (i & j & -> & Hi & Hj). rewrite Q by assumption. congruence.
    + apply (reg_out v n0 n1 W D Hr m m' 0 (c * n1)); [lia|nia|]. intros b x Hn. apply B. intros [H1 H2]. apply Hn. split; [assumption|lia].
    + intros i j Hi Hj. unfold elem0 at 1. now rewrite Q.
Qed.
Lemma copy_rows_dev (m : memR) a c order : (forall u w, f u [w] = w) -> readable m v -> 0 <= c <= a -> a + c <= n0 -> Permutation order (axpy (c * n1) (arr v) 1 (shift (arr v) (a * n1)) 1) ->
  exists m', cu_exec f [order] m = Ok m' /\ readable m' v /\ untouched m m' v /\
    forall i j, 0 <= i < n0 -> 0 <= j < n1 -> el m' v [i; j] = if (a <=? i) && (i <? a + c) then el m v [i - a; j] else el m v [i; j].
Proof.
  intros Ef Rv Hc Hac P. pose proof (pos2 v n0 n1 W D) as [P0 P1].
  destruct (flat_dev f (fun _ w => w) (c * n1) (vblk v) (voff v) (vblk v) (voff v + a * n1) m (fun t => el m v [t / n1; t mod n1]) (fun t => el m v [(a * n1 + t) / n1; (a * n1 + t) mod n1]) order Ef) as (m' & E & A & B).
  - intros t Ht. apply (reg_cell v n0 n1 W D Hr); [assumption|nia].
  - intros t Ht. rewrite <- (reg_cell v n0 n1 W D Hr); [f_equal; lia|assumption|nia].
  - intros _. right. left. nia.
  - exact P.
  - exists m'. split; [exact E|].
    assert (Q : forall i j, 0 <= i < n0 -> 0 <= j < n1 -> elem m' v [i; j] = Some (if (a <=? i) && (i <? a + c) then el m v [i - a; j] else el m v [i; j])).
    { intros i j Hi Hj. rewrite (reg_elem v n0 n1 W D Hr). destruct ((a <=? i) && (i <? a + c)) eqn:Ei.
      - apply andb_true_iff in Ei as [E1 E2]. replace (voff v + (i * n1 + j)) with (voff v + a * n1 + ((i - a) * n1 + j)) by ring. rewrite A by nia. destruct (divmod_at v n1 Hr (i - a) j Hj) as [-> ->]. reflexivity.
      - rewrite B by nia. rewrite <- (reg_elem v n0 n1 W D Hr). apply readable_elem; [assumption|]. rewrite D. now apply in_range_2. }
    split; [|split].
    + intros ix Hix. rewrite D in Hix. apply in_range_2_inv in Hix as (i & j & -> & Hi & Hj). rewrite Q by assumption. congruence.
    + apply (reg_out v n0 n1 W D Hr m m' (a * n1) (a * n1 + c * n1)); [nia|nia|]. intros b x Hn. apply B. intros [H1 H2]. apply Hn. split; [assumption|lia].
    + intros i j Hi Hj. unfold elem0 at 1. now rewrite Q.
Qed.
Lemma order_cons (l : list (addr * list addr)) plan orders : any_order (l :: plan) orders -> exists o os, orders = o :: os /\ Permutation o l /\ any_order plan os.
Proof. intro H. inversion H; subst. eexists. eexists. split; [reflexivity|]. split; assumption. Qed.
Lemma order_nil orders : @any_order (addr * list addr) [] orders -> orders = [].
Proof. intro H. now inversion H. Qed.
Lemma halve_dev p : (forall u w, f u [w] = cadd u w) -> forall k orders (m : memR), (p <= k)%nat -> 2 ^ Z.of_nat p <= n0 -> readable m v -> any_order (cu_halve k (2 ^ Z.of_nat p / 2) v) orders ->
  exists m', cu_exec f orders m = Ok m' /\ readable m' v /\ untouched m m' v /\ forall j, 0 <= j < n1 -> el m' v [0; j] = colsum v m (2 ^ Z.of_nat p) j.
Proof.
  intro Ef. induction p as [|p IH]; intros k orders m Hk Hp Rv O.
  - assert (orders = []) as -> by (destruct k; now apply order_nil). exists m. split; [reflexivity|]. split; [assumption|]. split; [intros b a _; reflexivity|]. intros j Hj. unfold colsum. change (zrange (2 ^ Z.of_nat 0)) with [0]. cbn [map]. rewrite rsum_cons, rsum_nil. ring.
  - destruct k as [|k]; [lia|]. rewrite Nat2Z.inj_succ, Z.pow_succ_r in * by lia. set (a := 2 ^ Z.of_nat p) in *. assert (0 < a) by (apply Z.pow_pos_nonneg; lia).
    replace (2 * a / 2) with a in O by (rewrite Z.mul_comm, Z.div_mul; lia). cbn [cu_halve] in O. replace (0 <? a) with true in O by lia. apply order_cons in O as (o & os & -> & Po & O).
    destruct (reg_s v n0 n1 D Hr) as [Es _]. rewrite Es in Po.
    destruct (add_rows_dev m a a o Ef Rv) as (m1 & E1 & R1 & U1 & H1); try lia; [exact Po|]. rewrite exec_cons, E1. cbn [bind].
    destruct (IH k os m1) as (m' & E2 & R2 & U2 & H2); [lia|fold a; lia|assumption|exact O|]. fold a in E2, H2. exists m'. split; [exact E2|]. split; [assumption|]. split; [eapply untouched_trans; eassumption|].
    intros j Hj. rewrite H2 by assumption. rewrite (colsum_step v n0 n1 Hr m m1 a a j) by (try assumption; lia). f_equal. lia.
Qed.
Lemma reduce_dev orders (m : memR) : (forall u w, f u [w] = cadd u w) -> readable m v -> 2 <= n0 -> any_order (cu_reduce0 v) orders ->
  exists m', cu_exec f orders m = Ok m' /\ readable m' v /\ untouched m m' v /\ forall j, 0 <= j < n1 -> el m' v [0; j] = colsum v m n0 j.
Proof.
  intros Ef Rv H2 O. unfold cu_reduce0 in O. rewrite Hr, !(nd_eq v _ _ D) in O. cbn [nth] in O. destruct (grow_half n0 H2) as (p & Eg & Hp). rewrite Eg in O. set (a := 2 ^ Z.of_nat p) in *.
  destruct (reg_s v n0 n1 D Hr) as [Es _]. rewrite Es in O. cbv zeta in O. apply order_cons in O as (o & os & -> & Po & O).
  destruct (add_rows_dev m a (n0 - a) o Ef Rv) as (m1 & E1 & R1 & U1 & H1); try lia; [exact Po|]. rewrite exec_cons, E1. cbn [bind].
  destruct (halve_dev p Ef (Z.to_nat a) os m1) as (m' & E3 & R3 & U3 & H3); [|fold a; lia|assumption|exact O|].
  { pose proof (pow_ge (Z.of_nat p)). fold a in H. lia. }
  fold a in E3, H3. exists m'. split; [exact E3|]. split; [assumption|]. split; [eapply untouched_trans; eassumption|].
  intros j Hj. rewrite H3 by assumption. rewrite (colsum_step v n0 n1 Hr m m1 a (n0 - a) j) by (try assumption; lia). f_equal. lia.
Qed.
Lemma reduce_one_dev orders (m : memR) : (forall u w, f u [w] = cadd u w) -> readable m v -> n0 = 1 -> any_order (cu_reduce0 v) orders ->
  exists m', cu_exec f orders m = Ok m' /\ untouched m m' v /\ forall j, 0 <= j < n1 -> elem m' v [0; j] = Some (cadd (el m v [0; j]) (el m v [0; j])).
Proof.
  intros Ef Rv H2 O. unfold cu_reduce0 in O. rewrite Hr, !(nd_eq v _ _ D) in O. cbn [nth] in O. rewrite H2 in O. rewrite grow_small in O by lia. cbv zeta in O. destruct (reg_s v n0 n1 D Hr) as [Es _]. rewrite Es in O. apply order_cons in O as (o & os & -> & Po & O). apply order_nil in O as ->.
  destruct (add_rows_dev m 0 1 o Ef Rv) as (m1 & E1 & R1 & U1 & H1); try lia; [exact Po|].
  exists m1. split; [exact E1|]. split; [assumption|].
  intros j Hj. rewrite (readable_elem m1 v [0; j] R1) by (rewrite D; apply in_range_2; lia). rewrite H1 by lia. reflexivity.
Qed.
Lemma spread_dev k : (forall u w, f u [w] = w) -> forall a orders (m : memR), 1 <= a <= n0 -> n0 - a <= Z.of_nat k -> readable m v -> any_order (cu_spread k a v) orders ->
  exists m', cu_exec f orders m = Ok m' /\ readable m' v /\ untouched m m' v /\
    forall i j, 0 <= i < n0 -> 0 <= j < n1 -> exists t, 0 <= t < a /\ (i < a -> t = i) /\ el m' v [i; j] = el m v [t; j].
Proof.
  intro Ef. induction k as [|k IH]; intros a orders m Ha Hk Rv O.
  - cbn [cu_spread] in O. rewrite !(nd_eq v _ _ D) in O. cbn [nth] in O. replace (a <? n0) with false in O by lia. apply order_nil in O as ->. exists m. split; [reflexivity|]. split; [assumption|]. split; [intros b c _; reflexivity|].
    intros i j Hi Hj. exists i. split; [lia|]. split; [auto|reflexivity].
  - cbn [cu_spread] in O. rewrite !(nd_eq v _ _ D) in O. cbn [nth] in O. destruct (a <=? n0 / 2) eqn:E.
    + assert (2 * a <= n0) by (pose proof (Z.mul_div_le n0 2); lia). apply order_cons in O as (o & os & -> & Po & O).
      destruct (copy_rows_dev m a a o Ef Rv) as (m1 & E1 & R1 & U1 & H1); try lia; [exact Po|]. rewrite exec_cons, E1. cbn [bind].
      destruct (IH (a * 2) os m1) as (m' & E2 & R2 & U2 & H2); try lia; [assumption|exact O|]. exists m'. split; [exact E2|]. split; [assumption|]. split; [eapply untouched_trans; eassumption|].
      intros i j Hi Hj. destruct (H2 i j Hi Hj) as (t & Ht & Hti & ->). rewrite H1 by lia. destruct ((a <=? t) && (t <? a + a)) eqn:Et.
      * exists (t - a). split; [lia|]. split; [intro; exfalso; specialize (Hti ltac:(lia)); lia|reflexivity].
      * exists t. split; [lia|]. split; [intro; apply Hti; lia|reflexivity].
    + destruct (a <? n0) eqn:E2.
      * assert (n0 - a <= a) by (pose proof (Z.div_mod n0 2); pose proof (Z.mod_pos_bound n0 2); lia). apply order_cons in O as (o & os & -> & Po & O). apply order_nil in O as ->.
        destruct (copy_rows_dev m a (n0 - a) o Ef Rv) as (m1 & E1 & R1 & U1 & H1); try lia; [exact Po|]. exists m1. split; [exact E1|]. split; [assumption|]. split; [assumption|].
        intros i j Hi Hj. rewrite H1 by assumption. destruct ((a <=? i) && (i <? a + (n0 - a))) eqn:Et; [exists (i - a)|exists i]; (split; [lia|]); (split; [lia|reflexivity]).
      * apply order_nil in O as ->. exists m. split; [reflexivity|]. split; [assumption|]. split; [intros b c _; reflexivity|]. intros i j Hi Hj. exists i. split; [lia|]. split; [auto|reflexivity].
Qed.
Lemma broadcast_dev (x : view) (m : memR) : (forall u w, f u [w] = w) -> readable m v -> vwf x -> vdims x = [n1] -> reg1 x = true -> readable m x -> disjoint_views v x -> 1 <= n0 ->
  exists plan, cu_broadcast v x = Ok plan /\ forall orders, any_order plan orders -> exists m', cu_exec f orders m = Ok m' /\ becomes v (fun ix => el m x [nth 1 ix 0]) m m'.
Proof.
  intros Ef Rv Wx Dx Ex Rx B H1. pose proof (pos2 v n0 n1 W D) as [P0 P1]. unfold cu_broadcast. rewrite !(nd_eq v _ _ D), !(nd_eq x _ _ Dx). cbn [nth]. rewrite Z.eqb_refl, Hr, Ex. cbn [assrt andb]. eexists. split; [reflexivity|]. intros orders O. apply order_cons in O as (o & os & -> & Po & O).
  assert (Cx : forall j, elem m x [j] = m (vblk x) (voff x + j)).
  { intro j. unfold elem. rewrite (vaddr1 x j n1 Wx Dx). unfold reg1 in Ex. f_equal. apply Z.eqb_eq in Ex. rewrite Ex. lia. }
  assert (Vx : forall j, vaddr x [j] = Ok (vblk x, voff x + j)).
  { intro j. rewrite (vaddr1 x j n1 Wx Dx). unfold reg1 in Ex. apply Z.eqb_eq in Ex. rewrite Ex. do 2 f_equal. lia. }
  destruct (flat_dev f (fun _ w => w) n1 (vblk x) (voff x) (vblk v) (voff v) m (fun j => el m x [j]) (fun t => el m v [t / n1; t mod n1]) o Ef) as (m1 & E1 & A & Bo).
  - intros j Hj. rewrite <- Cx. apply readable_elem; [assumption|]. rewrite Dx. repeat constructor; lia.
  - intros j Hj. apply (reg_cell v n0 n1 W D Hr); [assumption|nia].
  - intro Eb. destruct (Z_le_gt_dec n1 0); [lia|]. destruct (Z_le_gt_dec (voff v + n1) (voff x)); [now left|]. destruct (Z_le_gt_dec (voff x + n1) (voff v)); [right; now left|]. exfalso.
    destruct (Z_le_gt_dec (voff x) (voff v)).
    + apply (B [0; 0] [voff v - voff x]); [rewrite D; apply in_range_2; lia|rewrite Dx; repeat constructor; lia|]. rewrite (reg_vaddr v n0 n1 W D Hr), Vx, Eb. do 2 f_equal. lia.
    + apply (B [0; voff x - voff v] [0]); [rewrite D; apply in_range_2; lia|rewrite Dx; repeat constructor; lia|]. rewrite (reg_vaddr v n0 n1 W D Hr), Vx, Eb. do 2 f_equal. lia.
  - exact Po.
  - rewrite exec_cons, E1. cbn [bind].
    assert (U1 : untouched m m1 v). { apply (reg_out v n0 n1 W D Hr m m1 0 n1); [lia|nia|]. intros b a Hn. apply Bo. intros [H2 H3]. apply Hn. split; [assumption|lia]. }
    assert (R1 : readable m1 v).
    { intros ix Hix. rewrite D in Hix. apply in_range_2_inv in Hix as (i & j & -> & Hi & Hj). rewrite (reg_elem v n0 n1 W D Hr). destruct (Z.eq_dec i 0) as [->|Ni].
      - replace (0 * n1 + j) with j by ring. rewrite A by assumption. congruence.
      - rewrite Bo by nia. rewrite <- (reg_elem v n0 n1 W D Hr). apply Rv. rewrite D. now apply in_range_2. }
    destruct (spread_dev (Z.to_nat n0) Ef 1 os m1) as (m' & E2 & R2 & U2 & H2); [lia|lia|assumption|exact O|]. exists m'. split; [exact E2|]. split; [|eapply untouched_trans; eassumption].
    intros ix Hix. rewrite D in Hix. apply in_range_2_inv in Hix as (i & j & -> & Hi & Hj). cbn [nth]. destruct (H2 i j Hi Hj) as (t & Ht & _ & E).
    rewrite (readable_elem m' v [i; j] R2) by (rewrite D; now apply in_range_2). rewrite E. replace t with 0 by lia. f_equal. unfold elem0 at 1. rewrite (reg_elem v n0 n1 W D Hr).
    replace (0 * n1 + j) with j by ring. now rewrite A.
Qed.
End Rows.

(* ---- the middle axis of a 3-tensor ---- *)
Lemma perm_flat {A B} (F G : A -> list B) L : Permutation (flat_map F L ++ flat_map G L) (flat_map (fun i => F i ++ G i) L).
Proof.
  induction L as [|a L IH]; cbn [flat_map]; [constructor|]. rewrite <- !app_assoc. apply Permutation_app_head. rewrite <- IH, !app_assoc. apply Permutation_app_tail. apply Permutation_app_comm.
Qed.
Lemma batched_perm k o o' nb n sb s : 0 < nb <= 2147483647 -> 0 <= n <= 67107840 ->
  Permutation (concat (batched_add (k, o) (k, o') nb sb n s)) (entries (View k o [nb; n] [sb; s]) [View k o' [nb; n] [sb; s]]).
Proof.
  intros Hb Hn. pose proof (Z_div_mod_eq_full n 1024) as Q. pose proof (Z.mod_pos_bound n 1024 ltac:(lia)) as Q2.
  set (E := fun i t => ((k, o + (sb * i + s * t)), [(k, o' + (sb * i + s * t))]) : addr * list addr).
  assert (EE : entries (View k o [nb; n] [sb; s]) [View k o' [nb; n] [sb; s]] = flat_map (fun i => map (fun t => E i t) (zrange n)) (zrange nb)).
  { unfold entries. cbn [vdims]. rewrite (all2 E nb n). apply map_ext_in. intros ix I. apply in_all_indices in I. rng. unfold E, cell. cbn [map vblk voff vstr nth dot]. f_equal; [f_equal; lia|f_equal; f_equal; lia]. }
  rewrite EE. clear EE. unfold batched_add. destruct (n <=? 1024) eqn:En.
  - cbn [concat]. rewrite app_nil_r. unfold rt_launch. destruct (Z.eq_dec n 0) as [->|Nz].
    + replace (cu_ok (nb, 1, 1) (0, 1, 1)) with false by (unfold cu_ok; symmetry; lia). rewrite (zrange_nil 0) by lia. cbn [map concat]. clear. induction (zrange nb); [constructor|assumption].
    + rewrite ok_true by lia. rewrite <- (map_map k_bt (fun c => (shift (k, o) (dot [sb; s] c), [shift (k, o') (dot [sb; s] c)]))), th_bt, (all2 E nb n). erewrite map_ext_in; [reflexivity|].
      intros ix I. apply in_all_indices in I. rng. unfold E, shift. cbn [nth dot fst snd]. f_equal; [f_equal; lia|f_equal; f_equal; lia].
  - set (q := n / 1024) in *. set (r := n mod 1024) in *.
    assert (A1 : rt_launch (nb, q, 1) (1024, 1, 1) k_bbt (k, o) [sb; s * 1024; s] (k, o') [sb; s * 1024; s] = flat_map (fun i => map (E i) (zrange (1024 * q))) (zrange nb)).
    { unfold rt_launch. rewrite ok_true by lia. rewrite <- (map_map k_bbt (fun c => (shift (k, o) (dot [sb; s * 1024; s] c), [shift (k, o') (dot [sb; s * 1024; s] c)]))), th_bbt.
      replace (1024 * q) with (q * 1024) by lia. erewrite flat_map_ext; [|intro i; rewrite zrange_mul by lia; rewrite map_flat_map; erewrite flat_map_ext; [reflexivity|intro j; rewrite map_map; reflexivity]].
      rewrite (all3 (fun i j t => E i (j * 1024 + t)) nb q 1024). apply map_ext_in. intros ix I. apply in_all_indices in I. rng. unfold E, shift. cbn [nth dot fst snd]. f_equal; [f_equal; lia|f_equal; f_equal; lia]. }
    rewrite A1. clear A1.
    replace (zrange n) with (zrange (1024 * q) ++ map (Z.add (1024 * q)) (zrange r)) by (rewrite <- zrange_app by lia; f_equal; lia).
    erewrite (flat_map_ext (fun i => map (E i) (zrange (1024 * q) ++ map (Z.add (1024 * q)) (zrange r)))); [|intro i; rewrite map_app, map_map; reflexivity]. rewrite <- perm_flat. cbn [concat]. apply Permutation_app_head.
    destruct (0 <? r) eqn:Er; cbn [concat].
    + rewrite app_nil_r. unfold rt_launch. rewrite ok_true by lia. rewrite <- (map_map k_bt (fun c => (shift (shift (k, o) ((n - r) * s)) (dot [sb; s] c), [shift (shift (k, o') ((n - r) * s)) (dot [sb; s] c)]))), th_bt, (all2 (fun i t => E i (1024 * q + t)) nb r). erewrite map_ext_in; [reflexivity|].
      intros ix I. apply in_all_indices in I. rng. unfold E, shift. cbn [nth dot fst snd]. replace (n - r) with (1024 * q) by lia. f_equal; [f_equal; lia|f_equal; f_equal; lia].
    + rewrite (zrange_nil r) by lia. cbn [map]. assert (Z0 : flat_map (fun _ : Z => @nil (addr * list addr)) (zrange nb) = []) by (induction (zrange nb); auto). now rewrite Z0.
Qed.
Lemma exec_app {V} (f : V -> list V -> V) o1 o2 m : cu_exec f (o1 ++ o2) m = do m1 <- cu_exec f o1 m; cu_exec f o2 m1.
Proof. rewrite !exec_run, concat_app. unfold run. rewrite foldM_app. destruct (foldM _ (concat o1) m) as [m1| |]; cbn [bind]; [|reflexivity|reflexivity]. now rewrite exec_run. Qed.
Lemma order_app {A} (p1 p2 orders : list (list A)) : any_order (p1 ++ p2) orders -> exists o1 o2, orders = o1 ++ o2 /\ any_order p1 o1 /\ any_order p2 o2.
Proof. intro H. apply Forall2_app_inv_r in H as (o1 & o2 & H1 & H2 & ->). eauto. Qed.

Section Middle.
Context {R : cring}.
Add Ring RrCuM : (cth R).
Notation memR := (mem (car R)).
Variables (b o n0 n1 n2 : Z).
Hypotheses (P0 : 0 < n0 <= 2147483647) (P1 : 1 <= n1) (P2 : 0 <= n2) (Hf : n1 * n2 <= 67107840).
Notation v := (View b o [n0; n1; n2] [n1 * n2; n2; 1]).
Variable f : R -> list R -> R.
Notation el := (elem0 (R := R)).

Lemma v_elem (m : memR) i j k : elem m v [i; j; k] = m b (o + (n1 * n2 * i + (n2 * j + k))).
Proof. unfold elem, vaddr, offs. cbn [vstr vblk voff]. cbn -[Z.mul Z.add]. f_equal; lia. Qed.
Lemma v_addr i j k : vaddr v [i; j; k] = Ok (b, o + (n1 * n2 * i + (n2 * j + k))).
Proof. unfold vaddr, offs. cbn [vstr vblk voff]. cbn -[Z.mul Z.add]. do 2 f_equal; lia. Qed.
Notation blk d n := (View b (o + d) [n0; n] [n1 * n2; 1]).
Lemma blk_addr d n i t : vaddr (blk d n) [i; t] = Ok (b, o + d + (n1 * n2 * i + t)).
Proof. unfold vaddr, offs. cbn [vstr vblk voff]. cbn -[Z.mul Z.add]. do 2 f_equal; lia. Qed.
Lemma blk_elem (m : memR) d n i t : elem m (blk d n) [i; t] = m b (o + d + (n1 * n2 * i + t)).
Proof. unfold elem. now rewrite blk_addr. Qed.
Lemma row_split i t i' t' : 0 <= t < n1 * n2 -> 0 <= t' < n1 * n2 -> n1 * n2 * i + t = n1 * n2 * i' + t' -> i = i' /\ t = t'.
Proof. intros H H' E. assert (i = i') by nia. subst. lia. Qed.
Lemma blk_read (m : memR) d n : readable m v -> 0 <= d -> d + n <= n1 * n2 -> readable m (blk d n).
Proof.
  intros Rv Hd Hn ix I. apply in_range_2_inv in I as (i & t & -> & Hi & Ht). rewrite blk_elem. assert (0 < n2) by nia.
  pose proof (Z_div_mod_eq_full (d + t) n2) as Q. pose proof (Z.mod_pos_bound (d + t) n2 ltac:(lia)) as Q2.
  specialize (Rv [i; (d + t) / n2; (d + t) mod n2]). rewrite v_elem in Rv. replace (o + d + (n1 * n2 * i + t)) with (o + (n1 * n2 * i + (n2 * ((d + t) / n2) + (d + t) mod n2))) by lia. apply Rv. apply in_range_3; try lia.
  split; [apply Z.div_pos; lia|]. apply Z.div_lt_upper_bound; lia.
Qed.
Lemma add_mid_dev (m : memR) a c orders : (forall u w, f u [w] = cadd u w) -> readable m v -> 0 <= c <= a \/ a = 0 /\ 0 <= c -> a + c <= n1 ->
  any_order (batched_add (b, o) (shift (b, o) (a * n2)) n0 (n1 * n2) (c * n2) 1) orders ->
  exists m', cu_exec f orders m = Ok m' /\ readable m' v /\ untouched m m' v /\
    forall i j k, 0 <= i < n0 -> 0 <= j < n1 -> 0 <= k < n2 -> el m' v [i; j; k] = if j <? c then cadd (el m v [i; j; k]) (el m v [i; a + j; k]) else el m v [i; j; k].
Proof.
  intros Ef Rv Hc Hac O. unfold shift in O. cbn [fst snd] in O.
  assert (A1 : 0 <= a * n2) by nia. assert (A2 : a * n2 + c * n2 <= n1 * n2) by nia. assert (A3 : 0 <= c * n2) by nia.
  assert (Zp : zipable (blk 0 (c * n2)) (blk (a * n2) (c * n2)) m).
  { split; [split; [reflexivity|repeat constructor; lia]|]. split; [split; [reflexivity|repeat constructor; lia]|]. split; [reflexivity|]. split; [|split; [apply blk_read; [assumption|lia|lia]|split; [apply blk_read; [assumption|lia|lia]|]]].
    - intros ix jx I J E. apply in_range_2_inv in I as (i & t & -> & Hi & Ht). apply in_range_2_inv in J as (i' & t' & -> & Hi' & Ht'). rewrite !blk_addr in E. injection E as E. destruct (row_split i t i' t'); [lia|lia|lia|congruence].
    - intros ix jx I J E. apply in_range_2_inv in I as (i & t & -> & Hi & Ht). apply in_range_2_inv in J as (i' & t' & -> & Hi' & Ht'). rewrite !blk_addr in E. injection E as E. destruct (row_split i t i' (a * n2 + t')); [lia|lia|lia|]. destruct Hc as [Hc|[-> Hc]]; [nia|]. replace t' with t by lia. congruence. }
  destruct (zip_done f _ _ m (batched_add (b, o) (b, o + a * n2) n0 (n1 * n2) (c * n2) 1) orders Zp) as (m' & E & A & U); [|exact O|].
  { replace (o + 0) with o by lia. apply batched_perm; [exact P0|nia]. }
  exists m'. split; [exact E|].
  assert (Q : forall i j k, 0 <= i < n0 -> 0 <= j < n1 -> 0 <= k < n2 -> elem m' v [i; j; k] = Some (if j <? c then cadd (el m v [i; j; k]) (el m v [i; a + j; k]) else el m v [i; j; k])).
  { intros i j k Hi Hj Hk. rewrite v_elem. destruct (j <? c) eqn:Ej.
    - destruct (A [i; n2 * j + k]) as (x & us & Ex & Eu & Ey); [apply in_range_2; [lia|nia]|]. inversion Eu as [|? w ? ? Ew Eu']; subst. inversion Eu'; subst. rewrite blk_elem in Ex, Ey, Ew. rewrite Ef in Ey.
      replace (o + (n1 * n2 * i + (n2 * j + k))) with (o + 0 + (n1 * n2 * i + (n2 * j + k))) by lia. rewrite Ey. f_equal. unfold elem0. rewrite !v_elem. replace (o + (n1 * n2 * i + (n2 * j + k))) with (o + 0 + (n1 * n2 * i + (n2 * j + k))) by lia. rewrite Ex.
      replace (o + (n1 * n2 * i + (n2 * (a + j) + k))) with (o + a * n2 + (n1 * n2 * i + (n2 * j + k))) by lia. now rewrite Ew.
    - rewrite U.
      + rewrite <- v_elem. apply readable_elem; [assumption|]. now apply in_range_3.
      + intros ix I X. apply in_range_2_inv in I as (i' & t' & -> & Hi' & Ht'). rewrite blk_addr in X. injection X as X. destruct (row_split i' t' i (n2 * j + k)); nia. }
  split; [|split].
  - intros ix I. apply in_range_3_inv in I as (i & j & k & -> & Hi & Hj & Hk). rewrite Q by assumption. discriminate.
  - intros b' x Hn. apply U. intros ix I X. apply in_range_2_inv in I as (i & t & -> & Hi & Ht). rewrite blk_addr in X. assert (0 < n2) by nia. pose proof (Z_div_mod_eq_full t n2) as Q1. pose proof (Z.mod_pos_bound t n2 ltac:(lia)) as Q2.
    apply (Hn [i; t / n2; t mod n2]).
    + apply in_range_3; try lia. split; [apply Z.div_pos; lia|]. apply Z.div_lt_upper_bound; nia.
    + rewrite v_addr, <- X. do 2 f_equal. lia.
  - intros i j k Hi Hj Hk. unfold elem0 at 1. now rewrite Q.
Qed.
Definition midsum (m : memR) a i k : R := rsum (map (fun j => el m v [i; j; k]) (zrange a)).
Lemma midsum_step (m m' : memR) a c i k : 0 <= c <= a -> a + c <= n1 -> 0 <= i < n0 -> 0 <= k < n2 ->
  (forall i j k, 0 <= i < n0 -> 0 <= j < n1 -> 0 <= k < n2 -> el m' v [i; j; k] = if j <? c then cadd (el m v [i; j; k]) (el m v [i; a + j; k]) else el m v [i; j; k]) ->
  midsum m' a i k = midsum m (a + c) i k.
Proof.
  intros Hc Hac Hi Hk H. unfold midsum. rewrite zrange_app, map_app, rsum_app, map_map by lia.
  replace a with (c + (a - c)) at 1 2 by ring. rewrite !zrange_app, !map_app, !rsum_app, !map_map by lia.
  rewrite (rsum_ext R (fun j => el m' v [i; j; k]) (fun j => cadd (el m v [i; j; k]) (el m v [i; a + j; k]))).
  2:{ intros j Hj. apply in_zrange in Hj. rewrite H by lia. now replace (j <? c) with true by lia. }
  rewrite (rsum_ext R (fun x => el m' v [i; c + x; k]) (fun x => el m v [i; c + x; k])).
  2:{ intros j Hj. apply in_zrange in Hj. rewrite H by lia. now replace (c + j <? c) with false by lia. }
  rewrite rsum_map_add. ring.
Qed.
Lemma halve3_dev p : (forall u w, f u [w] = cadd u w) -> forall q orders (m : memR), (p <= q)%nat -> 2 ^ Z.of_nat p <= n1 -> readable m v -> any_order (cu_halve3 q (2 ^ Z.of_nat p / 2) v) orders ->
  exists m', cu_exec f orders m = Ok m' /\ readable m' v /\ untouched m m' v /\ forall i k, 0 <= i < n0 -> 0 <= k < n2 -> el m' v [i; 0; k] = midsum m (2 ^ Z.of_nat p) i k.
Proof.
  intro Ef. induction p as [|p IH]; intros q orders m Hk Hp Rv O.
  - assert (orders = []) as -> by (destruct q; now apply order_nil). exists m. split; [reflexivity|]. split; [assumption|]. split; [intros ? ? _; reflexivity|]. intros i k Hi Hk'. unfold midsum. change (zrange (2 ^ Z.of_nat 0)) with [0]. cbn [map]. rewrite rsum_cons, rsum_nil. ring.
  - destruct q as [|q]; [lia|]. rewrite Nat2Z.inj_succ, Z.pow_succ_r in * by lia. set (a := 2 ^ Z.of_nat p) in *. assert (0 < a) by (apply Z.pow_pos_nonneg; lia).
    replace (2 * a / 2) with a in O by (rewrite Z.mul_comm, Z.div_mul; lia). cbn [cu_halve3] in O. replace (0 <? a) with true in O by lia. apply order_app in O as (o1 & os & -> & Po & O).
    destruct (add_mid_dev m a a o1 Ef Rv) as (m1 & E1 & R1 & U1 & H1); try lia; [exact Po|]. rewrite exec_app, E1. cbn [bind].
    destruct (IH q os m1) as (m' & E2 & R2 & U2 & H2); [lia|fold a; lia|assumption|exact O|]. fold a in E2, H2. exists m'. split; [exact E2|]. split; [assumption|]. split; [eapply untouched_trans; eassumption|].
    intros i k Hi Hk'. rewrite H2 by assumption. rewrite (midsum_step m m1 a a i k) by (try assumption; lia). f_equal. lia.
Qed.
Lemma reg3_v : reg3 v = true.
Proof. unfold reg3, nd, sd. cbn [vdims vstr nth]. now rewrite !Z.eqb_refl. Qed.
Lemma reduce3_dev orders (m : memR) : (forall u w, f u [w] = cadd u w) -> readable m v -> 2 <= n1 -> any_order (cu_reduce3 v) orders ->
  exists m', cu_exec f orders m = Ok m' /\ untouched m m' v /\ forall i k, 0 <= i < n0 -> 0 <= k < n2 -> elem m' v [i; 0; k] = Some (rsum (map (fun j => el m v [i; j; k]) (zrange n1))).
Proof.
  intros Ef Rv H2 O. unfold cu_reduce3 in O. rewrite reg3_v in O. change (nd v 1) with n1 in O. destruct (grow_half n1 H2) as (p & Eg & Hp). rewrite Eg in O. set (a := 2 ^ Z.of_nat p) in *.
  cbv zeta in O. apply order_app in O as (o1 & os & -> & Po & O).
  destruct (add_mid_dev m a (n1 - a) o1 Ef Rv) as (m1 & E1 & R1 & U1 & H1); try lia; [exact Po|]. rewrite exec_app, E1. cbn [bind].
  destruct (halve3_dev p Ef (Z.to_nat a) os m1) as (m' & E3 & R3 & U3 & H3); [|fold a; lia|assumption|exact O|].
  { pose proof (pow_ge (Z.of_nat p)). fold a in H. lia. }
  fold a in E3, H3. exists m'. split; [exact E3|]. split; [eapply untouched_trans; eassumption|].
  intros i k Hi Hk. rewrite (readable_elem m' v [i; 0; k] R3) by (apply in_range_3; lia). f_equal. rewrite H3 by assumption. rewrite (midsum_step m m1 a (n1 - a) i k) by (try assumption; lia). unfold midsum. do 3 f_equal. lia.
Qed.
Lemma reduce3_one_dev orders (m : memR) : (forall u w, f u [w] = cadd u w) -> readable m v -> n1 = 1 -> any_order (cu_reduce3 v) orders ->
  exists m', cu_exec f orders m = Ok m' /\ untouched m m' v /\ forall i k, 0 <= i < n0 -> 0 <= k < n2 -> elem m' v [i; 0; k] = Some (cadd (el m v [i; 0; k]) (el m v [i; 0; k])).
Proof.
  intros Ef Rv H2 O. unfold cu_reduce3 in O. rewrite reg3_v in O. change (nd v 1) with n1 in O. rewrite grow_small in O by lia. cbv zeta in O. change (1 / 2) with 0 in O. apply order_app in O as (o1 & os & -> & Po & O). apply order_nil in O as ->. rewrite app_nil_r.
  destruct (add_mid_dev m 0 1 o1 Ef Rv) as (m1 & E1 & R1 & U1 & H1); try lia; [replace (1 * n2) with ((n1 - 0) * n2) by nia; exact Po|].
  exists m1. split; [exact E1|]. split; [assumption|].
  intros i k Hi Hk. rewrite (readable_elem m1 v [i; 0; k] R1) by (apply in_range_3; lia). rewrite H1 by lia. reflexivity.
Qed.
End Middle.

(* ---- columns scaled by a vector ---- *)
Lemma dgmm_dev {R : cring} b o n nc by_ oy (m : mem (car R)) (r := View b o [n; nc] [nc; 1]) (y := View by_ oy [nc] [1]) plan orders : 0 <= n -> 0 <= nc ->
  readable m r -> readable m y -> disjoint_views r y -> plan = [dgmm nc n (arr y) (arr r)] -> any_order plan orders ->
  exists m', cu_exec f_dgmm orders m = Ok m' /\ becomes r (fun ix => cmul (elem0 m y [nth 1 ix 0]) (elem0 m r ix)) m m'.
Proof.
  intros P Q Rr Ry Dj -> O. pose (Y := View by_ oy [n; nc] [0; 1]).
  assert (Ya : forall i j, vaddr Y [i; j] = vaddr y [j]) by (intros; unfold vaddr, offs; cbn [vstr vblk voff Y y]; cbn -[Z.mul Z.add]; do 2 f_equal; lia).
  assert (Ra : forall i j, vaddr r [i; j] = Ok (b, o + (nc * i + j))) by (intros; unfold vaddr, offs; cbn [vstr vblk voff r]; cbn -[Z.mul Z.add]; do 2 f_equal; lia).
  assert (Zp : zipable r Y m).
  { split; [split; [reflexivity|repeat constructor; lia]|]. split; [split; [reflexivity|repeat constructor; lia]|]. split; [reflexivity|]. split; [|split; [assumption|split]].
    - intros ix jx I J E. apply in_range_2_inv in I as (i & t & -> & Hi & Ht). apply in_range_2_inv in J as (i' & t' & -> & Hi' & Ht'). rewrite !Ra in E. injection E as E. assert (i = i') by nia. subst. f_equal. f_equal. lia.
    - intros ix I. apply in_range_2_inv in I as (i & j & -> & Hi & Hj). unfold elem. rewrite Ya. apply (Ry [j]). repeat constructor; lia.
    - intros ix jx I J E. exfalso. apply in_range_2_inv in J as (i & j & -> & Hi & Hj). rewrite Ya in E. apply (Dj ix [j] I); [repeat constructor; lia|exact E]. }
  destruct (zip_done f_dgmm r Y m [dgmm nc n (arr y) (arr r)] orders Zp) with (2 := O) as (m' & E & A & U).
  { cbn [concat]. rewrite app_nil_r. unfold dgmm, entries. rewrite <- flat_map_concat_map. cbn [vdims r]. rewrite (all2 (fun i j => (shift (arr r) (j + i * nc), [shift (arr y) j])) n nc). erewrite map_ext_in; [reflexivity|].
    intros ix I. apply in_all_indices in I. rng. unfold cell, shift, arr. cbn [map vblk voff vstr Y r y nth dot fst snd]. f_equal; [f_equal; lia|f_equal; f_equal; lia]. }
  exists m'. split; [exact E|]. split; [|exact U]. intros ix I. destruct (A ix I) as (x & us & Ex & Eu & Ey). inversion Eu as [|? w ? ? Ew Eu']; subst. inversion Eu'; subst. rewrite Ey. cbn [f_dgmm]. unfold elem0. rewrite Ex.
  apply in_range_2_inv in I as (i & j & -> & Hi & Hj). cbn [nth]. unfold elem in Ew. rewrite Ya in Ew. unfold elem at 1. now rewrite Ew.
Qed.

(* ---- along the second axis; into a vector ---- *)
Lemma transp_elem {V} (m : mem V) v i j : length (vdims v) = 2%nat -> length (vstr v) = 2%nat -> elem m (rv2_transp v) [j; i] = elem m v [i; j].
Proof.
  unfold rv2_transp, nd, sd. destruct v as [b o d s]. cbn [vdims vstr vblk voff]. destruct d as [|n0 [|n1 [|]]]; try discriminate. destruct s as [|s0 [|s1 [|]]]; try discriminate. intros _ _. unfold elem, vaddr, offs. cbn [vstr vblk voff nth]. cbn -[Z.mul Z.add]. f_equal. lia.
Qed.
Lemma reduce1_dev {R : cring} b o n0 n1 f (m : mem (car R)) (v := View b o [n0; n1] [1; n0]) orders : (forall u w, f u [w] = cadd u w) -> 0 <= n0 -> 2 <= n1 -> readable m v -> any_order (cu_reduce1d v) orders ->
  exists m', cu_exec f orders m = Ok m' /\ untouched m m' v /\ forall i, 0 <= i < n0 -> elem m' v [i; 0] = Some (rsum (map (fun j => elem0 m v [i; j]) (zrange n1))).
Proof.
  intros Ef P0 P1 Rv O. pose (w := rv2_transp v). assert (T : forall (m : mem (car R)) i j, elem m w [j; i] = elem m v [i; j]) by (intros; now apply transp_elem).
  assert (Ta : forall i j, vaddr w [j; i] = vaddr v [i; j]) by (intros; unfold vaddr, offs; cbn [w v rv2_transp vstr vblk voff nd sd nth]; cbn -[Z.mul Z.add]; do 2 f_equal; lia).
  destruct (reduce_dev (R := R) w n1 n0) with (f := f) (orders := orders) (m := m) as (m' & E & Rw & U & H).
  - split; [reflexivity|repeat constructor; cbn; lia].
  - reflexivity.
  - unfold reg2, nd, sd, w, rv2_transp, nd, sd. cbn [vdims vstr nth v]. now rewrite !Z.eqb_refl.
  - exact Ef.
  - intros ix I. change (vdims w) with [n1; n0] in I. apply in_range_2_inv in I as (j & i & -> & Hj & Hi). rewrite T. apply Rv. now apply in_range_2.
  - exact P1.
  - exact O.
  - exists m'. split; [exact E|]. split.
    + intros b' a Hn. apply U. intros ix I. change (vdims w) with [n1; n0] in I. apply in_range_2_inv in I as (j & i & -> & Hj & Hi). rewrite Ta. apply Hn. now apply in_range_2.
    + intros i Hi. rewrite <- T. rewrite (readable_elem m' w [0; i] Rw) by (change (vdims w) with [n1; n0]; apply in_range_2; lia). rewrite H by assumption. unfold colsum. f_equal. apply rsum_ext. intros j Hj. unfold elem0. now rewrite T.
Qed.
Lemma reduce_into_dev {R : cring} v n0 n1 r rs (m : mem (car R)) : vwf v -> vdims v = [n0; n1] -> reg2 v = true -> 2 <= n0 -> operands r [v] m -> vdims r = [n1] -> vstr r = [rs] -> 0 <= rs ->
  exists plan, cu_reduce0_into v r = Ok plan /\ forall orders, any_order plan orders -> exists m', cu_exec (f_axpy c1) orders m = Ok m' /\ untouched2 m m' r v /\
    forall j x, 0 <= j < n1 -> elem m r [j] = Some x -> elem m' r [j] = Some (cadd x (rsum (map (fun i => elem0 m v [i; j]) (zrange n0)))).
Proof.
  intros W D Hr H2 O Dr Sr Hrs. assert (Wr : vwf r) by apply O. destruct (first_ops _ _ _ _ O) as [Rv Dj]. destruct O as (_ & Ds & Rd & _).
  assert (Sv : vstr v = [n1; 1]) by exact (reg2_inv v n0 n1 W D Hr). pose (x := rv2_slice0 v 0). assert (Dx : vdims x = [n1]) by (unfold x, rv2_slice0, nd; cbn [vdims]; now rewrite D). assert (Sx : vstr x = [1]) by (unfold x, rv2_slice0, sd; cbn [vstr]; now rewrite Sv).
  assert (Xa : forall j, vaddr x [j] = vaddr v [0; j]) by (intro j; unfold x, rv2_slice0, vaddr, offs, nd, sd; cbn [vdims vstr vblk voff]; rewrite Sv; cbn [nth]; cbn -[Z.mul Z.add]; do 2 f_equal; lia).
  assert (Nz : 0 <= n1) by (destruct W as [_ W]; rewrite D in W; inversion W as [|? ? _ W']; inversion W'; assumption).
  assert (Wx : vwf x) by (split; [rewrite Sx, Dx; reflexivity|rewrite Dx; repeat constructor; assumption]).
  assert (Pl : exists l, cu_add1 r x = Ok l) by (unfold cu_add1, nd; rewrite Dr, Dx; cbn [nth]; rewrite Z.eqb_refl; cbn [assrt]; destruct (_ && _); eauto). destruct Pl as [l El].
  exists (cu_reduce0 v ++ [l]). split; [unfold cu_reduce0_into; fold x; unfold nd; rewrite Dr, D; cbn [nth]; rewrite Z.eqb_refl; cbn [assrt]; now rewrite El|].
  intros orders Oo. apply order_app in Oo as (o1 & o2 & -> & O1 & O2). apply order_cons in O2 as (o & os & -> & Po & O2). apply order_nil in O2 as ->.
  destruct (reduce_dev v n0 n1 W D Hr (f_axpy c1) o1 m) as (m1 & E1 & R1 & U1 & H1); try assumption. { intros u w. cbn [f_axpy]. f_equal. apply (Rmul_1_l (cth R)). }
  rewrite exec_app, E1. cbn [bind].
  assert (Er : forall ix, in_range ix (vdims r) -> elem m1 r ix = elem m r ix) by (intros ix I; unfold elem; rewrite (vaddr_cell r ix) by (try apply Wr; assumption); apply U1; intros jx J X; apply (Dj ix jx I J); rewrite X; apply vaddr_cell; [apply Wr|assumption]).
  destruct (add1_device c1 r x m1 n1 rs 1) as (l' & El' & K); try assumption; [|lia|].
  { split; [exact Wr|]. split; [exact Ds|]. split; [intros ix I; rewrite Er by exact I; now apply Rd|]. constructor; [|constructor]. split; [exact Wx|]. split.
    - intros ix I. rewrite Dx in I. inversion I as [|j ? ? ? Hj I']; subst. inversion I'; subst. unfold elem. rewrite Xa. apply (R1 [0; j]). rewrite D. apply in_range_2; lia.
    - intros ix jx I J. rewrite Dx in J. inversion J as [|j ? ? ? Hj J']; subst. inversion J'; subst. rewrite Xa. apply Dj; [exact I|]. rewrite D. apply in_range_2; lia. }
  assert (l' = l) by congruence. subst l'. destruct (K o Po) as (m' & E2 & G & U2). exists m'. split; [exact E2|]. split.
  - intros b a A B. rewrite U2 by exact A. now apply U1.
  - intros j y Hj Ey. assert (I : in_range [j] (vdims r)) by (rewrite Dr; repeat constructor; lia). rewrite (G [j] y I) by (rewrite Er; assumption). do 2 f_equal. rewrite (Rmul_1_l (cth R)).
    transitivity (elem0 m1 v [0; j]); [unfold elem0, elem; now rewrite Xa|exact (H1 j Hj)].
Qed.

(* ---- a 3-tensor whose slices are regular ---- *)
Section Slices.
Context {R : cring}.
Variables (b o n0 n1 n2 s0 : Z).
Notation v := (View b o [n0; n1; n2] [s0; n2; 1]).
Hypotheses (P1 : 2 <= n1) (P2 : 0 <= n2) (Dc : distinct_cells v).
Variable f : R -> list R -> R.
Hypothesis Ef : forall u w, f u [w] = cadd u w.
Notation memR := (mem (car R)).
Notation el := (elem0 (R := R)).
Lemma sl_addr i j k : vaddr (rv3_slice0 v i) [j; k] = vaddr v [i; j; k].
Proof. unfold vaddr, offs, rv3_slice0, nd, sd. cbn [vstr vblk voff vdims nth]. cbn -[Z.mul Z.add]. do 2 f_equal; lia. Qed.
Lemma sl_elem (m : memR) i j k : elem m (rv3_slice0 v i) [j; k] = elem m v [i; j; k].
Proof. unfold elem. now rewrite sl_addr. Qed.
Lemma sl_el (m : memR) i j k : el m (rv3_slice0 v i) [j; k] = el m v [i; j; k].
Proof. unfold elem0. now rewrite sl_elem. Qed.
Lemma slices_dev L : NoDup L -> (forall i, In i L -> 0 <= i < n0) -> forall (m : memR) orders, readable m v -> any_order (concat (map (fun i => cu_reduce0 (rv3_slice0 v i)) L)) orders ->
  exists m', cu_exec f orders m = Ok m' /\ readable m' v /\ untouched m m' v /\
    (forall i k, In i L -> 0 <= k < n2 -> el m' v [i; 0; k] = rsum (map (fun j => el m v [i; j; k]) (zrange n1))) /\
    (forall i j k, ~ In i L -> 0 <= i < n0 -> 0 <= j < n1 -> 0 <= k < n2 -> elem m' v [i; j; k] = elem m v [i; j; k]).
Proof.
  induction L as [|a L IH]; intros ND HL m orders Rv O.
  - apply order_nil in O as ->. exists m. split; [reflexivity|]. split; [assumption|]. split; [intros ? ? _; reflexivity|]. split; [intros i k []|reflexivity].
  - inversion ND as [|? ? Na ND']; subst. cbn [map concat] in O. apply order_app in O as (o1 & o2 & -> & O1 & O2). assert (Ha : 0 <= a < n0) by (apply HL; now left).
    destruct (reduce_dev (R := R) (rv3_slice0 v a) n1 n2) with (f := f) (orders := o1) (m := m) as (m1 & E1 & R1 & U1 & H1); try assumption.
    + split; [reflexivity|repeat constructor; cbn; lia].
    + reflexivity.
    + unfold reg2, nd, sd, rv3_slice0, nd, sd. cbn [vdims vstr nth]. now rewrite !Z.eqb_refl.
    + intros ix I. change (vdims (rv3_slice0 v a)) with [n1; n2] in I. apply in_range_2_inv in I as (j & k & -> & Hj & Hk). rewrite sl_elem. apply Rv. now apply in_range_3.
    + assert (K : forall i j k, i <> a -> 0 <= i < n0 -> 0 <= j < n1 -> 0 <= k < n2 -> elem m1 v [i; j; k] = elem m v [i; j; k]).
      { intros i j k Ni Hi Hj Hk. apply (untouched_elem m m1 (rv3_slice0 v a) v); [assumption|now apply in_range_3|]. intros jx J. change (vdims (rv3_slice0 v a)) with [n1; n2] in J. apply in_range_2_inv in J as (j' & k' & -> & Hj' & Hk'). rewrite sl_addr. intro X. apply Dc in X; [congruence|now apply in_range_3|now apply in_range_3]. }
      assert (Rv1 : readable m1 v).
      { intros ix I. cbn [vdims] in I. apply in_range_3_inv in I as (i & j & k & -> & Hi & Hj & Hk). destruct (Z.eq_dec i a) as [->|Ni].
        - rewrite <- sl_elem. apply R1. change (vdims (rv3_slice0 v a)) with [n1; n2]. now apply in_range_2.
        - rewrite K by assumption. apply Rv. now apply in_range_3. }
      destruct (IH ND' (fun i I => HL i (or_intror I)) m1 o2 Rv1 O2) as (m' & E2 & R2 & U2 & S2 & K2). exists m'. rewrite exec_app, E1. cbn [bind]. split; [exact E2|]. split; [exact R2|]. split; [|split].
      * intros b' x Hn. rewrite U2 by exact Hn. apply U1. intros jx J. change (vdims (rv3_slice0 v a)) with [n1; n2] in J. apply in_range_2_inv in J as (j' & k' & -> & Hj' & Hk'). rewrite sl_addr. apply Hn. now apply in_range_3.
      * intros i k [<-|I] Hk.
        -- unfold elem0 at 1. rewrite K2 by (assumption || lia). fold (elem0 m1 v [a; 0; k]). rewrite <- sl_el, H1 by assumption. unfold colsum. apply rsum_ext. intros j _. apply sl_el.
        -- rewrite S2 by assumption. apply rsum_ext. intros j Hj. apply in_zrange in Hj. unfold elem0. rewrite K; [reflexivity|intros ->; contradiction|apply HL; now right|lia|lia].
      * intros i j k Ni Hi Hj Hk. rewrite K2 by (try assumption; intro X; apply Ni; now right). apply K; try assumption. intros ->. apply Ni. now left.
Qed.
Lemma reduce3_slices_dev (m : memR) orders : s0 <> n1 * n2 -> readable m v -> any_order (cu_reduce3 v) orders ->
  exists m', cu_exec f orders m = Ok m' /\ untouched m m' v /\ forall i k, 0 <= i < n0 -> 0 <= k < n2 -> elem m' v [i; 0; k] = Some (rsum (map (fun j => el m v [i; j; k]) (zrange n1))).
Proof.
  intros Hs Rv O. unfold cu_reduce3 in O. replace (reg3 v) with false in O by (unfold reg3, nd, sd; cbn [vdims vstr nth]; lia). change (nd v 0) with n0 in O.
  destruct (slices_dev (zrange n0) (zrange_nodup n0)) with (m := m) (orders := orders) as (m' & E & R' & U & S & _); [intros i I; now apply in_zrange in I|assumption|exact O|].
  exists m'. split; [exact E|]. split; [exact U|]. intros i k Hi Hk. rewrite (readable_elem m' v [i; 0; k] R') by (apply in_range_3; lia). f_equal. apply S; [now apply in_zrange|assumption].
Qed.
End Slices.
