From Verif Require Import Base BaseFacts Model_Index Model_View Model_Tensor Model_Cuda Model_CuReduce Spec_Index Spec_View Spec_Tensor Spec_Cuda
  Proofs_Index Proofs_Tensor Proofs_Cuda.
Local Open Scope Z_scope.

Definition count_fits (n : Z) : Prop := n <= 1024 \/ (n mod 1024 = 0 /\ n / 1024 <= 65535).
Definition part (b o n0 s0 n : Z) : view := View b o [n0; n] [s0; 1].

Lemma cell_part b o n0 s0 n i t : cell (part b o n0 s0 n) [i; t] = (b, o + (i * s0 + t)).
Proof. unfold cell, part. cbn [vblk voff vstr dot]. f_equal. lia. Qed.
Lemma vaddr_part b o n0 s0 n i t : vaddr (part b o n0 s0 n) [i; t] = Ok (b, o + (i * s0 + t)).
Proof. change (vaddr (part b o n0 s0 n) [i; t]) with (Ok (b, o + (s0 * i + (1 * t + 0)))). do 2 f_equal. lia. Qed.
Lemma elem_part {V} (m : mem V) b o n0 s0 n i t : elem m (part b o n0 s0 n) [i; t] = m b (o + (i * s0 + t)).
Proof. unfold elem. now rewrite vaddr_part. Qed.
Lemma entries_part b o o' n0 s0 n : entries (part b o n0 s0 n) [part b o' n0 s0 n] =
  map (fun ix => match ix with [i; t] => ((b, o + (i * s0 + t)), [(b, o' + (i * s0 + t))]) | _ => ((0, 0), []) end) (all_indices [n0; n]).
Proof.
  unfold entries. cbn [vdims part]. apply map_ext_in. intros ix I. apply in_all_indices in I. rng. rewrite !cell_part. cbn [map]. now rewrite cell_part.
Qed.

Lemma pair_eq (b a a' c c' : Z) : a = a' -> c = c' -> ((b, a), [(b, c)]) = ((b, a'), [(b, c')]).
Proof. now intros -> ->. Qed.
Lemma fold_entries b o n0 s0 n offs : 1 <= n0 <= 2147483647 -> 1 <= n -> count_fits n ->
  exists l, batched_fold b o n0 s0 n 1 offs = [l] /\ l = entries (part b o n0 s0 n) [part b (o + offs) n0 s0 n].
Proof.
  intros H0 Hn C. unfold batched_fold. destruct (n <=? 1024) eqn:E.
  - eexists. split; [reflexivity|]. unfold fold_kernel. rewrite ok_true by lia. rewrite entries_part. rewrite <- th_bt, map_map. apply map_ext. intro t. unfold k_bt. cbv zeta. apply pair_eq; lia.
  - destruct C as [C|[M Q]]; [lia|]. pose proof (Z_div_mod_eq_full n 1024) as D. rewrite M. cbn [Z.ltb Z.compare]. eexists. split; [reflexivity|]. unfold fold_kernel1. rewrite ok_true by lia. rewrite entries_part.
    replace (all_indices [n0; n]) with (all_indices [n0; 1024 * (n / 1024)]) by (do 3 f_equal; lia). rewrite <- split2 by lia. rewrite map_map. rewrite <- th_bbt, map_map. apply map_ext. intro t. unfold k_bbt. cbv zeta. apply pair_eq; lia.
Qed.

Section R.
Context {R : cring}.
Add Ring Rr : (cth R).
Notation memR := (mem (car R)).
Context (b o n0 s0 N : Z).
Notation W := (part b o n0 s0 N).
Context (D : distinct_cells W) (H0 : 1 <= n0 <= 2147483647) (HN : 0 <= N).
Lemma W_ok : vwf W. Proof. split; [reflexivity|repeat constructor; lia]. Qed.
Lemma apart i t j u : 0 <= i < n0 -> 0 <= t < N -> 0 <= j < n0 -> 0 <= u < N -> i * s0 + t = j * s0 + u -> i = j /\ t = u.
Proof.
  intros Hi Ht Hj Hu E. assert (X : [i; t] = [j; u]); [|injection X; auto]. apply D; [repeat constructor; lia|repeat constructor; lia|]. rewrite !vaddr_part. now rewrite E.
Qed.
Lemma fold_step (m : memR) n off : 1 <= n <= off -> off + n <= N -> count_fits n -> readable m W ->
  forall orders, any_order (batched_fold b o n0 s0 n 1 off) orders -> exists m', cu_exec f_add1 orders m = Ok m' /\ readable m' W /\ untouched m m' W /\
    forall i t, 0 <= i < n0 -> 0 <= t < N -> elem0 m' W [i; t] = if t <? n then cadd (elem0 m W [i; t]) (elem0 m W [i; t + off]) else elem0 m W [i; t].
Proof.
  intros Hn Ho C Rm orders O. destruct (fold_entries b o n0 s0 n off H0 ltac:(lia) C) as (l & El & ->). rewrite El in O. apply order_concat in O. cbn [concat] in O. rewrite app_nil_r in O. rewrite exec_run.
  set (r := part b o n0 s0 n) in *. set (x := part b (o + off) n0 s0 n) in *.
  assert (Rd : forall i t, 0 <= i < n0 -> 0 <= t < N -> m b (o + (i * s0 + t)) <> None) by (intros i t Hi Ht; rewrite <- elem_part with (n0 := n0) (n := N); apply Rm; repeat constructor; lia).
  destruct (elementwise_of_run f_add1 r [x] m (concat orders)) as (m' & E & EW & U); [split; [reflexivity|repeat constructor; lia]| | | |exact O|].
  - intros ix jx I J E. cbn [vdims r part] in I, J. rng. unfold r in E. rewrite !vaddr_part in E. assert (E' : i1 * s0 + i2 = i * s0 + i0) by (injection E; lia). destruct (apart i1 i2 i i0) as [-> ->]; try lia. reflexivity.
  - intros ix I. cbn [vdims r part] in I. rng. unfold r. rewrite elem_part. apply Rd; lia.
  - constructor; [|constructor]. split; [split; [reflexivity|repeat constructor; lia]|]. split; [reflexivity|]. split.
    + intros ix I. cbn [vdims x part] in I. rng. unfold x. rewrite elem_part. replace (o + off + (i * s0 + i0)) with (o + (i * s0 + (i0 + off))) by lia. apply Rd; lia.
    + intros ix jx I J E. exfalso. cbn [vdims r x part] in I, J. rng. unfold r, x in E. rewrite !vaddr_part in E. assert (E' : i1 * s0 + i2 = i * s0 + (i0 + off)) by (injection E; lia). destruct (apart i1 i2 i (i0 + off)) as [_ X]; lia.
  - exists m'. split; [exact E|].
    assert (K : forall i t, 0 <= i < n0 -> n <= t < N -> m' b (o + (i * s0 + t)) = m b (o + (i * s0 + t))).
    { intros i t Hi Ht. apply U. intros ix I E'. cbn [vdims r part] in I. rng. unfold r in E'. rewrite vaddr_part in E'. assert (X : i0 * s0 + i1 = i * s0 + t) by (injection E'; lia). destruct (apart i0 i1 i t) as [_ Y]; lia. }
    assert (K2 : forall i t, 0 <= i < n0 -> 0 <= t < n -> exists v w, m b (o + (i * s0 + t)) = Some v /\ m b (o + (i * s0 + (t + off))) = Some w /\ m' b (o + (i * s0 + t)) = Some (cadd v w)).
    { intros i t Hi Ht. destruct (EW [i; t]) as (v & us & Ev & Eu & E'); [cbn [vdims r part]; repeat constructor; lia|]. inversion Eu as [|? u ? ? Ew Eu']; subst. inversion Eu'; subst. unfold r, x in *. rewrite elem_part in *. exists v, u. split; [exact Ev|]. split; [|exact E'].
      rewrite <- Ew. f_equal. lia. }
    split; [|split].
    + intros ix I. cbn [vdims part] in I. rng. rewrite elem_part. destruct (Z_lt_dec i0 n) as [L|L].
      * destruct (K2 i i0) as (v & w & _ & _ & ->); [lia|lia|discriminate].
      * rewrite K by lia. apply Rd; lia.
    + intros b' a' Nn. apply U. intros ix I. cbn [vdims r part] in I. rng. specialize (Nn [i; i0]). unfold r. rewrite vaddr_part in *. apply Nn. repeat constructor; lia.
    + intros i t Hi Ht. unfold elem0. rewrite !elem_part. destruct (t <? n) eqn:L.
      * destruct (K2 i t) as (v & w & -> & -> & ->); [lia|lia|reflexivity].
      * now rewrite K by lia.
Qed.
Lemma any_order_app {A} (p q os : list (list A)) : any_order (p ++ q) os -> exists o1 o2, os = o1 ++ o2 /\ any_order p o1 /\ any_order q o2.
Proof. intro H. apply Forall2_app_inv_r in H. destruct H as (o1 & o2 & H1 & H2 & E). exists o1, o2. auto. Qed.
Lemma exec_app {V} (f : V -> list V -> V) o1 o2 m m1 : cu_exec f o1 m = Ok m1 -> cu_exec f (o1 ++ o2) m = cu_exec f o2 m1.
Proof. intro E. unfold cu_exec in *. now rewrite foldM_app, E. Qed.
Lemma untouched_trans {V} (m m1 m2 : mem V) v : untouched m m1 v -> untouched m1 m2 v -> untouched m m2 v.
Proof. intros A B b' a' Nn. now rewrite B, A. Qed.
Definition colsum (m : memR) (L n2 i t : Z) : R := rsum (map (fun j => elem0 m W [i; j * n2 + t]) (zrange L)).
Lemma rsum_split (F : Z -> R) p q : 0 <= p -> 0 <= q -> rsum (map F (zrange (p + q))) = cadd (rsum (map F (zrange p))) (rsum (map (fun j => F (p + j)) (zrange q))).
Proof. intros. rewrite zrange_app, map_app, rsum_app, map_map by lia. reflexivity. Qed.
Lemma colsum_fold (m m' : memR) a L n2 i t : 0 <= L - a <= a -> 1 <= n2 -> 0 <= t < n2 -> 0 <= i < n0 -> L * n2 <= N ->
  (forall i t, 0 <= i < n0 -> 0 <= t < N -> elem0 m' W [i; t] = if t <? (L - a) * n2 then cadd (elem0 m W [i; t]) (elem0 m W [i; t + a * n2]) else elem0 m W [i; t]) ->
  colsum m' a n2 i t = colsum m L n2 i t.
Proof.
  intros Ha Hn Ht Hi HL E. unfold colsum.
  assert (A1 : rsum (map (fun j => elem0 m' W [i; j * n2 + t]) (zrange (L - a))) = cadd (rsum (map (fun j => elem0 m W [i; j * n2 + t]) (zrange (L - a)))) (rsum (map (fun j => elem0 m W [i; (a + j) * n2 + t]) (zrange (L - a))))).
  { rewrite <- rsum_map_add. apply rsum_ext. intros j I. apply in_zrange in I. rewrite E by nia. replace (j * n2 + t <? (L - a) * n2) with true by nia. do 3 f_equal. f_equal. lia. }
  assert (A2 : rsum (map (fun j => elem0 m' W [i; (L - a + j) * n2 + t]) (zrange (2 * a - L))) = rsum (map (fun j => elem0 m W [i; (L - a + j) * n2 + t]) (zrange (2 * a - L)))).
  { apply rsum_ext. intros j I. apply in_zrange in I. rewrite E by nia. replace ((L - a + j) * n2 + t <? (L - a) * n2) with false by nia. reflexivity. }
  assert (B1 : rsum (map (fun j => elem0 m' W [i; j * n2 + t]) (zrange a)) = cadd (rsum (map (fun j => elem0 m' W [i; j * n2 + t]) (zrange (L - a)))) (rsum (map (fun j => elem0 m' W [i; (L - a + j) * n2 + t]) (zrange (2 * a - L))))).
  { rewrite <- (rsum_split (fun j => elem0 m' W [i; j * n2 + t])) by lia. do 3 f_equal. lia. }
  assert (B2 : rsum (map (fun j => elem0 m W [i; j * n2 + t]) (zrange a)) = cadd (rsum (map (fun j => elem0 m W [i; j * n2 + t]) (zrange (L - a)))) (rsum (map (fun j => elem0 m W [i; (L - a + j) * n2 + t]) (zrange (2 * a - L))))).
  { rewrite <- (rsum_split (fun j => elem0 m W [i; j * n2 + t])) by lia. do 3 f_equal. lia. }
  assert (B3 : rsum (map (fun j => elem0 m W [i; j * n2 + t]) (zrange L)) = cadd (rsum (map (fun j => elem0 m W [i; j * n2 + t]) (zrange a))) (rsum (map (fun j => elem0 m W [i; (a + j) * n2 + t]) (zrange (L - a))))).
  { rewrite <- (rsum_split (fun j => elem0 m W [i; j * n2 + t])) by lia. do 3 f_equal. lia. }
  rewrite B1, B3, B2, A1, A2. ring.
Qed.
Lemma down_ok n2 : 1 <= n2 -> forall k fuel (m : memR), (k <= fuel)%nat -> 2 ^ Z.of_nat k * n2 <= N -> (forall j, 0 <= j < Z.of_nat k -> count_fits (2 ^ j * n2)) -> readable m W ->
  forall orders, any_order (fold_down fuel (2 ^ Z.of_nat k / 2) (fun a => batched_fold b o n0 s0 (a * n2) 1 (a * n2))) orders ->
  exists m', cu_exec f_add1 orders m = Ok m' /\ readable m' W /\ untouched m m' W /\ forall i t, 0 <= i < n0 -> 0 <= t < n2 -> elem0 m' W [i; t] = colsum m (2 ^ Z.of_nat k) n2 i t.
Proof.
  intro Hn. induction k as [|k IH]; intros fuel m Hf HL C Rm orders O.
  - replace (fold_down fuel (2 ^ Z.of_nat 0 / 2) _) with (@nil (list (addr * list addr))) in O by (now destruct fuel). inversion O; subst. exists m. split; [reflexivity|]. split; [exact Rm|]. split; [intros ? ? ?; reflexivity|].
    intros i t Hi Ht. unfold colsum. change (zrange (2 ^ Z.of_nat 0)) with [0]. cbn [map]. rewrite rsum_cons, rsum_nil. rewrite Z.mul_0_l, Z.add_0_l. ring.
  - rewrite Nat2Z.inj_succ, Z.pow_succ_r in * by lia. replace (2 * 2 ^ Z.of_nat k / 2) with (2 ^ Z.of_nat k) in O by (rewrite Z.mul_comm, Z.div_mul; lia). set (a := 2 ^ Z.of_nat k) in *. assert (Pa : 1 <= a) by (pose proof (Z.pow_pos_nonneg 2 (Z.of_nat k)); lia).
    destruct fuel as [|fuel]; [lia|]. cbn [fold_down] in O. replace (0 <? a) with true in O by lia. apply any_order_app in O. destruct O as (o1 & o2 & -> & O1 & O2).
    destruct (fold_step m (a * n2) (a * n2)) with (orders := o1) as (m1 & E1 & R1 & U1 & F1); [nia|lia|apply (C (Z.of_nat k)); lia|exact Rm|exact O1|].
    destruct (IH fuel m1) with (orders := o2) as (m2 & E2 & R2 & U2 & F2); [lia|nia|intros j Hj; apply C; lia|exact R1|exact O2|].
    exists m2. split; [rewrite (exec_app _ _ _ _ _ E1); exact E2|]. split; [exact R2|]. split; [now apply (untouched_trans m m1)|].
    intros i t Hi Ht. rewrite F2 by assumption. apply (colsum_fold m m1 a (2 * a)); try assumption; try lia. intros i' t' Hi' Ht'. rewrite F1 by assumption. now replace ((2 * a - a) * n2) with (a * n2) by lia.
Qed.
End R.
Lemma pow_above_ok n : forall fuel j, 0 <= j -> 2 ^ j < n -> n <= 2 ^ (j + Z.of_nat fuel) -> exists k, 0 <= k /\ pow_above fuel (2 ^ j) n = 2 ^ (k + 1) /\ 2 ^ k < n <= 2 ^ (k + 1).
Proof.
  induction fuel as [|f IH]; intros j Hj L H.
  - replace (j + Z.of_nat 0) with j in H by lia. lia.
  - cbn [pow_above]. replace (2 ^ j <? n) with true by lia. replace (2 ^ j * 2) with (2 ^ (j + 1)) by (rewrite Z.pow_add_r by lia; lia). destruct (Z_lt_dec (2 ^ (j + 1)) n) as [G|G].
    + apply IH; [lia|exact G|]. now replace (j + 1 + Z.of_nat f) with (j + Z.of_nat (S f)) by lia.
    + exists j. split; [exact Hj|]. split; [|lia]. destruct f; cbn [pow_above]; [reflexivity|]. now replace (2 ^ (j + 1) <? n) with false by lia.
Qed.
(* ---- the whole reduction ---- *)
Definition x3 (b o n0 n1 n2 s0 : Z) : view := View b o [n0; n1; n2] [s0; n2; 1].
Lemma vaddr_x3 b o n0 n1 n2 s0 i j t : vaddr (x3 b o n0 n1 n2 s0) [i; j; t] = Ok (b, o + (i * s0 + (j * n2 + t))).
Proof. change (vaddr (x3 b o n0 n1 n2 s0) [i; j; t]) with (Ok (b, o + (s0 * i + (n2 * j + (1 * t + 0))))). do 2 f_equal. lia. Qed.
Lemma elem_x3 {V} (m : mem V) b o n0 n1 n2 s0 i j t : elem m (x3 b o n0 n1 n2 s0) [i; j; t] = elem m (part b o n0 s0 (n1 * n2)) [i; j * n2 + t].
Proof. unfold elem. now rewrite vaddr_x3, vaddr_part. Qed.
Section M.
Context (b o n0 n1 n2 s0 : Z) (H1 : 1 <= n1) (H2 : 1 <= n2).
Notation X := (x3 b o n0 n1 n2 s0).
Notation W := (part b o n0 s0 (n1 * n2)).
Lemma jt k : 0 <= k < n1 * n2 -> 0 <= k / n2 < n1 /\ 0 <= k mod n2 < n2 /\ k = k / n2 * n2 + k mod n2.
Proof.
  intro H. pose proof (Z.mod_pos_bound k n2 ltac:(lia)). pose proof (Z_div_mod_eq_full k n2). split; [|lia]. split; [apply Z.div_pos; lia|apply Z.div_lt_upper_bound; nia].
Qed.
Lemma fused_distinct : distinct_cells X -> distinct_cells W.
Proof.
  intros D ix jx I J E. cbn [vdims part] in I, J. rng. rewrite !vaddr_part in E. rename i1 into i, i2 into k, i into j, i0 into l. destruct (jt k) as (A & B & C); [lia|]. destruct (jt l) as (A' & B' & C'); [lia|].
  assert (Y : [i; k / n2; k mod n2] = [j; l / n2; l mod n2]).
  { apply D; [cbn; repeat constructor; lia|cbn; repeat constructor; lia|]. rewrite !vaddr_x3. rewrite <- C, <- C'. exact E. }
  injection Y as -> E1 E2. rewrite C, C', E1, E2. reflexivity.
Qed.
Lemma fused_readable {V} (m : mem V) : readable m X -> readable m W.
Proof.
  intros D ix I. cbn [vdims part] in I. rng. destruct (jt i0) as (A & B & C); [lia|]. rewrite C. rewrite <- elem_x3 with (n1 := n1). apply D. cbn. repeat constructor; lia.
Qed.
Lemma fused_untouched {V} (m m' : mem V) : untouched m m' W -> untouched m m' X.
Proof.
  intros U b' a' N. apply U. intros ix I. cbn [vdims part] in I. rng. destruct (jt i0) as (A & B & C); [lia|]. specialize (N [i; i0 / n2; i0 mod n2]). rewrite vaddr_part. rewrite vaddr_x3, <- C in N. apply N. cbn. repeat constructor; lia.
Qed.
End M.
Lemma reduce_ok {R : cring} b o n0 n1 n2 s0 (m : mem (car R)) : 1 <= n0 <= 2147483647 -> 2 <= n1 -> 1 <= n2 -> reduce_fits n1 n2 -> distinct_cells (x3 b o n0 n1 n2 s0) -> readable m (x3 b o n0 n1 n2 s0) ->
  exists plan, reduce1_plan (x3 b o n0 n1 n2 s0) = Ok plan /\ forall orders, any_order plan orders -> exists m', cu_exec f_add1 orders m = Ok m' /\ untouched m m' (x3 b o n0 n1 n2 s0) /\
    forall i t, 0 <= i < n0 -> 0 <= t < n2 -> elem0 m' (x3 b o n0 n1 n2 s0) [i; 0; t] = rsum (map (fun j => elem0 m (x3 b o n0 n1 n2 s0) [i; j; t]) (zrange n1)).
Proof.
  intros H0 H1 H2 F D Rm. apply fused_distinct in D; try lia. apply fused_readable in Rm; try lia.
  destruct (pow_above_ok n1 (Z.to_nat n1) 0) as (k & Hk & Ek & Bk); [lia|cbn; lia|rewrite Z2Nat.id, Z.add_0_l by lia; pose proof (Z.pow_gt_lin_r 2 n1 ltac:(lia) ltac:(lia)); lia|]. change (2 ^ 0) with 1 in Ek.
  eexists. split; [reflexivity|]. cbn [vblk voff x3]. rewrite Ek. rewrite Z.pow_add_r in * by lia. change (2 ^ 1) with 2 in *. rewrite Z.div_mul by lia. intros orders O. apply any_order_app in O. destruct O as (o1 & o2 & -> & O1 & O2).
  assert (Pa : 1 <= 2 ^ k) by (pose proof (Z.pow_pos_nonneg 2 k); lia).
  assert (CF : forall c, 1 <= c -> 2 * c <= n1 -> count_fits (c * n2)).
  { intros c Hc Hc2. destruct F as [F|[F1 F2]]; [left; nia|]. right. pose proof (Z_div_mod_eq_full n2 1024) as Q. split; [rewrite Z.mul_mod, F1 by lia; now rewrite Z.mul_0_r|]. apply Z.div_le_upper_bound; nia. }
  destruct (fold_step b o n0 s0 (n1 * n2) D H0 ltac:(nia) m ((n1 - 2 ^ k) * n2) (2 ^ k * n2)) with (orders := o1) as (m1 & E1 & R1 & U1 & F1); [nia|lia|apply CF; lia|exact Rm|exact O1|].
  destruct (down_ok b o n0 s0 (n1 * n2) D H0 ltac:(nia) n2 H2 (Z.to_nat k) (Z.to_nat n1) m1) with (orders := o2) as (m2 & E2 & R2 & U2 & F2).
  - pose proof (Z.pow_gt_lin_r 2 k ltac:(lia) ltac:(lia)). lia.
  - rewrite Z2Nat.id by lia. nia.
  - rewrite Z2Nat.id by lia. intros j Hj. apply CF; [pose proof (Z.pow_pos_nonneg 2 j); lia|]. assert (2 ^ (j + 1) <= 2 ^ k) by (apply Z.pow_le_mono_r; lia). rewrite Z.pow_add_r in H by lia. change (2 ^ 1) with 2 in H. lia.
  - exact R1.
  - rewrite Z2Nat.id by lia. exact O2.
  - exists m2. split; [rewrite (exec_app _ _ _ _ _ E1); exact E2|]. split; [apply fused_untouched; try lia; now apply (untouched_trans m m1)|].
    intros i t Hi Ht. unfold elem0 at 1. rewrite elem_x3, Z.mul_0_l, Z.add_0_l. change (elem0 m2 (part b o n0 s0 (n1 * n2)) [i; t] = rsum (map (fun j => elem0 m (x3 b o n0 n1 n2 s0) [i; j; t]) (zrange n1))).
    rewrite F2 by assumption. rewrite Z2Nat.id by lia. rewrite colsum_fold with (m := m) (L := n1); try lia; [|exact F1].
    unfold colsum. apply rsum_ext. intros j I. unfold elem0. now rewrite elem_x3.
Qed.
(* ---- a single row is doubled ---- *)
Lemma reduce_single {R : cring} b o n0 n2 s0 (m : mem (car R)) : 1 <= n0 <= 2147483647 -> 1 <= n2 <= 1024 -> distinct_cells (x3 b o n0 1 n2 s0) -> readable m (x3 b o n0 1 n2 s0) ->
  exists plan, reduce1_plan (x3 b o n0 1 n2 s0) = Ok plan /\ forall orders, any_order plan orders -> exists m', cu_exec f_add1 orders m = Ok m' /\
    forall i t, 0 <= i < n0 -> 0 <= t < n2 -> elem0 m' (x3 b o n0 1 n2 s0) [i; 0; t] = cadd (elem0 m (x3 b o n0 1 n2 s0) [i; 0; t]) (elem0 m (x3 b o n0 1 n2 s0) [i; 0; t]).
Proof.
  intros H0 H2 D Rm. apply fused_distinct in D; try lia. apply fused_readable in Rm; try lia. eexists. split; [reflexivity|]. cbn [vblk voff x3]. intros orders O.
  replace (pow_above (Z.to_nat 1) 1 1 / 2) with 0 in O by reflexivity. rewrite Z.sub_0_r in O. change (0 / 2) with 0 in O. change (fold_down (Z.to_nat 1) 0 _) with (@nil (list (addr * list addr))) in O. rewrite app_nil_r in O.
  rewrite Z.mul_1_l, Z.mul_0_l in *.
  destruct (fold_entries b o n0 s0 n2 0 H0 ltac:(lia) (or_introl (proj2 H2))) as (l & El & ->). rewrite El in O. apply order_concat in O. cbn [concat] in O. rewrite app_nil_r, Z.add_0_r in O. rewrite exec_run.
  destruct (elementwise_of_run f_add1 (part b o n0 s0 n2) [part b o n0 s0 n2] m (concat orders)) as (m' & E & EW & U); [split; [reflexivity|repeat constructor; lia]|exact D|exact Rm| |exact O|].
  - constructor; [|constructor]. split; [split; [reflexivity|repeat constructor; lia]|]. split; [reflexivity|]. split; [exact Rm|exact D].
  - exists m'. split; [exact E|]. intros i t Hi Ht. unfold elem0. rewrite !elem_x3, Z.mul_1_l, Z.mul_0_l, Z.add_0_l. destruct (EW [i; t]) as (v & us & Ev & Eu & E'); [cbn; repeat constructor; lia|]. inversion Eu as [|? u ? ? Eu1 Eu2]; subst. inversion Eu2; subst. rewrite Ev in Eu1. injection Eu1 as ->. rewrite E', Ev. reflexivity.
Qed.
(* ---- long rows ---- *)
Lemma in_threads t gx gy gz nx ny nz : In t (cu_threads (gx, gy, gz) (nx, ny, nz)) -> 0 <= bx t < gx /\ 0 <= by_ t < gy /\ 0 <= bz t < gz /\ 0 <= tx t < nx /\ 0 <= ty t < ny /\ 0 <= tz t < nz.
Proof.
  unfold cu_threads. intro I. repeat (apply in_flat_map in I; let H := fresh in destruct I as (? & H & I); apply in_zrange in H). apply in_map_iff in I. destruct I as (w & <- & I). apply in_zrange in I. cbn. lia.
Qed.
Lemma reduce_long {R : cring} b o n0 n2 s0 (m : mem (car R)) : 1 <= n0 <= 2147483647 -> 1024 < n2 -> n2 mod 1024 <> 0 -> distinct_cells (x3 b o n0 2 n2 s0) -> readable m (x3 b o n0 2 n2 s0) ->
  exists plan, reduce1_plan (x3 b o n0 2 n2 s0) = Ok plan /\ forall orders, any_order plan orders -> exists m', cu_exec f_add1 orders m = Ok m' /\
    forall i t, 0 <= i < n0 -> 1024 * (n2 / 1024) <= t < n2 -> elem m' (x3 b o n0 2 n2 s0) [i; 0; t] = elem m (x3 b o n0 2 n2 s0) [i; 0; t].
Proof.
  intros H0 H2 M D Rm. apply fused_distinct in D; try lia. apply fused_readable in Rm; try lia. eexists. split; [reflexivity|]. cbn [vblk voff x3]. intros orders O.
  replace (pow_above (Z.to_nat 2) 1 2 / 2) with 1 in O by reflexivity. change (1 / 2) with 0 in O. change (fold_down (Z.to_nat 2) 0 _) with (@nil (list (addr * list addr))) in O. rewrite app_nil_r in O. change (2 - 1) with 1 in O. rewrite Z.mul_1_l in O.
  pose proof (Z_div_mod_eq_full n2 1024) as Q. pose proof (Z.mod_pos_bound n2 1024 ltac:(lia)) as B. apply order_concat in O.
  assert (P : forall e, In e (concat orders) -> exists i t u, 0 <= i < n0 /\ 0 <= t < 1024 * (n2 / 1024) /\ 0 <= u < 2 * n2 /\ e = ((b, o + (i * s0 + t)), [(b, o + (i * s0 + u))])).
  { intros e I. eapply Permutation_in in I; [|exact O]. unfold batched_fold in I. replace (n2 <=? 1024) with false in I by lia. replace (0 <? n2 mod 1024) with true in I by lia. cbn [concat] in I. rewrite app_nil_r in I. apply in_app_iff in I. destruct I as [I|I].
    - unfold fold_kernel1 in I. apply in_if in I. destruct I as [_ I]. apply in_map_iff in I. destruct I as (t & <- & I). apply in_threads in I. cbv zeta. exists (bx t), (by_ t * 1024 + tx t), (by_ t * 1024 + tx t + n2). split; [lia|]. split; [nia|]. split; [nia|]. apply pair_eq; lia.
    - unfold fold_kernel in I. apply in_if in I. destruct I as [_ I]. apply in_map_iff in I. destruct I as (t & <- & I). apply in_threads in I. cbv zeta. exists (bx t), (tx t), (tx t + n2 + n2 / 1024 * 1024). split; [lia|]. split; [nia|]. split; [nia|]. apply pair_eq; lia. }
  assert (Rd : forall i t, 0 <= i < n0 -> 0 <= t < 2 * n2 -> m b (o + (i * s0 + t)) <> None) by (intros i t Hi Ht; rewrite <- elem_part with (n0 := n0) (n := 2 * n2); apply Rm; cbn [vdims part]; repeat (apply Forall2_cons; [lia|]); apply Forall2_nil).
  rewrite exec_run. destruct (run_total f_add1 (concat orders) m) as [m' Em].
  { intros e I. destruct (P e I) as (i & t & u & Hi & Ht & Hu & ->). split; [apply Rd; lia|]. constructor; [apply Rd; lia|constructor]. }
  exists m'. split; [exact Em|]. intros i t Hi Ht. rewrite !elem_x3, Z.mul_0_l, Z.add_0_l, !elem_part. apply (run_untouched f_add1 _ _ _ (b, o + (i * s0 + t)) Em). intro I. apply in_map_iff in I. destruct I as (e & Ee & I).
  destruct (P e I) as (i' & t' & u & Hi' & Ht' & Hu & ->). cbn [fst] in Ee. assert (X : i' * s0 + t' = i * s0 + t) by (injection Ee; lia). destruct (apart b o n0 s0 (2 * n2) D i' t' i t) as [_ Y]; lia.
Qed.
