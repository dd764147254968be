From Verif Require Import Base BaseFacts Map Model_Containers.
Local Open Scope Z_scope.

(* ---- buffers as functions of the index *)
Definition cell (b : buf) (i : Z) : option Z := if 0 <=? i then nth (Z.to_nat i) b None else None.
Lemma blen_nonneg b : 0 <= blen b. Proof. unfold blen. lia. Qed.
Lemma bget_cell b i v : cell b i = Some v -> bget b i = Ok v.
Proof.
  unfold cell, bget, zget, vget. destruct (0 <=? i) eqn:E; [|discriminate]. intro H.
  replace (i <? 0) with false by lia. destruct (nth_error b (Z.to_nat i)) as [o|] eqn:N.
  - apply (nth_error_nth _ _ None) in N. rewrite N in H. subst. reflexivity.
  - apply nth_error_None in N. rewrite nth_overflow in H by assumption. discriminate.
Qed.
Lemma bget_none b i : cell b i = None -> bget b i = UB.
Proof.
  unfold cell, bget, zget, vget. destruct (i <? 0) eqn:E0; [reflexivity|]. replace (0 <=? i) with true by lia. intro H.
  destruct (nth_error b (Z.to_nat i)) as [o|] eqn:N; [|reflexivity]. apply (nth_error_nth _ _ None) in N. rewrite N in H. subst. reflexivity.
Qed.
Lemma cell_bound b i v : cell b i = Some v -> 0 <= i < blen b.
Proof.
  unfold cell, blen. destruct (0 <=? i) eqn:E; [|discriminate]. intro H. split; [lia|].
  destruct (Z_lt_le_dec i (Z.of_nat (length b))); [assumption|]. rewrite nth_overflow in H by lia. discriminate.
Qed.
Lemma set_at_length {A} i (v : A) l : length (set_at i v l) = length l.
Proof. revert i; induction l as [|x l IH]; intros [|i]; cbn; auto. Qed.
Lemma nth_set_at {A} i (v d : A) l j : (i < length l)%nat -> nth j (set_at i v l) d = if (j =? i)%nat then v else nth j l d.
Proof.
  revert i j; induction l as [|x l IH]; intros i j H; [cbn in H; lia|]. destruct i as [|i], j as [|j]; cbn; auto. apply IH. cbn in H. lia.
Qed.
Lemma bput_ok b i v : 0 <= i < blen b ->
  exists b', bput b i v = Ok b' /\ blen b' = blen b /\ (forall j, cell b' j = if j =? i then Some v else cell b j).
Proof.
  intro H. unfold bput. replace (0 <=? i) with true by lia. replace (i <? blen b) with true by lia. cbn. eexists. split; [reflexivity|].
  unfold blen. rewrite set_at_length. split; [reflexivity|]. intro j. unfold cell, blen in *. destruct (0 <=? j) eqn:E.
  - rewrite nth_set_at by lia. destruct (j =? i) eqn:E2.
    + replace (Z.to_nat j =? Z.to_nat i)%nat with true; [reflexivity|]. symmetry. apply Nat.eqb_eq. lia.
    + replace (Z.to_nat j =? Z.to_nat i)%nat with false; [reflexivity|]. symmetry. apply Nat.eqb_neq. lia.
  - now replace (j =? i) with false by lia.
Qed.
Lemma bwrite_ok v : forall b off, 0 <= off -> off + Z.of_nat (length v) <= blen b ->
  exists b', bwrite b off v = Ok b' /\ blen b' = blen b /\
    (forall j, cell b' j = if (off <=? j) && (j <? off + Z.of_nat (length v)) then Some (nth (Z.to_nat (j - off)) v 0) else cell b j).
Proof.
  induction v as [|x v IH]; intros b off H0 H1.
  - exists b. split; [reflexivity|]. split; [reflexivity|]. intro j. cbn [length]. destruct ((off <=? j) && _) eqn:E; [lia|reflexivity].
  - cbn [bwrite]. cbn [length] in H1. destruct (bput_ok b off x) as (b1 & -> & L1 & C1); [lia|]. cbn [bind].
    destruct (IH b1 (off + 1)) as (b2 & -> & L2 & C2); [lia|lia|]. exists b2. split; [reflexivity|]. split; [congruence|].
    intro j. rewrite C2, C1. cbn [length]. destruct (j =? off) eqn:E.
    + replace (off + 1 <=? j) with false by lia. replace (off <=? j) with true by lia. replace (j <? off + Z.of_nat (S (length v))) with true by lia.
      cbn. replace (j - off) with 0 by lia. reflexivity.
    + destruct ((off + 1 <=? j) && (j <? off + 1 + Z.of_nat (length v))) eqn:E1.
      * replace (off <=? j) with true by lia. replace (j <? off + Z.of_nat (S (length v))) with true by lia. cbn [andb].
        replace (Z.to_nat (j - off)) with (S (Z.to_nat (j - (off + 1)))) by lia. reflexivity.
      * destruct ((off <=? j) && (j <? off + Z.of_nat (S (length v)))) eqn:E2; [lia|reflexivity].
Qed.
Lemma bread_ok v : forall b off, (forall k, 0 <= k < Z.of_nat (length v) -> cell b (off + k) = Some (nth (Z.to_nat k) v 0)) ->
  bread b off (length v) = Ok v.
Proof.
  induction v as [|x v IH]; intros b off H; [reflexivity|]. cbn [length bread].
  assert (H0 := H 0 ltac:(cbn [length]; lia)). rewrite Z.add_0_r in H0. cbn in H0. rewrite (bget_cell _ _ _ H0). cbn [bind].
  rewrite IH; [reflexivity|]. intros k Hk. specialize (H (k + 1) ltac:(cbn [length]; lia)).
  replace (off + 1 + k) with (off + (k + 1)) by lia. rewrite H. replace (Z.to_nat (k + 1)) with (S (Z.to_nat k)) by lia. reflexivity.
Qed.
Lemma cell_new n j : cell (bnew n) j = None.
Proof. unfold cell, bnew. destruct (0 <=? j); [|reflexivity]. apply nth_repeat. Qed.
Lemma blen_new n : 0 <= n -> blen (bnew n) = n.
Proof. intro. unfold blen, bnew. rewrite repeat_length. lia. Qed.
Lemma bcopy_ok src n dst a : 0 <= n <= blen src -> 0 <= a -> a + n <= blen dst ->
  exists b, bcopy src n dst a = Ok b /\ blen b = blen dst /\
    (forall j, cell b j = if (a <=? j) && (j <? a + n) then cell src (j - a) else cell dst j).
Proof.
  intros H1 H2 H3. unfold bcopy. replace (0 <=? n) with true by lia. replace (n <=? blen src) with true by lia.
  replace (0 <=? a) with true by lia. replace (a + n <=? blen dst) with true by lia. cbn [andb]. eexists. split; [reflexivity|].
  unfold blen in *. rewrite !app_length, !firstn_length, skipn_length. split; [lia|]. intro j. unfold cell.
  destruct (0 <=? j) eqn:E; [|destruct ((a <=? j) && _) eqn:E2; [lia|reflexivity]].
  destruct (Z_lt_le_dec j a).
  - replace (a <=? j) with false by lia. cbn [andb]. rewrite app_nth1 by (rewrite firstn_length; lia).
    rewrite <- (firstn_skipn (Z.to_nat a) dst) at 2. rewrite app_nth1 by (rewrite firstn_length; lia). reflexivity.
  - replace (a <=? j) with true by lia. cbn [andb]. rewrite app_nth2 by (rewrite firstn_length; lia). rewrite firstn_length.
    destruct (j <? a + n) eqn:E2.
    + replace (0 <=? j - a) with true by lia. rewrite app_nth1 by (rewrite firstn_length; lia).
      rewrite <- (firstn_skipn (Z.to_nat n) src) at 2. rewrite app_nth1 by (rewrite firstn_length; lia). f_equal. lia.
    + rewrite app_nth2 by (rewrite firstn_length; lia). rewrite firstn_length.
      rewrite <- (firstn_skipn (Z.to_nat (a + n)) dst) at 3. rewrite (app_nth2 (firstn (Z.to_nat (a + n)) dst)) by (rewrite firstn_length; lia). rewrite firstn_length. f_equal. lia.
Qed.

(* ---- tables *)
Definition tab (t : itab) (c r : Z) : Prop := icols t = c /\ 0 < c /\ irows t = r /\ 0 <= r /\ r * c <= blen (ibuf t).
Definition tcell (t : itab) (i j : Z) : option Z := cell (ibuf t) (i * icols t + j).

Lemma tab_new r c : 0 < c -> 0 <= r -> tab (it_new r c) c r.
Proof. intros. unfold tab, it_new. cbn. rewrite blen_new by nia. repeat split; lia. Qed.
Lemma it_reserve_ok t c r n : tab t c r -> exists t', it_reserve n t = Ok t' /\ tab t' c r /\ n * c <= blen (ibuf t') /\
  blen (ibuf t) <= blen (ibuf t') /\ forall k, k < r * c -> cell (ibuf t') k = cell (ibuf t) k.
Proof.
  intros (E1 & Hc & E2 & Hr & Hl). unfold it_reserve, it_capacity. rewrite E1. replace (c =? 0) with false by lia. cbn [bind].
  pose proof (blen_nonneg (ibuf t)). rewrite Z.quot_div_nonneg by lia.
  pose proof (Z.mul_div_le (blen (ibuf t)) c ltac:(lia)). pose proof (Z.mul_succ_div_gt (blen (ibuf t)) c ltac:(lia)).
  destruct (n <=? blen (ibuf t) / c) eqn:E.
  - exists t. split; [reflexivity|]. split; [repeat split; auto; lia|]. split; [nia|]. split; [lia|reflexivity].
  - assert (0 <= blen (ibuf t) / c) by (apply Z.div_pos; lia). assert (blen (ibuf t) < n * c) by nia. replace (n * c =? 0) with false by nia.
    destruct (bcopy_ok (ibuf t) (c * irows t) (bnew (n * c)) 0) as (b & -> & Lb & Cb); [nia|lia|rewrite blen_new by nia; nia|].
    cbn [bind]. rewrite blen_new in Lb by nia. eexists. split; [reflexivity|]. unfold tab. cbn. split; [repeat split; auto; nia|]. split; [lia|]. split; [lia|].
    intros k Hk. rewrite Cb, Z.sub_0_r. destruct (0 <=? k) eqn:Ek.
    + replace (k <? 0 + c * irows t) with true by nia. reflexivity.
    + cbn. rewrite cell_new. unfold cell. now rewrite Ek.
Qed.
Lemma it_push_ok t c r x : tab t c r -> Z.of_nat (length x) = c -> exists t', it_push x t = Ok t' /\ tab t' c (r + 1) /\
  (forall k, k < r * c -> cell (ibuf t') k = cell (ibuf t) k) /\ (forall j, 0 <= j < c -> cell (ibuf t') (r * c + j) = Some (nth (Z.to_nat j) x 0)).
Proof.
  intros T Hx. assert (T0 := T). destruct T as (E1 & Hc & E2 & Hr & Hl). unfold it_push. rewrite E1. replace (c =? _) with true by lia. cbn [assrt].
  unfold it_capacity. rewrite E1. replace (c =? 0) with false by lia. cbn [bind]. rewrite E2.
  assert (Q : exists t1, (if Z.quot (blen (ibuf t)) c <=? r + 1 then it_reserve (2 * (r + 1)) t else Ok t) = Ok t1 /\ tab t1 c r /\
     (r + 1) * c <= blen (ibuf t1) /\ forall k, k < r * c -> cell (ibuf t1) k = cell (ibuf t) k).
  { pose proof (blen_nonneg (ibuf t)). rewrite Z.quot_div_nonneg by lia. pose proof (Z.mul_div_le (blen (ibuf t)) c ltac:(lia)).
    destruct (_ <=? r + 1) eqn:E.
    - destruct (it_reserve_ok t c r (2 * (r + 1)) T0) as (t1 & -> & T1 & L & _ & C). exists t1. repeat split; auto; try apply T1; nia.
    - exists t. repeat split; auto; nia. }
  destruct Q as (t1 & -> & T1 & L1 & C1). cbn [bind]. destruct T1 as (F1 & _ & F2 & _ & _). rewrite F1.
  destruct (bwrite_ok x (ibuf t1) (r * c)) as (b & -> & Lb & Cb); [nia|nia|]. cbn [bind]. eexists. split; [reflexivity|]. unfold tab. cbn.
  split; [repeat split; auto; lia|]. split.
  - intros k Hk. rewrite Cb. replace (r * c <=? k) with false by lia. cbn. auto.
  - intros j Hj. rewrite Cb. replace (r * c <=? r * c + j) with true by lia. replace (r * c + j <? _) with true by lia. cbn. do 3 f_equal. lia.
Qed.
Lemma it_resize_ok t c r n : tab t c r -> r <= n -> exists t', it_resize n t = Ok t' /\ tab t' c n /\
  forall k, k < r * c -> cell (ibuf t') k = cell (ibuf t) k.
Proof.
  intros T Hn. assert (T0 := T). destruct T as (E1 & Hc & E2 & Hr & Hl). unfold it_resize. rewrite E2. replace (r <=? n) with true by lia. cbn [assrt].
  unfold it_capacity. rewrite E1. replace (c =? 0) with false by lia. cbn [bind].
  pose proof (blen_nonneg (ibuf t)). rewrite Z.quot_div_nonneg by lia. pose proof (Z.mul_div_le (blen (ibuf t)) c ltac:(lia)).
  destruct (_ <? n) eqn:E.
  - destruct (it_reserve_ok t c r n T0) as (t1 & -> & T1 & L & _ & C). cbn. eexists. split; [reflexivity|]. unfold tab. cbn.
    destruct T1 as (F1 & _). repeat split; auto; lia.
  - cbn. eexists. split; [reflexivity|]. unfold tab. cbn. repeat split; auto; nia.
Qed.
Lemma it_copy_ok t c r : tab t c r -> exists t', it_copy t = Ok t' /\ tab t' c r /\ blen (ibuf t') = r * c /\
  forall k, k < r * c -> cell (ibuf t') k = cell (ibuf t) k.
Proof.
  intros (E1 & Hc & E2 & Hr & Hl). unfold it_copy. rewrite E1, E2.
  destruct (bcopy_ok (ibuf t) (c * r) (bnew (c * r)) 0) as (b & -> & Lb & Cb); [nia|lia|rewrite blen_new by nia; lia|]. cbn.
  rewrite blen_new in Lb by nia. eexists. split; [reflexivity|]. unfold tab. cbn. repeat split; auto; try lia.
  intros k Hk. rewrite Cb, Z.sub_0_r. destruct (0 <=? k) eqn:Ek; [replace (k <? 0 + c * r) with true by lia; reflexivity|].
  cbn. rewrite cell_new. unfold cell. now rewrite Ek.
Qed.
Lemma it_set_ok t c r i j x : tab t c r -> 0 <= i < r -> 0 <= j < c -> exists t', it_set t i j x = Ok t' /\ tab t' c r /\ blen (ibuf t') = blen (ibuf t) /\
  forall k, cell (ibuf t') k = if k =? i * c + j then Some x else cell (ibuf t) k.
Proof.
  intros (E1 & Hc & E2 & Hr & Hl) Hi Hj. unfold it_set. rewrite E1.
  destruct (bput_ok (ibuf t) (i * c + j) x) as (b & -> & Lb & Cb); [nia|]. cbn. eexists. split; [reflexivity|]. unfold tab. cbn. repeat split; auto; lia.
Qed.
Lemma it_get_ok t c r i j v : tab t c r -> cell (ibuf t) (i * c + j) = Some v -> it_get t i j = Ok v.
Proof. intros (E & _) H. unfold it_get. rewrite E. now apply bget_cell. Qed.
Lemma it_row_ok t c r i x : tab t c r -> Z.of_nat (length x) = c -> (forall j, 0 <= j < c -> cell (ibuf t) (i * c + j) = Some (nth (Z.to_nat j) x 0)) ->
  it_row t i = Ok x.
Proof. intros (E & _) Hx H. unfold it_row. rewrite E. replace (Z.to_nat c) with (length x) by lia. apply bread_ok. intros k Hk. apply H. lia. Qed.

(* ---- C29: any history of pushes, reservations and resizings *)
Inductive top := TPush (x : list Z) | TReserve (n : Z) | TResize (n : Z) | TCopy.
Definition tstep (o : top) (t : itab) : res itab :=
  match o with TPush x => it_push x t | TReserve n => it_reserve n t | TResize n => it_resize n t | TCopy => it_copy t end.
(* the rows expected after the history; None is an element that was never written *)
Definition tspec (c : Z) (o : top) (rows : list (list (option Z))) : list (list (option Z)) :=
  match o with
  | TPush x => rows ++ [map Some x]
  | TReserve _ | TCopy => rows
  | TResize n => rows ++ repeat (repeat None (Z.to_nat c)) (Z.to_nat n - length rows)
  end.
Definition tvalid (c : Z) (o : top) (rows : list (list (option Z))) : Prop :=
  match o with TPush x => Z.of_nat (length x) = c | TResize n => Z.of_nat (length rows) <= n | _ => True end.
Fixpoint tvalids (c : Z) (l : list top) (rows : list (list (option Z))) : Prop :=
  match l with [] => True | o :: l' => tvalid c o rows /\ tvalids c l' (tspec c o rows) end.
(* the written elements read back, through the element accessor *)
Definition holds_rows (t : itab) (c : Z) (rows : list (list (option Z))) : Prop :=
  icols t = c /\ irows t = Z.of_nat (length rows) /\
  forall i j v, 0 <= j < c -> 0 <= i < Z.of_nat (length rows) -> nth (Z.to_nat j) (nth (Z.to_nat i) rows []) None = Some v -> it_get t i j = Ok v.
Definition tinv (t : itab) (c : Z) (rows : list (list (option Z))) : Prop :=
  tab t c (Z.of_nat (length rows)) /\
  forall i j v, 0 <= j < c -> 0 <= i < Z.of_nat (length rows) -> nth (Z.to_nat j) (nth (Z.to_nat i) rows []) None = Some v -> cell (ibuf t) (i * c + j) = Some v.
Lemma tinv_holds t c rows : tinv t c rows -> holds_rows t c rows.
Proof. intros [T H]. split; [apply T|]. split; [apply T|]. intros i j v Hj Hi E. eapply it_get_ok; eauto. Qed.
Lemma tstep_inv c o t rows : tinv t c rows -> tvalid c o rows -> exists t', tstep o t = Ok t' /\ tinv t' c (tspec c o rows).
Proof.
  intros [T H] V. destruct o as [x|n|n|]; cbn [tstep tspec tvalid] in *.
  - destruct (it_push_ok _ _ _ x T V) as (t' & -> & T' & C1 & C2). exists t'. split; [reflexivity|]. split.
    { rewrite app_length. cbn. now replace (Z.of_nat (length rows + 1)) with (Z.of_nat (length rows) + 1) by lia. }
    intros i j v Hj Hi E. rewrite app_length in Hi. cbn in Hi. destruct (Z.eq_dec i (Z.of_nat (length rows))) as [->|Hne].
    + rewrite C2 by assumption. rewrite app_nth2 in E by lia. replace (Z.to_nat (Z.of_nat (length rows)) - length rows)%nat with 0%nat in E by lia. cbn [nth] in E.
      rewrite (nth_indep _ None (Some 0)) in E by (rewrite map_length; lia). rewrite map_nth in E. exact E.
    + rewrite app_nth1 in E by lia. rewrite C1 by nia. apply H; auto. lia.
  - destruct (it_reserve_ok _ _ _ n T) as (t' & -> & T' & _ & _ & C1). exists t'. split; [reflexivity|]. split; [assumption|].
    intros i j v Hj Hi E. rewrite C1 by nia. now apply H.
  - destruct (it_resize_ok _ _ _ n T V) as (t' & -> & T' & C1). exists t'. split; [reflexivity|]. split.
    { rewrite app_length, repeat_length. now replace (Z.of_nat (length rows + (Z.to_nat n - length rows))) with n by lia. }
    intros i j v Hj Hi E. destruct (Z_lt_le_dec i (Z.of_nat (length rows))).
    + rewrite app_nth1 in E by lia. rewrite C1 by nia. apply H; auto. lia.
    + rewrite app_nth2 in E by lia. exfalso. revert E. destruct (nth_in_or_default (Z.to_nat i - length rows) (repeat (repeat (@None Z) (Z.to_nat c)) (Z.to_nat n - length rows)) []) as [I|I].
      * apply repeat_spec in I. rewrite I, nth_repeat. discriminate.
      * rewrite I. destruct (Z.to_nat j); discriminate.
  - destruct (it_copy_ok _ _ _ T) as (t' & -> & T' & _ & C1). exists t'. split; [reflexivity|]. split; [assumption|].
    intros i j v Hj Hi E. rewrite C1 by nia. now apply H.
Qed.
Lemma trun_inv c ops : forall t rows, tinv t c rows -> tvalids c ops rows ->
  exists t', foldM tstep ops t = Ok t' /\ tinv t' c (fold_left (fun r o => tspec c o r) ops rows).
Proof.
  induction ops as [|o ops IH]; intros t rows I V; [exists t; auto|]. destruct V as [V1 V2]. cbn [foldM fold_left].
  destruct (tstep_inv _ _ _ _ I V1) as (t' & -> & I'). cbn [bind]. now apply IH.
Qed.
(* equality of tables without spare capacity *)
Lemma it_eq_ok x y c rx ry : tab x c rx -> tab y c ry -> blen (ibuf x) = rx * c -> blen (ibuf y) = ry * c ->
  (forall k, 0 <= k < rx * c -> exists v, cell (ibuf x) k = Some v) -> (forall k, 0 <= k < ry * c -> exists v, cell (ibuf y) k = Some v) ->
  exists b, it_eq x y = Ok b /\ (b = true <-> rx = ry /\ forall k, 0 <= k < rx * c -> cell (ibuf x) k = cell (ibuf y) k).
Proof.
  intros (A1 & A2 & A3 & A4 & A5) (B1 & B2 & B3 & B4 & B5) Lx Ly Ix Iy. unfold it_eq. rewrite A1, B1, A3, B3, Z.eqb_refl. cbn [andb].
  destruct (rx =? ry) eqn:E; cbn [negb]; [|exists false; split; [reflexivity|]; split; [discriminate|intros []; lia]].
  assert (rx = ry) by lia. clear A3 B3; subst ry. rewrite Lx, Ly, Z.eqb_refl. cbn [negb].
  match goal with |- exists b, ?g (length (ibuf x)) 0 = _ /\ _ => set (go := g) end.
  assert (G : forall n i, 0 <= i -> i + Z.of_nat n = rx * c -> exists b, go n i = Ok b /\ (b = true <-> forall k, i <= k < rx * c -> cell (ibuf x) k = cell (ibuf y) k)).
  { induction n as [|n IH]; intros i Hi Hn; cbn [go].
    - exists true. split; [reflexivity|]. split; [|reflexivity]. intros _ k Hk. lia.
    - change (exists b, (do a <- bget (ibuf x) i; do b0 <- bget (ibuf y) i; if a =? b0 then go n (i + 1) else Ok false) = Ok b /\
                 (b = true <-> (forall k, i <= k < rx * c -> cell (ibuf x) k = cell (ibuf y) k))).
      destruct (Ix i) as [a Ha]; [lia|]. destruct (Iy i) as [b Hb]; [lia|]. rewrite (bget_cell _ _ _ Ha), (bget_cell _ _ _ Hb). cbn [bind].
      destruct (a =? b) eqn:Eab.
      + destruct (IH (i + 1)) as (r & -> & Hr); [lia|lia|]. exists r. split; [reflexivity|]. rewrite Hr. split; intros H k Hk; [|apply H; lia].
        destruct (Z.eq_dec k i) as [->|]; [rewrite Ha, Hb; f_equal; lia|apply H; lia].
      + exists false. split; [reflexivity|]. split; [discriminate|]. intro H. specialize (H i ltac:(lia)). rewrite Ha, Hb in H. injection H as H. lia. }
  destruct (G (length (ibuf x)) 0) as (b & Eb & Hb); [lia|unfold blen in Lx; lia|]. exists b. split; [exact Eb|]. rewrite Hb. tauto.
Qed.
