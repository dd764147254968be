From Coq Require Import Permutation.
From Verif Require Import Base BaseFacts Model_Index Model_View Model_Tensor Model_Ops Spec_Index Spec_View Spec_Tensor Spec_Ops
  Proofs_Axes Proofs_Index Proofs_View Proofs_View2 Proofs_Tensor Proofs_Tensor2 Proofs_Tensor3 Proofs_Ops Proofs_Ops2 Proofs_Ops3.
Local Open Scope Z_scope.

(* ---- direct sum ---- *)
Lemma filter_nonneg l : nonneg l -> filter (fun p => 0 <=? p) l = l.
Proof. unfold nonneg. induction 1 as [|a l Ha Hl IH]; [reflexivity|]. cbn. apply Z.leb_le in Ha. now rewrite Ha, IH. Qed.
Lemma gvec_le_add x : forall y, nonneg y -> length y = length x -> gvec_le x (zipadd x y) = true.
Proof.
  induction x as [|a x IH]; intros [|c y] Hy L; try discriminate; [reflexivity|]. inversion Hy; subst. injection L as L. cbn.
  destruct (a =? a + c) eqn:E; [now apply IH|]. apply Z.leb_le. lia.
Qed.
Lemma zipadd_nonneg x : forall y, nonneg x -> nonneg y -> nonneg (zipadd x y).
Proof. unfold nonneg. induction x as [|a x IH]; intros [|c y] Hx Hy; cbn; try constructor; inversion Hx; inversion Hy; subst; [lia|auto]. Qed.
Lemma zipadd_le x : forall y z, length y = length x -> length z = length x -> nonneg z ->
  Forall2 Z.le (zipadd x y) (zipadd x y) /\ Forall2 Z.le x (zipadd x z).
Proof.
  induction x as [|a x IH]; intros [|c y] [|e z] L1 L2 Hz; try discriminate; [split; constructor|].
  injection L1 as L1. injection L2 as L2. inversion Hz; subst. destruct (IH y z L1 L2) as [A B]; [assumption|]. cbn. split; constructor; auto; lia.
Qed.
Lemma zero_add (n : nat) x : length x = n -> zipadd (repeat 0 n) x = x.
Proof. revert x; induction n as [|n IH]; intros [|a x] L; try discriminate; [reflexivity|]. cbn. f_equal. apply IH. now injection L. Qed.
Lemma below_range ix : forall dx dy, length dx = length dy -> in_range ix (zipadd dx dy) ->
  (below ix dx = true <-> in_range ix dx).
Proof.
  unfold below. induction ix as [|i ix IH]; intros [|a dx] [|c dy] L H; try discriminate; try (inversion H; fail).
  - split; [constructor|reflexivity].
  - inversion H as [|? ? ? ? H1 H2]; subst. injection L as L. cbn. rewrite andb_true_iff. rewrite (IH dx dy L H2). rewrite Z.ltb_lt. split.
    + intros [A B]. constructor; [lia|exact B].
    + intro A. inversion A; subst. split; [lia|assumption].
Qed.
Lemma beyond_range ix : forall dx dy, length dx = length dy -> in_range ix (zipadd dx dy) ->
  (beyond ix dx = true <-> exists jx, in_range jx dy /\ zipadd dx jx = ix).
Proof.
  unfold beyond. induction ix as [|i ix IH]; intros [|a dx] [|c dy] L H; try discriminate; try (inversion H; fail).
  - split; [exists []; split; [constructor|reflexivity]|reflexivity].
  - inversion H as [|? ? ? ? H1 H2]; subst. injection L as L. cbn. rewrite andb_true_iff. rewrite (IH dx dy L H2). rewrite Z.leb_le. split.
    + intros (A & jx & B1 & B2). exists ((i - a) :: jx). split; [constructor; [lia|assumption]|]. cbn. f_equal; [lia|assumption].
    + intros (jx & A & B). inversion A as [|j ? jx' ? A1 A2]; subst. cbn in B. injection B as B1 B2. split; [lia|]. eauto.
Qed.
Lemma sub_back ix : forall dx jx, length jx = length dx -> zipadd dx jx = ix -> zmap2 Z.sub ix dx = jx.
Proof.
  induction ix as [|i ix IH]; intros [|a dx] [|j jx] L E; try discriminate; [reflexivity|]. injection L as L. cbn in E. injection E as E1 E2. cbn.
  f_equal; [lia|]. now apply IH.
Qed.
Lemma below_beyond ix : forall dx dy, length dx = length dy -> dx <> [] -> in_range ix (zipadd dx dy) -> below ix dx = true -> beyond ix dx = true -> False.
Proof.
  intros dx dy L Hne H A B. apply (below_range ix dx dy L H) in A. apply (beyond_range ix dx dy L H) in B as (jx & B1 & B2).
  destruct dx as [|a dx]; [contradiction|]. destruct dy as [|c dy]; [discriminate|]. inversion B1; subst. cbn in A. inversion A; subst. lia.
Qed.
Lemma window_plain b d off e : nonneg d -> nonneg e -> Forall (fun s => s < INT_MAX) (strides_of 1 d) -> length e = length d -> e <> [] ->
  plain_layout (View b off e (strides_of 1 d)).
Proof.
  intros Hd He Hs L Hne. destruct (fresh_plain b d Hd Hs) as (A & B & C & D). cbn in *.
  split; [cbn; congruence|]. split; [assumption|]. split; [assumption|]. right. cbn. destruct D as [->|D]; [|exact D].
  destruct e; [contradiction|discriminate].
Qed.

Section RingFacts.
Context {R : cring}.
Add Ring RrOp4 : (cth R).
Notation memR := (mem (car R)).

Lemma oplus_new b x y (m : memR) : vwf x -> vwf y -> length (vdims y) = length (vdims x) -> vdims x <> [] ->
  readable m x -> readable m y -> Forall (fun s => s < INT_MAX) (strides_of 1 (zipadd (vdims x) (vdims y))) -> (forall a, m b a = None) ->
  exists r m', op_oplus b x y m = Ok (r, m') /\
    makes b m m' r (zipadd (vdims x) (vdims y))
      (fun kx => if below kx (vdims x) then elem0 m x kx
                 else if beyond kx (vdims x) then elem0 m y (zmap2 Z.sub kx (vdims x)) else c0).
Proof.
  intros Wx Wy L Hne Rx Ry Hs Hb. pose proof (proj2 Wx) as Nx. pose proof (proj2 Wy) as Ny.
  unfold op_oplus, ndims, gvec_add. rewrite L, Z.eqb_refl, Nat.eqb_refl. cbn [assrt bind zeros].
  set (d := zipadd (vdims x) (vdims y)) in *. assert (Hn : nonneg d) by now apply zipadd_nonneg.
  assert (Ld : length d = length (vdims x)) by now apply zipadd_length.
  set (r := fresh_view b d). set (m1 := alloc c0 b (asize d) m).
  assert (Wr : vwf r) by now apply fresh_vwf.
  assert (Hd : distinct_cells r) by now apply fresh_distinct.
  assert (Rr : readable m1 r) by now apply fresh_rd.
  destruct (fresh_beside c0 b d m x Hn Wx Rx Hb) as (D1 & _ & E1 & R1). fold r in D1. fold m1 in E1, R1.
  destruct (fresh_beside c0 b d m y Hn Wy Ry Hb) as (D2 & _ & E2 & R2). fold r in D2. fold m1 in E2, R2.
  destruct (zipadd_le (vdims x) (vdims y) (vdims y) L L Ny) as [Le1 Le2].
  (* the first window *)
  unfold block_dims. change (vdims r) with d. unfold d. rewrite gvec_le_add by assumption. fold d. cbn [assrt bind].
  set (w1 := View (vblk r) (voff r) (vdims x) (vstr r)).
  assert (Hw1 : forall ix, in_range ix (vdims w1) -> in_range ix (vdims r) /\ vaddr w1 ix = vaddr r ix).
  { intros ix Hix. destruct (window_embeds r (repeat 0 (length (vdims x))) (vdims x) Wr) as (_ & Sh & _); auto.
    - unfold nonneg. clear. induction (length (vdims x)); constructor; auto; lia.
    - apply repeat_length.
    - rewrite zero_add by reflexivity. exact Le2.
    - destruct (Sh ix) as [S1 S2]; [exact Hix|]. rewrite zero_add in S1, S2 by (now rewrite (in_range_length _ _ Hix)).
      split; [exact S1|]. rewrite <- S2. unfold vaddr. cbn. destruct (offs _ ix); cbn; [|reflexivity..].
      do 3 f_equal. clear. generalize (strides_of 1 d). generalize (length (vdims x)). intros n l. revert n.
      induction l as [|s l IH]; intros [|n]; cbn; try reflexivity. specialize (IH n). lia. }
  destruct (assign_ok w1 x m1) as (m2 & Ea1 & V1 & U1); try assumption; try reflexivity.
  { apply window_plain; auto. }
  { intros i j Hi Hj Eij. destruct (Hw1 i Hi) as [A1 A2], (Hw1 j Hj) as [B1 B2]. apply Hd; congruence. }
  { intros i Hi. rewrite (window_elem m1 w1 r (fun ix => ix) Hw1 i Hi). apply Rr. now apply Hw1. }
  { intros i j Hi Hj Eij. exfalso. destruct (Hw1 i Hi) as [A1 A2]. apply (D1 i j); [assumption..|]. congruence. }
  rewrite Ea1. cbn [bind]. destruct (window_keeps m1 m2 w1 r (fun ix => ix) Hw1 Hd U1) as [K1 U1'].
  (* the second window *)
  rewrite filter_nonneg by assumption.
  destruct (C08_block_l r (vdims y) (vdims x)) as (w2 & Eb & _ & Dw2 & Ww2 & Hw2); try assumption; [congruence|].
  rewrite Eb. cbn [bind].
  assert (Pw2 : plain_layout w2).
  { rewrite (block_at_ok (vdims y) (vdims x) r) in Eb by (try assumption; congruence). injection Eb as <-.
    assert (vdims y <> []) by (intro E; rewrite E in L; destruct (vdims x); [contradiction|discriminate]).
    apply window_plain; auto; congruence. }
  rewrite <- Dw2 in Hw2.
  assert (Rr2 : readable m2 r).
  { intros i Hi. destruct (below i (vdims x)) eqn:Bi.
    - apply (below_range i (vdims x) (vdims y)) in Bi; [|congruence|exact Hi].
      rewrite <- (window_elem m2 w1 r (fun ix => ix) Hw1 i Bi), V1 by assumption. now apply R1.
    - rewrite K1; [now apply Rr|assumption|]. intros j Hj <-. enough (below j (vdims x) = true) by congruence. apply (below_range j (vdims x) (vdims y)); [congruence|exact Hi|exact Hj]. }
  destruct (assign_ok w2 y m2) as (m3 & Ea2 & V2 & U2); try assumption; [congruence|..].
  { intros i j Hi Hj Eij. destruct (Hw2 i Hi) as [A1 A2], (Hw2 j Hj) as [B1 B2].
    apply (zipadd_inj (vdims x)); [rewrite (in_range_length _ _ Hi); congruence|rewrite (in_range_length _ _ Hj); congruence|]. apply Hd; congruence. }
  { intros i Hi. rewrite (window_elem m2 w2 r (zipadd (vdims x)) Hw2 i Hi). apply Rr2. now apply Hw2. }
  { apply (keep_readable r y m1 m2); assumption. }
  { intros i j Hi Hj Eij. exfalso. destruct (Hw2 i Hi) as [A1 A2]. apply (D2 (zipadd (vdims x) i) j); [assumption..|]. congruence. }
  rewrite Ea2. cbn [bind]. destruct (window_keeps m2 m3 w2 r (zipadd (vdims x)) Hw2 Hd U2) as [K2 U2'].
  exists r, m3. split; [reflexivity|]. apply (makes_fresh c0); [assumption|now apply (untouched_trans m1 m2 m3)|].
  intros kx Hk. fold r. destruct (below kx (vdims x)) eqn:Bk; [|destruct (beyond kx (vdims x)) eqn:Yk].
  - assert (Hin : in_range kx (vdims x)) by now apply (below_range kx (vdims x) (vdims y)).
    rewrite K2.
    + rewrite <- (window_elem m2 w1 r (fun ix => ix) Hw1 kx Hin), V1, E1 by assumption. now apply readable_elem.
    + exact Hk.
    + intros i Hi Ei. apply (below_beyond kx (vdims x) (vdims y)); auto. apply (beyond_range kx (vdims x) (vdims y)); auto. rewrite Dw2 in Hi. eauto.
  - apply (beyond_range kx (vdims x) (vdims y)) in Yk as (jx & J1 & J2); [|congruence|exact Hk].
    rewrite (sub_back kx (vdims x) jx) by (try assumption; rewrite (in_range_length _ _ J1); exact L).
    rewrite <- J2. rewrite <- Dw2 in J1. rewrite <- (window_elem m3 w2 r (zipadd (vdims x)) Hw2 jx J1), V2 by assumption.
    rewrite Dw2 in J1. rewrite (disjoint_keep r y m1 m2), E2 by assumption. now apply readable_elem.
  - rewrite K2, K1.
    + now apply fresh_readable.
    + exact Hk.
    + intros j Hj <-. enough (below j (vdims x) = true) by congruence. apply (below_range j (vdims x) (vdims y)); [congruence|exact Hk|exact Hj].
    + exact Hk.
    + intros i Hi Ei. assert (beyond kx (vdims x) = true); [|congruence].
      apply (beyond_range kx (vdims x) (vdims y)); auto. rewrite Dw2 in Hi. eauto.
Qed.

(* ---- squared distance ---- *)
Lemma diff2_ok x y (m : memR) : vwf x -> vwf y -> vdims y = vdims x -> readable m x -> readable m y ->
  tv_diff2 x y m = Ok (rsum (map (fun ix => cmul (csub (elem0 m y ix) (elem0 m x ix)) (csub (elem0 m y ix) (elem0 m x ix))) (all_indices (vdims x)))).
Proof.
  intros Wx Wy D Rx Ry. unfold tv_diff2. rewrite D, Z.eqb_refl. cbn [assrt].
  pose proof Wx as [Lx Nx]. pose proof Wy as [Ly Ny]. rewrite D in Ly.
  destruct (is_regular (vstr x) (vdims x)) as [a| |] eqn:Ea.
  2,3: unfold is_regular in Ea; rewrite Lx, Nat.eqb_refl in Ea; discriminate.
  destruct (is_regular (vstr y) (vdims x)) as [b| |] eqn:Eb.
  2,3: unfold is_regular in Eb; rewrite Ly, Nat.eqb_refl in Eb; discriminate.
  cbn [bind].
  assert (Hc : (if a then Ok b else Ok false) = Ok (a && b)) by (destruct a; reflexivity). rewrite Hc. cbn [bind]. clear Hc.
  destruct (a && b) eqn:E.
  - apply andb_prop in E as [-> ->]. apply is_regular_iff in Ea; [|assumption]. apply is_regular_iff in Eb; [|assumption].
    unfold forZ. rewrite asize_prod, <- row_major_addrs by assumption. rewrite foldM_map.
    rewrite (sum_loop _ _ (fun ix => cmul (csub (elem0 m y ix) (elem0 m x ix)) (csub (elem0 m y ix) (elem0 m x ix)))); [f_equal; ring|].
    intros ix t Hix. apply in_all_indices in Hix.
    pose proof (readable_elem m x ix Rx Hix) as E1.
    assert (Hiy : in_range ix (vdims y)) by (rewrite D; exact Hix). pose proof (readable_elem m y ix Ry Hiy) as E2.
    rewrite elem_cell in E1 by assumption. rewrite elem_cell in E2 by (try assumption; apply Wy).
    unfold at_, cell in E1, E2. cbn in E1, E2. rewrite Ea in E1. rewrite Eb in E2.
    unfold load. rewrite E2. cbn. rewrite E1. reflexivity.
  - assert (Hne : vdims x <> []).
    { intro Dn. rewrite Dn in Ea, Eb, Lx, Ly. destruct (vstr x), (vstr y); try discriminate.
      cbn in Ea, Eb. injection Ea as <-. injection Eb as <-. discriminate. }
    rewrite foreach_index_fold by assumption.
    rewrite (sum_loop _ _ (fun ix => cmul (csub (elem0 m y ix) (elem0 m x ix)) (csub (elem0 m y ix) (elem0 m x ix)))); [f_equal; ring|].
    intros ix t Hix. apply in_all_indices in Hix.
    assert (Hiy : in_range ix (vdims y)) by (rewrite D; exact Hix).
    rewrite !vaddr_cell by (try assumption; apply Wy). cbn [bind].
    pose proof (readable_elem m x ix Rx Hix) as E1. pose proof (readable_elem m y ix Ry Hiy) as E2.
    rewrite elem_cell in E1 by assumption. rewrite elem_cell in E2 by (try assumption; apply Wy).
    rewrite (loadA_some _ _ _ E1), (loadA_some _ _ _ E2). reflexivity.
Qed.
End RingFacts.

(* ---- extreme elements ---- *)
Lemma first_elem r (m : mem Z) : vwf r -> readable m r -> positive (vdims r) ->
  exists z v0, in_range z (vdims r) /\ elem m r z = Some v0 /\ m (vblk r) (voff r) = Some v0.
Proof.
  intros Wr Rr Hp. pose (z := repeat 0 (length (vdims r))).
  assert (Hz : in_range z (vdims r)).
  { unfold z. clear -Hp. induction Hp as [|x l Hx Hl IH]; cbn; constructor; [lia|exact IH]. }
  assert (Ez : elem m r z = m (vblk r) (voff r)).
  { rewrite elem_cell by (try assumption; apply Wr). unfold at_, cell. cbn. f_equal.
    enough (dot (vstr r) z = 0) by lia. unfold z. clear. generalize (length (vdims r)).
    induction (vstr r) as [|s l IH]; intros [|n]; cbn; try reflexivity. rewrite IH. lia. }
  pose proof (Rr z Hz) as Hv0. destruct (elem m r z) as [v0|] eqn:E0; [|congruence]. exists z, v0. auto.
Qed.
Lemma min_ok r (m : mem Z) : vwf r -> nonneg (vstr r) -> distinct_cells r -> readable m r -> positive (vdims r) ->
  exists v, tv_min (R := ZRing) Z.ltb r m = Ok v /\
    (forall ix, in_range ix (vdims r) -> exists w, elem m r ix = Some w /\ v <= w) /\
    (exists ix, in_range ix (vdims r) /\ elem m r ix = Some v).
Proof.
  intros Wr Ns Hd Rr Hp. unfold tv_min. rewrite asize_prod. pose proof (prod_pos _ Hp) as Hpp.
  replace (prod (vdims r) =? 0) with false by lia.
  destruct (first_elem r m Wr Rr Hp) as (z & v0 & Hz & Ez & E0).
  unfold load. rewrite E0. cbn [bind].
  destruct (reduce_ok (R := ZRing) (fun t v => if v <? t then v else t) r v0 m) as (vals & Ered & P); try assumption.
  cbn [car ZRing] in *. rewrite Ered. eexists. split; [reflexivity|].
  assert (G : forall l t, let v := fold_left (fun t v => if v <? t then v else t) l t in
     v <= t /\ (forall x, In x l -> v <= x) /\ (v = t \/ In v l)).
  { induction l as [|a l IH]; intro t; cbn; [repeat split; [lia|intros ? []|now left]|].
    destruct (IH (if a <? t then a else t)) as (A & B & C). cbv zeta in *.
    set (v := fold_left _ l _) in *. clearbody v. destruct (a <? t) eqn:E.
    - repeat split; [lia| |]; [intros x [->|Hx]; [lia|now apply B]|]. destruct C; [right; left; congruence|now right; right].
    - repeat split; [lia| |]; [intros x [->|Hx]; [lia|now apply B]|]. destruct C; [now left|now right; right]. }
  destruct (G vals v0) as (A & B & C). cbv zeta in *. set (v := fold_left _ vals v0) in *. clearbody v.
  assert (Hin : forall ix, in_range ix (vdims r) -> In (elem0 (R := ZRing) m r ix) vals).
  { intros ix Hix. rewrite P. apply in_map. now apply in_all_indices. }
  split.
  - intros ix Hix. pose proof (readable_elem (R := ZRing) m r ix Rr Hix) as E. eexists. split; [exact E|]. now apply B, Hin.
  - destruct C as [->|Hv].
    + exists z. auto.
    + rewrite P in Hv. apply in_map_iff in Hv as (ix & E & Hix). apply in_all_indices in Hix.
      exists ix. split; [assumption|]. rewrite <- E. now apply (readable_elem (R := ZRing)).
Qed.
Lemma max_abs_ok r (m : mem Z) : vwf r -> nonneg (vstr r) -> distinct_cells r -> readable m r -> positive (vdims r) ->
  exists v, tv_max_abs (R := ZRing) Z.gtb Z.abs r m = Ok v /\
    (forall ix, in_range ix (vdims r) -> exists w, elem m r ix = Some w /\ Z.abs w <= v) /\
    (exists ix w, in_range ix (vdims r) /\ elem m r ix = Some w /\ v = Z.abs w).
Proof.
  intros Wr Ns Hd Rr Hp. unfold tv_max_abs. rewrite asize_prod. pose proof (prod_pos _ Hp) as Hpp.
  replace (prod (vdims r) =? 0) with false by lia.
  destruct (first_elem r m Wr Rr Hp) as (z & v0 & Hz & Ez & E0).
  unfold load. rewrite E0. cbn [bind].
  destruct (reduce_ok (R := ZRing) (fun t v => if Z.abs v >? t then Z.abs v else t) r v0 m) as (vals & Ered & P); try assumption.
  cbn [car ZRing] in *. rewrite Ered. eexists. split; [reflexivity|].
  assert (G : forall l t, let v := fold_left (fun t v => if Z.abs v >? t then Z.abs v else t) l t in
     t <= v /\ (forall x, In x l -> Z.abs x <= v) /\ (v = t \/ exists x, In x l /\ v = Z.abs x)).
  { induction l as [|a l IH]; intro t; cbn; [repeat split; [lia|intros ? []|now left]|].
    destruct (IH (if Z.abs a >? t then Z.abs a else t)) as (A & B & C). cbv zeta in *.
    set (v := fold_left _ l _) in *. clearbody v. destruct (Z.abs a >? t) eqn:E.
    - repeat split; [lia| |]; [intros x [->|Hx]; [lia|now apply B]|]. right. destruct C as [C|(x & C1 & C2)]; [exists a; auto|exists x; auto].
    - repeat split; [lia| |]; [intros x [->|Hx]; [lia|now apply B]|]. destruct C as [C|(x & C1 & C2)]; [now left|right; exists x; auto]. }
  destruct (G vals v0) as (A & B & C). cbv zeta in *. set (v := fold_left _ vals v0) in *. clearbody v.
  assert (Hin : forall ix, in_range ix (vdims r) -> In (elem0 (R := ZRing) m r ix) vals).
  { intros ix Hix. rewrite P. apply in_map. now apply in_all_indices. }
  split.
  - intros ix Hix. pose proof (readable_elem (R := ZRing) m r ix Rr Hix) as E. eexists. split; [exact E|]. now apply B, Hin.
  - destruct C as [->|(x & Hx & ->)].
    + exists z, v0. split; [assumption|]. split; [assumption|].
      assert (Hz0 : elem0 (R := ZRing) m r z = v0) by (unfold elem0; cbn [car ZRing]; now rewrite Ez). pose proof (B _ (Hin z Hz)) as Hq. rewrite Hz0 in Hq. lia.
    + rewrite P in Hx. apply in_map_iff in Hx as (ix & E & Hix). apply in_all_indices in Hix.
      exists ix, x. split; [assumption|]. split; [|reflexivity]. rewrite <- E. now apply (readable_elem (R := ZRing)).
Qed.
