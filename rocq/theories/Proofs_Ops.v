From Verif Require Import Base BaseFacts Model_Index Model_View Model_Tensor Model_Ops Spec_Index Spec_View Spec_Tensor Spec_Ops
  Proofs_Axes Proofs_Index Proofs_View Proofs_View2 Proofs_Tensor Proofs_Tensor2 Proofs_Tensor3.
Local Open Scope Z_scope.

(* ---- a fresh tensor beside existing ones ---- *)
Lemma fresh_vwf b dims : nonneg dims -> vwf (fresh_view b dims).
Proof. intro H. split; [apply strides_of_length|exact H]. Qed.
Lemma readable_block {V} (m : mem V) b x : vwf x -> readable m x -> (forall a, m b a = None) ->
  forall ix, in_range ix (vdims x) -> exists a, vaddr x ix = Ok (vblk x, a) /\ vblk x <> b.
Proof.
  intros [Lx _] Rx Hb ix Hix. rewrite vaddr_cell by assumption. unfold cell. eexists. split; [reflexivity|].
  intro E. apply (Rx ix Hix). unfold elem. rewrite vaddr_cell by assumption. cbn. rewrite E. apply Hb.
Qed.
Lemma fresh_beside {V} (z : V) b dims m x : nonneg dims -> vwf x -> readable m x -> (forall a, m b a = None) ->
  disjoint_views (fresh_view b dims) x /\ no_clobber (fresh_view b dims) x /\
  (forall ix, in_range ix (vdims x) -> elem (alloc z b (asize dims) m) x ix = elem m x ix) /\
  readable (alloc z b (asize dims) m) x.
Proof.
  intros Hn Wx Rx Hb. pose proof (readable_block m b x Wx Rx Hb) as Hxb.
  destruct (fresh_inside b dims Hn) as [Hin _].
  assert (D : disjoint_views (fresh_view b dims) x).
  { intros ix jx Hix Hjx E. destruct (Hin ix Hix) as (a & Ea & _). destruct (Hxb jx Hjx) as (a' & Ea' & Hne).
    rewrite Ea, Ea' in E. injection E as E _. congruence. }
  assert (K : forall ix, in_range ix (vdims x) -> elem (alloc z b (asize dims) m) x ix = elem m x ix).
  { intros ix Hix. destruct (Hxb ix Hix) as (a & Ea & Hne). unfold elem. rewrite Ea. now rewrite alloc_other. }
  split; [exact D|]. split; [|split; [exact K|]].
  - intros ix jx Hix Hjx E. exfalso. now apply (D ix jx).
  - intros ix Hix. rewrite K by assumption. now apply Rx.
Qed.
Lemma fresh_done {V} (z : V) b dims (m m' : mem V) : nonneg dims ->
  untouched (alloc z b (asize dims) m) m' (fresh_view b dims) -> forall b' a, b' <> b -> m' b' a = m b' a.
Proof.
  intros Hn U b' a Hne. rewrite U; [now apply alloc_other|]. intros ix Hix E. apply vaddr_blk in E. cbn in E. congruence.
Qed.
Lemma fresh_rd {V} (z : V) b dims m : nonneg dims -> readable (alloc z b (asize dims) m) (fresh_view b dims).
Proof. intros Hn ix Hix. rewrite fresh_readable; [discriminate|assumption|exact Hix]. Qed.
Lemma fresh_distinct b dims : nonneg dims -> distinct_cells (fresh_view b dims).
Proof. intro Hn. apply (fresh_inside b dims Hn). Qed.
Lemma makes_fresh {V} (z : V) b dims (m m' : mem V) f : nonneg dims ->
  untouched (alloc z b (asize dims) m) m' (fresh_view b dims) ->
  (forall ix, in_range ix dims -> elem m' (fresh_view b dims) ix = Some (f ix)) ->
  makes b m m' (fresh_view b dims) dims f.
Proof.
  intros Hn U E. split; [reflexivity|]. split; [reflexivity|]. split; [now apply fresh_vwf|]. split; [now apply fresh_distinct|].
  split; [exact E|]. now apply (fresh_done z b dims).
Qed.
(* a copy, then an in-place operation that only writes the copy *)
Lemma copy_fresh {V} (z : V) b x (m : mem V) : vwf x -> readable m x ->
  Forall (fun s => s < INT_MAX) (strides_of 1 (vdims x)) -> (forall a, m b a = None) ->
  exists m1, tv_copy z b x m = Ok (fresh_view b (vdims x), m1) /\
    (forall ix, in_range ix (vdims x) -> elem m1 (fresh_view b (vdims x)) ix = elem m x ix) /\
    (forall b' a, b' <> b -> m1 b' a = m b' a).
Proof.
  intros Wx Rx Hm Hb. destruct (copy_ok z b x m Wx Rx Hm Hb) as (r & m1 & E & _ & A & _ & _ & B).
  assert (r = fresh_view b (vdims x)) as ->.
  { unfold tv_copy in E. destruct (tv_assign _ _ _) as [m2| |]; try discriminate. cbn in E. injection E as <- _. reflexivity. }
  exists m1. auto.
Qed.
Lemma others_elem {V} b (m m1 : mem V) x : vwf x -> readable m x -> (forall a, m b a = None) ->
  (forall b' a, b' <> b -> m1 b' a = m b' a) -> forall ix, in_range ix (vdims x) -> elem m1 x ix = elem m x ix.
Proof.
  intros Wx Rx Hb Ho ix Hix. destruct (readable_block m b x Wx Rx Hb ix Hix) as (a & Ea & Hne).
  unfold elem. rewrite Ea. now apply Ho.
Qed.
Lemma fresh_apart {V} b dims (m : mem V) x : nonneg dims -> vwf x -> readable m x -> (forall a, m b a = None) ->
  disjoint_views (fresh_view b dims) x.
Proof.
  intros Hn Wx Rx Hb ix jx Hix Hjx E. destruct (fresh_inside b dims Hn) as [Hin _].
  destruct (Hin ix Hix) as (a & Ea & _). destruct (readable_block m b x Wx Rx Hb jx Hjx) as (a' & Ea' & Hne).
  rewrite Ea, Ea' in E. injection E as E _. congruence.
Qed.
Lemma makes_copy {V} b dims (m m1 m' : mem V) f : nonneg dims ->
  (forall b' a, b' <> b -> m1 b' a = m b' a) -> untouched m1 m' (fresh_view b dims) ->
  (forall ix, in_range ix dims -> elem m' (fresh_view b dims) ix = Some (f ix)) ->
  makes b m m' (fresh_view b dims) dims f.
Proof.
  intros Hn Ho U E. split; [reflexivity|]. split; [reflexivity|]. split; [now apply fresh_vwf|]. split; [now apply fresh_distinct|].
  split; [exact E|]. intros b' a Hne. rewrite U; [now apply Ho|]. intros ix Hix E'. apply vaddr_blk in E'. cbn in E'. congruence.
Qed.

Section RingFacts.
Context {R : cring}.
Add Ring RrOps : (cth R).
Notation memR := (mem (car R)).
Notation small x := (Forall (fun s => s < INT_MAX) (strides_of 1 (vdims x))).

Lemma addc_fresh b x c (m : memR) : vwf x -> readable m x -> (forall a, m b a = None) ->
  exists m', tv_addc (fresh_view b (vdims x)) x c (alloc c0 b (asize (vdims x)) m) = Ok m' /\
    (forall ix, in_range ix (vdims x) -> elem m' (fresh_view b (vdims x)) ix = Some (cmul c (elem0 m x ix))) /\
    untouched (alloc c0 b (asize (vdims x)) m) m' (fresh_view b (vdims x)).
Proof.
  intros Wx Rx Hb. pose proof (proj2 Wx) as Hn. set (m1 := alloc c0 b (asize (vdims x)) m).
  destruct (fresh_beside c0 b (vdims x) m x Hn Wx Rx Hb) as (_ & Nc & Ex & Rx1). fold m1 in Ex, Rx1.
  unfold tv_addc. rewrite asz_refl by reflexivity. cbn [assrt].
  destruct (reg_or_each_ok (f_addc c) (fresh_view b (vdims x)) [x] m1) as (m' & E & W); auto using fresh_vwf, fresh_distinct.
  { now apply fresh_rd. }
  exists m'. split; [exact E|]. split; [|apply W].
  intros ix Hix. rewrite (ew1 _ _ x m1 m' W ix c0 (elem0 m x ix) Hix).
  - cbn. f_equal. ring.
  - unfold m1. now apply fresh_readable.
  - rewrite Ex by assumption. now apply readable_elem.
Qed.
Lemma times_new b x c (m : memR) : vwf x -> readable m x -> (forall a, m b a = None) ->
  exists r m', op_times b x c m = Ok (r, m') /\ makes b m m' r (vdims x) (fun ix => cmul c (elem0 m x ix)).
Proof.
  intros Wx Rx Hb. unfold op_times, zeros. destruct (addc_fresh b x c m Wx Rx Hb) as (m' & E & A & U).
  rewrite E. cbn [bind]. eexists _, m'. split; [reflexivity|]. eapply makes_fresh; eauto. apply Wx.
Qed.
Lemma neg_new b x (m : memR) : vwf x -> readable m x -> (forall a, m b a = None) ->
  exists r m', op_neg b x m = Ok (r, m') /\ makes b m m' r (vdims x) (fun ix => copp (elem0 m x ix)).
Proof.
  intros Wx Rx Hb. unfold op_neg, zeros. destruct (addc_fresh b x (copp c1) m Wx Rx Hb) as (m' & E & A & U).
  rewrite E. cbn [bind]. eexists _, m'. split; [reflexivity|]. eapply makes_fresh; eauto; [apply Wx|].
  intros ix Hix. rewrite A by assumption. f_equal. ring.
Qed.
Lemma scalar_fresh eq0 b dims (c : R) (m1 : memR) (f : list Z -> R) : nonneg dims ->
  Forall (fun s => s < INT_MAX) (strides_of 1 dims) -> dims <> [] -> (eq0 c = true -> c = c0) ->
  (forall ix, in_range ix dims -> elem m1 (fresh_view b dims) ix = Some (f ix)) ->
  exists m', tv_add_scalar eq0 (fresh_view b dims) c m1 = Ok m' /\
    (forall ix, in_range ix dims -> elem m' (fresh_view b dims) ix = Some (cadd (f ix) c)) /\
    untouched m1 m' (fresh_view b dims).
Proof.
  intros Hn Hs Hne H0 F. destruct (add_scalar_ok eq0 (fresh_view b dims) c m1) as (m' & E & W); auto using fresh_vwf, fresh_distinct.
  { intros ix Hix. rewrite F by exact Hix. discriminate. }
  exists m'. split; [exact E|]. split; [|apply W]. intros ix Hix. exact (ew0 _ _ m1 m' W ix (f ix) Hix (F ix Hix)).
Qed.
Lemma add_scalar_new eq0 b x c (m : memR) : vwf x -> readable m x -> small x -> (forall a, m b a = None) ->
  vdims x <> [] -> (eq0 c = true -> c = c0) ->
  exists r m', op_add_scalar eq0 b x c m = Ok (r, m') /\ makes b m m' r (vdims x) (fun ix => cadd (elem0 m x ix) c).
Proof.
  intros Wx Rx Hm Hb Hne H0. unfold op_add_scalar. destruct (copy_fresh c0 b x m Wx Rx Hm Hb) as (m1 & E1 & A1 & O1).
  rewrite E1. cbn [bind].
  destruct (scalar_fresh eq0 b (vdims x) c m1 (elem0 m x)) as (m' & E & A & U); auto; [apply Wx| |].
  { intros ix Hix. rewrite A1 by assumption. now apply readable_elem. }
  rewrite E. cbn [bind]. eexists _, m'. split; [reflexivity|]. eapply makes_copy; eauto. apply Wx.
Qed.
Lemma sub_scalar_new eq0 b x c (m : memR) : vwf x -> readable m x -> small x -> (forall a, m b a = None) ->
  vdims x <> [] -> (eq0 (copp c) = true -> copp c = c0) ->
  exists r m', op_sub_scalar eq0 b x c m = Ok (r, m') /\ makes b m m' r (vdims x) (fun ix => csub (elem0 m x ix) c).
Proof.
  intros Wx Rx Hm Hb Hne H0. destruct (add_scalar_new eq0 b x (copp c) m Wx Rx Hm Hb Hne H0) as (r & m' & E & A1 & A2 & A3 & A4 & A5 & A6).
  exists r, m'. split; [exact E|]. repeat (split; [assumption|]). split; [|assumption].
  intros ix Hix. rewrite A5 by assumption. f_equal. ring.
Qed.
Lemma scalar_sub_new eq0 b x c (m : memR) : vwf x -> readable m x -> small x -> (forall a, m b a = None) ->
  vdims x <> [] -> (eq0 c = true -> c = c0) ->
  exists r m', op_scalar_sub eq0 b c x m = Ok (r, m') /\ makes b m m' r (vdims x) (fun ix => csub c (elem0 m x ix)).
Proof.
  intros Wx Rx Hm Hb Hne H0. unfold op_scalar_sub, zeros. destruct (addc_fresh b x (copp c1) m Wx Rx Hb) as (m1 & E1 & A1 & U1).
  rewrite E1. cbn [bind].
  destruct (scalar_fresh eq0 b (vdims x) c m1 (fun ix => cmul (copp c1) (elem0 m x ix))) as (m' & E & A & U); auto; [apply Wx|].
  rewrite E. cbn [bind]. eexists _, m'. split; [reflexivity|].
  eapply (makes_copy b (vdims x) m m1); eauto; [apply Wx| |].
  - apply (fresh_done c0 b (vdims x)); [apply Wx|exact U1].
  - intros ix Hix. rewrite A by assumption. f_equal. ring.
Qed.
Lemma copied b x y (m m1 : memR) : vwf x -> vwf y -> vdims y = vdims x -> readable m x -> readable m y -> (forall a, m b a = None) ->
  (forall ix, in_range ix (vdims x) -> elem m1 (fresh_view b (vdims x)) ix = elem m x ix) ->
  (forall b' a, b' <> b -> m1 b' a = m b' a) ->
  readable m1 (fresh_view b (vdims x)) /\ readable m1 y /\ no_clobber (fresh_view b (vdims x)) y /\
  (forall ix, in_range ix (vdims x) -> elem m1 y ix = Some (elem0 m y ix) /\ elem m1 (fresh_view b (vdims x)) ix = Some (elem0 m x ix)).
Proof.
  intros Wx Wy D Rx Ry Hb A1 O1. pose proof (others_elem b m m1 y Wy Ry Hb O1) as Ey.
  split; [|split; [|split]].
  - intros ix Hix. rewrite A1 by exact Hix. now apply Rx.
  - intros ix Hix. rewrite Ey by exact Hix. now apply Ry.
  - intros ix jx Hix Hjx E. exfalso. now apply (fresh_apart b (vdims x) m y (proj2 Wx) Wy Ry Hb ix jx).
  - intros ix Hix. assert (Hiy : in_range ix (vdims y)) by now rewrite D. split; [rewrite Ey by exact Hiy; now apply readable_elem|].
    rewrite A1 by assumption. now apply readable_elem.
Qed.
Lemma add_new b x y (m : memR) : vwf x -> vwf y -> vdims y = vdims x -> readable m x -> readable m y -> small x ->
  (forall a, m b a = None) ->
  exists r m', op_add b x y m = Ok (r, m') /\ makes b m m' r (vdims x) (fun ix => cadd (elem0 m x ix) (elem0 m y ix)).
Proof.
  intros Wx Wy D Rx Ry Hm Hb. unfold op_add. destruct (copy_fresh c0 b x m Wx Rx Hm Hb) as (m1 & E1 & A1 & O1).
  rewrite E1. cbn [bind]. destruct (copied b x y m m1 Wx Wy D Rx Ry Hb A1 O1) as (K1 & K2 & K3 & K4).
  destruct (add_ok (fresh_view b (vdims x)) y m1) as (m' & E & A & U); auto using fresh_distinct.
  { apply fresh_plain; [apply Wx|assumption]. } { apply fresh_distinct, Wx. }
  rewrite E. cbn [bind]. eexists _, m'. split; [reflexivity|]. eapply makes_copy; eauto; [apply Wx|].
  intros ix Hix. destruct (K4 ix Hix). now apply A.
Qed.
Lemma sub_new b x y (m : memR) : vwf x -> vwf y -> vdims y = vdims x -> readable m x -> readable m y -> small x ->
  (forall a, m b a = None) ->
  exists r m', op_sub b x y m = Ok (r, m') /\ makes b m m' r (vdims x) (fun ix => csub (elem0 m x ix) (elem0 m y ix)).
Proof.
  intros Wx Wy D Rx Ry Hm Hb. unfold op_sub. destruct (copy_fresh c0 b x m Wx Rx Hm Hb) as (m1 & E1 & A1 & O1).
  rewrite E1. cbn [bind]. destruct (copied b x y m m1 Wx Wy D Rx Ry Hb A1 O1) as (K1 & K2 & K3 & K4).
  unfold tv_sub. rewrite asz_refl by (rewrite D; reflexivity). cbn [assrt].
  destruct (reg_or_each_ok f_sub (fresh_view b (vdims x)) [y] m1) as (m' & E & W); auto.
  { apply fresh_vwf, Wx. } { apply fresh_distinct, Wx. }
  rewrite E. cbn [bind]. eexists _, m'. split; [reflexivity|]. eapply makes_copy; eauto; [apply Wx|apply W|].
  intros ix Hix. destruct (K4 ix Hix). now apply (ew1 _ _ y m1 m' W).
Qed.

(* matrix product *)
Lemma mprod_new b x y p n q (m : memR) : vwf x -> vwf y -> vdims x = [p; n] -> vdims y = [n; q] -> readable m x -> readable m y ->
  (forall a, m b a = None) ->
  exists r m', op_mprod b x y m = Ok (r, m') /\
    makes b m m' r [p; q] (fun ix => rsum (map (fun k => cmul (elem0 m x [nth 0 ix 0; k]) (elem0 m y [k; nth 1 ix 0])) (zrange n))).
Proof.
  intros Wx Wy Dx Dy Rx Ry Hb. unfold op_mprod. rewrite Dx, Dy. cbn [dims_mprod bind removelast app zeros].
  assert (Hn : nonneg [p; q]).
  { destruct Wx as [_ Nx]. destruct Wy as [_ Ny]. rewrite Dx in Nx. rewrite Dy in Ny. unfold nonneg in *.
    inversion Nx; inversion Ny; subst. constructor; [assumption|]. now inversion H6; subst. }
  destruct (fresh_beside c0 b [p; q] m x Hn Wx Rx Hb) as (D1 & _ & E1 & R1).
  destruct (fresh_beside c0 b [p; q] m y Hn Wy Ry Hb) as (D2 & _ & E2 & R2).
  unfold zeros. destruct (0 <? asize [p; q]) eqn:Ea.
  - destruct (mprod_ok (fresh_view b [p; q]) x y p n q (alloc c0 b (asize [p; q]) m)) as (m' & E & A & U); auto using fresh_vwf, fresh_distinct, fresh_rd.
    rewrite E. cbn [bind]. eexists _, m'. split; [reflexivity|]. eapply makes_fresh; eauto.
    intros ix Hix. destruct (in_range_2_inv _ _ _ Hix) as (i & j & -> & Hi & Hj).
    rewrite (A i j c0 Hi Hj) by now apply fresh_readable. cbn [nth]. f_equal.
    match goal with |- cadd c0 ?a = _ => transitivity a; [ring|] end. f_equal. apply map_ext_in. intros k Hk. apply in_zrange in Hk.
    unfold elem0. rewrite E1, E2; [reflexivity|rewrite Dy|rewrite Dx]; now apply in_range_2.
  - eexists _, _. split; [reflexivity|]. eapply makes_fresh; auto.
    { intros b' a _. reflexivity. }
    intros ix Hix. exfalso. destruct (in_range_2_inv _ _ _ Hix) as (i & j & -> & Hi & Hj).
    unfold asize in Ea. cbn [fold_left] in Ea. apply Z.ltb_ge in Ea. nia.
Qed.
(* sum over a dimension *)
Lemma sum_new b d x n (m : memR) : vwf x -> readable m x -> nth_error (vdims x) d = Some n ->
  Forall (fun s => s < INT_MAX) (strides_of 1 (del d (vdims x))) -> (forall a, m b a = None) ->
  exists r m', op_sum b (Z.of_nat d) x m = Ok (r, m') /\
    makes b m m' r (del d (vdims x)) (fun ix => rsum (map (fun i => elem0 m x (ins d i ix)) (zrange n))).
Proof.
  intros Wx Rx En Hm Hb. unfold op_sum.
  assert (Hd : (d < length (vdims x))%nat) by (apply nth_error_Some; congruence).
  rewrite vremove_ok' by lia. cbn [bind zeros]. rewrite Nat2Z.id. unfold zeros.
  assert (Hn : nonneg (del d (vdims x))) by apply nonneg_del, Wx.
  destruct (fresh_beside c0 b (del d (vdims x)) m x Hn Wx Rx Hb) as (D1 & _ & E1 & R1).
  destruct (add_sum_ok (fresh_view b (del d (vdims x))) d x n (alloc c0 b (asize (del d (vdims x))) m)) as (m' & E & A & U);
    auto using fresh_distinct, fresh_rd, fresh_plain.
  rewrite E. cbn [bind]. eexists _, m'. split; [reflexivity|]. eapply makes_fresh; eauto.
  intros ix Hix. rewrite (A ix c0 Hix) by now apply fresh_readable. f_equal.
  match goal with |- cadd c0 ?a = _ => transitivity a; [ring|] end. f_equal. apply map_ext_in. intros i Hi. apply in_zrange in Hi.
  unfold elem0. rewrite E1; [reflexivity|]. apply in_range_ins_del; [assumption|exact Hix|]. now rewrite (nth_error_nth _ _ 0 En).
Qed.
End RingFacts.
