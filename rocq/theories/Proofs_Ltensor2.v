(* Proofs_Ltensor2.v -- the batch and grid dimensions of a labelled tensor as one dimension; products. *)
From Verif Require Import Base BaseFacts Model_Index Model_View Model_Tensor Model_Ops Model_RView Model_Ltensor Spec_Index Spec_View Spec_Tensor
  Proofs_Axes Proofs_Index Proofs_View Proofs_View2 Proofs_Tensor Proofs_Tensor2 Proofs_Tensor3 Proofs_Einsum6 Proofs_Convolve2 Proofs_Ops2 Proofs_Ops3 Spec_RView Proofs_RView Proofs_RView2 Proofs_RView3
  Spec_Ltensor Proofs_Ltensor.
Local Open Scope Z_scope.

(* the index with a given row-major position *)
Definition unf (p : Z) (dims : list Z) : list Z := match unflat p dims with Ok ix => ix | _ => [] end.
Lemma unf_ok p dims : positive dims -> 0 <= p < prod dims -> in_range (unf p dims) dims /\ flat (unf p dims) dims = p.
Proof. intros H Hp. destruct (unflat_ok dims p H Hp) as (ix & E & A & B). unfold unf. now rewrite E. Qed.

Lemma app_inj_pre {A} (a b c d : list A) : a ++ c = b ++ d -> length a = length b -> a = b /\ c = d.
Proof. revert b. induction a as [|x a IH]; intros [|y b]; cbn; intros E L; try discriminate L; [auto|]. injection E as -> E. destruct (IH b E) as [-> ->]; [lia|auto]. Qed.

(* leading dimensions p with row-major strides taken as one *)
Lemma merged_view v p q s sq : vwf v -> vdims v = p ++ q -> vstr v = strides_of s p ++ sq -> positive p ->
  let w := View (vblk v) (voff v) (prod p :: q) (s :: sq) in
  vwf w /\ shows w v (fun ix => unf (hd 0 ix) p ++ tl ix) /\ inj_on w (fun ix => unf (hd 0 ix) p ++ tl ix) /\
  forall ix jx, in_range ix p -> in_range jx q -> in_range (flat ix p :: jx) (vdims w) /\ vaddr w (flat ix p :: jx) = vaddr v (ix ++ jx).
Proof.
  intros W D E P w. pose proof W as [L N]. rewrite D, E, !app_length, strides_of_length in L.
  assert (Lq : length sq = length q) by lia. pose proof (prod_pos p P) as Pp. rewrite D, nonneg_app in N.
  assert (Ww : vwf w) by (split; cbn; [lia|constructor; [lia|apply N]]).
  assert (K : forall ix jx, in_range ix p -> in_range jx q -> voff w + dot (vstr w) (flat ix p :: jx) = voff v + dot (vstr v) (ix ++ jx)).
  { intros ix jx Hi Hj. pose proof (in_range_length _ _ Hi) as Li. rewrite E. rewrite dot_app by (rewrite strides_of_length; congruence). rewrite dot_strides_of by assumption. cbn. ring. }
  assert (I : forall jx, in_range jx (vdims w) -> exists k kx, jx = k :: kx /\ 0 <= k < prod p /\ in_range kx q).
  { intros jx Hj. inversion Hj as [|k d kx ds Hk Hq]; subst. exists k, kx. auto. }
  split; [exact Ww|]. split; [|split].
  - apply shows_fix; [assumption|assumption|reflexivity|]. intros jx Hj. destruct (I jx Hj) as (k & kx & -> & Hk & Hq). cbn [hd tl].
    destruct (unf_ok k p P Hk) as [A B]. split; [rewrite D; now apply in_range_app_i|]. rewrite <- K by assumption. now rewrite B.
  - intros ix jx Hi Hj. destruct (I ix Hi) as (k & kx & -> & Hk & Hq). destruct (I jx Hj) as (k' & kx' & -> & Hk' & Hq'). cbn [hd tl].
    destruct (unf_ok k p P Hk) as [A B]. destruct (unf_ok k' p P Hk') as [A' B']. intro Eq.
    apply app_inj_pre in Eq as [E1 E2]; [|rewrite (in_range_length _ _ A), (in_range_length _ _ A'); reflexivity]. congruence.
  - intros ix jx Hi Hj. split; [apply in_range_cons; split; [now apply flat_range|assumption]|].
    rewrite !vaddr_in_range; try assumption; [|rewrite D; now apply in_range_app_i|apply in_range_cons; split; [now apply flat_range|assumption]].
    rewrite K by assumption. reflexivity.
Qed.

Lemma strides_last s p d : nth (length p) (strides_of s (p ++ [d])) 0 = s.
Proof.
  destruct (strides_of_app s p [d]) as (sa & -> & La & _). rewrite app_nth2 by lia. now rewrite La, Nat.sub_diag.
Qed.
Lemma bg_last (bg : list Z) : bg <> [] -> exists p d, bg = p ++ [d].
Proof. intro H. destruct (exists_last H) as (p & d & ->). eauto. Qed.

Lemma evenly_str x bg s : evenly_spaced x bg s -> vstr (lview x) = strides_of s bg ++ skipn (length bg) (vstr (lview x)).
Proof. intro E. rewrite <- E. symmetry. apply firstn_skipn. Qed.

Lemma total_ok x B g c s : lshape x B g c -> evenly_spaced x (olist B ++ g) s -> s <> 0 -> 
  total_bgdims x = Ok (prod (olist B ++ g)) /\ min_gstride x = Ok (match olist B ++ g with [] => 0 | _ => s end).
Proof.
  intros Sh Ev Hs. pose proof (evenly_str _ _ _ Ev) as E. unfold total_bgdims, min_gstride. rewrite (nbgdims_ok _ _ _ _ Sh). destruct Sh as (_ & D & _ & _). rewrite app_assoc in D.
  set (bg := olist B ++ g) in *. destruct bg as [|d0 ds] eqn:Eb; [now cbn|]. replace (Z.of_nat (length (d0 :: ds)) =? 0) with false by (cbn [length]; lia).
  destruct (bg_last (d0 :: ds)) as (p & d & Ep); [discriminate|]. assert (Zl : zget (vstr (lview x)) (Z.of_nat (length (d0 :: ds)) - 1) = Ok s).
  { assert (Lb : length (d0 :: ds) = S (length p)) by (rewrite Ep, app_length; cbn; lia). rewrite Lb. rewrite zget_nth_ok.
    - f_equal. replace (Z.to_nat (Z.of_nat (S (length p)) - 1)) with (length p) by lia. rewrite E, app_nth1 by (rewrite strides_of_length, Lb; lia). rewrite Ep. apply strides_last.
    - rewrite E, app_length, strides_of_length, Lb. lia. }
  rewrite Zl. split; [|reflexivity]. rewrite D, E, strides_of_cons. change (zget ((d0 :: ds) ++ c) 0) with (Ok d0). cbn [bind app]. change (zget (s * prod ds :: strides_of s ds ++ skipn (length (d0 :: ds)) (vstr (lview x))) 0) with (Ok (s * prod ds)).
  cbn [bind]. unfold cdiv. replace (s =? 0) with false by lia. f_equal. rewrite prod_cons.
  replace (d0 * (s * prod ds)) with (d0 * prod ds * s) by ring. now apply Z.quot_mul.
Qed.

Lemma evenly_split x B g c s : lshape x B g c -> evenly_spaced x (olist B ++ g) s -> exists cs, vstr (lview x) = strides_of s (olist B ++ g) ++ cs /\ length cs = length c.
Proof.
  intros Sh Ev. exists (skipn (length (olist B ++ g)) (vstr (lview x))). split; [now apply evenly_str|]. destruct Sh as ((L & _) & D & _). rewrite skipn_length, L, D, !app_length. lia.
Qed.
Lemma cstride_at x B g c s cs i : lshape x B g c -> vstr (lview x) = strides_of s (olist B ++ g) ++ cs -> (i < length c)%nat -> cstride (Z.of_nat i) x = Ok (nth i cs 0).
Proof. intros Sh E Hi. rewrite (cstride_ok _ _ _ _ i Sh Hi), E. rewrite app_nth2 by (rewrite strides_of_length; lia). rewrite strides_of_length. do 2 f_equal. lia. Qed.

Lemma fused2_ok x B g n s : lshape x B g [n] -> evenly_spaced x (olist B ++ g) s -> 0 < s -> positive (olist B ++ g) ->
  exists w, bg_fused2 x = Ok w /\ vdims w = [prod (olist B ++ g); n] /\ vwf w /\
    forall ix k, in_range ix (olist B ++ g) -> 0 <= k < n -> vaddr w [flat ix (olist B ++ g); k] = vaddr (lview x) (ix ++ [k]).
Proof.
  intros Sh Ev Hs P. destruct (total_ok x B g [n] s Sh Ev) as [T1 T2]; [lia|]. destruct (evenly_split _ _ _ _ _ Sh Ev) as (cs & E & Lc). destruct cs as [|c0' [|? ?]]; try discriminate Lc.
  unfold bg_fused2. rewrite (ncdims_ok _ _ _ _ Sh). cbn [length Z.of_nat Pos.of_succ_nat Z.eqb Pos.eqb assrt]. rewrite T1, T2. cbn [bind].
  pose proof (cdim_ok x B g [n] 0 Sh) as C0. pose proof (cstride_at x B g [n] s _ 0 Sh E) as C1. cbn [length Z.of_nat nth] in C0, C1. rewrite C0, C1 by lia. cbn [bind].
  eexists. split; [reflexivity|]. split; [reflexivity|]. destruct Sh as (W & D & _). rewrite app_assoc in D. set (bg := olist B ++ g) in *.
  assert (E' : vstr (lview x) = strides_of (match bg with [] => 0 | _ => s end) bg ++ [c0']) by (destruct bg; exact E).
  destruct (merged_view _ _ _ _ _ W D E' P) as (Ww & _ & _ & H). split; [exact Ww|]. intros ix k Hi Hk. apply H; [assumption|]. now apply in_range1; eauto.
Qed.
Lemma fused3_ok x B g n l s : lshape x B g [n; l] -> evenly_spaced x (olist B ++ g) s -> 0 < s -> positive (olist B ++ g) ->
  exists w, bg_fused3 x = Ok w /\ vdims w = [prod (olist B ++ g); n; l] /\ vwf w /\
    forall ix k j, in_range ix (olist B ++ g) -> 0 <= k < n -> 0 <= j < l -> vaddr w [flat ix (olist B ++ g); k; j] = vaddr (lview x) (ix ++ [k; j]).
Proof.
  intros Sh Ev Hs P. destruct (total_ok x B g [n; l] s Sh Ev) as [T1 T2]; [lia|]. destruct (evenly_split _ _ _ _ _ Sh Ev) as (cs & E & Lc). destruct cs as [|c0' [|c1' [|? ?]]]; try discriminate Lc.
  unfold bg_fused3. rewrite (ncdims_ok _ _ _ _ Sh). cbn [length Z.of_nat Pos.of_succ_nat Z.eqb Pos.eqb Pos.succ assrt]. rewrite T1, T2. cbn [bind].
  pose proof (cdim_ok x B g [n; l] 0 Sh) as C0. pose proof (cstride_at x B g [n; l] s _ 0 Sh E) as C1. pose proof (cdim_ok x B g [n; l] 1 Sh) as C2. pose proof (cstride_at x B g [n; l] s _ 1 Sh E) as C3. cbn [length Z.of_nat nth Pos.of_succ_nat] in C0, C1, C2, C3. rewrite C0, C1, C2, C3 by lia. cbn [bind].
  eexists. split; [reflexivity|]. split; [reflexivity|]. destruct Sh as (W & D & _). rewrite app_assoc in D. set (bg := olist B ++ g) in *.
  assert (E' : vstr (lview x) = strides_of (match bg with [] => 0 | _ => s end) bg ++ [c0'; c1']) by (destruct bg; exact E).
  destruct (merged_view _ _ _ _ _ W D E' P) as (Ww & _ & _ & H). split; [exact Ww|]. intros ix k j Hi Hk Hj. apply H; [assumption|]. now apply in_range_2.
Qed.

(* the rows of all cells below each other *)
Lemma rows_view_ok x B g a n s : lshape x B g [a; n] -> evenly_spaced x (olist B ++ g ++ [a]) s -> 0 < s -> positive (olist B ++ g ++ [a]) ->
  exists w, rows_view x = Ok w /\ vblk w = vblk (lview x) /\ vdims w = [prod (olist B ++ g ++ [a]); n] /\ vwf w /\
    (exists f, shows w (lview x) f /\ inj_on w f) /\
    forall ix k, in_range ix (olist B ++ g ++ [a]) -> 0 <= k < n ->
      in_range [flat ix (olist B ++ g ++ [a]); k] (vdims w) /\ vaddr w [flat ix (olist B ++ g ++ [a]); k] = vaddr (lview x) (ix ++ [k]).
Proof.
  intros Sh Ev Hs P. pose proof (evenly_str _ _ _ Ev) as E. rewrite !app_assoc in *. set (bg := olist B ++ g) in *.
  assert (Pa : 0 < a) by (apply Forall_app in P as [_ P]; now inversion P).
  destruct (strides_of_app s bg [a]) as (sa & Es & La & Ea). change (prod [a]) with (a * 1) in Ea.
  assert (Ev' : evenly_spaced x bg (s * (a * 1))).
  { unfold evenly_spaced. rewrite E, Es, <- !app_assoc, firstn_app. rewrite La, Nat.sub_diag, firstn_O, app_nil_r, Ea, firstn_all2; [reflexivity|]. rewrite strides_of_length. lia. }
  destruct (total_ok x B g [a; n] _ Sh Ev') as [T1 _]; [nia|]. fold bg in T1.
  set (cs := skipn (length (bg ++ [a])) (vstr (lview x))) in *. assert (Lc : length cs = 1%nat).
  { unfold cs. destruct Sh as ((L & _) & D & _). rewrite skipn_length, L, D, !app_length. unfold bg. rewrite app_length. cbn. lia. }
  destruct cs as [|c1' [|? ?]] eqn:Ec; try discriminate Lc. clear Lc.
  assert (E2 : vstr (lview x) = strides_of (s * (a * 1)) bg ++ [s; c1']) by (rewrite E, Es, Ea, <- app_assoc; reflexivity).
  unfold rows_view. rewrite T1. cbn [bind].
  pose proof (cdim_ok x B g [a; n] 0 Sh) as C0. pose proof (cstride_at x B g [a; n] _ _ 0 Sh E2) as C1. pose proof (cdim_ok x B g [a; n] 1 Sh) as C2. pose proof (cstride_at x B g [a; n] _ _ 1 Sh E2) as C3. cbn [length Z.of_nat nth Pos.of_succ_nat] in C0, C1, C2, C3. rewrite C0, C1, C2, C3 by lia. cbn [bind].
  eexists. split; [reflexivity|]. split; [reflexivity|]. destruct Sh as (W & D & _). rewrite app_assoc in D. fold bg in D. change [a; n] with ([a] ++ [n]) in D. rewrite app_assoc in D.
  assert (Ep : prod (bg ++ [a]) = prod bg * a) by (rewrite prod_app; change (prod [a]) with (a * 1); ring). cbn [vdims]. rewrite Ep. split; [reflexivity|].
  destruct (merged_view _ _ _ _ _ W D E P) as (Ww & S1 & S2 & H). rewrite Ep in Ww, S1, S2, H. split; [exact Ww|]. split; [eauto|]. intros ix k Hi Hk. apply H; [assumption|]. now apply in_range1; eauto.
Qed.
Lemma cell_view_ok y B g n b : lshape y B g [n; b] ->
  exists w, cell_view y = Ok w /\ vblk w = vblk (lview y) /\ vdims w = [n; b] /\ vwf w /\
    forall k j, vaddr w [k; j] = vaddr (lview y) (repeat 0 (length (olist B ++ g)) ++ [k; j]).
Proof.
  intro Sh. destruct (lsplit _ _ _ _ Sh) as (bs & gs & cs & E & Lb & Lg & Lc). destruct cs as [|s0 [|s1 [|? ?]]]; try discriminate Lc.
  unfold cell_view. pose proof (cdim_ok y B g [n; b] 0 Sh) as C0. pose proof (cstride_ok y B g [n; b] 0 Sh) as C1. pose proof (cdim_ok y B g [n; b] 1 Sh) as C2. pose proof (cstride_ok y B g [n; b] 1 Sh) as C3. cbn [length Z.of_nat nth Pos.of_succ_nat] in C0, C1, C2, C3. rewrite C0, C1, C2, C3 by lia. cbn [bind].
  assert (Lbg : length (bs ++ gs) = length (olist B ++ g)) by (rewrite !app_length; lia).
  rewrite app_assoc in E. rewrite E, <- Lbg. rewrite Nat.add_0_r, !app_nth2 by lia. rewrite Nat.sub_diag. replace (length (bs ++ gs) + 1 - length (bs ++ gs))%nat with 1%nat by lia. cbn [nth].
  eexists. split; [reflexivity|]. split; [reflexivity|]. split; [reflexivity|]. destruct Sh as ((L & N) & D & _). rewrite D, !nonneg_app in N. split; [split; [reflexivity|apply N]|].
  intros k j. unfold vaddr. rewrite E. set (k0 := length (bs ++ gs)). unfold offs. cbn [vstr]. rewrite (app_length (bs ++ gs)), (app_length (repeat 0 k0)), repeat_length. fold k0. cbn [length]. rewrite !Nat.leb_refl. cbn [assrt bind vblk voff]. rewrite dot_app by (now rewrite repeat_length).
  assert (Z0 : forall (l : list Z) q, dot l (repeat 0 q) = 0).
  { induction l as [|u l IH]; intros [|q]; cbn; try reflexivity. rewrite IH. lia. }
  now rewrite Z0.
Qed.

Section M.
Context {R : cring}.
Notation memR := (mem (car R)).
Implicit Types m : memR.
Add Ring RrLt : (cth R).

Lemma elem_eq m v ix w jx : vaddr v ix = vaddr w jx -> elem m v ix = elem m w jx.
Proof. unfold elem. now intros ->. Qed.

Lemma mult_ok x y m b B g a n By gy k s : lshape x B g [a; n] -> lshape y By gy [n; k] ->
  evenly_spaced x (olist B ++ g ++ [a]) s -> 0 < s -> positive (olist B ++ g ++ [a]) -> 0 < k ->
  readable m (lview x) -> readable m (lview y) -> positive (olist By ++ gy) -> vblk (lview x) <> b -> vblk (lview y) <> b ->
  exists r m', lt_mult b x y m = Ok (r, m') /\ lshape r B g [a; k] /\ vblk (lview r) = b /\
    (forall ix i j, in_range ix (olist B ++ g) -> 0 <= i < a -> 0 <= j < k ->
       elem m' (lview r) (ix ++ [i; j]) = Some (rsum (map (fun l => cmul (elem0 m (lview x) (ix ++ [i; l])) (elem0 m (lview y) (repeat 0 (length (olist By ++ gy)) ++ [l; j]))) (zrange n)))) /\
    (forall b' p, b' <> b -> m' b' p = m b' p).
Proof.
  intros Sx Sy Ev Hs P Hk Rx Ry Py Bx By'. unfold lt_mult. pose proof Sx as (Wx & Dx & Lx1 & Lx2). pose proof Sy as (Wy & Dy & _).
  assert (Ed : removelast (vdims (lview x)) ++ [last (vdims (lview y)) 0] = olist B ++ g ++ [a; k]).
  { rewrite Dx, Dy. change [a; n] with ([a] ++ [n]). rewrite !app_assoc, removelast_last. rewrite <- !app_assoc. cbn [app]. do 2 f_equal. f_equal.
    replace (olist By ++ gy ++ [n; k]) with ((olist By ++ gy ++ [n]) ++ [k]) by (rewrite <- !app_assoc; reflexivity). now rewrite last_last. }
  destruct (vdims (lview x)) as [|dx0 dxs] eqn:EDx; [destruct (olist B), g; discriminate Dx|]. destruct (vdims (lview y)) as [|dy0 dys] eqn:EDy; [destruct (olist By), gy; discriminate Dy|].
  rewrite Ed. clear Ed. set (dd := olist B ++ g ++ [a; k]).
  assert (Edd : dd = (olist B ++ g ++ [a]) ++ [k]) by (unfold dd; rewrite <- !app_assoc; reflexivity).
  assert (Nd : nonneg dd). { rewrite Edd, nonneg_app. split; [now apply positive_nonneg|]. constructor; [lia|constructor]. }
  set (r := lt_labelled b dd (llab x)). assert (Sr : lshape r B g [a; k]).
  { split; [now apply fresh_wf|]. split; [reflexivity|]. split; assumption. }
  assert (Er : evenly_spaced r (olist B ++ g ++ [a]) k).
  { unfold evenly_spaced, r. cbn [lview lt_labelled fresh_view vstr]. rewrite Edd. destruct (strides_of_app 1 (olist B ++ g ++ [a]) [k]) as (sa & -> & La & Ea). rewrite firstn_app, La, Nat.sub_diag, firstn_O, app_nil_r, firstn_all2 by lia. rewrite Ea. f_equal. change (prod [k]) with (k * 1). ring. }
  destruct (rows_view_ok r B g a k k Sr Er Hk P) as (rv & Erv & Brv & Drv & Wrv & (fr & Sfr & Ifr) & Hrv).
  rewrite <- EDx in Dx. destruct (rows_view_ok x B g a n s Sx Ev Hs P) as (xv & Exv & Bxv & Dxv & Wxv & (fx & Sfx & Ifx) & Hxv).
  destruct (cell_view_ok y By gy n k Sy) as (yv & Eyv & Byv & Dyv & Wyv & Hyv).
  rewrite Erv, Exv, Eyv. cbn [bind]. set (m1 := Model_Tensor.alloc c0 b (asize dd) m).
  destruct (alloc_readable m b dd Nd) as [Ra Za]. fold m1 in Ra, Za. change (fresh_view b dd) with (lview r) in Ra, Za.
  assert (Syv : shows yv (lview y) (fun ix => repeat 0 (length (olist By ++ gy)) ++ ix)).
  { intros ix Hix. rewrite Dyv in Hix. pose proof Hix as Hix'. apply in_range_2_inv in Hix as (i & j & -> & Hi & Hj). split; [|apply Hyv]. rewrite EDy. rewrite Dy, app_assoc. apply in_range_app_i; [|exact Hix'].
    clear -Py. induction Py; cbn; constructor; [lia|assumption]. }
  assert (O : operands rv [xv; yv] m1).
  { apply operands2; try assumption.
    - eapply shows_distinct; [exact Sfr|exact Ifr|]. apply (fresh_inside b dd Nd).
    - eapply shows_readable; eassumption.
    - eapply shows_readable; [exact Sfx|]. intros ix Hix. unfold m1. rewrite Proofs_Einsum6.alloc_other by assumption. now apply Rx.
    - eapply shows_disjoint_l; [exact Sfr|]. eapply shows_disjoint_r; [exact Sfx|]. apply fresh_disjoint; [assumption|apply Wx|assumption].
    - eapply shows_readable; [exact Syv|]. intros ix Hix. unfold m1. rewrite Proofs_Einsum6.alloc_other by assumption. now apply Ry.
    - eapply shows_disjoint_l; [exact Sfr|]. eapply shows_disjoint_r; [exact Syv|]. apply fresh_disjoint; [assumption|apply Wy|assumption]. }
  destruct (AA_ok rv xv yv m1 _ n k O Drv Dxv Dyv) as (m' & Em & G & U). rewrite Em. cbn [bind]. exists r, m'. split; [reflexivity|]. split; [exact Sr|]. split; [reflexivity|]. split.
  - intros ix i j Hix Hi Hj. assert (Hixi : in_range (ix ++ [i]) (olist B ++ g ++ [a])) by (rewrite app_assoc; apply in_range_app_i; [assumption|now apply in_range1; eauto]).
    replace (ix ++ [i; j]) with ((ix ++ [i]) ++ [j]) by (rewrite <- app_assoc; reflexivity).
    destruct (Hrv (ix ++ [i]) j Hixi Hj) as [Q1 Q2]. rewrite <- (elem_eq m' _ _ _ _ Q2).
    assert (Z1 : elem m1 rv [flat (ix ++ [i]) (olist B ++ g ++ [a]); j] = Some c0).
    { rewrite (elem_eq m1 _ _ _ _ Q2). apply Za. rewrite Edd. apply in_range_app_i; [assumption|now apply in_range1; eauto]. }
    rewrite (G _ _ Q1 Z1). cbn [nth]. f_equal. etransitivity; [apply (Radd_0_l (cth R))|]. apply rsum_ext. intros l Hl. apply in_zrange in Hl. f_equal.
    + destruct (Hxv (ix ++ [i]) l Hixi Hl) as [_ Q3]. unfold elem0. rewrite (elem_eq m1 _ _ _ _ Q3). unfold m1. rewrite Proofs_Einsum6.alloc_other by assumption. now rewrite <- app_assoc.
    + unfold elem0. rewrite (elem_eq m1 _ _ _ _ (Hyv l j)). unfold m1. now rewrite Proofs_Einsum6.alloc_other by assumption.
  - intros b' p Hb'. rewrite U.
    + unfold m1, Model_Tensor.alloc. destruct (b' =? b) eqn:Eb; [lia|reflexivity].
    + intros ix Hix. destruct (Sfr ix Hix) as [I1 I2]. rewrite I2. rewrite (vaddr_in_range (lview r)) by (try assumption; apply Sr). intro Q. injection Q as Q _. cbn in Q. congruence.
Qed.
End M.
