(* Proofs_CuComplex.v -- products and sums of complex views on a device. *)
From Verif Require Import Base BaseFacts Model_Index Model_View Model_Tensor Model_Ops Model_RView Model_CView Model_Einsum Model_Convolve Model_Cuda Model_CuConv Model_CuBlas Model_CuComplex Spec_Index Spec_View Spec_Tensor Spec_Cuda
  Proofs_Axes Proofs_Index Proofs_View Proofs_Tensor Proofs_Tensor2 Proofs_Tensor3 Proofs_Convolve2 Proofs_Ops2 Proofs_Ops3 Proofs_Cuda Spec_RView Proofs_RView Proofs_CuConv Proofs_CuBlas Proofs_CuRtensor Proofs_CuColumns.
Local Open Scope Z_scope.

Section S.
Context {R : cring}.
Notation C := (CxRing R).
Add Ring RrCuC : (cth C).
Notation memC := (mem (car C)).
Implicit Types m : memC.
Lemma cdots_terms {K} ca cb m (x w : view) (xi wi : K -> list Z) L t : vwf x -> vwf w -> readable m x -> readable m w -> (forall k, In k L -> in_range (xi k) (vdims x) /\ in_range (wi k) (vdims w)) ->
  exists us, loads m (flat_map (fun k => [cell x (xi k); cell w (wi k)]) L) = Ok us /\ cdots ca cb t us = cadd t (rsum (map (fun k => cmul (cj ca (elem0 m x (xi k))) (cj cb (elem0 m w (wi k)))) L)).
Proof.
  intros Wx Ww Rx Rw. revert t. induction L as [|k L IH]; intros t H.
  - exists []. split; [reflexivity|]. cbn [cdots map]. rewrite rsum_nil. ring.
  - destruct (H k (or_introl eq_refl)) as [A B]. destruct (IH (cadd t (cmul (cj ca (elem0 m x (xi k))) (cj cb (elem0 m w (wi k))))) (fun k' I => H k' (or_intror I))) as (us & E & D).
    exists (elem0 m x (xi k) :: elem0 m w (wi k) :: us). split.
    + cbn [flat_map app]. unfold loads in *. cbn [mapM]. rewrite (loadA_some _ _ _ (load_elem0 m x _ Wx Rx A)), (loadA_some _ _ _ (load_elem0 m w _ Ww Rw B)). cbn [bind]. now rewrite E.
    + cbn [cdots map]. rewrite D, rsum_cons. ring.
Qed.
Lemma cgemm_gains {K} ca cb r x w m (L : list Z -> list K) (xi wi : list Z -> K -> list Z) order : operands r [x; w] m ->
  (forall ix k, in_range ix (vdims r) -> In k (L ix) -> in_range (xi ix k) (vdims x) /\ in_range (wi ix k) (vdims w)) ->
  Permutation order (map (fun ix => (cell r ix, flat_map (fun k => [cell x (xi ix k); cell w (wi ix k)]) (L ix))) (all_indices (vdims r))) ->
  exists m', cu_exec (f_cgemm ca cb) [order] m = Ok m' /\ gains r (fun ix => rsum (map (fun k => cmul (cj ca (elem0 m x (xi ix k))) (cj cb (elem0 m w (wi ix k)))) (L ix))) m m'.
Proof.
  intros (Wr & Dr & Rr_ & F) H P. inversion F as [|? ? (Wx & Rx & Dx) F2]; subst. inversion F2 as [|? ? (Ww & Rw & Dw) _]; subst.
  apply (plan_gains (f_cgemm ca cb) r (fun ix => flat_map (fun k => [cell x (xi ix k); cell w (wi ix k)]) (L ix))); auto.
  - intros ix p I J. apply in_flat_map in J. destruct J as (k & Ik & [<-|[<-|[]]]); destruct (H ix k I Ik) as [A B].
    + destruct (apart r x m Wr Wx Rx Dx _ A) as [Q1 Q2]. split; [exact Q1|]. intros jx J E. exfalso. exact (Q2 jx J E).
    + destruct (apart r w m Wr Ww Rw Dw _ B) as [Q1 Q2]. split; [exact Q1|]. intros jx J E. exfalso. exact (Q2 jx J E).
  - intros ix v us I _ E. destruct (cdots_terms ca cb m x w (xi ix) (wi ix) (L ix) c0 Wx Ww Rx Rw (fun k Ik => H ix k I Ik)) as (us' & B' & D). rewrite E in B'. injection B' as <-. unfold f_cgemm. rewrite D. ring.
Qed.
Lemma reg2_dims v a b : vdims v = [a; b] -> vstr v = [b; 1] -> reg2 v = true.
Proof. intros D S. unfold reg2, nd, sd. rewrite D, S. cbn [nth]. now rewrite !Z.eqb_refl. Qed.

Lemma cAA_ok r x y m a n b : operands r [x; y] m -> vdims r = [a; b] -> vstr r = [b; 1] -> vdims x = [a; n] -> vstr x = [n; 1] -> vdims y = [n; b] -> vstr y = [b; 1] -> 1 <= n -> 1 <= b ->
  exists plan, cu_cmatmul_AA r x y = Ok plan /\ forall order, Permutation order plan -> exists m', cu_exec (f_cgemm false false) [order] m = Ok m' /\
    gains r (fun ix => rsum (map (fun k => cmul (elem0 m x [nth 0 ix 0; k]) (elem0 m y [k; nth 1 ix 0])) (zrange n))) m m'.
Proof.
  intros O Dr Sr Dx Sx Dy Sy Pn Pb. destruct (two r _ _ _ _ Dr Sr) as (R0 & R1 & R2 & R3). destruct (two x _ _ _ _ Dx Sx) as (X0 & X1 & X2 & X3). destruct (two y _ _ _ _ Dy Sy) as (Y0 & Y1 & Y2 & Y3).
  destruct (sides2 r a b (proj1 O) Dr) as [Na Nb]. unfold cu_cmatmul_AA. rewrite (reg2_dims r a b Dr Sr), R0, R1, X1, Y1. cbn [assrt]. rewrite gemm_plan by lia. eexists. split; [reflexivity|]. intros order P.
  destruct (cgemm_gains false false r y x m (fun _ => zrange n) (fun ix k => [k; nth 1 ix 0]) (fun ix k => [nth 0 ix 0; k]) order) as (m' & E & G).
  - now apply swap_operands.
  - intros ix k I Ik. apply in_zrange in Ik. rewrite Dr in I. rng. rewrite Dx, Dy. cbn [nth]. split; inr.
  - rewrite Dr. erewrite map_ext_in; [exact P|]. intros ix I. apply in_all_indices in I. rng. cbn [nth]. f_equal.
    + unfold cell, arr, shift. rewrite Sr. cbn [fst snd dot]. f_equal. lia.
    + apply flat_map_ext. intro l. unfold opat, cell, arr, shift. rewrite Sx, Sy. cbn [fst snd dot]. f_equal; [f_equal; lia|f_equal; f_equal; lia].
  - exists m'. split; [exact E|]. eapply gains_ext; [|exact G]. intros ix _. apply rsum_map_eq. intro k. unfold cj. ring.
Qed.
Lemma cAH_ok r x y m a n b : operands r [x; y] m -> vdims r = [a; b] -> vstr r = [b; 1] -> vdims x = [a; n] -> vstr x = [n; 1] -> vdims y = [b; n] -> vstr y = [n; 1] -> 1 <= n -> 1 <= b ->
  exists plan, cu_cmatmul_AH r x y = Ok plan /\ forall order, Permutation order plan -> exists m', cu_exec (f_cgemm true false) [order] m = Ok m' /\
    gains r (fun ix => rsum (map (fun k => cmul (elem0 m x [nth 0 ix 0; k]) (conj (elem0 m y [nth 1 ix 0; k]))) (zrange n))) m m'.
Proof.
  intros O Dr Sr Dx Sx Dy Sy Pn Pb. destruct (two r _ _ _ _ Dr Sr) as (R0 & R1 & R2 & R3). destruct (two x _ _ _ _ Dx Sx) as (X0 & X1 & X2 & X3). destruct (two y _ _ _ _ Dy Sy) as (Y0 & Y1 & Y2 & Y3).
  destruct (sides2 r a b (proj1 O) Dr) as [Na Nb]. unfold cu_cmatmul_AH. rewrite (reg2_dims r a b Dr Sr), R0, R1, X0, X1, Y0, Y1, !Z.eqb_refl. cbn [assrt]. rewrite gemm_plan by lia. eexists. split; [reflexivity|]. intros order P.
  destruct (cgemm_gains true false r y x m (fun _ => zrange n) (fun ix k => [nth 1 ix 0; k]) (fun ix k => [nth 0 ix 0; k]) order) as (m' & E & G).
  - now apply swap_operands.
  - intros ix k I Ik. apply in_zrange in Ik. rewrite Dr in I. rng. rewrite Dx, Dy. cbn [nth]. split; inr.
  - rewrite Dr. erewrite map_ext_in; [exact P|]. intros ix I. apply in_all_indices in I. rng. cbn [nth]. f_equal.
    + unfold cell, arr, shift. rewrite Sr. cbn [fst snd dot]. f_equal. lia.
    + apply flat_map_ext. intro l. unfold opat, cell, arr, shift. rewrite Sx, Sy. cbn [fst snd dot]. f_equal; [f_equal; lia|f_equal; f_equal; lia].
  - exists m'. split; [exact E|]. eapply gains_ext; [|exact G]. intros ix _. apply rsum_map_eq. intro k. unfold cj. ring.
Qed.
Lemma cHA_ok r x y m a n b : operands r [x; y] m -> vdims r = [a; b] -> vstr r = [b; 1] -> vdims x = [n; a] -> vstr x = [a; 1] -> vdims y = [n; b] -> vstr y = [b; 1] -> 1 <= a -> 1 <= b ->
  exists plan, cu_cmatmul_HA r x y = Ok plan /\ forall order, Permutation order plan -> exists m', cu_exec (f_cgemm false true) [order] m = Ok m' /\
    gains r (fun ix => rsum (map (fun k => cmul (conj (elem0 m x [k; nth 0 ix 0])) (elem0 m y [k; nth 1 ix 0])) (zrange n))) m m'.
Proof.
  intros O Dr Sr Dx Sx Dy Sy Pn Pb. destruct (two r _ _ _ _ Dr Sr) as (R0 & R1 & R2 & R3). destruct (two x _ _ _ _ Dx Sx) as (X0 & X1 & X2 & X3). destruct (two y _ _ _ _ Dy Sy) as (Y0 & Y1 & Y2 & Y3).
  assert (Nn : 0 <= n) by apply (sides2 x n a (first_wf _ _ _ _ O) Dx). unfold cu_cmatmul_HA. rewrite (reg2_dims r a b Dr Sr), R0, R1, X0, X1, Y0, Y1, !Z.eqb_refl. cbn [assrt]. rewrite gemm_plan by lia. eexists. split; [reflexivity|]. intros order P.
  destruct (cgemm_gains false true r y x m (fun _ => zrange n) (fun ix k => [k; nth 1 ix 0]) (fun ix k => [k; nth 0 ix 0]) order) as (m' & E & G).
  - now apply swap_operands.
  - intros ix k I Ik. apply in_zrange in Ik. rewrite Dr in I. rng. rewrite Dx, Dy. cbn [nth]. split; inr.
  - rewrite Dr. erewrite map_ext_in; [exact P|]. intros ix I. apply in_all_indices in I. rng. cbn [nth]. f_equal.
    + unfold cell, arr, shift. rewrite Sr. cbn [fst snd dot]. f_equal. lia.
    + apply flat_map_ext. intro l. unfold opat, cell, arr, shift. rewrite Sx, Sy. cbn [fst snd dot]. f_equal; [f_equal; lia|f_equal; f_equal; lia].
  - exists m'. split; [exact E|]. eapply gains_ext; [|exact G]. intros ix _. apply rsum_map_eq. intro k. unfold cj. ring.
Qed.
Lemma cmix_ok r x y m a n b c xs : operands r [x; y] m -> vdims r = [a; b; c] -> vstr r = [b * c; c; 1] -> vdims x = [a; n; c] -> vstr x = [xs; c; 1] -> vdims y = [n; b] -> vstr y = [b; 1] -> 1 <= b -> 1 <= c ->
  exists plan, cu_cmix_1_0 r x y = Ok plan /\ forall order, Permutation order plan -> exists m', cu_exec (f_cgemm false false) [order] m = Ok m' /\
    gains r (fun ix => rsum (map (fun k => cmul (elem0 m x [nth 0 ix 0; k; nth 2 ix 0]) (elem0 m y [k; nth 1 ix 0])) (zrange n))) m m'.
Proof.
  intros O Dr Sr Dx Sx Dy Sy Pn Pb. destruct (three r _ _ _ _ _ _ Dr Sr) as (R0 & R1 & R2 & R3 & R4 & R5). destruct (three x _ _ _ _ _ _ Dx Sx) as (X0 & X1 & X2 & X3 & X4 & X5). destruct (two y _ _ _ _ Dy Sy) as (Y0 & Y1 & Y2 & Y3).
  destruct (sides3 x a n c (first_wf _ _ _ _ O) Dx) as (Na & Nn & Nc). assert (G3 : reg3 r = true) by (unfold reg3; rewrite R1, R2, R3, R4, R5, !Z.eqb_refl; reflexivity).
  unfold cu_cmix_1_0. rewrite G3, R0, R1, R2, R3, X0, X1, X2, X3, Y0, Y1, !Z.eqb_refl. cbn [assrt]. rewrite gemms_plan by lia. eexists. split; [reflexivity|]. intros order P.
  destruct (cgemm_gains false false r x y m (fun _ => zrange n) (fun ix k => [nth 0 ix 0; k; nth 2 ix 0]) (fun ix k => [k; nth 1 ix 0]) order) as (m' & E & G).
  - assumption.
  - intros ix k I Ik. apply in_zrange in Ik. rewrite Dr in I. rng. rewrite Dx, Dy. cbn [nth]. split; inr.
  - rewrite Dr. erewrite map_ext_in; [exact P|]. intros ix I. apply in_all_indices in I. rng. cbn [nth]. f_equal.
    + unfold cell, arr, shift. rewrite Sr. cbn [fst snd dot]. f_equal. lia.
    + apply flat_map_ext. intro l. unfold opat, cell, arr, shift. rewrite Sx, Sy. cbn [fst snd dot]. f_equal; [f_equal; lia|f_equal; f_equal; lia].
  - exists m'. split; [exact E|]. exact G.
Qed.
End S.

(* ---- sums: memory of floats ---- *)
Section Sums.
Context {R : cring}.
Notation memR := (mem (car R)).
Lemma axpy_one_c (u w : R) : f_axpy c1 u [w] = cadd u w.
Proof. cbn [f_axpy]. f_equal. apply (Rmul_1_l (cth R)). Qed.
Lemma row3 b o n0 n1 i j c : vaddr (View b o [n0; n1; 2] [2 * n1; 2; 1]) [i; j; c] = Ok (b, o + (2 * n1 * i + (2 * j + c))).
Proof. unfold vaddr, offs. cbn [vstr vblk voff]. cbn -[Z.mul Z.add]. do 2 f_equal. lia. Qed.
Lemma row3_back n0 n1 t : 0 <= n0 -> 0 <= t < 2 * n1 * n0 -> in_range [t / (2 * n1); (t mod (2 * n1)) / 2; t mod (2 * n1) mod 2] [n0; n1; 2] /\ t = 2 * n1 * (t / (2 * n1)) + (2 * ((t mod (2 * n1)) / 2) + t mod (2 * n1) mod 2).
Proof.
  intros P H. assert (0 < 2 * n1) by nia. pose proof (Z_div_mod_eq_full t (2 * n1)) as Q. pose proof (Z.mod_pos_bound t (2 * n1) ltac:(lia)) as B. pose proof (Z_div_mod_eq_full (t mod (2 * n1)) 2) as Q2. pose proof (Z.mod_pos_bound (t mod (2 * n1)) 2 ltac:(lia)) as B2.
  split; [|lia]. apply in_range_3; [split; [apply Z.div_pos; lia|apply Z.div_lt_upper_bound; lia]|split; [apply Z.div_pos; lia|apply Z.div_lt_upper_bound; lia]|lia].
Qed.
Lemma cadd2_dev br o_r bx ox n0 n1 (m : memR) (r := View br o_r [n0; n1; 2] [2 * n1; 2; 1]) (x := View bx ox [n0; n1; 2] [2 * n1; 2; 1]) : 1 <= n0 -> 1 <= n1 -> operands r [x] m ->
  exists plan, cu_cadd2 r x = Ok plan /\ forall orders, any_order plan orders -> exists m', cu_exec (f_axpy c1) orders m = Ok m' /\ untouched m m' r /\
    forall i j c, in_range [i; j; c] [n0; n1; 2] -> elem m' r [i; j; c] = Some (if 2 * n1 * i + (2 * j + c) <? n0 * n1 then cadd (elem0 m r [i; j; c]) (elem0 m x [i; j; c]) else elem0 m r [i; j; c]).
Proof.
  intros P0 P1 O. destruct (first_ops _ _ _ _ O) as [Rx Dj]. destruct O as (Wr & Ds & Rr_ & _).
  exists [axpy (n0 * n1) (arr x) 1 (arr r) 1]. split.
  - unfold cu_cadd2, nd. cbn [vdims nth r x]. rewrite !Z.eqb_refl. cbn [assrt]. replace (n0 * n1 =? 0) with false by nia. unfold creg2, coffs, sd, nd. cbn [vdims vstr nth last r x]. change (1 =? 1) with true. change (2 =? 2) with true. cbn [andb]. now rewrite !Z.eqb_refl.
  - intros orders Oo. apply order_cons in Oo as (o & os & -> & Po & Oo). apply order_nil in Oo as ->.
    assert (Fl : forall b off (v := View b off [n0; n1; 2] [2 * n1; 2; 1]) (F : list Z -> R) t, readable m v -> 0 <= t < 2 * n1 * n0 -> m b (off + t) = Some (elem0 m v [t / (2 * n1); (t mod (2 * n1)) / 2; t mod (2 * n1) mod 2])).
    { intros b off v F t Rv Ht. destruct (row3_back n0 n1 t ltac:(lia) Ht) as [I Et]. rewrite <- (readable_elem m v _ Rv I). unfold elem, v. rewrite row3. f_equal. lia. }
    destruct (flat_dev (f_axpy c1) cadd (n0 * n1) bx ox br o_r m (fun t => elem0 m x [t / (2 * n1); (t mod (2 * n1)) / 2; t mod (2 * n1) mod 2]) (fun t => elem0 m r [t / (2 * n1); (t mod (2 * n1)) / 2; t mod (2 * n1) mod 2]) o axpy_one_c) as (m' & E & A & B).
    + intros t Ht. apply (Fl bx ox (fun _ => c0)); [exact Rx|nia].
    + intros t Ht. apply (Fl br o_r (fun _ => c0)); [exact Rr_|nia].
    + intro Eb. destruct (Z_le_gt_dec (o_r + n0 * n1) ox); [now left|]. destruct (Z_le_gt_dec (ox + n0 * n1) o_r); [right; now left|]. exfalso.
      destruct (Z_le_gt_dec ox o_r).
      * destruct (row3_back n0 n1 (o_r - ox)) as [I Et]; [lia|nia|]. destruct (row3_back n0 n1 0) as [I0 Et0]; [lia|nia|]. apply (Dj _ _ I0 I). unfold r, x. rewrite !row3, Eb. do 2 f_equal. lia.
      * destruct (row3_back n0 n1 (ox - o_r)) as [I Et]; [lia|nia|]. destruct (row3_back n0 n1 0) as [I0 Et0]; [lia|nia|]. apply (Dj _ _ I I0). unfold r, x. rewrite !row3, Eb. do 2 f_equal. lia.
    + exact Po.
    + exists m'. split; [exact E|]. split.
      * intros b a Hn. apply B. intros [-> Ha]. destruct (row3_back n0 n1 (a - o_r)) as [I Et]; [lia|nia|]. apply (Hn _ I). unfold r. rewrite row3. do 2 f_equal. lia.
      * intros i j c I. apply in_range_3_inv in I as (i' & j' & c' & Ex & Hi & Hj & Hc). injection Ex as <- <- <-. set (t := 2 * n1 * i + (2 * j + c)). assert (Ht : 0 <= t < 2 * n1 * n0) by (unfold t; nia).
        assert (T1 : t / (2 * n1) = i) by (symmetry; apply (Z.div_unique_pos t (2 * n1) i (2 * j + c)); unfold t; lia). assert (T2 : t mod (2 * n1) = 2 * j + c) by (symmetry; apply (Z.mod_unique_pos t (2 * n1) i (2 * j + c)); unfold t; lia).
        assert (T3 : (2 * j + c) / 2 = j) by (symmetry; apply (Z.div_unique_pos _ 2 j c); lia). assert (T4 : (2 * j + c) mod 2 = c) by (symmetry; apply (Z.mod_unique_pos _ 2 j c); lia).
        unfold elem at 1. unfold r at 1. rewrite row3. fold t. destruct (t <? n0 * n1) eqn:Et.
        -- rewrite A by lia. now rewrite T1, T2, T3, T4.
        -- rewrite B by lia. rewrite (Fl br o_r (fun _ => c0) t Rr_ Ht). fold r. now rewrite T1, T2, T3, T4.
Qed.
Lemma cadd3_dev r x (m m' : memR) plan orders : cu_cadd3 r x = Ok plan -> any_order plan orders -> cu_exec (f_axpy c1) orders m = Ok m' -> 0 <= nd r 0 * nd r 1 ->
  forall b a, ~ (b = vblk r /\ voff r <= a < voff r + nd r 0 * nd r 1) -> m' b a = m b a.
Proof.
  intros Ep O E Hn b a N. unfold cu_cadd3 in Ep. destruct (nd x 0 =? nd r 0); [|discriminate]. destruct (nd x 1 =? nd r 1); [|discriminate]. cbn [assrt] in Ep. destruct (nd x 0 * nd x 1 =? 0).
  - injection Ep as <-. apply order_nil in O as ->. injection E as <-. reflexivity.
  - destruct (creg3 r && creg3 x); [|discriminate]. injection Ep as <-. apply order_cons in O as (o & os & -> & Po & O). apply order_nil in O as ->. rewrite exec_run in E. cbn [concat] in E. rewrite app_nil_r in E.
    apply (run_untouched (f_axpy c1) o m m' (b, a) E). intro I. rewrite Po in I. rewrite axpy1, map_map in I. cbn [fst] in I. apply in_map_iff in I as (i & Ei & I). apply in_zrange in I. unfold shift, arr in Ei. cbn [fst snd] in Ei. injection Ei as <- <-. apply N. split; [reflexivity|lia].
Qed.
End Sums.
