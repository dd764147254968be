(* Proofs_CuBlas.v -- products and sums of fixed-rank views by cuBLAS. *)
From Verif Require Import Base BaseFacts Model_Index Model_View Model_Tensor Model_Ops Model_RView Model_Einsum Model_Convolve Model_Cuda Model_CuConv Model_CuBlas Spec_Index Spec_View Spec_Tensor Spec_Cuda
  Proofs_Axes Proofs_Index Proofs_View Proofs_Tensor Proofs_Cuda Spec_RView Proofs_CuConv.
Local Open Scope Z_scope.

Section S.
Context {R : cring}.
Add Ring Rr : (cth R).
Notation memR := (mem (car R)).
Implicit Types m : memR.

(* one update for every element of r, each reading no element of r but its own *)
Lemma plan_gains (f : R -> list R -> R) r (src : list Z -> list addr) (G : list Z -> R) m order : vwf r -> distinct_cells r -> readable m r ->
  (forall ix p, in_range ix (vdims r) -> In p (src ix) -> at_ m p <> None /\ forall jx, in_range jx (vdims r) -> p = cell r jx -> jx = ix) ->
  (forall ix v us, in_range ix (vdims r) -> elem m r ix = Some v -> loads m (src ix) = Ok us -> f v us = cadd v (G ix)) ->
  Permutation order (map (fun ix => (cell r ix, src ix)) (all_indices (vdims r))) ->
  exists m', cu_exec f [order] m = Ok m' /\ gains r G m m'.
Proof.
  intros Wr Dr Rr_ H1 H2 P. assert (Lr : length (vstr r) = length (vdims r)) by apply Wr.
  assert (Cd : forall ix jx, in_range ix (vdims r) -> in_range jx (vdims r) -> cell r ix = cell r jx -> ix = jx).
  { intros ix jx A B C. apply Dr; try assumption. now rewrite !vaddr_cell, C. }
  destruct (run_perm f order (map (fun ix => (cell r ix, src ix)) (all_indices (vdims r))) m P) as (m' & Er & Re).
  - rewrite map_map. cbn [fst]. apply NoDup_map_in; [apply all_indices_nodup|]. intros ix jx A B. apply in_all_indices in A. apply in_all_indices in B. now apply Cd.
  - intros e I. apply in_map_iff in I. destruct I as (ix & <- & I). apply in_all_indices in I. split.
    + cbn [fst]. rewrite <- elem_cell by assumption. now apply Rr_.
    + apply Forall_forall. intros p Ip. cbn [snd] in Ip. now apply (H1 ix).
  - intros e e' I I' J. apply in_map_iff in I. destruct I as (ix & <- & I). apply in_all_indices in I. apply in_map_iff in I'. destruct I' as (jx & <- & I'). apply in_all_indices in I'. cbn [fst snd] in J.
    destruct (H1 jx _ I' J) as [_ Q]. now rewrite (Q ix I eq_refl).
  - exists m'. rewrite exec_run. cbn [concat]. rewrite app_nil_r. split; [exact Er|]. destruct Re as [R1 R2]. split.
    + intros ix v I Ev. destruct (R1 (cell r ix, src ix)) as (v' & us & A & B & C); [apply in_map_iff; exists ix; split; [reflexivity|now apply in_all_indices]|]. cbn [fst snd] in A, B, C.
      pose proof Ev as Ev'. rewrite elem_cell in Ev |- * by assumption. rewrite A in Ev. injection Ev as ->. rewrite C. f_equal. now apply H2.
    + intros b a N. apply (R2 (b, a)). rewrite map_map. cbn [fst]. intro I. apply in_map_iff in I. destruct I as (ix & Q & I). apply in_all_indices in I. apply (N ix I). rewrite vaddr_cell by assumption. now rewrite Q.
Qed.
Lemma apart r x m : vwf r -> vwf x -> readable m x -> disjoint_views r x -> forall ix, in_range ix (vdims x) -> at_ m (cell x ix) <> None /\ forall jx, in_range jx (vdims r) -> cell x ix <> cell r jx.
Proof.
  intros [Lr _] [Lx _] Rx D ix I. split; [rewrite <- elem_cell by assumption; now apply Rx|]. intros jx J E. apply (D jx ix J I). rewrite !vaddr_cell by assumption. now rewrite E.
Qed.
(* products *)
Lemma gemm_gains {K} al r x w m (L : list Z -> list K) (xi wi : list Z -> K -> list Z) order : operands r [x; w] m ->
  (forall ix k, in_range ix (vdims r) -> In k (L ix) -> in_range (xi ix k) (vdims x) /\ in_range (wi ix k) (vdims w)) ->
  Permutation order (map (fun ix => (cell r ix, flat_map (fun k => [cell x (xi ix k); cell w (wi ix k)]) (L ix))) (all_indices (vdims r))) ->
  exists m', cu_exec (f_gemm al) [order] m = Ok m' /\ gains r (fun ix => cmul al (rsum (map (fun k => cmul (elem0 m x (xi ix k)) (elem0 m w (wi ix k))) (L ix)))) m m'.
Proof.
  intros (Wr & Dr & Rr_ & F) H P. inversion F as [|? ? (Wx & Rx & Dx) F2]; subst. inversion F2 as [|? ? (Ww & Rw & Dw) _]; subst.
  apply (plan_gains (f_gemm al) r (fun ix => flat_map (fun k => [cell x (xi ix k); cell w (wi ix k)]) (L ix))); auto.
  - intros ix p I J. apply in_flat_map in J. destruct J as (k & Ik & [<-|[<-|[]]]); destruct (H ix k I Ik) as [A B].
    + destruct (apart r x m Wr Wx Rx Dx _ A) as [Q1 Q2]. split; [exact Q1|]. intros jx J E. exfalso. exact (Q2 jx J E).
    + destruct (apart r w m Wr Ww Rw Dw _ B) as [Q1 Q2]. split; [exact Q1|]. intros jx J E. exfalso. exact (Q2 jx J E).
  - intros ix v us I _ E. destruct (dots_terms m x w (xi ix) (wi ix) (L ix) c0 Wx Ww Rx Rw (fun k Ik => H ix k I Ik)) as (us' & B' & D). rewrite E in B'. injection B' as <-. unfold f_gemm. rewrite D. ring.
Qed.
Lemma gains_ext r (G G' : list Z -> R) m m' : (forall ix, in_range ix (vdims r) -> G ix = G' ix) -> gains r G m m' -> gains r G' m m'.
Proof. intros E [A U]. split; [|exact U]. intros ix v I V. rewrite <- E by exact I. now apply A. Qed.
End S.

Lemma all2 {T} (f : Z -> Z -> T) a b : flat_map (fun i => map (fun j => f i j) (zrange b)) (zrange a) = map (fun ix : list Z => f (nth 0 ix 0) (nth 1 ix 0)) (all_indices [a; b]).
Proof. cbn [all_indices]. rewrite map_flat_map. apply flat_map_ext. intro i. rewrite map_map, map_flat_map. cbn [map nth]. now rewrite flat_map_single. Qed.
Lemma all3 {T} (f : Z -> Z -> Z -> T) a b c : flat_map (fun i => flat_map (fun j => map (fun k => f i j k) (zrange c)) (zrange b)) (zrange a) = map (fun ix : list Z => f (nth 0 ix 0) (nth 1 ix 0) (nth 2 ix 0)) (all_indices [a; b; c]).
Proof.
  change (all_indices [a; b; c]) with (flat_map (fun i => map (cons i) (all_indices [b; c])) (zrange a)). rewrite map_flat_map. apply flat_map_ext. intro i. rewrite map_map. cbn [nth]. exact (all2 (f i) b c).
Qed.
Lemma gemms_plan (ta tb : bool) m n k A lda sa B ldb sb C ldc sc N : 0 <= m -> 0 <= n -> 0 <= k -> 0 <= N -> Z.max 1 (if ta then k else m) <= lda -> Z.max 1 (if tb then n else k) <= ldb -> Z.max 1 m <= ldc ->
  gemms ta tb m n k A lda sa B ldb sb C ldc sc N = Ok (map (fun ix : list Z => (shift C (nth 0 ix 0 * sc + (nth 2 ix 0 + nth 1 ix 0 * ldc)),
    flat_map (fun l => [opat ta (shift A (nth 0 ix 0 * sa)) lda (nth 2 ix 0) l; opat tb (shift B (nth 0 ix 0 * sb)) ldb l (nth 1 ix 0)]) (zrange k))) (all_indices [N; n; m])).
Proof.
  intros. unfold gemms. replace ((0 <=? m) && (0 <=? n) && (0 <=? k) && (0 <=? N) && (Z.max 1 (if ta then k else m) <=? lda) && (Z.max 1 (if tb then n else k) <=? ldb) && (Z.max 1 m <=? ldc)) with true by lia.
  f_equal. exact (all3 (fun b j i => (shift C (b * sc + (i + j * ldc)), flat_map (fun l => [opat ta (shift A (b * sa)) lda i l; opat tb (shift B (b * sb)) ldb l j]) (zrange k))) N n m).
Qed.
Lemma gemm_plan (ta tb : bool) m n k A lda B ldb C ldc : 0 <= m -> 0 <= n -> 0 <= k -> Z.max 1 (if ta then k else m) <= lda -> Z.max 1 (if tb then n else k) <= ldb -> Z.max 1 m <= ldc ->
  gemm ta tb m n k A lda B ldb C ldc = Ok (map (fun ix : list Z => (shift C (nth 1 ix 0 + nth 0 ix 0 * ldc), flat_map (fun l => [opat ta A lda (nth 1 ix 0) l; opat tb B ldb l (nth 0 ix 0)]) (zrange k))) (all_indices [n; m])).
Proof.
  intros. unfold gemm. rewrite gemms_plan by (assumption || lia). f_equal. change (all_indices [1; n; m]) with (map (cons 0) (all_indices [n; m]) ++ []). rewrite app_nil_r, map_map. apply map_ext. intro ix. cbn [nth].
  unfold shift. rewrite !Z.add_0_r. now destruct A, B.
Qed.
Lemma two (v : view) a b s0 s1 : vdims v = [a; b] -> vstr v = [s0; s1] -> nd v 0 = a /\ nd v 1 = b /\ sd v 0 = s0 /\ sd v 1 = s1.
Proof. unfold nd, sd. now intros -> ->. Qed.
Lemma three (v : view) a b c s0 s1 s2 : vdims v = [a; b; c] -> vstr v = [s0; s1; s2] -> nd v 0 = a /\ nd v 1 = b /\ nd v 2 = c /\ sd v 0 = s0 /\ sd v 1 = s1 /\ sd v 2 = s2.
Proof. unfold nd, sd. now intros -> ->. Qed.
Ltac inr := unfold in_range; repeat (apply Forall2_cons; [lia|]); apply Forall2_nil.

Section T.
Context {R : cring}.
Add Ring Rr2 : (cth R).
Notation memR := (mem (car R)).
Implicit Types m : memR.
Definition mm (A B : Z -> Z -> R) (n : Z) (ix : list Z) : R := rsum (map (fun k => cmul (A (nth 0 ix 0) k) (B k (nth 1 ix 0))) (zrange n)).
Lemma rsum_map_eq {T} (f g : T -> R) L : (forall k, f k = g k) -> rsum (map f L) = rsum (map g L).
Proof. intro H. f_equal. now apply map_ext. Qed.
Lemma swap_operands r x y m : operands r [x; y] m -> operands r [y; x] m.
Proof. intros (A & B & C & F). inversion F as [|? ? F1 F2]; subst. inversion F2 as [|? ? F3 _]; subst. repeat split; auto; apply A. Qed.
Lemma first_wf r x l m : operands r (x :: l) m -> vwf x.
Proof. intros (_ & _ & _ & F). inversion F as [|? ? (W & _) _]; subst. exact W. Qed.
Lemma first_ops r x l m : operands r (x :: l) m -> readable m x /\ disjoint_views r x.
Proof. intros (_ & _ & _ & F). inversion F as [|? ? (_ & W) _]; subst. exact W. Qed.
Lemma sides2 v a b : vwf v -> vdims v = [a; b] -> 0 <= a /\ 0 <= b.
Proof. intros [_ N] D. rewrite D in N. unfold nonneg in N. inversion N as [|? ? ? N2]; subst. inversion N2; subst. lia. Qed.
Lemma sides3 v a b c : vwf v -> vdims v = [a; b; c] -> 0 <= a /\ 0 <= b /\ 0 <= c.
Proof. intros [_ N] D. rewrite D in N. unfold nonneg in N. inversion N as [|? ? ? N2]; subst. inversion N2 as [|? ? ? N3]; subst. inversion N3; subst. lia. Qed.

Lemma AA_ok r x y m a n b rs xs ys : operands r [x; y] m -> vdims r = [a; b] -> vstr r = [rs; 1] -> vdims x = [a; n] -> vstr x = [xs; 1] -> vdims y = [n; b] -> vstr y = [ys; 1] -> Z.max 1 b <= rs -> Z.max 1 n <= xs -> Z.max 1 b <= ys ->
  exists plan, cu_matmul_AA r x y = Ok plan /\ forall order, Permutation order plan -> exists m', cu_exec (f_gemm c1) [order] m = Ok m' /\ gains r (mm (fun i k => elem0 m x [i; k]) (fun k j => elem0 m y [k; j]) n) m m'.
Proof.
  intros O Dr Sr Dx Sx Dy Sy Lr Lx Ly. destruct (two r a b rs 1 Dr Sr) as (R0 & R1 & R2 & R3). destruct (two x a n xs 1 Dx Sx) as (X0 & X1 & X2 & X3). destruct (two y n b ys 1 Dy Sy) as (Y0 & Y1 & Y2 & Y3).
  destruct (sides2 r a b (proj1 O) Dr) as [Na Nb]. assert (Nn : 0 <= n) by apply (sides2 x a n (first_wf _ _ _ _ O) Dx).
  unfold cu_matmul_AA. rewrite R0, R1, R2, R3, X0, X1, X2, X3, Y0, Y1, Y2, Y3, !Z.eqb_refl. cbn [assrt]. rewrite gemm_plan by assumption. eexists. split; [reflexivity|]. intros order P.
  destruct (gemm_gains c1 r y x m (fun _ => zrange n) (fun ix k => [k; nth 1 ix 0]) (fun ix k => [nth 0 ix 0; k]) order) as (m' & E & G).
  - now apply swap_operands.
  - intros ix k I Ik. apply in_zrange in Ik. rewrite Dr in I. rng. rewrite Dx, Dy. cbn [nth]. split; inr.
  - rewrite Dr. erewrite map_ext_in; [exact P|]. intros ix I. apply in_all_indices in I. rng. cbn [nth]. f_equal.
    + unfold cell, arr, shift. rewrite Sr. cbn [fst snd dot]. f_equal. lia.
    + apply flat_map_ext. intro l. unfold opat, cell, arr, shift. rewrite Sx, Sy. cbn [fst snd dot]. f_equal; [f_equal; lia|f_equal; f_equal; lia].
  - exists m'. split; [exact E|]. eapply gains_ext; [|exact G]. intros ix _. unfold mm. cbn beta. rewrite (rsum_map_eq (fun k => cmul (elem0 m x _) _) (fun k => cmul (elem0 m y [k; nth 1 ix 0]) (elem0 m x [nth 0 ix 0; k]))) by (intro; ring). ring.
Qed.
Lemma AT_ok r x y m a n b rs xs ys : operands r [x; y] m -> vdims r = [a; b] -> vstr r = [rs; 1] -> vdims x = [a; n] -> vstr x = [xs; 1] -> vdims y = [b; n] -> vstr y = [ys; 1] -> Z.max 1 b <= rs -> Z.max 1 n <= xs -> Z.max 1 n <= ys ->
  exists plan, cu_matmul_AT r x y = Ok plan /\ forall order, Permutation order plan -> exists m', cu_exec (f_gemm c1) [order] m = Ok m' /\ gains r (mm (fun i k => elem0 m x [i; k]) (fun k j => elem0 m y [j; k]) n) m m'.
Proof.
  intros O Dr Sr Dx Sx Dy Sy Lr Lx Ly. destruct (two r a b rs 1 Dr Sr) as (R0 & R1 & R2 & R3). destruct (two x a n xs 1 Dx Sx) as (X0 & X1 & X2 & X3). destruct (two y b n ys 1 Dy Sy) as (Y0 & Y1 & Y2 & Y3).
  destruct (sides2 r a b (proj1 O) Dr) as [Na Nb]. assert (Nn : 0 <= n) by apply (sides2 x a n (first_wf _ _ _ _ O) Dx).
  unfold cu_matmul_AT. rewrite R0, R1, R2, R3, X0, X1, X2, X3, Y0, Y1, Y2, Y3, !Z.eqb_refl. cbn [assrt]. rewrite gemm_plan by assumption. eexists. split; [reflexivity|]. intros order P.
  destruct (gemm_gains c1 r y x m (fun _ => zrange n) (fun ix k => [nth 1 ix 0; k]) (fun ix k => [nth 0 ix 0; k]) order) as (m' & E & G).
  - now apply swap_operands.
  - intros ix k I Ik. apply in_zrange in Ik. rewrite Dr in I. rng. rewrite Dx, Dy. cbn [nth]. split; inr.
  - rewrite Dr. erewrite map_ext_in; [exact P|]. intros ix I. apply in_all_indices in I. rng. cbn [nth]. f_equal.
    + unfold cell, arr, shift. rewrite Sr. cbn [fst snd dot]. f_equal. lia.
    + apply flat_map_ext. intro l. unfold opat, cell, arr, shift. rewrite Sx, Sy. cbn [fst snd dot]. f_equal; [f_equal; lia|f_equal; f_equal; lia].
  - exists m'. split; [exact E|]. eapply gains_ext; [|exact G]. intros ix _. unfold mm. cbn beta. rewrite (rsum_map_eq (fun k => cmul (elem0 m x _) _) (fun k => cmul (elem0 m y [nth 1 ix 0; k]) (elem0 m x [nth 0 ix 0; k]))) by (intro; ring). ring.
Qed.
Lemma TA_ok r x y m a n b rs xs ys : operands r [x; y] m -> vdims r = [a; b] -> vstr r = [rs; 1] -> vdims x = [n; a] -> vstr x = [xs; 1] -> vdims y = [n; b] -> vstr y = [ys; 1] -> Z.max 1 b <= rs -> Z.max 1 a <= xs -> Z.max 1 b <= ys ->
  exists plan, cu_matmul_TA r x y = Ok plan /\ forall order, Permutation order plan -> exists m', cu_exec (f_gemm c1) [order] m = Ok m' /\ gains r (mm (fun i k => elem0 m x [k; i]) (fun k j => elem0 m y [k; j]) n) m m'.
Proof.
  intros O Dr Sr Dx Sx Dy Sy Lr Lx Ly. destruct (two r a b rs 1 Dr Sr) as (R0 & R1 & R2 & R3). destruct (two x n a xs 1 Dx Sx) as (X0 & X1 & X2 & X3). destruct (two y n b ys 1 Dy Sy) as (Y0 & Y1 & Y2 & Y3).
  destruct (sides2 r a b (proj1 O) Dr) as [Na Nb]. assert (Nn : 0 <= n) by apply (sides2 x n a (first_wf _ _ _ _ O) Dx).
  unfold cu_matmul_TA. rewrite R0, R1, R2, R3, X0, X1, X2, X3, Y0, Y1, Y2, Y3, !Z.eqb_refl. cbn [assrt]. rewrite gemm_plan by assumption. eexists. split; [reflexivity|]. intros order P.
  destruct (gemm_gains c1 r y x m (fun _ => zrange n) (fun ix k => [k; nth 1 ix 0]) (fun ix k => [k; nth 0 ix 0]) order) as (m' & E & G).
  - now apply swap_operands.
  - intros ix k I Ik. apply in_zrange in Ik. rewrite Dr in I. rng. rewrite Dx, Dy. cbn [nth]. split; inr.
  - rewrite Dr. erewrite map_ext_in; [exact P|]. intros ix I. apply in_all_indices in I. rng. cbn [nth]. f_equal.
    + unfold cell, arr, shift. rewrite Sr. cbn [fst snd dot]. f_equal. lia.
    + apply flat_map_ext. intro l. unfold opat, cell, arr, shift. rewrite Sx, Sy. cbn [fst snd dot]. f_equal; [f_equal; lia|f_equal; f_equal; lia].
  - exists m'. split; [exact E|]. eapply gains_ext; [|exact G]. intros ix _. unfold mm. cbn beta. rewrite (rsum_map_eq (fun k => cmul (elem0 m x _) _) (fun k => cmul (elem0 m y [k; nth 1 ix 0]) (elem0 m x [k; nth 0 ix 0]))) by (intro; ring). ring.
Qed.
Lemma elem_transp {V} (m : mem V) v a b i j : length (vstr v) = length (vdims v) -> vdims v = [a; b] -> elem m (rv2_transp v) [j; i] = elem m v [i; j].
Proof.
  intros L D. rewrite D in L. destruct v as [bl o dm s]. cbn [vdims vstr] in *. subst dm. destruct s as [|s [|t [|]]]; try discriminate. unfold elem, vaddr, rv2_transp, nd, sd. cbn. f_equal. lia.
Qed.
Lemma elem0_transp m v a b i j : length (vstr v) = length (vdims v) -> vdims v = [a; b] -> elem0 m (rv2_transp v) [j; i] = elem0 m v [i; j].
Proof. intros L D. unfold elem0. now rewrite (elem_transp m v a b). Qed.
Lemma transp_operands r x y m a b : vdims y = [a; b] -> operands r [x; y] m -> operands r [x; rv2_transp y] m.
Proof.
  intros D (Wr & Dr & Rr_ & F). inversion F as [|? ? F1 F2]; subst. inversion F2 as [|? ? (W & Ry & Dj) _]; subst. split; [exact Wr|]. split; [exact Dr|]. split; [exact Rr_|]. constructor; [exact F1|]. constructor; [|constructor].
  assert (I2 : forall ix, in_range ix (vdims (rv2_transp y)) -> exists i j, ix = [j; i] /\ in_range [i; j] (vdims y)).
  { intros ix I. unfold rv2_transp, nd in I. rewrite D in I. cbn [vdims nth] in I. rng. exists i0, i. split; [reflexivity|]. rewrite D. inr. }
  split; [|split].
  - destruct (sides2 y a b W D). split; [reflexivity|]. unfold rv2_transp, nd, nonneg. rewrite D. cbn [vdims nth]. repeat constructor; lia.
  - intros ix I. destruct (I2 ix I) as (i & j & -> & J). rewrite (elem_transp m y a b) by (apply W || assumption). now apply Ry.
  - intros ix jx I J. destruct (I2 jx J) as (i & j & -> & J'). specialize (Dj ix [i; j] I J'). intro E. apply Dj. rewrite E. destruct W as [L _]. rewrite D in L. destruct y as [bl o dm s]. cbn [vdims vstr] in *. subst dm. destruct s as [|s [|t [|]]]; try discriminate. unfold vaddr, rv2_transp, nd, sd. cbn. do 2 f_equal. lia.
Qed.
(* add_mprod of matrices *)
Lemma mprod2_device r x y m a n b : operands r [x; y] m -> vdims r = [a; b] -> vdims x = [a; n] -> vdims y = [n; b] -> 1 <= a -> 1 <= b -> 1 <= n ->
  reg2 r = true -> (reg2 x = true /\ reg2 y = true) \/ (reg2 x = true /\ tra2 y = true) \/ (tra2 x = true /\ reg2 y = true) ->
  exists plan, cu_mprod2 r x y = Ok plan /\ forall order, Permutation order plan -> exists m', cu_exec (f_gemm c1) [order] m = Ok m' /\ gains r (mm (fun i k => elem0 m x [i; k]) (fun k j => elem0 m y [k; j]) n) m m'.
Proof.
  intros O Dr Dx Dy Pa Pb Pn Rr_ L. assert (Wr : vwf r) by apply O. assert (Wx : vwf x) by exact (first_wf _ _ _ _ O). assert (Wy : vwf y) by exact (first_wf _ _ _ _ (swap_operands _ _ _ _ O)).
  assert (St : forall v c d, vwf v -> vdims v = [c; d] -> exists s t, vstr v = [s; t]) by (intros v c d [Lv _] Dv; rewrite Dv in Lv; destruct (vstr v) as [|s [|t [|]]]; try discriminate; eauto).
  destruct (St r _ _ Wr Dr) as (rs & rt & Sr). destruct (St x _ _ Wx Dx) as (xs & xt & Sx). destruct (St y _ _ Wy Dy) as (ys & yt & Sy). clear St.
  destruct (two r a b rs rt Dr Sr) as (R0 & R1 & R2 & R3). destruct (two x a n xs xt Dx Sx) as (X0 & X1 & X2 & X3). destruct (two y n b ys yt Dy Sy) as (Y0 & Y1 & Y2 & Y3).
  assert (E : rs = b /\ rt = 1) by (unfold reg2 in Rr_; rewrite R1, R2, R3 in Rr_; lia). destruct E as [-> ->].
  unfold cu_mprod2. rewrite Rr_. cbn [andb]. destruct (reg2 x && reg2 y) eqn:E1; [|destruct (reg2 x && tra2 y) eqn:E2].
  - unfold reg2 in E1. rewrite X1, X2, X3, Y1, Y2, Y3 in E1. assert (E : xt = 1 /\ xs = n /\ yt = 1 /\ ys = b) by lia. destruct E as (-> & -> & -> & ->). apply (AA_ok r x y m a n b b n b); auto; lia.
  - unfold reg2, tra2 in E2. rewrite X1, X2, X3, Y0, Y2, Y3 in E2. assert (E : xt = 1 /\ xs = n /\ ys = 1 /\ yt = n) by lia. destruct E as (-> & -> & -> & ->).
    destruct (AT_ok r x (rv2_transp y) m a n b b n n) as (plan & Ep & H); auto; try lia.
    + now apply (transp_operands _ _ _ _ n b).
    + unfold rv2_transp. cbn [vdims]. now rewrite Y0, Y1.
    + unfold rv2_transp. cbn [vstr]. now rewrite Y2, Y3.
    + exists plan. split; [exact Ep|]. intros order P. destruct (H order P) as (m' & Ex & G). exists m'. split; [exact Ex|]. eapply gains_ext; [|exact G]. intros ix _. unfold mm. apply rsum_map_eq. intro k. now rewrite (elem0_transp m y n b _ _ (proj1 Wy) Dy).
  - destruct L as [[A B]|[[A B]|[A B]]]; [rewrite A, B in E1; discriminate|rewrite A, B in E2; discriminate|]. rewrite A, B. cbn [andb]. unfold tra2 in A. unfold reg2 in B. rewrite X0, X2, X3 in A. rewrite Y1, Y2, Y3 in B. assert (E : xs = 1 /\ xt = a /\ yt = 1 /\ ys = b) by lia. destruct E as (-> & -> & -> & ->).
    destruct (TA_ok r (rv2_transp x) y m a n b b a b) as (plan & Ep & H); auto; try lia.
    + apply swap_operands, (transp_operands _ _ _ _ a n Dx). now apply swap_operands.
    + unfold rv2_transp. cbn [vdims]. now rewrite X0, X1.
    + unfold rv2_transp. cbn [vstr]. now rewrite X2, X3.
    + exists plan. split; [exact Ep|]. intros order P. destruct (H order P) as (m' & Ex & G). exists m'. split; [exact Ex|]. eapply gains_ext; [|exact G]. intros ix _. unfold mm. apply rsum_map_eq. intro k. now rewrite (elem0_transp m x a n _ _ (proj1 Wx) Dx).
Qed.
(* a matrix times every matrix of a batch *)
Lemma mprod3_device r x y m B a n c r0 r1 y0 y1 : operands r [x; y] m -> vdims r = [B; a; c] -> vdims x = [a; n] -> vdims y = [B; n; c] -> vstr r = [r0; r1; 1] -> vstr y = [y0; y1; 1] ->
  1 <= n -> 1 <= a -> Z.max 1 c <= r1 -> Z.max 1 c <= y1 -> reg2 x = true \/ tra2 x = true ->
  exists plan, cu_mprod3 r x y = Ok plan /\ forall order, Permutation order plan -> exists m', cu_exec (f_gemm c1) [order] m = Ok m' /\
    gains r (fun ix => rsum (map (fun k => cmul (elem0 m x [nth 1 ix 0; k]) (elem0 m y [nth 0 ix 0; k; nth 2 ix 0])) (zrange n))) m m'.
Proof.
  intros O Dr Dx Dy Sr Sy Pn Pa Lr Ly L. assert (Wr : vwf r) by apply O. assert (Wx : vwf x) by exact (first_wf _ _ _ _ O).
  destruct (sides3 r B a c Wr Dr) as (NB & Na & Nc). destruct (three r _ _ _ _ _ _ Dr Sr) as (R0 & R1 & R2 & R3 & R4 & R5). destruct (three y _ _ _ _ _ _ Dy Sy) as (Y0 & Y1 & Y2 & Y3 & Y4 & Y5).
  assert (St : exists s t, vstr x = [s; t]) by (destruct Wx as [Lv _]; rewrite Dx in Lv; destruct (vstr x) as [|s [|t [|]]]; try discriminate; eauto). destruct St as (xs & xt & Sx). destruct (two x a n xs xt Dx Sx) as (X0 & X1 & X2 & X3).
  unfold cu_mprod3. rewrite R0, R1, R2, R3, R4, X0, X1, X2, X3, Y0, Y1, Y2, Y3, Y4, !Z.eqb_refl. cbn [assrt].
  assert (Fin : forall plan, plan = map (fun ix => (cell r ix, flat_map (fun k => [cell y [nth 0 ix 0; k; nth 2 ix 0]; cell x [nth 1 ix 0; k]]) (zrange n))) (all_indices (vdims r)) -> forall order, Permutation order plan ->
    exists m', cu_exec (f_gemm c1) [order] m = Ok m' /\ gains r (fun ix => rsum (map (fun k => cmul (elem0 m x [nth 1 ix 0; k]) (elem0 m y [nth 0 ix 0; k; nth 2 ix 0])) (zrange n))) m m').
  { intros plan -> order P. destruct (gemm_gains c1 r y x m (fun _ => zrange n) (fun ix k => [nth 0 ix 0; k; nth 2 ix 0]) (fun ix k => [nth 1 ix 0; k]) order) as (m' & E & G).
    - now apply swap_operands.
    - intros ix k I Ik. apply in_zrange in Ik. rewrite Dr in I. rng. rewrite Dx, Dy. cbn [nth]. split; inr.
    - exact P.
    - exists m'. split; [exact E|]. eapply gains_ext; [|exact G]. intros ix _. cbn beta. rewrite (rsum_map_eq (fun k => cmul (elem0 m x _) _) (fun k => cmul (elem0 m y [nth 0 ix 0; k; nth 2 ix 0]) (elem0 m x [nth 1 ix 0; k]))) by (intro; ring). ring. }
  destruct (reg2 x) eqn:Ex; [|destruct L as [L|L]; [discriminate|]; rewrite L].
  - unfold reg2 in Ex. rewrite X1, X2, X3 in Ex. assert (E : xt = 1 /\ xs = n) by lia. destruct E as (-> & ->).
    rewrite gemms_plan by (assumption || lia). eexists. split; [reflexivity|]. apply Fin. rewrite Dr. apply map_ext_in. intros ix I. apply in_all_indices in I. rng. cbn [nth]. f_equal.
    + unfold cell, arr, shift. rewrite Sr. cbn [fst snd dot]. f_equal. lia.
    + apply flat_map_ext. intro l. unfold opat, cell, arr, shift. rewrite Sx, Sy. cbn [fst snd dot]. f_equal; [f_equal; lia|f_equal; f_equal; lia].
  - unfold tra2 in L. rewrite X0, X2, X3 in L. assert (E : xs = 1 /\ xt = a) by lia. destruct E as (-> & ->).
    rewrite gemms_plan by (assumption || lia). eexists. split; [reflexivity|]. apply Fin. rewrite Dr. apply map_ext_in. intros ix I. apply in_all_indices in I. rng. cbn [nth]. f_equal.
    + unfold cell, arr, shift. rewrite Sr. cbn [fst snd dot]. f_equal. lia.
    + apply flat_map_ext. intro l. unfold opat, cell, arr, shift. rewrite Sx, Sy. cbn [fst snd dot]. f_equal; [f_equal; lia|f_equal; f_equal; lia].
Qed.
(* sums *)
Lemma broadcast_device al r x one m a b rs : operands r [x] m -> vdims r = [a; b] -> vdims x = [b] -> vstr r = [rs; 1] -> vstr x = [1] -> 1 <= b -> at_ m one = Some c1 -> (forall ix, in_range ix (vdims r) -> one <> cell r ix) ->
  exists plan, cu_broadcast0 one r x = Ok plan /\ forall order, Permutation order plan -> exists m', cu_exec (f_gemm al) [order] m = Ok m' /\ gains r (fun ix => cmul al (elem0 m x [nth 1 ix 0])) m m'.
Proof.
  intros O Dr Dx Sr Sx Pb H1 No. assert (Wr : vwf r) by apply O. assert (Wx : vwf x) by exact (first_wf _ _ _ _ O). destruct (sides2 r a b Wr Dr) as [Na _]. destruct (two r _ _ _ _ Dr Sr) as (R0 & R1 & R2 & R3).
  assert (X0 : nd x 0 = b) by (unfold nd; now rewrite Dx). assert (X1 : sd x 0 = 1) by (unfold sd; now rewrite Sx). destruct (first_ops _ _ _ _ O) as [Rx Dj]. destruct O as (_ & Ds & Rd & _).
  unfold cu_broadcast0. rewrite R0, R1, R2, R3, X0, X1, !Z.eqb_refl. cbn [assrt andb]. rewrite gemms_plan by lia. eexists. split; [reflexivity|]. intros order P.
  apply (plan_gains (f_gemm al) r (fun ix => [cell x [nth 1 ix 0]; one])); auto.
  - intros ix p I [<-|[<-|[]]].
    + rewrite Dr in I. rng. cbn [nth]. destruct (apart r x m Wr Wx Rx Dj [i0]) as [Q1 Q2]; [rewrite Dx; inr|]. split; [exact Q1|]. intros jx J E. exfalso. exact (Q2 jx J E).
    + split; [now rewrite H1|]. intros jx J E. exfalso. exact (No jx J E).
  - intros ix v us I _ E. rewrite Dr in I. rng. cbn [nth] in *. unfold loads in E. cbn [mapM] in E. rewrite (loadA_some _ _ _ (load_elem0 m x [i0] Wx Rx ltac:(rewrite Dx; inr))), (loadA_some _ _ _ H1) in E. cbn [bind] in E. injection E as <-. unfold f_gemm. cbn [dots]. ring.
  - rewrite Dr. change (all_indices [a; b]) with (flat_map (fun i => map (cons i) (all_indices [b])) (zrange a)).
    change (all_indices [a; 1; b]) with (flat_map (fun i => map (cons i) (map (cons 0) (all_indices [b]) ++ [])) (zrange a)) in P. rewrite map_flat_map in P |- *. erewrite flat_map_ext; [exact P|]. intro i. cbn beta. rewrite app_nil_r, !map_map. apply map_ext_in. intros ix I. apply in_all_indices in I. rng. cbn [nth].
    change (zrange 1) with [0]. cbn [flat_map app]. unfold opat, cell, arr, shift. rewrite Sr, Sx. cbn [fst snd dot]. f_equal; [f_equal; lia|]. f_equal; [f_equal; lia|]. f_equal. destruct one. cbn [fst snd]. f_equal. lia.
Qed.
Lemma add1_device al r x m n rs xs : operands r [x] m -> vdims r = [n] -> vdims x = [n] -> vstr r = [rs] -> vstr x = [xs] -> 0 <= rs -> 0 <= xs ->
  exists plan, cu_add1 r x = Ok plan /\ forall order, Permutation order plan -> exists m', cu_exec (f_axpy al) [order] m = Ok m' /\ gains r (fun ix => cmul al (elem0 m x ix)) m m'.
Proof.
  intros O Dr Dx Sr Sx Pr Px. assert (Wr : vwf r) by apply O. assert (Wx : vwf x) by exact (first_wf _ _ _ _ O). destruct (first_ops _ _ _ _ O) as [Rx Dj]. destruct O as (_ & Ds & Rd & _).
  exists (axpy n (arr x) xs (arr r) rs). split.
  - unfold cu_add1, reg1, nd, sd. rewrite Dr, Dx, Sr, Sx. cbn [nth]. rewrite Z.eqb_refl. cbn [assrt]. destruct ((rs =? 1) && (xs =? 1)) eqn:E; [|reflexivity]. assert (E' : rs = 1 /\ xs = 1) by lia. now destruct E' as [-> ->].
  - intros order P. apply (plan_gains (f_axpy al) r (fun ix => [cell x ix])); auto.
    + intros ix p I [<-|[]]. destruct (apart r x m Wr Wx Rx Dj ix) as [Q1 Q2]; [now rewrite Dx, <- Dr|]. split; [exact Q1|]. intros jx J E. exfalso. exact (Q2 jx J E).
    + intros ix v us I _ E. unfold loads in E. cbn [mapM] in E. rewrite (loadA_some _ _ _ (load_elem0 m x ix Wx Rx ltac:(now rewrite Dx, <- Dr))) in E. cbn [bind] in E. injection E as <-. reflexivity.
    + rewrite Dr. unfold axpy in P. cbn [all_indices]. rewrite map_flat_map. cbn [map]. rewrite flat_map_single. erewrite map_ext; [exact P|]. intro i. cbn beta. unfold axat, cell, arr, shift. rewrite Sr, Sx. cbn [fst snd dot].
      replace (0 <=? rs) with true by lia. replace (0 <=? xs) with true by lia. f_equal; [f_equal; lia|f_equal; f_equal; lia].
Qed.
Lemma times_device c v m n : vwf v -> vdims v = [n] -> vstr v = [1] -> readable m v ->
  exists plan, cu_times v = Ok plan /\ forall order, Permutation order plan -> exists m', cu_exec (f_axpy c) [order] m = Ok m' /\ gains v (fun ix => cmul c (elem0 m v ix)) m m'.
Proof.
  intros W D S Rv. exists (axpy n (arr v) 1 (arr v) 1). split.
  - unfold cu_times. rewrite D, S. change (is_contiguous [1] [n]) with (@Ok bool true). cbn [bind]. rewrite asize_prod. unfold prod. cbn [fold_right]. now rewrite Z.mul_1_r.
  - assert (Dv : distinct_cells v). { intros ix jx I J E. rewrite !vaddr_cell in E by (apply W || assumption). rewrite D in I, J. rng. unfold cell in E. rewrite S in E. cbn [dot] in E. apply (f_equal (fun q => match q with Ok p => snd p | _ => 0 end)) in E. cbn [snd] in E. f_equal. lia. }
    intros order P. apply (plan_gains (f_axpy c) v (fun ix => [cell v ix])); auto.
    + intros ix p I [<-|[]]. split; [rewrite <- elem_cell by (apply W || assumption); now apply Rv|]. intros jx J E. symmetry. apply Dv; auto. rewrite !vaddr_cell by (apply W || assumption). now rewrite E.
    + intros ix u us I _ E. unfold loads in E. cbn [mapM] in E. rewrite (loadA_some _ _ _ (load_elem0 m v ix W Rv I)) in E. cbn [bind] in E. injection E as <-. reflexivity.
    + rewrite D. unfold axpy in P. cbn [all_indices]. rewrite map_flat_map. cbn [map]. rewrite flat_map_single. erewrite map_ext; [exact P|]. intro i. cbn beta. unfold axat, cell, arr, shift. rewrite S. cbn [fst snd dot]. change (0 <=? 1) with true. cbv iota.
      f_equal; [f_equal; lia|f_equal; f_equal; lia].
Qed.
End T.
