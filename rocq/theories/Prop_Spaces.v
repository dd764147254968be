(* Prop_Spaces.v -- C109 to C112 *)
From Coq Require Import Reals Lra Sorting.Permutation Sorting.Sorted.
From Verif Require Import Base BaseFacts Model_Index Model_View Model_Tensor Model_Ops Model_CView Model_Spaces Model_Components
  Spec_Index Spec_View Spec_Tensor Spec_Ops Spec_Spaces Spec_Components Proofs_Axes Proofs_Index Proofs_View Proofs_View2 Proofs_Tensor Proofs_Tensor2 Proofs_Tensor3 Proofs_Ops
  Proofs_Program Proofs_Sparse Proofs_Spaces Proofs_Spaces2 Proofs_Spaces3 Proofs_Spaces4 Proofs_Spaces5 Proofs_Spaces6 Proofs_Components.
Local Open Scope Z_scope.

(* ---- C109: an orthonormal basis of the column space ---- *)
Theorem C109_column_space : forall n mm M thr (m : mem R) b F,
  vdims M = [n; mm] -> vwf M -> nonneg (vstr M) -> distinct_cells M -> vblk M <> b -> columns HReal m M n mm F -> (0 <= thr)%R ->
  exists k Q r m', column_space HReal b M thr m = Ok (r, m') /\ vblk r = b /\ columns HReal m' r n k Q /\ 0 <= k <= mm /\ k <= n /\
    orthonormal HReal n k Q /\
    (forall j, 0 <= j < k -> spanned HReal n mm F (Q j)) /\
    (forall i, 0 <= i < mm -> exists c, (len2 HReal n (fun p => F i p - comb HReal k c Q p) <= thr * thr)%R) /\
    (forall b' a, b' <> b -> (forall ix, in_range ix (vdims M) -> vaddr M ix <> Ok (b', a)) -> m' b' a = m b' a).
Proof.
  intros n mm M thr m b F D W N Dc Nb C Ht. assert (G : gmat M n mm) by (repeat split; auto; apply W).
  destruct (gmat_str M n mm G) as (_ & _ & _ & _ & _ & Hn & Hm).
  destruct (column_space_run (H := HReal) b M n mm thr F m G Nb C) as (m' & E & _ & CT & U).
  pose proof (prun_count (H := HReal) n thr F (Z.to_nat mm)) as Hk.
  pose proof (prun_orth (H := HReal) (fun x => eq_refl) n thr Ht F (Z.to_nat mm)) as O.
  eexists _, _, _, m'. split; [exact E|]. split; [reflexivity|]. split; [apply block_columns; [lia|exact CT]|]. split; [lia|].
  split; [eapply (orthonormal_le (H := HReal)); eauto; lia|]. split; [exact O|]. split; [|split].
  - intros j Hj. pose proof (prun_span (H := HReal) (fun x => eq_refl) n thr Ht F (Z.to_nat mm) j Hj) as Sp. rewrite Z2Nat.id in Sp by lia. exact Sp.
  - intros i Hi. exact (prun_close (H := HReal) (fun x => eq_refl) n thr Ht F mm i Hi).
  - exact U.
Qed.
Print Assumptions C109_column_space.
(* with threshold 0 the columns found span every column *)
Theorem C109_exact : forall n mm M (m : mem R) b F,
  vdims M = [n; mm] -> vwf M -> nonneg (vstr M) -> distinct_cells M -> vblk M <> b -> columns HReal m M n mm F ->
  exists k Q r m', column_space HReal b M 0 m = Ok (r, m') /\ columns HReal m' r n k Q /\ orthonormal HReal n k Q /\
    (forall i, 0 <= i < mm -> spanned HReal n k Q (F i)).
Proof.
  intros n mm M m b F D W N Dc Nb C.
  destruct (C109_column_space n mm M 0%R m b F D W N Dc Nb C (Rle_refl 0)) as (k & Q & r & m' & E & _ & Cr & _ & _ & O & _ & Cl & _).
  exists k, Q, r, m'. split; [exact E|]. split; [exact Cr|]. split; [exact O|]. intros i Hi. destruct (Cl i Hi) as (c & L).
  exists c. intros p Hp.
  assert (Z0 : len2 HReal n (fun p => (F i p - comb HReal k c Q p)%R) = 0%R).
  { pose proof (len2_pos (H := HReal) n (fun p => (F i p - comb HReal k c Q p)%R)). cbn in *. lra. }
  pose proof (len2_0 (H := HReal) n _ Z0 p Hp) as Z1. cbn in Z1. cbn. lra.
Qed.
Print Assumptions C109_exact.
(* which columns are kept, and what becomes of M: kk i is the number of columns kept among the first i; column i is
   kept, divided by its length, when what is left of it is longer than the threshold; M holds what is left *)
Theorem C109_selection : forall n mm M thr (m : mem R) b F,
  vdims M = [n; mm] -> vwf M -> nonneg (vstr M) -> distinct_cells M -> vblk M <> b -> columns HReal m M n mm F -> (0 <= thr)%R ->
  exists kk Q r m', column_space HReal b M thr m = Ok (r, m') /\ columns HReal m' r n (kk mm) Q /\ kk 0 = 0 /\
    (forall i, 0 <= i < mm -> let w := leftover HReal n (kk i) Q (F i) in
       (forall p, 0 <= p < n -> elem m' M [p; i] = Some (w p)) /\
       ((thr < sqrt (len2 HReal n w))%R /\ kk (i + 1) = kk i + 1 /\ (forall p, 0 <= p < n -> Q (kk i) p = (1 / sqrt (len2 HReal n w) * w p)%R) \/
        (sqrt (len2 HReal n w) <= thr)%R /\ kk (i + 1) = kk i)).
Proof.
  intros n mm M thr m b F D W N Dc Nb C Ht. assert (G : gmat M n mm) by (repeat split; auto; apply W).
  destruct (gmat_str M n mm G) as (_ & _ & _ & _ & _ & Hn & Hm).
  destruct (column_space_run (H := HReal) b M n mm thr F m G Nb C) as (m' & E & CM & CT & U).
  pose proof (prun_count (H := HReal) n thr F (Z.to_nat mm)) as Hk.
  exists (fun i => fst (prun (H := HReal) n thr F (Z.to_nat i))), (snd (prun (H := HReal) n thr F (Z.to_nat mm))). eexists _, m'.
  split; [exact E|]. split; [apply block_columns; [lia|exact CT]|]. split; [reflexivity|]. intros i Hi w. split.
  - intros p Hp. rewrite (proj2 CM p i Hp Hi). f_equal. exact (swept_resid (H := HReal) (fun x => eq_refl) n thr Ht F mm i Hi p Hp).
  - destruct (prun_next (H := HReal) (fun x => eq_refl) n thr Ht F mm i Hi) as [N1 N2]. cbv zeta in N1, N2. fold w in N1, N2.
    destruct (Rlt_dec thr (sqrt (len2 HReal n w))) as [Lt|Ge].
    + left. destruct (N1 Lt) as [A B]. split; [exact Lt|]. split; [exact A|]. exact B.
    + right. split; [lra|]. now apply N2.
Qed.
Print Assumptions C109_selection.
Theorem C109_shape : forall b M thr (m : mem R), length (vdims M) <> 2%nat -> column_space HReal b M thr m = Throw.
Proof. intros b M thr m L. unfold column_space, zeros. destruct (vdims M) as [|? [|? [|? ?]]]; cbn in L; try reflexivity. lia. Qed.
Print Assumptions C109_shape.
(* the argument, though const, is overwritten: whenever its second column is not orthogonal to the first *)
Theorem C109_argument_kept_refuted : forall n mm M thr (m : mem R) b F,
  vdims M = [n; mm] -> vwf M -> nonneg (vstr M) -> distinct_cells M -> vblk M <> b -> columns HReal m M n mm F -> (0 <= thr)%R ->
  2 <= mm -> (thr < sqrt (len2 HReal n (F 0%Z)))%R -> ip HReal n (F 0%Z) (F 1%Z) <> 0%R ->
  exists r m' p, column_space HReal b M thr m = Ok (r, m') /\ 0 <= p < n /\ elem m' M [p; 1] <> elem m M [p; 1].
Proof.
  intros n mm M thr m b F D W N Dc Nb C Ht H2 Lt Ne.
  destruct (C109_selection n mm M thr m b F D W N Dc Nb C Ht) as (kk & Q & r & m' & E & Cr & K0 & K).
  destruct (C109_column_space n mm M thr m b F D W N Dc Nb C Ht) as (k & Q' & r' & m'' & E' & _ & Cr' & Hk & _ & O & _).
  assert (r' = r /\ m'' = m') as [-> ->] by (rewrite E in E'; injection E' as <- <-; auto).
  exists r, m'.
  assert (W0 : forall p, 0 <= p < n -> leftover HReal n (kk 0) Q (F 0%Z) p = F 0%Z p).
  { intros p Hp. rewrite K0. unfold leftover, comb. change (zrange 0) with (@nil Z). cbn [map]. rewrite rsum_nil. cbn. lra. }
  destruct (K 0 ltac:(lia)) as [_ K1]. rewrite (len2_ext (H := HReal) n _ (F 0%Z) W0) in K1. change (0 + 1) with 1 in K1.
  destruct K1 as [(_ & K1 & Q0)|(Le & _)]; [|lra]. rewrite K0 in K1, Q0. change (0 + 1) with 1 in K1.
  set (l := sqrt (len2 HReal n (F 0%Z))) in *.
  assert (Q0' : forall p, 0 <= p < n -> Q 0%Z p = (1 / l * F 0%Z p)%R) by (intros p Hp; rewrite Q0 by assumption; rewrite <- (W0 p Hp), K0; reflexivity).
  (* if column 1 were kept as it is, it would be orthogonal to Q 0%Z *)
  destruct (K 1 ltac:(lia)) as [K2 _]. rewrite K1 in K2.
  assert (L : forall p, 0 <= p < n -> leftover HReal n 1 Q (F 1%Z) p = (F 1%Z p - ip HReal n (Q 0%Z) (F 1%Z) * Q 0%Z p)%R).
  { intros p Hp. unfold leftover, comb. change (zrange 1) with [0]. cbn [map]. rewrite rsum_cons, rsum_nil. cbn. ring. }
  assert (Ip : ip HReal n (Q 0%Z) (F 1%Z) = (1 / l * ip HReal n (F 0%Z) (F 1%Z))%R).
  { rewrite (ip_ext (H := HReal) n (Q 0%Z) (fun p => (1 / l * F 0%Z p)%R) (F 1%Z) (F 1%Z)) by auto. exact (ip_scale_l (H := HReal) n (1 / l)%R (F 0%Z) (F 1%Z)). }
  assert (Hl : (0 < l)%R) by (unfold l in *; lra).
  (* some entry of F 0%Z is not 0 *)
  assert (Ex : exists p, 0 <= p < n /\ F 0%Z p <> 0%R).
  { destruct (gmat_str M n mm) as (_ & _ & _ & _ & _ & Hn & _); [repeat split; auto; apply W|].
    assert (Dec : forall k : nat, (exists p, 0 <= p < Z.of_nat k /\ F 0%Z p <> 0%R) \/ (forall p, 0 <= p < Z.of_nat k -> F 0%Z p = 0%R)).
    { induction k0 as [|k0 [(p & Hp & Np)|IH]]; [right; intros; lia|left; exists p; split; [lia|exact Np]|].
      destruct (Req_EM_T (F 0%Z (Z.of_nat k0)) 0) as [Z0|Nz]; [|left; exists (Z.of_nat k0); split; [lia|exact Nz]].
      right. intros p Hp. destruct (Z.eq_dec p (Z.of_nat k0)) as [->|]; [exact Z0|apply IH; lia]. }
    destruct (Dec (Z.to_nat n)) as [(p & Hp & Np)|All]; [exists p; split; [lia|exact Np]|]. exfalso. apply Ne.
    unfold ip. apply (rsum_zero RRing). intros p Hp. apply in_zrange in Hp. rewrite All by lia. cbn. ring. }
  destruct Ex as (p & Hp & Np). exists p. split; [exact E|]. split; [exact Hp|].
  intro Eq0. assert (Eq : Some (leftover HReal n 1 Q (F 1%Z) p) = Some (F 1%Z p)).
  { rewrite <- (K2 p Hp). etransitivity; [exact Eq0|]. exact (proj2 C p 1 Hp ltac:(lia)). }
  injection Eq as Eq. rewrite (L p Hp), Ip, (Q0' p Hp) in Eq.
  assert (Z0 : (1 / l * ip HReal n (F 0%Z) (F 1%Z) * (1 / l * F 0%Z p))%R = 0%R) by lra.
  assert (P1 : (1 / l <> 0)%R) by (apply Rgt_not_eq; apply Rdiv_lt_0_compat; lra).
  apply Rmult_integral in Z0 as [Z0|Z0]; apply Rmult_integral in Z0 as [Z0|Z0]; contradiction.
Qed.
Print Assumptions C109_argument_kept_refuted.
(* for complex<double> the columns found are not orthogonal: inp conjugates its first argument, so the wrong multiple is
   subtracted as soon as the inner product of the two columns is not real *)
Theorem C109_complex_refuted : forall n M thr (m : mem (R * R)) b F r m' Q,
  vdims M = [n; 2] -> vwf M -> nonneg (vstr M) -> distinct_cells M -> vblk M <> b -> columns HCplx m M n 2 F -> (0 <= thr)%R ->
  snd (ip HCplx n (F 0%Z) (F 1%Z)) <> 0%R -> column_space HCplx b M thr m = Ok (r, m') -> columns HCplx m' r n 2 Q ->
  ip HCplx n (Q 0%Z) (Q 1%Z) <> (0, 0)%R.
Proof.
  intros n M thr m b F r m' Q D W N Dc Nb C Ht Im E Cr. assert (G : gmat M n 2) by (repeat split; auto; apply W).
  destruct (column_space_run (H := HCplx) b M n 2 thr F m G Nb C) as (m1 & E1 & _ & CT & _). rewrite E1 in E. injection E as <- <-.
  destruct Cr as [Dr Vr]. cbn in Dr. injection Dr as Dr.
  assert (EQ : forall j p, 0 <= j < 2 -> 0 <= p < n -> Q j p = snd (prun (H := HCplx) n thr F 2) j p).
  { intros j p Hj Hp. specialize (Vr p j Hp Hj). pose proof (proj2 CT p j Hp Hj) as V2. assert (Es : Some (Q j p) = Some (snd (prun (H := HCplx) n thr F 2) j p)) by (etransitivity; [symmetry; exact Vr|exact V2]). now injection Es. }
  rewrite (ip_ext (H := HCplx) n _ (snd (prun (H := HCplx) n thr F 2) 0) _ (snd (prun (H := HCplx) n thr F 2) 1)) by (intros; apply EQ; lia). clear EQ Vr CT E1.
  change (fst (prun (H := HCplx) n thr F 2) = 2) in Dr.
  set (a := F 0%Z) in *. set (bb := F 1%Z) in *. set (q := unit_of (H := HCplx) n a). set (Q1 := extend 0 (fun _ _ : Z => @c0 (hr HCplx)) q).
  set (w := sweepZ (H := HCplx) n 1 Q1 bb).
  assert (P1 : prun (H := HCplx) n thr F 1 = if kept (H := HCplx) thr n a then (1, Q1) else (0, fun _ _ => c0)) by reflexivity.
  assert (P2 : prun (H := HCplx) n thr F 2 = pstep (H := HCplx) n thr (prun (H := HCplx) n thr F 1) bb) by reflexivity.
  pose proof (prun_count (H := HCplx) n thr F 2) as _. revert P1. unfold kept at 1. destruct (Rlt_dec thr (sqrt (len2 HCplx n a))) as [L0|]; intro P1.
  2:{ exfalso. rewrite P2, P1 in Dr. unfold pstep in Dr. cbn [fst snd] in Dr. destruct (kept _ _ _) in Dr; cbn in Dr; lia. }
  rewrite P1 in P2. unfold pstep in P2. cbn [fst snd] in P2. fold w in P2. unfold kept in P2. revert P2.
  destruct (Rlt_dec thr (sqrt (len2 HCplx n w))) as [L1|]; intro P2; [|rewrite P2 in Dr; cbn in Dr; lia]. rewrite P2. cbn [fst snd]. clear Dr P1 P2.
  unfold extend at 1 2. change (0 =? 1) with false. change (1 =? 1) with true. cbn iota.
  assert (Q10 : Q1 0 = q) by reflexivity. rewrite Q10.
  assert (Hw : forall p, w p = csub (bb p) (cmul (ip HCplx n bb q) (q p))) by reflexivity.
  assert (qq : ip HCplx n q q = c1).
  { apply (unit_len (H := HCplx)). intro Z0. rewrite Z0, sqrt_0 in L0. lra. }
  assert (wq : ip HCplx n q w = csub (ip HCplx n q bb) (ip HCplx n bb q)).
  { rewrite (ip_ext (H := HCplx) n q q w (fun p => csub (bb p) (cmul (ip HCplx n bb q) (q p)))) by auto.
    rewrite (ip_sub_r (H := HCplx)), (ip_scale_r (H := HCplx)), qq. f_equal. cbn. destruct (ip HCplx n bb q). cbn. f_equal; ring. }
  unfold unit_of at 1. rewrite (ip_scale_r (H := HCplx)), wq. rewrite <- (ip_conj (H := HCplx) n q bb).
  (* the imaginary part of <q,b> is that of <a,b> divided by the length of a *)
  set (la := sqrt (len2 HCplx n a)) in *. set (lw := sqrt (len2 HCplx n w)) in *.
  assert (qb : ip HCplx n q bb = cmul (hconj HCplx (hinj HCplx (1 / la)%R)) (ip HCplx n a bb)) by (apply (ip_scale_l (H := HCplx))).
  rewrite qb. destruct (ip HCplx n a bb) as [x y] eqn:Eab. cbn in Im |- *. intro Z0. injection Z0 as _ Z0.
  assert (Pa : (0 < 1 / la)%R) by (apply Rdiv_lt_0_compat; lra). assert (Pw : (0 < 1 / lw)%R) by (apply Rdiv_lt_0_compat; lra).
  assert (Z1 : (2 * (1 / lw) * (1 / la) * y)%R = 0%R) by (rewrite <- Z0; ring).
  apply Rmult_integral in Z1 as [Z1|Z1]; [|contradiction]. nra.
Qed.
Print Assumptions C109_complex_refuted.
(* the hypotheses are met: the columns (0,2) and (1,3), one after the other row by row in block 0 *)
Definition case_mem : mem R := fun b a => if b =? 0 then (if (0 <=? a) && (a <? 4) then Some (IZR a) else None) else None.
Example C109_case : let M := fresh_view 0 [2; 2] in let F := fun i p => IZR (2 * p + i) in
  vdims M = [2; 2] /\ vwf M /\ nonneg (vstr M) /\ distinct_cells M /\ vblk M <> 1 /\ columns HReal case_mem M 2 2 F /\
  (0 < sqrt (len2 HReal 2 (F 0%Z)))%R /\ ip HReal 2 (F 0%Z) (F 1%Z) <> 0%R.
Proof.
  intros M F. destruct (gmat_fresh 0 2 2 ltac:(lia) ltac:(lia)) as (D & W & N & Dc).
  split; [exact D|]. split; [exact W|]. split; [exact N|]. split; [exact Dc|]. split; [discriminate|].
  assert (len2 HReal 2 (F 0%Z) = 4)%R as L by (unfold len2, F; change (zrange 2) with [0; 1]; cbn [map]; rewrite !rsum_cons, rsum_nil; cbn; lra).
  assert (ip HReal 2 (F 0%Z) (F 1%Z) = 6)%R as P by (unfold ip, F; change (zrange 2) with [0; 1]; cbn [map]; rewrite !rsum_cons, rsum_nil; cbn; lra).
  split; [|split; [rewrite L; apply sqrt_lt_R0; lra|rewrite P; lra]]. split; [reflexivity|]. intros p i Hp Hi.
  assert (p = 0 \/ p = 1) as [-> | ->] by lia; assert (i = 0 \/ i = 1) as [-> | ->] by lia; reflexivity.
Qed.
(* complex columns (1,0) and (i,1): their inner product is i *)
Definition case_cmem : mem (R * R) := fun b a =>
  if b =? 0 then match a with 0 => Some (1, 0) | 1 => Some (0, 1) | 2 => Some (0, 0) | 3 => Some (1, 0) | _ => None end%R else None.
Section SubZero.
Context (A : cring).
Add Ring RrPrSp : (cth A).
Lemma sub_zero (x a b : A) : csub x (cmul a (cmul b c0)) = x.
Proof. ring. Qed.
End SubZero.
Example C109_case_complex : let M := fresh_view 0 [2; 2] in
  let F := fun i p => match i, p with 0, 0 => (1, 0) | 0, _ => (0, 0) | _, 0 => (0, 1) | _, _ => (1, 0) end%R in
  columns HCplx case_cmem M 2 2 F /\ snd (ip HCplx 2 (F 0%Z) (F 1%Z)) <> 0%R /\
  exists r m' Q, column_space HCplx 1 M 0 case_cmem = Ok (r, m') /\ columns HCplx m' r 2 2 Q.
Proof.
  intros M F. pose proof (gmat_fresh 0 2 2 ltac:(lia) ltac:(lia)) as G. fold M in G.
  assert (C : columns HCplx case_cmem M 2 2 F).
  { split; [reflexivity|]. intros p i Hp Hi. assert (p = 0 \/ p = 1) as [-> | ->] by lia; assert (i = 0 \/ i = 1) as [-> | ->] by lia; reflexivity. }
  split; [exact C|]. split.
  { unfold ip, F. change (zrange 2) with [0; 1]. cbn [map]. rewrite !rsum_cons, rsum_nil. cbn. lra. }
  destruct (column_space_run (H := HCplx) 1 M 2 2 0 F case_cmem G ltac:(discriminate) C) as (m' & E & _ & CT & _).
  assert (K : fst (prun (H := HCplx) 2 0 F 2) = 2).
  { change (prun (H := HCplx) 2 0%R F 2) with (pstep (H := HCplx) 2 0%R (prun (H := HCplx) 2 0%R F 1) (F 1%Z)).
    assert (P1 : prun (H := HCplx) 2 0%R F 1 = (1, extend 0 (fun _ _ => c0) (unit_of (H := HCplx) 2 (F 0%Z)))).
    { change (prun (H := HCplx) 2 0%R F 1) with (if kept (H := HCplx) 0 2 (F 0%Z) then (1, extend 0 (fun _ _ => c0) (unit_of (H := HCplx) 2 (F 0%Z))) else (0, fun _ _ => @c0 (hr HCplx))).
      unfold kept. destruct (Rlt_dec 0 (sqrt (len2 HCplx 2 (F 0%Z)))) as [|Nl]; [reflexivity|]. exfalso. apply Nl. apply sqrt_lt_R0.
      unfold len2, F. change (zrange 2) with [0; 1]. cbn [map]. rewrite !rsum_cons, rsum_nil. cbn. lra. }
    rewrite P1. unfold pstep. cbn [fst snd]. unfold kept.
    match goal with |- context [Rlt_dec 0 (sqrt (len2 HCplx 2 ?u))] => set (w := u); destruct (Rlt_dec 0 (sqrt (len2 HCplx 2 w))) as [|Nl] end; [reflexivity|].
    exfalso. apply Nl. apply sqrt_lt_R0. assert (W1 : w 1 = (1, 0)%R) by (exact (sub_zero (hr HCplx) (1, 0)%R _ _)).
    assert (0 <= hsq HCplx (w 0%Z))%R by apply hsq_pos.
    unfold len2. change (zrange 2) with [0; 1]. cbn [map]. rewrite !rsum_cons, rsum_nil, W1. cbn in *. lra. }
  eexists _, m', (snd (prun (H := HCplx) 2 0%R F 2)). split; [exact E|].
  change (Z.to_nat 2) with 2%nat in *. rewrite K. apply block_columns; [lia|exact CT].
Qed.

(* ---- C110: the complement and the intersection of spaces ---- *)
(* ComplementSpace never returns: its member M has no dimensions when it is assigned to *)
Theorem C110_complement_refuted : forall H b b1 b2 A1 thr (m : mem (car (hr H))) r m', complement_space H b b1 b2 A1 thr m <> Ok (r, m').
Proof.
  intros H b b1 b2 A1 thr m r m' E. unfold complement_space in E. destruct (column_space H b A1 _ m) as [[A0 m1]| |]; cbn [bind] in E; try discriminate.
  destruct (vdims A0) as [|n [|k [|]]]; try discriminate. destruct (col_norms H A0 k m1); cbn [bind] in E; discriminate.
Qed.
Print Assumptions C110_complement_refuted.
(* on every readable real matrix it throws, whatever there is to find *)
Theorem C110_complement_throws : forall n mm M thr (m : mem R) b b1 b2 F,
  vdims M = [n; mm] -> vwf M -> nonneg (vstr M) -> distinct_cells M -> vblk M <> b -> columns HReal m M n mm F ->
  complement_space HReal b b1 b2 M thr m = Throw.
Proof.
  intros n mm M thr m b b1 b2 F D W N Dc Nb C. assert (G : gmat M n mm) by (repeat split; auto; apply W).
  destruct (gmat_str M n mm G) as (_ & _ & _ & _ & _ & Hn & Hm).
  destruct (column_space_run (H := HReal) b M n mm (1 / 10000) F m G Nb C) as (m' & E & _ & CT & _).
  pose proof (prun_count (H := HReal) n (1 / 10000) F (Z.to_nat mm)) as Hk.
  assert (G' : forall k, 0 <= k <= mm -> gmat (View b 0 [n; k] (vstr (fresh_view b [n; mm]))) n k).
  { intros k Hkm. destruct (gmat_fresh b n mm Hn Hm) as (_ & (L & _) & Ns & Df). split; [reflexivity|]. split; [split; [exact L|repeat constructor; lia]|].
    split; [exact Ns|]. intros ix jx Hix Hjx Ei. apply (Df ix jx); auto; cbn in Hix, Hjx |- *.
    - inversion Hix as [|? ? ? ? H0 H1]; subst. inversion H1 as [|? ? ? ? H2 H3]; subst. constructor; [lia|constructor; [|assumption]]; lia.
    - inversion Hjx as [|? ? ? ? H0 H1]; subst. inversion H1 as [|? ? ? ? H2 H3]; subst. constructor; [lia|constructor; [|assumption]]; lia. }
  rewrite Z2Nat.id in Hk by exact Hm.
  destruct (col_norms_ok (H := HReal) _ n _ _ m' (G' _ Hk) (block_columns b n mm _ _ m' Hk CT)) as (f & Ef & _).
  unfold complement_space. rewrite E. cbn [bind vdims]. rewrite Ef. reflexivity.
Qed.
Print Assumptions C110_complement_throws.
(* nor does IntersectionSpace, which needs the complement *)
Theorem C110_intersection_refuted : forall H b X Y (m : mem (car (hr H))) r m', intersection_space H b X Y m <> Ok (r, m').
Proof.
  intros H b X Y m r m' E. unfold intersection_space in E. destruct (vdims X) as [|a [|c [|]]]; try discriminate.
  destruct (vdims Y) as [|a' [|c' [|]]]; try discriminate. unfold assrt in E at 1. destruct (c =? c'); [|discriminate].
  destruct (transp Y); cbn [bind] in E; try discriminate.
  destruct (op_mprod b X _ m) as [[B m1]| |]; cbn [bind] in E; try discriminate.
  destruct (transp B); cbn [bind] in E; try discriminate.
  destruct (op_mprod (b + 1) B _ m1) as [[BB m2]| |]; cbn [bind] in E; try discriminate.
  destruct (identity_new H (b + 2) a m2) as [[E0 m3]| |]; cbn [bind] in E; try discriminate.
  destruct (op_sub (b + 3) BB E0 m3) as [[D m4]| |]; cbn [bind] in E; try discriminate.
  destruct (complement_space H (b + 4) (b + 5) (b + 6) D _ m4) as [[C m5]| |] eqn:Ec; cbn [bind] in E; try discriminate.
  exact (C110_complement_refuted _ _ _ _ _ _ _ _ _ Ec).
Qed.
Print Assumptions C110_intersection_refuted.
(* what is missing is only the storage: given a matrix M of zeros of the right size, the rest of the constructor finds an
   orthonormal basis of the vectors orthogonal to the columns of A0 *)
Theorem C110_complement_loop_partial : forall n k A0 M bu thr (m : mem R) Q,
  vdims A0 = [n; k] -> vwf A0 -> nonneg (vstr A0) -> distinct_cells A0 ->
  vdims M = [n; n] -> vwf M -> nonneg (vstr M) -> distinct_cells M ->
  vblk A0 <> vblk M -> vblk A0 <> bu -> vblk M <> bu -> (0 <= thr)%R ->
  columns HReal m A0 n k Q -> orthonormal HReal n k Q -> columns HReal m M n n (fun _ _ => 0%R) ->
  exists norms l P r m', col_norms HReal A0 k m = Ok norms /\ complement_loop HReal A0 M norms n k bu thr m = Ok (r, m') /\
    columns HReal m' r n l P /\ 0 <= l /\ k + l <= n /\ orthonormal HReal n l P /\
    (forall i j, 0 <= i < k -> 0 <= j < l -> ip HReal n (Q i) (P j) = 0%R) /\
    columns HReal m' A0 n k Q /\ (forall b a, b <> vblk M -> b <> bu -> m' b a = m b a) /\
    ((IZR n * (thr * thr) < 1)%R -> k + l = n /\ forall v, (forall i, 0 <= i < k -> ip HReal n (Q i) v = 0%R) -> spanned HReal n l P v).
Proof.
  intros n k A0 M bu thr m Q D W N Dc D' W' N' Dc' B1 B2 B3 Ht C O C0. assert (G : gmat A0 n k) by (repeat split; auto; apply W).
  assert (G' : gmat M n n) by (repeat split; auto; apply W'). destruct (gmat_str A0 n k G) as (_ & _ & _ & _ & _ & Hn & Hk).
  destruct (complement_ok (H := HReal) A0 M n k bu Q thr m (fun x => eq_refl) Hn Hk Ht G G' B1 B2 B3 O C C0) as
    (f & l & P & r & m' & K1 & K2 & K3 & K4 & K5 & K6 & K7 & K8 & K9 & K10).
  exists f, l, P, r, m'. split; [exact K1|]. split; [exact K2|]. split; [exact K3|]. split; [lia|]. split; [exact K9|]. split; [exact K5|].
  split; [exact K6|]. split; [exact K7|]. split; [exact K8|exact K10].
Qed.
Print Assumptions C110_complement_loop_partial.
(* the hypotheses are met: the complement of (0,1) *)
Example C110_case : let A0 := fresh_view 0 [2; 1] in let M := fresh_view 1 [2; 2] in let Q := fun i p : Z => IZR p in
  let m : mem R := fun b a => if b =? 0 then (if (0 <=? a) && (a <? 2) then Some (IZR a) else None) else if b =? 1 then Some 0%R else None in
  vwf A0 /\ nonneg (vstr A0) /\ distinct_cells A0 /\ vwf M /\ nonneg (vstr M) /\ distinct_cells M /\
  columns HReal m A0 2 1 Q /\ orthonormal HReal 2 1 Q /\ columns HReal m M 2 2 (fun _ _ => 0%R) /\ (IZR 2 * (1 / 10000 * (1 / 10000)) < 1)%R.
Proof.
  intros A0 M Q m. destruct (gmat_fresh 0 2 1 ltac:(lia) ltac:(lia)) as (_ & W & N & Dc). destruct (gmat_fresh 1 2 2 ltac:(lia) ltac:(lia)) as (_ & W' & N' & Dc').
  repeat match goal with |- _ /\ _ => split; [first [assumption|idtac]|] end.
  - split; [reflexivity|]. intros p i Hp Hi. assert (i = 0) as -> by lia. assert (p = 0 \/ p = 1) as [-> | ->] by lia; reflexivity.
  - intros i j Hi Hj. assert (i = 0) as -> by lia. assert (j = 0) as -> by lia. unfold ip, Q. change (zrange 2) with [0; 1]. cbn [map]. rewrite !rsum_cons, rsum_nil. cbn. lra.
  - split; [reflexivity|]. intros p i Hp Hi. assert (p = 0 \/ p = 1) as [-> | ->] by lia; assert (i = 0 \/ i = 1) as [-> | ->] by lia; reflexivity.
  - lra.
Qed.

(* ---- C111: random unitary matrices ---- *)
(* when no random vector is a combination of those before it, the rows are orthonormal and so are the columns; row i is what is left of
   vector i, divided by its length *)
Theorem C111_random_unitary : forall H N b bv bt draw (m : mem (car (hr H))),
  0 <= N -> b <> bv -> b <> bt -> bv <> bt -> (forall i, 0 <= i < N -> ~ spanned H N i draw (draw i)) ->
  exists Q r m', random_unitary H b bv bt [N; N] draw m = Ok (r, m') /\ vblk r = b /\ columns H m' r N N (fun j i => Q i j) /\
    orthonormal H N N Q /\ orthonormal H N N (fun j i => Q i j) /\
    (forall i p, 0 <= i < N -> 0 <= p < N -> let w := leftover H N i Q (draw i) in Q i p = cmul (hinj H (1 / sqrt (len2 H N w))%R) (w p)) /\
    (forall b' a, b' <> b -> b' <> bv -> b' <> bt -> m' b' a = m b' a).
Proof.
  intros H N b bv bt F m HN N1 N2 N3 Ind.
  pose proof (gmat_fresh b N N HN HN) as G. destruct (flip_gmat _ N N G) as (Gf & Bf & _ & Af).
  unfold random_unitary, zeros. set (r := fresh_view b [N; N]) in *. set (m0 := Model_Tensor.alloc c0 b (asize [N; N]) m).
  assert (C0 : columns H m0 (flip r) N N (fun _ _ => c0)).
  { split; [exact (proj1 Gf)|]. intros p i Hp Hi. unfold elem. rewrite Af.
    assert (Hnn : nonneg [N; N]) by (repeat constructor; assumption).
    assert (Hin : in_range [i; p] [N; N]) by (repeat constructor; lia).
    pose proof (fresh_readable (c0 : car (hr H)) b [N; N] m [i; p] Hnn Hin) as V. exact V. }
  assert (Al : forall j, (j < Z.to_nat N)%nat -> len2 H N (rest (H := H) N F j) <> 0%R).
  { apply all_rest. intros j Hj. apply Ind. lia. }
  destruct (ru_loop (H := H) r N F b bv bt m0 HN G eq_refl N1 N2 N3 C0 (Z.to_nat N) (le_n _)) as [(_ & m' & E & C & U)|((j & Hj & Z0 & _) & _)].
  2:{ exfalso. exact (Al j Hj Z0). }
  rewrite Z2Nat.id in E by assumption. rewrite Z.eqb_refl. cbn [assrt]. rewrite E. cbn [bind].
  pose proof (qrun_orth (H := H) N F (Z.to_nat N) Al) as O. rewrite Z2Nat.id in O by assumption.
  exists (qrun (H := H) N F (Z.to_nat N)), r, m'. split; [reflexivity|]. split; [reflexivity|]. split; [|split; [exact O|split; [exact (square_columns (H := H) N _ HN O)|split]]].
  - split; [reflexivity|]. intros p i Hp Hi. pose proof (proj2 C i p Hi Hp) as V. unfold elem in *. rewrite Af in V. exact V.
  - intros i p Hi Hp. set (w := leftover H N i (qrun (H := H) N F (Z.to_nat N)) (F i)). rewrite (qrun_mono (H := H) N F (S (Z.to_nat i)) (Z.to_nat N)) by lia. cbn [qrun]. rewrite Z2Nat.id by lia.
    unfold extend at 1. rewrite Z.eqb_refl. unfold unit_of.
    assert (Ew : forall q, 0 <= q < N -> leftover H N i (qrun (H := H) N F (Z.to_nat i)) (F i) q = w q).
    { intros q Hq. apply resid_ext; auto. intros j q' Hj Hq'. symmetry. apply qrun_mono; lia. }
    rewrite (len2_ext N _ _ Ew), (Ew p Hp). reflexivity.
  - intros b' a B1 B2 B3. rewrite U by assumption. unfold m0, Model_Tensor.alloc. replace (b' =? b) with false by lia. reflexivity.
Qed.
Print Assumptions C111_random_unitary.
(* otherwise the first dependent vector is divided by its length 0 *)
Theorem C111_dependent_refuted : forall H N b bv bt draw (m : mem (car (hr H))) i,
  0 <= N -> b <> bv -> b <> bt -> bv <> bt -> 0 <= i < N -> spanned H N i draw (draw i) ->
  random_unitary H b bv bt [N; N] draw m = UB.
Proof.
  intros H N b bv bt F m i HN N1 N2 N3 Hi Sp.
  pose proof (gmat_fresh b N N HN HN) as G. destruct (flip_gmat _ N N G) as (Gf & Bf & _ & Af).
  unfold random_unitary, zeros. set (r := fresh_view b [N; N]) in *. set (m0 := Model_Tensor.alloc c0 b (asize [N; N]) m).
  assert (C0 : columns H m0 (flip r) N N (fun _ _ => c0)).
  { split; [exact (proj1 Gf)|]. intros p j Hp Hj. unfold elem. rewrite Af.
    assert (Hnn : nonneg [N; N]) by (repeat constructor; assumption).
    assert (Hin : in_range [j; p] [N; N]) by (repeat constructor; lia).
    pose proof (fresh_readable (c0 : car (hr H)) b [N; N] m [j; p] Hnn Hin) as V. exact V. }
  rewrite Z.eqb_refl. cbn [assrt].
  destruct (ru_loop (H := H) r N F b bv bt m0 HN G eq_refl N1 N2 N3 C0 (Z.to_nat N) (le_n _)) as [(Al & _)|(_ & E)].
  - exfalso. apply (Al (Z.to_nat i)); [lia|]. apply rest_zero; [intros j Hj; apply Al; lia|]. rewrite Z2Nat.id by lia. exact Sp.
  - rewrite Z2Nat.id in E by assumption. rewrite E. reflexivity.
Qed.
Print Assumptions C111_dependent_refuted.
Theorem C111_shape : forall H b bv bt dims draw (m : mem (car (hr H))), (forall N, dims <> [N; N]) -> random_unitary H b bv bt dims draw m = Throw.
Proof.
  intros H b bv bt dims draw m Hd. unfold random_unitary, zeros. destruct dims as [|n0 [|n1 [|]]]; try reflexivity.
  destruct (Z.eqb_spec n0 n1) as [->|]; [|reflexivity]. exfalso. exact (Hd n1 eq_refl).
Qed.
Print Assumptions C111_shape.
(* the hypotheses are met by the draws (1,1) and (1,2); and the draws (1,1) and (2,2) are dependent *)
Example C111_case : let draw : Z -> Z -> R := fun i p => IZR (1 + i * p) in forall i, 0 <= i < 2 -> ~ spanned HReal 2 i draw (draw i).
Proof.
  intros draw i Hi (d & E). assert (i = 0 \/ i = 1) as [-> | ->] by lia.
  - specialize (E 0 ltac:(lia)). unfold comb, draw in E. change (zrange 0) with (@nil Z) in E. cbn [map] in E. rewrite rsum_nil in E. cbn in E. lra.
  - pose proof (E 0 ltac:(lia)) as E0. pose proof (E 1 ltac:(lia)) as E1. unfold comb, draw in E0, E1. change (zrange 1) with [0] in *. cbn [map] in E0, E1.
    rewrite rsum_cons, rsum_nil in E0, E1. cbn in E0, E1. lra.
Qed.
Example C111_case_dependent : let draw : Z -> Z -> R := fun i p => IZR (1 + i) in spanned HReal 2 1 draw (draw 1).
Proof.
  intro draw. exists (fun _ => 2%R). intros p Hp. unfold comb, draw. change (zrange 1) with [0]. cbn [map]. rewrite rsum_cons, rsum_nil. cbn. lra.
Qed.

(* ---- C112: connected components ---- *)
(* every node is in exactly one component; every component is what can be reached, inside it, from its first node; and no node is
   related to a node of a later component *)
Theorem C112_components : forall R nodes, NoDup nodes ->
  exists cs, connected_components R nodes = Ok cs /\ Permutation (concat cs) nodes /\
    (forall c, In c cs -> exists x c', c = x :: c' /\ forall y, In y c -> reaches R c x y) /\
    (forall c d x y, before cs c d -> In x c -> In y d -> R x y = false).
Proof.
  intros R nodes Nd. destruct (components_ok R nodes Nd) as (cs & E & P & F & B). exists cs. split; [exact E|]. split; [exact P|].
  split; [|exact B]. rewrite Forall_forall in F. exact F.
Qed.
Print Assumptions C112_components.
(* for a symmetric condition, two nodes are in the same component exactly when one can be reached from the other *)
Theorem C112_symmetric : forall R nodes cs, (forall a b, R a b = R b a) -> NoDup nodes -> connected_components R nodes = Ok cs ->
  forall x y, In x nodes -> In y nodes -> ((exists c, In c cs /\ In x c /\ In y c) <-> reaches R nodes x y).
Proof. intros R nodes cs Sy Nd E. exact (components_sym R nodes cs Sy Nd E). Qed.
Print Assumptions C112_symmetric.
(* with a number instead of a set, the nodes are 0 .. n-1 *)
Theorem C112_range : forall R n, exists cs, connected_components_n R n = Ok cs /\ NoDup (concat cs) /\ (forall x, In x (concat cs) <-> 0 <= x < n).
Proof.
  intros R n. destruct (range_set_ok n) as [So In_]. pose proof (sorted_nodup _ So) as Nd.
  destruct (components_ok R (range_set n) Nd) as (cs & E & P & _). exists cs. split; [exact E|]. split.
  - exact (Permutation_NoDup (Permutation_sym P) Nd).
  - intro x. rewrite <- In_. split; apply Permutation_in; [exact P|exact (Permutation_sym P)].
Qed.
Print Assumptions C112_range.
(* for a condition that is not symmetric, nodes that are related can end in different components *)
Theorem C112_directed_refuted : forall x y R, x < y -> R x y = false -> R y x = true -> R x x = false -> R y y = false ->
  connected_components R [x; y] = Ok [[x]; [y]].
Proof.
  intros x y R L E1 E2 E3 E4. unfold connected_components. cbn. rewrite E1. cbn. reflexivity.
Qed.
Print Assumptions C112_directed_refuted.
Example C112_case : connected_components_n (fun a b => (a - b) mod 3 =? 0) 7 = Ok [[0; 3; 6]; [1; 4]; [2; 5]].
Proof. vm_compute. reflexivity. Qed.
Example C112_case_path : connected_components (fun a b => Z.abs (a - b) =? 2) [1; 2; 3; 5; 6] = Ok [[1; 3; 5]; [2]; [6]].
Proof. vm_compute. reflexivity. Qed.
