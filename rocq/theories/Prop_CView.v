(* Prop_CView.v -- C91..C93: the fixed-rank complex views.  Elements are pairs over an arbitrary commutative ring R
   (rounding is not modelled). *)
From Verif Require Import Base BaseFacts Model_Index Model_View Model_Tensor Model_Ops Model_RView Model_CView Spec_Index Spec_View Spec_Tensor Spec_RView Spec_CView
  Proofs_Axes Proofs_Index Proofs_View Proofs_View2 Proofs_Tensor Proofs_Tensor2 Proofs_Tensor3 Proofs_Convolve2 Proofs_RView Proofs_RView2 Proofs_RView3 Proofs_RView5 Proofs_RView6
  Proofs_CView Proofs_CView2 Proofs_CView3 Proofs_CView4 Proofs_CView5 Checks Prop_Tensor.
Local Open Scope Z_scope.

Ltac wf := split; [reflexivity|repeat constructor; lia].
Ltac opnd := lazymatch goal with |- operands _ [_] _ => apply (operands1 (R := ZRing)) | |- operands _ [_; _] _ => apply (operands2 (R := ZRing)) end; first [wf | by_check].
Ltac cwf := split; [wf|reflexivity].
Ltac zips := split; [wf|split; [wf|split; [reflexivity|split; [by_check|split; [by_check|split; [by_check|by_check]]]]]].

(* complex numbers: addition, product, conjugate, and a real number as a complex one *)
Theorem C91_numbers : forall (R : cring) (a b c d : R) (p q : CxRing R), p = (a, b) -> q = (c, d) ->
  cadd p q = (cadd a c, cadd b d) /\ cmul p q = (csub (cmul a c) (cmul b d), cadd (cmul a d) (cmul b c)) /\
  csub p q = (csub a c, csub b d) /\ (c0 : CxRing R) = (c0, c0) /\ (c1 : CxRing R) = (c1, c0) /\ conj p = (a, copp b) /\ of_real a = (a, c0).
Proof. intros R a b c d p q -> ->. repeat split. Qed.
Print Assumptions C91_numbers.

(* ---- C91 ---- *)
(* reading, writing and increasing one element *)
Theorem C91_element : forall (R : cring) v dims (m : mem (car R)) ix (t : CxRing R), cshape v dims -> distinct_cells v -> readable m v -> in_range ix dims ->
  cget v ix m = Ok (celem m v ix) /\
  (exists m', cput v ix t m = Ok m' /\ readable m' v /\ untouched m m' v /\ celem m' v ix = t /\ forall jx, in_range jx dims -> jx <> ix -> celem m' v jx = celem m v jx) /\
  (exists m', cinc v ix t m = Ok m' /\ readable m' v /\ untouched m m' v /\ celem m' v ix = cadd (celem m v ix) t /\ forall jx, in_range jx dims -> jx <> ix -> celem m' v jx = celem m v jx).
Proof.
  intros R v dims m ix t S Hd Rv Hix.
  assert (K : forall p m', becomes v (cupd (elem0 m v) ix p) m m' -> readable m' v /\ untouched m m' v /\ celem m' v ix = p /\ forall jx, in_range jx dims -> jx <> ix -> celem m' v jx = celem m v jx).
  { intros p m' B. destruct (becomes_end _ _ _ _ B) as (B1 & B2 & B3). split; [exact B1|]. split; [exact B2|]. split.
    - unfold celem. rewrite !B3 by (rewrite (proj2 S); apply in_range_snoc; [assumption|lia]). rewrite !cupd_at, eqlb_refl. now destruct p.
    - intros jx Hj Ne. unfold celem. rewrite !B3 by (rewrite (proj2 S); apply in_range_snoc; [assumption|lia]). rewrite !cupd_at.
      destruct (eqlb jx ix) eqn:E; [apply eqlb_eq in E; contradiction|reflexivity]. }
  split; [now apply (cget_ok m v dims)|]. split.
  - destruct (cput_becomes m m v dims _ ix t S Hd (becomes_start m v Rv) Hix) as (m' & E & B). exists m'. split; [exact E|]. now apply K.
  - destruct (cinc_becomes m m v dims _ ix t S Hd (becomes_start m v Rv) Hix) as (m' & E & B). exists m'. split; [exact E|]. now apply K.
Qed.
Print Assumptions C91_element.
Theorem C91_add : forall (R : cring) r x (m : mem (car R)), zipable r x m ->
  (forall n, cshape r [n] -> exists m', cv1_add r x m = Ok m' /\ cgains r [n] (celem m x) m m') /\
  (forall a b, cshape r [a; b] -> exists m', cv2_add r x m = Ok m' /\ cgains r [a; b] (celem m x) m m') /\
  (forall a b c, cshape r [a; b; c] -> exists m', cv3_add r x m = Ok m' /\ cgains r [a; b; c] (celem m x) m m').
Proof.
  intros R r x m Z. split; [|split].
  - intros n S. now destruct (cv1_ok r x m n c0 Z S).
  - intros a b S. now apply cv2_add_ok.
  - intros a b c S. now apply cv3_add_ok.
Qed.
Print Assumptions C91_add.
Theorem C91_add_scaled : forall (R : cring) r x (c : CxRing R) (m : mem (car R)) n, zipable r x m -> cshape r [n] ->
  exists m', cv1_addc r x c m = Ok m' /\ cgains r [n] (fun ix => cmul (celem m x ix) c) m m'.
Proof. intros R r x c m n Z S. now destruct (cv1_ok r x m n c Z S) as (_ & H & _). Qed.
Print Assumptions C91_add_scaled.
Theorem C91_assign : forall (R : cring) r x (m : mem (car R)) n, zipable r x m -> cshape r [n] ->
  exists m', cv1_assign r x m = Ok m' /\ cbecomes r [n] (celem m x) m m'.
Proof. intros R r x m n Z S. now destruct (cv1_ok r x m n c0 Z S) as (_ & _ & H). Qed.
Print Assumptions C91_assign.
(* different sides are refused in rank 1 and 2 *)
Theorem C91_mismatch : forall (R : cring) r x (c : CxRing R) (m : mem (car R)),
  (forall n k, cshape r [n] -> cshape x [k] -> k <> n -> cv1_add r x m = Throw /\ cv1_addc r x c m = Throw /\ cv1_assign r x m = Throw) /\
  (forall a b a' b', cshape r [a; b] -> cshape x [a'; b'] -> [a'; b'] <> [a; b] -> cv2_add r x m = Throw) /\
  (forall a b c a' b' c', cshape r [a; b; c] -> cshape x [a'; b'; c'] -> [a'; b'] <> [a; b] -> cv3_add r x m = Throw).
Proof.
  intros R r x c m. split; [|split].
  - intros n k Sr Sx Ne. unfold cv1_add, cv1_addc, cv1_assign. rewrite (cnd r [n] 0 Sr), (cnd x [k] 0 Sx) by (cbn; lia). cbn [nth]. replace (n =? k) with false by lia. repeat split.
  - intros a b a' b' Sr Sx Ne. unfold cv2_add. rewrite (cnd r [a; b] 0 Sr), (cnd x [a'; b'] 0 Sx), (cnd r [a; b] 1 Sr), (cnd x [a'; b'] 1 Sx) by (cbn; lia). cbn [nth].
    destruct (Z.eqb_spec a' a) as [->|]; [|reflexivity]. destruct (Z.eqb_spec b' b) as [->|]; [congruence|reflexivity].
  - intros a b d a' b' d' Sr Sx Ne. unfold cv3_add. rewrite (cnd r _ 0 Sr), (cnd x _ 0 Sx), (cnd r _ 1 Sr), (cnd x _ 1 Sx) by (cbn; lia). cbn [nth].
    destruct (Z.eqb_spec a' a) as [->|]; [|reflexivity]. destruct (Z.eqb_spec b' b) as [->|]; [congruence|reflexivity].
Qed.
Print Assumptions C91_mismatch.
(* in rank 3 a longer last side is accepted, and memory outside r is changed *)
Theorem C91_mismatch_rank3_refuted : exists r x (m m' : mem Z), cshape r [1; 1; 1] /\ cshape x [1; 1; 2] /\ distinct_cells r /\ readable m r /\ readable m x /\ disjoint_views r x /\
  cv3_add (R := ZRing) r x m = Ok m' /\ ~ untouched m m' r.
Proof.
  pose (r := View 0 0 [1; 1; 1; 2] [2; 2; 2; 1]).
  assert (N : forall ix, in_range ix (vdims r) -> vaddr r ix <> Ok (0, 2)).
  { apply (forall_in_range _ (fun ix => negb (addr_eqb (vaddr r ix) (Ok (0, 2))))); [|vm_compute; reflexivity]. intros ix H. apply addr_eqb_ok. now apply negb_true_iff. }
  exists r, (View 1 0 [1; 1; 2; 2] [9; 4; 2; 1]), ex_mem. eexists. split; [cwf|]. split; [cwf|]. do 4 (split; [by_check|]). split; [vm_compute; reflexivity|].
  intro U. specialize (U 0 2 N). vm_compute in U. discriminate U.
Qed.
Print Assumptions C91_mismatch_rank3_refuted.
Example C91_case : let r := View 0 3 [2; 3; 2] [20; 4; 1] in let x := View 1 4 [2; 3; 2] [6; 2; 1] in zipable (V := Z) r x ex_mem /\ cshape r [2; 3] /\ creg2 r && creg2 x = false /\
  zipable (V := Z) (View 0 3 [4; 2] [3; 1]) (View 1 4 [4; 2] [1; 10]) ex_mem /\ zipable (V := Z) r r ex_mem.
Proof. cbv zeta. split; [zips|]. split; [cwf|]. split; [reflexivity|]. split; zips. Qed.
Example C91_case_regular : let r := View 0 0 [2; 3; 2] [6; 2; 1] in let x := View 1 4 [2; 3; 2] [6; 2; 1] in let r3 := View 0 0 [2; 3; 2; 2] [12; 4; 2; 1] in let x3 := View 1 5 [2; 3; 2; 2] [12; 4; 2; 1] in
  zipable (V := Z) r x ex_mem /\ creg2 r && creg2 x = true /\ zipable (V := Z) r3 x3 ex_mem /\ creg3 r3 && creg3 x3 = true /\ cshape r3 [2; 3; 2].
Proof. cbv zeta. split; [zips|]. split; [reflexivity|]. split; [zips|]. split; [reflexivity|cwf]. Qed.

(* ---- C92 ---- *)
Theorem C92_matmul : forall (R : cring) r x y (m : mem (car R)) a n b, operands r [x; y] m -> cshape r [a; b] ->
  (cshape x [a; n] -> cshape y [n; b] -> exists m', cv2_AA r x y m = Ok m' /\
     cgains r [a; b] (fun ix => rsum (map (fun k => cmul (celem m x [nth 0 ix 0; k]) (celem m y [k; nth 1 ix 0])) (zrange n))) m m') /\
  (cshape x [a; n] -> cshape y [b; n] -> exists m', cv2_AH r x y m = Ok m' /\
     cgains r [a; b] (fun ix => rsum (map (fun k => cmul (celem m x [nth 0 ix 0; k]) (conj (celem m y [nth 1 ix 0; k]))) (zrange n))) m m') /\
  (cshape x [n; a] -> cshape y [n; b] -> exists m', cv2_HA r x y m = Ok m' /\
     cgains r [a; b] (fun ix => rsum (map (fun k => cmul (conj (celem m x [k; nth 0 ix 0])) (celem m y [k; nth 1 ix 0])) (zrange n))) m m') /\
  (vdims x = [a; n] -> cshape y [n; b] -> exists m', cv2_NA r x y m = Ok m' /\
     cgains r [a; b] (fun ix => rsum (map (fun k => cmul (of_real (elem0 m x [nth 0 ix 0; k])) (celem m y [k; nth 1 ix 0])) (zrange n))) m m').
Proof. exact @cprods_ok. Qed.
Print Assumptions C92_matmul.
Theorem C92_mix_1 : forall (R : cring) r x y (m : mem (car R)) a n b c, operands r [x; y] m -> cshape r [a; b; c] -> cshape x [a; n; c] ->
  (cshape y [n; b] -> exists m', cv3_mix_1_0 r x y m = Ok m' /\
     cgains r [a; b; c] (fun ix => rsum (map (fun k => cmul (celem m x [nth 0 ix 0; k; nth 2 ix 0]) (celem m y [k; nth 1 ix 0])) (zrange n))) m m') /\
  (cshape y [b; n] -> exists m', cv3_mix_1_H r x y m = Ok m' /\
     cgains r [a; b; c] (fun ix => rsum (map (fun k => cmul (celem m x [nth 0 ix 0; k; nth 2 ix 0]) (conj (celem m y [nth 1 ix 0; k]))) (zrange n))) m m').
Proof. exact @cmix1_ok. Qed.
Print Assumptions C92_mix_1.
(* the last axis: r and x must have slices that follow each other *)
Theorem C92_mix_2 : forall (R : cring) r x y (m : mem (car R)) a b n c, operands r [x; y] m -> cshape r [a; b; c] -> cshape x [a; b; n] -> sd r 0 = b * sd r 1 -> sd x 0 = b * sd x 1 ->
  (cshape y [n; c] -> exists m', cv3_mix_2_0 r x y m = Ok m' /\
     cgains r [a; b; c] (fun ix => rsum (map (fun k => cmul (celem m x [nth 0 ix 0; nth 1 ix 0; k]) (celem m y [k; nth 2 ix 0])) (zrange n))) m m') /\
  (cshape y [c; n] -> exists m', cv3_mix_2_H r x y m = Ok m' /\
     cgains r [a; b; c] (fun ix => rsum (map (fun k => cmul (celem m x [nth 0 ix 0; nth 1 ix 0; k]) (conj (celem m y [nth 2 ix 0; k]))) (zrange n))) m m').
Proof. exact @cmix2_ok. Qed.
Print Assumptions C92_mix_2.
Theorem C92_mix_rank4 : forall (R : cring) r x y (m : mem (car R)) a b n c d, operands r [x; y] m -> cshape r [a; b; c; d] -> cshape x [a; n; c; d] -> sd r 2 = d * sd r 3 -> sd x 2 = d * sd x 3 ->
  (cshape y [n; b] -> exists m', cv4_mix_1_0 r x y m = Ok m' /\
     cgains r [a; b; c; d] (fun ix => rsum (map (fun k => cmul (celem m x [nth 0 ix 0; k; nth 2 ix 0; nth 3 ix 0]) (celem m y [k; nth 1 ix 0])) (zrange n))) m m') /\
  (cshape y [b; n] -> exists m', cv4_mix_1_H r x y m = Ok m' /\
     cgains r [a; b; c; d] (fun ix => rsum (map (fun k => cmul (celem m x [nth 0 ix 0; k; nth 2 ix 0; nth 3 ix 0]) (conj (celem m y [nth 1 ix 0; k]))) (zrange n))) m m').
Proof. exact @cmix1_4_ok. Qed.
Print Assumptions C92_mix_rank4.
Theorem C92_mix_rank4_last : forall (R : cring) r x y (m : mem (car R)) a b c n d, operands r [x; y] m -> cshape r [a; b; c; d] -> cshape x [a; b; c; n] ->
  sd r 0 = b * sd r 1 -> sd r 1 = c * sd r 2 -> sd x 0 = b * sd x 1 -> sd x 1 = c * sd x 2 ->
  (cshape y [n; d] -> exists m', cv4_mix_3_0 r x y m = Ok m' /\
     cgains r [a; b; c; d] (fun ix => rsum (map (fun k => cmul (celem m x [nth 0 ix 0; nth 1 ix 0; nth 2 ix 0; k]) (celem m y [k; nth 3 ix 0])) (zrange n))) m m') /\
  (cshape y [d; n] -> exists m', cv4_mix_3_H r x y m = Ok m' /\
     cgains r [a; b; c; d] (fun ix => rsum (map (fun k => cmul (celem m x [nth 0 ix 0; nth 1 ix 0; nth 2 ix 0; k]) (conj (celem m y [nth 3 ix 0; k]))) (zrange n))) m m').
Proof. exact @cmix3_4_ok. Qed.
Print Assumptions C92_mix_rank4_last.
(* contraction stores the sum instead of adding it, and stores nothing if there is nothing to sum *)
Theorem C92_contract_partial : forall (R : cring) r x y (m : mem (car R)) a n c, operands r [x; y] m -> cshape r [a; c] -> cshape x [a; n; c] -> cshape y [a; n; c] ->
  exists m', cv3_contract x r y m = Ok m' /\
    cbecomes r [a; c] (fun ix => if 0 <? n then rsum (map (fun k => cmul (celem m x [nth 0 ix 0; k; nth 1 ix 0]) (celem m y [nth 0 ix 0; k; nth 1 ix 0])) (zrange n)) else celem m r ix) m m'.
Proof. exact @contract_ok. Qed.
Print Assumptions C92_contract_partial.
Theorem C92_contract_rank4_partial : forall (R : cring) r x y (m : mem (car R)) a b n c, operands r [x; y] m -> cshape r [a; b; c] -> cshape x [a; b; n; c] -> cshape y [b; n; c] ->
  exists m', cv4_contract x r y m = Ok m' /\
    cbecomes r [a; b; c] (fun ix => if 0 <? n then rsum (map (fun k => cmul (celem m x [nth 0 ix 0; nth 1 ix 0; k; nth 2 ix 0]) (celem m y [nth 1 ix 0; k; nth 2 ix 0])) (zrange n)) else celem m r ix) m m'.
Proof. exact @contract4_ok. Qed.
Print Assumptions C92_contract_rank4_partial.
Theorem C92_expand_partial : forall (R : cring) r x y (m : mem (car R)) a b c d, operands r [x; y] m -> cshape r [a; b; c; d] -> cshape x [a; b; d] -> cshape y [b; c; d] ->
  exists m', cv4_expand_2 r x y m = Ok m' /\
    cbecomes r [a; b; c; d] (fun ix => cmul (celem m x [nth 0 ix 0; nth 1 ix 0; nth 3 ix 0]) (celem m y [nth 1 ix 0; nth 2 ix 0; nth 3 ix 0])) m m'.
Proof. exact @expand_ok. Qed.
Print Assumptions C92_expand_partial.
(* so whenever an element of r is not zero and there is something to sum, the result is not what adding gives *)
Theorem C92_contract_refuted : forall (R : cring) r x y (m : mem (car R)) a n c ix m', operands r [x; y] m -> cshape r [a; c] -> cshape x [a; n; c] -> cshape y [a; n; c] ->
  0 < n -> in_range ix [a; c] -> celem m r ix <> c0 -> cv3_contract x r y m = Ok m' ->
  celem m' r ix <> cadd (celem m r ix) (rsum (map (fun k => cmul (celem m x [nth 0 ix 0; k; nth 1 ix 0]) (celem m y [nth 0 ix 0; k; nth 1 ix 0])) (zrange n))).
Proof.
  intros R r x y m a n c ix m' O Sr Sx Sy Hn Hix Hz E. destruct (contract_ok r x y m a n c O Sr Sx Sy) as (m2 & E2 & (_ & B & _)). rewrite E in E2. injection E2 as <-.
  rewrite (B ix Hix). replace (0 <? n) with true by lia. unfold csum3. set (t := rsum _). intro Q. apply Hz. assert (Q2 : csub t t = csub (cadd (celem m r ix) t) t) by (f_equal; exact Q).
  pose proof (cth (CxRing R)) as T. rewrite (Rsub_def T), (Ropp_def T), (Rsub_def T), <- (Radd_assoc T), (Ropp_def T), (Radd_comm T), (Radd_0_l T) in Q2. now symmetry.
Qed.
Print Assumptions C92_contract_refuted.
Theorem C92_expand_refuted : forall (R : cring) r x y (m : mem (car R)) a b c d ix m', operands r [x; y] m -> cshape r [a; b; c; d] -> cshape x [a; b; d] -> cshape y [b; c; d] ->
  in_range ix [a; b; c; d] -> celem m r ix <> c0 -> cv4_expand_2 r x y m = Ok m' ->
  celem m' r ix <> cadd (celem m r ix) (cmul (celem m x [nth 0 ix 0; nth 1 ix 0; nth 3 ix 0]) (celem m y [nth 1 ix 0; nth 2 ix 0; nth 3 ix 0])).
Proof.
  intros R r x y m a b c d ix m' O Sr Sx Sy Hix Hz E. destruct (expand_ok r x y m a b c d O Sr Sx Sy) as (m2 & E2 & (_ & B & _)). rewrite E in E2. injection E2 as <-.
  rewrite (B ix Hix). set (t := cmul _ _). intro Q. apply Hz. assert (Q2 : csub t t = csub (cadd (celem m r ix) t) t) by (f_equal; exact Q).
  pose proof (cth (CxRing R)) as T. rewrite (Rsub_def T), (Ropp_def T), (Rsub_def T), <- (Radd_assoc T), (Ropp_def T), (Radd_comm T), (Radd_0_l T) in Q2. now symmetry.
Qed.
Print Assumptions C92_expand_refuted.
(* sides that do not fit are refused by AH, HA, NA and mix_1 *)
Theorem C92_mismatch : forall (R : cring) r x y (m : mem (car R)) r0 r1 x0 x1 y0 y1, cshape r [r0; r1] -> cshape y [y0; y1] ->
  (cshape x [x0; x1] -> [x0; y0; y1] <> [r0; r1; x1] -> cv2_AH r x y m = Throw) /\
  (cshape x [x0; x1] -> [x1; y1; y0] <> [r0; r1; x0] -> cv2_HA r x y m = Throw) /\
  (vdims x = [x0; x1] -> [x0; y1; y0] <> [r0; r1; x1] -> cv2_NA r x y m = Throw).
Proof.
  intros R r x y m r0 r1 x0 x1 y0 y1 Sr Sy. split; [|split]; intros Sx Ne; [unfold cv2_AH|unfold cv2_HA|unfold cv2_NA]; rewrite ?(cnd r _ 0 Sr), ?(cnd r _ 1 Sr), ?(cnd y _ 0 Sy), ?(cnd y _ 1 Sy) by (cbn; lia).
  - rewrite !(cnd x _ 0 Sx), !(cnd x _ 1 Sx) by (cbn; lia). cbn [nth]. destruct (Z.eqb_spec x0 r0); [|reflexivity]. destruct (Z.eqb_spec y0 r1); [|reflexivity]. destruct (Z.eqb_spec y1 x1); [congruence|reflexivity].
  - rewrite !(cnd x _ 0 Sx), !(cnd x _ 1 Sx) by (cbn; lia). cbn [nth]. destruct (Z.eqb_spec x1 r0); [|reflexivity]. destruct (Z.eqb_spec y1 r1); [|reflexivity]. destruct (Z.eqb_spec y0 x0); [congruence|reflexivity].
  - rewrite !(nd_eq x _ _ Sx). cbn [nth]. destruct (Z.eqb_spec x0 r0); [|reflexivity]. destruct (Z.eqb_spec y1 r1); [|reflexivity]. destruct (Z.eqb_spec y0 x1); [congruence|reflexivity].
Qed.
Print Assumptions C92_mismatch.
(* the plain product has no such test: an x with a longer second side than y has rows reads past y *)
Theorem C92_mismatch_refuted : exists r x y (m m' : mem Z), cshape r [1; 1] /\ cshape x [1; 2] /\ cshape y [1; 1] /\ operands r [x; y] m /\ cv2_AA (R := ZRing) r x y m = Ok m'.
Proof.
  exists (View 0 0 [1; 1; 2] [2; 2; 1]), (View 1 0 [1; 2; 2] [4; 2; 1]), (View 2 0 [1; 1; 2] [2; 2; 1]), ex_mem. eexists. split; [cwf|]. split; [cwf|]. split; [cwf|]. split; [opnd|]. vm_compute. reflexivity.
Qed.
Print Assumptions C92_mismatch_refuted.
(* mix_2_0 on a result whose slices do not follow each other: memory outside r changes *)
Theorem C92_mix_2_refuted : exists r x y (m m' : mem Z), cshape r [2; 1; 1] /\ cshape x [2; 1; 1] /\ cshape y [1; 1] /\ operands r [x; y] m /\ cv3_mix_2_0 (R := ZRing) r x y m = Ok m' /\ ~ untouched m m' r.
Proof.
  pose (r := View 0 0 [2; 1; 1; 2] [10; 2; 2; 1]).
  assert (N : forall ix, in_range ix (vdims r) -> vaddr r ix <> Ok (0, 2)).
  { apply (forall_in_range _ (fun ix => negb (addr_eqb (vaddr r ix) (Ok (0, 2))))); [|vm_compute; reflexivity]. intros ix H. apply addr_eqb_ok. now apply negb_true_iff. }
  exists r, (View 1 0 [2; 1; 1; 2] [2; 2; 2; 1]), (View 2 1 [1; 1; 2] [2; 2; 1]), ex_mem. eexists. split; [cwf|]. split; [cwf|]. split; [cwf|]. split; [opnd|]. split; [vm_compute; reflexivity|].
  intro U. specialize (U 0 2 N). vm_compute in U. discriminate U.
Qed.
Print Assumptions C92_mix_2_refuted.
Example C92_case : let y := View 2 1 [3; 4; 2] [10; 2; 1] in
  operands (View 0 3 [2; 4; 2] [30; 2; 1]) [View 1 4 [2; 3; 2] [2; 5; 1]; y] ex_mem /\ cshape y [3; 4] /\
  operands (View 0 3 [2; 4; 2] [30; 2; 1]) [View 1 4 [2; 3] [1; 2]; y] ex_mem /\
  operands (View 0 3 [2; 4; 3; 2] [30; 6; 2; 1]) [View 1 4 [2; 3; 3; 2] [20; 6; 2; 1]; y] ex_mem /\
  operands (View 0 3 [2; 2; 4; 2] [20; 10; 2; 1]) [View 1 4 [2; 2; 3; 2] [20; 10; 2; 1]; y] ex_mem.
Proof. cbv zeta. split; [opnd|]. split; [cwf|]. split; [opnd|]. split; opnd. Qed.
Example C92_case_rank4 : operands (View 0 3 [2; 4; 1; 2; 2] [40; 6; 4; 2; 1]) [View 1 4 [2; 3; 1; 2; 2] [20; 6; 4; 2; 1]; View 2 1 [3; 4; 2] [10; 2; 1]] ex_mem /\
  operands (View 0 3 [2; 1; 2; 4; 2] [20; 20; 10; 2; 1]) [View 1 4 [2; 1; 2; 3; 2] [20; 20; 10; 2; 1]; View 2 1 [3; 4; 2] [10; 2; 1]] ex_mem /\
  operands (View 0 3 [2; 3; 2] [20; 2; 1]) [View 1 4 [2; 2; 3; 2] [40; 6; 2; 1]; View 2 1 [2; 2; 3; 2] [30; 6; 2; 1]] ex_mem /\
  operands (View 0 3 [2; 2; 3; 2] [20; 10; 2; 1]) [View 1 4 [2; 2; 1; 3; 2] [40; 6; 6; 2; 1]; View 2 1 [2; 1; 3; 2] [30; 6; 2; 1]] ex_mem /\
  operands (View 0 3 [2; 2; 2; 2; 2] [40; 10; 4; 2; 1]) [View 1 4 [2; 2; 2; 2] [40; 6; 2; 1]; View 2 1 [2; 2; 2; 2] [30; 6; 2; 1]] ex_mem /\
  celem (R := ZRing) ex_mem (View 0 3 [2; 3; 2] [20; 2; 1]) [0; 0] <> c0.
Proof. repeat match goal with |- _ /\ _ => split end; first [opnd | discriminate]. Qed.

(* ---- C93 ---- *)
Lemma ok_snd (p q : Z * Z) : Ok p = Ok q -> snd p = snd q.
Proof. congruence. Qed.
Ltac inj3 E := match type of E with [?a; ?b; ?c] = [?x; ?y; ?z] => assert (a = x) by congruence; assert (b = y) by congruence; assert (c = z) by congruence; clear E; subst end.
Ltac inj4 E := match type of E with [?a; ?b; ?c; ?d] = [?x; ?y; ?z; ?w] => assert (a = x) by congruence; assert (b = y) by congruence; assert (c = z) by congruence; assert (d = w) by congruence; clear E; subst end.
Theorem C93_rank1 : forall x n, cshape x [n] ->
  (forall i j, 0 <= i -> 0 <= j -> i * j = n -> exists v, cv1_split0 x i j = Ok v /\ cshape v [i; j] /\ shows v x (fun ix => nth 0 ix 0 * j + nth 1 ix 0 :: tl (tl ix))) /\
  (forall i j, i * j <> n -> cv1_split0 x i j = Throw) /\
  (cshape (cv1_unsqueeze0 x) [1; n] /\ shows (cv1_unsqueeze0 x) x (fun ix => tl ix)) /\
  (cshape (cv1_unsqueeze1 x) [n; 1] /\ shows (cv1_unsqueeze1 x) x (fun ix => nth 0 ix 0 :: tl (tl ix))).
Proof. exact cv1_views. Qed.
Print Assumptions C93_rank1.
Theorem C93_rank2 : forall v a b, cshape v [a; b] ->
  (forall i, 0 <= i < a -> cshape (cv2_slice0 v i) [b] /\ shows (cv2_slice0 v i) v (fun ix => i :: ix)) /\
  (forall j, 0 <= j < b -> cshape (cv2_slice1 v j) [a] /\ shows (cv2_slice1 v j) v (fun ix => nth 0 ix 0 :: j :: tl ix)) /\
  (cshape (cv2_transp v) [b; a] /\ shows (cv2_transp v) v (fun ix => [nth 1 ix 0; nth 0 ix 0; nth 2 ix 0])) /\
  (cshape (cv2_unsqueeze0 v) [1; a; b] /\ shows (cv2_unsqueeze0 v) v (fun ix => tl ix)) /\
  (cshape (cv2_unsqueeze2 v) [a; b; 1] /\ shows (cv2_unsqueeze2 v) v (fun ix => [nth 0 ix 0; nth 1 ix 0; nth 3 ix 0])).
Proof. intros v a b S. destruct (cslices2 v a b S) as (A & B & C). destruct (cunsqueeze2 v a b S) as (D & E & _). split; [exact A|]. split; [exact B|]. split; [exact C|]. split; [exact D|exact E]. Qed.
Print Assumptions C93_rank2.
Theorem C93_rank3 : forall v a b c, cshape v [a; b; c] ->
  (forall i, 0 <= i < a -> cshape (cv3_slice0 v i) [b; c] /\ shows (cv3_slice0 v i) v (fun ix => i :: ix)) /\
  (forall j, 0 <= j < b -> cshape (cv3_slice1 v j) [a; c] /\ shows (cv3_slice1 v j) v (fun ix => nth 0 ix 0 :: j :: tl ix)) /\
  (forall k, 0 <= k < c -> cshape (cv3_slice2 v k) [a; b] /\ shows (cv3_slice2 v k) v (fun ix => [nth 0 ix 0; nth 1 ix 0; k; nth 2 ix 0])) /\
  (cshape (cv3_flip v) [a; b; c] /\ shows (cv3_flip v) v (fun ix => [nth 0 ix 0; b - 1 - nth 1 ix 0; c - 1 - nth 2 ix 0; nth 3 ix 0])) /\
  (if sd v 3 =? 1 then exists w, cv3_as_real v = Ok w /\ vwf w /\ vdims w = vdims v /\ shows w v (fun ix => ix) else cv3_as_real v = Throw).
Proof.
  intros v a b c S. destruct (cslices3 v a b c S) as (A & B & C & D & E). split; [exact A|]. split; [exact B|]. split; [exact C|]. split; [exact D|].
  replace (sd v 3) with (coffs v); [exact E|]. clear -S. parts v S. reflexivity.
Qed.
Print Assumptions C93_rank3.
Theorem C93_fuse : forall v, (forall a b c, cshape v [a; b; c] ->
   (sd v 0 = b * sd v 1 -> cshape (cv3_fuse01 v) [a * b; c] /\ shows (cv3_fuse01 v) v (fun ix => [nth 0 ix 0 / b; nth 0 ix 0 mod b; nth 1 ix 0; nth 2 ix 0])) /\
   (sd v 1 = c * sd v 2 -> cshape (cv3_fuse12 v) [a; b * c] /\ shows (cv3_fuse12 v) v (fun ix => [nth 0 ix 0; nth 1 ix 0 / c; nth 1 ix 0 mod c; nth 2 ix 0]))) /\
  (forall a b c d, cshape v [a; b; c; d] ->
   (sd v 0 = b * sd v 1 -> cshape (cv4_fuse01 v) [a * b; c; d] /\ shows (cv4_fuse01 v) v (fun ix => [nth 0 ix 0 / b; nth 0 ix 0 mod b; nth 1 ix 0; nth 2 ix 0; nth 3 ix 0])) /\
   (sd v 2 = d * sd v 3 -> cshape (cv4_fuse23 v) [a; b; c * d] /\ shows (cv4_fuse23 v) v (fun ix => [nth 0 ix 0; nth 1 ix 0; nth 2 ix 0 / d; nth 2 ix 0 mod d; nth 3 ix 0])) /\
   (forall i, 0 <= i < a -> cshape (cv4_slice0 v i) [b; c; d] /\ shows (cv4_slice0 v i) v (fun ix => i :: ix))).
Proof. intro v. split; [apply cfuse3|apply cfuse4]. Qed.
Print Assumptions C93_fuse.
Theorem C93_split2 : forall x a b c n, cshape x [a; b; c] -> 0 < n -> 0 < c -> (n | c) ->
  cshape (cv3_split2 x n) [a; b; c / n; n] /\ shows (cv3_split2 x n) x (fun ix => [nth 0 ix 0; nth 1 ix 0; nth 2 ix 0 * n + nth 3 ix 0; nth 4 ix 0]).
Proof. exact csplit2. Qed.
Print Assumptions C93_split2.
(* unsqueeze1 takes its first stride from the second axis: right only for one row or equal strides *)
Theorem C93_unsqueeze1_partial : forall x a b, cshape x [a; b] -> a <= 1 \/ sd x 0 = sd x 1 ->
  cshape (cv2_unsqueeze1 x) [a; 1; b] /\ shows (cv2_unsqueeze1 x) x (fun ix => [nth 0 ix 0; nth 2 ix 0; nth 3 ix 0]).
Proof. intros x a b S. now destruct (cunsqueeze2 x a b S) as (_ & _ & H). Qed.
Print Assumptions C93_unsqueeze1_partial.
Theorem C93_unsqueeze1_refuted : forall x a b, cshape x [a; b] -> 2 <= a -> 1 <= b -> sd x 0 <> sd x 1 -> ~ shows (cv2_unsqueeze1 x) x (fun ix => [nth 0 ix 0; nth 2 ix 0; nth 3 ix 0]).
Proof.
  intros x a b S Ha Hb Ne H. parts x S. unfold cv2_unsqueeze1, nd, sd in *. cbn [nth vdims vstr] in *. destruct (H [1; 0; 0; 0]) as [_ E]; [cbn; repeat constructor; lia|]. unfold vaddr in E. cbn -[Z.mul Z.add] in E. injection E. lia.
Qed.
Print Assumptions C93_unsqueeze1_refuted.
(* fuse01 of slices that do not follow each other: element (1,0,..) is not where it should be *)
Theorem C93_fuse_refuted : forall v a b c, cshape v [a; b; c] -> 2 <= a -> 1 <= b -> 1 <= c -> sd v 0 <> b * sd v 1 ->
  ~ shows (cv3_fuse01 v) v (fun ix => [nth 0 ix 0 / b; nth 0 ix 0 mod b; nth 1 ix 0; nth 2 ix 0]).
Proof.
  intros v a b c S Ha Hb Hc Ne H. parts v S. unfold cv3_fuse01, nd, sd in *. cbn [nth vdims vstr] in *. destruct (H [b; 0; 0]) as [_ E]; [cbn -[Z.mul]; repeat constructor; nia|]. cbn [nth] in E. rewrite Z.div_same, Z.mod_same in E by lia.
  unfold vaddr in E. cbn -[Z.mul Z.add] in E. injection E. lia.
Qed.
Print Assumptions C93_fuse_refuted.
(* fuse01 of a regular matrix is twice as long as the matrix has elements and reaches beyond it *)
Theorem C93_fuse_matrix_refuted : forall v a b, cshape v [a; b] -> 1 <= a -> 1 <= b -> vstr v = [2 * b; 2; 1] ->
  vdims (cv2_fuse01 v) = [2 * (a * b); 2] /\ ~ exists f, shows (cv2_fuse01 v) v f.
Proof.
  intros v a b S Ha Hb Es. parts v S. cbn [vstr] in Es. inj3 Es. unfold cv2_fuse01, nd, sd, coffs. cbn [nth vdims vstr last]. split; [f_equal; lia|]. intros [f H].
  destruct (H [a * b; 0]) as [I E]; [cbn -[Z.mul]; repeat constructor; nia|]. cbn [vdims] in I. apply in_range_3_inv in I as (i & j & k & Ef & Hi & Hj & Hk). rewrite Ef in E. unfold vaddr in E. cbn -[Z.mul Z.add] in E. apply ok_snd in E. cbn [snd] in E. assert (i * b + b <= a * b) by nia. lia.
Qed.
Print Assumptions C93_fuse_matrix_refuted.
(* tiles that do not divide the axis: the last tile of a regular tensor reaches beyond it *)
Theorem C93_split2_refuted : forall x c n, cshape x [1; 1; c] -> vstr x = [2 * c; 2 * c; 2; 1] -> 0 < n -> 0 < c -> ~ (n | c) -> ~ exists f, shows (cv3_split2 x n) x f.
Proof.
  intros x c n S Es Hn Hc Nd [f H]. parts x S. cbn [vstr] in Es. inj4 Es. unfold cv3_split2, nd, sd, coffs in *. cbn [nth vdims vstr last] in *.
  assert (Q : Z.quot (c - 1) n = c / n).
  { rewrite Z.quot_div_nonneg by lia. symmetry. apply Z.div_unique with (r := c mod n - 1); [|pose proof (Z.div_mod c n ltac:(lia)); lia]. left. pose proof (Z.mod_pos_bound c n ltac:(lia)). enough (c mod n <> 0) by lia. intro Z0. apply Nd. now apply Z.mod_divide; [lia|]. }
  rewrite Q in H. pose proof (Z.div_mod c n ltac:(lia)). pose proof (Z.mod_pos_bound c n ltac:(lia)).
  destruct (H [0; 0; c / n; c mod n; 0]) as [I E]; [cbn -[Z.div Z.modulo Z.mul]; repeat constructor; try lia; apply Z.div_pos; lia|].
  cbn [vdims] in I. apply in4_inv in I as (i & j & k & l & Ef & Hi & Hj & Hk & Hl). rewrite Ef in E. unfold vaddr in E. cbn -[Z.mul Z.add Z.div Z.modulo] in E. apply ok_snd in E. cbn [snd] in E. assert (i = 0) as -> by lia. assert (j = 0) as -> by lia. nia.
Qed.
Print Assumptions C93_split2_refuted.
Example C93_case : cshape (View 0 3 [6; 2] [3; 1]) [6] /\ cshape (View 0 3 [2; 3; 2] [20; 4; 1]) [2; 3] /\ cshape (View 0 3 [2; 3; 4; 2] [30; 10; 2; 1]) [2; 3; 4] /\
  cshape (View 0 3 [2; 3; 4; 2; 2] [60; 20; 4; 2; 1]) [2; 3; 4; 2] /\ (2 | 4).
Proof. split; [cwf|]. split; [cwf|]. split; [cwf|]. split; [cwf|]. now exists 2. Qed.
