(* Prop_CuGather.v -- C181: gathering slices of device views along the first axis. *)
From Verif Require Import Base BaseFacts Model_Index Model_View Model_Tensor Model_Cuda Model_Containers Model_CuGather.
From Verif Require Import Spec_PoolMem Spec_Index Spec_View Spec_Tensor Spec_Cuda Spec_CuGather Proofs_Index Proofs_Tensor Proofs_Cuda Proofs_CuGather.
Local Open Scope Z_scope.

(* For every map whose rows have different targets and every order of the threads *)
Theorem C181_gather {R : cring} (r x : view) (T : buf) (qs : list (Z * list Z)) no ni ds (m : mem (car R)) :
  vdims r = no :: ds -> vdims x = ni :: ds -> gath_fits ds -> vwf r -> vwf x -> distinct_cells r -> readable m r -> readable m x -> disjoint_views r x ->
  encodes T (map (fun q => fst q :: snd q) qs) -> zl qs <= 2147483647 -> rows_ok no ni qs ->
  exists plan, gather_plan r x (zl qs) T = Ok plan /\ forall order, Permutation order plan -> exists m', cu_exec f_gather [order] m = Ok m' /\
    untouched m m' r /\ gathered qs r x m m'.
Proof.
  intros Dr Dx F Wr Wx Di Rr Rx Dj En Hq Q. exists (gent ds r x qs). split; [now apply (plan_gather r x T qs no ni ds)|]. intros order P. exact (gather_done r x qs no ni ds m Dr Dx Wr Wx Di Rr Rx Dj Q order P).
Qed.
Print Assumptions C181_gather.

(* Refuted for rows of 1024 elements or more: nothing is done, or the call is refused *)
Theorem C181_long_refuted (r x : view) no ni k n T : vdims r = [no; k] -> vdims x = [ni; k] -> vwf r -> vwf x -> 1024 <= k ->
  gather_plan r x n T = if k mod 1024 =? 0 then Ok [] else Throw.
Proof. intros. now apply (long_gather r x no ni). Qed.
Print Assumptions C181_long_refuted.
Theorem C181_1024_refuted (r x : view) no ni a n T : vdims r = [no; a; 1024] -> vdims x = [ni; a; 1024] -> gather_plan r x n T = Ok [].
Proof. intros Dr Dx. unfold gather_plan. rewrite Dr, Dx. cbn [tl]. rewrite eqlb_same. cbn [length Nat.eqb Nat.leb assrt]. change (zget [no; a; 1024] (Z.of_nat 3 - 1)) with (Ok 1024). cbn [bind]. change (1024 <? 1024) with false. cbn [bind]. unfold g_kernel. rewrite Dx. reflexivity. Qed.
Print Assumptions C181_1024_refuted.

(* Refuted for small blocks with last side above 64: the launch is not valid and nothing is done *)
Theorem C181_thin_refuted (r x : view) no ni a b c n T : vdims r = [no; a; b; c] -> vdims x = [ni; a; b; c] ->
  64 < c < 1024 -> 0 < b < 1024 / c -> 0 < a < 1024 / (c * b) -> gather_plan r x n T = Ok [].
Proof. intros. now apply (thin_gather r x no ni a b c). Qed.
Print Assumptions C181_thin_refuted.

(* Refuted for five axes with two of them spread over blocks: the target's last stride is not used at all *)
Theorem C181_stride_refuted rb ro no a b c d r0 r1 r2 r3 r4 r4' (x : view) ni n T : vdims x = [ni; a; b; c; d] ->
  0 < d < 1024 -> 0 < c < 1024 / d -> 1024 / (d * c) <= b ->
  gather_plan (View rb ro [no; a; b; c; d] [r0; r1; r2; r3; r4]) x n T = gather_plan (View rb ro [no; a; b; c; d] [r0; r1; r2; r3; r4']) x n T.
Proof. intros. now apply (stride_gather rb ro no a b c d r0 r1 r2 r3 r4 r4' x ni). Qed.
Print Assumptions C181_stride_refuted.

(* concrete cases *)
Definition cg_r := View 0 1 [3; 2; 2] [4; 2; 1].
Definition cg_x := View 1 0 [4; 2; 2] [1; 4; 8].
Definition cg_qs : list (Z * list Z) := [(2, [0; 3; 3]); (0, [1]); (1, [])].
Definition cg_T : buf := map Some [3; 5; 9; 11; 12; 2; 0; 3; 3; 0; 1; 1].
Definition cg_m : mem Z := fun b a => if ((b =? 0) || (b =? 1)) && (0 <=? a) && (a <? 40) then Some (100 * b + a) else None.
Lemma cg_addr_r i j t : vaddr cg_r [i; j; t] = Ok (0, 1 + (4 * i + (2 * j + (1 * t + 0)))). Proof. reflexivity. Qed.
Lemma cg_addr_x i j t : vaddr cg_x [i; j; t] = Ok (1, 0 + (1 * i + (4 * j + (8 * t + 0)))). Proof. reflexivity. Qed.
Example C181_case_hyps : gath_fits [2; 2] /\ vwf cg_r /\ vwf cg_x /\ distinct_cells cg_r /\ readable cg_m cg_r /\ readable cg_m cg_x /\
  disjoint_views cg_r cg_x /\ encodes cg_T (map (fun q => fst q :: snd q) cg_qs) /\ rows_ok 3 4 cg_qs.
Proof.
  split; [cbn; lia|]. split; [split; [reflexivity|repeat constructor; lia]|]. split; [split; [reflexivity|repeat constructor; lia]|]. split; [|split; [|split; [|split; [|split]]]].
  - intros ix jx I J E. cbn [vdims cg_r] in *. rng. rewrite !cg_addr_r in E. assert (X : 1 + (4 * i2 + (2 * i3 + (1 * i4 + 0))) = 1 + (4 * i + (2 * i0 + (1 * i1 + 0)))) by congruence. assert (i2 = i) by lia. assert (i3 = i0) by lia. assert (i4 = i1) by lia. congruence.
  - intros ix I. cbn [vdims cg_r] in *. rng. unfold elem. rewrite cg_addr_r. unfold cg_m. set (a := 1 + _). change ((0 =? 0) || (0 =? 1)) with true. cbn [andb]. replace (0 <=? a) with true by (unfold a; lia). replace (a <? 40) with true by (unfold a; lia). discriminate.
  - intros ix I. cbn [vdims cg_x] in *. rng. unfold elem. rewrite cg_addr_x. unfold cg_m. set (a := 0 + _). change ((1 =? 0) || (1 =? 1)) with true. cbn [andb]. replace (0 <=? a) with true by (unfold a; lia). replace (a <? 40) with true by (unfold a; lia). discriminate.
  - intros ix jx I J E. cbn [vdims cg_r cg_x] in *. rng. rewrite cg_addr_r, cg_addr_x in E. discriminate.
  - split; [reflexivity|]. split; [reflexivity|]. intros i Hi. change (zl _) with 3 in Hi. assert (i = 0 \/ i = 1 \/ i = 2) as [-> | [-> | ->]] by lia.
    + exists 5, 9. vm_compute. repeat split; discriminate.
    + exists 9, 11. vm_compute. repeat split; discriminate.
    + exists 11, 12. vm_compute. repeat split; discriminate.
  - split; [cbn; repeat constructor; cbn; lia|]. repeat constructor; cbn; lia.
Qed.
Example C181_case_run : exists plan, gather_plan cg_r cg_x 3 cg_T = Ok plan /\ length plan = 12%nat /\
  (do m <- cu_exec (@f_gather ZRing) [rev plan] cg_m; loads m (map (fun a => (0, a)) [0; 1; 2; 3; 4; 5; 9; 10; 11; 12; 13])) =
  Ok [0; 1 + 101; 2 + 109; 3 + 105; 4 + 113; 5; 9 + (100 + 103 + 103); 10 + (108 + 111 + 111); 11 + (104 + 107 + 107); 12 + (112 + 115 + 115); 13].
Proof. eexists. split; [vm_compute; reflexivity|]. split; [reflexivity|]. vm_compute. reflexivity. Qed.
(* the hypotheses of the refutations can be met *)
Example C181_case_thin : 64 < 100 < 1024 /\ 0 < 2 < 1024 / 100 /\ 0 < 3 < 1024 / (100 * 2). Proof. vm_compute. repeat split. Qed.
Example C181_case_stride : 0 < 10 < 1024 /\ 0 < 10 < 1024 / 10 /\ 1024 / (10 * 10) <= 10. Proof. vm_compute. repeat split; discriminate. Qed.
Example C181_case_fits : gath_fits [5; 7] /\ gath_fits [5000; 7; 3] /\ gath_fits [3; 50; 100] /\ gath_fits [3; 4; 4; 8].
Proof. cbn [gath_fits]. repeat split; try lia. Qed.
