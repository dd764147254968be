(* Prop_Ops.v -- C80..C84: operations that return a new tensor, element loops, extreme elements.
   Elements are in an arbitrary commutative ring R (rounding is not modelled). *)
From Verif Require Import Base BaseFacts Model_Index Model_View Model_Tensor Model_Ops Spec_Index Spec_View Spec_Tensor Spec_Ops
  Proofs_Axes Proofs_Index Proofs_View Proofs_View2 Proofs_Tensor Proofs_Tensor2 Proofs_Tensor3 Proofs_Ops Proofs_Ops2 Proofs_Ops3 Proofs_Ops4 Checks Prop_Tensor.
Local Open Scope Z_scope.

Definition ex_a : view := View 1 5 [2; 3] [1; 2].      (* a transposed matrix *)
Definition ex_b : view := View 2 7 [3; 2] [10; 3].     (* a strided matrix *)
Definition ex_v : view := View 2 1 [3] [4].
Lemma ex_a_wf : vwf ex_a. Proof. split; [reflexivity|repeat constructor; lia]. Qed.
Lemma ex_b_wf : vwf ex_b. Proof. split; [reflexivity|repeat constructor; lia]. Qed.
Lemma ex_v_wf : vwf ex_v. Proof. split; [reflexivity|repeat constructor; lia]. Qed.

Lemma zmul_zip x : forall y, zmap2 Z.mul x y = zipmul x y.
Proof. induction x as [|a x IH]; intros [|c y]; cbn; congruence. Qed.
Lemma zadd_zip x : forall y, zmap2 Z.add x y = zipadd x y.
Proof. induction x as [|a x IH]; intros [|c y]; cbn; congruence. Qed.

(* C80: arithmetic operators *)
Theorem C80_add : forall (R : cring) b x y (m : mem (car R)), vwf x -> vwf y -> vdims y = vdims x -> readable m x -> readable m y ->
  Forall (fun s => s < INT_MAX) (strides_of 1 (vdims x)) -> (forall a, m b a = None) ->
  exists r m', op_add b x y m = Ok (r, m') /\ makes b m m' r (vdims x) (fun ix => cadd (elem0 m x ix) (elem0 m y ix)).
Proof. exact @add_new. Qed.
Print Assumptions C80_add.
Theorem C80_sub : forall (R : cring) b x y (m : mem (car R)), vwf x -> vwf y -> vdims y = vdims x -> readable m x -> readable m y ->
  Forall (fun s => s < INT_MAX) (strides_of 1 (vdims x)) -> (forall a, m b a = None) ->
  exists r m', op_sub b x y m = Ok (r, m') /\ makes b m m' r (vdims x) (fun ix => csub (elem0 m x ix) (elem0 m y ix)).
Proof. exact @sub_new. Qed.
Print Assumptions C80_sub.
Theorem C80_neg : forall (R : cring) b x (m : mem (car R)), vwf x -> readable m x -> (forall a, m b a = None) ->
  exists r m', op_neg b x m = Ok (r, m') /\ makes b m m' r (vdims x) (fun ix => copp (elem0 m x ix)).
Proof. exact @neg_new. Qed.
Print Assumptions C80_neg.
Theorem C80_times : forall (R : cring) b x c (m : mem (car R)), vwf x -> readable m x -> (forall a, m b a = None) ->
  exists r m', op_times b x c m = Ok (r, m') /\ makes b m m' r (vdims x) (fun ix => cmul c (elem0 m x ix)).
Proof. exact @times_new. Qed.
Print Assumptions C80_times.
(* eq0 is the comparison of the scalar with zero *)
Theorem C80_add_scalar : forall (R : cring) eq0 b x c (m : mem (car R)), vwf x -> readable m x ->
  Forall (fun s => s < INT_MAX) (strides_of 1 (vdims x)) -> (forall a, m b a = None) ->
  vdims x <> [] -> (eq0 c = true -> c = c0) ->
  exists r m', op_add_scalar eq0 b x c m = Ok (r, m') /\ makes b m m' r (vdims x) (fun ix => cadd (elem0 m x ix) c).
Proof. exact @add_scalar_new. Qed.
Print Assumptions C80_add_scalar.
Theorem C80_sub_scalar : forall (R : cring) eq0 b x c (m : mem (car R)), vwf x -> readable m x ->
  Forall (fun s => s < INT_MAX) (strides_of 1 (vdims x)) -> (forall a, m b a = None) ->
  vdims x <> [] -> (eq0 (copp c) = true -> copp c = c0) ->
  exists r m', op_sub_scalar eq0 b x c m = Ok (r, m') /\ makes b m m' r (vdims x) (fun ix => csub (elem0 m x ix) c).
Proof. exact @sub_scalar_new. Qed.
Print Assumptions C80_sub_scalar.
Theorem C80_scalar_sub : forall (R : cring) eq0 b x c (m : mem (car R)), vwf x -> readable m x ->
  Forall (fun s => s < INT_MAX) (strides_of 1 (vdims x)) -> (forall a, m b a = None) ->
  vdims x <> [] -> (eq0 c = true -> c = c0) ->
  exists r m', op_scalar_sub eq0 b c x m = Ok (r, m') /\ makes b m m' r (vdims x) (fun ix => csub c (elem0 m x ix)).
Proof. exact @scalar_sub_new. Qed.
Print Assumptions C80_scalar_sub.
Theorem C80_mprod : forall (R : cring) b x y p n q (m : mem (car R)), vwf x -> vwf y -> vdims x = [p; n] -> vdims y = [n; q] ->
  readable m x -> readable m y -> (forall a, m b a = None) ->
  exists r m', op_mprod b x y m = Ok (r, m') /\
    makes b m m' r [p; q] (fun ix => rsum (map (fun k => cmul (elem0 m x [nth 0 ix 0; k]) (elem0 m y [k; nth 1 ix 0])) (zrange n))).
Proof. exact @mprod_new. Qed.
Print Assumptions C80_mprod.
Theorem C80_odot : forall (R : cring) b x y (m : mem (car R)), vwf x -> vwf y -> vdims y = vdims x -> readable m x -> readable m y ->
  vdims x <> [] -> (forall a, m b a = None) ->
  exists r m', op_odot b x y m = Ok (r, m') /\ makes b m m' r (vdims x) (fun ix => cmul (elem0 m x ix) (elem0 m y ix)).
Proof. exact @odot_new. Qed.
Print Assumptions C80_odot.
Theorem C80_sum : forall (R : cring) b d x n (m : mem (car R)), vwf x -> readable m x -> nth_error (vdims x) d = Some n ->
  Forall (fun s => s < INT_MAX) (strides_of 1 (del d (vdims x))) -> (forall a, m b a = None) ->
  exists r m', op_sum b (Z.of_nat d) x m = Ok (r, m') /\
    makes b m m' r (del d (vdims x)) (fun ix => rsum (map (fun i => elem0 m x (ins d i ix)) (zrange n))).
Proof. exact @sum_new. Qed.
Print Assumptions C80_sum.
Example C80_case : vwf ex_x /\ vwf ex_y /\ vdims ex_y = vdims ex_x /\ readable ex_mem ex_x /\ readable ex_mem ex_y /\
  Forall (fun s => s < INT_MAX) (strides_of 1 (vdims ex_x)) /\ (forall a, ex_mem 5 a = None) /\ vdims ex_x <> [] /\
  ((5 =? 0) = true -> 5 = 0) /\ ((- 5 =? 0) = true -> - 5 = 0).
Proof.
  split; [apply ex_x_wf|]. split; [apply ex_y_wf|]. split; [reflexivity|]. split; [by_check|]. split; [by_check|].
  split; [repeat constructor|]. split; [reflexivity|]. split; [discriminate|]. split; discriminate.
Qed.
Example C80_case_mprod : vwf ex_a /\ vwf ex_b /\ vdims ex_a = [2; 3] /\ vdims ex_b = [3; 2] /\ readable ex_mem ex_a /\ readable ex_mem ex_b /\
  nth_error (vdims ex_a) 1 = Some 3 /\ Forall (fun s => s < INT_MAX) (strides_of 1 (del 1 (vdims ex_a))).
Proof.
  split; [apply ex_a_wf|]. split; [apply ex_b_wf|]. do 2 (split; [reflexivity|]). split; [by_check|]. split; [by_check|].
  split; [reflexivity|repeat constructor].
Qed.
(* rank 0: the scalar is not added, and the elementwise product is 0 whatever the operands are *)
Theorem C80_rank0_refuted : forall (R : cring) eq0 b x y c v w (m : mem (car R)), vwf x -> vwf y -> vdims x = [] -> vdims y = [] ->
  elem m x [] = Some v -> elem m y [] = Some w -> (forall a, m b a = None) ->
  (exists r m', op_add_scalar eq0 b x c m = Ok (r, m') /\ elem m' r [] = Some v) /\
  (exists r m', op_sub_scalar eq0 b x c m = Ok (r, m') /\ elem m' r [] = Some v) /\
  (exists r m', op_scalar_sub eq0 b c x m = Ok (r, m') /\ elem m' r [] = Some (copp v)) /\
  (exists r m', op_odot b x y m = Ok (r, m') /\ elem m' r [] = Some c0).
Proof.
  intros R eq0 b x y c v w m Wx Wy Dx Dy Ev Ew Hb.
  assert (Rx : readable m x) by (intros ix Hix; rewrite Dx in Hix; inversion Hix; subst; congruence).
  assert (E0 : in_range [] (vdims x)) by (rewrite Dx; constructor).
  destruct (copy_fresh c0 b x m Wx Rx) as (m1 & E1 & A1 & _); [rewrite Dx; constructor|assumption|].
  specialize (A1 [] E0). rewrite Ev in A1.
  assert (Q : forall d m, tv_add_scalar eq0 (fresh_view b (vdims x)) d m = Ok m).
  { intros d mm. rewrite Dx. unfold tv_add_scalar. destruct (eq0 d); reflexivity. }
  split; [|split; [|split]].
  - unfold op_add_scalar. rewrite E1. cbn [bind]. rewrite Q. cbn [bind]. eauto.
  - unfold op_sub_scalar. rewrite E1. cbn [bind]. rewrite Q. cbn [bind]. eauto.
  - destruct (neg_new b x m Wx Rx Hb) as (r & m' & E & D & _ & _ & _ & F & _).
    unfold op_neg, zeros in E. unfold op_scalar_sub, zeros.
    destruct (tv_addc _ x (copp c1) _) as [m2| |]; try discriminate. cbn [bind] in *. injection E as <- <-. rewrite Q. cbn [bind].
    eexists _, _. split; [reflexivity|]. rewrite (F [] E0). unfold elem0. now rewrite Ev.
  - unfold op_odot, zeros. unfold zip3. rewrite Dx, Dy. cbn [length assrt eqlb bind vdims fresh_view].
    eexists _, _. split; [reflexivity|]. apply fresh_readable; constructor.
Qed.
Print Assumptions C80_rank0_refuted.
Example C80_case_rank0 : elem ex_mem (View 1 3 [] []) [] = Some 103 /\ elem ex_mem (View 2 4 [] []) [] = Some 204.
Proof. split; reflexivity. Qed.
(* the product of a matrix and a vector, whose shape the operator computes, is undefined behaviour *)
Theorem C80_matvec_refuted : forall (R : cring) b x y p n (m : mem (car R)), vdims x = [p; n] -> vdims y = [n] -> 0 < p ->
  op_mprod b x y m = UB.
Proof.
  intros R b x y p n m Dx Dy Hp. unfold op_mprod. rewrite Dx, Dy. cbn [dims_mprod bind removelast app zeros].
  unfold asize. cbn [fold_left]. replace (0 <? 1 * p) with true by lia.
  unfold tv_add_mprod. rewrite Dx, Dy. reflexivity.
Qed.
Print Assumptions C80_matvec_refuted.

(* C81: Kronecker product and direct sum *)
Theorem C81_add_tprod : forall (R : cring) r x y (m : mem (car R)), vwf r -> vwf x -> vwf y -> length (vdims y) = length (vdims x) ->
  vdims r = zmap2 Z.mul (vdims x) (vdims y) -> (1 <= length (vdims x) <= 3)%nat ->
  distinct_cells r -> readable m r -> readable m x -> readable m y -> disjoint_views r x -> disjoint_views r y ->
  exists m', tv_add_tprod r x y m = Ok m' /\
    (forall kx v, in_range kx (vdims r) -> elem m r kx = Some v ->
       elem m' r kx = Some (cadd v (cmul (elem0 m x (zmap2 Z.div kx (vdims y))) (elem0 m y (zmap2 Z.modulo kx (vdims y)))))) /\
    untouched m m' r.
Proof. intros R r x y m. rewrite zmul_zip. apply tprod_ok. Qed.
Print Assumptions C81_add_tprod.
Theorem C81_kron : forall (R : cring) b x y (m : mem (car R)), vwf x -> vwf y -> length (vdims y) = length (vdims x) ->
  (1 <= length (vdims x) <= 3)%nat -> readable m x -> readable m y -> (forall a, m b a = None) ->
  exists r m', op_kron b x y m = Ok (r, m') /\
    makes b m m' r (zmap2 Z.mul (vdims x) (vdims y))
      (fun kx => cmul (elem0 m x (zmap2 Z.div kx (vdims y))) (elem0 m y (zmap2 Z.modulo kx (vdims y)))).
Proof. intros R b x y m. rewrite zmul_zip. apply kron_new. Qed.
Print Assumptions C81_kron.
Theorem C81_oplus : forall (R : cring) b x y (m : mem (car R)), vwf x -> vwf y -> length (vdims y) = length (vdims x) -> vdims x <> [] ->
  readable m x -> readable m y -> Forall (fun s => s < INT_MAX) (strides_of 1 (zmap2 Z.add (vdims x) (vdims y))) -> (forall a, m b a = None) ->
  exists r m', op_oplus b x y m = Ok (r, m') /\
    makes b m m' r (zmap2 Z.add (vdims x) (vdims y))
      (fun kx => if below kx (vdims x) then elem0 m x kx
                 else if beyond kx (vdims x) then elem0 m y (zmap2 Z.sub kx (vdims x)) else c0).
Proof. intros R b x y m. rewrite zadd_zip. apply oplus_new. Qed.
Print Assumptions C81_oplus.
Example C81_case : vwf ex_a /\ vwf ex_b /\ length (vdims ex_b) = length (vdims ex_a) /\ (1 <= length (vdims ex_a) <= 3)%nat /\
  readable ex_mem ex_a /\ readable ex_mem ex_b /\ (forall a, ex_mem 5 a = None) /\ vdims ex_a <> [] /\
  Forall (fun s => s < INT_MAX) (strides_of 1 (zmap2 Z.add (vdims ex_a) (vdims ex_b))).
Proof.
  split; [apply ex_a_wf|]. split; [apply ex_b_wf|]. split; [reflexivity|]. split; [cbn; lia|]. split; [by_check|]. split; [by_check|].
  split; [reflexivity|]. split; [discriminate|]. repeat constructor.
Qed.
Example C81_case_add : let r := View 0 0 [6; 6] [10; 1] in vwf r /\ vdims r = zmap2 Z.mul (vdims ex_a) (vdims ex_b) /\
  distinct_cells r /\ readable ex_mem r /\ disjoint_views r ex_a /\ disjoint_views r ex_b.
Proof. split; [split; [reflexivity|repeat constructor; lia]|]. split; [reflexivity|]. repeat split; by_check. Qed.
(* for other ranks the product only prints a message, and the result is zero everywhere *)
Theorem C81_kron_rank_refuted : forall (R : cring) b x y (m : mem (car R)), vwf x -> vwf y -> length (vdims y) = length (vdims x) ->
  (length (vdims x) = 0 \/ 4 <= length (vdims x))%nat ->
  exists r m', op_kron b x y m = Ok (r, m') /\ makes b m m' r (zmap2 Z.mul (vdims x) (vdims y)) (fun _ => c0).
Proof. intros R b x y m. rewrite zmul_zip. apply kron_high. Qed.
Print Assumptions C81_kron_rank_refuted.
(* the direct sum of two rank-0 tensors is the second *)
Theorem C81_oplus_rank0_refuted : exists x y (m : mem Z) r m', vwf x /\ vwf y /\ vdims x = [] /\ vdims y = [] /\
  op_oplus (R := ZRing) 5 x y m = Ok (r, m') /\ vdims r = [] /\ elem m x [] = Some 103 /\ elem m' r [] = Some 204.
Proof.
  eexists (View 1 3 [] []), (View 2 4 [] []), ex_mem, _, _.
  split; [split; [reflexivity|constructor]|]. split; [split; [reflexivity|constructor]|]. do 2 (split; [reflexivity|]).
  split; [reflexivity|]. repeat split; reflexivity.
Qed.
Print Assumptions C81_oplus_rank0_refuted.

(* C82: initialising constructors and map *)
Theorem C82_constant : forall (R : cring) v b dims (m : mem (car R)), nonneg dims ->
  exists r m', mk_constant v b dims m = Ok (r, m') /\ makes b m m' r dims (fun _ => v).
Proof. exact @constant_new. Qed.
Print Assumptions C82_constant.
Theorem C82_ones : forall (R : cring) b dims (m : mem (car R)), nonneg dims ->
  exists r m', mk_ones b dims m = Ok (r, m') /\ makes b m m' r dims (fun _ => c1).
Proof. exact @ones_new. Qed.
Print Assumptions C82_ones.
Theorem C82_sequential : forall (R : cring) of_int b dims (m : mem (car R)), nonneg dims ->
  exists r m', mk_sequential of_int b dims m = Ok (r, m') /\ makes b m m' r dims (fun ix => of_int (flat ix dims)).
Proof. exact @sequential_new. Qed.
Print Assumptions C82_sequential.
Theorem C82_identity : forall (R : cring) b n (m : mem (car R)), 0 <= n ->
  exists r m', mk_identity b [n; n] m = Ok (r, m') /\
    makes b m m' r [n; n] (fun ix => if nth 0 ix 0 =? nth 1 ix 0 then c1 else c0).
Proof. exact @identity_new. Qed.
Print Assumptions C82_identity.
(* any other shape is refused *)
Theorem C82_identity_refuses : forall (R : cring) b dims (m : mem (car R)), (forall n, dims <> [n; n]) -> mk_identity b dims m = Throw.
Proof.
  intros R b dims m H. unfold mk_identity, zeros. destruct dims as [|n [|n1 [|]]]; try reflexivity.
  destruct (Z.eqb_spec n n1) as [->|]; [exfalso; now apply (H n1)|reflexivity].
Qed.
Print Assumptions C82_identity_refuses.
Theorem C82_unit : forall (R : cring) b n i (m : mem (car R)), 0 <= i < n ->
  exists r m', mk_unit b n i m = Ok (r, m') /\ makes b m m' r [n] (fun ix => if nth 0 ix 0 =? i then c1 else c0).
Proof. exact @unit_new. Qed.
Print Assumptions C82_unit.
Theorem C82_scalar : forall (R : cring) b v (m : mem (car R)), exists r m', mk_scalar b v m = Ok (r, m') /\ makes b m m' r [] (fun _ => v).
Proof. exact @scalar_new. Qed.
Print Assumptions C82_scalar.
Theorem C82_vec : forall (R : cring) b (l : list R) (m : mem (car R)), l <> [] ->
  exists r m', mk_vec b l m = Ok (r, m') /\ makes b m m' r [Z.of_nat (length l)] (fun ix => nth (Z.to_nat (nth 0 ix 0)) l c0).
Proof. exact @vec_new. Qed.
Print Assumptions C82_vec.
Theorem C82_mat : forall (R : cring) b (l : list (list R)) n1 (m : mem (car R)), l <> [] -> Forall (fun p => length p = n1) l ->
  exists r m', mk_mat b l m = Ok (r, m') /\
    makes b m m' r [Z.of_nat (length l); Z.of_nat n1] (fun ix => nth (Z.to_nat (nth 1 ix 0)) (nth (Z.to_nat (nth 0 ix 0)) l []) c0).
Proof. exact @mat_new. Qed.
Print Assumptions C82_mat.
(* the function is called once for each element, with its index and value; the result may be of another type *)
Theorem C82_map : forall V W (z : W) b (f : list Z -> V -> W) x (m : mem V) (m0 : mem W), vwf x -> readable m x -> vdims x <> [] ->
  exists r m', tv_map z b f x m m0 = Ok (r, m') /\
    vdims r = vdims x /\ vblk r = b /\ vwf r /\ distinct_cells r /\
    (forall ix v, in_range ix (vdims x) -> elem m x ix = Some v -> elem m' r ix = Some (f ix v)) /\
    (forall b' a, b' <> b -> m' b' a = m0 b' a).
Proof. exact @map_new. Qed.
Print Assumptions C82_map.
Example C82_case : nonneg [2; 0; 3] /\ nonneg [2; 4; 3] /\ 0 <= 2 < 5 /\ [[1; 2; 3]; [4; 5; 6]] <> [] /\
  Forall (fun p => length p = 3%nat) [[1; 2; 3]; [4; 5; 6]] /\ vwf ex_x /\ readable ex_mem ex_x /\ vdims ex_x <> [].
Proof.
  split; [unfold nonneg; repeat constructor; lia|]. split; [unfold nonneg; repeat constructor; lia|]. split; [lia|].
  split; [discriminate|]. split; [repeat constructor|]. split; [apply ex_x_wf|]. split; [by_check|discriminate].
Qed.
(* rows of unequal length are not detected: too long a last row writes outside the block, too long an
   earlier row overwrites the next one, and a short row is padded with zeros *)
Theorem C82_ragged_refuted : forall m : mem Z, mk_mat (R := ZRing) 5 [[1]; [2; 3]] m = UB /\
  (exists r m', mk_mat (R := ZRing) 5 [[1]; [2; 3]; []] m = Ok (r, m') /\ elem m' r [2; 0] = Some 3) /\
  (exists r m', mk_mat (R := ZRing) 5 [[1; 2]; [3]] m = Ok (r, m') /\ elem m' r [1; 1] = Some 0).
Proof. intro m. split; [reflexivity|]. split; eexists _, _; (split; [reflexivity|reflexivity]). Qed.
Print Assumptions C82_ragged_refuted.
(* a unit vector with its one outside the range writes outside the block *)
Theorem C82_unit_outside_refuted : forall (R : cring) b n i (m : mem (car R)), 0 <= n -> ~ 0 <= i < n -> mk_unit b n i m = UB.
Proof.
  intros R b n i m Hn Hi. unfold mk_unit, zeros, put_at.
  change (vaddr (fresh_view b [n]) [i]) with (Ok (b, 0 + (1 * i + 0))). cbn [bind fst snd].
  replace (0 + (1 * i + 0)) with i by ring. unfold store, alloc. rewrite Z.eqb_refl, asize_prod.
  replace (prod [n]) with n by (cbv [prod fold_right]; lia). replace ((0 <=? i) && (i <? n)) with false; [reflexivity|]. symmetry. apply andb_false_iff. lia.
Qed.
Print Assumptions C82_unit_outside_refuted.

(* C83: zip and for_each *)
Theorem C83_for_each : forall S x (lambda : addr -> S -> res S) st, vwf x -> vdims x <> [] ->
  visit x lambda st = foldM (fun ix st => do p <- vaddr x ix; lambda p st) (all_indices (vdims x)) st.
Proof. exact @visit_ok. Qed.
Print Assumptions C83_for_each.
Theorem C83_zip2 : forall S x y (lambda : addr -> addr -> S -> res S) st, vwf x -> vwf y -> vdims y = vdims x -> vdims x <> [] ->
  zip2 x y lambda st = foldM (fun ix st => do p <- vaddr x ix; do q <- vaddr y ix; lambda p q st) (all_indices (vdims x)) st.
Proof. exact @zip2_ok. Qed.
Print Assumptions C83_zip2.
Theorem C83_zip3 : forall S x y z (lambda : addr -> addr -> addr -> S -> res S) st, vwf x -> vwf y -> vwf z ->
  vdims y = vdims x -> vdims z = vdims x -> vdims x <> [] ->
  zip3 x y z lambda st =
  foldM (fun ix st => do p <- vaddr x ix; do q <- vaddr y ix; do t <- vaddr z ix; lambda p q t st) (all_indices (vdims x)) st.
Proof. exact @zip3_ok. Qed.
Print Assumptions C83_zip3.
(* different shapes are refused *)
Theorem C83_zip_refuses : forall S x y z (l2 : addr -> addr -> S -> res S) (l3 : addr -> addr -> addr -> S -> res S) st,
  (vdims y <> vdims x -> zip2 x y l2 st = Throw) /\ (vdims y <> vdims x \/ vdims z <> vdims x -> zip3 x y z l3 st = Throw).
Proof.
  assert (Q : forall a c : list Z, c <> a -> eqlb a c = false).
  { intros a c H. destruct (eqlb a c) eqn:E; [|reflexivity]. apply eqlb_eq in E. congruence. }
  intros S x y z l2 l3 st. split.
  - intro H. unfold zip2. now rewrite (Q _ _ H).
  - unfold zip3. destruct (eqlb (vdims x) (vdims y)) eqn:E; [|reflexivity]. apply eqlb_eq in E. intros [H|H]; [congruence|]. cbn. now rewrite (Q _ _ H).
Qed.
Print Assumptions C83_zip_refuses.
(* the element of a rank-0 tensor is not visited *)
Theorem C83_rank0_refuted : forall S x y z (l1 : addr -> S -> res S) (l2 : addr -> addr -> S -> res S) (l3 : addr -> addr -> addr -> S -> res S) st,
  vdims x = [] -> vdims y = [] -> vdims z = [] -> visit x l1 st = Ok st /\ zip2 x y l2 st = Ok st /\ zip3 x y z l3 st = Ok st.
Proof. intros S x y z l1 l2 l3 st Dx Dy Dz. unfold visit, zip2, zip3. rewrite Dx, Dy, Dz. auto. Qed.
Print Assumptions C83_rank0_refuted.
Example C83_case : vwf ex_x /\ vwf ex_y /\ vwf ex_r /\ vdims ex_y = vdims ex_x /\ vdims ex_r = vdims ex_x /\ vdims ex_x <> [] /\
  visit ex_b (fun p l => Ok (l ++ [p])) [] = Ok [(2, 7); (2, 10); (2, 17); (2, 20); (2, 27); (2, 30)].
Proof.
  split; [apply ex_x_wf|]. split; [apply ex_y_wf|]. split; [apply ex_r_wf|]. do 2 (split; [reflexivity|]). split; [discriminate|reflexivity].
Qed.

(* C84: least element, greatest magnitude, squared distance *)
Theorem C84_min : forall r (m : mem Z), vwf r -> nonneg (vstr r) -> distinct_cells r -> readable m r -> positive (vdims r) ->
  exists v, tv_min (R := ZRing) Z.ltb r m = Ok v /\
    (forall ix, in_range ix (vdims r) -> exists w, elem m r ix = Some w /\ v <= w) /\
    (exists ix, in_range ix (vdims r) /\ elem m r ix = Some v).
Proof. exact min_ok. Qed.
Print Assumptions C84_min.
Theorem C84_max_abs : forall r (m : mem Z), vwf r -> nonneg (vstr r) -> distinct_cells r -> readable m r -> positive (vdims r) ->
  exists v, tv_max_abs (R := ZRing) Z.gtb Z.abs r m = Ok v /\
    (forall ix, in_range ix (vdims r) -> exists w, elem m r ix = Some w /\ Z.abs w <= v) /\
    (exists ix w, in_range ix (vdims r) /\ elem m r ix = Some w /\ v = Z.abs w).
Proof. exact max_abs_ok. Qed.
Print Assumptions C84_max_abs.
Theorem C84_diff2 : forall (R : cring) x y (m : mem (car R)), vwf x -> vwf y -> vdims y = vdims x -> readable m x -> readable m y ->
  tv_diff2 x y m = Ok (rsum (map (fun ix => cmul (csub (elem0 m y ix) (elem0 m x ix)) (csub (elem0 m y ix) (elem0 m x ix))) (all_indices (vdims x)))).
Proof. exact @diff2_ok. Qed.
Print Assumptions C84_diff2.
Example C84_case : vwf ex_x /\ nonneg (vstr ex_x) /\ distinct_cells ex_x /\ readable ex_mem ex_x /\ positive (vdims ex_x) /\
  vwf ex_y /\ vdims ex_y = vdims ex_x /\ readable ex_mem ex_y.
Proof.
  split; [apply ex_x_wf|]. split; [unfold nonneg; repeat constructor; lia|]. split; [by_check|]. split; [by_check|].
  split; [unfold positive; repeat constructor; lia|]. split; [apply ex_y_wf|]. split; [reflexivity|by_check].
Qed.
(* the free function min returns the greatest element: it differs from the least whenever the elements do *)
Theorem C84_free_min_refuted : forall r (m : mem Z) ix jx v w, vwf r -> nonneg (vstr r) -> distinct_cells r -> readable m r -> positive (vdims r) ->
  in_range ix (vdims r) -> in_range jx (vdims r) -> elem m r ix = Some v -> elem m r jx = Some w -> v < w ->
  exists u u', fn_min (R := ZRing) Z.gtb r m = Ok u /\ tv_min (R := ZRing) Z.ltb r m = Ok u' /\ u' < u /\
    (forall kx, in_range kx (vdims r) -> exists z, elem m r kx = Some z /\ z <= u).
Proof.
  intros r m ix jx v w Wr Ns Hd Rr Hp Hi Hj Ev Ew Hvw.
  destruct (max_ok r m Wr Ns Hd Rr Hp) as (u & E & A & _). destruct (min_ok r m Wr Ns Hd Rr Hp) as (u' & E' & A' & _).
  exists u, u'. split; [exact E|]. split; [exact E'|]. split; [|exact A].
  destruct (A jx Hj) as (z & Ez & Hz). destruct (A' ix Hi) as (z' & Ez' & Hz'). rewrite Ew in Ez. rewrite Ev in Ez'. injection Ez as <-. injection Ez' as <-. lia.
Qed.
Print Assumptions C84_free_min_refuted.
(* shapes are not compared, only sizes: elements of different indices are paired, or the result is undefined *)
Theorem C84_diff2_shape_refuted : exists x y z (m : mem Z), vwf x /\ vwf y /\ vwf z /\ vdims x = [2; 3] /\ vdims y = [3; 2] /\ vdims z = [3; 2] /\
  readable m x /\ readable m y /\ readable m z /\ tv_diff2 (R := ZRing) x y m = Ok 60000 /\ tv_diff2 (R := ZRing) x z m = UB.
Proof.
  exists (View 1 0 [2; 3] [3; 1]), (View 2 0 [3; 2] [2; 1]), (View 2 94 [3; 2] [1; 3]), ex_mem.
  do 3 (split; [split; [reflexivity|repeat constructor; lia]|]). do 3 (split; [reflexivity|]). do 3 (split; [by_check|]). split; reflexivity.
Qed.
Print Assumptions C84_diff2_shape_refuted.
