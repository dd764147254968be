(* Prop_CuMask.v -- C199: aggregation of rows of complex matrices by a mask on a device.  The threads run in any order. *)
From Coq Require Import Sorted Permutation.
From Verif Require Import Base BaseFacts Model_Index Model_View Model_Tensor Model_RView Model_CView Model_Cuda Model_CuBlas Model_Mask Model_CuMask Spec_Index Spec_View Spec_Tensor Spec_Mask
  Proofs_Axes Proofs_Index Proofs_View Proofs_Tensor Proofs_Cuda Spec_RView Proofs_CuBlas Proofs_CuMask Prop_Mask Prop_CuRtensor.
Local Open Scope Z_scope.

Section S.
Context {R : cring}.
Add Ring Rpm : (cth R).
Notation memR := (mem (car R)).
Implicit Types (m : memR) (l : mlists (R := R)) (ts : list (Z * Z * R)).
(* the sum of row i of the mask for the cell (k,z) of a row of x *)
Definition mask_cell m x ts (i k z : Z) : R := rsum (map (fun t => cmul (snd t) (elem0 m x [snd (fst t); k; z])) (filter (fun t => fst (fst t) =? i) ts)).

Lemma push_full i e l : Forall (fun p => snd p <> []) l -> Forall (fun p => snd p <> []) (lpush i e l).
Proof.
  induction l as [|[k es] l IH]; intro F; cbn [lpush]; [repeat constructor; discriminate|]. inversion F; subst. destruct (i <? k); [constructor; [discriminate|assumption]|]. destruct (i =? k); constructor; cbn [snd]; auto. now destruct es.
Qed.
Lemma made_full ts q : made ts q -> Forall (fun p => snd p <> []) (rm_lists q).
Proof. induction 1; cbn; auto. - now apply push_full. - unfold rm_inverse. destruct (rm_inv q) as [?|]; [destruct (rm_cur q)|]; exact IHmade. Qed.
Lemma row_of_key l p : NoDup (keys l) -> In p l -> row l (fst p) = snd p.
Proof.
  unfold keys, row. induction l as [|e l IH]; intros N I; [destruct I|]. cbn [map] in N. inversion N as [|? ? Ne Nl]; subst. cbn [flat_map]. destruct I as [->|I].
  - rewrite Z.eqb_refl. replace (flat_map _ l) with (@nil (Z * R)); [apply app_nil_r|]. clear - Ne. induction l as [|a l IH]; [reflexivity|]. cbn [map In] in Ne. cbn [flat_map]. destruct (Z.eqb_spec (fst a) (fst p)); [now destruct Ne; left|]. cbn [app]. apply IH. intuition.
  - destruct (Z.eqb_spec (fst e) (fst p)) as [Q|]; [exfalso; apply Ne; rewrite Q; now apply in_map|]. now apply IH.
Qed.
Lemma row_none l i : ~ In i (keys l) -> row l i = [].
Proof. unfold keys, row. induction l as [|e l IH]; intro N; [reflexivity|]. cbn [map In] in N. cbn [flat_map]. destruct (Z.eqb_spec (fst e) i); [intuition|]. cbn [app]. apply IH. intuition. Qed.

(* every cell of the first half of each row of r (cells 0 to c-1 of its 2c cells) gains the sum of the row of the mask; the other cells are as before *)
Theorem C199_device_partial ts q r x m n nx c rs xs : made ts q -> operands r [x] m -> vdims r = [n; c; 2] -> vdims x = [nx; c; 2] -> vstr r = [rs; 2; 1] -> vstr x = [xs; 2; 1] -> within n nx ts ->
  n <= 2147483647 -> c <= 6144 ->
  exists plan, ac_plan q r x = Ok plan /\ forall order, Permutation order plan -> exists m', ac_exec order m = Ok m' /\
    gains r (fun ix => if 2 * nth 1 ix 0 + nth 2 ix 0 <? c then mask_cell m x ts (nth 0 ix 0) (nth 1 ix 0) (nth 2 ix 0) else c0) m m'.
Proof.
  intros M (Wr & Dd & Rr_ & F) Dr Dx Sr Sx W Hn Hc. inversion F as [|? ? (Wx & Rx & Jx) _]; subst. destruct (C124_entries R ts q M) as (P & Srt & Rows). pose proof (made_full ts q M) as Full.
  set (l := rm_lists q) in *. assert (Nk : NoDup (keys l)) by (apply (StronglySorted_NoDup Z.lt); [apply Z.lt_irrefl|exact Srt]).
  assert (Wr' := Wr). destruct Wr' as [Lr Nr]. destruct (Wx) as [Lx Nx]. assert (C0 : 0 <= c). { rewrite Dr in Nr. inversion Nr as [|? ? _ Nr2]; subst. inversion Nr2; subst. assumption. }
  assert (In1 : forall p e, In p l -> In e (snd p) -> 0 <= fst p < n /\ 0 <= fst e < nx).
  { intros p e Ip Ie. assert (I : In (fst p, fst e, snd e) (triples q)) by (unfold triples, ltriples; apply in_flat_map; exists p; split; [assumption|]; apply in_map_iff; now exists e). apply (Permutation_in _ P) in I. unfold within in W. rewrite Forall_forall in W. exact (W _ I). }
  assert (In0 : forall p, In p l -> 0 <= fst p < n). { intros p Ip. rewrite Forall_forall in Full. specialize (Full p Ip). destruct (snd p) as [|e es] eqn:E; [congruence|]. apply (In1 p e Ip). rewrite E. now left. }
  assert (Hl : Z.of_nat (length l) <= 2147483647).
  { assert (A : (length (keys l) <= length (zrange n))%nat). { apply NoDup_incl_length; [assumption|]. intros i I. apply in_map_iff in I. destruct I as (p & <- & Ip). apply in_zrange. now apply In0. }
    unfold keys in A. rewrite map_length in A. unfold zrange in A. rewrite map_length, seq_length in A. destruct l as [|p l']; [cbn; lia|]. pose proof (In0 p (or_introl eq_refl)). lia. }
  eexists. split; [now apply (plan_eq q r x n c nx rs xs)|]. intros order Po. fold l in Po. set (plan := steps_of (arr r) (arr x) rs xs c l) in *.
  assert (Cr : forall i k, shift (arr r) (i * rs + k) = cell r [i; k / 2; k mod 2]). { intros i k. unfold shift, arr, cell. rewrite Sr. cbn [fst snd dot]. f_equal. pose proof (Z.div_mod k 2 ltac:(lia)). lia. }
  assert (Cx : forall i k, shift (arr x) (i * xs + k) = cell x [i; k / 2; k mod 2]). { intros i k. unfold shift, arr, cell. rewrite Sx. cbn [fst snd dot]. f_equal. pose proof (Z.div_mod k 2 ltac:(lia)). lia. }
  assert (Ir : forall i k, 0 <= i < n -> 0 <= k < c -> in_range [i; k / 2; k mod 2] (vdims r)). { intros i k Hi Hk. rewrite Dr. pose proof (Z.mod_pos_bound k 2 ltac:(lia)). assert (0 <= k / 2) by (apply Z.div_pos; lia). assert (k / 2 < c) by (apply Z.div_lt_upper_bound; lia). inr. }
  assert (Ix : forall i k, 0 <= i < nx -> 0 <= k < c -> in_range [i; k / 2; k mod 2] (vdims x)). { intros i k Hi Hk. rewrite Dx. pose proof (Z.mod_pos_bound k 2 ltac:(lia)). assert (0 <= k / 2) by (apply Z.div_pos; lia). assert (k / 2 < c) by (apply Z.div_lt_upper_bound; lia). inr. }
  assert (Inj : forall i k i' k', 0 <= i < n -> 0 <= k < c -> 0 <= i' < n -> 0 <= k' < c -> shift (arr r) (i * rs + k) = shift (arr r) (i' * rs + k') -> i = i' /\ k = k').
  { intros i k i' k' Hi Hk Hi' Hk' E. rewrite !Cr in E. assert (Q : [i; k / 2; k mod 2] = [i'; k' / 2; k' mod 2]). { apply Dd; [now apply Ir|now apply Ir|]. rewrite !vaddr_cell by (try assumption; now apply Ir). now rewrite E. }
    injection Q as -> Q1 Q2. pose proof (Z.div_mod k 2 ltac:(lia)). pose proof (Z.div_mod k' 2 ltac:(lia)). lia. }
  assert (InP : forall e, In e plan <-> exists p k, In p l /\ 0 <= k < c /\ e = step_of (arr r) (arr x) rs xs p k).
  { intro e. unfold plan, steps_of. rewrite in_flat_map. split.
    - intros (p & Ip & I). apply in_flat_map in I. destruct I as (t & It & I). apply in_zrange in It. apply in_map_iff in I. destruct I as (k & <- & Ik). apply in_cells in Ik; [|assumption|assumption]. exists p, k. intuition.
    - intros (p & k & Ip & Hk & ->). exists p. split; [assumption|]. apply in_flat_map. exists (k mod 32). pose proof (Z.mod_pos_bound k 32 ltac:(lia)). split; [now apply in_zrange|]. apply in_map. apply in_cells; auto. }
  assert (Nd : NoDup (map fst plan)).
  { unfold plan, steps_of. rewrite map_flat_map. apply flat_nodup.
    - now apply NoDup_map_inv with (f := fst).
    - intros p Ip. rewrite map_flat_map. apply flat_nodup; [apply zrange_nodup| |].
      + intros t It. apply in_zrange in It. rewrite map_map. cbn [step_of fst]. apply NoDup_map_in; [now apply nodup_cells|]. intros k k' Ik Ik' E. apply in_cells in Ik; [|assumption|assumption]. apply in_cells in Ik'; [|assumption|assumption]. cbn [fst step_of] in E.
        apply (Inj (fst p) k (fst p) k'); try easy; now apply In0.
      + intros t t' a It It' I I'. apply in_zrange in It. apply in_zrange in It'. rewrite map_map in I, I'. apply in_map_iff in I. apply in_map_iff in I'. destruct I as (k & Ek & Ik). destruct I' as (k' & Ek' & Ik'). apply in_cells in Ik; [|assumption|assumption]. apply in_cells in Ik'; [|assumption|assumption].
        rewrite <- Ek' in Ek. cbn [fst step_of] in Ek. destruct (Inj (fst p) k (fst p) k') as [_ Q]; try easy; try now apply In0. destruct Ik as [_ <-]. destruct Ik' as [_ <-]. now rewrite Q.
    - intros p p' a Ip Ip' I I'. rewrite map_flat_map in I, I'. apply in_flat_map in I. apply in_flat_map in I'. destruct I as (t & It & I). destruct I' as (t' & It' & I'). apply in_zrange in It. apply in_zrange in It'. rewrite map_map in I, I'.
      apply in_map_iff in I. apply in_map_iff in I'. destruct I as (k & Ek & Ik). destruct I' as (k' & Ek' & Ik'). apply in_cells in Ik; [|assumption|assumption]. apply in_cells in Ik'; [|assumption|assumption]. rewrite <- Ek' in Ek. cbn [fst step_of] in Ek.
      destruct (Inj (fst p) k (fst p') k') as [Q _]; try easy; try now apply In0. destruct p as [i es], p' as [i' es']. cbn [fst] in Q. subst i'. f_equal. pose proof (row_of_key l (i, es) Nk Ip) as A. pose proof (row_of_key l (i, es') Nk Ip') as B. cbn [fst snd] in A, B. congruence. }
  assert (Po' : Permutation (map fst order) (map fst plan)) by (now apply Permutation_map).
  destruct (steps_ok order m) as (m' & E & A & B).
  - exact (Permutation_NoDup (Permutation_sym Po') Nd).
  - intros e I. apply (Permutation_in _ Po) in I. apply InP in I. destruct I as (p & k & Ip & Hk & ->). cbn [fst step_of]. rewrite Cr. rewrite <- elem_cell by (first [assumption | apply Ir; [now apply In0|assumption]]). apply Rr_. apply Ir; [now apply In0|assumption].
  - intros e s I J. apply (Permutation_in _ Po) in I. apply InP in I. destruct I as (p & k & Ip & Hk & ->). cbn [snd step_of] in J. apply in_map_iff in J. destruct J as (e & <- & Ie). cbn [snd]. destruct (In1 p e Ip Ie) as [Hp He]. rewrite Cx.
    destruct (apart r x m Wr Wx Rx Jx _ (Ix (fst e) k He Hk)) as [Q1 Q2]. split; [exact Q1|]. intro I. apply (Permutation_in _ Po') in I. apply in_map_iff in I. destruct I as (e' & Ee & Ie'). apply InP in Ie'. destruct Ie' as (p' & k' & Ip' & Hk' & ->). cbn [fst step_of] in Ee. rewrite Cr in Ee.
    apply (Q2 [fst p'; k' / 2; k' mod 2]); [apply Ir; [now apply In0|assumption]|now rewrite Ee].
  - exists m'. split; [exact E|]. split.
    + intros ix v I Ev. pose proof I as I0. rewrite elem_cell in Ev |- * by assumption. rewrite Dr in I. rng. rename i into ii, i0 into a, i1 into z. cbn [nth]. assert (K : (2 * a + z) / 2 = a /\ (2 * a + z) mod 2 = z). { assert (z = 0 \/ z = 1) as [-> | ->] by lia; split; [rewrite Z.mul_comm, Z.div_add_l by lia; now rewrite Z.add_0_r|rewrite Z.add_comm, Z.mul_comm, Z_mod_plus_full; reflexivity|rewrite Z.mul_comm, Z.div_add_l by lia; now rewrite Z.add_0_r|rewrite Z.add_comm, Z.mul_comm, Z_mod_plus_full; reflexivity]. }
      destruct K as [K1 K2]. assert (Ec : cell r [ii; a; z] = shift (arr r) (ii * rs + (2 * a + z))) by (now rewrite Cr, K1, K2).
      assert (Out : (forall p k, In p l -> 0 <= k < c -> shift (arr r) (fst p * rs + k) <> cell r [ii; a; z]) -> at_ m' (cell r [ii; a; z]) = Some v).
      { intro H'. rewrite B; [exact Ev|]. intro J. apply (Permutation_in _ Po') in J. apply in_map_iff in J. destruct J as (e & Ee & Ie). apply InP in Ie. destruct Ie as (p & k & Ip & Hk & ->). exact (H' p k Ip Hk Ee). }
      destruct (Z.ltb_spec (2 * a + z) c) as [Hk|Hk].
      * destruct (in_dec Z.eq_dec ii (keys l)) as [Ik|Ik].
        -- apply in_map_iff in Ik. destruct Ik as (p & <- & Ip). set (k := 2 * a + z) in *. assert (Is : In (step_of (arr r) (arr x) rs xs p k) order). { apply (Permutation_in _ (Permutation_sym Po)). apply InP. exists p, k. split; [assumption|]. split; [lia|reflexivity]. }
           pose proof (A _ v Is) as Q. cbn [fst snd step_of] in Q. rewrite <- Ec in Q. rewrite (Q Ev). f_equal. f_equal. unfold mask_cell, total. rewrite <- (row_of_key l p Nk Ip). rewrite Rows, !map_map. f_equal. apply map_ext_in. intros t It. apply filter_In in It. destruct It as [It _]. cbn [fst snd].
           unfold within in W. rewrite Forall_forall in W. destruct (W t It) as [_ Ht]. rewrite Cx, K1, K2. unfold elem0. rewrite elem_cell; [reflexivity|assumption|]. rewrite Dx. inr.
        -- rewrite Out; [|intros p k Ip Hk'; rewrite Ec; intro Q; assert (Hp := In0 p Ip); assert (Hz : 0 <= 2 * a + z < c) by lia; destruct (Inj (fst p) k ii (2 * a + z) Hp Hk' ltac:(assumption) Hz Q) as [Q1 _]; apply Ik; rewrite <- Q1; now apply in_map].
           f_equal. unfold mask_cell. replace (filter _ ts) with (@nil (Z * Z * R)); [unfold rsum; cbn [map fold_right]; ring|]. pose proof (Rows ii) as Q. rewrite (row_none l ii Ik) in Q. symmetry in Q. now apply map_eq_nil in Q.
      * rewrite Out; [f_equal; ring|]. intros p k Ip Hk' Q. rewrite Cr in Q. assert (Q' : [fst p; k / 2; k mod 2] = [ii; a; z]). { apply Dd; [apply Ir; [now apply In0|assumption]|assumption|]. rewrite !vaddr_cell by (first [assumption | apply Ir; [now apply In0|assumption]]). now rewrite Q. }
        injection Q' as _ Q1 Q2. pose proof (Z.div_mod k 2 ltac:(lia)). lia.
    + intros b a Nb. apply (B (b, a)). intro J. apply (Permutation_in _ Po') in J. apply in_map_iff in J. destruct J as (e & Ee & Ie). apply InP in Ie. destruct Ie as (p & k & Ip & Hk & ->). cbn [fst step_of] in Ee. rewrite Cr in Ee.
      apply (Nb [fst p; k / 2; k mod 2]); [apply Ir; [now apply In0|assumption]|]. rewrite vaddr_cell by (first [assumption | apply Ir; [now apply In0|assumption]]). now rewrite Ee.
Qed.
(* Refuted: the imaginary part of the last column of r never gains anything (the kernel is told that a row has c cells, and it has 2c), so the full sums are missing *)
Theorem C199_half_refuted ts q r x m n nx c rs xs i v : made ts q -> operands r [x] m -> vdims r = [n; c; 2] -> vdims x = [nx; c; 2] -> vstr r = [rs; 2; 1] -> vstr x = [xs; 2; 1] -> within n nx ts ->
  n <= 2147483647 -> 1 <= c <= 6144 -> 0 <= i < n -> elem m r [i; c - 1; 1] = Some v -> cadd v (mask_cell m x ts i (c - 1) 1) <> v ->
  exists plan, ac_plan q r x = Ok plan /\ forall order, Permutation order plan -> exists m', ac_exec order m = Ok m' /\ elem m' r [i; c - 1; 1] = Some v /\
    ~ gains r (fun ix => mask_cell m x ts (nth 0 ix 0) (nth 1 ix 0) (nth 2 ix 0)) m m'.
Proof.
  intros M O Dr Dx Sr Sx W Hn Hc Hi Ev Nv. destruct (C199_device_partial ts q r x m n nx c rs xs M O Dr Dx Sr Sx W Hn) as (plan & Ep & H); [lia|]. exists plan. split; [exact Ep|]. intros order Po. destruct (H order Po) as (m' & E & G & _). exists m'. split; [exact E|].
  assert (I : in_range [i; c - 1; 1] (vdims r)) by (rewrite Dr; inr). assert (E' : elem m' r [i; c - 1; 1] = Some v). { rewrite (G _ v I Ev). cbn [nth]. destruct (Z.ltb_spec (2 * (c - 1) + 1) c); [lia|]. f_equal. ring. }
  split; [exact E'|]. intros [G' _]. specialize (G' _ v I Ev). rewrite E' in G'. cbn [nth] in G'. injection G' as G'. now apply Nv.
Qed.
(* Refuted: matrices of more than 6144 columns are rejected *)
Theorem C199_wide_refuted (q : rmask (R := R)) r x n nx c rs xs : vdims r = [n; c; 2] -> vdims x = [nx; c; 2] -> vstr r = [rs; 2; 1] -> vstr x = [xs; 2; 1] -> 6144 < c -> ac_plan q r x = Throw.
Proof.
  intros Dr Dx Sr Sx Hc. unfold ac_plan, sd, nd. rewrite Dr, Dx, Sr, Sx. cbn [nth]. rewrite !Z.eqb_refl. cbn [assrt].
  assert (Q : Z.quot ((Z.quot (c * 2 - 1) 32 + 1) * 32) 32 <=? 384 = false). { rewrite Z.quot_mul by lia. apply Z.leb_gt. rewrite Z.quot_div_nonneg by lia. assert (384 <= (c * 2 - 1) / 32) by (apply Z.div_le_lower_bound; lia). lia. }
  now rewrite Q.
Qed.
(* matrices of different numbers of columns, or whose elements are not next to each other, are rejected *)
Theorem C199_rejects (q : rmask (R := R)) r x : nd x 1 <> nd r 1 \/ sd r 1 <> 2 \/ sd x 1 <> 2 \/ sd r 2 <> 1 \/ sd x 2 <> 1 -> ac_plan q r x = Throw.
Proof.
  intro H. unfold ac_plan. destruct (Z.eqb_spec (sd r 2) 1); [|reflexivity]. cbn [assrt]. destruct (Z.eqb_spec (sd x 2) 1); [|reflexivity]. cbn [assrt]. destruct (Z.eqb_spec (sd r 1) 2); [|reflexivity]. cbn [assrt]. destruct (Z.eqb_spec (sd x 1) 2); [|reflexivity]. cbn [assrt].
  destruct (Z.eqb_spec (nd x 1) (nd r 1)); [|reflexivity]. exfalso. intuition.
Qed.
End S.
Print Assumptions C199_device_partial.
Print Assumptions C199_half_refuted.
Print Assumptions C199_wide_refuted.
Print Assumptions C199_rejects.

(* ---- the hypotheses can be met ---- *)
Definition cm_ts : list (Z * Z * ZRing) := [(1, 0, 3); (0, 2, 5); (1, 2, -1)].
Definition cm_q : rmask (R := ZRing) := rm_push (R := ZRing) 1 2 (-1) (rm_push (R := ZRing) 0 2 5 (rm_push (R := ZRing) 1 0 3 rm_new)).
Definition cm_r := View 0 0 [2; 3; 2] [7; 2; 1].
Definition cm_x := View 1 0 [3; 3; 2] [6; 2; 1].
(* the first three cells of row 1 of r gain 3*x[0]-x[2], the other three gain nothing *)
Example C199_case : made cm_ts cm_q /\ operands cm_r [cm_x] cr_ramp /\ within 2 3 cm_ts /\
  match ac_plan cm_q cm_r cm_x with Ok p => match ac_exec (rev p) cr_ramp with Ok m' => map (m' 0) [7; 8; 9; 10; 11; 12] = [Some (-7 + (30 + 2)); Some (-8 + (27 + 3)); Some (-9 + (24 + 4)); Some (-10); Some (-11); Some (-12)] | _ => False end | _ => False end.
Proof.
  split; [apply (@made_push ZRing [(1, 0, 3); (0, 2, 5)] _ 1 2 (-1)), (@made_push ZRing [(1, 0, 3)] _ 0 2 5), (@made_push ZRing [] _ 1 0 3), made_new|]. split; [unfold cm_r, cm_x; cr_op|]. split; [unfold within, cm_ts; repeat constructor; cbn; lia|]. vm_compute. reflexivity.
Qed.
Example C199_case_refuted : elem cr_ramp cm_r [1; 2; 1] = Some (-12) /\ (-12) + mask_cell (R := ZRing) cr_ramp cm_x cm_ts 1 2 1 <> -12.
Proof. split; [reflexivity|]. vm_compute. discriminate. Qed.
Example C199_case_wide : ac_plan cm_q (View 0 0 [2; 6145; 2] [12290; 2; 1]) (View 1 0 [3; 6145; 2] [12290; 2; 1]) = Throw.
Proof. apply (C199_wide_refuted cm_q _ _ 2 3 6145 12290 12290); (reflexivity || lia). Qed.
Example C199_case_rejects : nd (View 1 0 [3; 3; 2] [2; 6; 1]) 1 = 3 /\ ac_plan cm_q cm_r (View 1 0 [3; 3; 2] [2; 6; 1]) = Throw.
Proof. split; reflexivity. Qed.
