(* Prop_CuRtensor.v -- C187, C188, C189: copying, adding, summing and rectifying fixed-rank views on a device.  In every theorem the threads of a launch
   run in any order. *)
From Verif Require Import Base BaseFacts Model_Index Model_View Model_Tensor Model_Ops Model_RView Model_Cuda Model_CuBlas Model_CuRtensor
  Spec_Index Spec_View Spec_Tensor Spec_Cuda Spec_CuRtensor Proofs_Index Proofs_Tensor Proofs_Cuda Spec_RView Proofs_CuBlas Proofs_CuRtensor.
Local Open Scope Z_scope.

Lemma done_updates {V} (f : V -> list V -> V) (g : V -> V -> V) r x (m m' : mem V) : (forall v w, f v [w] = g v w) -> done f r [x] m m' -> updates g r x m m'.
Proof.
  intros E [A U]. split; [|exact U]. intros ix v w I Ev Ew. destruct (A ix I) as (v' & us & B & C & D). rewrite Ev in B. injection B as <-. inversion C as [|? u ? ? Cu C']; subst. inversion C'; subst. rewrite Ew in Cu. injection Cu as <-. now rewrite D, E.
Qed.
Ltac by_done H E := destruct H as (plan & Hp & H); exists plan; split; [exact Hp|]; intros orders O; destruct (H orders O) as (m' & Em & D); exists m'; split; [exact Em|]; revert D; apply done_updates; intros; reflexivity.

(* ---- C187 ---- *)
(* x.set(y) for vectors, matrices and 3-tensors *)
Theorem C187_set1_partial {V} r x (m : mem V) n : zipable r x m -> vdims r = [n] -> (reg1 r = true /\ reg1 x = true) \/ rt_fits [n] ->
  exists plan, cu_set1 r x = Ok plan /\ forall orders, any_order plan orders -> exists m', cu_exec f_set orders m = Ok m' /\ updates (fun _ w => w) r x m m'.
Proof. intros Zp Dr H0. pose proof (set1_done f_set r x m n Zp Dr H0) as H. by_done H E. Qed.
Print Assumptions C187_set1_partial.
Theorem C187_set2_partial {V} r x (m : mem V) a b : zipable r x m -> vdims r = [a; b] -> (reg2 r = true /\ reg2 x = true) \/ rt_fits [a; b] ->
  exists plan, cu_set2 r x = Ok plan /\ forall orders, any_order plan orders -> exists m', cu_exec f_set orders m = Ok m' /\ updates (fun _ w => w) r x m m'.
Proof. intros Zp Dr H0. pose proof (set2_done f_set r x m a b Zp Dr H0) as H. by_done H E. Qed.
Print Assumptions C187_set2_partial.
Theorem C187_set3_partial {V} r x (m : mem V) a b c : zipable r x m -> vdims r = [a; b; c] -> reg3 r && reg3 x = false -> rt_fits [a; b; c] ->
  exists plan, cu_set3 r x = Ok plan /\ forall orders, any_order plan orders -> exists m', cu_exec f_set orders m = Ok m' /\ updates (fun _ w => w) r x m m'.
Proof. intros Zp Dr E0 H0. pose proof (set3_done f_set r x m a b c Zp Dr E0 H0) as H. by_done H E. Qed.
Print Assumptions C187_set3_partial.
(* x.add(y) and x.add(y,c) *)
Theorem C187_add2_partial {R : cring} r x (m : mem (car R)) a b : zipable r x m -> vdims r = [a; b] -> (reg2 r = true /\ reg2 x = true) \/ rt_fits [a; b] ->
  exists plan, cu_add2 r x = Ok plan /\ forall orders, any_order plan orders -> exists m', cu_exec f_add1 orders m = Ok m' /\ updates cadd r x m m'.
Proof. intros Zp Dr H0. pose proof (add2_done f_add1 r x m a b Zp Dr H0) as H. by_done H E. Qed.
Print Assumptions C187_add2_partial.
Theorem C187_add3_partial {R : cring} (c : R) r x (m : mem (car R)) a b d : zipable r x m -> vdims r = [a; b; d] -> (reg3 r = true /\ reg3 x = true) \/ rt_fits [a; b; d] ->
  exists plan, cu_add3 r x = Ok plan /\
    (forall orders, any_order plan orders -> exists m', cu_exec f_add1 orders m = Ok m' /\ updates cadd r x m m') /\
    (forall orders, any_order plan orders -> exists m', cu_exec (f_addc c) orders m = Ok m' /\ updates (fun v w => cadd v (cmul c w)) r x m m').
Proof.
  intros Zp Dr H0. destruct (add3_done f_add1 r x m a b d Zp Dr H0) as (plan & Hp & H). destruct (add3_done (f_addc c) r x m a b d Zp Dr H0) as (plan' & Hp' & H'). rewrite Hp in Hp'. injection Hp' as <-.
  exists plan. split; [exact Hp|]. split; intros orders O.
  - destruct (H orders O) as (m' & Em & D). exists m'. split; [exact Em|]. revert D. apply done_updates. reflexivity.
  - destruct (H' orders O) as (m' & Em & D). exists m'. split; [exact Em|]. revert D. apply done_updates. reflexivity.
Qed.
Print Assumptions C187_add3_partial.
(* The last elements of a strided vector are not copied; of fewer than 1024 none is *)
Theorem C187_set1_refuted {V} r x (m : mem V) n : zipable r x m -> vdims r = [n] -> n <= 2147483647 -> reg1 r && reg1 x = false ->
  exists plan, cu_set1 r x = Ok plan /\ forall orders, any_order plan orders -> exists m', cu_exec f_set orders m = Ok m' /\
    (forall i, 1024 * (n / 1024) <= i < n -> elem m' r [i] = elem m r [i]) /\ untouched m m' r.
Proof. exact (set1_missed f_set r x m n). Qed.
Print Assumptions C187_set1_refuted.
(* Of a row-major 3-tensor only the first a*b elements are copied *)
Theorem C187_set3_refuted {V} r x (m : mem V) a b c : zipable r x m -> vdims r = [a; b; c] -> 0 < c -> reg3 r = true -> reg3 x = true ->
  exists plan, cu_set3 r x = Ok plan /\ forall orders, any_order plan orders -> exists m', cu_exec f_set orders m = Ok m' /\
    (forall i j k, in_range [i; j; k] [a; b; c] -> a * b <= (i * b + j) * c + k -> elem m' r [i; j; k] = elem m r [i; j; k]) /\ untouched m m' r.
Proof. exact (set3_missed f_set r x m a b c). Qed.
Print Assumptions C187_set3_refuted.
(* A 3-tensor with at most 1024 elements, more than 64 of them along the last axis, is neither copied nor added *)
Theorem C187_thin_refuted r x a b c : vdims r = [a; b; c] -> vdims x = [a; b; c] -> a * b * c <= 1024 -> 64 < c -> reg3 x = false -> cu_set3 r x = Ok [[]] /\ cu_add3 r x = Ok [[]].
Proof. intros Dr Dx H Hc E. unfold cu_set3, cu_add3, reg_pair. rewrite E, andb_false_r, (thin_missed r x a b c Dr Dx H Hc). split; reflexivity. Qed.
Print Assumptions C187_thin_refuted.
(* Copying or adding a larger 3-tensor with other strides to a row-major one writes behind the end of its array *)
Theorem C187_wide_refuted {V} (f : V -> list V -> V) r x (m : mem V) a b c : vwf r -> vdims r = [a; b; c] -> vdims x = [a; b; c] -> reg3 r = true -> reg3 x = false ->
  0 < a <= 2147483647 -> 0 < b <= 65535 -> 0 < c <= 1024 -> 1024 < a * b -> 1024 < a * c -> 1024 < b * c -> (forall o, a * b * c <= o -> m (vblk r) (voff r + o) = None) ->
  exists plan, cu_set3 r x = Ok plan /\ cu_add3 r x = Ok plan /\ forall orders, any_order plan orders -> cu_exec f orders m = UB.
Proof. intros. exists [rt_dispatch3 r x]. now apply (wide_wild f r x m a b c). Qed.
Print Assumptions C187_wide_refuted.
(* x.add(y,c) of matrices ends the program *)
Theorem C187_addc2_refuted r x : cu_addc2 r x = Throw.
Proof. reflexivity. Qed.
Print Assumptions C187_addc2_refuted.

(* sides that differ are rejected *)
Theorem C187_sides r x : (nd x 0 <> nd r 0 -> cu_set1 r x = Throw) /\ (nd x 0 <> nd r 0 \/ nd x 1 <> nd r 1 -> cu_set2 r x = Throw /\ cu_add2 r x = Throw).
Proof.
  split; [intro H|intros H]; unfold cu_set1, cu_set2, cu_add2; [now replace (nd x 0 =? nd r 0) with false by lia|].
  destruct (nd x 0 =? nd r 0) eqn:E; [|now split]. cbn [assrt]. replace (nd x 1 =? nd r 1) with false by lia. now split.
Qed.
Print Assumptions C187_sides.

(* ---- C188 ---- *)
(* sum0_into (c=1) and avg0_into (c=1/n0) *)
Theorem C188_sum0 {R : cring} (c : R) r x (m : mem (car R)) a n : operands r [x] m -> vdims x = [a; n] -> vdims r = [n] -> n <= 2147483647 ->
  exists plan, cu_sum0 r x = Ok plan /\ forall orders, any_order plan orders -> exists m', cu_exec (f_sumc c) orders m = Ok m' /\
    gains r (fun ix => cmul (rsum (map (fun i => elem0 m x (i :: ix)) (zrange a))) c) m m'.
Proof. exact (sum0_done c r x m a n). Qed.
Print Assumptions C188_sum0.
Theorem C188_sum1_partial {R : cring} r x (m : mem (car R)) a n b : operands r [x] m -> vdims x = [a; n; b] -> vdims r = [a; b] -> 0 < a <= 2147483647 -> 0 < b <= 1024 ->
  exists plan, cu_sum1 r x = Ok plan /\ forall orders, any_order plan orders -> exists m', cu_exec (f_sumc c1) orders m = Ok m' /\
    gains r (fun ix => rsum (map (fun i => elem0 m x [nth 0 ix 0; i; nth 1 ix 0]) (zrange n))) m m'.
Proof. exact (sum1_done r x m a n b). Qed.
Print Assumptions C188_sum1_partial.
Theorem C188_sum1_refuted r x a n b : vdims x = [a; n; b] -> vdims r = [a; b] -> 1024 < b -> cu_sum1 r x = Ok [].
Proof. exact (sum1_missed r x a n b). Qed.
Print Assumptions C188_sum1_refuted.

Theorem C188_sides r x : (nd r 0 <> nd x 1 -> cu_sum0 r x = Throw) /\ (nd r 0 <> nd x 0 \/ nd r 1 <> nd x 2 -> cu_sum1 r x = Throw).
Proof.
  split; [intro H|intros H]; unfold cu_sum0, cu_sum1; [now replace (nd r 0 =? nd x 1) with false by lia|].
  destruct (nd r 0 =? nd x 0) eqn:E; [|reflexivity]. cbn [assrt]. now replace (nd r 1 =? nd x 2) with false by lia.
Qed.
Print Assumptions C188_sides.

(* ---- C189 ---- *)
Definition relu {R : cring} (pos : R -> bool) (alpha w : R) : R := if pos w then w else cmul alpha w.
(* add_ReLU on a device puts the rectified elements in place of the old ones *)
Theorem C189_relu_refuted {R : cring} (pos : R -> bool) (alpha : R) r x (m : mem (car R)) n : zipable r x m -> vdims r = [n] -> n <= 2147483647 -> vstr r = [1] -> vstr x = [1] ->
  exists plan, cu_relu r [x] = Ok plan /\ forall orders, any_order plan orders -> exists m', cu_exec (f_relu pos alpha) orders m = Ok m' /\ updates (fun _ w => relu pos alpha w) r x m m'.
Proof.
  intros (Wr & Wx & Dx & Di & Rr & Rx & N) Dr Hn Sr Sx. pose proof (relu_done (f_relu pos alpha) r [x] m n Wr Di Rr) as H. assert (F : Forall (fun x => vwf x /\ vdims x = vdims r /\ readable m x /\ no_clobber r x) [x]) by (apply Forall_cons; [auto|apply Forall_nil]).
  specialize (H F Dr Hn ltac:(repeat (apply Forall_cons; [assumption|]); apply Forall_nil)). by_done H E.
Qed.
Print Assumptions C189_relu_refuted.
(* so that it adds them where r was zero *)
Theorem C189_relu_partial {R : cring} (pos : R -> bool) (alpha : R) r x (m : mem (car R)) n : zipable r x m -> vdims r = [n] -> n <= 2147483647 -> vstr r = [1] -> vstr x = [1] ->
  (forall ix, in_range ix (vdims r) -> elem m r ix = Some c0) ->
  exists plan, cu_relu r [x] = Ok plan /\ forall orders, any_order plan orders -> exists m', cu_exec (f_relu pos alpha) orders m = Ok m' /\ updates (fun v w => cadd v (relu pos alpha w)) r x m m'.
Proof.
  intros Zp Dr Hn Sr Sx Z0. destruct (C189_relu_refuted pos alpha r x m n Zp Dr Hn Sr Sx) as (plan & Hp & H). exists plan. split; [exact Hp|]. intros orders O. destruct (H orders O) as (m' & Em & A & U). exists m'. split; [exact Em|]. split; [|exact U].
  intros ix v w I Ev Ew. rewrite (A ix v w I Ev Ew). rewrite (Z0 ix I) in Ev. injection Ev as <-. f_equal. symmetry. apply (cth R).(Radd_0_l).
Qed.
Print Assumptions C189_relu_partial.
Definition relu_back {R : cring} (pos : R -> bool) (alpha w g : R) : R := if pos w then g else cmul alpha g.
Theorem C189_relu_back_refuted {R : cring} (pos : R -> bool) (alpha : R) r g x (m : mem (car R)) n : zipable r g m -> zipable r x m -> vdims r = [n] -> n <= 2147483647 -> vstr r = [1] -> vstr g = [1] -> vstr x = [1] ->
  exists plan, cu_relu r [g; x] = Ok plan /\ forall orders, any_order plan orders -> exists m', cu_exec (f_relu_back pos alpha) orders m = Ok m' /\
    becomes r (fun ix => relu_back pos alpha (elem0 m x ix) (elem0 m g ix)) m m'.
Proof.
  intros (Wr & Wg & Dg & Di & Rr & Rg & Ng) (_ & Wx & D & _ & _ & Rx & N) Dr Hn Sr Sg Sx. pose proof (relu_done (f_relu_back pos alpha) r [g; x] m n Wr Di Rr) as H. assert (F : Forall (fun x => vwf x /\ vdims x = vdims r /\ readable m x /\ no_clobber r x) [g; x]) by (repeat (apply Forall_cons; [auto|]); apply Forall_nil).
  specialize (H F Dr Hn ltac:(repeat (apply Forall_cons; [assumption|]); apply Forall_nil)). destruct H as (plan & Hp & H). exists plan. split; [exact Hp|]. intros orders O. destruct (H orders O) as (m' & Em & A & U). exists m'. split; [exact Em|]. split; [|exact U].
  intros ix I. destruct (A ix I) as (v & us & _ & C & E). inversion C as [|? u ? ? Cu C']; subst. inversion C' as [|? w ? ? Cw C'']; subst. inversion C''; subst. rewrite E. unfold elem0. now rewrite Cu, Cw.
Qed.
Print Assumptions C189_relu_back_refuted.

(* lengths that differ and strides other than 1 are rejected *)
Theorem C189_rejects r xs : Exists (fun x => nd x 0 <> nd r 0) xs \/ Exists (fun x => sd x 0 <> 1) (r :: xs) -> cu_relu r xs = Throw.
Proof.
  assert (A : forall (p : view -> bool) L, Exists (fun x => p x = false) L -> forallb p L = false).
  { intros p L E. induction E as [x L E|x L E IH]; cbn [forallb]; [now rewrite E|now rewrite IH, andb_false_r]. }
  intro H. unfold cu_relu. destruct (forallb (fun x => nd x 0 =? nd r 0) xs) eqn:E1; [|reflexivity]. cbn [assrt].
  destruct H as [H|H]; [exfalso|rewrite A; [reflexivity|eapply Exists_impl; [|exact H]; cbn; intros; lia]].
  assert (B : forallb (fun x => nd x 0 =? nd r 0) xs = false) by (apply A; eapply Exists_impl; [|exact H]; cbn; intros; lia). congruence.
Qed.
Print Assumptions C189_rejects.

(* concrete cases *)
Definition cr_ramp : mem (car ZRing) := fun b a => if (0 <=? b) && (b <? 4) && (0 <=? a) && (a <? 3000) then Some (10 * b - a) else None.
Lemma cr_read b o d s : 0 <= b < 4 -> length s = length d -> (forall ix, in_range ix d -> 0 <= o + dot s ix < 3000) -> readable cr_ramp (View b o d s).
Proof.
  intros Hb L H ix I. cbn [vdims] in I. rewrite elem_cell by assumption. unfold at_, cell, cr_ramp. cbn [vblk voff vstr fst snd]. specialize (H ix I).
  replace ((0 <=? b) && (b <? 4) && (0 <=? o + dot s ix) && (o + dot s ix <? 3000)) with true by lia. discriminate.
Qed.
Ltac cr_zip := split; [split; [reflexivity|unfold nonneg; repeat constructor; lia]|split; [split; [reflexivity|unfold nonneg; repeat constructor; lia]|split; [reflexivity|split;
    [intros ix jx I J E; rewrite !vaddr_cell in E by (reflexivity || assumption); cbn [vdims] in *; rng; unfold cell in E; cbn [vblk voff vstr dot] in E;
       apply (f_equal (fun q => match q with Ok p => snd p | _ => 0 end)) in E; cbn [snd] in E; repeat (f_equal; try lia)|
     split; [apply cr_read; [lia|reflexivity|intros ix I; rng; cbn [dot]; lia]|split; [apply cr_read; [lia|reflexivity|intros ix I; rng; cbn [dot]; lia]|
       intros ix jx I J E; rewrite !vaddr_cell in E by (reflexivity || assumption); discriminate]]]]]].
Example C187_case_set1 : zipable (View 0 0 [1024] [2]) (View 1 5 [1024] [1]) cr_ramp /\ rt_fits [1024] /\ exists plan, cu_set1 (View 0 0 [1024] [2]) (View 1 5 [1024] [1]) = Ok plan /\
  match cu_exec (@f_set (car ZRing)) (map (@rev _) plan) cr_ramp with Ok m' => m' 0 2046 = Some (10 - 1028) /\ m' 0 2045 = Some (-2045) | _ => False end.
Proof. split; [cr_zip|]. split; [cbn; lia|]. eexists. split; [reflexivity|]. vm_compute. split; reflexivity. Qed.
Example C187_case_set2 : zipable (View 0 0 [2; 3] [3; 1]) (View 1 0 [2; 3] [1; 2]) cr_ramp /\ rt_fits [2; 3] /\ rt_fits [3; 2000] /\ rt_fits [2000; 2000] /\
  exists plan, cu_set2 (View 0 0 [2; 3] [3; 1]) (View 1 0 [2; 3] [1; 2]) = Ok plan /\ match cu_exec (@f_set (car ZRing)) (map (@rev _) plan) cr_ramp with Ok m' => m' 0 4 = Some (10 - 3) | _ => False end.
Proof. split; [cr_zip|]. repeat (split; [cbn; lia|]). eexists. split; [reflexivity|]. vm_compute. reflexivity. Qed.
Example C187_case_set3 : zipable (View 0 0 [2; 3; 4] [12; 4; 1]) (View 1 0 [2; 3; 4] [1; 2; 6]) cr_ramp /\ reg3 (View 0 0 [2; 3; 4] [12; 4; 1]) && reg3 (View 1 0 [2; 3; 4] [1; 2; 6]) = false /\ rt_fits [2; 3; 4] /\ rt_fits [2000; 2; 3] /\
  rt_fits [2; 2000; 3] /\ exists plan, cu_set3 (View 0 0 [2; 3; 4] [12; 4; 1]) (View 1 0 [2; 3; 4] [1; 2; 6]) = Ok plan /\
    match cu_exec (@f_set (car ZRing)) (map (@rev _) plan) cr_ramp with Ok m' => m' 0 (12 + 8 + 3) = Some (10 - (1 + 4 + 18)) | _ => False end.
Proof. split; [cr_zip|]. split; [reflexivity|]. repeat (split; [cbn; lia|]). eexists. split; [reflexivity|]. vm_compute. reflexivity. Qed.
Example C187_case_add : zipable (View 0 0 [2; 3] [3; 1]) (View 1 0 [2; 3] [0; 0]) cr_ramp /\ exists plan, cu_add2 (View 0 0 [2; 3] [3; 1]) (View 1 0 [2; 3] [0; 0]) = Ok plan /\
  match cu_exec (@f_add1 ZRing) (map (@rev _) plan) cr_ramp with Ok m' => m' 0 4 = Some 6 | _ => False end.
Proof. split; [cr_zip|]. eexists. split; [reflexivity|]. vm_compute. reflexivity. Qed.
Example C187_case_add3 : zipable (View 0 0 [2; 3; 4] [12; 4; 1]) (View 1 0 [2; 3; 4] [1; 2; 6]) cr_ramp /\ exists plan, cu_add3 (View 0 0 [2; 3; 4] [12; 4; 1]) (View 1 0 [2; 3; 4] [1; 2; 6]) = Ok plan /\
  match cu_exec (@f_addc ZRing 2) (map (@rev _) plan) cr_ramp with Ok m' => m' 0 (12 + 8 + 3) = Some (-23 + 2 * (10 - 23)) | _ => False end.
Proof. split; [cr_zip|]. eexists. split; [reflexivity|]. vm_compute. reflexivity. Qed.
Example C187_case_missed : zipable (View 0 0 [5] [2]) (View 1 0 [5] [1]) cr_ramp /\ reg1 (View 0 0 [5] [2]) && reg1 (View 1 0 [5] [1]) = false /\
  exists plan, cu_set1 (View 0 0 [5] [2]) (View 1 0 [5] [1]) = Ok plan /\ cu_exec (@f_set (car ZRing)) plan cr_ramp = Ok cr_ramp.
Proof. split; [cr_zip|]. split; [reflexivity|]. eexists. split; reflexivity. Qed.
Example C187_case_regular3 : zipable (View 0 0 [2; 3; 4] [12; 4; 1]) (View 1 0 [2; 3; 4] [12; 4; 1]) cr_ramp /\ reg3 (View 0 0 [2; 3; 4] [12; 4; 1]) = true /\
  exists plan, cu_set3 (View 0 0 [2; 3; 4] [12; 4; 1]) (View 1 0 [2; 3; 4] [12; 4; 1]) = Ok plan /\
    match cu_exec (@f_set (car ZRing)) plan cr_ramp with Ok m' => m' 0 5 = Some 5 /\ m' 0 6 = Some (-6) | _ => False end.
Proof. split; [cr_zip|]. split; [reflexivity|]. eexists. split; [reflexivity|]. vm_compute. split; reflexivity. Qed.
Example C187_case_wide : vwf (View 0 0 [33; 33; 33] [1089; 33; 1]) /\ reg3 (View 0 0 [33; 33; 33] [1089; 33; 1]) = true /\ reg3 (View 1 0 [33; 33; 33] [1; 33; 1089]) = false /\ 1024 < 33 * 33 /\
  forall o, 33 * 33 * 33 <= o -> cr_ramp 0 (0 + o) = None.
Proof.
  split; [split; [reflexivity|unfold nonneg; repeat constructor; lia]|]. split; [reflexivity|]. split; [reflexivity|]. split; [lia|]. intros o Ho. unfold cr_ramp. now replace (0 + o <? 3000) with false by lia; rewrite !andb_false_r.
Qed.
Ltac cr_op := split; [split; [reflexivity|unfold nonneg; repeat constructor; lia]|split; [intros ix jx I J E; rewrite !vaddr_cell in E by (reflexivity || assumption); cbn [vdims] in *; rng; unfold cell in E; cbn [vblk voff vstr dot] in E;
    apply (f_equal (fun q => match q with Ok p => snd p | _ => 0 end)) in E; cbn [snd] in E; repeat (f_equal; try lia)|split; [apply cr_read; [lia|reflexivity|intros ix I; rng; cbn [dot]; lia]|
    repeat (apply Forall_cons || apply Forall_nil); (split; [split; [reflexivity|unfold nonneg; repeat constructor; lia]|split; [apply cr_read; [lia|reflexivity|intros ix I; rng; cbn [dot]; lia]|
      intros ix jx I J E; rewrite !vaddr_cell in E by (reflexivity || assumption); discriminate]])]]].
Example C188_case : operands (View 0 0 [3] [2]) [View 1 0 [2; 3] [3; 1]] cr_ramp /\ exists plan, cu_sum0 (View 0 0 [3] [2]) (View 1 0 [2; 3] [3; 1]) = Ok plan /\
  match cu_exec (@f_sumc ZRing 7) (map (@rev _) plan) cr_ramp with Ok m' => m' 0 2 = Some (-2 + ((10 - 1) + (10 - 4)) * 7) | _ => False end.
Proof. split; [cr_op|]. eexists. split; [reflexivity|]. vm_compute. reflexivity. Qed.
Example C188_case_long : exists plan, cu_sum0 (View 0 0 [1100] [2]) (View 1 0 [2; 1100] [0; 1]) = Ok plan /\
  match cu_exec (@f_sumc ZRing 1) (map (@rev _) plan) cr_ramp with Ok m' => m' 0 2198 = Some (-2198 + 2 * (10 - 1099)) | _ => False end.
Proof. eexists. split; [reflexivity|]. vm_compute. reflexivity. Qed.
Example C188_case_sum1 : operands (View 0 0 [2; 2] [2; 1]) [View 1 0 [2; 3; 2] [6; 2; 1]] cr_ramp /\ exists plan, cu_sum1 (View 0 0 [2; 2] [2; 1]) (View 1 0 [2; 3; 2] [6; 2; 1]) = Ok plan /\
  match cu_exec (@f_sumc ZRing 1) (map (@rev _) plan) cr_ramp with Ok m' => m' 0 3 = Some (-3 + ((10 - 7) + (10 - 9) + (10 - 11))) | _ => False end.
Proof. split; [cr_op|]. eexists. split; [reflexivity|]. vm_compute. reflexivity. Qed.
Example C189_case : zipable (View 0 0 [40] [1]) (View 1 0 [40] [1]) cr_ramp /\ exists plan, cu_relu (View 0 0 [40] [1]) [View 1 0 [40] [1]] = Ok plan /\
  match cu_exec (@f_relu ZRing (fun v => 0 <? v) 3) (map (@rev _) plan) cr_ramp with Ok m' => m' 0 3 = Some 7 /\ m' 0 35 = Some (-75) | _ => False end.
Proof. split; [cr_zip|]. eexists. split; [reflexivity|]. vm_compute. split; reflexivity. Qed.
Example C189_case_zero : let m := fun b a => if (b =? 0) && (0 <=? a) && (a <? 40) then Some 0 else cr_ramp b a in forall ix, in_range ix [40] -> @elem Z m (View 0 0 [40] [1]) ix = Some 0.
Proof. intros m ix I. rewrite elem_cell by (reflexivity || assumption). rng. unfold at_, cell, m. cbn [vblk voff vstr dot fst snd]. now replace ((0 =? 0) && (0 <=? 0 + (1 * i + 0)) && (0 + (1 * i + 0) <? 40)) with true by lia. Qed.
Example C189_case_back : zipable (View 0 0 [40] [1]) (View 1 0 [40] [1]) cr_ramp /\ zipable (View 0 0 [40] [1]) (View 2 0 [40] [1]) cr_ramp /\ exists plan, cu_relu (View 0 0 [40] [1]) [View 1 0 [40] [1]; View 2 0 [40] [1]] = Ok plan /\
  match cu_exec (@f_relu_back ZRing (fun v => 0 <? v) 3) (map (@rev _) plan) cr_ramp with Ok m' => m' 0 3 = Some 7 /\ m' 0 35 = Some (-75) | _ => False end.
Proof. split; [cr_zip|]. split; [cr_zip|]. eexists. split; [reflexivity|]. vm_compute. split; reflexivity. Qed.
