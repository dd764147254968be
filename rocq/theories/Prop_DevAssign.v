(* Prop_DevAssign.v -- C184: tensors copied and moved between the host (device 0) and a graphics card (device 1). *)
From Verif Require Import Base BaseFacts Model_Index Model_View Model_Tensor Model_Cuda Model_DevAssign.
From Verif Require Import Spec_Index Spec_View Spec_Tensor Spec_Cuda Proofs_Index Proofs_View Proofs_Tensor Proofs_Tensor2 Proofs_Cuda Proofs_DevAssign.
Local Open Scope Z_scope.

(* Row-major tensors, between any two devices: a copy has the same elements *)
Theorem C184_copy_partial {V} (junk : V) ord f nb d xd x (m : mem V) :
  vwf x -> readable m x -> vdims x <> [] -> vstr x = strides_of 1 (vdims x) -> Forall (fun s => s < 2147483647) (vstr x) -> (forall a, m nb a = None) ->
  exists y m', dev_copy junk ord (S f) nb d xd x m = Ok (y, m') /\ vdims y = vdims x /\ vblk y = nb /\
    (forall ix, in_range ix (vdims x) -> elem m' y ix = elem m x ix) /\ (forall b a, b <> nb -> m' b a = m b a).
Proof. intros W Rx N E M H. destruct (copy_rows junk ord f nb d xd x m W Rx N E M H) as (m' & Ec & A & U). exists (fresh_view nb (vdims x)), m'. now repeat split. Qed.
Print Assumptions C184_copy_partial.
(* ... and so has the tensor itself once it is moved *)
Theorem C184_move_partial {V} (junk : V) ord f nb d xd x (m : mem V) : d <> xd ->
  vwf x -> readable m x -> vdims x <> [] -> vstr x = strides_of 1 (vdims x) -> Forall (fun s => s < 2147483647) (vstr x) -> (forall a, m nb a = None) ->
  exists y m', dev_move junk ord (S f) nb d xd x m = Ok (y, m') /\ vdims y = vdims x /\
    (forall ix, in_range ix (vdims x) -> elem m' y ix = elem m x ix) /\ (forall b a, b <> nb -> m' b a = m b a).
Proof. apply move_rows. Qed.
Print Assumptions C184_move_partial.

(* From the device to the host: matrices with any strides, if one launch has a thread for every element, whatever the order of the threads *)
Theorem C184_to_host_partial {V} (junk : V) ord f nb n k b o s t (m : mem V) : (forall l, Permutation (ord l) l) ->
  1 <= n -> 1 < k < 2147483647 -> s = k /\ t = 1 \/ s = t * k /\ cu_fits [k * n] \/ s <> t * k /\ cu_fits [n; k] -> b <> nb -> b <> nb + 1 -> (forall a, m nb a = None) ->
  readable m (View b o [n; k] [s; t]) ->
  exists y m', dev_copy junk ord (S (S f)) nb 0 1 (View b o [n; k] [s; t]) m = Ok (y, m') /\ vdims y = [n; k] /\
    (forall ix, in_range ix [n; k] -> elem m' y ix = elem m (View b o [n; k] [s; t]) ix) /\ (forall b' a, b' <> nb -> b' <> nb + 1 -> m' b' a = m b' a).
Proof. intros Ho Hn Hk L B0 B1 H Rx. destruct (copy_back junk ord Ho f nb n k b o s t m Hn Hk L B0 B1 H Rx) as (m' & E & A & U). exists (fresh_view nb [n; k]), m'. now repeat split. Qed.
Print Assumptions C184_to_host_partial.

(* ... also into a host matrix with gaps between its rows: r=x *)
Theorem C184_gaps_partial {V} (junk : V) ord f nb n k rb ro rs rt b o s t (m : mem V) : (forall l, Permutation (ord l) l) ->
  1 <= n -> 1 < k < 2147483647 -> 0 < rt -> rt * k < rs < 2147483647 -> s = k /\ t = 1 \/ s = t * k /\ cu_fits [k * n] \/ s <> t * k /\ cu_fits [n; k] ->
  b <> nb -> b <> nb + 1 -> rb <> nb -> rb <> nb + 1 -> (forall a, m nb a = None) -> readable m (View b o [n; k] [s; t]) -> readable m (View rb ro [n; k] [rs; rt]) ->
  exists m', dev_assign junk ord (S (S (S f))) nb 0 1 (View rb ro [n; k] [rs; rt]) (View b o [n; k] [s; t]) m = Ok m' /\
    (forall ix, in_range ix [n; k] -> elem m' (View rb ro [n; k] [rs; rt]) ix = elem m (View b o [n; k] [s; t]) ix) /\
    (forall b' a, b' <> nb -> b' <> nb + 1 -> (forall ix, in_range ix [n; k] -> vaddr (View rb ro [n; k] [rs; rt]) ix <> Ok (b', a)) -> m' b' a = m b' a).
Proof. intros Ho. now apply assign_gap. Qed.
Print Assumptions C184_gaps_partial.
(* Assigning on the host, for all ranks and strides *)
Theorem C184_host {V} (junk : V) ord f nb r x (m : mem V) : plain_layout r -> vwf x -> vdims x = vdims r -> distinct_cells r -> readable m r -> readable m x -> no_clobber r x ->
  exists m', dev_assign junk ord (S f) nb 0 0 r x m = Ok m' /\ (forall ix, in_range ix (vdims r) -> elem m' r ix = elem m x ix) /\ untouched m m' r.
Proof. rewrite assign_host. apply assign_ok. Qed.
Print Assumptions C184_host.
(* Moving a tensor to the device it is on changes nothing *)
Theorem C184_stay {V} (junk : V) ord f nb d x (m : mem V) : dev_move junk ord f nb d d x m = Ok (x, m).
Proof. unfold dev_move. now rewrite Z.eqb_refl. Qed.
Print Assumptions C184_stay.

(* Refuted from the host to the device: matrices which are not row-major, and vectors with a stride other than 1, are never copied: for every depth of the stack
   the call exhausts it *)
Theorem C184_to_device_refuted {V} (junk : V) ord fuel nb n k b o s t (m : mem V) : 1 <= n -> 1 < k < 2147483647 -> ~ (s = k /\ t = 1) ->
  dev_copy junk ord fuel nb 1 0 (View b o [n; k] [s; t]) m = UB /\ dev_move junk ord fuel nb 1 0 (View b o [n; k] [s; t]) m = UB.
Proof. intros Hn Hk H. unfold dev_move. change (1 =? 0) with false. now rewrite copy_forever. Qed.
Print Assumptions C184_to_device_refuted.
Theorem C184_vector_refuted {V} (junk : V) ord fuel nb n b o s (m : mem V) : 1 <= n -> s <> 1 -> dev_copy junk ord fuel nb 1 0 (View b o [n] [s]) m = UB.
Proof. apply copy_forever1. Qed.
Print Assumptions C184_vector_refuted.

(* Refuted for move_to_device(0) of column-major matrices: the new array is row-major and is read as column-major, so elements change places *)
Theorem C184_move_refuted {V} (junk : V) ord f nb n k b o (m : mem V) : (forall l, Permutation (ord l) l) ->
  1 < n -> 1 < k < 2147483647 -> cu_fits [n; k] -> b <> nb -> b <> nb + 1 -> readable m (View b o [n; k] [1; n]) ->
  exists y m', dev_move junk ord (S (S f)) nb 0 1 (View b o [n; k] [1; n]) m = Ok (y, m') /\ vdims y = [n; k] /\
    forall i j, 0 <= i < n -> 0 <= j < k -> elem m' y [i; j] = elem m (View b o [n; k] [1; n]) [(i + n * j) / k; (i + n * j) mod k].
Proof. intros Ho. now apply move_columns. Qed.
Print Assumptions C184_move_refuted.

(* concrete cases: a 2 x 3 matrix at offset 1 of block 7 *)
Definition da_m : mem Z := fun b a => if (b =? 7) && (0 <=? a) && (a <? 40) then Some a else None.
Definition da_v s t := View 7 1 [2; 3] [s; t].
Lemma da_readable s t : 0 <= s <= 6 -> 0 <= t <= 6 -> readable da_m (da_v s t).
Proof.
  intros S T ix I. cbn [vdims da_v] in I. rng. unfold da_v. rewrite elem2. unfold da_m. rewrite Z.eqb_refl. cbn [andb].
  replace (0 <=? 1 + (s * i + t * i0)) with true by nia. replace (1 + (s * i + t * i0) <? 40) with true by nia. discriminate.
Qed.
Example C184_case_hyps : vwf (da_v 3 1) /\ readable da_m (da_v 3 1) /\ vdims (da_v 3 1) <> [] /\ vstr (da_v 3 1) = strides_of 1 (vdims (da_v 3 1)) /\
  Forall (fun s => s < 2147483647) (vstr (da_v 3 1)) /\ (forall a, da_m 8 a = None) /\ cu_fits [2; 3] /\ cu_fits [3 * 2] /\ readable da_m (da_v 1 2) /\ readable da_m (da_v 6 2) /\
  (forall l, Permutation (@rev (addr * list addr) l) l).
Proof.
  split; [split; [reflexivity|repeat constructor; lia]|]. split; [apply da_readable; lia|]. split; [discriminate|]. split; [reflexivity|]. split; [repeat constructor; lia|]. split; [reflexivity|].
  split; [cbn; lia|]. split; [cbn; lia|]. split; [apply da_readable; lia|]. split; [apply da_readable; lia|]. intro l. symmetry. apply Permutation_rev.
Qed.
Definition da_show (q : res (view * mem Z)) := match q with Ok (v, m) => map (elem m v) [[0; 0]; [0; 1]; [0; 2]; [1; 0]; [1; 1]; [1; 2]] | _ => [] end.
Example C184_case_rows : da_show (dev_copy (-1) (@rev _) 1 8 1 0 (da_v 3 1) da_m) = map Some [1; 2; 3; 4; 5; 6].
Proof. vm_compute. reflexivity. Qed.
Example C184_case_columns : da_show (dev_copy (-1) (@rev _) 2 8 0 1 (da_v 1 2) da_m) = map Some [1; 3; 5; 2; 4; 6].
Proof. vm_compute. reflexivity. Qed.
Example C184_case_steps : da_show (dev_copy (-1) (@rev _) 2 8 0 1 (da_v 6 2) da_m) = map Some [1; 3; 5; 7; 9; 11].
Proof. vm_compute. reflexivity. Qed.
Example C184_case_moved : da_show (Ok (da_v 1 2, da_m)) = map Some [1; 3; 5; 2; 4; 6] /\ da_show (dev_move (-1) (@rev _) 2 8 0 1 (da_v 1 2) da_m) = map Some [1; 5; 4; 3; 2; 6].
Proof. split; vm_compute; reflexivity. Qed.
(* a 2 x 3 block of a matrix with 8 columns on the host *)
Definition da_m2 : mem Z := fun b a => if (b =? 6) && (0 <=? a) && (a <? 20) then Some (-1) else da_m b a.
Example C184_case_gaps : (forall a, da_m2 8 a = None) /\ readable da_m2 (da_v 1 2) /\ readable da_m2 (View 6 2 [2; 3] [8; 1]) /\
  match dev_assign 0 (@rev _) 3 8 0 1 (View 6 2 [2; 3] [8; 1]) (da_v 1 2) da_m2 with
  | Ok m' => map (elem m' (View 6 2 [2; 3] [8; 1])) [[0; 0]; [0; 1]; [0; 2]; [1; 0]; [1; 1]; [1; 2]] = map Some [1; 3; 5; 2; 4; 6] /\ m' 6 5 = Some (-1)
  | _ => False end.
Proof.
  split; [reflexivity|]. split; [intros ix I; cbn [vdims da_v] in I; rng; unfold da_v; rewrite elem2; unfold da_m2, da_m; rewrite Z.eqb_refl; change (7 =? 6) with false; cbn [andb];
    replace (0 <=? 1 + (1 * i + 2 * i0)) with true by lia; replace (1 + (1 * i + 2 * i0) <? 40) with true by lia; discriminate|].
  split; [intros ix I; cbn [vdims] in I; rng; rewrite elem2; unfold da_m2; rewrite Z.eqb_refl; cbn [andb]; replace (0 <=? 2 + (8 * i + 1 * i0)) with true by lia; replace (2 + (8 * i + 1 * i0) <? 20) with true by lia; discriminate|].
  vm_compute. split; reflexivity.
Qed.
Example C184_case_host : match dev_assign 0 (@rev _) 1 8 0 0 (View 6 2 [2; 3] [8; 1]) (View 7 1 [2; 3] [8; 1]) da_m2 with
  | Ok m' => map (elem m' (View 6 2 [2; 3] [8; 1])) [[0; 0]; [0; 1]; [0; 2]; [1; 0]; [1; 1]; [1; 2]] = map Some [1; 2; 3; 9; 10; 11] /\ m' 6 5 = Some (-1)
  | _ => False end.
Proof. vm_compute. split; reflexivity. Qed.
