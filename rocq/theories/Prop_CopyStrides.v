(* Prop_CopyStrides.v -- C197: copying a tensor together with its strides. *)
From Verif Require Import Base BaseFacts Model_Index Model_View Model_Tensor Model_CopyStrides Spec_Index Spec_View Spec_Tensor Proofs_Index Proofs_View Proofs_Tensor Proofs_Tensor2 Proofs_CopyStrides Checks.
Local Open Scope Z_scope.

(* the array of the copy has as many cells as the largest product of a side with its stride; the copy is right for layouts whose elements fit in it *)
Theorem C197_copy_partial {V} (junk : V) b x (m : mem V) : plain_layout x -> distinct_cells x -> readable m x -> (forall a, m b a = None) ->
  (vdims x = [] \/ forall ix, in_range ix (vdims x) -> exists k, (k < length (vdims x))%nat /\ dot (vstr x) ix < nth k (vstr x) 0 * nth k (vdims x) 0) ->
  exists r m', copy_keeping_strides junk b x m = Ok (r, m') /\ vdims r = vdims x /\ vstr r = vstr x /\
    (forall ix, in_range ix (vdims x) -> elem m' r ix = elem m x ix) /\ disjoint_views r x /\ distinct_cells r /\ (forall b' a, b' <> b -> m' b' a = m b' a).
Proof. intros P D Rx Hb H. destruct (room_fits (vstr x) (vdims x)) as (n & M & F); [apply P|exact H|]. now apply (copy_strides_ok junk b x m n). Qed.
Print Assumptions C197_copy_partial.
(* they fit when the axes, in some order, are nested: walking an axis once stays within one step of the axis before it.  So it is for tensors stored row by row,
   their permutations, and the slices and blocks of these *)
Theorem C197_copy_nested_partial {V} (junk : V) b x (m : mem V) l : plain_layout x -> distinct_cells x -> readable m x -> (forall a, m b a = None) -> Permutation (combine (vstr x) (vdims x)) l -> nested l ->
  exists r m', copy_keeping_strides junk b x m = Ok (r, m') /\ vdims r = vdims x /\ vstr r = vstr x /\
    (forall ix, in_range ix (vdims x) -> elem m' r ix = elem m x ix) /\ disjoint_views r x /\ distinct_cells r /\ (forall b' a, b' <> b -> m' b' a = m b' a).
Proof.
  intros P D Rx Hb Pl N. destruct (nested_room (vstr x) (vdims x) l) as (n & M & F); [apply P| |exact Pl|exact N|now apply (copy_strides_ok junk b x m n)].
  destruct P as (_ & _ & S & _). eapply Forall_impl; [|exact S]. cbn. lia.
Qed.
Print Assumptions C197_copy_nested_partial.
(* Refuted in general: the elements (i,j) at 2i+3j, i<3, j<2, are distinct, and the last one is at 7, but the array of the copy has 6 cells *)
Theorem C197_copy_refuted : exists (x : view) (m : mem Z) b, plain_layout x /\ distinct_cells x /\ readable m x /\ (forall a, m b a = None) /\ copy_keeping_strides 0 b x m = UB.
Proof.
  exists (View 0 0 [3; 2] [2; 3]), (fun b a => if (b =? 0) && (0 <=? a) && (a <? 8) then Some a else None), 1. split; [|split; [by_check|split; [by_check|split; [reflexivity|vm_compute; reflexivity]]]].
  split; [reflexivity|]. split; [repeat constructor; lia|]. split; [repeat constructor; lia|]. right. constructor. lia.
Qed.
Print Assumptions C197_copy_refuted.
(* a new tensor of given sides and strides: all its elements exist under the same condition; no other memory changes *)
Theorem C197_new_partial {V} (junk : V) b dims s (m : mem V) : length s = length dims -> Forall (fun a => 0 <= a) s ->
  (dims = [] \/ forall ix, in_range ix dims -> exists k, (k < length dims)%nat /\ dot s ix < nth k s 0 * nth k dims 0) ->
  exists r m', new_strided junk b dims s m = Ok (r, m') /\ vdims r = dims /\ vstr r = s /\ readable m' r /\ (forall b' a, b' <> b -> m' b' a = m b' a).
Proof.
  intros L N H. destruct (room_fits s dims L H) as (n & M & F). unfold new_strided. rewrite M. cbn [bind]. eexists _, _. split; [reflexivity|]. split; [reflexivity|]. split; [reflexivity|]. split.
  - intros ix I. cbn [vdims] in I. destruct (strided_inside b dims s L N ix I) as (a & Ea & H0 & ->). unfold elem. rewrite Ea. rewrite alloc_in; [discriminate|]. specialize (F ix I). lia.
  - intros b' a Hne. now rewrite alloc_other.
Qed.
Print Assumptions C197_new_partial.
Theorem C197_new_refuted : exists r (m : mem Z), new_strided 0 1 [3; 2] [2; 3] (fun _ _ => None) = Ok (r, m) /\ in_range [2; 1] (vdims r) /\ elem m r [2; 1] = None.
Proof. eexists _, _. split; [reflexivity|]. split; [repeat constructor; lia|reflexivity]. Qed.
Print Assumptions C197_new_refuted.
(* strides and sides of different number are rejected *)
Theorem C197_new_rejects {V} (junk : V) b dims s m : length s <> length dims -> new_strided junk b dims s m = Throw.
Proof. intro H. unfold new_strided, memsize. destruct (Nat.eqb_spec (length s) (length dims)); [contradiction|reflexivity]. Qed.
Print Assumptions C197_new_rejects.

(* ---- the hypotheses can be met ---- *)
(* a column-major block with a gap between its columns, in an array of 40 cells *)
Definition cs_mem : mem Z := fun b a => if (b =? 0) && (0 <=? a) && (a <? 40) then Some (3 * a) else None.
Definition cs_x : view := View 0 5 [2; 3; 2] [2; 4; 15].
Example C197_case : plain_layout cs_x /\ distinct_cells cs_x /\ readable cs_mem cs_x /\ (forall a, cs_mem 1 a = None) /\ Permutation (combine (vstr cs_x) (vdims cs_x)) [(15, 2); (4, 3); (2, 2)] /\ nested [(15, 2); (4, 3); (2, 2)] /\
  match copy_keeping_strides 0 1 cs_x cs_mem with Ok (r, m') => elem m' r [1; 2; 1] = Some (3 * (5 + 2 + 8 + 15)) /\ m' 1 1 = Some 0 /\ m' 1 30 = None | _ => False end.
Proof.
  split; [split; [reflexivity|split; [repeat constructor; cbn; lia|split; [repeat constructor; cbn; lia|right; constructor; cbn; lia]]]|]. split; [by_check|]. split; [by_check|]. split; [reflexivity|]. split; [|split; [cbn; lia|vm_compute; repeat split; reflexivity]].
  cbn [combine vstr vdims cs_x]. apply (Permutation_rev [(2, 2); (4, 3); (15, 2)]).
Qed.
Example C197_case_room : forall ix, in_range ix (vdims cs_x) -> exists k, (k < length (vdims cs_x))%nat /\ dot (vstr cs_x) ix < nth k (vstr cs_x) 0 * nth k (vdims cs_x) 0.
Proof.
  intros ix I. exists 2%nat. split; [cbn; lia|]. pose proof (dot_reach (vstr cs_x) (vdims cs_x) ix ltac:(repeat constructor; lia) I) as [_ H]. revert H. change (reach (vstr cs_x) (vdims cs_x)) with 25. change (nth 2 (vstr cs_x) 0 * nth 2 (vdims cs_x) 0) with 30. lia.
Qed.
Example C197_case_empty : match copy_keeping_strides 0 1 (View 0 5 [2; 0] [2; 4]) cs_mem with Ok (r, m') => vdims r = [2; 0] /\ m' 1 0 = None | _ => False end.
Proof. vm_compute. split; reflexivity. Qed.
Example C197_case_rejects : length [1; 2] <> length [3]. Proof. discriminate. Qed.
