(* Prop_BlockMul.v -- C165, C166: products of block sparse matrices, and the tables made from their offsets. *)
From Coq Require Import ZArith List Bool Lia Permutation Sorting.Sorted.
Import ListNotations.
From Verif Require Import Base BaseFacts Map Model_Containers Proofs_Containers Proofs_Containers2 Proofs_Containers4 Model_Index Model_View Model_Tensor
  Spec_Index Spec_View Spec_Tensor Model_Ops Model_Gather Spec_Gather Proofs_Gather Model_Block Spec_Block Spec_BlockMul Model_BlockMul
  Proofs_Block Proofs_BlockMul Proofs_BlockMul2 Proofs_BlockMul3 Proofs_BlockMul4 Checks.
Local Open Scope Z_scope.

(* ---- C165.  pentry A B m I K is entry (I,K) of the product of the two matrices; un, um, ubn, ubm are the values the
   members nblocks, mblocks, blockn, blockm of the new matrix happen to have. ---- *)
Section C165.
Context {R : cring}.
Notation memR := (mem (car R)).
(* when those members happen to be large enough: the product has a block exactly where some block of A meets one of B, the
   blocks hold the entries of the product, the product is zero elsewhere, and nothing but the new tensor is written *)
Theorem C165_product un um ubn ubm b A B ma mb (m : memR) : made_from A ma -> made_from B mb -> bbm A = bbn B -> readable m (bmx A) -> readable m (bmx B) ->
  vblk (bmx A) <> b -> vblk (bmx B) <> b -> (forall i j k, In (i, j) ma -> In (j, k) mb -> i < un /\ k < um) ->
  exists D m', bc_mul un um ubn ubm b A B m = Ok (D, m') /\ (forall b' a, b' <> b -> m' b' a = m b' a) /\
    (forall i k, bc_is_filled D i k = true <-> exists j, In (i, j) ma /\ In (j, k) mb) /\
    (forall i k, bc_is_filled D i k = true -> exists v, bc_block D i k = Ok v /\ vdims v = [bbn A; bbm B] /\
       forall a c, 0 <= a < bbn A -> 0 <= c < bbm B -> elem m' v [a; c] = Some (pentry A B m (i * bbn A + a) (k * bbm B + c))) /\
    (forall i k a c, bc_is_filled D i k = false -> 0 <= a < bbn A -> 0 <= c < bbm B -> pentry A B m (i * bbn A + a) (k * bbm B + c) = c0).
Proof. apply mul_ok. Qed.
(* when they are not, the call throws instead *)
Theorem C165_uninitialised_refuted un um ubn ubm b A B ma mb (m : memR) i j k : made_from A ma -> made_from B mb -> bbm A = bbn B -> readable m (bmx A) -> readable m (bmx B) ->
  vblk (bmx A) <> b -> vblk (bmx B) <> b -> In (i, j) ma -> In (j, k) mb -> un <= i \/ um <= k -> bc_mul un um ubn ubm b A B m = Throw.
Proof. apply mul_small. Qed.
(* and the sizes the result reports are never those of the product *)
Theorem C165_sizes_refuted un um ubn ubm b A B (m : memR) D m' : bc_mul un um ubn ubm b A B m = Ok (D, m') -> bnb D = un /\ bmb D = um /\ bbn D = ubn /\ bbm D = ubm.
Proof.
  intro E. rewrite mul_shape in E. destruct (foldM _ _ _) as [m1| |]; try discriminate. cbn [bind] in E. injection E as <- _. repeat split.
Qed.
(* blocks that do not fit together are refused as soon as two of them meet *)
Theorem C165_sides un um ubn ubm b A B ma mb (m : memR) i j k : made_from A ma -> made_from B mb -> bbm A <> bbn B -> In (i, j) ma -> In (j, k) mb -> bc_mul un um ubn ubm b A B m = Throw.
Proof. apply mul_sides. Qed.
End C165.
Print Assumptions C165_product.
Print Assumptions C165_uninitialised_refuted.
Print Assumptions C165_sizes_refuted.
Print Assumptions C165_sides.
(* 2 by 2 blocks of sides 1 by 2 and 2 by 1: blocks (0,1), (1,0), (1,1) times blocks (1,0), (0,1) *)
Definition c165_A : bcm := bc_make 2 2 1 2 [(0, 1); (1, 0); (1, 1)] 0.
Definition c165_B : bcm := bc_make 2 2 2 1 [(1, 0); (0, 1)] 1.
Definition c165_m : mem (car ZRing) := fun b a => if (b =? 0) && (0 <=? a) && (a <? 6) then Some (a + 1) else if (b =? 1) && (0 <=? a) && (a <? 4) then Some (10 ^ a) else None.
Example C165_case : made_from c165_A [(0, 1); (1, 0); (1, 1)] /\ made_from c165_B [(1, 0); (0, 1)] /\ readable c165_m (bmx c165_A) /\ readable c165_m (bmx c165_B) /\
  match bc_mul (R := ZRing) 2 2 7 7 2 c165_A c165_B c165_m with
  | Ok (D, m') => map (fun p => bc_is_filled D (fst p) (snd p)) [(0, 0); (0, 1); (1, 0); (1, 1)] = [true; false; true; true] /\
      map (fun p => match bc_block D (fst p) (snd p) with Ok v => elem m' v [0; 0] | _ => None end) [(0, 0); (1, 0); (1, 1)] = [Some 21; Some 65; Some 4300]
  | _ => False end /\
  bc_mul (R := ZRing) 1 2 7 7 2 c165_A c165_B c165_m = Throw /\ bc_mul (R := ZRing) 2 2 7 7 2 c165_A c165_A c165_m = Throw.
Proof.
  split; [exists 2, 2, 1, 2, 0; split; [reflexivity|]; repeat split; try lia; repeat constructor; cbn; lia|].
  split; [exists 2, 2, 2, 1, 1; split; [reflexivity|]; repeat split; try lia; repeat constructor; cbn; lia|].
  split; [apply readable_check; vm_compute; reflexivity|]. split; [apply readable_check; vm_compute; reflexivity|].
  split; [vm_compute; auto|]. split; vm_compute; reflexivity.
Qed.

(* ---- C166.  tabulates rows pairs: rows lists the pairs by first component, everything in increasing order. ---- *)
Theorem C166_left A ma : made_from A ma -> exists g rows, bc_gatherL A = Ok g /\ shows (garr g) rows /\ tabulates rows ma /\ gout g = max_end 0 (map fst rows) /\ gin g = max_end 0 (flat_map snd rows).
Proof. intros (nb & mb & bn & bm & b0 & -> & _). unfold bc_gatherL. apply gather_table; [apply otab_wf|apply otab_wf|]. intros i j. apply otab_has. Qed.
Theorem C166_right A ma : made_from A ma -> exists g rows, bc_gatherR A = Ok g /\ shows (garr g) rows /\ tabulates rows (map (fun p => (snd p, fst p)) ma) /\ gout g = max_end 0 (map fst rows) /\ gin g = max_end 0 (flat_map snd rows).
Proof.
  intros (nb & mb & bn & bm & b0 & -> & _). unfold bc_gatherR. change (cmap (boffs (bc_make nb mb bn bm ma b0))) with (otabc ma). apply gather_table; [apply otabc_wf|apply otabc_nonempty|].
  intros j i. rewrite otabc_find, <- otab_has. rewrite in_map_iff. split; [intros ([x y] & [= <- <-] & H); exact H|]. intro H. exists (i, j). auto.
Qed.
Theorem C166_row_offsets A ma : made_from A ma -> exists offs rows, bc_row_offsets A = Ok offs /\ tabulates rows ma /\ length offs = length rows /\
  forall n i j js, nth_error rows n = Some (i, j :: js) -> exists t, nth_error offs n = Some t /\ bc_offset A i j = Ok t.
Proof. apply row_offsets_ok. Qed.
Print Assumptions C166_left.
Print Assumptions C166_right.
Print Assumptions C166_row_offsets.
Example C166_case : made_from (bc_make 4 5 1 1 [(3, 2); (0, 4); (3, 0); (0, 1)] 0) [(3, 2); (0, 4); (3, 0); (0, 1)] /\
  bc_row_offsets (bc_make 4 5 1 1 [(3, 2); (0, 4); (3, 0); (0, 1)] 0) = Ok [3; 2] /\ tabulates [(0, [1; 4]); (3, [0; 2])] [(3, 2); (0, 4); (3, 0); (0, 1)] /\
  match bc_gatherR (bc_make 4 5 1 1 [(3, 2); (0, 4); (3, 0); (0, 1)] 0) with Ok g => gout g = 5 /\ gin g = 4 /\ map (fun i => hl_head (garr g) i) [0; 1; 2; 3] = [Ok 0; Ok 1; Ok 2; Ok 4] | _ => False end.
Proof.
  split; [exists 4, 5, 1, 1, 0; split; [reflexivity|]; repeat split; try lia; repeat constructor; cbn; lia|]. split; [vm_compute; reflexivity|]. split; [|vm_compute; auto].
  split; [cbn; repeat constructor; lia|]. split.
  - intros i js [[= <- <-]|[[= <- <-]|[]]]; (split; [discriminate|repeat constructor; lia]).
  - intros i j. cbn. split.
    + intros [[= <- <-]|[[= <- <-]|[[= <- <-]|[[= <- <-]|[]]]]]; eexists; (split; [auto|cbn; auto]).
    + intros (js & [[= <- <-]|[[= <- <-]|[]]] & [<-|[<-|[]]]); auto.
Qed.
