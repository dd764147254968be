(* Proofs_CView3.v -- other views of a complex view, and the operations that go through them. *)
From Verif Require Import Base BaseFacts Model_Index Model_View Model_Tensor Model_Ops Model_RView Model_CView Spec_Index Spec_View Spec_Tensor Spec_RView Spec_CView
  Proofs_Axes Proofs_Index Proofs_View Proofs_Tensor Proofs_Tensor2 Proofs_Tensor3 Proofs_Convolve2 Proofs_Ops2 Proofs_Ops3 Proofs_RView Proofs_RView2 Proofs_RView3 Proofs_RView4 Proofs_RView5 Proofs_RView6 Proofs_CView Proofs_CView2.
Local Open Scope Z_scope.

(* split v into its parts, with as many strides as sides *)
Ltac parts v S := let W := fresh "W" in let D := fresh "D" in let L := fresh "L" in let N := fresh "N" in
  destruct v as [vb vo vd vs]; destruct S as [W D]; cbn [vdims app] in D; subst vd; destruct W as [L N]; cbn [vdims vstr] in L, N;
  repeat (destruct vs as [|? vs]; try discriminate L); clear L; unfold nonneg in N;
  repeat match goal with H : Forall _ (_ :: _) |- _ => inversion H; subst; clear H end.
Ltac entries := unfold in_range in *; repeat match goal with H : Forall2 _ _ (_ :: _) |- _ => inversion H; subst; clear H | H : Forall2 _ _ [] |- _ => inversion H; subst; clear H end.
Ltac subview := unfold cshape, vwf, nonneg, nd, sd, coffs in *; cbn [vblk voff vdims vstr nth last app] in *;
  split; [split; [split; [reflexivity|repeat constructor; try lia; try nia]|reflexivity]|intros ix Hix; cbn [vblk voff vdims vstr nth last app] in *; entries; repeat match goal with H : 0 <= ?z < 1 |- _ => assert (z = 0) by lia; subst z; clear H end; cbn [nth tl]; split;
    [repeat constructor; try lia; try nia|unfold vaddr; cbn -[Z.mul Z.add Z.sub Z.div Z.modulo Z.opp]; do 2 f_equal; try lia; try nia]].
Ltac subview0 := unfold cshape, vwf, nonneg, nd, sd, coffs in *; cbn [vblk voff vdims vstr nth last app] in *;
  split; [split; [split; [reflexivity|repeat constructor; try lia; try nia]|reflexivity]|intros ix Hix; cbn [vblk voff vdims vstr nth last app] in *].
Ltac done_sub := split; [repeat constructor; try lia; try nia|unfold vaddr; cbn -[Z.mul Z.add Z.sub Z.div Z.modulo Z.opp]; do 2 f_equal; subst; try lia; try nia].
Ltac divs k n := assert (0 < n) by nia; pose proof (Z.div_mod k n ltac:(lia)); pose proof (Z.mod_pos_bound k n ltac:(lia)).

Section Sub.
Implicit Types v x : view.
Definition n_ (k : nat) (ix : list Z) : Z := nth k ix 0.

Lemma cslices2 v a b : cshape v [a; b] ->
  (forall i, 0 <= i < a -> cshape (cv2_slice0 v i) [b] /\ shows (cv2_slice0 v i) v (fun ix => i :: ix)) /\
  (forall j, 0 <= j < b -> cshape (cv2_slice1 v j) [a] /\ shows (cv2_slice1 v j) v (fun ix => nth 0 ix 0 :: j :: tl ix)) /\
  (cshape (cv2_transp v) [b; a] /\ shows (cv2_transp v) v (fun ix => [nth 1 ix 0; nth 0 ix 0; nth 2 ix 0])).
Proof.
  intro S. parts v S. split; [|split]; [intros i Hi|intros j Hj|].
  - unfold cv2_slice0. subview.
  - unfold cv2_slice1. subview.
  - unfold cv2_transp. subview.
Qed.
Lemma cv1_views x n : cshape x [n] ->
  (forall i j, 0 <= i -> 0 <= j -> i * j = n -> exists v, cv1_split0 x i j = Ok v /\ cshape v [i; j] /\ shows v x (fun ix => nth 0 ix 0 * j + nth 1 ix 0 :: tl (tl ix))) /\
  (forall i j, i * j <> n -> cv1_split0 x i j = Throw) /\
  (cshape (cv1_unsqueeze0 x) [1; n] /\ shows (cv1_unsqueeze0 x) x (fun ix => tl ix)) /\
  (cshape (cv1_unsqueeze1 x) [n; 1] /\ shows (cv1_unsqueeze1 x) x (fun ix => nth 0 ix 0 :: tl (tl ix))).
Proof.
  intro S. parts x S. split; [|split; [|split]]; [intros i j Hi Hj E|intros i j E| |].
  - unfold cv1_split0. cbn [nd nth vdims]. unfold nd. cbn [nth vdims]. rewrite E, Z.eqb_refl. cbn [assrt]. eexists. split; [reflexivity|]. subview.
  - unfold cv1_split0, nd. cbn [nth vdims]. rewrite (proj2 (Z.eqb_neq _ _) E). reflexivity.
  - unfold cv1_unsqueeze0. subview.
  - unfold cv1_unsqueeze1. subview.
Qed.
Lemma cslices3 v a b c : cshape v [a; b; c] ->
  (forall i, 0 <= i < a -> cshape (cv3_slice0 v i) [b; c] /\ shows (cv3_slice0 v i) v (fun ix => i :: ix)) /\
  (forall j, 0 <= j < b -> cshape (cv3_slice1 v j) [a; c] /\ shows (cv3_slice1 v j) v (fun ix => nth 0 ix 0 :: j :: tl ix)) /\
  (forall k, 0 <= k < c -> cshape (cv3_slice2 v k) [a; b] /\ shows (cv3_slice2 v k) v (fun ix => [nth 0 ix 0; nth 1 ix 0; k; nth 2 ix 0])) /\
  (cshape (cv3_flip v) [a; b; c] /\ shows (cv3_flip v) v (fun ix => [nth 0 ix 0; b - 1 - nth 1 ix 0; c - 1 - nth 2 ix 0; nth 3 ix 0])) /\
  (if coffs v =? 1 then exists w, cv3_as_real v = Ok w /\ vwf w /\ vdims w = vdims v /\ shows w v (fun ix => ix) else cv3_as_real v = Throw).
Proof.
  intro S. parts v S. split; [|split; [|split; [|split]]]; [intros i Hi|intros j Hj|intros k Hk| |].
  - unfold cv3_slice0. subview.
  - unfold cv3_slice1. subview.
  - unfold cv3_slice2. subview.
  - unfold cv3_flip. subview.
  - unfold cv3_as_real. unfold coffs. cbn [last vstr]. match goal with |- context [?z =? 1] => destruct (Z.eqb_spec z 1) end; cbn [assrt]; [|reflexivity]. eexists. split; [reflexivity|].
    unfold vwf, nonneg, nd, sd. cbn [vblk voff vdims vstr nth]. split; [split; [reflexivity|repeat constructor; lia]|]. split; [reflexivity|]. intros ix Hix. cbn [vdims] in Hix. split; [exact Hix|]. subst. reflexivity.
Qed.
Lemma fuse_at k a b : 0 <= a -> 0 <= b -> 0 <= k < a * b -> 0 <= k / b < a /\ 0 <= k mod b < b /\ k = b * (k / b) + k mod b.
Proof. intros Ha Hb Hk. assert (0 < b) by nia. split; [split; [apply Z.div_pos; lia|apply Z.div_lt_upper_bound; nia]|]. split; [apply Z.mod_pos_bound; lia|apply Z.div_mod; lia]. Qed.
Ltac fused k := let Q := fresh "Q" in match goal with H : 0 <= k < ?a * ?b |- _ => destruct (fuse_at k a b ltac:(lia) ltac:(lia) H) as (? & ? & Q); let q := fresh "q" in let t := fresh "t" in set (q := k / b) in *; set (t := k mod b) in *; clearbody q t end.
Lemma cfuse3 v a b c : cshape v [a; b; c] ->
  (sd v 0 = b * sd v 1 -> cshape (cv3_fuse01 v) [a * b; c] /\ shows (cv3_fuse01 v) v (fun ix => [nth 0 ix 0 / b; nth 0 ix 0 mod b; nth 1 ix 0; nth 2 ix 0])) /\
  (sd v 1 = c * sd v 2 -> cshape (cv3_fuse12 v) [a; b * c] /\ shows (cv3_fuse12 v) v (fun ix => [nth 0 ix 0; nth 1 ix 0 / c; nth 1 ix 0 mod c; nth 2 ix 0])).
Proof.
  intro S. parts v S. split; intro E; unfold sd in E; cbn [nth vstr] in E; subst.
  - unfold cv3_fuse01. subview0. entries. cbn [nth]. fused x. done_sub.
  - unfold cv3_fuse12. subview0. entries. cbn [nth]. fused x0. done_sub.
Qed.
Lemma cfuse4 v a b c d : cshape v [a; b; c; d] ->
  (sd v 0 = b * sd v 1 -> cshape (cv4_fuse01 v) [a * b; c; d] /\ shows (cv4_fuse01 v) v (fun ix => [nth 0 ix 0 / b; nth 0 ix 0 mod b; nth 1 ix 0; nth 2 ix 0; nth 3 ix 0])) /\
  (sd v 2 = d * sd v 3 -> cshape (cv4_fuse23 v) [a; b; c * d] /\ shows (cv4_fuse23 v) v (fun ix => [nth 0 ix 0; nth 1 ix 0; nth 2 ix 0 / d; nth 2 ix 0 mod d; nth 3 ix 0])) /\
  (forall i, 0 <= i < a -> cshape (cv4_slice0 v i) [b; c; d] /\ shows (cv4_slice0 v i) v (fun ix => i :: ix)).
Proof.
  intro S. parts v S. split; [|split]; [intro E|intro E|intros i Hi]; unfold sd in *; cbn [nth vstr] in *; subst.
  - unfold cv4_fuse01. subview0. entries. cbn [nth]. fused x. done_sub.
  - unfold cv4_fuse23. subview0. entries. cbn [nth]. fused x1. done_sub.
  - unfold cv4_slice0. subview.
Qed.
Lemma cunsqueeze2 x a b : cshape x [a; b] ->
  (cshape (cv2_unsqueeze0 x) [1; a; b] /\ shows (cv2_unsqueeze0 x) x (fun ix => tl ix)) /\
  (cshape (cv2_unsqueeze2 x) [a; b; 1] /\ shows (cv2_unsqueeze2 x) x (fun ix => [nth 0 ix 0; nth 1 ix 0; nth 3 ix 0])) /\
  (a <= 1 \/ sd x 0 = sd x 1 -> cshape (cv2_unsqueeze1 x) [a; 1; b] /\ shows (cv2_unsqueeze1 x) x (fun ix => [nth 0 ix 0; nth 2 ix 0; nth 3 ix 0])).
Proof.
  intro S. parts x S. split; [|split]; [| |intro E]; unfold sd in *; cbn [nth vstr] in *.
  - unfold cv2_unsqueeze0. subview.
  - unfold cv2_unsqueeze2. subview.
  - unfold cv2_unsqueeze1. subview. destruct E as [E| ->]; [assert (x = 0) by lia; subst x; lia|lia].
Qed.
Lemma csplit2 x a b c n : cshape x [a; b; c] -> 0 < n -> 0 < c -> (n | c) ->
  cshape (cv3_split2 x n) [a; b; c / n; n] /\ shows (cv3_split2 x n) x (fun ix => [nth 0 ix 0; nth 1 ix 0; nth 2 ix 0 * n + nth 3 ix 0; nth 4 ix 0]).
Proof.
  intros S Hn Hc [q ->]. parts x S. unfold cv3_split2. unfold nd. cbn [nth vdims]. assert (0 < q) by nia.
  replace (Z.quot (q * n - 1) n + 1) with q by (rewrite Z.quot_div_nonneg by lia; replace (q * n - 1) with ((q - 1) * n + (n - 1)) by ring; rewrite Z.div_add_l by lia; rewrite Z.div_small by lia; ring).
  rewrite Z.div_mul by lia. subview.
Qed.
End Sub.
