(* Proofs_Mask.v -- masks and aggregation. *)
From Coq Require Import Sorted.
From Verif Require Import Base BaseFacts Model_Index Model_View Model_Tensor Model_Ops Model_RView Model_CView Model_Mask Spec_Index Spec_View Spec_Tensor Spec_RView Spec_CView
  Proofs_Axes Proofs_Index Proofs_View Proofs_Tensor Proofs_Tensor2 Proofs_Tensor3 Proofs_Convolve2 Proofs_Ops2 Proofs_Ops3 Proofs_RView Proofs_RView2 Proofs_RView3 Proofs_RView4 Proofs_RView5 Proofs_RView6 Proofs_CView Proofs_CView2 Proofs_CView3 Proofs_CView4.
From Verif Require Import Spec_RView Spec_Mask.
Local Open Scope Z_scope.

Section Mask.
Context {R : cring}.
Add Ring RrMask : (cth R).
Notation memR := (mem (car R)).
Notation C := (CxRing R).
Add Ring RcMask : (cth C).
Implicit Types (q : rmask (R := R)) (l : mlists (R := R)) (t : Z * Z * R) (r x : view) (m : memR).


Lemma lpush_triples i e l : Permutation (ltriples (lpush i e l)) ((i, fst e, snd e) :: ltriples l).
Proof.
  induction l as [|[k es] l IH]; [reflexivity|]. cbn [lpush]. destruct (i <? k); [reflexivity|]. destruct (i =? k) eqn:E.
  - apply Z.eqb_eq in E. subst. unfold ltriples. cbn [flat_map fst snd]. rewrite map_app. cbn [map]. rewrite <- app_assoc. cbn [app]. symmetry. apply Permutation_middle.
  - unfold ltriples in *. cbn [flat_map fst snd]. rewrite IH. symmetry. apply Permutation_middle.
Qed.
Lemma lpush_keys i e l k : In k (keys (lpush i e l)) -> k = i \/ In k (keys l).
Proof.
  induction l as [|[k' es] l IH]; cbn [lpush keys map]; [cbn; intuition|]. destruct (i <? k'); [cbn; intuition|]. destruct (i =? k'); cbn [map fst In]; [intuition|]. intros [H|H]; [tauto|]. apply IH in H. tauto.
Qed.
Lemma lpush_sorted i e l : StronglySorted Z.lt (keys l) -> StronglySorted Z.lt (keys (lpush i e l)).
Proof.
  induction l as [|[k es] l IH]; intro S; [repeat constructor|]. cbn [lpush]. unfold keys in *. cbn [map fst] in S. inversion S as [|? ? S' F]; subst. destruct (i <? k) eqn:E1.
  - cbn [map fst]. constructor; [exact S|]. constructor; [lia|]. revert F. apply Forall_impl. intros; lia.
  - destruct (i =? k) eqn:E2; cbn [map fst]; [exact S|]. constructor; [now apply IH|]. apply Forall_forall. intros j Hj. apply (lpush_keys i e l) in Hj as [->|Hj]; [lia|]. rewrite Forall_forall in F. now apply F.
Qed.
Lemma row_cons p l i : row (p :: l) i = (if fst p =? i then snd p else []) ++ row l i.
Proof. reflexivity. Qed.
Lemma row_above l i : Forall (Z.lt i) (keys l) -> row l i = [].
Proof. induction l as [|[k es] l IH]; intro F; [reflexivity|]. unfold row in *. cbn [flat_map fst snd keys map] in *. inversion F; subst. replace (k =? i) with false by lia. now apply IH. Qed.
Lemma lpush_row i e l k : StronglySorted Z.lt (keys l) -> row (lpush i e l) k = if k =? i then row l i ++ [e] else row l k.
Proof.
  induction l as [|[k' es] l IH]; intro S.
  - unfold row. cbn. rewrite (Z.eqb_sym i k). destruct (k =? i); reflexivity.
  - cbn [lpush]. unfold keys in S. cbn [map fst] in S. inversion S as [|? ? S' F]; subst. destruct (i <? k') eqn:E1.
    + rewrite (row_cons (i, [e])). cbn [fst snd]. rewrite (Z.eqb_sym i k). destruct (k =? i) eqn:E; [|reflexivity]. apply Z.eqb_eq in E. subst. rewrite row_above; [reflexivity|]. constructor; [cbn; lia|]. revert F. apply Forall_impl. intros; lia.
    + destruct (i =? k') eqn:E2.
      * apply Z.eqb_eq in E2. subst k'. unfold row. cbn [flat_map fst snd]. rewrite Z.eqb_refl. rewrite (Z.eqb_sym i k). destruct (k =? i) eqn:E; [|reflexivity]. apply Z.eqb_eq in E. subst.
        fold (row l i). rewrite row_above by exact F. now rewrite !app_nil_r.
      * unfold row in *. cbn [flat_map fst snd]. rewrite IH by assumption. destruct (k =? i) eqn:E; [|reflexivity]. apply Z.eqb_eq in E. subst. replace (k' =? i) with false by lia. reflexivity.
Qed.

(* the inverse pushes the exchanged entries *)
Definition pushes (ts : list (Z * Z * R)) q : rmask := fold_left (fun q t => rm_push (fst (fst t)) (snd (fst t)) (snd t) q) ts q.
Lemma make_inverse_pushes q : rm_make_inverse q = pushes (map swap (triples q)) rm_new.
Proof.
  unfold rm_make_inverse, triples, ltriples, pushes. generalize (rm_new (R := R)). induction (rm_lists q) as [|[k es] l IH]; intro a; [reflexivity|]. cbn [fold_left flat_map fst snd]. rewrite map_app, fold_left_app, map_map.
  rewrite <- IH. f_equal. clear IH. revert a. induction es as [|e es IHe]; intro a; [reflexivity|]. cbn [fold_left map swap fst snd]. apply IHe.
Qed.
Lemma pushes_triples ts q : Permutation (triples (pushes ts q)) (triples q ++ ts).
Proof.
  revert q. induction ts as [|[[i j] v] ts IH]; intro q; [cbn; now rewrite app_nil_r|]. cbn [pushes fold_left fst snd]. etransitivity; [apply IH|]. unfold triples. cbn [rm_lists rm_push]. rewrite lpush_triples. cbn [fst snd app].
  apply Permutation_middle.
Qed.
Lemma pushes_sorted ts q : StronglySorted Z.lt (keys (rm_lists q)) -> StronglySorted Z.lt (keys (rm_lists (pushes ts q))).
Proof. revert q. induction ts as [|t ts IH]; intros q S; [exact S|]. cbn [pushes fold_left]. apply IH. cbn [rm_lists rm_push]. now apply lpush_sorted. Qed.
Lemma make_inverse_ok q : Permutation (triples (rm_make_inverse q)) (map swap (triples q)).
Proof. rewrite make_inverse_pushes, pushes_triples. reflexivity. Qed.
Lemma make_inverse_sorted q : StronglySorted Z.lt (keys (rm_lists (rm_make_inverse q))).
Proof. rewrite make_inverse_pushes. apply pushes_sorted. constructor. Qed.

(* the mask of a matrix *)
Lemma matrix_ok isz M m n k : vwf M -> readable m M -> vdims M = [n; k] -> 
  rm_matrix isz M m = Ok (pushes (nonzeros isz (fun i j => elem0 m M [i; j]) n k) rm_new).
Proof.
  intros W Rd D. unfold nonzeros. unfold rm_matrix, nd. rewrite D. cbn [nth]. unfold forZ. generalize (rm_new (R := R)).
  assert (Hn : forall i, In i (zrange n) -> 0 <= i < n) by (intro; apply in_zrange). revert Hn. induction (zrange n) as [|i ns IH]; intros Hn a; [reflexivity|]. cbn [foldM flat_map]. rewrite filter_app. unfold pushes. rewrite fold_left_app.
  assert (G : forall js b, (forall j, In j js -> 0 <= j < k) -> foldM (fun j q => do v <- get_at M [i; j] m; Ok (if isz v then q else rm_push i j v q)) js b =
    Ok (fold_left (fun q t => rm_push (fst (fst t)) (snd (fst t)) (snd t) q) (filter (fun t => negb (isz (snd t))) (map (fun j => (i, j, elem0 m M [i; j])) js)) b)).
  { induction js as [|j js IHj]; intros b Hj; [reflexivity|]. cbn [foldM map filter snd]. rewrite get_at_ok; try assumption; [|rewrite D; repeat constructor; [apply Hn; now left|apply Hn; now left|apply Hj; now left|apply Hj; now left]].
    cbn [bind]. rewrite IHj by (intros; apply Hj; now right). destruct (isz _); reflexivity. }
  rewrite G by (intro; apply in_zrange). cbn [bind]. apply IH. intros; apply Hn. now right.
Qed.

(* ---- aggregation *)
Definition wsum m x (ts : list (Z * Z * R)) (ix : list Z) : C :=
  rsum (map (fun t => if fst (fst t) =? nth 0 ix 0 then cmul (celem m x [snd (fst t); nth 1 ix 0]) (of_real (snd t)) else c0) ts).
Lemma agg2_fold q r x m : agg2 q r x m = foldM (fun t m => cv1_addc (cv2_slice0 r (fst (fst t))) (cv2_slice0 x (snd (fst t))) (of_real (snd t)) m) (triples q) m.
Proof. unfold agg2, triples, ltriples. rewrite foldM_flat_map. apply foldM_ext. intros p s _. now rewrite foldM_map. Qed.
Lemma agg_step r x m m1 g n nx c i j w : cshape r [n; c] -> cshape x [nx; c] -> operands r [x] m -> 0 <= i < n -> 0 <= j < nx -> cgains r [n; c] g m m1 ->
  exists m2, cv1_addc (cv2_slice0 r i) (cv2_slice0 x j) (of_real w) m1 = Ok m2 /\
    cgains r [n; c] (fun ix => cadd (g ix) (if i =? nth 0 ix 0 then cmul (celem m x [j; nth 1 ix 0]) (of_real w) else c0)) m m2.
Proof.
  intros Sr Sx (Wr & Hd & Rr & F) Hi Hj (A & B & U). inversion F as [|? ? (Wx & Rx & Bx) _]; subst.
  destruct (proj1 (cslices2 r n c Sr) i Hi) as [Ss Sh]. destruct (proj1 (cslices2 x nx c Sx) j Hj) as [Sxs Shx]. set (s := cv2_slice0 r i) in *. set (xs := cv2_slice0 x j) in *.
  assert (Dj : disjoint_views s xs) by (eapply shows_disjoint_l; [exact Sh|]; eapply shows_disjoint_r; eassumption).
  assert (Zp : zipable s xs m1).
  { split; [apply Ss|]. split; [apply Sxs|]. split; [now rewrite (proj2 Sxs), (proj2 Ss)|]. split; [|split; [|split]].
    - eapply shows_distinct; [exact Sh| |assumption]. intros ix jx _ _ E. congruence.
    - eapply shows_readable; [exact Sh|exact A].
    - eapply shows_readable; [exact Shx|]. eapply keep_readable; eassumption.
    - intros ix jx I J E. exfalso. now apply (Dj ix jx I J). }
  destruct (proj1 (proj2 (cv1_ok s xs m1 c (of_real w) Zp Ss))) as (m2 & E & A2 & B2 & U2). exists m2. split; [exact E|].
  assert (Other : forall ix, in_range ix (vdims r) -> nth 0 ix 0 <> i -> elem m2 r ix = elem m1 r ix).
  { intros ix Hix Ne. unfold elem. destruct (vaddr r ix) as [[b a]| |] eqn:Ea; try reflexivity. apply U2. intros jx Hjx Ej. destruct (Sh jx Hjx) as [I1 E1]. rewrite E1 in Ej.
    assert (i :: jx = ix) by (apply Hd; congruence). subst ix. now apply Ne. }
  split; [|split].
  - intros ix Hix. destruct (Z.eq_dec (nth 0 ix 0) i) as [E0|E0]; [|rewrite Other by assumption; now apply A].
    pose proof Hix as H'. rewrite (proj2 Sr) in H'. inversion H' as [|a ? jx ? Ha Hjx]; subst. cbn [nth] in *.
    assert (I : in_range jx (vdims s)) by (rewrite (proj2 Ss); exact Hjx). destruct (Sh jx I) as [_ E1]. unfold elem. rewrite <- E1. exact (A2 jx I).
  - intros ix Hix. pose proof Hix as Hix0. apply in_range_2_inv in Hix as (a & k & -> & Ha & Hk). cbn [nth].
    destruct (i =? a) eqn:Ea.
    + apply Z.eqb_eq in Ea. subst a. assert (E1 : forall m0, celem m0 s [k] = celem m0 r [i; k]) by (intro m0; apply (celem_shows m0 s r _ [c] [k] [i; k] Ss Sh); [repeat constructor; lia|reflexivity]).
      assert (E2 : celem m1 xs [k] = celem m x [j; k]).
      { rewrite (celem_shows m1 xs x _ [c] [k] [j; k] Sxs Shx) by (try reflexivity; repeat constructor; lia). unfold celem. f_equal; apply (keep_elem0 r x m m1); try assumption; rewrite (proj2 Sx); apply (in_range_snoc [j; k] _ [nx; c]); (lia || (apply in_range_2; assumption)). }
      rewrite <- E1, B2 by (repeat constructor; lia). rewrite E1, E2, B by assumption. cbn [nth]. ring.
    + transitivity (celem m1 r [a; k]); [|rewrite B by assumption; ring].
      unfold celem, elem0. f_equal; (rewrite Other; [reflexivity|rewrite (proj2 Sr); apply (in_range_snoc [a; k] _ [n; c]); (assumption || lia)|cbn [app nth]; lia]).
  - intros b a H. rewrite (U2 b a); [now apply U|]. intros jx Hjx E1. destruct (Sh jx Hjx) as [I E2]. apply (H (i :: jx) I). congruence.
Qed.
Lemma agg2_ok q r x m n nx c : cshape r [n; c] -> cshape x [nx; c] -> operands r [x] m ->
  Forall (fun t => 0 <= fst (fst t) < n /\ 0 <= snd (fst t) < nx) (triples q) ->
  exists m', agg2 q r x m = Ok m' /\ cgains r [n; c] (wsum m x (triples q)) m m'.
Proof.
  intros Sr Sx Op F. rewrite agg2_fold. pose proof Op as (_ & _ & Rr & _).
  assert (G : forall ts g m1, Forall (fun t => 0 <= fst (fst t) < n /\ 0 <= snd (fst t) < nx) ts -> cgains r [n; c] g m m1 ->
    exists m', foldM (fun t m => cv1_addc (cv2_slice0 r (fst (fst t))) (cv2_slice0 x (snd (fst t))) (of_real (snd t)) m) ts m1 = Ok m' /\ cgains r [n; c] (fun ix => cadd (g ix) (wsum m x ts ix)) m m').
  { induction ts as [|[[i j] w] ts IH]; intros g m1 Ft Hg.
    - exists m1. split; [reflexivity|]. revert Hg. apply cgains_ext. intros ix _. unfold wsum. cbn [map]. rewrite rsum_nil. ring.
    - inversion Ft as [|? ? [Hi Hj] Ft']; subst. cbn [fst snd] in Hi, Hj. destruct (agg_step r x m m1 g n nx c i j w) as (m2 & E & H2); try assumption.
      destruct (IH _ m2 Ft' H2) as (m3 & E3 & H3). exists m3. split; [cbn [foldM fst snd]; rewrite E; exact E3|]. revert H3. apply cgains_ext. intros ix _. unfold wsum. cbn [map fst snd]. rewrite rsum_cons. ring. }
  destruct (G (triples q) (fun _ => c0) m F) as (m' & E & H).
  - split; [exact Rr|]. split; [intros; ring|apply untouched_same].
  - exists m'. split; [exact E|]. revert H. apply cgains_ext. intros ix _. ring.
Qed.
End Mask.
