(* Prop_Mask.v -- C124-C126: sparse masks, aggregation by a mask, element accessors. *)
From Coq Require Import Sorted.
From Verif Require Import Base BaseFacts Model_Index Model_View Model_Tensor Model_Ops Model_RView Model_CView Model_Mask Spec_Index Spec_View Spec_Tensor Spec_RView Spec_CView
  Proofs_Axes Proofs_Index Proofs_View Proofs_Tensor Proofs_Tensor2 Proofs_Tensor3 Proofs_Convolve2 Proofs_Ops2 Proofs_Ops3 Proofs_RView Proofs_RView2 Proofs_RView3 Proofs_RView4 Proofs_RView5 Proofs_RView6 Proofs_CView Proofs_CView2 Proofs_CView3 Proofs_CView4.
From Verif Require Import Spec_RView Spec_Mask Proofs_Mask Proofs_Mask2.
From Verif Require Import Prop_EinsumFn.
Local Open Scope Z_scope.

(* ---- C124 *)
(* a mask holds exactly the entries pushed; its rows are in increasing order and each row in the order of the pushes *)
Theorem C124_entries (R : cring) (ts : list (Z * Z * R)) q : made ts q ->
  Permutation (triples q) ts /\ StronglySorted Z.lt (keys (rm_lists q)) /\
  forall i, row (rm_lists q) i = map (fun t => (snd (fst t), snd t)) (filter (fun t => fst (fst t) =? i) ts).
Proof. apply made_triples. Qed.
Print Assumptions C124_entries.
(* inv() gives the mask with rows and columns exchanged, also when entries were pushed after an earlier call of inv();
   its rows list the entries in the order of the rows of the mask; the mask itself is as before *)
Theorem C124_inverse (R : cring) (ts : list (Z * Z * R)) q : made ts q ->
  Permutation (triples (fst (rm_inverse q))) (map swap ts) /\ StronglySorted Z.lt (keys (rm_lists (fst (rm_inverse q)))) /\
  (forall j, row (rm_lists (fst (rm_inverse q))) j = map (fun t => (fst (fst t), snd t)) (filter (fun t => snd (fst t) =? j) (triples q))) /\
  triples (snd (rm_inverse q)) = triples q /\ rm_N (snd (rm_inverse q)) = rm_N q /\ rm_M (snd (rm_inverse q)) = rm_M q /\
  least (rm_N (fst (rm_inverse q))) (map (fun t => snd (fst t)) ts) /\ least (rm_M (fst (rm_inverse q))) (map (fun t => fst (fst t)) ts).
Proof.
  intro M. pose proof (inverse_grown ts q M) as G. pose proof (made_triples ts q M) as (P & _). destruct (made_triples _ _ (grown_made _ _ G)) as (P' & S & Rw).
  destruct (inverse_keeps q) as (K1 & K2 & K3). split; [rewrite P'; now apply Permutation_map|]. split; [exact S|]. split; [|split; [unfold triples; now rewrite K1|split; [exact K2|split; [exact K3|]]]].
  - intro j. rewrite Rw. clear. induction (triples q) as [|t l IH]; [reflexivity|]. cbn [map filter swap fst snd]. destruct (snd (fst t) =? j); cbn [map fst snd]; now rewrite IH.
  - destruct (grown_bounds _ _ G) as [B1 B2]. rewrite map_map in B1, B2. cbn [swap fst snd] in B1, B2.
    assert (L : forall n (f : Z * Z * R -> Z), least n (map f (triples q)) -> least n (map f ts)).
    { intros n f (A & B & D). split; [|split; [exact B|]].
      - intros i Hi. apply A. eapply Permutation_in; [apply Permutation_map; symmetry; exact P|exact Hi].
      - destruct D as [D|D]; [now left|right]. eapply Permutation_in; [apply Permutation_map; exact P|exact D]. }
    split; now apply L.
Qed.
Print Assumptions C124_inverse.
(* N0 and M0 are the least numbers of rows and columns with room for the entries, as long as the mask was not copied *)
Theorem C124_sizes (R : cring) (ts : list (Z * Z * R)) q : grown ts q ->
  least (rm_N q) (map (fun t => fst (fst t)) ts) /\ least (rm_M q) (map (fun t => snd (fst t)) ts).
Proof. apply grown_bounds. Qed.
Print Assumptions C124_sizes.
(* a copy or a moved mask has size 0 x 0 *)
Theorem C124_copy_refuted (R : cring) (ts : list (Z * Z * R)) q : grown ts q -> (exists t, In t ts /\ 0 <= fst (fst t)) ->
  grown ts q /\ triples (rm_copy q) = triples q /\ ~ least (rm_N (rm_copy q)) (map (fun t => fst (fst t)) ts) /\ ~ least (rm_N (fst (rm_move q))) (map (fun t => fst (fst t)) ts).
Proof.
  intros G (t & Ht & H0). split; [exact G|]. split; [reflexivity|]. split; intros (A & _); specialize (A (fst (fst t)) (in_map _ _ _ Ht)); cbn in A; lia.
Qed.
Print Assumptions C124_copy_refuted.
(* the mask of a matrix holds its nonzero entries *)
Theorem C124_matrix (R : cring) (isz : R -> bool) M (m : mem R) n k : vwf M -> readable m M -> vdims M = [n; k] ->
  exists q, rm_matrix isz M m = Ok q /\ grown (nonzeros isz (fun i j => elem0 m M [i; j]) n k) q /\
    triples q = nonzeros isz (fun i j => elem0 m M [i; j]) n k.
Proof.
  intros W Rd D. eexists. split; [now apply (matrix_ok isz M m n k)|]. set (ns := nonzeros isz (fun i j => elem0 m M [i; j]) n k).
  split; [apply (pushes_grown ns [] rm_new); constructor|].
  assert (E : triples (pushes ns rm_new) = ns).
  { (* pushing entries whose rows never decrease appends at the end *)
    assert (G : forall us l ts0, ltriples l = ts0 -> (forall k0 es, In (k0, es) l -> Forall (fun u : Z * Z * R => k0 <= fst (fst u)) us) -> StronglySorted Z.lt (keys l) ->
      StronglySorted (fun u w : Z * Z * R => fst (fst u) <= fst (fst w)) us -> forall q, rm_lists q = l -> triples (pushes us q) = ts0 ++ us).
    { induction us as [|[[i j] w] us IH]; intros l ts0 El Hl Sl Su q Eq; [cbn; rewrite app_nil_r; unfold triples; now rewrite Eq|].
      cbn [pushes fold_left fst snd]. inversion Su as [|? ? Su' Fu]; subst. change (fold_left _ us ?a) with (pushes us a).
      assert (El : ltriples (lpush i (j, w) (rm_lists q)) = ltriples (rm_lists q) ++ [(i, j, w)]).
      { assert (Hk : forall k0 es, In (k0, es) (rm_lists q) -> k0 <= i) by (intros k0 es Hin; specialize (Hl k0 es Hin); inversion Hl; assumption). clear - Hk Sl.
        induction (rm_lists q) as [|[k0 es] l IH]; [reflexivity|]. cbn [lpush]. unfold keys in Sl. cbn [map fst] in Sl. inversion Sl as [|? ? Sl' Fl]; subst.
        assert (k0 <= i) by (apply (Hk k0 es); now left). replace (i <? k0) with false by lia. destruct (i =? k0) eqn:E.
        - apply Z.eqb_eq in E. subst. destruct l as [|[k1 es1] l].
          + unfold ltriples. cbn [flat_map fst snd]. rewrite !app_nil_r, map_app. reflexivity.
          + exfalso. inversion Fl; subst. cbn [fst] in *. assert (k1 <= k0) by (apply (Hk k1 es1); right; now left). lia.
        - unfold ltriples in *. cbn [flat_map]. rewrite IH, app_assoc; [reflexivity|exact Sl'|]. intros k1 es1 H1. apply (Hk k1 es1). now right. }
      replace (ltriples (rm_lists q) ++ (i, j, w) :: us) with ((ltriples (rm_lists q) ++ [(i, j, w)]) ++ us) by now rewrite <- app_assoc.
      apply (IH (lpush i (j, w) (rm_lists q))); [exact El| |now apply lpush_sorted|assumption|reflexivity].
      intros k0 es Hin. assert (Hk0 : In k0 (keys (lpush i (j, w) (rm_lists q)))) by (apply (in_map fst) in Hin; exact Hin). apply lpush_keys in Hk0 as [->|Hk0]; [exact Fu|].
      apply in_map_iff in Hk0 as ([k1 es1] & <- & Hin1). specialize (Hl k1 es1 Hin1). inversion Hl; assumption. }
    apply (G ns [] []); [reflexivity|intros ? ? []|constructor| |reflexivity].
    unfold ns, nonzeros. clear.
    assert (S : StronglySorted (fun u w : Z * Z * R => fst (fst u) <= fst (fst w)) (flat_map (fun i => map (fun j => (i, j, elem0 m M [i; j])) (zrange k)) (zrange n))).
    { assert (Sz : StronglySorted Z.lt (zrange n)).
      { unfold zrange. generalize 0%nat. induction (Z.to_nat n) as [|p IH]; intro a; cbn [seq map]; constructor; [apply IH|]. apply Forall_forall. intros y Hy. apply in_map_iff in Hy as (b & <- & Hb). apply in_seq in Hb. lia. }
      induction Sz as [|i l Sl IH F]; [constructor|]. cbn [flat_map].
      assert (Fr : Forall (fun u : Z * Z * R => i <= fst (fst u)) (flat_map (fun i => map (fun j => (i, j, elem0 m M [i; j])) (zrange k)) l)).
      { apply Forall_forall. intros u Hu. apply in_flat_map in Hu as (i' & Hi' & Hu). apply in_map_iff in Hu as (j' & <- & _). cbn. rewrite Forall_forall in F. specialize (F i' Hi'). lia. }
      revert IH Fr. generalize (flat_map (fun i => map (fun j => (i, j, elem0 m M [i; j])) (zrange k)) l). intros rest IH Fr. clear - IH Fr.
      induction (zrange k) as [|j js IHj]; [exact IH|]. cbn [map app]. constructor; [exact IHj|]. apply Forall_app. split; [|exact Fr]. apply Forall_forall. intros u Hu. apply in_map_iff in Hu as (j' & <- & _). cbn. lia. }
    induction S as [|u l Sl IH F]; [constructor|]. cbn [filter]. destruct (negb _); [|exact IH]. constructor; [exact IH|]. apply Forall_forall. intros y Hy. apply filter_In in Hy as [Hy _]. rewrite Forall_forall in F. now apply F. }
  exact E.
Qed.
Print Assumptions C124_matrix.
(* its N0 is smaller than the number of rows when the last row is zero *)
Theorem C124_matrix_size_refuted (R : cring) (isz : R -> bool) M (m : mem R) n k : vwf M -> readable m M -> vdims M = [n; k] -> 0 < n -> (forall j, 0 <= j < k -> isz (elem0 m M [n - 1; j]) = true) ->
  exists q, rm_matrix isz M m = Ok q /\ rm_N q < n.
Proof.
  intros W Rd D Hn Hz. destruct (C124_matrix R isz M m n k W Rd D) as (q & E & G & _). exists q. split; [exact E|]. destruct (proj1 (C124_sizes R _ q G)) as (_ & B & [->|Hin]); [assumption|].
  apply in_map_iff in Hin as ([[i j] w] & Ei & Hin). cbn [fst] in Ei. unfold nonzeros in Hin. apply filter_In in Hin as [Hin Hnz]. apply in_flat_map in Hin as (i' & Hi' & Hin). apply in_map_iff in Hin as (j' & Ej & Hj'). injection Ej as -> -> <-.
  apply in_zrange in Hi', Hj'. destruct (Z.eq_dec i (n - 1)) as [->|]; [|lia]. cbn [snd] in Hnz. rewrite Hz in Hnz by assumption. discriminate.
Qed.
Print Assumptions C124_matrix_size_refuted.
Definition q3 : rmask (R := ZRing) := 
  rm_push (R := ZRing) 0 1 5 (snd (rm_inverse (rm_push (R := ZRing) 2 1 7 (rm_push (R := ZRing) 0 3 4 rm_new)))).
Example C124_case : grown (R := ZRing) [(0, 3, 4); (2, 1, 7); (0, 1, 5)] q3 /\ rm_lists q3 = [(0, [(3, 4); (1, 5)]); (2, [(1, 7)])] /\ rm_lists (fst (rm_inverse q3)) = [(1, [(0, 5); (2, 7)]); (3, [(0, 4)])] /\
  rm_N q3 = 3 /\ rm_M q3 = 4 /\ rm_N (rm_copy q3) = 0.
Proof. split; [|now repeat split]. apply (grown_push (R := ZRing) [(0, 3, 4); (2, 1, 7)]). apply grown_inv. apply (grown_push (R := ZRing) [(0, 3, 4)]). apply (grown_push (R := ZRing) []). constructor. Qed.
Example C124_matrix_case : let M := View 0 0 [3; 2] [1; 3] in let m := zm [1; 0; 0; 2; 3; 0] in vwf M /\ readable m M /\ vdims M = [3; 2] /\ 0 < 3 /\ (forall j, 0 <= j < 2 -> (elem0 (R := ZRing) m M [2; j] =? 0) = true) /\
  exists q, rm_matrix (R := ZRing) (Z.eqb 0) M m = Ok q /\ triples q = [(0, 0, 1); (0, 1, 2); (1, 1, 3)] /\ rm_N q = 2.
Proof.
  cbn zeta. split; [split; [reflexivity|repeat constructor; lia]|]. split; [now apply readable_by|]. split; [reflexivity|]. split; [lia|]. split; [intros j Hj; assert (j = 0 \/ j = 1) as [-> | ->] by lia; reflexivity|].
  eexists. split; [vm_compute; reflexivity|]. split; reflexivity.
Qed.

(* ---- C125 *)
Section Agg.
Context {R : cring}.
Add Ring RrPMask : (cth R).
Notation memR := (mem (car R)).
Notation C := (CxRing R).
Add Ring RcPMask : (cth C).
(* r(i,...) gains the sum of w*x(j,...) over the entries (i,j,w) of the mask, by the mask or by its inverse *)
Lemma agg_any (ts : list (Z * Z * R)) q r x (m : memR) n nx ds rw xw : made ts q -> operands r [x] m -> cshape r (n :: ds) -> cshape x (nx :: ds) -> fused rw r n ds (prod ds) -> fused xw x nx ds (prod ds) ->
  (within n nx ts -> exists m', agg2 q rw xw m = Ok m' /\ cgains r (n :: ds) (mask_sum m x ts) m m') /\
  (within n nx (map swap ts) -> exists m', agg2 (fst (rm_inverse q)) rw xw m = Ok m' /\ cgains r (n :: ds) (mask_sum m x (map swap ts)) m m').
Proof.
  intros M Op Sr Sx Fr Fx. split; intro W.
  - destruct (made_triples ts q M) as (P & _). destruct (agg_fused q r x m n nx ds rw xw) as (m' & E & G); try assumption; [eapply within_perm; [symmetry; exact P|exact W]|].
    exists m'. split; [exact E|]. revert G. apply cgains_ext. intros ix _. now apply mask_sum_perm.
  - destruct (C124_inverse R ts q M) as (P & _). destruct (agg_fused (fst (rm_inverse q)) r x m n nx ds rw xw) as (m' & E & G); try assumption; [eapply within_perm; [symmetry; exact P|exact W]|].
    exists m'. split; [exact E|]. revert G. apply cgains_ext. intros ix _. now apply mask_sum_perm.
Qed.
Lemma fused2 v a b : cshape v [a; b] -> fused v v a [b] (prod [b]).
Proof.
  intro S. unfold fused. assert (P : prod [b] = b) by (rewrite prod_cons, prod_nil; ring). rewrite P. split; [exact S|]. pose proof (cshape_nonneg v _ S) as N. inversion N as [|? ? Ha N1]; subst. intros ix Hix. pose proof Hix as H0. rewrite (proj2 S) in Hix. apply in_range_3_inv in Hix as (i & t & k & -> & Hi & Ht & Hk). cbn [nth].
  assert (E' : undo [b] t = [t]). { transitivity (undo [b] (flat [t] [b])); [f_equal; cbn [flat]; change (prod []) with 1; lia|]. apply undo_flat; [exact N1|]. repeat constructor; lia. }
  rewrite E'. split; [exact H0|reflexivity].
Qed.
Lemma mask_sum_swap (m : memR) x (ts : list (Z * Z * R)) ix : mask_sum m x (map swap ts) ix =
  rsum (map (fun t => if snd (fst t) =? nth 0 ix 0 then cmul (celem m x (fst (fst t) :: tl ix)) (of_real (snd t)) else c0) ts).
Proof. unfold mask_sum. rewrite map_map. reflexivity. Qed.
End Agg.
Theorem C125_two_axes (R : cring) (ts : list (Z * Z * R)) q r x (m : mem R) n nx c : made ts q -> operands r [x] m -> cshape r [n; c] -> cshape x [nx; c] ->
  (within n nx ts -> exists m', agg2 q r x m = Ok m' /\ cgains r [n; c] (mask_sum m x ts) m m') /\
  (within n nx (map swap ts) -> exists m', agg2 (fst (rm_inverse q)) r x m = Ok m' /\ cgains r [n; c] (mask_sum m x (map swap ts)) m m').
Proof. intros M Op Sr Sx. apply (agg_any ts q r x m n nx [c] r x); try assumption; now apply fused2. Qed.
Print Assumptions C125_two_axes.
(* three axes, when the last two of both views can be fused *)
Theorem C125_three_axes (R : cring) (ts : list (Z * Z * R)) q r x (m : mem R) n nx b c : made ts q -> operands r [x] m -> cshape r [n; b; c] -> cshape x [nx; b; c] -> sd r 1 = c * sd r 2 -> sd x 1 = c * sd x 2 ->
  (within n nx ts -> exists m', agg3 q r x m = Ok m' /\ cgains r [n; b; c] (mask_sum m x ts) m m') /\
  (within n nx (map swap ts) -> exists m', agg3 (fst (rm_inverse q)) r x m = Ok m' /\ cgains r [n; b; c] (mask_sum m x (map swap ts)) m m').
Proof. intros M Op Sr Sx Er Ex. unfold agg3. apply agg_any; try assumption; now apply fused3. Qed.
Print Assumptions C125_three_axes.
Theorem C125_four_axes (R : cring) (ts : list (Z * Z * R)) q r x (m : mem R) n nx b c d : made ts q -> operands r [x] m -> cshape r [n; b; c; d] -> cshape x [nx; b; c; d] ->
  sd r 2 = d * sd r 3 -> sd r 1 = c * sd r 2 -> sd x 2 = d * sd x 3 -> sd x 1 = c * sd x 2 ->
  (within n nx ts -> exists m', agg4 q r x m = Ok m' /\ cgains r [n; b; c; d] (mask_sum m x ts) m m') /\
  (within n nx (map swap ts) -> exists m', agg4 (fst (rm_inverse q)) r x m = Ok m' /\ cgains r [n; b; c; d] (mask_sum m x (map swap ts)) m m').
Proof. intros M Op Sr Sx Er1 Er2 Ex1 Ex2. unfold agg4, agg3. apply agg_any; try assumption; now apply fused4. Qed.
Print Assumptions C125_four_axes.
(* any number of axes, when the strides are a multiple of the row-major ones *)
Theorem C125_any_axes (R : cring) (ts : list (Z * Z * R)) q r x (m : mem R) n nx ds : made ts q -> operands r [x] m -> cshape r (n :: ds) -> cshape x (nx :: ds) -> evenly r (n :: ds) -> evenly x (nx :: ds) ->
  (within n nx ts -> exists m', aggN q r x m = Ok m' /\ cgains r (n :: ds) (mask_sum m x ts) m m') /\
  (within n nx (map swap ts) -> exists m', aggN (fst (rm_inverse q)) r x m = Ok m' /\ cgains r (n :: ds) (mask_sum m x (map swap ts)) m m').
Proof.
  intros M Op Sr Sx Er Ex. destruct (fusedN r n ds Sr Er) as (rw & E1 & F1). destruct (fusedN x nx ds Sx Ex) as (xw & E2 & F2). unfold aggN. rewrite E1, E2. cbn [bind]. now apply agg_any.
Qed.
Print Assumptions C125_any_axes.

(* the mask of a matrix multiplies by it, its inverse by the transpose; M is read when the mask is built (from m0) *)
Lemma rsum_drop (S : cring) {A} (p : A -> bool) (f : A -> S) l : (forall a, In a l -> p a = false -> f a = c0) -> rsum (map f (filter p l)) = rsum (map f l).
Proof.
  pose (T := cth S). induction l as [|a l IH]; intro H; [reflexivity|]. cbn [filter map]. rewrite rsum_cons. destruct (p a) eqn:E.
  - cbn [map]. rewrite rsum_cons. now rewrite IH by (intros; apply H; [now right|assumption]).
  - rewrite IH by (intros; apply H; [now right|assumption]). rewrite (H a (or_introl eq_refl) E). now rewrite (Ring_theory.Radd_0_l T).
Qed.
Section Mat.
Context {R : cring}.
Add Ring RrPMat : (cth R).
Notation C := (CxRing R).
Add Ring RcPMat : (cth C).
Variables (isz : R -> bool) (f : Z -> Z -> R) (n k : Z).
Hypothesis Hz : forall v, isz v = true -> v = c0.
Lemma sum_nonzeros (g : Z -> Z -> C) : rsum (map (fun t => cmul (g (fst (fst t)) (snd (fst t))) (of_real (snd t))) (nonzeros isz f n k)) =
  rsum (map (fun i => rsum (map (fun j => cmul (g i j) (of_real (f i j))) (zrange k))) (zrange n)).
Proof.
  unfold nonzeros. rewrite rsum_drop.
  - rewrite rsum_flat_map. apply rsum_ext. intros i _. now rewrite map_map.
  - intros t _ E. apply negb_false_iff, Hz in E. rewrite E. change (of_real c0) with (@c0 C). ring.
Qed.
Lemma mat_sum (m : mem R) x i jx : 0 <= i < n -> mask_sum m x (nonzeros isz f n k) (i :: jx) = rsum (map (fun j => cmul (celem m x (j :: jx)) (of_real (f i j))) (zrange k)).
Proof.
  intro Hi. pose proof (sum_nonzeros (fun i' j => if i' =? i then celem m x (j :: jx) else c0)) as E. unfold mask_sum. cbn [nth tl].
  erewrite rsum_ext; [erewrite E|].
  - rewrite (rsum_single C _ (zrange n) i); [rewrite Z.eqb_refl; reflexivity|apply zrange_nodup|now apply in_zrange|]. intros b _ Hb. apply rsum_zero. intros j _. replace (b =? i) with false by lia. ring.
  - intros t _. cbn beta. destruct (fst (fst t) =? i); [reflexivity|ring].
Qed.
Lemma mat_sum_t (m : mem R) x j jx : 0 <= j < k -> mask_sum m x (map swap (nonzeros isz f n k)) (j :: jx) = rsum (map (fun i => cmul (celem m x (i :: jx)) (of_real (f i j))) (zrange n)).
Proof.
  intro Hj. rewrite mask_sum_swap. cbn [nth tl]. pose proof (sum_nonzeros (fun i j' => if j' =? j then celem m x (i :: jx) else c0)) as E.
  erewrite rsum_ext; [erewrite E|].
  - apply rsum_ext. intros i _. rewrite (rsum_single C _ (zrange k) j); [rewrite Z.eqb_refl; reflexivity|apply zrange_nodup|now apply in_zrange|]. intros b _ Hb. replace (b =? j) with false by lia. ring.
  - intros t _. cbn beta. destruct (snd (fst t) =? j); [reflexivity|ring].
Qed.
Lemma nonzeros_within : within n k (nonzeros isz f n k).
Proof.
  apply Forall_forall. intros t Ht. unfold nonzeros in Ht. apply filter_In in Ht as [Ht _]. apply in_flat_map in Ht as (i & Hi & Ht). apply in_map_iff in Ht as (j & <- & Hj). apply in_zrange in Hi, Hj. cbn. tauto.
Qed.
End Mat.
Theorem C125_matrix (R : cring) (isz : R -> bool) M r x (m0 m : mem R) n k ds : (forall v, isz v = true -> v = c0) -> vwf M -> readable m0 M -> vdims M = [n; k] ->
  cshape r (n :: ds) -> cshape x (k :: ds) -> operands r [x] m -> evenly r (n :: ds) -> evenly x (k :: ds) ->
  exists q m', rm_matrix isz M m0 = Ok q /\ aggN q r x m = Ok m' /\
    cgains r (n :: ds) (fun ix => rsum (map (fun j => cmul (celem m x (j :: tl ix)) (of_real (elem0 m0 M [nth 0 ix 0; j]))) (zrange k))) m m'.
Proof.
  intros Hz W Rd D Sr Sx Op Er Ex. destruct (C124_matrix R isz M m0 n k W Rd D) as (q & E & G & _). destruct (C125_any_axes R _ q r x m n k ds (grown_made _ _ G) Op Sr Sx Er Ex) as [A _]. destruct A as (m' & E' & G'); [apply nonzeros_within|].
  exists q, m'. split; [exact E|]. split; [exact E'|]. revert G'. apply cgains_ext. intros ix Hix. inversion Hix as [|i ? jx ? Hi _]; subst. cbn [nth tl]. now apply mat_sum.
Qed.
Print Assumptions C125_matrix.
Theorem C125_transpose (R : cring) (isz : R -> bool) M r x (m0 m : mem R) n k ds : (forall v, isz v = true -> v = c0) -> vwf M -> readable m0 M -> vdims M = [n; k] ->
  cshape r (k :: ds) -> cshape x (n :: ds) -> operands r [x] m -> evenly r (k :: ds) -> evenly x (n :: ds) ->
  exists q m', rm_matrix isz M m0 = Ok q /\ aggN (fst (rm_inverse q)) r x m = Ok m' /\
    cgains r (k :: ds) (fun ix => rsum (map (fun i => cmul (celem m x (i :: tl ix)) (of_real (elem0 m0 M [i; nth 0 ix 0]))) (zrange n))) m m'.
Proof.
  intros Hz W Rd D Sr Sx Op Er Ex. destruct (C124_matrix R isz M m0 n k W Rd D) as (q & E & G & _). destruct (C125_any_axes R _ q r x m k n ds (grown_made _ _ G) Op Sr Sx Er Ex) as [_ A]. destruct A as (m' & E' & G').
  { pose proof (nonzeros_within isz (fun i j => elem0 m0 M [i; j]) n k) as Wn. unfold within in *. rewrite Forall_forall in *. intros t Ht. apply in_map_iff in Ht as (u & <- & Hu). specialize (Wn u Hu). cbn [swap fst snd]. tauto. }
  exists q, m'. split; [exact E|]. split; [exact E'|]. revert G'. apply cgains_ext. intros ix Hix. inversion Hix as [|i ? jx ? Hi _]; subst. cbn [nth tl]. now apply mat_sum_t.
Qed.
Print Assumptions C125_transpose.
Ltac wf := split; [split; [reflexivity|cbn; repeat constructor; lia]|reflexivity].
Ltac oper := split; [split; [reflexivity|cbn; repeat constructor; lia]|]; split; [apply nodup_by; vm_compute; nodup|]; split; [now apply readable_by|]; constructor; [|constructor]; split; [split; [reflexivity|cbn; repeat constructor; lia]|]; split; [now apply readable_by|now apply disjoint_by].
Example C125_case : let r := View 0 0 [2; 2; 2] [4; 2; 1] in let x := View 0 8 [3; 2; 2] [4; 2; 1] in let m := zm [1; 0; 2; 0; 3; 0; 4; 0;  1; 1; 2; 0;  0; 3; 1; 0;  5; 0; 0; 5] in let q := rm_push (R := ZRing) 1 0 10 (rm_push (R := ZRing) 1 2 2 (rm_push (R := ZRing) 0 1 1 rm_new)) in
  made (R := ZRing) [(0, 1, 1); (1, 2, 2); (1, 0, 10)] q /\ operands r [x] m /\ cshape r [2; 2] /\ cshape x [3; 2] /\ evenly r [2; 2] /\ evenly x [3; 2] /\ within (R := ZRing) 2 3 [(0, 1, 1); (1, 2, 2); (1, 0, 10)] /\
  exists m', agg2 q r x m = Ok m' /\ aggN q r x m = Ok m' /\ map (celem (R := ZRing) m' r) (all_indices [2; 2]) = [(1, 3); (3, 0); (23, 10); (24, 10)].
Proof.
  cbn zeta. split; [apply (made_push (R := ZRing) [(0, 1, 1); (1, 2, 2)]); apply (made_push (R := ZRing) [(0, 1, 1)]); apply (made_push (R := ZRing) []); constructor|]. split; [oper|]. split; [wf|]. split; [wf|].
  split; [exists 2; split; [left; lia|reflexivity]|]. split; [exists 2; split; [left; lia|reflexivity]|]. split; [repeat constructor; cbn; lia|]. eexists. split; [vm_compute; reflexivity|]. split; vm_compute; reflexivity.
Qed.
Example C125_deep_case : let r := View 0 0 [1; 2; 2; 1; 2] [8; 4; 2; 2; 1] in let x := View 0 8 [1; 2; 2; 1; 2] [8; 4; 2; 2; 1] in let m := zm [1; 0; 2; 0; 3; 0; 4; 0;  1; 1; 2; 0;  0; 3; 1; 0] in let q := rm_push (R := ZRing) 0 0 10 rm_new in
  operands r [x] m /\ cshape r [1; 2; 2; 1] /\ cshape x [1; 2; 2; 1] /\ evenly r [1; 2; 2; 1] /\ sd r 2 = 1 * sd r 3 /\ sd r 1 = 2 * sd r 2 /\
  exists m', agg4 q r x m = Ok m' /\ map (celem (R := ZRing) m' r) (all_indices [1; 2; 2; 1]) = [(11, 10); (22, 0); (3, 30); (14, 0)].
Proof.
  cbn zeta. split; [oper|]. split; [wf|]. split; [wf|]. split; [exists 2; split; [left; lia|reflexivity]|]. split; [reflexivity|]. split; [reflexivity|]. eexists. split; vm_compute; reflexivity.
Qed.
(* when the last two axes cannot be fused, other elements are read and written *)
Theorem C125_unfusable_refuted : ~ (forall q r x (m : mem (car ZRing)) n nx b c, operands r [x] m -> cshape r [n; b; c] -> cshape x [nx; b; c] -> within (R := ZRing) n nx (triples q) ->
  exists m', agg3 (R := ZRing) q r x m = Ok m' /\ cgains (R := ZRing) r [n; b; c] (mask_sum m x (triples q)) m m').
Proof.
  intro H. specialize (H (rm_push (R := ZRing) 0 0 1 rm_new) (View 0 0 [1; 2; 2; 2] [8; 2; 4; 1]) (View 0 8 [1; 2; 2; 2] [8; 4; 2; 1]) (zm [0; 0; 0; 0; 0; 0; 0; 0; 1; 0; 2; 0; 3; 0; 4; 0; 0; 0; 0; 0; 0; 0; 0; 0]) 1 1 2 2).
  destruct H as (m' & E & _ & B & _); [oper|wf|wf|repeat constructor; cbn; lia|]. assert (X : celem (R := ZRing) m' (View 0 0 [1; 2; 2; 2] [8; 2; 4; 1]) [0; 1; 0] = (0, 0)).
  { match type of E with ?a = _ => assert (E2 : (do z <- a; Ok (celem (R := ZRing) z (View 0 0 [1; 2; 2; 2] [8; 2; 4; 1]) [0; 1; 0])) = Ok (0, 0)) by (vm_compute; reflexivity) end. rewrite E in E2. cbn [bind] in E2. congruence. }
  rewrite B in X by (repeat constructor; lia). vm_compute in X. discriminate.
Qed.
Print Assumptions C125_unfusable_refuted.
(* when there are gaps between the rows, memory between them is changed as well *)
Theorem C125_gaps_refuted : ~ (forall q r x (m : mem (car ZRing)) n nx c, operands r [x] m -> cshape r [n; c] -> cshape x [nx; c] -> within (R := ZRing) n nx (triples q) ->
  exists m', aggN (R := ZRing) q r x m = Ok m' /\ cgains (R := ZRing) r [n; c] (mask_sum m x (triples q)) m m').
Proof.
  intro H. specialize (H (rm_push (R := ZRing) 0 0 1 rm_new) (View 0 0 [2; 1; 2] [4; 2; 1]) (View 0 8 [2; 1; 2] [4; 2; 1]) (zm [0; 0; 0; 0; 0; 0; 0; 0; 1; 0; 2; 0; 3; 0; 4; 0]) 2 2 1).
  destruct H as (m' & E & _ & _ & U); [oper|wf|wf|repeat constructor; cbn; lia|]. assert (X : m' 0 2 = Some 2).
  { match type of E with ?a = _ => assert (E2 : (do z <- a; Ok (z 0 2)) = Ok (Some 2)) by (vm_compute; reflexivity) end. rewrite E in E2. cbn [bind] in E2. congruence. }
  rewrite U in X; [discriminate|]. intros ix Hix Ea. apply in_range_3_inv in Hix as (i & j & k & -> & Hi & Hj & Hk). unfold vaddr, offs in Ea. cbn [vstr vblk voff length Nat.leb assrt bind dot] in Ea. assert (Ea' : 0 + (4 * i + (2 * j + (1 * k + 0))) = 2) by congruence. lia.
Qed.
Print Assumptions C125_gaps_refuted.

(* ---- C126 *)
Lemma mapM_zget_all {A} (l : list A) : mapM (zget l) (zrange (Z.of_nat (length l))) = Ok l.
Proof.
  unfold zrange. rewrite Nat2Z.id. assert (G : forall suf pre : list A, mapM (zget (pre ++ suf)) (map Z.of_nat (seq (length pre) (length suf))) = Ok suf).
  { induction suf as [|a suf IH]; intro pre; [reflexivity|]. cbn [length seq map mapM]. unfold zget at 1. replace (Z.of_nat (length pre) <? 0) with false by lia. rewrite Nat2Z.id. unfold vget. rewrite nth_error_app2, Nat.sub_diag by lia. cbn [nth_error bind].
    specialize (IH (pre ++ [a])). rewrite <- app_assoc, app_length in IH. cbn [app length] in IH. rewrite Nat.add_1_r in IH. rewrite IH. reflexivity. }
  apply (G l []).
Qed.
Lemma acc_view {V} (x : view) (ix : list Z) (m : mem V) v : vwf x -> in_range ix (vdims x) -> readable m x ->
  (acc_get (Acc (vblk x) (voff x) (vstr x)) ix m = Ok (match elem m x ix with Some u => u | None => v end)) /\
  exists m', acc_set (Acc (vblk x) (voff x) (vstr x)) ix v m = Ok m' /\ elem m' x ix = Some v /\ (forall b a, vaddr x ix <> Ok (b, a) -> m' b a = m b a).
Proof.
  intros W Hix Rd. pose proof (vaddr_cell x ix (proj1 W) Hix) as A. unfold cell in A. specialize (Rd ix Hix). unfold elem in *. rewrite A in *. unfold acc_get, acc_set, load, store in *. cbn [ablk aoff astr]. destruct (m (vblk x) (voff x + dot (vstr x) ix)) eqn:E; [|congruence].
  split; [reflexivity|]. eexists. split; [reflexivity|]. split.
  - unfold upd. now rewrite !Z.eqb_refl.
  - intros b a Ne. unfold upd. destruct (b =? vblk x) eqn:E1; [|reflexivity]. destruct (a =? voff x + dot (vstr x) ix) eqn:E2; [|reflexivity]. exfalso. apply Ne. do 2 f_equal; lia.
Qed.
(* TensorAccessor<k> reads and writes exactly the element asked for, in every layout, and refuses other numbers of axes *)
Theorem C126_accessor (V : Type) (x : view) k (m : mem V) (v : V) : (0 < k)%nat -> vwf x -> length (vdims x) = k -> readable m x ->
  exists a, acc_of k x = Ok a /\ forall ix, in_range ix (vdims x) ->
    (exists u, elem m x ix = Some u /\ acc_get a ix m = Ok u) /\
    exists m', acc_set a ix v m = Ok m' /\ elem m' x ix = Some v /\ (forall b c, vaddr x ix <> Ok (b, c) -> m' b c = m b c).
Proof.
  intros Hk W L Rd. exists (Acc (vblk x) (voff x) (vstr x)). split.
  - unfold acc_of. destruct k as [|k]; [lia|]. rewrite L, Nat.eqb_refl. cbn [assrt]. rewrite <- L, <- (proj1 W), mapM_zget_all. reflexivity.
  - intros ix Hix. destruct (acc_view x ix m v W Hix Rd) as [G S]. specialize (Rd ix Hix). destruct (elem m x ix) as [u|]; [|congruence]. split; [exists u; split; [reflexivity|exact G]|exact S].
Qed.
Print Assumptions C126_accessor.
Theorem C126_rank (x : view) k : (0 < k)%nat -> length (vdims x) <> k -> acc_of k x = Throw.
Proof. intros Hk H. unfold acc_of. destruct k as [|k]; [lia|]. now replace (length (vdims x) =? S k)%nat with false by (symmetry; now apply Nat.eqb_neq). Qed.
Print Assumptions C126_rank.
(* TensorAccessor<0>: scalars and vectors with one element *)
Theorem C126_scalar (V : Type) (x : view) (m : mem V) (v : V) : vwf x -> readable m x ->
  match vdims x with
  | [] => exists a, acc_of 0 x = Ok a /\ (exists u, elem m x [] = Some u /\ acc_get a [] m = Ok u) /\ exists m', acc_set a [] v m = Ok m' /\ elem m' x [] = Some v /\ (forall b c, vaddr x [] <> Ok (b, c) -> m' b c = m b c)
  | [d] => if d =? 1 then exists a, acc_of 0 x = Ok a /\ (exists u, elem m x [0] = Some u /\ acc_get a [] m = Ok u) /\ exists m', acc_set a [] v m = Ok m' /\ elem m' x [0] = Some v /\ (forall b c, vaddr x [0] <> Ok (b, c) -> m' b c = m b c)
           else acc_of 0 x = Throw
  | _ => acc_of 0 x = Throw
  end.
Proof.
  intros W Rd. destruct (vdims x) as [|d [|d' ds]] eqn:D.
  - exists (Acc (vblk x) (voff x) []). split; [unfold acc_of; now rewrite D|]. assert (I : in_range [] (vdims x)) by (rewrite D; constructor). destruct (acc_view x [] m v W I Rd) as [G S]. assert (Es : vstr x = []) by (apply length_zero_iff_nil; rewrite (proj1 W), D; reflexivity). rewrite Es in *.
    specialize (Rd [] I). destruct (elem m x []) as [u|]; [|congruence]. split; [exists u; split; [reflexivity|exact G]|exact S].
  - destruct (d =? 1) eqn:E.
    + apply Z.eqb_eq in E. subst d. exists (Acc (vblk x) (voff x) []). split; [unfold acc_of; now rewrite D|]. assert (I : in_range [0] (vdims x)) by (rewrite D; repeat constructor; lia). destruct (acc_view x [0] m v W I Rd) as [G S].
      destruct (vstr x) as [|s [|s' ss]] eqn:Es; [exfalso; pose proof (proj1 W) as L; rewrite Es, D in L; discriminate L| |exfalso; pose proof (proj1 W) as L; rewrite Es, D in L; discriminate L].
      unfold acc_get, acc_set in *. cbn [ablk aoff astr dot] in *. replace (voff x + (s * 0 + 0)) with (voff x + 0) in * by lia. specialize (Rd [0] I). destruct (elem m x [0]) as [u|]; [|congruence]. split; [exists u; split; [reflexivity|exact G]|exact S].
    + unfold acc_of. rewrite D. change (zget [d] 0) with (@Ok Z d). cbn. now rewrite E.
  - unfold acc_of. now rewrite D.
Qed.
Print Assumptions C126_scalar.
(* the accessor with strides in its type reads the right elements exactly when these strides are those of the view (on the axes longer than 1) *)
Lemma strides_forced : forall dims ss str, positive dims -> length ss = length dims -> length str = length dims -> (forall ix, in_range ix dims -> dot ss ix = dot str ix) -> forall d, (d < length dims)%nat -> 2 <= nth d dims 0 -> nth d ss 0 = nth d str 0.
Proof.
  induction dims as [|e dims IH]; intros ss str P L1 L2 H d Hd H2; [cbn in Hd; lia|]. destruct ss as [|s ss]; [discriminate|]. destruct str as [|t str]; [discriminate|]. inversion P as [|? ? He P']; subst. cbn in L1, L2.
  assert (Z0 : in_range (repeat 0 (length dims)) dims) by (clear - P'; induction P'; constructor; [lia|assumption]).
  assert (D0 : forall l, dot l (repeat 0 (length dims)) = 0) by (intro l; generalize (length dims); revert l; induction l as [|a l IHl]; intros [|n]; cbn [repeat dot]; try reflexivity; rewrite IHl; lia).
  destruct d as [|d]; cbn [nth] in *.
  - assert (I : in_range (1 :: repeat 0 (length dims)) (e :: dims)) by (constructor; [lia|exact Z0]). specialize (H _ I). cbn [dot] in H. rewrite !D0 in H. lia.
  - apply (IH ss str); try assumption; try lia; [|cbn in Hd; lia]. intros ix Hix. assert (I : in_range (0 :: ix) (e :: dims)) by (constructor; [lia|exact Hix]). specialize (H _ I). cbn [dot] in H. lia.
Qed.
Lemma strides_enough : forall dims ss str ix, length ss = length dims -> length str = length dims -> (forall d, (d < length dims)%nat -> 2 <= nth d dims 0 -> nth d ss 0 = nth d str 0) -> in_range ix dims -> dot ss ix = dot str ix.
Proof.
  induction dims as [|e dims IH]; intros ss str ix L1 L2 H Hix; destruct ss as [|s ss], str as [|t str]; try discriminate; [reflexivity|]. inversion Hix as [|i ? jx ? Hi Hj]; subst. cbn in L1, L2. cbn [dot].
  rewrite (IH ss str jx); try assumption; try lia; [|intros d Hd; apply (H (S d)); cbn; lia]. destruct (Z_lt_le_dec e 2) as [He|He]; [assert (i = 0) by lia; subst; lia|]. pose proof (H O ltac:(cbn; lia) He) as E. cbn [nth] in E. subst. reflexivity.
Qed.
Theorem C126_fixed (V : Type) (x : view) k ss (u w : V) : u <> w -> (0 < k)%nat -> vwf x -> positive (vdims x) -> length ss = k ->
  if (length (vdims x) =? k)%nat
  then exists a, facc_of k ss x = Ok a /\
         ((forall d, (d < k)%nat -> 2 <= nth d (vdims x) 0 -> nth d ss 0 = nth d (vstr x) 0) ->
            forall (m : mem V) ix v, readable m x -> in_range ix (vdims x) -> (exists u', elem m x ix = Some u' /\ acc_get a ix m = Ok u') /\
              exists m', acc_set a ix v m = Ok m' /\ elem m' x ix = Some v /\ (forall b c, vaddr x ix <> Ok (b, c) -> m' b c = m b c)) /\
         (~ (forall d, (d < k)%nat -> 2 <= nth d (vdims x) 0 -> nth d ss 0 = nth d (vstr x) 0) ->
            exists (m : mem V) ix, readable m x /\ in_range ix (vdims x) /\ elem m x ix = Some u /\ acc_get a ix m = Ok w)
  else facc_of k ss x = Throw.
Proof.
  intros Huw Hk W P Ls. unfold facc_of. destruct k as [|k]; [lia|]. destruct (length (vdims x) =? S k)%nat eqn:L; [|reflexivity]. apply Nat.eqb_eq in L. cbn [assrt]. eexists. split; [reflexivity|]. split.
  - intros H m ix v Rd Hix. destruct (acc_view x ix m v W Hix Rd) as [G S]. unfold acc_get, acc_set in *. cbn [ablk aoff astr] in *. rewrite (strides_enough (vdims x) ss (vstr x) ix); [|lia|apply W|rewrite L; exact H|exact Hix].
    specialize (Rd ix Hix). destruct (elem m x ix) as [u'|]; [|congruence]. split; [exists u'; split; [reflexivity|exact G]|exact S].
  - intro H. assert (E : exists ix, In ix (all_indices (vdims x)) /\ dot ss ix <> dot (vstr x) ix).
    { destruct (Exists_dec (fun ix => dot ss ix <> dot (vstr x) ix) (all_indices (vdims x))) as [E|E]; [intro ix; destruct (Z.eq_dec (dot ss ix) (dot (vstr x) ix)); [right; tauto|now left]|now apply Exists_exists in E|].
      exfalso. apply H. rewrite <- L. apply strides_forced; [exact P|lia|apply W|]. intros ix Hix. destruct (Z.eq_dec (dot ss ix) (dot (vstr x) ix)) as [|Ne]; [assumption|]. exfalso. apply E. apply Exists_exists. exists ix. split; [now apply in_all_indices|exact Ne]. }
    destruct E as (ix & Hin & Ne). apply in_all_indices in Hin. exists (fun b a => Some (if (a =? voff x + dot (vstr x) ix) then u else w)), ix.
    split; [intros jx Hjx; unfold elem; rewrite (vaddr_cell x jx (proj1 W) Hjx); unfold cell; discriminate|]. split; [exact Hin|]. split.
    + unfold elem. rewrite (vaddr_cell x ix (proj1 W) Hin). unfold cell. now rewrite Z.eqb_refl.
    + unfold acc_get, load. cbn [ablk aoff astr]. now replace (voff x + dot ss ix =? voff x + dot (vstr x) ix) with false by lia.
Qed.
Print Assumptions C126_fixed.
(* FixedTensorAccessor0 takes any vector, also an empty one, where it reads outside *)
Theorem C126_fixed_scalar_refuted (V : Type) b o d s (m : mem V) : facc_of 0 [] (View b o [d] [s]) = Ok (Acc b o []) /\ (d <> 1 -> acc_of 0 (View b o [d] [s]) = Throw) /\
  (m b o = None -> d = 0 -> readable m (View b o [d] [s]) /\ acc_get (Acc b o []) [] m = UB).
Proof.
  split; [reflexivity|]. split.
  - intro H. unfold acc_of. cbn [vdims length]. change (zget [d] 0) with (@Ok Z d). cbn. replace (d =? 1) with false by lia. reflexivity.
  - intros H ->. split; [intros ix Hix; inversion Hix; lia|]. unfold acc_get, load. cbn [ablk aoff astr dot]. now rewrite Z.add_0_r, H.
Qed.
Print Assumptions C126_fixed_scalar_refuted.
Example C126_case : let x := View 0 1 [2; 3] [1; 2] in let m := zm [9; 1; 4; 2; 5; 3; 6] in vwf x /\ readable m x /\ positive (vdims x) /\ length [1; 2] = 2%nat /\
  (exists a, acc_of 2 x = Ok a /\ map (fun ix => acc_get a ix m) (all_indices [2; 3]) = map Ok [1; 2; 3; 4; 5; 6]) /\
  (exists a, facc_of 2 [3; 1] x = Ok a /\ acc_get a [1; 0] m = Ok 5 /\ elem m x [1; 0] = Some 4).
Proof. cbn zeta. split; [split; [reflexivity|cbn; repeat constructor; lia]|]. split; [now apply readable_by|]. split; [cbn; repeat constructor; lia|]. split; [reflexivity|]. split; eexists; (split; [reflexivity|]); [vm_compute; reflexivity|split; reflexivity]. Qed.
