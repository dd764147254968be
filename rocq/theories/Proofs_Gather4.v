From Verif Require Import Base BaseFacts Map Model_Index Model_View Model_Tensor Model_Containers Model_Gather Model_Gather2 Proofs_Containers2 Proofs_Containers3 Proofs_Containers4
  Spec_Index Spec_View Spec_Tensor Spec_Gather Proofs_Axes Proofs_Index Proofs_Tensor Accum Proofs_Gather Proofs_Gather2 Proofs_Gather3 Proofs_Program.
Local Open Scope Z_scope.
Section S4.
Context {R : cring}.
Add Ring RrG4 : (cth R).
Notation memR := (mem (car R)).
Lemma rm_forall {A} (P : A -> Prop) d l : Forall P l -> Forall P (rm d l).
Proof.
  intro F. apply Forall_forall. intros a Ha. rewrite Forall_forall in F. apply F. unfold rm in Ha. apply in_app_iff in Ha.
  destruct Ha as [Ha|Ha]; [rewrite <- (firstn_skipn d l)|rewrite <- (firstn_skipn (S d) l)]; apply in_app_iff; auto.
Qed.
Lemma except_ok r x o n : vwf r -> vwf x -> length (vdims x) = length (vdims r) -> 0 <= o < ndims r - 1 -> 0 <= n < ndims r - 1 ->
  rm (Z.to_nat o) (vdims r) = rm (Z.to_nat n) (vdims x) -> Forall (fun s => s < INT_MAX) (vstr r) ->
  exists ax : list (Z * Z2O),
    co_scrunch_except r x o n = Ok (View (vblk r) (voff r) (nth (Z.to_nat o) (vdims r) 0 :: map fst ax) (nth (Z.to_nat o) (vstr r) 0 :: map (fun p => fst (snd p)) ax),
       View (vblk x) (voff x) (nth (Z.to_nat n) (vdims x) 0 :: map fst ax) (nth (Z.to_nat n) (vstr x) 0 :: map (fun p => snd (snd p)) ax)) /\
    Permutation (offpairs (map (fun p => fst (snd p)) ax) (map (fun p => snd (snd p)) ax) (map fst ax))
      (offpairs (rm (Z.to_nat o) (vstr r)) (rm (Z.to_nat n) (vstr x)) (rm (Z.to_nat o) (vdims r))).
Proof.
  intros [Lr Nr] [Lx Nx] Lxr Ho Hn Ed Mx. unfold ndims in *. unfold co_scrunch_except. replace (n =? -1) with false by lia. unfold ndims. rewrite Lxr, Z.eqb_refl.
  replace (o <? _) with true by lia. replace (n <? _) with true by lia. cbn [assrt]. rewrite !vremove_ok by lia. cbn [bind].
  destruct (co_scrunch_ok (View (vblk r) (voff r) (rm (Z.to_nat o) (vdims r)) (rm (Z.to_nat o) (vstr r)))
              (View (vblk x) (voff x) (rm (Z.to_nat n) (vdims x)) (rm (Z.to_nat n) (vstr x)))) as (ax & E & P & _).
  - split; cbn; [rewrite !rm_length by lia; lia|now apply rm_forall].
  - split; cbn; [rewrite !rm_length by lia; lia|now apply rm_forall].
  - cbn. now symmetry.
  - cbn. now apply rm_forall.
  - rewrite E. cbn [bind]. rewrite (zget_some (vdims r) o 0), (zget_some (vstr r) o 0), (zget_some (vdims x) n 0), (zget_some (vstr x) n 0) by lia. cbn [bind vdims vstr].
    exists ax. split; [reflexivity|]. cbn [vdims vstr] in P. rewrite addrs2_axes in P. exact P.
Qed.
Lemma slpairs_perm r x a b N N' es : Permutation N N' -> Permutation (slpairs r x a b N es) (slpairs r x a b N' es).
Proof.
  intro P. unfold slpairs. induction es as [|e es IH]; [constructor|]. cbn. apply Permutation_app; [now apply Permutation_map|assumption].
Qed.
Lemma slices_op_ok (m : memR) r x g qs n o r' x' : rd (garr g) qs -> length (vdims x) = length (vdims r) -> Forall (fun s => s < INT_MAX) (vstr r) ->
  0 <= n < ndims r - 1 -> 0 <= o < ndims r - 1 -> slices_pre m r x (Z.to_nat o) (Z.to_nat n) (mol_calls qs) ->
  gout g = nth (Z.to_nat o) (vdims r) 0 -> gin g = nth (Z.to_nat n) (vdims x) 0 ->
  co_scrunch_except r x o n = Ok (r', x') -> (length (vdims r') = 2%nat \/ length (vdims r') = 3%nat) -> last (vstr r') 0 = 1 -> last (vstr x') 0 = 1 ->
  exists m', gather_slices r x g n o m = Ok m' /\ slices_post m m' r x (Z.to_nat o) (Z.to_nat n) (mol_calls qs).
Proof.
  intros H Lxr Mx Hn Ho Pre Go Gi Ex L23 U1 U2. assert (Pre' := Pre). destruct Pre' as (Wr & Wx & Ho' & Hn' & Ed & _).
  destruct (except_ok r x o n Wr Wx Lxr Ho Hn Ed Mx) as (ax & E & P). rewrite Ex in E. injection E as -> ->.
  unfold gather_slices. replace (o =? -1) with false by lia. rewrite Ex. cbn [bind vdims vstr zget]. cbn [zget vget Z.ltb Z.compare nth_error Z.to_nat bind].
  rewrite Go, Gi, !Z.eqb_refl. cbn [assrt].
  set (L := slpairs r x (nth (Z.to_nat o) (vstr r) 0) (nth (Z.to_nat n) (vstr x) 0) (offpairs (map (fun p => fst (snd p)) ax) (map (fun p => snd (snd p)) ax) (map fst ax)) (mol_calls qs)).
  assert (PL : Permutation L (slist r x (Z.to_nat o) (Z.to_nat n) (mol_calls qs))).
  { rewrite <- (slpairs_cells r x _ _ (mol_calls qs) Wr Wx Ho' Hn' Ed). now apply slpairs_perm. }
  destruct (slist_ok m r x _ _ _ L Pre PL) as (m' & E & Po). exists m'. split; [|exact Po]. rewrite <- E. unfold L.
  destruct ax as [|[d1 [a1 b1]] [|[d2 [a2 b2]] [|]]]; cbn [length map vdims] in L23; try lia; cbn [map fst snd last vstr] in *; rewrite U1, U2; cbn [Z.eqb Pos.eqb andb].
  - apply (slice_loop_ok (View (vblk r) (voff r) _ _) (View (vblk x) (voff x) _ _)); auto.
  - apply (slice_loop_ok (View (vblk r) (voff r) _ _) (View (vblk x) (voff x) _ _)); auto.
Qed.
End S4.

(* ---- weighted maps *)
Definition inter (l : list (Z * Z)) : list Z := flat_map (fun p => [fst p; snd p]) l.
Definition wq (q : Z * list (Z * Z)) : Z * list Z := (fst q, inter (snd q)).
Lemma inter_length l : length (inter l) = (2 * length l)%nat.
Proof. unfold inter. induction l as [|p l IH]; [reflexivity|]. cbn. cbn in IH. rewrite IH. lia. Qed.
Lemma inter_nth l j : (j < length l)%nat -> nth (2 * j) (inter l) 0 = fst (nth j l (0, 0)) /\ nth (2 * j + 1) (inter l) 0 = snd (nth j l (0, 0)).
Proof.
  revert j. induction l as [|p l IH]; intros j H; [cbn in H; lia|]. destruct j as [|j]; [split; reflexivity|]. cbn in H.
  replace (2 * S j)%nat with (S (S (2 * j))) by lia. cbn [inter flat_map app nth Nat.add]. apply IH. lia.
Qed.
(* entries (target,(source,weight)) *)
Definition wcalls (qs : list (Z * list (Z * Z))) : list (Z * (Z * Z)) := flat_map (fun q => map (pair (fst q)) (snd q)) qs.
Lemma foldM_wcalls {S} (f : Z -> Z * Z -> S -> res S) qs s :
  foldM (fun q s => foldM (fun p s => f (fst q) p s) (snd q) s) qs s = foldM (fun e s => f (fst e) (snd e) s) (wcalls qs) s.
Proof. unfold wcalls. rewrite foldM_flat_map. apply foldM_ext. intros q s' _. now rewrite foldM_map. Qed.
Lemma wread p qs i : rd p (map wq qs) -> 0 <= i < Z.of_nat (length qs) -> let q := nth (Z.to_nat i) qs (0, []) in
  hl_head p i = Ok (fst q) /\ wg_size_of p i = Ok (Z.of_nat (length (snd q))) /\
  forall j, 0 <= j < Z.of_nat (length (snd q)) -> wg_src p i j = Ok (fst (nth (Z.to_nat j) (snd q) (0, 0))) /\ wg_weight p i j = Ok (snd (nth (Z.to_nat j) (snd q) (0, 0))).
Proof.
  intros (Sz & H) Hi q. destruct (H i (fst q) (inter (snd q))) as (A & B & C).
  - rewrite map_length. assumption.
  - change (0, []) with (wq (0, [])). now rewrite map_nth.
  - split; [assumption|]. rewrite inter_length in *. split.
    + unfold wg_size_of. rewrite B. cbn [bind]. unfold cdiv. cbn [Z.eqb]. f_equal. replace (Z.of_nat (2 * length (snd q))) with (Z.of_nat (length (snd q)) * 2) by lia. now apply Z.quot_mul.
    + intros j Hj. unfold wg_src, wg_weight. rewrite !C by lia. replace (Z.to_nat (2 * j)) with (2 * Z.to_nat j)%nat by lia. replace (Z.to_nat (2 * j + 1)) with (2 * Z.to_nat j + 1)%nat by lia.
      destruct (inter_nth (snd q) (Z.to_nat j) ltac:(lia)) as [-> ->]. auto.
Qed.
Lemma wfor_each_ok {S} p qs (f : Z -> Z -> Z -> S -> res S) s : rd p (map wq qs) ->
  wg_for_each p f s = foldM (fun e s => f (fst e) (fst (snd e)) (snd (snd e)) s) (wcalls qs) s.
Proof.
  intro H. rewrite <- (foldM_wcalls (fun t p s => f t (fst p) (snd p) s)). unfold wg_for_each. assert (Sz := proj1 H). rewrite map_length in Sz. rewrite Sz. apply (forZ_list (0, [])). intros i s' Hi.
  destruct (wread p qs i H Hi) as (A & B & C). rewrite A, B. cbn [bind]. apply (forZ_list (0, 0)). intros j s1 Hj. destruct (C j Hj) as [-> ->]. reflexivity.
Qed.
Section W.
Context {R : cring} (fl : Z -> R).
Add Ring RrW : (cth R).
Notation memR := (mem (car R)).
Lemma rmw_addw w p q (m : memR) : rmw (f_addw w) p [q] m = do v <- (do u <- loadA m q; Ok (cmul w u)); incA p v m.
Proof. unfold incA, rmw. unfold loadA, load. cbn. unfold loadA, load. destruct (m (fst p) (snd p)); destruct (m (fst q) (snd q)); reflexivity. Qed.
Definition wks (es : list (Z * (Z * Z))) (K : Z) := flat_map (fun e => map (pair e) (zrange K)) es.
Definition wsum (m : memR) (r x : mview) (es : list (Z * (Z * Z))) (p : addr) : R :=
  added (fun ek => mcell r (fst (fst ek)) (snd ek)) (fun ek => cmul (fl (snd (snd (fst ek)))) (val0 m (mcell x (fst (snd (fst ek))) (snd ek)))) (wks es (n1 x)) p.
Definition weighted_pre (m : memR) (r x : mview) (es : list (Z * (Z * Z))) : Prop :=
  (forall e k, In e es -> 0 <= k < n1 x -> at_ m (mcell r (fst e) k) <> None /\ at_ m (mcell x (fst (snd e)) k) <> None) /\
  (forall e e' k k', In e es -> In e' es -> 0 <= k < n1 x -> 0 <= k' < n1 x -> mcell r (fst e) k <> mcell x (fst (snd e')) k').
Lemma weighted_ok _r _x r x r' x' g qs (m : memR) : rd (garr g) (map wq qs) -> view2 _r = Ok r -> view2 _x = Ok x ->
  split_cols (goc g) 1 r = Ok r' -> split_cols (gic g) 1 x = Ok x' -> weighted_pre m r' x' (wcalls qs) ->
  exists m', gather_weighted fl _r _x g m = Ok m' /\ plus_on (wsum m r' x' (wcalls qs)) m m'.
Proof.
  intros H Er Ex Sr Sx [H1 H2]. unfold gather_weighted. rewrite Er, Ex. cbn [bind]. rewrite Sr, Sx. cbn [bind].
  set (t := fun ek : (Z * (Z * Z)) * Z => mcell r' (fst (fst ek)) (snd ek)). set (s := fun ek : (Z * (Z * Z)) * Z => mcell x' (fst (snd (fst ek))) (snd ek)).
  set (w := fun ek : (Z * (Z * Z)) * Z => fl (snd (snd (fst ek)))).
  assert (Ik : forall ek, In ek (wks (wcalls qs) (n1 x')) -> In (fst ek) (wcalls qs) /\ 0 <= snd ek < n1 x').
  { intros ek Hek. unfold wks in Hek. apply in_flat_map in Hek. destruct Hek as (e & He & Hk). apply in_map_iff in Hk. destruct Hk as (k & <- & Hk). apply in_zrange in Hk. auto. }
  destruct (accum_ok t (fun ek m => do u <- loadA m (s ek); Ok (cmul (w ek) u)) (fun ek => cmul (w ek) (val0 m (s ek))) (wks (wcalls qs) (n1 x')) m
      (fun p => exists ek, In ek (wks (wcalls qs) (n1 x')) /\ t ek = p)) as (m' & E & P).
  - intros a Ha. exists a. auto.
  - intros a Ha. apply Ik in Ha. destruct Ha. now apply H1.
  - intros a m' Ha Ag. rewrite (loadA_some m' (s a) (val0 m (s a))); [reflexivity|]. rewrite Ag.
    + apply val0_at. destruct (Ik a Ha). now apply H1.
    + intros (b & Hb & Eb). destruct (Ik a Ha), (Ik b Hb). now apply (H2 (fst b) (fst a) (snd b) (snd a)).
  - exists m'. split; [|exact P]. rewrite <- E. unfold accum, wks. rewrite foldM_flat_map.
    transitivity (foldM (fun e => row_addw r' x' (fst e) (fst (snd e)) (fl (snd (snd e)))) (wcalls qs) m).
    + rewrite <- (foldM_wcalls (fun t p => row_addw r' x' t (fst p) (fl (snd p)))). assert (Sz := proj1 H). rewrite map_length in Sz. rewrite Sz. apply (forZ_list (0, [])). intros i s' Hi.
      destruct (wread _ qs i H Hi) as (A & B & C). rewrite A, B. cbn [bind]. apply (forZ_list (0, 0)). intros j s1 Hj. destruct (C j Hj) as [-> ->]. reflexivity.
    + apply foldM_ext. intros e m0 _. unfold row_addw, forZ. rewrite foldM_map. apply foldM_ext. intros k m1 _. rewrite rmw_addw. reflexivity.
Qed.
Lemma wsum_cell m r x es i k : 0 <= k < n1 x ->
  (forall e k', In e es -> 0 <= k' < n1 x -> mcell r (fst e) k' = mcell r i k -> fst e = i /\ k' = k) ->
  wsum m r x es (mcell r i k) = rsum (map (fun e => cmul (fl (snd (snd e))) (val0 m (mcell x (fst (snd e)) k))) (filter (fun e => fst e =? i) es)).
Proof.
  intros Hk Inj. unfold wsum. rewrite added_if, filter_rsum. unfold wks. rewrite rsum_flat_map. apply rsum_ext. intros e He. rewrite map_map. cbn [fst snd].
  destruct (fst e =? i) eqn:Ei.
  - assert (Ee : fst e = i) by lia. rewrite (rsum_single R _ _ k); [|apply zrange_nodup|now apply in_zrange|].
    + rewrite Ee, aeqb_refl. reflexivity.
    + intros k' Hk' Nk. apply in_zrange in Hk'. destruct (aeqb _ _) eqn:Ea; [|reflexivity]. exfalso. apply aeqb_eq in Ea. apply Nk. now apply (Inj e k').
  - apply rsum_zero. intros k' Hk'. apply in_zrange in Hk'. destruct (aeqb _ _) eqn:Ea; [|reflexivity]. exfalso. apply aeqb_eq in Ea.
    destruct (Inj e k' He Hk' Ea). lia.
Qed.
End W.
Definition wswap (e : Z * (Z * Z)) : Z * (Z * Z) := (fst (snd e), (fst e, snd (snd e))).
Lemma wvals k es : vals k (flat_map (fun e : Z * (Z * Z) => [(fst (snd e), fst e); (fst (snd e), snd (snd e))]) es) =
  inter (map (fun e => (fst e, snd (snd e))) (filter (fun e => fst (snd e) =? k) es)).
Proof.
  induction es as [|[t [s w]] es IH]; [reflexivity|]. unfold vals, inter in *. cbn [flat_map filter fst snd app]. destruct (s =? k); cbn [map flat_map filter fst snd app]; now rewrite IH.
Qed.
Lemma fold_two es : forall m, fold_left (fun m (e : Z * (Z * Z)) => mol_push (fst (snd e)) (snd (snd e)) (mol_push (fst (snd e)) (fst e) m)) es m =
  fold_left (fun m p => mol_push (fst p) (snd p) m) (flat_map (fun e => [(fst (snd e), fst e); (fst (snd e), snd (snd e))]) es) m.
Proof. induction es as [|e es IH]; intro m; [reflexivity|]. cbn. apply IH. Qed.
Lemma wg_make_inv_ok g qs : wshows (garr g) qs -> exists g' qs', wg_make_inv g = Ok g' /\ wshows (garr g') qs' /\ Permutation (wpairs qs') (map wswap (wpairs qs)) /\
  gout g' = gin g /\ gin g' = gout g.
Proof.
  intro H. unfold wg_make_inv. rewrite (wfor_each_ok _ qs _ _ H). rewrite (foldM_pure (fun e m => mol_push (fst (snd e)) (snd (snd e)) (mol_push (fst (snd e)) (fst e) m))). cbn [bind].
  change (wcalls qs) with (wpairs qs). rewrite fold_two. set (ps := flat_map _ (wpairs qs)). change (fold_left _ ps []) with (mol_run ps). set (im := mol_run ps).
  destruct (prep_reserve (ap_size (garr g) + mol_tsize im) ap_new [] prep_new) as (p & -> & P). cbn [bind].
  destruct (push_rows_ok (by_key im) p [] P) as (p' & -> & P'). cbn [bind app] in *. eexists.
  set (grp := fun k => map (fun e : Z * (Z * Z) => (fst e, snd (snd e))) (filter (fun e => fst (snd e) =? k) (wpairs qs))).
  exists (map (fun q => (fst q, grp (fst q))) (by_key im)). split; [reflexivity|]. cbn [garr gout gin]. split; [|split; [|auto]].
  - apply prep_rd in P'. unfold wshows. rewrite map_map. cbn [fst snd].
    replace (map (fun q => (fst q, flat_map (fun p => [fst p; snd p]) (grp (fst q)))) (by_key im)) with (by_key im); [exact P'|].
    rewrite <- (map_id (by_key im)) at 1. apply map_ext_in. intros [k l] Hin. apply (Permutation_in _ (by_key_perm im)) in Hin. cbn [fst]. f_equal.
    assert (F : mfind k im = Some l) by (apply mfind_iff; [apply mol_wf|assumption]). unfold im in F. rewrite mol_find in F. unfold ps in F. rewrite wvals in F. fold (grp k) in F. fold (inter (grp k)).
    destruct (inter (grp k)); [discriminate|]. now injection F.
  - unfold wpairs at 1. rewrite flat_map_concat_map, map_map, <- flat_map_concat_map. cbn [fst snd].
    transitivity (flat_map (fun k => map wswap (filter (fun e => fst (snd e) =? k) (wpairs qs))) (map fst (by_key im))).
    + rewrite (flat_map_concat_map _ (map fst _)), map_map, <- flat_map_concat_map. match goal with |- Permutation ?a ?b => assert (Eab : a = b); [|rewrite Eab; reflexivity] end. apply flat_map_ext. intros [k l]. cbn [fst]. unfold grp. rewrite map_map. apply map_ext_in.
      intros e He. apply filter_In in He. destruct He as [_ He]. unfold wswap. f_equal. lia.
    + assert (Mf : forall l, flat_map (fun k => map wswap (filter (fun e => fst (snd e) =? k) (wpairs qs))) l = map wswap (flat_map (fun k => filter (fun e => fst (snd e) =? k) (wpairs qs)) l)).
      { induction l as [|a l IH]; [reflexivity|]. cbn. now rewrite map_app, IH. }
      rewrite Mf. apply Permutation_map. apply (filter_split_perm (fun e => fst (snd e))).
      * apply (Permutation_NoDup (l := map fst im)); [apply Permutation_map; symmetry; apply by_key_perm|]. apply mol_wf.
      * intros e He. apply (Permutation_in (l := map fst im)); [apply Permutation_map; symmetry; apply by_key_perm|].
        destruct (mfind (fst (snd e)) im) as [l|] eqn:F; [apply mfind_in in F; apply (in_map fst) in F; exact F|]. exfalso. unfold im in F. rewrite mol_find in F. unfold ps in F. rewrite wvals in F.
        destruct (filter (fun e0 => fst (snd e0) =? fst (snd e)) (wpairs qs)) as [|e' l] eqn:Ef; [|discriminate].
        assert (Hin : In e (filter (fun e0 => fst (snd e0) =? fst (snd e)) (wpairs qs))) by (apply filter_In; split; [assumption|apply Z.eqb_refl]). now rewrite Ef in Hin.
Qed.

Section W2.
Context {R : cring} (fl : Z -> R).
Add Ring RrW2 : (cth R).
Notation memR := (mem (car R)).
Lemma weighted_mat (m : memR) r x g qs N Nx K A X : mat m r N K A -> mat m x Nx K X -> distinct_cells r -> disjoint_views r x ->
  goc g = 1 -> gic g = 1 -> wshows (garr g) qs -> (forall e, In e (wpairs qs) -> 0 <= fst e < N /\ 0 <= fst (snd e) < Nx) ->
  exists m', gather_weighted fl r x g m = Ok m' /\ mat m' r N K (fun i k => cadd (A i k) (wgathered fl (wpairs qs) X i k)) /\ untouched m m' r.
Proof.
  intros Hr Hx Dr Dx C1 C2 Q W. assert (Hr' := Hr). assert (Hx' := Hx).
  destruct (mat_view2 _ _ _ _ _ Hr) as (rv & Er & Nr & Kr & Vr & Cr). destruct (mat_view2 _ _ _ _ _ Hx) as (xv & Exx & Nxx & Kx & Vx & Cx).
  destruct Hr' as (Dr1 & Lr & Fr). destruct Hx' as (Dx1 & Lx & Fx). set (es := wpairs qs) in *.
  assert (Inj : forall i k i' k', 0 <= i < N -> 0 <= k < K -> 0 <= i' < N -> 0 <= k' < K -> mcell rv i k = mcell rv i' k' -> i = i' /\ k = k').
  { intros i k i' k' H1 H2 H3 H4 E. assert (E' : [i; k] = [i'; k']); [|now injection E'].
    apply Dr; rewrite ?Dr1, ?range2; auto. now rewrite !Vr, E. }
  assert (Pre : weighted_pre m rv xv es).
  { split.
    - intros e k He Hk. rewrite Kx in Hk. destruct (W e He). rewrite Cr, Cx by auto. split; discriminate.
    - intros e e' k k' He He' Hk Hk' E. rewrite Kx in *. destruct (W e He), (W e' He'). apply (Dx [fst e; k] [fst (snd e'); k']); rewrite ?Dr1, ?Dx1, ?range2; auto.
      now rewrite Vr, Vx, E. }
  destruct (weighted_ok fl r x rv xv rv xv g qs m) as (m' & E & P); auto; [rewrite C1; apply split_one|rewrite C2; apply split_one|].
  exists m'. split; [assumption|]. change (wcalls qs) with es in P. split.
  - split; [assumption|]. split; [assumption|]. intros i k Hi Hk. unfold elem. rewrite Vr. change (at_ m' (mcell rv i k) = Some (cadd (A i k) (wgathered fl es X i k))).
    rewrite (plus_at _ _ _ _ _ P (Cr i k Hi Hk)). do 2 f_equal. rewrite wsum_cell.
    + unfold wgathered. apply rsum_ext. intros e He. apply filter_In in He. destruct He as [He _]. unfold val0. rewrite Cx; auto. now apply W.
    + lia.
    + intros e k' He Hk' Ec. destruct (W e He). apply Inj; auto; lia.
  - intros b a Ho. change (at_ m' (b, a) = at_ m (b, a)). apply (plus_off _ _ _ _ P). unfold wsum, added.
    rewrite filter_rsum. apply rsum_zero. intros ek Hek. unfold wks in Hek. apply in_flat_map in Hek. destruct Hek as (e & He & Hk). apply in_map_iff in Hk. destruct Hk as (k & <- & Hk). apply in_zrange in Hk. rewrite Kx in Hk. destruct (W _ He).
    destruct (aeqb _ _) eqn:Ea; [|reflexivity]. exfalso. apply aeqb_eq in Ea. cbn [fst snd] in Ea. apply (Ho [fst e; k]); [now rewrite Dr1, range2|]. rewrite Vr. f_equal. exact Ea.
Qed.
End W2.
