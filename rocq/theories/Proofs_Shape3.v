(* Proofs_Shape3.v -- converting offsets, and stride vectors of fused, removed and selected axes *)
From Verif Require Import Base BaseFacts Model_Index Model_View Model_Tensor Model_Groups Model_Shape Spec_Index Proofs_Axes Proofs_Index Proofs_View Spec_Shape Proofs_Shape Proofs_Shape2.
Local Open Scope Z_scope.

(* ---- offs(j,source) *)
Definition conv_step (p : Z * Z) (st : Z * Z) : res (Z * Z) :=
  let '(j, t) := st in do r <- cdiv j (fst p); Ok (j - r * fst p, t + snd p * r).
Lemma conv_loop chk j source s : length source = length s ->
  gs_convert chk j source s = (do ' (_, t) <- foldM conv_step (combine source s) (j, 0); Ok t).
Proof.
  intro L. unfold gs_convert, passert. rewrite L, Nat.eqb_refl.
  assert (E : forZ (zlen s) (fun i (st : Z * Z) => let '(j, t) := st in do o <- zget source i; do r <- cdiv j o; do a <- zget s i; Ok (j - r * o, t + a * r)) (j, 0)
              = foldM conv_step (combine source s) (j, 0)).
  { rewrite <- (zip_loop (fun o a st => conv_step (o, a) st)) by lia. unfold forZ. apply foldM_ext. intros i [j' t'] I. apply in_zrange in I.
    destruct (zget_ok source i) as (o & -> & _); [lia|]. destruct (zget_ok s i) as (a & -> & _); [lia|]. cbn [bind conv_step fst snd].
    destruct (cdiv j' o); reflexivity. }
  rewrite E. destruct chk; reflexivity.
Qed.
Lemma place_ge0 s dims ix : greedy s dims -> in_range ix dims -> 0 <= place s ix.
Proof.
  revert dims ix; induction s as [|x s IH]; intros dims ix G I; [cbn; lia|]. destruct dims as [|d ds]; [contradiction|].
  destruct G as (G1 & G2 & G3). inversion I as [|i d' ix' ds' Hi I']; subst. rewrite place_cons. specialize (IH _ _ G3 I'). nia.
Qed.
Lemma greedy_length s dims : greedy s dims -> length s = length dims.
Proof. revert dims; induction s as [|x s IH]; intros [|d ds] G; try contradiction; [reflexivity|]. cbn. f_equal. apply IH; exact (proj2 (proj2 G)). Qed.
Lemma conv_loop_ok : forall source s dims ix t, length s = length dims -> greedy source dims -> in_range ix dims ->
  foldM conv_step (combine source s) (place source ix, t) = Ok (0, t + place s ix).
Proof.
  induction source as [|x source IH]; intros s dims ix t L G I.
  - destruct dims; [|contradiction]. inversion I; subst. destruct s; [|discriminate]. cbn. f_equal. f_equal. lia.
  - destruct dims as [|d ds]; [contradiction|]. destruct G as (G1 & G2 & G3). inversion I as [|i d' ix' ds' Hi I']; subst.
    destruct s as [|a s]; [discriminate|]. injection L as L. cbn [combine foldM]. rewrite !place_cons. unfold conv_step at 1. cbn [fst snd].
    pose proof (G2 _ I'). pose proof (place_ge0 _ _ _ G3 I').
    assert (Q : Z.quot (x * i + place source ix') x = i).
    { rewrite Z.quot_div_nonneg by nia. rewrite Z.mul_comm, Z.div_add_l by lia. rewrite Z.div_small by lia. lia. }
    unfold cdiv. replace (x =? 0) with false by lia. cbn [bind]. rewrite Q.
    replace (x * i + place source ix' - i * x) with (place source ix') by lia.
    rewrite (IH s ds ix' _ L G3 I'). f_equal. f_equal. lia.
Qed.
Lemma convert_ok chk source s dims ix : length s = length dims -> greedy source dims -> in_range ix dims ->
  gs_convert chk (place source ix) source s = Ok (place s ix).
Proof.
  intros L G I. rewrite conv_loop by (rewrite L; now apply greedy_length). rewrite (conv_loop_ok source s dims ix 0 L G I). cbn [bind]. f_equal. 
Qed.
Lemma convert_zero chk j source s : length source = length s -> In 0 source -> gs_convert chk j source s = UB.
Proof.
  intros L I. rewrite conv_loop by assumption.
  assert (G : forall source s st, length source = length s -> In 0 source -> foldM conv_step (combine source s) st = UB).
  { clear. induction source as [|x source IH]; intros [|a s] [j t] L I; try discriminate; [contradiction|]. injection L as L. cbn [combine foldM]. unfold conv_step at 1. cbn [fst snd].
    unfold cdiv. destruct (x =? 0) eqn:E; [reflexivity|]. cbn [bind]. destruct I as [->|I]; [discriminate|]. now apply IH. }
  now rewrite G.
Qed.
Lemma greedy_row_major dims : positive dims -> greedy (strides_of 1 dims) dims.
Proof.
  induction 1 as [|d ds Hd H IH]; [exact I|]. rewrite strides_of_cons. cbn [greedy]. rewrite Z.mul_1_l. repeat split; auto.
  - now apply prod_pos.
  - intros ix R. rewrite <- dot_place, dot_strides_of by now apply in_range_length. pose proof (flat_range ix ds R). lia.
Qed.

(* ---- fuse *)
Lemma gs_fuse_ok (p q : list Z) x r : gs_fuse (zlen p) (zlen (q ++ [x])) (p ++ (q ++ [x]) ++ r) = Ok (p ++ x :: r).
Proof.
  unfold gs_fuse. rewrite !app_length. cbn [length]. rewrite raw_ok by lia. cbn [bind].
  rewrite (repeat_split 0 (length p) (S (length r))) by lia.
  rewrite (copy_in_gen _ _ _ _ _ [] p ((q ++ [x]) ++ r) [] (repeat 0 (length p)) (repeat 0 (S (length r)))); try reflexivity; [|now rewrite repeat_length].
  cbn [bind app]. unfold copy_to. ifF.
  rewrite (copy_in_gen _ _ _ _ _ (p ++ q) (x :: r) [] p (repeat 0 (S (length r))) []); rewrite ?app_nil_r, ?app_length, ?repeat_length; cbn [length]; try lia; try reflexivity.
  rewrite <- !app_assoc. reflexivity.
Qed.
Lemma run_length q dq : run q dq -> length q = length dq.
Proof.
  revert dq; induction q as [|x q IH]; intros dq R; [destruct dq; contradiction|]. destruct dq as [|d dq]; [destruct q; contradiction|].
  destruct q as [|y q].
  - destruct dq; [reflexivity|contradiction].
  - destruct dq as [|e dq]; [contradiction|]. specialize (IH (e :: dq) (proj2 R)). cbn [length] in *. lia.
Qed.
Lemma run_place x : forall q dq iq, run (q ++ [x]) dq -> in_range iq dq -> place (q ++ [x]) iq = x * flat iq dq.
Proof.
  assert (G : forall l dq, run l dq -> forall x q, l = q ++ [x] -> hd 0 l = x * prod (tl dq) /\ (forall iq, in_range iq dq -> place l iq = x * flat iq dq)).
  { induction l as [|y l IH]; intros dq R x0 q E; [now destruct q|]. destruct l as [|z l].
    - destruct dq as [|d [|e dq]]; try contradiction. assert (y = x0) by (destruct q as [|? [|? ?]]; try discriminate; now injection E). subst y.
      split; [cbn [hd tl]; change (prod []) with 1; lia|]. intros iq I. inversion I as [|i d' ix ds Hi I']; subst. inversion I'; subst. cbn [flat]. rewrite place_cons, place_nil_l. change (prod []) with 1. lia.
    - destruct dq as [|d [|e dq]]; try contradiction. destruct R as (-> & R). destruct q as [|q0 q]; [discriminate|]. injection E as E0 E.
      destruct (IH _ R x0 q E) as (H1 & H2). cbn [hd tl] in *. split.
      + rewrite prod_cons, H1. lia.
      + intros iq I. inversion I as [|i d' ix ds Hi I']; subst. rewrite place_cons, (H2 ix I'). cbn [flat]. rewrite prod_cons. ring. }
  intros q dq iq R I. exact (proj2 (G _ _ R x q eq_refl) iq I).
Qed.
Lemma fuse_place p q x r dq ip iq ir : run (q ++ [x]) dq -> length ip = length p -> in_range iq dq ->
  place (p ++ x :: r) (ip ++ flat iq dq :: ir) = place (p ++ (q ++ [x]) ++ r) (ip ++ iq ++ ir).
Proof.
  intros R Lp I. rewrite !place_app by lia. rewrite place_cons.
  rewrite place_app by (rewrite (run_length _ _ R); symmetry; now apply in_range_length). rewrite (run_place x q dq iq R I). lia.
Qed.

(* ---- remove *)
Lemma drop_loop k : forall (s : list Z) base (acc : list Z), foldM (fun i (R : list Z) => if i =? k then Ok R else do a <- zget s (i - base); Ok (R ++ [a])) (map (Z.add base) (zrange (zlen s))) acc
  = Ok (acc ++ map snd (filter (fun p => negb (fst p =? k)) (combine (map (Z.add base) (zrange (zlen s))) s))).
Proof.
  induction s as [|a s IH]; intros base acc; [cbn; now rewrite app_nil_r|]. cbn [length]. rewrite zrange_cons by lia. cbn [map foldM combine filter fst].
  rewrite Z.add_0_r. replace (base - base) with 0 by lia. rewrite zget_0. cbn [bind].
  replace (Z.of_nat (S (length s)) - 1) with (zlen s) by lia. rewrite map_map.
  rewrite (map_ext (fun x => base + Z.succ x) (Z.add (base + 1))) by (intro; lia).
  specialize (IH (base + 1)).
  assert (E : forall acc, foldM (fun i R => if i =? k then Ok R else do a0 <- zget (a :: s) (i - base); Ok (R ++ [a0])) (map (Z.add (base + 1)) (zrange (zlen s))) acc
            = foldM (fun i R => if i =? k then Ok R else do a0 <- zget s (i - (base + 1)); Ok (R ++ [a0])) (map (Z.add (base + 1)) (zrange (zlen s))) acc).
  { intro acc0. apply foldM_ext. intros i R I. apply in_map_iff in I. destruct I as (j & <- & I). apply in_zrange in I.
    replace (base + 1 + j - base) with (Z.succ (base + 1 + j - (base + 1))) by lia. now rewrite zget_cons by lia. }
  destruct (base =? k) eqn:B; cbn [bind negb map snd]; rewrite E, IH; [reflexivity|]. now rewrite <- app_assoc.
Qed.
Lemma drop_split k : forall (s : list Z) base, 0 <= base ->
  map snd (filter (fun p => negb (fst p =? k)) (combine (map (Z.add base) (zrange (zlen s))) s)) =
  if (base <=? k) && (k <? base + zlen s) then firstn (Z.to_nat (k - base)) s ++ skipn (S (Z.to_nat (k - base))) s else s.
Proof.
  induction s as [|a s IH]; intros base Hb; [cbn [length Z.of_nat zrange combine filter map]; destruct (_ && _); [rewrite firstn_nil|]; reflexivity|]. cbn [length]. rewrite zrange_cons by lia. cbn [map combine filter fst].
  rewrite Z.add_0_r. replace (Z.of_nat (S (length s)) - 1) with (zlen s) by lia. rewrite map_map.
  rewrite (map_ext (fun x => base + Z.succ x) (Z.add (base + 1))) by (intro; lia).
  destruct (base =? k) eqn:B; cbn [negb map snd].
  - rewrite IH by lia. replace ((base + 1 <=? k) && (k <? base + 1 + zlen s)) with false by lia. replace ((base <=? k) && (k <? base + Z.of_nat (S (length s)))) with true by lia.
    replace (k - base) with 0 by lia. reflexivity.
  - rewrite IH by lia. destruct ((base + 1 <=? k) && (k <? base + 1 + zlen s)) eqn:C.
    + replace ((base <=? k) && (k <? base + Z.of_nat (S (length s)))) with true by lia.
      replace (Z.to_nat (k - base)) with (S (Z.to_nat (k - (base + 1)))) by lia. reflexivity.
    + replace ((base <=? k) && (k <? base + Z.of_nat (S (length s)))) with false by lia. reflexivity.
Qed.
Lemma remove_loop k (s : list Z) : foldM (fun i R => if i =? k then Ok R else do a <- zget s i; Ok (R ++ [a])) (zrange (zlen s)) [] =
  Ok (if (0 <=? k) && (k <? zlen s) then firstn (Z.to_nat k) s ++ skipn (S (Z.to_nat k)) s else s).
Proof.
  pose proof (drop_loop k s 0 []) as D. rewrite (map_ext (Z.add 0) (fun x => x)), map_id in D by (intro; lia).
  cbn [app] in D. rewrite (foldM_ext _ (fun i R => if i =? k then Ok R else do a <- zget s i; Ok (R ++ [a]))) in D by (intros; now rewrite Z.sub_0_r).
  rewrite D. pose proof (drop_split k s 0 ltac:(lia)) as Q. rewrite (map_ext (Z.add 0) (fun x => x)), map_id in Q by (intro; lia).
  rewrite Q, Z.sub_0_r. reflexivity.
Qed.
Lemma remove_app (p : list Z) x r : (let s := p ++ x :: r in firstn (Z.to_nat (zlen p)) s ++ skipn (S (Z.to_nat (zlen p))) s) = p ++ r.
Proof.
  cbn zeta. rewrite Nat2Z.id. rewrite firstn_app, Nat.sub_diag, firstn_all, app_nil_r. f_equal.
  rewrite skipn_app. rewrite skipn_all2 by lia. now replace (S (length p) - length p)%nat with 1%nat by lia.
Qed.
Lemma gs_remove_ok chk p x r : p ++ r <> [] -> gs_remove chk (zlen p) (p ++ x :: r) = Ok (p ++ r).
Proof.
  intro N. unfold gs_remove, passert, below. rewrite app_length. cbn [length].
  assert (2 <= Z.of_nat (length p + S (length r))) by (destruct p, r; cbn [length]; try lia; contradiction).
  replace ((0 <=? zlen p) && (zlen p <? Z.of_nat (length p + S (length r)))) with true by lia. cbn [assrt].
  replace (Z.of_nat (length p + S (length r)) =? 1) with false by lia. replace (zlen p <? 0) with false by lia.
  pose proof (remove_loop (zlen p) (p ++ x :: r)) as G. rewrite app_length in G. cbn [length] in G.
  replace ((0 <=? zlen p) && (zlen p <? Z.of_nat (length p + S (length r)))) with true in G by lia.
  pose proof (remove_app p x r) as A. cbn zeta in A. rewrite A in G. destruct chk; exact G.
Qed.
Lemma gs_remove_neg p x r : p ++ r <> [] -> gs_remove false (- 1 - zlen r) (p ++ x :: r) = Ok (p ++ r).
Proof.
  intro N. rewrite <- (gs_remove_ok false p x r N). unfold gs_remove, passert. destruct (zlen (p ++ x :: r) =? 1); [reflexivity|].
  replace (-1 - zlen r <? 0) with true by lia. replace (zlen p <? 0) with false by lia.
  replace (zlen (p ++ x :: r) + (-1 - zlen r)) with (zlen p) by (rewrite app_length; cbn [length]; lia). reflexivity.
Qed.
Lemma gs_remove_throw j s : ~ (0 <= j < zlen s) -> gs_remove true j s = Throw.
Proof. intro H. unfold gs_remove, passert, below. now replace ((0 <=? j) && (j <? zlen s)) with false by lia. Qed.
Lemma gs_remove_one chk x : gs_remove chk 0 [x] = Ok [1].
Proof. destruct chk; reflexivity. Qed.
Lemma remove_place p x r ip i ir : length ip = length p -> place (p ++ r) (ip ++ ir) = place (p ++ x :: r) (ip ++ i :: ir) - x * i.
Proof. intro L. rewrite !place_app by lia. rewrite place_cons. lia. Qed.

(* ---- chunk, combine *)
Lemma gs_chunk_ok p q r : gs_chunk (zlen p) (zlen q) (p ++ q ++ r) = Ok q.
Proof.
  unfold gs_chunk. ifF. rewrite raw_ok by lia. cbn [bind]. rewrite Nat2Z.id.
  rewrite (copy_in_gen _ _ _ _ _ p q r [] (repeat 0 (length q)) []); rewrite ?app_nil_r, ?repeat_length; reflexivity.
Qed.
Lemma gs_chunk_end p q : gs_chunk (zlen p) (-1) (p ++ q) = Ok q.
Proof.
  pose proof (gs_chunk_ok p q []) as G. rewrite app_nil_r in G. transitivity (gs_chunk (zlen p) (zlen q) (p ++ q)); [|exact G]. unfold gs_chunk. rewrite app_length.
  replace (-1 =? -1) with true by reflexivity. replace (zlen q =? -1) with false by lia.
  now replace (Z.of_nat (length p + length q) - zlen p) with (zlen q) by lia.
Qed.
Lemma combine_loop chk s : forall v t, Forall (fun p => 0 <= p < zlen s) v ->
  foldM (fun p t => passert chk (below p s) (do a <- zget s p; Ok (t + a))) v t = Ok (t + fold_right Z.add 0 (map (fun p => nth (Z.to_nat p) s 0) v)).
Proof.
  induction v as [|p v IH]; intros t H; cbn [foldM map fold_right]; [f_equal; lia|]. inversion H as [|? ? Hp Hv]; subst.
  assert (B : below p s = true) by (unfold below; lia). unfold passert at 1. rewrite B. cbn [assrt].
  assert (G : zget s p = Ok (nth (Z.to_nat p) s 0)).
  { unfold zget, vget. ifF. rewrite (nth_error_nth' s 0) by lia. reflexivity. }
  rewrite G. cbn [bind].
  replace (if chk then Ok (t + nth (Z.to_nat p) s 0) else Ok (t + nth (Z.to_nat p) s 0)) with (Ok (t + nth (Z.to_nat p) s 0)) by (destruct chk; reflexivity).
  cbn [bind]. rewrite IH by assumption. f_equal. lia.
Qed.
Lemma place_ext (s : list Z) f g : (forall k, 0 <= k < zlen s -> f k = g k) -> place s (map f (zrange (zlen s))) = place s (map g (zrange (zlen s))).
Proof. intro H. f_equal. apply map_ext_in. intros k I. apply H. now apply in_zrange. Qed.
Lemma place_unit (s : list Z) : forall k i, 0 <= k < zlen s -> place s (map (fun x => if x =? k then i else 0) (zrange (zlen s))) = i * nth (Z.to_nat k) s 0.
Proof.
  assert (Z0 : forall s, place s (map (fun _ => 0) (zrange (zlen s))) = 0).
  { clear. induction s as [|a s IH]; [reflexivity|]. cbn [length]. rewrite zrange_cons by lia. cbn [map]. rewrite place_cons, map_map.
    replace (Z.of_nat (S (length s)) - 1) with (zlen s) by lia. rewrite IH. lia. }
  induction s as [|a s IH]; intros k i H; [cbn in H; lia|]. cbn [length] in *. rewrite zrange_cons by lia. cbn [map]. rewrite place_cons, map_map.
  replace (Z.of_nat (S (length s)) - 1) with (zlen s) by lia. destruct (Z.eq_dec k 0) as [->|N].
  - rewrite (place_ext s _ (fun _ => 0)) by (intros; ifF; reflexivity). rewrite Z0. cbn. lia.
  - replace (0 =? k) with false by lia. rewrite (place_ext s _ (fun x => if x =? k - 1 then i else 0)).
    + rewrite IH by lia. replace (Z.to_nat k) with (S (Z.to_nat (k - 1))) by lia. cbn [nth]. lia.
    + intros x Hx. replace (Z.succ x =? k) with (x =? k - 1) by lia. reflexivity.
Qed.
Lemma place_plus s f g : place s (map (fun k => f k + g k) (zrange (zlen s))) = place s (map f (zrange (zlen s))) + place s (map g (zrange (zlen s))).
Proof.
  revert f g; induction s as [|a s IH]; intros f g; [reflexivity|]. cbn [length]. rewrite zrange_cons by lia. cbn [map]. rewrite !place_cons, !map_map.
  replace (Z.of_nat (S (length s)) - 1) with (zlen s) by lia. rewrite (IH (fun x => f (Z.succ x)) (fun x => g (Z.succ x))). lia.
Qed.
Lemma diagonal_place s v i : NoDup v -> Forall (fun p => 0 <= p < zlen s) v ->
  place s (map (fun k => if existsb (Z.eqb k) v then i else 0) (zrange (zlen s))) = i * fold_right Z.add 0 (map (fun p => nth (Z.to_nat p) s 0) v).
Proof.
  induction v as [|p v IH]; intros D H.
  - cbn [existsb map fold_right]. rewrite (place_ext s _ (fun x => if x =? -1 then i else 0)) by (intros; now ifF).
    assert (Z0 : forall s, place s (map (fun _ => 0) (zrange (zlen s))) = 0).
    { clear. induction s as [|a s IH]; [reflexivity|]. cbn [length]. rewrite zrange_cons by lia. cbn [map]. rewrite place_cons, map_map.
      replace (Z.of_nat (S (length s)) - 1) with (zlen s) by lia. rewrite IH. lia. }
    rewrite (place_ext s _ (fun _ => 0)) by (intros; now ifF). rewrite Z0. lia.
  - inversion D as [|? ? D1 D2]; subst. inversion H as [|? ? Hp Hv]; subst. cbn [map fold_right].
    rewrite (place_ext s _ (fun k => (if k =? p then i else 0) + (if existsb (Z.eqb k) v then i else 0))).
    + rewrite (place_plus s (fun k => if k =? p then i else 0) (fun k => if existsb (Z.eqb k) v then i else 0)), place_unit by assumption. rewrite IH by assumption. lia.
    + intros k Hk. cbn [existsb]. destruct (k =? p) eqn:E; cbn [orb]; [|lia]. assert (k = p) by lia. subst k.
      assert (X : existsb (Z.eqb p) v = false). { apply not_true_iff_false. intro X. apply existsb_exists in X. destruct X as (y & Iy & Ey). assert (p = y) by lia. now subst. }
      rewrite X. lia.
Qed.
