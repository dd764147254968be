(* Block sparse matrices act as the matrix they stand for. *)
From Coq Require Import ZArith List Bool Lia Permutation.
Import ListNotations.
From Verif Require Import Base BaseFacts Map Model_Containers Proofs_Containers Proofs_Containers2 Proofs_Containers4 Model_Index Model_View Model_Tensor
  Spec_Index Spec_View Spec_Tensor Proofs_Index Proofs_View Proofs_View2 Proofs_Tensor Proofs_Tensor2 Proofs_Tensor3 Model_Block Spec_Block Proofs_Block.
Open Scope Z_scope.

Section Sum.
Context {R : cring}.
Notation memR := (mem (car R)).
Add Ring Rr2 : (cth R).

Lemma lookup_sum (calls : list (Z * Z * Z)) (key : Z -> Z * Z) (lk : Z -> option Z) (sel : Z * Z * Z -> bool) (oth : Z * Z * Z -> Z) (n : Z) (G : Z -> Z -> R) :
  NoDup (map fst calls) -> (forall p q, key p = key q -> p = q) ->
  (forall q t, 0 <= q < n -> (lk q = Some t <-> In (key q, t) calls)) ->
  (forall q t, sel (key q, t) = true /\ oth (key q, t) = q) ->
  (forall c, In c calls -> sel c = true -> 0 <= oth c < n /\ fst c = key (oth c)) ->
  rsum (map (fun c => if sel c then G (oth c) (snd c) else c0) calls) = rsum (map (fun q => match lk q with Some t => G q t | None => c0 end) (zrange n)).
Proof.
  intros N Hk Hl Hs Hc. symmetry.
  transitivity (rsum (map (fun q => rsum (map (fun c => if sel c && (oth c =? q) then G (oth c) (snd c) else c0) calls)) (zrange n))).
  - apply rsum_ext. intros q Hq. apply in_zrange in Hq. destruct (lk q) as [t|] eqn:E.
    + apply Hl in E; [|exact Hq]. destruct (Hs q t) as [S1 S2]. rewrite (rsum_single R _ calls (key q, t)).
      * now rewrite S1, S2, Z.eqb_refl.
      * eapply NoDup_map_inv. exact N.
      * exact E.
      * intros c Hin Hne. destruct (sel c) eqn:Es; [|reflexivity]. cbn [andb]. destruct (Z.eqb_spec (oth c) q) as [Eo|]; [|reflexivity]. exfalso. apply Hne. destruct (Hc c Hin Es) as [_ Ef]. rewrite Eo in Ef.
        clear - N Hin E Ef. destruct c as [k v]. cbn in Ef. subst k. induction calls as [|d l IH]; [destruct Hin|]. inversion N as [|? ? Nd Nl]; subst. destruct Hin as [-> |Hin], E as [E|E].
        -- congruence. -- exfalso. apply Nd. apply in_map_iff. exists (key q, t). now split. -- subst d. exfalso. apply Nd. apply in_map_iff. exists (key q, v). now split. -- now apply IH.
    + symmetry. apply rsum_zero. intros c Hin. destruct (sel c) eqn:Es; [|reflexivity]. cbn [andb]. destruct (Z.eqb_spec (oth c) q) as [Eo|]; [|reflexivity]. exfalso. destruct (Hc c Hin Es) as [_ Ef]. rewrite Eo in Ef.
      destruct c as [k v]. cbn in Ef. subst k. apply Hl in Hin; [congruence|exact Hq].
  - rewrite rsum_swap. apply rsum_ext. intros c Hin. destruct (sel c) eqn:Es.
    + destruct (Hc c Hin Es) as [Ho _]. rewrite (rsum_single R _ (zrange n) (oth c)); [now rewrite Z.eqb_refl|apply zrange_nodup|now apply in_zrange|].
      intros q _ Hq. cbn [andb]. destruct (Z.eqb_spec (oth c) q); [congruence|reflexivity].
    + now apply rsum_zero.
Qed.

Lemma bc_offset_find A i j : bc_offset A i j = match mom_find i j (Model_Containers.rmap (boffs A)) with Some t => Ok t | None => Throw end.
Proof. unfold bc_offset, mom_find, mom_row. destruct (mfind i _); reflexivity. Qed.
Lemma block_sel i b n I : 0 < b -> (i * b <=? I) && (I <? i * b + b) = (i =? I / b) /\ (0 <= n -> 0 <= I < n * b -> 0 <= I / b < n).
Proof.
  intro Hb. pose proof (Z.div_mod I b ltac:(lia)) as E. pose proof (Z.mod_pos_bound I b Hb) as M. split.
  - destruct (Z.eqb_spec i (I / b)) as [-> |Hne].
    + apply andb_true_iff. rewrite Z.leb_le, Z.ltb_lt. lia.
    + apply andb_false_iff. rewrite Z.leb_gt, Z.ltb_ge. destruct (Z_lt_le_dec I (i * b)); [now left|]. right. apply Z.nlt_ge. intro L. apply Hne. apply (Z.div_unique I b i (I - i * b)); lia.
  - intros Hn HI. split; [apply Z.div_pos; lia|apply Z.div_lt_upper_bound; lia].
Qed.
Lemma div_block i b k : 0 < b -> 0 <= k < b -> (i * b + k) / b = i /\ (i * b + k) mod b = k.
Proof. intros Hb Hk. split; [symmetry; apply (Z.div_unique _ b i k); lia|symmetry; apply (Z.mod_unique _ b i k); lia]. Qed.

Lemma apply_ok A mask r x C (m : memR) : made_from A mask -> operand m r (bnb A * bbn A) C -> operand m x (bmb A * bbm A) C -> readable m (bmx A) ->
  distinct_cells r -> disjoint_views r x -> disjoint_views r (bmx A) ->
  exists m', bc_apply A r x m = Ok m' /\ untouched m m' r /\
    forall I c, 0 <= I < bnb A * bbn A -> 0 <= c < C ->
      elem m' r [I; c] = Some (cadd (elem0 m r [I; c]) (rsum (map (fun J => cmul (bentry A m I J) (elem0 m x [J; c])) (zrange (bmb A * bbm A))))).
Proof.
  intros (nb & mb & bn & bm & b0 & -> & Hbn & Hbm & Hnb & Hmb & Hm) (Wr & Er & Rr) (Wx & Ex & Rx) Rm Dr Dx Dm.
  set (A := bc_make nb mb bn bm mask b0) in *. cbn [bnb bbn bmb bbm] in *. change (bnb A) with nb in *. change (bmb A) with mb in *. change (bbn A) with bn in *. change (bbm A) with bm in *.
  assert (Em : vdims (bmx A) = [zlen mask; bn; bm]) by reflexivity.
  assert (Wm : vwf (bmx A)). { split; [reflexivity|]. rewrite Em. unfold zlen. repeat constructor; lia. }
  set (calls := mom_calls (Model_Containers.rmap (boffs A))). change (Model_Containers.rmap (boffs A)) with (otab mask) in calls.
  destruct (otab_wf mask) as [Wt _].
  assert (Hc : forall i j t, In (i, j, t) calls -> 0 <= i < nb /\ 0 <= j < mb /\ 0 <= t < zlen mask).
  { intros i j t Hin. unfold calls in Hin. apply mom_calls_in in Hin; [|exact Wt]. apply otab_some in Hin as [Ht Hn]. apply nth_error_In in Hn. rewrite Forall_forall in Hm. specialize (Hm _ Hn). cbn in Hm. lia. }
  assert (HC : 0 <= C). { destruct Wr as [_ Nr]. rewrite Er in Nr. inversion Nr as [|? ? _ Nr']; subst. now inversion Nr'. }
  unfold bc_apply. rewrite Er, Ex. change (bnb A) with nb. change (bmb A) with mb. change (bbn A) with bn. change (bbm A) with bm. rewrite !Z.eqb_refl. cbn [assrt]. change (Model_Containers.rmap (boffs A)) with (otab mask). fold calls.
  match goal with |- context [foldM ?f calls m] => destruct (blocks_ok r x (bmx A) (nb * bn) C (mb * bm) Er Ex Dx Dm bn bm (fun c => fst (fst c) * bn) (fun c => snd (fst c) * bm) (fun c a k => [snd c; a; k]) f calls m) as (m' & E & U & V) end; try assumption; try lia.
  - intros [[i j] t] a k Hin Ha Hk. destruct (Hc i j t Hin) as (_ & _ & Ht). rewrite Em. repeat constructor; cbn; lia.
  - intros [[i j] t] Hin. destruct (Hc i j t Hin) as (Hi & Hj & _). cbn. nia.
  - intros [[i j] t] m1 Hin Rr1 Rx1 Rm1. destruct (Hc i j t Hin) as (Hi & Hj & Ht). cbn [fst snd].
    destruct (slice0_ok (bmx A) t _ _ _ Wm Em) as (bv & Eb & Wb & Db & Ab). rewrite Eb. cbn [bind].
    destruct (rows_ok r (i * bn) bn (nb * bn) C Wr Er) as (rr & Err & Wrr & Drr & Arr); [nia|lia|nia|]. rewrite Err. cbn [bind].
    destruct (rows_ok x (j * bm) bm (mb * bm) C Wx Ex) as (xx & Exx & Wxx & Dxx & Axx); [nia|lia|nia|]. rewrite Exx. cbn [bind].
    destruct (mp_step r x (bmx A) (nb * bn) C (mb * bm) Er Ex Dr Dx Dm rr bv xx bn bm (i * bn) (j * bm) m1) as (m2 & E2 & U2 & V2 & V3); try assumption; try lia; try nia.
    + intros a k Ha Hk. exists [t; a; k]. split; [rewrite Em; repeat constructor; lia|apply Ab].
    + exists m2. split; [exact E2|]. split; [exact U2|]. split; [|exact V3]. intros a e Ha He. rewrite V2 by assumption. f_equal. f_equal. apply rsum_ext. intros k _. f_equal. unfold elem0, elem. now rewrite Ab.
  - exists m'. split; [exact E|]. split; [exact U|]. intros I c HI Hcc. rewrite V by assumption. f_equal. f_equal.
    destruct (block_sel 0 bn nb I Hbn) as [_ Hdiv]. specialize (Hdiv Hnb HI).
    transitivity (rsum (map (fun c1 => if fst (fst c1) =? I / bn then (fun j t => rsum (map (fun k => cmul (elem0 m (bmx A) [t; I mod bn; k]) (elem0 m x [j * bm + k; c])) (zrange bm))) (snd (fst c1)) (snd c1) else c0) calls)).
    { apply rsum_ext. intros [[i j] t] Hin. cbn [fst snd]. destruct (block_sel i bn nb I Hbn) as [-> _]. destruct (Z.eqb_spec i (I / bn)) as [-> |]; [|reflexivity]. apply rsum_ext. intros k _. do 3 f_equal. f_equal. rewrite (Z.mod_eq I bn) by lia. lia. }
    rewrite (lookup_sum calls (fun j => (I / bn, j)) (fun j => mom_find (I / bn) j (otab mask)) (fun c1 => fst (fst c1) =? I / bn) (fun c1 => snd (fst c1)) mb (fun j t => rsum (map (fun k => cmul (elem0 m (bmx A) [t; I mod bn; k]) (elem0 m x [j * bm + k; c])) (zrange bm)))).
    + rewrite zrange_mul by lia. rewrite rsum_flat_map. apply rsum_ext. intros j Hj. apply in_zrange in Hj. rewrite map_map.
      destruct (mom_find (I / bn) j (otab mask)) as [t|] eqn:Ef.
      * apply rsum_ext. intros k Hk. apply in_zrange in Hk. destruct (div_block j bm k Hbm Hk) as [D1 D2]. f_equal. unfold bentry. change (bbn A) with bn. change (bbm A) with bm. rewrite bc_offset_find, D1, D2. change (Model_Containers.rmap (boffs A)) with (otab mask). now rewrite Ef.
      * symmetry. apply rsum_zero. intros k Hk. apply in_zrange in Hk. destruct (div_block j bm k Hbm Hk) as [D1 D2]. unfold bentry. change (bbn A) with bn. change (bbm A) with bm. rewrite bc_offset_find, D1. change (Model_Containers.rmap (boffs A)) with (otab mask). rewrite Ef. ring.
    + unfold calls. now apply mom_calls_nodup.
    + intros p q [= ->]. reflexivity.
    + intros q t _. unfold calls. symmetry. now apply mom_calls_in.
    + intros q t. cbn. now rewrite Z.eqb_refl.
    + intros [[i j] t] Hin Hs. cbn in *. apply Z.eqb_eq in Hs. subst i. destruct (Hc _ _ _ Hin) as (_ & Hj & _). now split.
Qed.
Lemma apply_transp_ok A mask r x C (m : memR) : made_from A mask -> operand m r (bmb A * bbm A) C -> operand m x (bnb A * bbn A) C -> readable m (bmx A) ->
  distinct_cells r -> disjoint_views r x -> disjoint_views r (bmx A) ->
  exists m', bc_apply_transp A r x m = Ok m' /\ untouched m m' r /\
    forall J c, 0 <= J < bmb A * bbm A -> 0 <= c < C ->
      elem m' r [J; c] = Some (cadd (elem0 m r [J; c]) (rsum (map (fun I => cmul (bentry A m I J) (elem0 m x [I; c])) (zrange (bnb A * bbn A))))).
Proof.
  intros (nb & mb & bn & bm & b0 & -> & Hbn & Hbm & Hnb & Hmb & Hm) (Wr & Er & Rr) (Wx & Ex & Rx) Rm Dr Dx Dm.
  set (A := bc_make nb mb bn bm mask b0) in *. cbn [bnb bbn bmb bbm] in *. change (bnb A) with nb in *. change (bmb A) with mb in *. change (bbn A) with bn in *. change (bbm A) with bm in *.
  assert (Em : vdims (bmx A) = [zlen mask; bn; bm]) by reflexivity.
  assert (Wm : vwf (bmx A)). { split; [reflexivity|]. rewrite Em. unfold zlen. repeat constructor; lia. }
  set (calls := mom_calls (Model_Containers.rmap (boffs A))). change (Model_Containers.rmap (boffs A)) with (otab mask) in calls.
  destruct (otab_wf mask) as [Wt _].
  assert (Hc : forall i j t, In (i, j, t) calls -> 0 <= i < nb /\ 0 <= j < mb /\ 0 <= t < zlen mask).
  { intros i j t Hin. unfold calls in Hin. apply mom_calls_in in Hin; [|exact Wt]. apply otab_some in Hin as [Ht Hn]. apply nth_error_In in Hn. rewrite Forall_forall in Hm. specialize (Hm _ Hn). cbn in Hm. lia. }
  assert (HC : 0 <= C). { destruct Wr as [_ Nr]. rewrite Er in Nr. inversion Nr as [|? ? _ Nr']; subst. now inversion Nr'. }
  unfold bc_apply_transp. rewrite Er, Ex. change (bnb A) with nb. change (bmb A) with mb. change (bbn A) with bn. change (bbm A) with bm. rewrite !Z.eqb_refl. cbn [assrt]. change (Model_Containers.rmap (boffs A)) with (otab mask). fold calls.
  match goal with |- context [foldM ?f calls m] => destruct (blocks_ok r x (bmx A) (mb * bm) C (nb * bn) Er Ex Dx Dm bm bn (fun c => snd (fst c) * bm) (fun c => fst (fst c) * bn) (fun c a k => [snd c; k; a]) f calls m) as (m' & E & U & V) end; try assumption; try lia.
  - intros [[i j] t] a k Hin Ha Hk. destruct (Hc i j t Hin) as (_ & _ & Ht). rewrite Em. repeat constructor; cbn; lia.
  - intros [[i j] t] Hin. destruct (Hc i j t Hin) as (Hi & Hj & _). cbn. nia.
  - intros [[i j] t] m1 Hin Rr1 Rx1 Rm1. destruct (Hc i j t Hin) as (Hi & Hj & Ht). cbn [fst snd].
    destruct (slice0_ok (bmx A) t _ _ _ Wm Em) as (bv & Eb & Wb & Db & Ab). rewrite Eb. cbn [bind].
    destruct (transp2_ok bv _ _ Wb Db) as (bt & Et & Wbt & Dbt & Abt). rewrite Et. cbn [bind].
    destruct (rows_ok r (j * bm) bm (mb * bm) C Wr Er) as (rr & Err & Wrr & Drr & Arr); [nia|lia|nia|]. rewrite Err. cbn [bind].
    destruct (rows_ok x (i * bn) bn (nb * bn) C Wx Ex) as (xx & Exx & Wxx & Dxx & Axx); [nia|lia|nia|]. rewrite Exx. cbn [bind].
    destruct (mp_step r x (bmx A) (mb * bm) C (nb * bn) Er Ex Dr Dx Dm rr bt xx bm bn (j * bm) (i * bn) m1) as (m2 & E2 & U2 & V2 & V3); try assumption; try lia; try nia.
    + intros a k Ha Hk. exists [t; k; a]. split; [rewrite Em; repeat constructor; lia|rewrite Abt; apply Ab].
    + exists m2. split; [exact E2|]. split; [exact U2|]. split; [|exact V3]. intros a e Ha He. rewrite V2 by assumption. f_equal. f_equal. apply rsum_ext. intros k _. f_equal. unfold elem0, elem. now rewrite Abt, Ab.
  - exists m'. split; [exact E|]. split; [exact U|]. intros J c HJ Hcc. rewrite V by assumption. f_equal. f_equal.
    destruct (block_sel 0 bm mb J Hbm) as [_ Hdiv]. specialize (Hdiv Hmb HJ).
    transitivity (rsum (map (fun c1 => if snd (fst c1) =? J / bm then (fun i t => rsum (map (fun k => cmul (elem0 m (bmx A) [t; k; J mod bm]) (elem0 m x [i * bn + k; c])) (zrange bn))) (fst (fst c1)) (snd c1) else c0) calls)).
    { apply rsum_ext. intros [[i j] t] Hin. cbn [fst snd]. destruct (block_sel j bm mb J Hbm) as [-> _]. destruct (Z.eqb_spec j (J / bm)) as [-> |]; [|reflexivity]. apply rsum_ext. intros k _. do 4 f_equal. f_equal. rewrite (Z.mod_eq J bm) by lia. lia. }
    rewrite (lookup_sum calls (fun i => (i, J / bm)) (fun i => mom_find i (J / bm) (otab mask)) (fun c1 => snd (fst c1) =? J / bm) (fun c1 => fst (fst c1)) nb (fun i t => rsum (map (fun k => cmul (elem0 m (bmx A) [t; k; J mod bm]) (elem0 m x [i * bn + k; c])) (zrange bn)))).
    + rewrite zrange_mul by lia. rewrite rsum_flat_map. apply rsum_ext. intros i Hi. apply in_zrange in Hi. rewrite map_map.
      destruct (mom_find i (J / bm) (otab mask)) as [t|] eqn:Ef.
      * apply rsum_ext. intros k Hk. apply in_zrange in Hk. destruct (div_block i bn k Hbn Hk) as [D1 D2]. f_equal. unfold bentry. change (bbn A) with bn. change (bbm A) with bm. rewrite bc_offset_find, D1, D2. change (Model_Containers.rmap (boffs A)) with (otab mask). now rewrite Ef.
      * symmetry. apply rsum_zero. intros k Hk. apply in_zrange in Hk. destruct (div_block i bn k Hbn Hk) as [D1 D2]. unfold bentry. change (bbn A) with bn. change (bbm A) with bm. rewrite bc_offset_find, D1. change (Model_Containers.rmap (boffs A)) with (otab mask). rewrite Ef. ring.
    + unfold calls. now apply mom_calls_nodup.
    + intros p q [= ->]. reflexivity.
    + intros q t _. unfold calls. symmetry. now apply mom_calls_in.
    + intros q t. cbn. now rewrite Z.eqb_refl.
    + intros [[i j] t] Hin Hs. cbn in *. apply Z.eqb_eq in Hs. subst j. destruct (Hc _ _ _ Hin) as (Hi & _ & _). now split.
Qed.
End Sum.
