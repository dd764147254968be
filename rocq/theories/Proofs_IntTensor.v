(* Proofs_IntTensor.v -- integer tensors: construction, access, copies, conversions. *)
From Coq Require Import ZArith List Bool Lia.
Import ListNotations.
From Verif Require Import Base BaseFacts Map Model_Index Model_Tensor Model_Containers Proofs_Containers Proofs_Containers2 Proofs_Sparse
  Model_IntTensor Spec_Index Proofs_Index Spec_IntTensor.
Local Open Scope Z_scope.

Lemma bget_ok b i v : bget b i = Ok v -> cell b i = Some v.
Proof. intro H. destruct (cell b i) eqn:E; [apply bget_cell in E; congruence|apply bget_none in E; congruence]. Qed.
Lemma cell_neg b i : i < 0 -> cell b i = None.
Proof. intro. unfold cell. now replace (0 <=? i) with false by lia. Qed.
Lemma flat_onto dims k : nonneg dims -> 0 <= k < prod dims -> exists ix, in_range ix dims /\ flat ix dims = k.
Proof.
  intros H Hk. assert (I : In k (zrange (prod dims))) by (apply in_zrange; lia). rewrite <- (flat_all_indices dims H) in I.
  apply in_map_iff in I. destruct I as (ix & E & I). exists ix. split; [now apply in_all_indices|assumption].
Qed.
Lemma offs_ok t dims ix : ns t = strides_of 1 dims -> length ix = length dims -> nt_offs t ix = Ok (flat ix dims).
Proof.
  intros E L. unfold nt_offs. rewrite E, strides_of_length, L, Nat.leb_refl. cbn. rewrite dot_strides_of by assumption. f_equal. lia.
Qed.
Lemma get_flat t dims ix : ns t = strides_of 1 dims -> length ix = length dims -> nt_get t ix = bget (narr t) (flat ix dims).
Proof. intros E L. unfold nt_get. rewrite (offs_ok t dims) by assumption. reflexivity. Qed.
Lemma has_cells t dims f : has t dims f <-> sized t dims /\ forall ix, in_range ix dims -> cell (narr t) (flat ix dims) = Some (f ix).
Proof.
  unfold has. split; intros [S H]; split; auto; intros ix I; destruct S as (_ & _ & _ & E & _); specialize (H ix I).
  - rewrite (get_flat t dims) in H by (auto; now apply in_range_length). now apply bget_ok.
  - rewrite (get_flat t dims) by (auto; now apply in_range_length). now apply bget_cell.
Qed.
Lemma zget0 {A} (a : A) l : zget (a :: l) 0 = Ok a. Proof. reflexivity. Qed.
Lemma size_ok t dims : sized t dims -> nt_size t = Ok (prod dims).
Proof.
  intros (E & N & _ & Es & _). unfold nt_size. rewrite E, Es. destruct dims as [|d ds]; [contradiction|]. rewrite strides_of_cons, prod_cons.
  rewrite !zget0. cbn [bind]. f_equal. lia.
Qed.
Lemma size_raw dims m b : dims <> [] -> nt_size (NTen dims (strides_of 1 dims) m b) = Ok (prod dims).
Proof. intro N. unfold nt_size. destruct dims as [|d ds]; [contradiction|]. cbn [nd ns]. rewrite strides_of_cons, prod_cons, !zget0. cbn [bind]. f_equal. lia. Qed.
Lemma blen_narray n : blen (narray n) = Z.max n 1.
Proof. unfold narray. apply blen_new. lia. Qed.
Lemma cell_narray n i : cell (narray n) i = None. Proof. apply cell_new. Qed.

Lemma new_ok dims : dims <> [] -> nonneg dims -> exists t, nt_new dims = Ok t /\ sized t dims /\ nmem t = prod dims /\ narr t = narray (prod dims).
Proof.
  intros N P. unfold nt_new. replace (0 <? Z.of_nat (length dims)) with true by (destruct dims; [contradiction|cbn [length]; lia]). cbn [assrt].
  rewrite size_raw by assumption. cbn [bind]. eexists. split; [reflexivity|]. unfold sized. cbn. rewrite blen_narray.
  pose proof (prod_nonneg dims P). repeat split; auto; lia.
Qed.
Lemma fill_ok f n b : 0 <= n <= blen b -> exists b', nfill f n b = Ok b' /\ blen b' = blen b /\
  forall k, cell b' k = if (0 <=? k) && (k <? n) then Some (f k) else cell b k.
Proof.
  intro H. unfold nfill.
  destruct (forZ_inv (fun i b' => blen b' = blen b /\ forall k, cell b' k = if (0 <=? k) && (k <? i) then Some (f k) else cell b k) n (fun i b0 => bput b0 i (f i)) b) as (b' & E & L & C).
  - lia.
  - split; [reflexivity|]. intro k. destruct ((0 <=? k) && (k <? 0)) eqn:E; [lia|reflexivity].
  - intros i s Hi [L C]. destruct (bput_ok s i (f i)) as (s' & E & L' & C'); [lia|]. exists s'. split; [exact E|]. split; [congruence|].
    intro k. rewrite C', C. destruct (k =? i) eqn:Ek.
    + replace k with i by lia. replace (0 <=? i) with true by lia. replace (i <? i + 1) with true by lia. reflexivity.
    + destruct ((0 <=? k) && (k <? i)) eqn:E1; destruct ((0 <=? k) && (k <? i + 1)) eqn:E2; try reflexivity; lia.
  - exists b'. auto.
Qed.
Lemma filled_ok f dims : dims <> [] -> nonneg dims -> exists t, nt_filled f dims = Ok t /\ has t dims (fun ix => f (flat ix dims)) /\ trim t.
Proof.
  intros N P. unfold nt_filled. destruct (new_ok dims N P) as (t & -> & S & M & A). cbn [bind]. rewrite (size_ok t dims S). cbn [bind].
  pose proof (prod_nonneg dims P) as PP.
  destruct (fill_ok f (prod dims) (narr t)) as (b & -> & L & C); [rewrite A, blen_narray; lia|]. cbn [bind]. eexists. split; [reflexivity|].
  destruct S as (E1 & E2 & E3 & E4 & E5). split; [|unfold trim; cbn; congruence]. apply has_cells. unfold sized. cbn. rewrite L. repeat split; auto; try lia.
  intros ix I. rewrite C. pose proof (flat_range _ _ I). replace (0 <=? flat ix dims) with true by lia. replace (flat ix dims <? prod dims) with true by lia. reflexivity.
Qed.
Lemma new_unset dims ix : dims <> [] -> nonneg dims -> in_range ix dims -> exists t, nt_new dims = Ok t /\ sized t dims /\ nt_get t ix = UB.
Proof.
  intros N P I. destruct (new_ok dims N P) as (t & E & S & M & A). exists t. split; [exact E|]. split; [exact S|]. destruct S as (_ & _ & _ & Es & _).
  rewrite (get_flat t dims) by (auto; now apply in_range_length). rewrite A. apply bget_none, cell_narray.
Qed.
Lemma new_refused f : nt_new [] = Throw /\ nt_filled f [] = Throw /\ nt_noalloc [] = Throw.
Proof. now repeat split. Qed.

Lemma put_sized t dims o x : sized t dims -> 0 <= o < prod dims -> exists b, bput (narr t) o x = Ok b /\ sized (NTen (nd t) (ns t) (nmem t) b) dims /\
  forall k, cell b k = if k =? o then Some x else cell (narr t) k.
Proof.
  intros (E1 & E2 & E3 & E4 & E5) Ho. destruct (bput_ok (narr t) o x) as (b & E & L & C); [lia|]. exists b. split; [exact E|]. split; [|exact C].
  unfold sized. cbn. rewrite L. auto.
Qed.
Lemma set_sized t dims ix x : sized t dims -> in_range ix dims -> exists t', nt_set ix x t = Ok t' /\ sized t' dims /\ nmem t' = nmem t /\
  nt_get t' ix = Ok x /\ forall jx, in_range jx dims -> jx <> ix -> nt_get t' jx = nt_get t jx.
Proof.
  intros S I. pose proof (in_range_length _ _ I) as L. pose proof S as (E1 & E2 & E3 & E4 & E5). unfold nt_set. rewrite (offs_ok t dims) by assumption. cbn [bind].
  destruct (put_sized t dims (flat ix dims) x S (flat_range _ _ I)) as (b & -> & S' & C). cbn [bind]. eexists. split; [reflexivity|]. split; [exact S'|]. split; [reflexivity|]. split.
  - rewrite (get_flat _ dims) by assumption. cbn. apply bget_cell. rewrite C. now rewrite Z.eqb_refl.
  - intros jx J D. pose proof (in_range_length _ _ J) as LJ. rewrite !(get_flat _ dims) by assumption. cbn [narr].
    assert (Hc : cell b (flat jx dims) = cell (narr t) (flat jx dims)).
    { rewrite C. replace (flat jx dims =? flat ix dims) with false; [reflexivity|]. symmetry. apply Z.eqb_neq. intro X. apply D. now apply (flat_inj jx ix dims). }
    destruct (cell (narr t) (flat jx dims)) eqn:Q; [rewrite (bget_cell _ _ _ Hc), (bget_cell _ _ _ Q)|rewrite (bget_none _ _ Hc), (bget_none _ _ Q)]; reflexivity.
Qed.
Lemma set_has t dims f ix x : has t dims f -> in_range ix dims -> exists t', nt_set ix x t = Ok t' /\ has t' dims (upd f ix x) /\ nmem t' = nmem t.
Proof.
  intros [S H] I. destruct (set_sized t dims ix x S I) as (t' & E & S' & M & G & O). exists t'. split; [exact E|]. split; [|exact M]. split; [exact S'|].
  intros jx J. unfold upd. destruct (list_eq_dec Z.eq_dec jx ix) as [->|D]; [exact G|]. rewrite O by assumption. now apply H.
Qed.

(* access by ints *)
Lemma outside_in ix dims : in_range ix dims -> nt_outside ix dims = Ok false.
Proof. induction 1; [reflexivity|]. cbn. replace (x <? 0) with false by lia. now replace (y <=? x) with false by lia. Qed.
Lemma outside_out ix dims : length ix = length dims -> ~ in_range ix dims -> nt_outside ix dims = Ok true.
Proof.
  revert dims. induction ix as [|i ix IH]; intros [|d ds] L N; try discriminate; [exfalso; apply N; constructor|]. cbn.
  destruct (i <? 0) eqn:E; [reflexivity|]. destruct (d <=? i) eqn:E2; [reflexivity|]. apply IH; [now injection L|]. intro X. apply N. constructor; [lia|exact X].
Qed.
Lemma refused_in t ix : in_range ix (nd t) -> length ix <> 5%nat -> nt_refused t ix = Ok false.
Proof.
  intros I L5. unfold nt_refused. apply Nat.eqb_neq in L5. rewrite L5, (in_range_length _ _ I), Nat.eqb_refl. cbn. now apply outside_in.
Qed.
Lemma geti_ok rc t dims f ix : has t dims f -> in_range ix dims -> rc = false \/ length ix <> 5%nat -> nt_geti rc t ix = Ok (f ix).
Proof.
  intros [S H] I C. pose proof S as (E1 & _ & _ & E4 & _). unfold nt_geti. pose proof (in_range_length _ _ I) as L.
  assert (X : (if rc then nt_refused t ix else Ok false) = Ok false). { destruct rc; [|reflexivity]. apply refused_in; [now rewrite E1|]. destruct C; [discriminate|assumption]. }
  rewrite X. cbn [bind]. rewrite E4, strides_of_length, L, Nat.leb_refl, dot_strides_of by assumption. rewrite Z.mul_1_l. rewrite <- (get_flat t dims) by assumption. now apply H.
Qed.
Lemma seti_ok rc t dims ix x : sized t dims -> in_range ix dims -> rc = false \/ length ix <> 5%nat -> nt_seti rc ix x t = nt_set ix x t.
Proof.
  intros S I C. pose proof S as (E1 & _ & _ & E4 & _). unfold nt_seti. pose proof (in_range_length _ _ I) as L.
  assert (X : (if rc then nt_refused t ix else Ok false) = Ok false). { destruct rc; [|reflexivity]. apply refused_in; [now rewrite E1|]. destruct C; [discriminate|assumption]. }
  rewrite X. cbn [bind]. unfold nt_set. rewrite (offs_ok t dims) by assumption. rewrite E4, strides_of_length, L, Nat.leb_refl, dot_strides_of by assumption. rewrite Z.mul_1_l. reflexivity.
Qed.
Lemma geti_out t dims ix x : nd t = dims -> ~ in_range ix dims -> length ix <> 5%nat -> nt_geti true t ix = Throw /\ nt_seti true ix x t = Throw.
Proof.
  intros E N L5. assert (X : nt_refused t ix = Ok true).
  { unfold nt_refused. apply Nat.eqb_neq in L5. rewrite L5, E. destruct (length dims =? length ix)%nat eqn:EL; cbn [negb]; [|reflexivity].
    apply Nat.eqb_eq in EL. apply outside_out; auto. }
  unfold nt_geti, nt_seti. rewrite X. now split.
Qed.
Lemma five_refused t ix x : length (nd t) = 5%nat -> length ix = 5%nat -> nt_geti true t ix = Throw /\ nt_seti true ix x t = Throw.
Proof. intros E L. unfold nt_geti, nt_seti, nt_refused. rewrite E, L. now split. Qed.

(* too few indices: the missing ones count as 0 *)
Lemma dot_short s ix n : (length ix + n)%nat = length s -> dot s (ix ++ repeat 0 n) = dot s ix.
Proof.
  revert s. induction ix as [|i ix IH]; intros s L.
  - cbn [app]. rewrite dot_nil_r. clear L. revert s. induction n as [|n IHn]; intros [|a s]; cbn; try reflexivity. rewrite IHn. lia.
  - destruct s as [|a s]; [discriminate|]. cbn. rewrite IH; [reflexivity|]. cbn in L. lia.
Qed.
Lemma short_index t dims f ix n : has t dims f -> (length ix + n)%nat = length dims -> in_range (ix ++ repeat 0 n) dims -> nt_get t ix = Ok (f (ix ++ repeat 0 n)).
Proof.
  intros [S H] L I. rewrite <- (H _ I). pose proof S as (_ & _ & _ & E4 & _). unfold nt_get, nt_offs. rewrite app_length, repeat_length, E4, strides_of_length.
  replace (length ix <=? length dims)%nat with true by (symmetry; apply Nat.leb_le; lia). replace (length ix + n <=? length dims)%nat with true by (symmetry; apply Nat.leb_le; lia).
  cbn. rewrite dot_short; [reflexivity|]. now rewrite strides_of_length.
Qed.

(* a tensor made from a vector *)
Lemma repeat_zeros_prod n : prod (repeat 0 (S n)) = 0. Proof. cbn [repeat]. rewrite prod_cons. lia. Qed.
Lemma gdims_int_prod n : 1 <= n -> prod (gdims_int n) = 0.
Proof. intro. unfold gdims_int. destruct (Z.to_nat n) as [|k] eqn:E; [lia|]. apply repeat_zeros_prod. Qed.
Lemma zeros_nonneg n : nonneg (repeat 0 n). Proof. induction n; constructor; [lia|assumption]. Qed.
Lemma of_vector_checked v : v <> [] -> nt_of_vector true v = Throw.
Proof.
  intro N. unfold nt_of_vector. destruct v as [|x v]; [contradiction|]. set (n := Z.of_nat (length (x :: v))).
  assert (Hn : 1 <= n) by (subst n; cbn [length]; lia).
  assert (Gn : gdims_int n <> []) by (unfold gdims_int; destruct (Z.to_nat n) eqn:E; [lia|discriminate]).
  destruct (new_ok (gdims_int n) Gn ltac:(apply zeros_nonneg)) as (t & -> & S & _). cbn [bind]. unfold forZ.
  replace (zrange n) with (0 :: map Z.of_nat (seq 1 (Z.to_nat n - 1))).
  2:{ unfold zrange. destruct (Z.to_nat n) eqn:E; [lia|]. cbn [seq map]. do 2 f_equal. rewrite Nat.sub_succ, Nat.sub_0_r. reflexivity. }
  cbn [foldM]. unfold zget at 1. cbn. destruct S as (E & _). unfold nt_seti, nt_refused. rewrite E. cbn [length Nat.eqb bind].
  destruct (length (gdims_int n) =? 1)%nat eqn:EL; cbn [negb]; [|reflexivity]. apply Nat.eqb_eq in EL. unfold gdims_int in *. rewrite repeat_length in EL.
  rewrite EL. reflexivity.
Qed.
Lemma zeros_strides n : 2 <= Z.of_nat n -> exists s, strides_of 1 (repeat 0 n) = 0 :: s.
Proof. intro H. destruct n as [|[|n]]; try lia. cbn [repeat]. rewrite strides_of_cons, prod_cons. eexists. reflexivity. Qed.
Lemma of_vector_unchecked v : v <> [] -> exists t, nt_of_vector false v = Ok t /\ nd t = repeat 0 (length v) /\ forall ix, ~ in_range ix (nd t).
Proof.
  intro N. unfold nt_of_vector. set (n := Z.of_nat (length v)). assert (Hn : 1 <= n) by (subst n; destruct v; [contradiction|cbn [length]; lia]).
  assert (Gn : gdims_int n <> []) by (unfold gdims_int; destruct (Z.to_nat n) eqn:E; [lia|discriminate]).
  destruct (new_ok (gdims_int n) Gn ltac:(apply zeros_nonneg)) as (t & -> & S & _ & A). cbn [bind].
  assert (EG : gdims_int n = repeat 0 (length v)) by (unfold gdims_int; f_equal; lia).
  destruct S as (E1 & _ & _ & E4 & _). rewrite gdims_int_prod in A by assumption.
  destruct (forZ_inv (fun i t' => nd t' = repeat 0 (length v) /\ ns t' = strides_of 1 (gdims_int n) /\ blen (narr t') = 1) n (fun i t => do x <- zget v i; nt_seti false [i] x t) t) as (t' & E & D & _).
  - lia.
  - rewrite E1, EG, E4, EG, A, blen_narray. auto.
  - intros i s Hi (D1 & D2 & D3). assert (X : exists x, zget v i = Ok x).
    { unfold zget, vget. replace (i <? 0) with false by lia. destruct (nth_error v (Z.to_nat i)) eqn:X; [eauto|]. apply nth_error_None in X. lia. }
    destruct X as [x ->]. cbn [bind]. unfold nt_seti. cbn [bind length]. rewrite D2, strides_of_length. unfold gdims_int at 1. rewrite repeat_length.
    replace (1 <=? Z.to_nat n)%nat with true by (symmetry; apply Nat.leb_le; lia).
    assert (O : dot (strides_of 1 (gdims_int n)) [i] = 0).
    { destruct (Z.eq_dec n 1) as [E0|]; [rewrite E0; replace i with 0 by lia; reflexivity|]. unfold gdims_int. destruct (zeros_strides (Z.to_nat n)) as [s' ->]; [lia|]. cbn. now destruct s'. }
    rewrite O. destruct (bput_ok (narr s) 0 x) as (b & -> & L & _); [lia|]. cbn [bind]. eexists. split; [reflexivity|]. cbn. rewrite L. auto.
  - exists t'. split; [exact E|]. split; [exact D|]. intros ix I. rewrite D in I. destruct (length v) as [|k]; [lia|]. cbn in I. inversion I. lia.
Qed.

(* copies *)
Lemma copy_ok t dims f : has t dims f -> exists t', nt_copy t = Ok t' /\ has t' dims f /\ trim t'.
Proof.
  intros H. apply has_cells in H. destruct H as [S C]. unfold nt_copy. rewrite (size_ok _ _ S). cbn [bind]. pose proof S as (E1 & E2 & E3 & E4 & E5).
  pose proof (prod_nonneg dims E3). destruct (bcopy_ok (narr t) (prod dims) (narray (prod dims)) 0) as (b & -> & L & Cb); [lia|lia|rewrite blen_narray; lia|].
  cbn [bind]. rewrite blen_narray in L. eexists. split; [reflexivity|]. split; [|unfold trim; cbn; congruence]. apply has_cells. unfold sized. cbn. split; [repeat split; auto; lia|].
  intros ix I. pose proof (flat_range _ _ I). rewrite Cb. replace (0 <=? flat ix dims) with true by lia. replace (flat ix dims <? 0 + prod dims) with true by lia. cbn. rewrite Z.sub_0_r. now apply C.
Qed.
Lemma copy_dev_same t dims : sized t dims -> 0 < prod dims -> nt_copy_dev t = nt_copy t.
Proof. intros S P. unfold nt_copy_dev, nt_copy. rewrite (size_ok _ _ S). cbn [bind]. now replace (prod dims =? 0) with false by lia. Qed.
Lemma self_assign_lost t dims ix : sized t dims -> in_range ix dims -> exists t', nt_assign_self t = Ok t' /\ nd t' = dims /\ nt_get t' ix = UB.
Proof.
  intros S I. unfold nt_assign_self. rewrite (size_ok _ _ S). cbn [bind]. eexists. split; [reflexivity|]. destruct S as (E1 & _ & _ & E4 & _). split; [exact E1|].
  rewrite (get_flat _ dims) by (auto; now apply in_range_length). apply bget_none, cell_narray.
Qed.
Lemma gone_get d s m dims ix : s = strides_of 1 dims -> in_range ix dims -> nt_get (NTen d s m []) ix = UB.
Proof. intros -> I. rewrite (get_flat _ dims) by (auto; now apply in_range_length). cbn. apply bget_none. unfold cell. destruct (0 <=? _); [|reflexivity]. now destruct (Z.to_nat _). Qed.

(* conversions *)
Lemma transfer_ok n src dst : 0 <= n <= blen dst -> (forall k, 0 <= k < n -> exists v, cell src k = Some v) ->
  exists b, forZ n (fun i b => do v <- bget src i; bput b i v) dst = Ok b /\ blen b = blen dst /\ forall k, 0 <= k < n -> cell b k = cell src k.
Proof.
  intros Hn Hs. destruct (forZ_inv (fun i b => blen b = blen dst /\ forall k, 0 <= k < i -> cell b k = cell src k) n (fun i b => do v <- bget src i; bput b i v) dst) as (b & E & L & C).
  - lia.
  - split; [reflexivity|]. intros; lia.
  - intros i s Hi [L C]. destruct (Hs i Hi) as [v V]. rewrite (bget_cell _ _ _ V). cbn [bind]. destruct (bput_ok s i v) as (s' & E & L' & C'); [lia|].
    exists s'. split; [exact E|]. split; [congruence|]. intros k Hk. rewrite C'. destruct (k =? i) eqn:Ek; [replace k with i by lia; now rewrite V|apply C; lia].
  - exists b. auto.
Qed.
Lemma cells_set t dims f : has t dims f -> forall k, 0 <= k < prod dims -> exists v, cell (narr t) k = Some v.
Proof.
  intros H k Hk. apply has_cells in H. destruct H as [S C]. destruct S as (_ & _ & P & _). destruct (flat_onto dims k P Hk) as (ix & I & <-). eexists. now apply C.
Qed.
Lemma gtensor_ok t dims f : has t dims f -> exists g, nt_gtensor t = Ok g /\ gtd g = dims /\ blen (gta g) = prod dims /\ forall ix, in_range ix dims -> bget (gta g) (flat ix dims) = Ok (f ix).
Proof.
  intro H. pose proof (cells_set _ _ _ H) as CS. apply has_cells in H. destruct H as [S C]. unfold nt_gtensor. rewrite (size_ok _ _ S). cbn [bind]. destruct S as (E1 & E2 & E3 & E4 & E5).
  rewrite E1, asize_prod. pose proof (prod_nonneg dims E3). destruct (transfer_ok (prod dims) (narr t) (bnew (prod dims))) as (b & -> & L & Cb); [rewrite blen_new; lia|assumption|].
  cbn [bind]. eexists. split; [reflexivity|]. cbn. split; [reflexivity|]. rewrite L, blen_new by lia. split; [reflexivity|]. intros ix I. apply bget_cell. rewrite Cb by now apply flat_range. now apply C.
Qed.
Lemma of_gtensor_ok g f : gtd g <> [] -> nonneg (gtd g) -> (forall ix, in_range ix (gtd g) -> bget (gta g) (flat ix (gtd g)) = Ok (f ix)) ->
  exists t, nt_of_gtensor g = Ok t /\ has t (gtd g) f /\ trim t.
Proof.
  intros N P H. unfold nt_of_gtensor. destruct (new_ok _ N P) as (t & -> & S & M & A). cbn [bind]. rewrite (size_ok _ _ S). cbn [bind]. pose proof (prod_nonneg _ P).
  destruct (transfer_ok (prod (gtd g)) (gta g) (narr t)) as (b & -> & L & C).
  - rewrite A, blen_narray. lia.
  - intros k Hk. destruct (flat_onto _ _ P Hk) as (ix & I & <-). eexists. apply bget_ok. now apply H.
  - cbn [bind]. eexists. split; [reflexivity|]. destruct S as (E1 & E2 & E3 & E4 & E5). split; [|unfold trim; cbn; congruence]. apply has_cells. unfold sized. cbn. rewrite L. split; [repeat split; auto; lia|].
    intros ix I. rewrite C by now apply flat_range. apply bget_ok. now apply H.
Qed.
