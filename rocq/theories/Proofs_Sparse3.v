(* CSR matrices: transposition. *)
From Coq Require Import ZArith List Bool Lia Permutation.
Import ListNotations.
From Verif Require Import Base BaseFacts Map Model_BG Model_Containers Proofs_Containers Proofs_Containers2 Proofs_Containers4 Model_Sparse Spec_Sparse Proofs_Sparse Proofs_Sparse2.
Open Scope Z_scope.

Definition trow (l : list (Z * Z * Z)) (j : Z) : list (Z * Z) := map (fun c => (fst (fst c), snd c)) (filter (fun c => snd (fst c) =? j) l).
Definition trows (m : Z) (l : list (Z * Z * Z)) : list (list (Z * Z)) := map (trow l) (zrange m).
Lemma trows_len m l : 0 <= m -> zlen (trows m l) = m.
Proof. intro H. unfold zlen, trows. rewrite map_length, zrange_length. lia. Qed.
Lemma trows_row m l j : 0 <= j < m -> rowz (trows m l) j = trow l j.
Proof. intro H. unfold rowz. apply nth_error_nth. unfold trows. apply map_nth_error. now apply zrange_nth. Qed.
Lemma in_trow l j i v : In (i, v) (trow l j) <-> In (i, j, v) l.
Proof.
  unfold trow. rewrite in_map_iff. split.
  - intros ([[a b] w] & E & H). apply filter_In in H as [H Hb]. apply Z.eqb_eq in Hb. cbn in *. injection E as -> ->. now subst b.
  - intro H. exists (i, j, v). split; [reflexivity|]. apply filter_In. split; [exact H|]. apply Z.eqb_refl.
Qed.
Lemma trow_nodup l j : NoDup (map fst l) -> NoDup (map fst (trow l j)).
Proof.
  unfold trow. induction l as [|c l IH]; intro N; [constructor|]. cbn [map] in N. inversion N as [|? ? Nc Nl]; subst. cbn [filter]. destruct (Z.eqb_spec (snd (fst c)) j) as [E|E]; [|now apply IH].
  cbn [map fst]. constructor; [|now apply IH]. intro H. apply in_map_iff in H as ((i, v) & E1 & H). cbn in E1. fold (trow l j) in H. apply in_trow in H. apply Nc. apply in_map_iff. exists (i, j, v). split; [|exact H].
  destruct c as [[a b] w]. cbn in *. congruence.
Qed.
Lemma trow_snoc l c j : trow (l ++ [c]) j = trow l j ++ (if snd (fst c) =? j then [(fst (fst c), snd c)] else []).
Proof. unfold trow. rewrite filter_app, map_app. f_equal. cbn [filter]. now destruct (snd (fst c) =? j). Qed.
Lemma trow_prefix l l' j : zlen (trow l j) <= zlen (trow (l ++ l') j).
Proof. unfold trow. rewrite filter_app, map_app, zlen_app. match goal with |- _ <= _ + zlen ?x => pose proof (zlen_nonneg x) end. lia. Qed.
Lemma trows_elems m l : 0 <= m -> NoDup (map fst l) -> (forall c, In c l -> 0 <= snd (fst c) < m) -> Permutation (elems (trows m l)) (map swap3 l).
Proof.
  intros Hm N Hr. apply NoDup_Permutation.
  - eapply NoDup_map_inv. apply elems_nodup_rows. apply Forall_forall. intros r H. unfold trows in H. apply in_map_iff in H as (j & <- & _). now apply trow_nodup.
  - eapply NoDup_map_inv. now apply swap_nodup.
  - intros [[j i] v]. rewrite in_elems, trows_len by exact Hm. split.
    + intros [Hj H]. rewrite trows_row in H by exact Hj. apply in_trow in H. apply in_map_iff. now exists (i, j, v).
    + intro H. apply in_map_iff in H as ([[a b] w] & E & H). cbn in E. injection E as <- <- <-. pose proof (Hr _ H) as Hb. cbn in Hb. split; [exact Hb|]. rewrite trows_row by exact Hb. now apply in_trow.
Qed.

Section Transp.
Variables (m : Z) (l : list (Z * Z * Z)).
Hypothesis Hm : 0 <= m.
Hypothesis Hr : forall c, In c l -> 0 <= snd (fst c) < m.

Lemma count_ok : exists len, foldM (fun c len => cnt_inc m (snd (fst c)) len) l (fun _ => 0) = Ok len /\ forall j, 0 <= j < m -> len j = zlen (trow l j).
Proof.
  destruct (foldM_inv (fun done len => forall j, 0 <= j < m -> len j = zlen (trow done j)) (fun c len => cnt_inc m (snd (fst c)) len) l (fun _ => 0)) as (len & E & H).
  - reflexivity.
  - intros done c rest len El H. pose proof (Hr c ltac:(rewrite El; apply in_or_app; right; now left)) as Hc. unfold cnt_inc, cnt_get.
    replace ((0 <=? snd (fst c)) && (snd (fst c) <? m)) with true by (symmetry; rewrite andb_true_iff, Z.leb_le, Z.ltb_lt; lia). cbn [bind]. eexists. split; [reflexivity|].
    intros j Hj. rewrite trow_snoc, zlen_app. cbn. rewrite (Z.eqb_sym j). destruct (Z.eqb_spec (snd (fst c)) j) as [E|E]; [rewrite H, E by lia; reflexivity|]. rewrite H by exact Hj. unfold zlen at 3. cbn. lia.
  - exists len. now split.
Qed.
End Transp.

Lemma csr_transp_ok rc A rows : csr_rep A rows -> exists T, csr_transp rc A = Ok T /\ csr_rep T (trows (cm A) (elems rows)) /\ cn T = cm A /\ cm T = cn A.
Proof.
  intro H. pose proof (elems_nodup A rows H) as N. pose proof H as (En & Hm & Hp & Ht & Hf). unfold csr_transp. set (m := cm A) in *. set (l := elems rows) in *. set (TR := trows m l).
  assert (Hr : forall c, In c l -> 0 <= snd (fst c) < m). { intros [[i j] v] Hc. apply (elems_range A rows i j v H Hc). }
  assert (Hri : forall i j v, In (i, j, v) l -> 0 <= i < cn A). { intros i j v Hc. rewrite En. apply (elems_range A rows i j v H Hc). }
  destruct (ap_reserve_ok (atail (cpool A)) (ap_new_n m)) as (T0 & E0 & D0 & _ & L0 & _ & _). rewrite E0. cbn [bind]. rewrite (csr_calls_ok rc A rows H). fold l. cbn [bind].
  destruct (count_ok m l Hr) as (len & El & Hl). rewrite El. cbn [bind]. clear El.
  assert (Ltr : zlen TR = m) by now apply trows_len. assert (Tot : cnt_upto TR m = zlen l).
  { rewrite <- Ltr. unfold cnt_upto. rewrite <- concat_elems_zlen. unfold zlen. f_equal. erewrite Permutation_length by (apply trows_elems; assumption). now rewrite map_length. }
  (* the row table *)
  match goal with |- context [forZ m ?f ?s] => destruct (forZ_inv (fun i Q => tab (adir Q) 2 m /\ atail Q = 2 * cnt_upto TR i /\ amem Q = amem T0 /\
     forall a, 0 <= a < i -> cell (ibuf (adir Q)) (a * 2) = Some (2 * cnt_upto TR a) /\ cell (ibuf (adir Q)) (a * 2 + 1) = Some (2 * zlen (trow l a))) m f s) as (T & ET & TT & AT & MT & HT) end.
  - exact Hm.
  - cbn [adir atail amem]. rewrite D0. split; [apply tab_new; lia|]. split; [reflexivity|]. split; [reflexivity|]. intros a Ha; lia.
  - intros i Q Hi (TQ & AQ & MQ & HQ). destruct (it_set_ok (adir Q) 2 m i 0 (atail Q) TQ) as (d1 & E1 & T1 & L1 & C1); [lia|lia|]. rewrite E1. cbn [bind].
    unfold cnt_get. replace ((0 <=? i) && (i <? m)) with true by (symmetry; rewrite andb_true_iff, Z.leb_le, Z.ltb_lt; lia). cbn [bind].
    destruct (it_set_ok d1 2 m i 1 (2 * len i) T1) as (d2 & E2 & T2 & L2 & C2); [lia|lia|]. rewrite E2. cbn [bind]. eexists. split; [reflexivity|]. cbn [adir atail amem].
    split; [exact T2|]. rewrite Hl by lia. split; [rewrite cnt_upto_succ, AQ by lia; unfold TR; rewrite trows_row by lia; lia|]. split; [exact MQ|].
    intros a Ha. rewrite !C2, !C1, !Z.add_0_r. destruct (Z.eq_dec a i) as [-> | Na].
    + destruct (Z.eqb_spec (i * 2) (i * 2 + 1)); [lia|]. rewrite !Z.eqb_refl, AQ, Hl by lia. now split.
    + destruct (Z.eqb_spec (a * 2) (i * 2 + 1)); [lia|]. destruct (Z.eqb_spec (a * 2) (i * 2)); [lia|].
      destruct (Z.eqb_spec (a * 2 + 1) (i * 2 + 1)); [lia|]. destruct (Z.eqb_spec (a * 2 + 1) (i * 2)); [lia|]. apply HQ. lia.
  - rewrite ET. cbn [bind]. clear ET.
    assert (Srow : ap_size T = m) by (unfold ap_size; destruct TT as (_ & _ & E & _); exact E).
    match goal with |- context [foldM ?f l ?s] => destruct (foldM_inv (fun done st => blen (fst st) = blen (amem T) /\ (forall j, 0 <= j < m -> snd st j = zlen (trow done j)) /\
      forall j, 0 <= j < m -> cells (fst st) (2 * cnt_upto TR j) (flat2 (trow done j))) f l s) as ((b & ln) & Eb & Lb & _ & Cb) end.
    + cbn [fst snd]. split; [reflexivity|]. split; [reflexivity|]. intros j _. apply cells_nil.
    + intros done [[i j] v] rest (b & ln) Ell (Lb & Hln & Cb). cbn [fst snd] in *. assert (Hj : 0 <= j < m) by (apply (Hr (i, j, v)); rewrite Ell; apply in_or_app; right; now left).
      rewrite Srow. unfold assrt. replace (j <? m) with true by (symmetry; apply Z.ltb_lt; lia).
      rewrite (it_get_ok (adir T) 2 m j 0 (2 * cnt_upto TR j) TT) by (rewrite Z.add_0_r; apply HT; lia). cbn [bind].
      unfold cnt_inc, cnt_get. replace ((0 <=? j) && (j <? m)) with true by (symmetry; rewrite andb_true_iff, Z.leb_le, Z.ltb_lt; lia). cbn [bind]. rewrite !Hln by lia.
      assert (Cj : zlen (trow (done ++ [(i, j, v)]) j) = zlen (trow done j) + 1). { rewrite trow_snoc. cbn. rewrite Z.eqb_refl, zlen_app. reflexivity. }
      assert (Pre : forall a, zlen (trow done a) <= zlen (trow l a)). { intro a. rewrite Ell. apply trow_prefix. }
      assert (Pj : zlen (trow done j) + 1 <= zlen (trow l j)). { rewrite <- Cj, Ell. replace (done ++ (i, j, v) :: rest) with ((done ++ [(i, j, v)]) ++ rest) by now rewrite <- app_assoc. apply trow_prefix. }
      assert (Step : forall a, 0 <= a < m -> cnt_upto TR (a + 1) = cnt_upto TR a + zlen (trow l a)). { intros a Ha. rewrite cnt_upto_succ by lia. unfold TR. now rewrite trows_row by lia. }
      destruct (put_pair b (2 * cnt_upto TR j) (trow done j) i v) as (b1 & b2 & Eb1 & Eb2 & Lb2 & Cb2 & Fb2).
      * pose proof (cnt_upto_nonneg TR j). lia.
      * pose proof (cnt_upto_mono TR (j + 1) m ltac:(lia)). rewrite Step in * by lia. rewrite Lb, MT. lia.
      * apply Cb. lia.
      * rewrite Eb1. cbn [bind]. rewrite Eb2. cbn [bind]. eexists. split; [reflexivity|]. cbn [fst snd]. split; [congruence|]. split.
        -- intros a Ha. rewrite (Z.eqb_sym a). destruct (Z.eqb_spec j a) as [<- |E]; [lia|]. rewrite trow_snoc. cbn. destruct (Z.eqb_spec j a); [contradiction|]. rewrite app_nil_r. now apply Hln.
        -- intros a Ha. rewrite trow_snoc. cbn [fst snd]. destruct (Z.eqb_spec j a) as [<- |E]; [exact Cb2|]. rewrite app_nil_r. apply (cells_ext b); [now apply Cb|].
           rewrite zlen_flat2. intros k Hk. apply Fb2. pose proof (Pre a). pose proof (zlen_nonneg (trow done j)). destruct (Z_lt_le_dec a j) as [L|L].
           ++ pose proof (cnt_upto_mono TR (a + 1) j ltac:(lia)). rewrite Step in * by lia. lia.
           ++ pose proof (cnt_upto_mono TR (j + 1) a ltac:(lia)). rewrite Step in * by lia. lia.
    + rewrite Eb. cbn [bind fst snd] in *. eexists. split; [reflexivity|]. split; [|now split]. unfold csr_rep. cbn [cn cm cpool]. fold TR. rewrite Ltr. split; [reflexivity|].
      split; [rewrite En; apply zlen_nonneg|]. split.
      * split; [unfold zlen; rewrite map_length; fold (zlen TR); rewrite Ltr; exact TT|]. cbn [atail amem]. split; [rewrite AT, Tot, Lb, MT; pose proof (zlen_nonneg l); lia|].
        unfold zlen at 1. rewrite map_length. fold (zlen TR). rewrite Ltr. intros j Hj. rewrite rowz_nth by lia. unfold TR at 1. rewrite trows_row by lia. apply holds_cells. cbn [adir atail amem].
        exists (2 * cnt_upto TR j). rewrite zlen_flat2. destruct (HT j) as [H1 H2]; [lia|]. split; [exact H1|]. split; [exact H2|]. pose proof (cnt_upto_nonneg TR j). split; [lia|].
        split; [|apply Cb; lia]. rewrite AT. pose proof (cnt_upto_mono TR (j + 1) m ltac:(lia)) as Hmo. rewrite cnt_upto_succ in Hmo by lia. unfold TR at 2 in Hmo. rewrite trows_row in Hmo by lia. lia.
      * split; [cbn [atail]; rewrite AT, concat_elems_zlen, Ltr; unfold cnt_upto; lia|]. unfold TR, trows. apply Forall_forall. intros r Hrr. apply in_map_iff in Hrr as (j & <- & _). split; [now apply trow_nodup|].
        apply Forall_forall. intros (i, v) Hi. apply in_trow in Hi. cbn. eapply Hri. exact Hi.
Qed.

(* twice transposed: the rows come back, sorted by column *)
Lemma trow_trows m l i : 0 <= m -> (forall c, In c l -> 0 <= snd (fst c) < m) ->
  trow (elems (trows m l)) i = concat (map (fun j => map (fun c => (j, snd c)) (filter (fun c => (fst (fst c) =? i) && (snd (fst c) =? j)) l)) (zrange m)).
Proof.
  intros Hm Hr. unfold elems. rewrite trows_len by exact Hm. unfold trow at 1.
  assert (G : forall L, (forall j, In j L -> 0 <= j < m) -> map (fun c : Z * Z * Z => (fst (fst c), snd c)) (filter (fun c => snd (fst c) =? i) (concat (map (fun j => row_elems j (rowz (trows m l) j)) L))) =
     concat (map (fun j => map (fun c => (j, snd c)) (filter (fun c => (fst (fst c) =? i) && (snd (fst c) =? j)) l)) L)).
  { induction L as [|j L IH]; intro HL; [reflexivity|]. cbn [map concat]. rewrite filter_app, map_app, IH by (intros; apply HL; now right). f_equal.
    rewrite trows_row by (apply HL; now left). unfold row_elems, trow. rewrite map_map. clear. induction l as [|c l IH]; [reflexivity|]. cbn [filter map]. destruct (Z.eqb_spec (snd (fst c)) j) as [E|E].
    - cbn [map filter fst snd]. destruct (fst (fst c) =? i); cbn [andb]; [cbn [map fst snd]; f_equal; exact IH|exact IH].
    - rewrite andb_false_r. exact IH. }
  apply G. intros j Hj. now apply in_zrange in Hj.
Qed.
Lemma drows_twice n m x : 0 <= n -> 0 <= m -> trows n (elems (trows m (elems (drows n m x)))) = drows n m x.
Proof.
  intros Hn Hm. destruct (csr_of_dense_ok n m x Hn Hm) as (A & _ & H & EA). unfold trows at 1, drows at 2. apply map_ext_in. intros i Hi. apply in_zrange in Hi.
  set (l := elems (drows n m x)). assert (Hr : forall c, In c l -> 0 <= snd (fst c) < m). { intros [[a b] v] Hc. rewrite <- EA. apply (elems_range _ _ a b v H Hc). }
  rewrite trow_trows by assumption. unfold nzrow. pose proof (elems_nodup _ _ H) as N. fold l in N.
  assert (F : forall j, 0 <= j < m -> map (fun c => (j, snd c)) (filter (fun c => (fst (fst c) =? i) && (snd (fst c) =? j)) l) = if x i j =? 0 then [] else [(j, x i j)]).
  { intros j Hj. pose proof (drows_elems n m x i j Hn Hi Hj) as He. fold l in He. fold (keyb i j). clear - N He Hi Hj Hn.
    assert (Hin : forall v, In (i, j, v) l -> v <> 0). { intros v Hv. unfold l in Hv. apply in_elems in Hv as [_ Hv]. rewrite drows_row in Hv by exact Hi. unfold nzrow in Hv. apply in_map_iff in Hv as (a & [= -> <-] & Ha). apply filter_In in Ha as [_ Ha]. intro E. rewrite E in Ha. discriminate. }
    clearbody l. induction l as [|c l IH].
    - cbn in *. unfold entry_of in He. cbn in He. now rewrite <- He.
    - inversion N as [|? ? Nc Nl]; subst. cbn [filter]. unfold entry_of in He. cbn [find] in He. fold (keyb i j) in He. destruct (keyb i j c) eqn:E.
      + unfold keyb in E. rewrite E in He. fold (keyb i j c) in E. apply keyb_true in E. replace (filter (keyb i j) l) with (@nil (Z * Z * Z)).
        * cbn [map]. destruct c as [ij v]. cbn in E, He. subst ij. destruct (Z.eqb_spec (x i j) 0) as [Ez|Ez]; [|now rewrite He]. exfalso. apply (Hin v); [now left|congruence].
        * symmetry. destruct (filter (keyb i j) l) as [|d r] eqn:Ef; [reflexivity|]. exfalso. assert (Hd : In d (filter (keyb i j) l)) by (rewrite Ef; now left). apply filter_In in Hd as [Hd Hk]. apply keyb_true in Hk. apply Nc. rewrite E, <- Hk. now apply in_map.
      + unfold keyb in E. rewrite E in He. apply IH; [exact Nl|exact He|]. intros v Hv. apply Hin. now right. }
  assert (G : forall L, (forall j, In j L -> 0 <= j < m) -> concat (map (fun j => map (fun c => (j, snd c)) (filter (fun c => (fst (fst c) =? i) && (snd (fst c) =? j)) l)) L) = map (fun j => (j, x i j)) (filter (fun j => negb (x i j =? 0)) L)).
  { induction L as [|j L IH]; intro HL; [reflexivity|]. cbn [map concat filter]. rewrite F by (apply HL; now left). rewrite IH by (intros; apply HL; now right). now destruct (x i j =? 0). }
  apply G. intros j Hj. now apply in_zrange in Hj.
Qed.
